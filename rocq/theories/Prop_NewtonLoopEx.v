(** Concrete cases for C108. *)
From Coq Require Import Reals Lra Lia.
From Verif Require Import Model_Element Spec_Element Proof_Element Proof_ElementQuad4 Proof_ElementMath Base Spec Sums Spec_Vector Spec_Matrix Spec_MatrixOps Spec_Tyings Model_Numbering Model_Vector Proof_Vector Model_VectorPartitioned Model_Sparse Model_Tyings
  Model_Matrix Model_MatrixPartitioned Proof_MatrixPartitioned Model_MatrixTyings Spec_MatrixTyings Model_MeshGeometry Model_Regular2d Proof_Regular2d Model_Pipeline Spec_Pipeline Spec_Patch Proof_PipelineElem Proof_Pipeline Proof_PipelineBalance
  Proof_PipelineEx Prop_Pipeline Proof_PatchRegular Prop_Patch Prop_PatchEx Model_PeriodicProgram Spec_Periodic Prop_Periodic Spec_Macro Prop_Macro Spec_Spd Model_Ldlt Proof_Ldlt Prop_Spd Proof_Spd Proof_Linked Prop_SpdEx Prop_PeriodicMesh
  Spec_Deform Proof_Deform Model_FiniteStrain Spec_FiniteStrain Proof_FiniteStrain Prop_FiniteStrain Prop_FiniteStrainEx Model_NewtonLoop Spec_NewtonLoop Proof_NewtonLoop Proof_NewtonLinear Prop_NewtonLoop.

Lemma ldlt_sized n : sized ldlt n.
Proof. intros a b Hr _ _. unfold ldlt. rewrite <- Hr. apply ldlt_length. Qed.

(** a linear material: its state is the strain *)
Definition linear_material : Material := mkMaterial arr (fun m => m) (fun _ A => A) (ddot42 3 Isym) (fun _ => Isym).
Definition g_lm (m : Regular) : loop_memory := mkLM (fun _ _ => g_mem m) (fun _ _ _ => g_order m) (fun _ _ => seq 0 (nelem m)) (fun _ _ => junk).
Lemma g_lm_ok m : memory_ok (nelem m) (nnode m + 2) 2 (g_lm m).
Proof.
  intros inc iiter. assert (V : valid_call (nelem m) (g_c m)) by apply Permutation_refl. split; [repeat (split; [exact V|]); apply Permutation_refl|]. split; [intros k; apply Permutation_refl|apply Permutation_refl].
Qed.

(** C108_small and C108_linear: any regular mesh, any list of increments, with the LDL^T solver: the program ends, and the control node is displaced by the sum of the increments *)
Example C108_ex : forall m, 1 <= nelx m -> 1 <= nely m -> (0 < hh m)%R ->
  let zero := repeat [0; 0]%R (nnode m + 2) in
  let E := Planar_elem (g_P m) in
  let G := small_strain E in
  forall tol dgammas, (0 < tol)%R ->
  exists ps st', periodic_setup (coor m) (nnode m) 2 (dofs (nnode m) 2) (conn m) 4 (nodesPeriodic m) [nodesBottomLeftCorner m] = Ok ps /\
    increments linear_material G ldlt (ps_vector ps) (ps_control_nodes ps) (g_lm m) zero 0 tol dgammas (mkLS linear_material G zero tt junk zero (ps_K ps) new_Solver) = Ok (Some st') /\
    val2 (ls_disp _ _ st') (nnode m) 1 = sumL dgammas (fun d => d) /\ val2 (ls_disp _ _ st') (nnode m) 0 = 0%R.
Proof.
  intros m Hx Hy Hh zero E G tol dgammas Ht.
  destruct (C88_quad4 m Hx Hy Hh) as [o [Eo [HCell Hcn]]]. unfold Model_Aliases.origin2, Model_Aliases.quad_corner in Eo.
  assert (o = nodesBottomLeftCorner m) as -> by (cbn in Eo; now injection Eo).
  assert (Lo : nodesBottomLeftCorner m < nnode m) by (unfold nodesBottomLeftCorner, nnode; nia).
  destruct (C88_setup (coor m) (dofs (nnode m) 2) (nodesPeriodic m) [nodesBottomLeftCorner m] (nnode m) 2 (conn m) 4 HCell) as [ps [Eps _]].
  destruct (C106_start _ _ _ _ _ _ _ HCell Hcn ps Eps) as [_ [_ [_ [_ Hd0]]]]. fold zero in Hd0.
  destruct (g_P_full m Hh) as [HF HV]. fold E in HF, HV.
  assert (HE : elem_obj (nelem m) (g_x m) E) by (econstructor; apply g_P_obj).
  assert (HN : no_periodic_mechanism (coor m) (nodesPeriodic m) [nodesBottomLeftCorner m] (nnode m) (nelem m) (conn m) E Isym).
  { apply (C90_periodic_stable _ _ _ _ _ _ (g_x m) E Isym HF (g_on m) (Isym_elasticP _ _) (regular_linked m Hh) (regular_covered m Hx Hy)).
    - exists (nodesBottomLeftCorner m). split; [now left|exact Lo].
    - exists (nodesBottomLeftCorner m), (nodesBottomRightCorner m), 0. split; [now left|]. split; [exact Lo|]. split; [unfold nodesBottomRightCorner, nnode; nia|]. split; [lia|].
      unfold nodesBottomLeftCorner, nodesBottomRightCorner, val2, nth2. erewrite (nth_error_nth (coor m)) by exact (coor_at m 0 0 ltac:(lia) ltac:(lia)).
      erewrite (nth_error_nth (coor m) (nelx m)) by exact (coor_at m (nelx m) 0 ltac:(lia) ltac:(lia)). cbn [nth INR]. intros Z.
      assert (0 < hh m * INR (nelx m))%R by (apply Rmult_lt_0_compat; [exact Hh|apply lt_0_INR; lia]). lra. }
  assert (V : valid_call (nelem m) (g_c m)) by apply Permutation_refl.
  assert (Z : forall k i, val2 zero k i = 0%R).
  { intros k i. unfold val2, nth2, zero. destruct (le_lt_dec (nnode m + 2) k) as [L|L].
    - rewrite (nth_overflow (repeat _ _)) by (rewrite repeat_length; lia). now destruct i.
    - rewrite nth_indep with (d' := [0; 0]%R) by (rewrite repeat_length; lia). rewrite nth_repeat. destruct i as [|[|[|i]]]; reflexivity. }
  assert (Sz : shape2 zero (nnode m + 2) 2) by exact (proj1 Hd0).
  destruct (C108_linear (coor m) (dofs (nnode m) 2) (nodesPeriodic m) [nodesBottomLeftCorner m] (nnode m) (nelem m) (conn m) (g_x m) E HE HCell Hcn ps Eps ldlt [] (ps_K ps) new_Solver (Forall_nil _) eq_refl (ldlt_sized _)
    linear_material Isym (g_lm m) zero zero junk zero tol dgammas (g_lm_ok m) Sz Hd0 Ht) as [st' [Es _]].
  - apply Isym_minor.
  - intros mm A e q i j He Hq Hi Hj. reflexivity.
  - reflexivity.
  - intros inc iiter. apply spd_solver_matrix; [exact C90_ldlt|]. cbn [g_lm lm_mem g_mem r_K].
    destruct (Proof_PeriodicNodes.ps_facts _ _ _ _ _ _ HCell (conn m) 4 ps Eps) as [_ [_ [_ [_ [_ [_ [Ev _]]]]]]]. rewrite Ev.
    apply (C90_periodic_spd (coor m) (dofs (nnode m) 2) (nodesPeriodic m) [nodesBottomLeftCorner m] (nnode m) (nelem m) (conn m) (g_x m) E HE HCell Hcn ps Eps); try assumption.
    + apply Isym_major.
    + apply elastic_positive, Isym_elasticP.
  - exists ps, st'. split; [exact Eps|]. split; [exact Es|].
    destruct (C108_small (coor m) (dofs (nnode m) 2) (nodesPeriodic m) [nodesBottomLeftCorner m] (nnode m) (nelem m) (conn m) (g_x m) E HE HCell Hcn ps Eps ldlt [] (ps_K ps) new_Solver (Forall_nil _) eq_refl (ldlt_sized _)
      linear_material (g_lm m) zero zero junk zero tol dgammas (g_lm_ok m) Sz Hd0) as [r [Er Hr]].
    cbv zeta in Er. rewrite firstn_all in Er. fold G in Er. pose proof (eq_trans (eq_sym Er) Es) as Q. injection Q as Q. destruct (Hr st' Q) as [Hv _].
    assert (Pn : prescribed_node [nodesBottomLeftCorner m] (nnode m) (nnode m)) by (right; lia). cbn [el_ndim E Planar_elem] in Hv.
    split; (eapply eq_trans; [apply Hv; [lia|cbn; lia|exact Pn]|]); rewrite Z; unfold control_update; rewrite Nat.eqb_refl; cbn [Nat.eqb andb]; lra.
Qed.

(** without unknown DOFs the residual is zero, whatever the material does *)
Lemma all_prescribed coor dofs ties fixed nnode ndim nelem nne conn (HC : cell coor dofs ties fixed nnode ndim) (Hc : connects conn nelem nne nnode) (Hdim : 1 < ndim)
  ps (Eps : periodic_setup coor nnode ndim dofs conn nne ties fixed = Ok ps) (M : Material) (G : Geometry) linsolve lm (fext : list (list R)) (Hs : sized linsolve (tp_nnu (ps_t ps))) (Hlm : memory_ok nelem (nnode + ndim) ndim lm) (Sx : shape2 fext (nnode + ndim) ndim)
  (Inv : Geo G -> list (list R) -> Prop) (HinvE : forall g d, Inv g d -> exists x, elem_obj nelem x (geo_elem G g) /\ el_nne (geo_elem G g) = nne /\ el_ndim (geo_elem G g) = ndim)
  (HinvM : forall es junk g d d', schedule nelem es -> Inv g d -> shape2 d' (nnode + ndim) ndim -> exists g', geo_move G es junk d' g = Ok g' /\ Inv g' d') tol :
  tp_nnu (ps_t ps) = 0 -> (0 < tol)%R -> forall dgammas inc st, good coor ties nnode ndim nne conn ps M G Inv st ->
  exists st', increments M G linsolve (ps_vector ps) (ps_control_nodes ps) lm fext inc tol dgammas st = Ok (Some st').
Proof.
  intros Nu Ht. induction dgammas as [|dg dgammas IH]; intros inc st Hg; [now eexists|]. cbn [increments].
  set (st0 := mkLS _ _ _ _ _ _ _ _). assert (Hg0 : good coor ties nnode ndim nne conn ps M G Inv st0) by exact Hg.
  cut (exists st1, iterations M G linsolve (ps_vector ps) (ps_control_nodes ps) lm fext 100 inc 0 tol dg st0 = Ok (Some st1)).
  { intros [st1 E1]. destruct (iterations_ok coor dofs ties fixed nnode ndim nelem nne conn HC Hc Hdim ps Eps M G linsolve lm fext Hs Hlm Sx Inv HinvE HinvM tol dg inc 100 0 st0 ltac:(lia) ltac:(lia) Hg0) as [r [Er Hr]].
    rewrite E1 in Er. injection Er as <-. rewrite E1. cbn [bind]. apply IH. exact (proj1 (Hr st1 eq_refl)). }
  destruct (Hlm inc 0) as [Hmem [_ Hes]]. destruct (Hlm inc 1) as [Hmem1 [Hos1 _]].
  destruct (evaluate_ok coor dofs ties fixed nnode ndim nelem nne conn HC Hc Hdim ps Eps M G linsolve lm fext Hs Hlm Sx Inv HinvE HinvM _ st0 Hmem Hg0) as [m [fint [K [EV1 [_ [Sf [A [HK Ch]]]]]]]].
  set (st1 := mkLS _ _ (ls_disp _ _ st0) _ _ _ _ _) in EV1.
  assert (Hg1 : good coor ties nnode ndim nne conn ps M G Inv st1) by (destruct Hg as [Q1 [Q2 _]]; split; [exact Q1|]; split; [exact Q2|exists A; split; [exact HK|right; left; exact Ch]]).
  destruct (advance_ok coor dofs ties fixed nnode ndim nelem nne conn HC Hc Hdim ps Eps M G linsolve lm fext Hs Hlm Sx Inv HinvE HinvM _ _ (lm_junk lm inc 0) 0 dg st1 A Hmem Hes Hg1 Sf HK Ch) as [st2 [EA [Hg2 [_ _]]]].
  destruct (evaluate_ok coor dofs ties fixed nnode ndim nelem nne conn HC Hc Hdim ps Eps M G linsolve lm fext Hs Hlm Sx Inv HinvE HinvM _ st2 Hmem1 Hg2) as [m2 [fint2 [K2 [EV2 [_ [Sf2 _]]]]]].
  exists (mkLS _ _ (ls_disp _ _ st2) (ls_geo _ _ st2) m2 fint2 K2 (ls_solver _ _ st2)).
  change (iterations M G linsolve (ps_vector ps) (ps_control_nodes ps) lm fext (S (S 98)) inc 0 tol dg st0 = Ok (Some (mkLS _ _ (ls_disp _ _ st2) (ls_geo _ _ st2) m2 fint2 K2 (ls_solver _ _ st2)))).
  generalize 98. intros k. cbn [iterations]. rewrite EV1. cbn [bind check Nat.ltb Nat.leb]. rewrite EA. cbn [bind]. rewrite EV2. cbn [bind]. unfold check. cbn [Nat.ltb Nat.leb ls_fint].
  destruct Hg2 as [_ [Q2 _]]. destruct (HinvE _ _ Q2) as [x [HE [E1 E2]]].
  pose proof (C88_forces coor dofs ties fixed nnode nelem conn x _ HE) as HF. cbv zeta in HF. rewrite E1, E2 in HF. destruct (HF HC Hc ps Eps (lm_os lm inc 1) fext fint2 Hos1 Sx Sf2) as [Fx [Fi [EF [LX [LI [HP _]]]]]].
  rewrite EF. cbn [bind fst snd].
  assert (Z : residual Fx Fi = 0%R).
  { unfold residual. rewrite (diff_abs Fx Fi) by lia. rewrite (sumn_zero (length Fx)) by (intros d Hd; rewrite HP, Rminus_diag_eq by (reflexivity || lia); apply Rabs_R0). destruct (Req_EM_T _ _); [reflexivity|]. unfold Rdiv. ring. }
  rewrite Z. destruct (Rlt_dec 0 tol); [reflexivity|lra].
Qed.

(** C108_finite: one element, any material and any list of increments: the program ends, and the displacement is that of the control nodes *)
Example C108_ex_finite : forall h, (0 < h)%R -> let m := mkRegular 1 1 h in
  let zero := repeat [0; 0]%R 6 in
  forall M m0 tol dgammas, (0 < tol)%R -> exists ps st', periodic_setup (coor m) 4 2 (dofs 4 2) (conn m) 4 (nodesPeriodic m) [0] = Ok ps /\
    let G := finite_strain (vt_v (ps_vector ps)) (ps_coor ps) (Planar_elem (g_P m)) in
    increments M G ldlt (ps_vector ps) (ps_control_nodes ps) (g_lm m) zero 0 tol dgammas (mkLS M G zero (g_P m) m0 zero (ps_K ps) new_Solver) = Ok (Some st') /\
    val2 (ls_disp _ _ st') 4 1 = sumL dgammas (fun d => d).
Proof.
  intros h Hh m zero M m0 tol dgammas Ht.
  destruct (C88_quad4 m ltac:(cbn; lia) ltac:(cbn; lia) Hh) as [o [Eo [HCell Hcn]]]. cbn in Eo. assert (o = 0) as -> by now injection Eo.
  change (nnode m) with 4 in *. change (nelem m) with 1 in *.
  destruct (C88_setup (coor m) (dofs 4 2) (nodesPeriodic m) [0] 4 2 (conn m) 4 HCell) as [ps [Eps _]].
  assert (Nu : match periodic_setup (coor m) 4 2 (dofs 4 2) (conn m) 4 (nodesPeriodic m) [0] with Ok ps => tp_nnu (ps_t ps) = 0 | _ => False end) by (vm_compute; reflexivity).
  rewrite Eps in Nu. exists ps.
  destruct (C106_start _ _ _ _ _ _ _ HCell Hcn ps Eps) as [xe [_ [_ [_ Hd0]]]]. change (repeat [0; 0]%R (4 + 2)) with zero in Hd0.
  assert (Z : forall k i, val2 zero k i = 0%R).
  { intros k i. unfold val2, nth2, zero. destruct (le_lt_dec 6 k) as [L|L].
    - rewrite (nth_overflow (repeat _ _)) by (rewrite repeat_length; lia). now destruct i.
    - rewrite nth_indep with (d' := [0; 0]%R) by (rewrite repeat_length; lia). rewrite nth_repeat. destruct i as [|[|[|i]]]; reflexivity. }
  assert (Sz : shape2 zero 6 2) by exact (proj1 Hd0).
  pose proof (g_P_obj m) as H0. change (nelem m) with 1 in H0.
  assert (HX : current (conn m) 1 4 2 (coor m) zero (g_x m)) by (intros e k i He Hk Hi; rewrite Z; cbn [g_x]; ring).
  pose proof (g_lm_ok m) as Hlm. change (nnode m) with 4 in Hlm. change (nelem m) with 1 in Hlm.
  destruct (C108_finite (coor m) (dofs 4 2) (nodesPeriodic m) [0] 4 1 (conn m) HCell Hcn ps Eps 4 _ _ 1%R (Planar_elem (g_P m)) (g_x m) (g_P m) H0 ldlt [] (ps_K ps) new_Solver (Forall_nil _) eq_refl (ldlt_sized _)
    M (g_lm m) zero zero m0 zero tol dgammas Hlm Sz Hd0 HX) as [r [Er Hr]]. cbv zeta in Er. rewrite firstn_all in Er.
  set (G := finite_strain (vt_v (ps_vector ps)) (ps_coor ps) (Planar_elem (g_P m))) in *.
  destruct (Proof_PeriodicNodes.ps_facts _ _ _ _ _ _ HCell (conn m) 4 ps Eps) as [Et [ECu [ECp [ECi [_ [_ [Ev EKn]]]]]]].
  pose proof (mesh_n (coor m) (dofs 4 2) (nodesPeriodic m) [0] 4 2 1 4 (conn m) HCell Hcn ltac:(lia) ps Eps) as HM. pose proof (no_holes_n (coor m) (dofs 4 2) (nodesPeriodic m) [0] 4 2 4 (conn m) HCell ps Eps) as HH.
  pose proof (sizes_n (coor m) (dofs 4 2) (nodesPeriodic m) [0] 4 2 4 (conn m) HCell ps Eps) as SZ.
  assert (EK : foldM (run_top ldlt) [] (new_MatrixTyings (mkVector (conn m) 4 (tp_dofs (ps_t ps)) 2) (vt_Cdu (ps_vector ps)) (vt_Cdp (ps_vector ps)), new_Solver) = Ok (ps_K ps, new_Solver)) by (rewrite EKn; reflexivity).
  destruct (Proof_MatrixTyings.run_history (mkVector (conn m) 4 (tp_dofs (ps_t ps)) 2) 1 4 6 2 _ eq_refl eq_refl HM HH _ _ _ _ _ SZ eq_refl ldlt [] (ps_K ps) new_Solver (Forall_nil _) EK) as [Ha Hf].
  set (Inv := fun (g : Geo G) (d : list (list R)) => exists x, current (conn m) 1 4 2 (coor m) d x /\ Planar_obj 1 4 (Gauss4_xi junk) (Gauss4_w junk) 1%R x g).
  destruct (all_prescribed (coor m) (dofs 4 2) (nodesPeriodic m) [0] 4 2 1 4 (conn m) HCell Hcn ltac:(lia) ps Eps M G ldlt (g_lm m) zero (ldlt_sized _) Hlm Sz Inv) with (tol := tol) (dgammas := dgammas) (inc := 0) (st := mkLS M G zero (g_P m) m0 zero (ps_K ps) new_Solver) as [st' Es]; try assumption.
  - intros g d [y [_ Hy]]. exists y. split; [econstructor; exact Hy|]. split; reflexivity.
  - intros es jk g d d' Hes [y [_ Hy]] Sd. pose proof (coor_shape (coor m) (dofs 4 2) (nodesPeriodic m) [0] 4 1 (conn m) HCell Hcn ps Eps 4 _ _ 1%R (g_P m) (g_x m) H0 ldlt) as SC.
    assert (Sd1 : shape2 (add2 (ps_coor ps) d') 6 2) by (apply zip2_shape; [exact SC|exact Sd]).
    destruct (AsElement_nodevec_spec (mkVector (conn m) 4 (tp_dofs (ps_t ps)) 2) 1 4 6 2 _ eq_refl eq_refl HM _ Sd1) as [x1 [Ex _]]. cbn [geo_move G finite_strain]. rewrite Ev, Ex. cbn [bind]. eexists. split; [reflexivity|].
    exists (of_rows x1). split; [exact (moved (coor m) (dofs 4 2) (nodesPeriodic m) [0] 4 1 (conn m) HCell Hcn ps Eps 4 _ _ 1%R (g_P m) (g_x m) H0 ldlt d' x1 Sd Ex)|]. eapply Planar_obj_update; [exact Hes|exact Hy].
  - split; [exact Hd0|]. split; [exists (g_x m); split; assumption|]. eexists. split; [exact Ha|exact Hf].
  - exists st'. split; [exact Eps|]. split; [exact Es|]. pose proof (eq_trans (eq_sym Er) Es) as Q. injection Q as Q. destruct (Hr st' Q) as [Hv _].
    eapply eq_trans; [apply Hv; [lia|cbn; lia|right; lia]|]. rewrite Z. unfold control_update. cbn [Nat.eqb andb]. lra.
Qed.
