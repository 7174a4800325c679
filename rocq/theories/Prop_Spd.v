(** Property C90: the linear systems of the programs are symmetric positive definite, and can be solved. *)
From Coq Require Import Reals Lra Lia.
From Verif Require Import Model_Element Spec_Element Proof_Element Proof_ElementQuad4 Proof_ElementMath Base Spec Sums Spec_Vector Spec_Matrix Spec_MatrixOps Spec_Tyings Model_Numbering Model_Vector Proof_Vector Model_VectorPartitioned Model_Sparse Model_Tyings Prop_Tyings
  Model_Matrix Proof_Matrix Model_MatrixPartitioned Proof_MatrixPartitioned Prop_MatrixPartitioned Model_MatrixTyings Spec_MatrixTyings Proof_MatrixTyings Proof_Tyings2 Model_MeshGeometry Model_Regular2d Proof_Regular2d Model_Pipeline Spec_Pipeline Spec_Patch Proof_PipelineElem Proof_Pipeline Proof_PipelineBalance
  Prop_Pipeline Proof_Patch Proof_PatchRigid Proof_PatchRegular Prop_Patch Model_PeriodicProgram Spec_Periodic Proof_Periodic Proof_PeriodicNodes Prop_Periodic Prop_PeriodicMesh Spec_Macro Proof_Macro Prop_Macro
  Spec_Spd Model_Ldlt Proof_Ldlt Proof_Spd Proof_SpdPeriodic Proof_Linked.

(** C90: elimination without pivoting (an LDL^T factorisation) solves every symmetric positive definite system *)
Theorem C90_ldlt : spd_solver ldlt.
Proof. intros a Hr Ha. now apply ldlt_solves. Qed.
Print Assumptions C90_ldlt.

(** C90: the matrix that the statics program solves with, that of the unknown DOFs, is symmetric positive definite if the stiffness is
    symmetric and the body has no mechanism; whatever the matrix was before *)
Theorem C90_statics_spd : forall conn dofs nelem nnode ndof x E iip, elem_obj nelem x E -> mesh_dofs conn dofs nelem (el_nne E) nnode (el_ndim E) ndof ->
  prescribed ndof iip -> no_holes dofs ndof ->
  let v := mkVector conn (el_nne E) dofs (el_ndim E) in
  forall c C p K K', valid_call nelem c -> major_symmetric nelem E C -> positive_stiffness nelem E C -> positive_volume nelem E -> no_mechanism v nelem ndof E C iip ->
  new_VectorPartitioned v iip = Ok p -> MP_p K = p -> MP_assemble K (element_stiffness v E c C) = Ok K' ->
  rows (A_uu K') = cols (A_uu K') /\ cols (A_uu K') = length (setdiff1d (concat dofs) iip) /\ spd (cols (A_uu K')) (ent (A_uu K')).
Proof.
  intros conn dofs nelem nnode ndof x E iip H Hm Hi Hh v c C p K K' Hc HC HP HV HM Ep EK Ea. destruct (elem_obj_raw _ _ _ H) as [B Ho].
  destruct (uu_any conn dofs E nelem nnode ndof B Ho Hm iip Hi Hh c C p Hc HC HP HV HM Ep K K' EK Ea) as [R1 [C1 S1]]. rewrite R1, C1. auto.
Qed.
Print Assumptions C90_statics_spd.

From Verif Require Model_Aliases.
Lemma elastic_positive nelem E C : strictly_elastic nelem E C -> positive_stiffness nelem E C.
Proof. intros H A e q He Hq. apply (H A e q He Hq). Qed.

(** C90: so that the statics program works with every solver for such matrices: it returns, the displacement is the prescribed one where it
    is prescribed, and in equilibrium with the external force elsewhere; and no other displacement is *)
Theorem C90_statics : forall conn dofs nelem nnode ndof x E iip, elem_obj nelem x E -> mesh_dofs conn dofs nelem (el_nne E) nnode (el_ndim E) ndof ->
  prescribed ndof iip -> no_holes dofs ndof ->
  let v := mkVector conn (el_nne E) dofs (el_ndim E) in
  forall linsolve ops K0 K s p, spd_solver linsolve -> Forall (fun o => match o with PMat o => valid_op nelem (el_nne E) (el_ndim E) ndof o | _ => True end) ops ->
  new_MatrixPartitioned v iip = Ok K0 -> foldM (run_pop linsolve) ops (K0, new_Solver) = Ok (K, s) -> new_VectorPartitioned v iip = Ok p ->
  forall mem C fext disp0 bc, valid_memory nelem nnode (el_ndim E) mem -> minor_symmetric nelem E C -> major_symmetric nelem E C -> positive_stiffness nelem E C -> positive_volume nelem E ->
  no_mechanism v nelem ndof E C iip -> nodal dofs nnode (el_ndim E) fext -> nodal dofs nnode (el_ndim E) bc ->
  shape2 disp0 nnode (el_ndim E) -> (forall n j, n < nnode -> j < el_ndim E -> val2 disp0 n j = 0%R) ->
  let solution disp fint := nodal dofs nnode (el_ndim E) disp /\ internal_force v E (ddot42 (el_tdim E) C) (r_eps0 mem) (r_f0 mem) disp = Ok fint /\
    forall m i, m < nnode -> i < el_ndim E -> (In (idx2 dofs m i) iip -> val2 disp m i = val2 bc m i) /\ (~ In (idx2 dofs m i) iip -> val2 fint m i = val2 fext m i) in
  exists disp fint fext' fres, statics linsolve mem p K s E (ddot42 (el_tdim E) C) C fext disp0 bc = Ok (disp, fint, fext', fres) /\
    solution disp fint /\ forall disp2 fint2, solution disp2 fint2 -> disp2 = disp.
Proof.
  intros conn dofs nelem nnode ndof x E iip H Hm Hi Hh v linsolve ops K0 K s p HL Hok E0 Er Ep mem C fext disp0 bc HMm HC HS HP HV HM Nf Nb S0 Z0 solution.
  assert (EK : MP_p K = p).
  { destruct (elem_obj_raw _ _ _ H) as [B Ho]. pose proof (K_shape v E nelem nnode ndof eq_refl eq_refl Hm B Ho (r_K mem) C) as SK.
    destruct (mp_new v nelem _ nnode _ ndof eq_refl eq_refl Hm iip Hi Hh) as [K0' [E0' [H0 _]]]. rewrite E0 in E0'. injection E0' as E0'. rewrite <- E0' in H0.
    destruct (run_pops_spec v nelem _ nnode _ ndof eq_refl eq_refl Hm iip Hi Hh linsolve ops K0 new_Solver _ (K, s) H0 (or_introl eq_refl) Hok Er) as [[[H1 _] _] _]. cbn [fst] in H1. rewrite Ep in H1. now injection H1. }
  destruct (C82_statics conn dofs nelem nnode ndof x E iip H Hm Hi Hh linsolve ops K0 K s p Hok E0 Er Ep mem C fext disp0 bc HMm HC) as [disp [fint [fext' [fres [E1 [N1 [_ [F1 H1]]]]]]]]; try assumption.
  { intros K' Ea. destruct (C90_statics_spd conn dofs nelem nnode ndof x E iip H Hm Hi Hh (r_K mem) C p K K' ltac:(apply HMm) HS HP HV HM Ep EK Ea) as [Q1 [_ Q2]]. now apply HL. }
  destruct HMm as [M1 [M2 _]].
  assert (SO : solution disp fint).
  { split; [exact N1|]. split; [now apply F1|]. intros m i Hm' Hi'. destruct (H1 m i Hm' Hi') as [_ [A [B D]]]. split; [exact A|]. intros Hn. rewrite <- D. now apply B. }
  exists disp, fint, fext', fres. split; [exact E1|]. split; [exact SO|]. intros disp2 fint2 [N2 [F2 H2]].
  apply (list_ext2 0%R disp2 disp nnode (el_ndim E) (proj1 N2) (proj1 N1)). intros n i Hn Hj.
  destruct SO as [_ [F1' H1']].
  assert (G : forall u f, nodal dofs nnode (el_ndim E) u -> internal_force v E (ddot42 (el_tdim E) C) (r_eps0 mem) (r_f0 mem) u = Ok f -> internal_force v E (ddot42 (el_tdim E) C) (r_eps0 mem) (r_eps0 mem) u = Ok f).
  { intros u f Nu <-. destruct (elem_obj_raw _ _ _ H) as [B Ho]. rewrite !(sym_force v E nelem nnode ndof eq_refl eq_refl Hm B Ho C _ _ (r_eps0 mem) (r_f0 mem) u HC) by (try assumption; apply Nu). reflexivity. }
  apply (C87_unique conn dofs nelem nnode ndof x E iip H Hm Hh C (r_eps0 mem) disp2 disp fint2 fint M1 HC HM N2 N1 (G _ _ N2 F2) (G _ _ N1 F1')); try assumption.
  - intros n' i' Hn' Hi' Hin. rewrite (proj1 (H1' n' i' Hn' Hi') Hin). now apply H2.
  - intros n' i' Hn' Hi' Hin. rewrite (proj2 (H1' n' i' Hn' Hi') Hin). now apply H2.
Qed.
Print Assumptions C90_statics.

(** C90: the same for the program with periodic tyings: the matrix after elimination of the tied DOFs is symmetric positive definite ... *)
Theorem C90_periodic_spd : forall coor dofs ties fixed nnode nelem conn x E, elem_obj nelem x E -> cell coor dofs ties fixed nnode (el_ndim E) -> connects conn nelem (el_nne E) nnode ->
  forall ps, periodic_setup coor nnode (el_ndim E) dofs conn (el_nne E) ties fixed = Ok ps ->
  let t := ps_t ps in
  let v := mkVector conn (el_nne E) (tp_dofs t) (el_ndim E) in
  let T := tie (tp_nnu t) (tp_nnu t + tp_nnp t) (vt_Cdu (ps_vector ps)) (vt_Cdp (ps_vector ps)) in
  forall c C, valid_call nelem c -> major_symmetric nelem E C -> positive_stiffness nelem E C -> positive_volume nelem E ->
  no_periodic_mechanism coor ties fixed nnode nelem conn E C ->
  spd (tp_nnu t) (condensed (tp_nnu t + tp_nnp t + tp_nnd t) T (assembled conn (tp_dofs t) nelem (el_nne E) (el_ndim E) (element_stiffness v E c C))).
Proof.
  intros coor dofs ties fixed nnode nelem conn x E HE HC Hc ps Eps t v T c C H1 H2 H3 H4 H5.
  exact (condensed_spd coor dofs ties fixed nnode nelem conn x E HE HC Hc ps Eps c C H1 H2 H3 H4 H5).
Qed.
Print Assumptions C90_periodic_spd.

(** ... and a cell has no mechanism if its elements, with enough integration points and a material without zero-energy strains, are linked by
    edges, one node is fixed, and two nodes at different positions are tied *)
Theorem C90_periodic_stable : forall coor ties fixed nnode nelem conn x E C, full_obj nelem x E -> on_mesh conn nelem coor x -> strictly_elastic nelem E C ->
  (forall e, e < nelem -> linked conn nelem 4 2 coor 0 e) -> (forall p, p < nnode -> exists e m, e < nelem /\ m < 4 /\ idx2 conn e m = p) ->
  (exists o, In o fixed /\ o < nnode) -> (exists a b i, In (a, b) ties /\ a < nnode /\ b < nnode /\ i < 2 /\ val2 coor a i <> val2 coor b i) ->
  no_periodic_mechanism coor ties fixed nnode nelem conn E C.
Proof. exact periodic_stable. Qed.
Print Assumptions C90_periodic_stable.

(** Gauss integration on a regular mesh *)
Lemma regular_full m j j' x Q : (0 < hh m)%R -> Quad4_obj (nelem m) 4 (Gauss4_xi j) (Gauss4_w j') x Q -> on_mesh (conn m) (nelem m) (coor m) x ->
  full_obj (nelem m) x (Quad4_elem Q) /\ affine_obj (nelem m) x (Quad4_elem Q) /\ positive_volume (nelem m) (Quad4_elem Q).
Proof.
  intros Hh HQ HX. assert (P : (0 < hh m * hh m)%R) by (apply Rmult_lt_0_compat; assumption).
  assert (V : forall e q, e < nelem m -> q < 4 -> jac2 (nodes x e) (point (Gauss4_xi j) q) <> 0%R /\ (0 < q_vol Q [e;q])%R).
  { intros e q He Hq. rewrite (f_vol (Quad4_facts _ _ _ _ _ _ HQ)) by assumption. rewrite (regular_jac m x e _ HX He). split; [lra|].
    assert (W : Gauss4_w j' [q] = 1%R) by (revert q Hq; apply lt4; unfold Gauss4_w; blk; reflexivity). rewrite W. lra. }
  split; [|split].
  - exact (full_Quad4 _ 4 (Gauss4_xi j) (Gauss4_w j') x Q HQ (line_Gauss j) V).
  - apply (aff_Quad4 _ 4 (Gauss4_xi j) (Gauss4_w j') x Q HQ). intros e q He Hq. now apply V.
  - intros e q He Hq. cbn [Quad4_elem el_nip el_dV] in *. rewrite (f_nip (Quad4_facts _ _ _ _ _ _ HQ)) in Hq. left. now apply V.
Qed.

(** C90: no assumption is left for a regular mesh with Gauss integration: the program of C88 and C89, without external forces, with any
    solver for symmetric positive definite systems, returns a periodic displacement with the displacement gradient that was prescribed, in
    equilibrium, and the forces on the control nodes are the integrals of the stress *)
Theorem C90_regular_periodic : forall m, 1 <= nelx m -> 1 <= nely m -> (0 < hh m)%R ->
  forall j j' x Q C linsolve, Quad4_obj (nelem m) 4 (Gauss4_xi j) (Gauss4_w j') x Q -> on_mesh (conn m) (nelem m) (coor m) x ->
  let E := Quad4_elem Q in
  strictly_elastic (nelem m) E C -> major_symmetric (nelem m) E C -> minor_symmetric (nelem m) E C -> spd_solver linsolve ->
  exists ps, periodic_setup (coor m) (nnode m) 2 (dofs (nnode m) 2) (conn m) 4 (nodesPeriodic m) [nodesBottomLeftCorner m] = Ok ps /\
  let t := ps_t ps in
  let v := mkVector (conn m) 4 (tp_dofs t) 2 in
  forall mem du, valid_memory (nelem m) (nnode m + 2) 2 mem -> shape2 du (nnode m + 2) 2 ->
  let zero := map (fun _ => repeat 0%R 2) (seq 0 (nnode m + 2)) in
  forall os c1 c2, (forall k, Permutation (os k) (list_prod (seq 0 (nnode m + 2)) (seq 0 2))) -> valid_call (nelem m) c1 -> valid_call (nelem m) c2 ->
  exists disp K s ue fint Fx Fi, newton_tyings linsolve (vt_v (ps_vector ps)) E (zero, ps_K ps, new_Solver) (mkIteration mem (ddot42 2 C) C zero du) = Ok (disp, K, s) /\
    periodic_disp (coor m) (nodesPeriodic m) (nnode m) 2 disp /\ (forall k l, k < 2 -> l < 2 -> val2 disp (nnode m + k) l = val2 du (nnode m + k) l) /\
    AsElement_nodevec v disp = Ok ue /\ internal_force v E (ddot42 2 C) c1 c2 disp = Ok fint /\ periodic_forces (ps_vector ps) os zero fint = Ok (Fx, Fi) /\
    Fx = Fi /\ (forall d, d < tp_nnu t -> val1 Fi d = 0%R) /\
    forall k l, k < 2 -> l < 2 -> val1 Fi (idx2 (tp_dofs t) (nnode m + k) l) = total (nelem m) E (ddot42 2 C (el_SymGradN_vector E c1 (of_rows ue))) l k.
Proof.
  intros m Hx Hy Hh j j' x Q C linsolve HQ HX E HC HS HMi HL.
  destruct (regular_full m j j' x Q Hh HQ HX) as [HF [HA HV]]. fold E in HF, HA, HV. pose proof (affine_elem _ _ _ HA) as HE.
  destruct (C88_quad4 m Hx Hy Hh) as [o [Eo [HCell Hcn]]]. unfold Model_Aliases.origin2, Model_Aliases.quad_corner in Eo.
  assert (o = nodesBottomLeftCorner m) as -> by (cbn in Eo; now injection Eo).
  assert (Lo : nodesBottomLeftCorner m < nnode m) by (unfold nodesBottomLeftCorner, nnode; nia).
  destruct (C88_setup (coor m) (dofs (nnode m) 2) (nodesPeriodic m) [nodesBottomLeftCorner m] (nnode m) 2 (conn m) 4 HCell) as [ps [Eps _]].
  exists ps. split; [exact Eps|]. intros t v mem du HM Sdu zero os c1 c2 Hos V1 V2.
  assert (Sz : shape2 zero (nnode m + 2) 2). { split; [unfold zero; now rewrite map_length, seq_length|]. intros r Hr. unfold zero in Hr. apply in_map_iff in Hr. destruct Hr as [k [<- _]]. reflexivity. }
  assert (Vz : forall n i, val2 zero n i = 0%R).
  { intros n i. unfold val2, nth2, zero. destruct (Nat.lt_ge_cases n (nnode m + 2)) as [L|L].
    - rewrite (nth_indep _ [] (repeat 0%R 2)) by (rewrite map_length, seq_length; exact L). rewrite (map_nth (fun _ => repeat 0%R 2) (seq 0 (nnode m + 2)) 0 n). destruct i as [|[|[|]]]; reflexivity.
    - rewrite (nth_overflow (map _ _)) by (rewrite map_length, seq_length; exact L). now destruct i. }
  assert (HN : no_periodic_mechanism (coor m) (nodesPeriodic m) [nodesBottomLeftCorner m] (nnode m) (nelem m) (conn m) E C).
  { apply (C90_periodic_stable _ _ _ _ _ _ x E C HF HX HC (regular_linked m Hh) (regular_covered m Hx Hy)).
    - exists (nodesBottomLeftCorner m). split; [now left|exact Lo].
    - exists (nodesBottomLeftCorner m), (nodesBottomRightCorner m), 0. split; [now left|]. split; [exact Lo|]. split; [unfold nodesBottomRightCorner, nnode; nia|]. split; [lia|].
      unfold nodesBottomLeftCorner, nodesBottomRightCorner, val2, nth2. erewrite (nth_error_nth (coor m)) by exact (coor_at m 0 0 ltac:(lia) ltac:(lia)).
      erewrite (nth_error_nth (coor m) (nelx m)) by exact (coor_at m (nelx m) 0 ltac:(lia) ltac:(lia)). cbn [nth INR]. intros Z.
      assert (0 < hh m * INR (nelx m))%R by (apply Rmult_lt_0_compat; [exact Hh|apply lt_0_INR; lia]). lra. }
  assert (Hd0 : periodic_disp (coor m) (nodesPeriodic m) (nnode m) 2 zero).
  { split; [exact Sz|]. intros a b k Hab Hk. rewrite !Vz. rewrite sumn_zero; [ring|]. intros l Hl. rewrite Vz. ring. }
  set (it := mkIteration mem (ddot42 2 C) C zero du).
  assert (Hits : Forall (fun it => valid_memory (nelem m) (nnode m + 2) 2 (it_mem it) /\ shape2 (it_fext it) (nnode m + 2) 2 /\ shape2 (it_du it) (nnode m + 2) 2 /\
    solves_matrix linsolve (tp_nnu t) (condensed (tp_nnu t + tp_nnp t + tp_nnd t) (tie (tp_nnu t) (tp_nnu t + tp_nnp t) (vt_Cdu (ps_vector ps)) (vt_Cdp (ps_vector ps)))
      (assembled (conn m) (tp_dofs t) (nelem m) 4 2 (element_stiffness v E (r_K (it_mem it)) (it_C it))))) [it]).
  { constructor; [|constructor]. split; [exact HM|]. split; [exact Sz|]. split; [exact Sdu|]. apply spd_solver_matrix; [exact HL|].
    apply (C90_periodic_spd (coor m) (dofs (nnode m) 2) (nodesPeriodic m) [nodesBottomLeftCorner m] (nnode m) (nelem m) (conn m) x E HE HCell Hcn ps Eps); try assumption.
    - apply HM.
    - now apply elastic_positive. }
  destruct (C89_run (coor m) (dofs (nnode m) 2) (nodesPeriodic m) (nodesBottomLeftCorner m) (nnode m) (nelem m) (conn m) x E HA HCell Hcn HX ps Eps linsolve [] (ps_K ps) new_Solver (Forall_nil _) eq_refl
    [] it Hits) with (disp := zero) (os := os) (c1 := c1) (c2 := c2) as [disp [K [s [ue [fint [Fx [Fi [E1 [E2 [E3 [E4 [E5 [E6 [_ [E7 E8]]]]]]]]]]]]]]]; try assumption.
  { intros n i Hn Hi. apply Vz. } { intros A e q i k He Hq Hi Hk. reflexivity. }
  destruct (C88_newton (coor m) (dofs (nnode m) 2) (nodesPeriodic m) [nodesBottomLeftCorner m] (nnode m) (nelem m) (conn m) x E HE HCell Hcn ps Eps linsolve [] (ps_K ps) new_Solver (Forall_nil _) eq_refl
    [it] Hits zero Hd0) as [disp' [K' [s' [EN [HD _]]]]]. cbn [app] in E1. rewrite E1 in EN. injection EN as EN _ _. rewrite <- EN in HD.
  exists disp, K, s, ue, fint, Fx, Fi. split; [|split; [exact HD|split; [|split; [exact E2|split; [exact E3|split; [exact E4|split; [exact E5|split; [exact E6|exact E7]]]]]]]].
  - cbn [foldM] in E1. destruct (newton_tyings linsolve (vt_v (ps_vector ps)) E (zero, ps_K ps, new_Solver) it) as [r| | |] eqn:Er; cbn [bind] in E1; try discriminate. now rewrite E1 in Er || (injection E1 as E1; rewrite E1 in Er; exact Er).
  - intros k l Hk Hl. rewrite (E8 k l Hk Hl), Vz. cbn [app sumL fold_right]. unfold it at 1. cbn [it_du]. ring.
Qed.
Print Assumptions C90_regular_periodic.
