(** Property C89: the forces on the control nodes are the stress integrated over the periodic cell. *)
From Coq Require Import Reals Lra Lia.
From Verif Require Import Model_Element Spec_Element Base Spec Sums Spec_Vector Spec_Matrix Spec_Tyings Model_Numbering Model_Vector Proof_Vector Model_Sparse Model_Tyings Prop_Tyings
  Model_Matrix Proof_Matrix Model_MatrixPartitioned Model_MatrixTyings Spec_MatrixTyings Proof_MatrixTyings Proof_Tyings2 Model_MeshGeometry Model_Pipeline Spec_Pipeline Proof_PipelineElem Proof_Pipeline Proof_PipelineBalance
  Model_PeriodicProgram Spec_Periodic Proof_Periodic Proof_PeriodicNodes Prop_Periodic Spec_Macro Proof_Macro.

(** C89: take any stress, and the force that is assembled from it.  If the forces on the unknown DOFs of the program of C88 are zero, then
    those on control node j are the integral of the stress, component k of the force being component (k, j) of the stress; there is no
    reaction at the origin; and the work of the stress on any periodic displacement is that of its integral on the displacement gradient. *)
Theorem C89_stress : forall coor dofs ties o nnode nelem conn x E, affine_obj nelem x E -> cell coor dofs ties [o] nnode (el_ndim E) -> connects conn nelem (el_nne E) nnode ->
  coordinates conn nelem (el_nne E) (el_ndim E) coor x ->
  forall ps, periodic_setup coor nnode (el_ndim E) dofs conn (el_nne E) ties [o] = Ok ps ->
  let t := ps_t ps in
  let n := nnode + el_ndim E in
  let v := mkVector conn (el_nne E) (tp_dofs t) (el_ndim E) in
  forall os c sig fint fext Fx Fi, (forall k, Permutation (os k) (list_prod (seq 0 n) (seq 0 (el_ndim E)))) -> valid_call nelem c ->
  AssembleNode v (to_rows nelem (el_nne E) (el_ndim E) (el_Int_gradN_dot_tensor2_dV E c sig)) = Ok fint -> shape2 fext n (el_ndim E) ->
  periodic_forces (ps_vector ps) os fext fint = Ok (Fx, Fi) -> (forall d, d < tp_nnu t -> val1 Fi d = 0%R) ->
  (forall j k, j < el_ndim E -> k < el_ndim E -> val1 Fi (idx2 (tp_dofs t) (nnode + j) k) = total nelem E sig k j) /\
  (forall i, i < el_ndim E -> val1 Fi (idx2 (tp_dofs t) o i) = 0%R) /\
  (forall c' w we, valid_call nelem c' -> periodic_disp coor ties nnode (el_ndim E) w -> AsElement_nodevec v w = Ok we ->
     integral nelem E sig (el_GradN_vector E c' (of_rows we)) =
     sumn (el_ndim E) (fun j => sumn (el_ndim E) (fun k => val2 w (nnode + j) k * total nelem E sig k j))%R).
Proof.
  intros coor dofs ties o nnode nelem conn x E HA HC Hc HX ps Eps t n v os c sig fint fext Fx Fi Hos Vc Ef Sx EF HZ.
  pose proof (affine_elem _ _ _ HA) as HE. pose proof (m_mesh coor dofs ties o nnode nelem conn x E HE HC Hc ps Eps) as HM. fold t in HM.
  set (ndim := el_ndim E) in *. set (nne := el_nne E) in *.
  assert (Vn : forall e m, e < nelem -> m < nne -> idx2 conn e m < nnode) by (intros e m He Hm; exact (proj2 Hc e m He Hm)).
  (* the work of the forces on any periodic displacement *)
  assert (Wk : forall w we, periodic_disp coor ties nnode ndim w -> AsElement_nodevec v w = Ok we -> forall c', valid_call nelem c' ->
    (sumn ndim (fun i => val1 Fi (idx2 (tp_dofs t) o i) * val2 w o i) + sumn ndim (fun j => sumn ndim (fun k => val1 Fi (idx2 (tp_dofs t) (nnode + j) k) * val2 w (nnode + j)%nat k)))%R
    = integral nelem E sig (el_GradN_vector E c' (of_rows we))).
  { intros w we Hw Ew c' Vc'. destruct (stress_work coor dofs ties o nnode nelem conn x E HE HC Hc ps Eps c c' sig fint w we Vc Vc' Ef (proj1 Hw) Ew) as [Sf HW].
    destruct (C88_forces coor dofs ties [o] nnode nelem conn x E HE HC Hc ps Eps os fext fint Hos Sx Sf) as [Fx' [Fi' [EF' [_ [_ [_ [HT _]]]]]]]. cbv zeta in HT. rewrite EF in EF'. injection EF' as _ EFi.
    destruct (c_values _ _ _ _ _ _ HC conn nne ps Eps w (proj1 Hw)) as [W DW]. specialize (HT w W Hw DW). rewrite <- EFi in HT.
    exact (eq_trans (eq_sym (forces_nodes coor dofs ties o nnode nelem conn x E HE HC Hc ps Eps Fi w W DW HZ)) (eq_trans HT HW)). }
  (* affine displacements, with free choice of the values in the origin and of the gradient *)
  destruct (cell_fixed2 _ _ _ _ _ _ HC o (or_introl eq_refl)) as [Lo _].
  assert (Af : forall a G, (sumn ndim (fun i => val1 Fi (idx2 (tp_dofs t) o i) * a i) + sumn ndim (fun j => sumn ndim (fun k => val1 Fi (idx2 (tp_dofs t) (nnode + j) k) * G j k)))%R
    = sumn ndim (fun j => sumn ndim (fun k => G j k * total nelem E sig k j))%R).
  { intros a G. set (w := tab2 n ndim (fun m i => if (m <? nnode)%nat then (a i + sumn ndim (fun k => G i k * (val2 coor m k - val2 coor o k)))%R else G (m - nnode)%nat i)).
    assert (Sw : shape2 w n ndim) by apply tab2_shape. assert (Vw : forall m i, m < n -> i < ndim -> val2 w m i = if (m <? nnode)%nat then (a i + sumn ndim (fun k => G i k * (val2 coor m k - val2 coor o k)))%R else G (m - nnode)%nat i).
    { intros m i Hm Hi. unfold w, val2. now rewrite tab2_nth. }
    assert (Vc0 : forall j k, j < ndim -> k < ndim -> val2 w (nnode + j) k = G j k).
    { intros j k Hj Hk. rewrite Vw by (unfold n; fold ndim; lia). destruct (Nat.ltb_spec (nnode + j) nnode); [lia|]. f_equal. lia. }
    assert (Vm : forall m i, m < nnode -> i < ndim -> val2 w m i = (a i + sumn ndim (fun k => G i k * (val2 coor m k - val2 coor o k)))%R).
    { intros m i Hm Hi. rewrite Vw by (unfold n; fold ndim; lia). now rewrite (proj2 (Nat.ltb_lt _ _) Hm). }
    assert (Hw : periodic_disp coor ties nnode ndim w).
    { split; [exact Sw|]. intros p q j Hpq Hj. apply (proj1 (cell_ties _ _ _ _ _ _ HC)) in Hpq. rewrite !Vm by (try assumption; lia). rewrite Rplus_assoc, <- sumn_plus. f_equal. apply sumn_ext. intros k Hk.
      rewrite Vc0 by assumption. ring. }
    destruct (AsElement_nodevec_spec v nelem nne n ndim _ eq_refl eq_refl HM w Sw) as [we [Ew [_ Vwe]]].
    specialize (Wk w we Hw Ew c Vc).
    assert (Eo : forall i, i < ndim -> val2 w o i = a i). { intros i Hi. rewrite Vm by assumption. rewrite sumn_zero; [ring|]. intros k Hk. ring. }
    rewrite (sumn_ext ndim (fun i => val1 Fi (idx2 (tp_dofs t) o i) * a i)%R (fun i => val1 Fi (idx2 (tp_dofs t) o i) * val2 w o i)%R) by (intros i Hi; now rewrite Eo).
    rewrite (sumn_ext ndim (fun j => sumn ndim (fun k => val1 Fi (idx2 (tp_dofs t) (nnode + j) k) * G j k))%R (fun j => sumn ndim (fun k => val1 Fi (idx2 (tp_dofs t) (nnode + j) k) * val2 w (nnode + j)%nat k))%R)
      by (intros j Hj; apply sumn_ext; intros k Hk; now rewrite Vc0).
    rewrite Wk. apply (integral_affine nelem x E sig _ c (fun i => a i - sumn ndim (fun k => G i k * val2 coor o k))%R G (of_rows we) HA Vc eq_refl).
    intros e m i He Hm Hi. rewrite of_rows_val, Vwe by assumption. change (m_conn v) with conn. rewrite Vm by (try assumption; now apply Vn).
    transitivity (a i + (sumn ndim (fun k => G i k * val2 coor (idx2 conn e m) k) + (-1) * sumn ndim (fun k => G i k * val2 coor o k)))%R.
    - f_equal. rewrite <- sumn_scal, <- sumn_plus. apply sumn_ext. intros k Hk. ring.
    - fold ndim. rewrite (sumn_ext ndim (fun j => G i j * x [e;m;j])%R (fun k => G i k * val2 coor (idx2 conn e m) k)%R) by (intros k Hk; now rewrite HX). ring. }
  assert (R0 : forall i, i < ndim -> val1 Fi (idx2 (tp_dofs t) o i) = 0%R).
  { intros i Hi. specialize (Af (fun k => ind (k =? i)%nat) (fun _ _ => 0%R)).
    rewrite (sumn_ext ndim _ (fun k => ind (k =? i)%nat * val1 Fi (idx2 (tp_dofs t) o k))%R) in Af by (intros; ring). rewrite sumn_delta in Af by exact Hi.
    rewrite !(sumn_zero ndim (fun j => sumn ndim _)) in Af by (intros j Hj; apply sumn_zero; intros; ring). lra. }
  assert (R1 : forall j k, j < ndim -> k < ndim -> val1 Fi (idx2 (tp_dofs t) (nnode + j) k) = total nelem E sig k j).
  { intros j k Hj Hk. specialize (Af (fun _ => 0%R) (fun j' k' => ind (j' =? j)%nat * ind (k' =? k)%nat)%R). rewrite (sumn_zero ndim (fun i => _ * 0)%R) in Af by (intros; ring). rewrite Rplus_0_l in Af.
    rewrite (sumn_ext ndim _ (fun j' => ind (j' =? j)%nat * val1 Fi (idx2 (tp_dofs t) (nnode + j') k))%R) in Af.
    2:{ intros j' Hj'. transitivity (sumn ndim (fun k' => ind (k' =? k)%nat * (ind (j' =? j)%nat * val1 Fi (idx2 (tp_dofs t) (nnode + j') k')))%R); [apply sumn_ext; intros; ring|]. now rewrite sumn_delta. }
    rewrite sumn_delta in Af by exact Hj. rewrite Af.
    transitivity (sumn ndim (fun j' => ind (j' =? j)%nat * total nelem E sig k j')%R); [|now rewrite sumn_delta].
    apply sumn_ext. intros j' Hj'. transitivity (sumn ndim (fun k' => ind (k' =? k)%nat * (ind (j' =? j)%nat * total nelem E sig k' j'))%R); [apply sumn_ext; intros; ring|]. now rewrite sumn_delta. }
  split; [exact R1|]. split; [exact R0|]. intros c' w we Vc' Hw Ew. rewrite <- (Wk w we Hw Ew c' Vc').
  rewrite sumn_zero; [|intros i Hi; rewrite R0 by exact Hi; ring]. rewrite Rplus_0_l. apply sumn_ext. intros j Hj. apply sumn_ext. intros k Hk. rewrite R1 by assumption. ring.
Qed.
Print Assumptions C89_stress.

(** C89: the program of C88, run without external forces and with a linear material in the last iteration, ends with zero forces on the
    unknown DOFs, so that the force on control node j is the integral of the stress of the final displacement. *)
Theorem C89_run : forall coor dofs ties o nnode nelem conn x E, affine_obj nelem x E -> cell coor dofs ties [o] nnode (el_ndim E) -> connects conn nelem (el_nne E) nnode ->
  coordinates conn nelem (el_nne E) (el_ndim E) coor x ->
  forall ps, periodic_setup coor nnode (el_ndim E) dofs conn (el_nne E) ties [o] = Ok ps ->
  let t := ps_t ps in
  let n := nnode + el_ndim E in
  let v := mkVector conn (el_nne E) (tp_dofs t) (el_ndim E) in
  let ndof := tp_nnu t + tp_nnp t + tp_nnd t in
  let T := tie (tp_nnu t) (tp_nnu t + tp_nnp t) (vt_Cdu (ps_vector ps)) (vt_Cdp (ps_vector ps)) in
  forall linsolve ops K s, Forall (valid_top nelem (el_nne E) (el_ndim E)) ops -> foldM (run_top linsolve) ops (ps_K ps, new_Solver) = Ok (K, s) ->
  forall before it, Forall (fun it => valid_memory nelem n (el_ndim E) (it_mem it) /\ shape2 (it_fext it) n (el_ndim E) /\ shape2 (it_du it) n (el_ndim E) /\
    solves_matrix linsolve (tp_nnu t) (condensed ndof T (assembled conn (tp_dofs t) nelem (el_nne E) (el_ndim E) (element_stiffness v E (r_K (it_mem it)) (it_C it))))) (before ++ [it]) ->
  (forall m i, m < n -> i < el_ndim E -> val2 (it_fext it) m i = 0%R) -> minor_symmetric nelem E (it_C it) -> linear_law nelem E (it_law it) (it_C it) ->
  forall disp, periodic_disp coor ties nnode (el_ndim E) disp ->
  forall os c1 c2, (forall k, Permutation (os k) (list_prod (seq 0 n) (seq 0 (el_ndim E)))) -> valid_call nelem c1 -> valid_call nelem c2 ->
  exists disp' K' s' ue fint Fx Fi, foldM (newton_tyings linsolve (vt_v (ps_vector ps)) E) (before ++ [it]) (disp, K, s) = Ok (disp', K', s') /\
    AsElement_nodevec v disp' = Ok ue /\ internal_force v E (it_law it) c1 c2 disp' = Ok fint /\ periodic_forces (ps_vector ps) os (it_fext it) fint = Ok (Fx, Fi) /\
    Fx = Fi /\ (forall d, d < tp_nnu t -> val1 Fi d = 0%R) /\ (forall i, i < el_ndim E -> val1 Fi (idx2 (tp_dofs t) o i) = 0%R) /\
    (forall j k, j < el_ndim E -> k < el_ndim E ->
       val1 Fi (idx2 (tp_dofs t) (nnode + j) k) = total nelem E (it_law it (el_SymGradN_vector E c1 (of_rows ue))) k j) /\
    (forall j k, j < el_ndim E -> k < el_ndim E ->
       val2 disp' (nnode + j) k = (val2 disp (nnode + j) k + sumL (before ++ [it]) (fun it => val2 (it_du it) (nnode + j) k))%R).
Proof.
  intros coor dofs ties o nnode nelem conn x E HA HC Hc HX ps Eps t n v ndof T linsolve ops K s Hops EK before it Hits HF HCs HL disp Hd os c1 c2 Hos V1 V2.
  pose proof (affine_elem _ _ _ HA) as HE.
  destruct (C88_newton coor dofs ties [o] nnode nelem conn x E HE HC Hc ps Eps linsolve ops K s Hops EK (before ++ [it]) Hits disp Hd) as [disp' [K' [s' [EN [Hd' [HP HW]]]]]]. cbv zeta in HP, HW.
  destruct (ps_facts _ _ _ _ _ _ HC conn (el_nne E) ps Eps) as [Et [ECu [ECp [ECi [_ [_ [Ev EKn]]]]]]]. pose proof (c_input _ _ _ _ _ _ HC) as HI.
  pose proof (m_connects coor dofs ties o nnode nelem conn x E HE HC Hc ps Eps) as Hc'. pose proof (proj1 Hd') as Sd'.
  destruct (force_dofs _ _ _ _ _ _ conn nelem x E HE HI Hc' t Et (it_law it) c1 c2 disp' Sd') as [ue [fint [b [Eu [Ef [Nf [Df _]]]]]]].
  assert (Sf : shape2 (it_fext it) n (el_ndim E)). { rewrite Forall_forall in Hits. apply Hits. apply in_or_app. right. now left. }
  destruct (C88_forces coor dofs ties [o] nnode nelem conn x E HE HC Hc ps Eps os (it_fext it) fint Hos Sf (proj1 Nf)) as [Fx [Fi [EF [_ [_ [HPr [HT HE2]]]]]]]. cbv zeta in HPr, HT, HE2.
  assert (Ea : AssembleNode v (to_rows nelem (el_nne E) (el_ndim E) (el_Int_gradN_dot_tensor2_dV E c2 (it_law it (el_SymGradN_vector E c1 (of_rows ue))))) = Ok fint).
  { pose proof Ef as Ef'. unfold internal_force, internal_force_of in Ef'. rewrite Eu in Ef'. cbn [bind] in Ef'. unfold m_nelem in Ef'. cbn [m_conn] in Ef'. now rewrite (proj1 (proj1 Hc)) in Ef'. }
  (* no work on virtual displacements *)
  assert (Z : forall w, virtual_disp coor ties [o] nnode (el_ndim E) w -> work n (el_ndim E) fint w = 0%R).
  { intros w Vw. destruct (AsElement_nodevec_spec v nelem (el_nne E) n (el_ndim E) _ eq_refl eq_refl (m_mesh coor dofs ties o nnode nelem conn x E HE HC Hc ps Eps) w (proj1 (proj1 Vw))) as [we [Ew _]].
    destruct (stress_work coor dofs ties o nnode nelem conn x E HE HC Hc ps Eps c2 c1 _ fint w we V2 V1 Ea (proj1 (proj1 Vw)) Ew) as [_ HS]. unfold n. rewrite HS.
    rewrite (HW before it eq_refl HCs HL c1 c1 ue w we V1 V1 Eu Vw Ew). unfold work. apply sumn_zero. intros m Hm. apply sumn_zero. intros i Hi. rewrite HF by assumption. ring. }
  assert (EE : Fx = Fi).
  { apply HE2. intros w Vw. etransitivity; [exact (Z w Vw)|]. symmetry. unfold work. apply sumn_zero. intros m Hm. apply sumn_zero. intros i Hi. rewrite HF by assumption. ring. }
  assert (F0 : forall d, d < tp_nnu t -> val1 Fi d = 0%R).
  { intros d Hx. destruct (unit_virtual _ _ _ _ _ _ conn nelem x E HE HI Hc' t Et _ _ ECu ECp _ ECi d Hx) as [w [W [Vw [DW VW]]]].
    apply (c_virtual _ _ _ _ _ _ HC) in Vw. pose proof (eq_trans (HT w W (proj1 Vw) DW) (Z w Vw)) as E1. rewrite <- E1.
    transitivity (sumn (tp_nnu t + tp_nnp t) (fun j => ind (j =? d)%nat * val1 Fi j)%R); [symmetry; apply sumn_delta; lia|]. apply sumn_ext. intros j Hj. rewrite VW by (unfold t in *; lia).
    rewrite T_indep by exact Hj. ring. }
  destruct (C89_stress coor dofs ties o nnode nelem conn x E HA HC Hc HX ps Eps os c2 _ fint (it_fext it) Fx Fi Hos V2 Ea Sf EF F0) as [R1 [R0 _]].
  exists disp', K', s', ue, fint, Fx, Fi. split; [exact EN|]. split; [exact Eu|]. split; [exact Ef|]. split; [exact EF|]. split; [exact EE|]. split; [exact F0|]. split; [exact R0|]. split; [exact R1|].
  intros j k Hj Hk. apply HP; try assumption; [lia|]. right. lia.
Qed.
Print Assumptions C89_run.

(** A concrete case that meets all hypotheses of C89_run (and of C88_newton): C90_ex in Prop_SpdEx.v. *)
