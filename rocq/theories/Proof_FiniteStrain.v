(** Proofs for Prop_FiniteStrain.v *)
From Coq Require Import Reals Lra Lia FunctionalExtensionality.
From Verif Require Import Model_Element Spec_Element Base Spec Sums Spec_Vector Spec_Matrix Spec_Tyings Model_Numbering Model_Vector Proof_Vector Model_Sparse Model_Tyings Prop_Tyings
  Model_Matrix Proof_Matrix Model_MatrixPartitioned Model_MatrixTyings Spec_MatrixTyings Proof_MatrixTyings Proof_Tyings2 Model_MeshGeometry Model_Pipeline Spec_Pipeline Proof_PipelineElem Proof_Pipeline Proof_PipelineBalance
  Model_PeriodicProgram Spec_Periodic Proof_Periodic Proof_PeriodicNodes Spec_Macro Proof_Macro Spec_Deform Proof_Deform Model_FiniteStrain Spec_FiniteStrain.

Section Run.
Variables (coor : list (list R)) (dofs : list (list nat)) (ties : list (nat * nat)) (fixed : list nat) (nnode nelem : nat) (conn : list (list nat)).
Hypothesis HC : cell coor dofs ties fixed nnode 2.
Hypothesis Hc : connects conn nelem 4 nnode.
Variable ps : PeriodicSystem.
Hypothesis Eps : periodic_setup coor nnode 2 dofs conn 4 ties fixed = Ok ps.
Variables (nip : nat) (xi w : arr) (thick : R).
Variable (P0 : Planar) (x0 : arr).
Hypothesis H0 : Planar_obj nelem nip xi w thick x0 P0.
Variable linsolve : mat -> list R -> list R.
Set Default Proof Using "All".
Notation t := (ps_t ps). Notation n := (nnode + 2). Notation v := (mkVector conn 4 (tp_dofs t) 2).
Notation ndof := (tp_nnu t + tp_nnp t + tp_nnd t).
Notation Cu := (vt_Cdu (ps_vector ps)). Notation Cp := (vt_Cdp (ps_vector ps)).
Notation E0 := (Planar_elem P0).
Notation cdofs := (tc_dofs (new_Control coor nnode 2 dofs)).

Lemma obj_E x P : Planar_obj nelem nip xi w thick x P -> elem_obj nelem x (Planar_elem P).
Proof using. intros H. econstructor. exact H. Qed.

Lemma mesh : mesh_dofs conn (tp_dofs t) nelem 4 n 2 ndof.
Proof.
  destruct (ps_facts _ _ _ _ _ _ HC conn 4 ps Eps) as [Et _].
  assert (Hc' : connects conn nelem 4 n) by (destruct Hc as [Sc Hcc]; split; [exact Sc|]; intros e m He Hm; specialize (Hcc e m He Hm); lia).
  exact (Hmd _ _ _ _ _ _ conn nelem x0 E0 (obj_E _ _ H0) (c_input _ _ _ _ _ _ HC) Hc' t Et).
Qed.

Lemma coor_shape : Spec.shape2 (ps_coor ps) n 2.
Proof.
  destruct (ps_facts _ _ _ _ _ _ HC conn 4 ps Eps) as [_ [_ [_ [_ [EX _]]]]]. rewrite EX. exact (proj1 (c_shape _ _ _ _ _ _ HC)).
Qed.

Lemma step st fi x : Planar_obj nelem nip xi w thick x (fs_elem st) -> Spec.shape2 (fs_disp st) n 2 ->
  exists ue, AsElement_nodevec v (fs_disp st) = Ok ue /\
  let it := fi_it fi in
  let it' := mkIteration (it_mem it) (fun _ => it_law it (material_F E0 (r_eps0 (it_mem it)) (of_rows ue))) (it_C it) (it_fext it) (it_du it) in
  forall disp K s xe, newton_tyings linsolve v (Planar_elem (fs_elem st)) (fs_disp st, fs_K st, fs_solver st) it' = Ok (disp, K, s) ->
    AsElement_nodevec v (add2 (ps_coor ps) disp) = Ok xe ->
    finite_newton linsolve v (ps_coor ps) E0 st fi = Ok (mkFS disp (Planar_update_x (fi_es fi) (fi_junk fi) (of_rows xe) (fs_elem st)) K s).
Proof.
  intros HP Sd. destruct (AsElement_nodevec_spec v nelem 4 n 2 _ eq_refl eq_refl mesh (fs_disp st) Sd) as [ue [Eu _]].
  exists ue. split; [exact Eu|]. intros it it' disp K s xe EN EX.
  unfold newton_tyings, internal_force, internal_force_of in EN. unfold finite_newton. fold it. cbv zeta in EN |- *. cbn [fst snd] in EN.
  rewrite Eu in EN |- *. cbn [bind] in EN |- *. cbn [it' it_law it_mem it_C it_fext it_du] in EN.
  destruct (AssembleNode v _) as [fint| | |] in EN |- *; cbn [bind] in EN |- *; try discriminate.
  destruct (PT_assemble _ _) as [K1| | |] in EN |- *; cbn [bind] in EN |- *; try discriminate.
  destruct (PT_solve_nodevec K1 _ _ _ _ _) as [sol| | |] in EN |- *; cbn [bind] in EN |- *; try discriminate.
  injection EN as E1 E2 E3. rewrite <- E1 in EX. rewrite EX. cbn [bind]. now rewrite E1, E2, E3.
Qed.

Definition located (st : fs_state) : Prop := exists x, current conn nelem 4 2 coor (fs_disp st) x /\ Planar_obj nelem nip xi w thick x (fs_elem st).

Lemma moved d xe : Spec.shape2 d n 2 -> AsElement_nodevec v (add2 (ps_coor ps) d) = Ok xe -> current conn nelem 4 2 coor d (of_rows xe).
Proof.
  intros Sd Ex e m i He Hm Hi.
  assert (Sd1 : Spec.shape2 (add2 (ps_coor ps) d) n 2) by (apply zip2_shape; [exact coor_shape|exact Sd]).
  destruct (AsElement_nodevec_spec v nelem 4 n 2 _ eq_refl eq_refl mesh _ Sd1) as [xe1 [Ex1 [_ Vx]]]. rewrite Ex in Ex1. injection Ex1 as E1. rewrite <- E1 in Vx.
  pose proof (proj2 Hc e m He Hm) as L. rewrite of_rows_val, Vx by assumption. cbn [m_conn]. unfold add2. rewrite (zip2_val Rplus _ _ n 2) by (try assumption; try exact coor_shape; lia).
  f_equal. destruct (ps_facts _ _ _ _ _ _ HC conn 4 ps Eps) as [_ [_ [_ [_ [EX _]]]]]. rewrite EX. destruct (c_shape _ _ _ _ _ _ HC) as [_ [_ [_ [_ [C1 _]]]]]. exact (proj1 (C1 _ i L Hi)).
Qed.

Lemma run its : Forall (fun fi => valid_memory nelem n 2 (it_mem (fi_it fi)) /\ shape2 (it_fext (fi_it fi)) n 2 /\ shape2 (it_du (fi_it fi)) n 2 /\ schedule nelem (fi_es fi)) its ->
  forall st A F, pt_is v Cu Cp (tp_nnu t) (tp_nnp t) (tp_nnd t) (fs_K st) A -> t_fresh ndof Cu Cp (tp_nnu t) (tp_nnp t) A (fs_K st) (fs_solver st) ->
  nodal cdofs n 2 (fs_disp st) -> tied (ps_coor ps) cdofs (tc_control_dofs (new_Control coor nnode 2 dofs)) ties n 2 F (fs_disp st) ->
  located st ->
  systems_solved (finite_newton linsolve v (ps_coor ps) E0)
    (fun st fi => solves_matrix linsolve (tp_nnu t) (condensed ndof (tie (tp_nnu t) (tp_nnu t + tp_nnp t) Cu Cp)
       (assembled conn (tp_dofs t) nelem 4 2 (element_stiffness v (Planar_elem (fs_elem st)) (r_K (it_mem (fi_it fi))) (it_C (fi_it fi)))))) its st ->
  exists st' F', foldM (finite_newton linsolve v (ps_coor ps) E0) its st = Ok st' /\
    nodal cdofs n 2 (fs_disp st') /\ tied (ps_coor ps) cdofs (tc_control_dofs (new_Control coor nnode 2 dofs)) ties n 2 F' (fs_disp st') /\
    (forall m i, m < n -> i < 2 -> prescribed_node fixed nnode m -> val2 (fs_disp st') m i = (val2 (fs_disp st) m i + sumL its (fun fi => val2 (it_du (fi_it fi)) m i))%R) /\
    located st'.
Proof.
  induction its as [|fi its IH]; intros Hg st A F Ha Hf Nd Td HL HS.
  - exists st, F. cbn [foldM]. split; [reflexivity|]. split; [exact Nd|]. split; [exact Td|]. split; [intros; unfold sumL; cbn; lra|exact HL].
  - destruct (Forall_inv Hg) as (G1 & G2 & G3 & G4). pose proof HL as [xx [Ex HP]]. destruct HS as [HS1 HS2].
    destruct (ps_facts _ _ _ _ _ _ HC conn 4 ps Eps) as [Et [ECu [ECp [ECi [EX [_ [Ev EKn]]]]]]]. pose proof (c_input _ _ _ _ _ _ HC) as HI.
    assert (Hc' : connects conn nelem 4 n) by (destruct Hc as [Sc Hcc]; split; [exact Sc|]; intros e m He Hm; specialize (Hcc e m He Hm); lia).
    destruct (step st fi _ HP (proj1 Nd)) as [ue [Eu Hstep]]. cbv zeta in Hstep.
    set (it' := mkIteration _ _ _ _ _) in Hstep. rewrite EX in Td.
    destruct (newton_one _ _ _ _ _ _ conn nelem _ (Planar_elem (fs_elem st)) (obj_E _ _ HP) HI Hc' t Et _ _ ECu ECp linsolve (fs_K st) A (fs_solver st) (fs_disp st) F it' Ha Hf) as [d1 [a1 [s1 [F1 [E1 [Ha1 [Hf1 [N1 [T1 [V1 _]]]]]]]]]].
    { split; [exact G1|now apply (c_nodal _ _ _ _ _ _ HC)|now apply (c_nodal _ _ _ _ _ _ HC)|exact HS1]. }
    { exact Nd. } { exact Td. }
    assert (Sd1 : Spec.shape2 (add2 (ps_coor ps) d1) n 2) by (apply zip2_shape; [exact coor_shape|exact (proj1 N1)]).
    destruct (AsElement_nodevec_spec v nelem 4 n 2 _ eq_refl eq_refl mesh _ Sd1) as [xe1 [Ex1 _]].
    specialize (Hstep d1 a1 s1 xe1 E1 Ex1). set (st1 := mkFS _ _ _ _) in Hstep.
    rewrite <- EX in T1.
    destruct (IH (Forall_inv_tail Hg) st1 _ F1 Ha1 Hf1 N1 T1) as [st2 [F2 [E2 [N2 [T2 [V2 L2]]]]]].
    { exists (of_rows xe1). split; [exact (moved d1 xe1 (proj1 N1) Ex1)|]. cbn [st1 fs_elem]. eapply Planar_obj_update; [exact G4|exact HP]. }
    { apply HS2. exact Hstep. }
    exists st2, F2. split; [cbn [foldM]; rewrite Hstep; exact E2|]. split; [exact N2|]. split; [exact T2|]. split; [|exact L2].
    intros m i Hm Hi Hp. rewrite V2 by assumption. cbn [st1 fs_disp]. rewrite V1 by (try assumption; now apply (c_prescribed _ _ _ _ _ _ HC)). unfold sumL. cbn [map fold_right it' it_du]. lra.
Qed.
End Run.
