(** Property C93: the programs on every mesh of quadrilaterals of the library. *)
From Coq Require Import Reals Lra Lia.
From Verif Require Import Model_Element Spec_Element Proof_Element Proof_ElementQuad4 Proof_ElementMath Base Spec Spec2d Sums Spec_Vector Spec_Matrix Spec_MatrixOps Spec_Tyings Spec_Tiling Spec_Conform Model_Numbering Model_Vector Proof_Vector Model_VectorPartitioned Model_Sparse Model_Tyings Prop_Tyings
  Model_Matrix Proof_Matrix Model_MatrixPartitioned Proof_MatrixPartitioned Prop_MatrixPartitioned Model_MatrixTyings Spec_MatrixTyings Proof_MatrixTyings Proof_Tyings2 Model_MeshGeometry Model_Regular2d Proof_Regular2d Model_FineLayer Model_Pipeline Spec_Pipeline Spec_Patch Proof_PipelineElem Proof_Pipeline Proof_PipelineBalance
  Prop_Pipeline Proof_Patch Proof_PatchRigid Proof_PatchRegular Prop_Patch Model_PeriodicProgram Spec_Periodic Proof_Periodic Proof_PeriodicNodes Prop_Periodic Prop_PeriodicMesh Spec_Macro Proof_Macro Prop_Macro
  Spec_Spd Model_Ldlt Proof_Ldlt Proof_Spd Proof_SpdPeriodic Proof_Linked Prop_Spd Spec_Divergence Proof_Divergence Spec_QuadMesh Proof_QuadMesh Proof_QuadMeshObj Proof_QuadLinked Prop_Conform Prop_Divergence.

Lemma body_facts X C ties bot rgt top lft Lx Ly th x E : mesh_facts X C ties bot rgt top lft Lx Ly -> mesh_body X C th x E ->
  on_mesh C (length C) X x /\ sheet_obj (length C) th x E /\ full_obj (length C) x E /\ affine_obj (length C) x E /\ positive_volume (length C) E /\ el_nne E = 4 /\ el_ndim E = 2 /\ 2 <= el_tdim E.
Proof.
  intros M H. pose proof (mf_tiles _ _ _ _ _ _ _ _ _ M) as HT. destruct H as [nip xi w x Q HR HX HQ|nip xi w thick x P Ht HR HX HP].
  - destruct (quad4_objs X C Lx Ly x nip xi w HT HX HR Q HQ) as (A & B & D & V). split; [exact HX|]. repeat (split; [assumption|]). cbn. lia.
  - destruct (planar_objs X C Lx Ly x nip xi w HT HX HR thick P Ht HP) as (A & B & D & V). split; [exact HX|]. repeat (split; [assumption|]). cbn. lia.
Qed.

(** C93: nothing moves without strain: the periodic program has no mechanism on any of these meshes *)
Theorem C93_stable : forall X C ties bot rgt top lft Lx Ly, quad_mesh X C ties bot rgt top lft Lx Ly ->
  forall th x E o Cs, mesh_body X C th x E -> node_at X o 0 0 -> strictly_elastic (length C) E Cs ->
  no_periodic_mechanism X ties [o] (length X) (length C) C E Cs.
Proof.
  intros X C ties bot rgt top lft Lx Ly H th x E o Cs HB Ho HC. pose proof (quad_mesh_facts _ _ _ _ _ _ _ _ _ H) as M. destruct (body_facts _ _ _ _ _ _ _ _ _ _ _ _ M HB) as (HX & _ & HF & _).
  apply (C90_periodic_stable _ _ _ _ _ _ x E Cs HF HX HC (quad_linked _ _ _ _ _ _ _ _ _ M) (quad_covered _ _ _ _ _ _ _ _ _ M)).
  - exists o. split; [now left|]. apply nth_error_Some. unfold node_at in Ho. congruence.
  - destruct (mf_opposite _ _ _ _ _ _ _ _ _ M) as (kx & ky & b & t & l & r & O). destruct (op_t0 _ _ _ _ _ _ _ _ _ _ _ _ _ _ O) as (_ & _ & T).
    destruct (op_bx _ _ _ _ _ _ _ _ _ _ _ _ _ _ O 0 ltac:(lia)) as (y & N1 & N2). exists (b 0), (t 0), 1. split; [exact T|].
    split; [apply nth_error_Some; unfold node_at in N1; congruence|]. split; [apply nth_error_Some; unfold node_at in N2; congruence|]. split; [lia|].
    apply node_val in N1, N2. rewrite (proj2 N1), (proj2 N2). pose proof (mf_Ly _ _ _ _ _ _ _ _ _ M). lra.
Qed.
Print Assumptions C93_stable.

(** C93: the periodic program of C88 (no external forces, linear material) on any Quad4::Regular or Quad4::FineLayer mesh, for Quad4 and
    Quad4Planar elements, with any solver for symmetric positive definite systems: it returns; the displacement is periodic and in
    equilibrium; its mean gradient is the prescribed one; the forces on the control nodes are the integral of the stress; and their work on
    the mean gradient is the work of the stress (Hill-Mandel) *)
Theorem C93_periodic : forall X C ties bot rgt top lft Lx Ly, quad_mesh X C ties bot rgt top lft Lx Ly ->
  forall th x E o Cs linsolve, mesh_body X C th x E -> node_at X o 0 0 ->
  let nnode := length X in
  let nelem := length C in
  strictly_elastic nelem E Cs -> major_symmetric nelem E Cs -> minor_symmetric nelem E Cs -> spd_solver linsolve ->
  exists ps, periodic_setup X nnode 2 (dofs nnode 2) C 4 ties [o] = Ok ps /\
  let t := ps_t ps in
  let v := mkVector C 4 (tp_dofs t) 2 in
  let sig c ue := ddot42 (el_tdim E) Cs (el_SymGradN_vector E c (of_rows ue)) in
  forall mem du, valid_memory nelem (nnode + 2) 2 mem -> shape2 du (nnode + 2) 2 ->
  let zero := map (fun _ => repeat 0%R 2) (seq 0 (nnode + 2)) in
  forall os c1 c2, (forall k, Permutation (os k) (list_prod (seq 0 (nnode + 2)) (seq 0 2))) -> valid_call nelem c1 -> valid_call nelem c2 ->
  exists disp K s ue fint Fx Fi, newton_tyings linsolve (vt_v (ps_vector ps)) E (zero, ps_K ps, new_Solver) (mkIteration mem (ddot42 (el_tdim E) Cs) Cs zero du) = Ok (disp, K, s) /\
    periodic_disp X ties nnode 2 disp /\ AsElement_nodevec v disp = Ok ue /\ internal_force v E (ddot42 (el_tdim E) Cs) c1 c2 disp = Ok fint /\ periodic_forces (ps_vector ps) os zero fint = Ok (Fx, Fi) /\
    Fx = Fi /\ (forall d, d < tp_nnu t -> val1 Fi d = 0%R) /\ volume nelem E = (th * (Lx * Ly))%R /\
    (forall i j, i < 2 -> j < 2 -> val2 disp (nnode + j) i = val2 du (nnode + j) i /\
       total nelem E (el_GradN_vector E c1 (of_rows ue)) i j = (val2 du (nnode + j) i * volume nelem E)%R /\
       val1 Fi (idx2 (tp_dofs t) (nnode + j) i) = total nelem E (sig c1 ue) i j) /\
    integral nelem E (sig c1 ue) (el_GradN_vector E c1 (of_rows ue)) =
      sumn 2 (fun i => sumn 2 (fun j => val1 Fi (idx2 (tp_dofs t) (nnode + j) i) * val2 du (nnode + j) i))%R.
Proof.
  intros X C ties bot rgt top lft Lx Ly H th x E o Cs linsolve HB Ho nnode nelem HC HS HMi HL. pose proof (quad_mesh_facts _ _ _ _ _ _ _ _ _ H) as M.
  destruct (body_facts _ _ _ _ _ _ _ _ _ _ _ _ M HB) as (HX & HSh & HF & HA & HV & D4 & D2 & Dt). pose proof (affine_elem _ _ _ HA) as HE.
  assert (HCell : cell X (dofs nnode 2) ties [o] nnode 2). { apply (cell2 X nnode Lx Ly ties o); [apply M|apply M|exact Ho|apply M|apply M]. }
  assert (Hcn : connects C nelem 4 nnode).
  { split; [apply M|]. intros e k He Hk. apply (mf_range _ _ _ _ _ _ _ _ _ M (nth e C [])); [now apply nth_In|]. unfold idx2, nth2. apply nth_In. rewrite (proj2 (mf_C _ _ _ _ _ _ _ _ _ M)); [exact Hk|]. now apply nth_In. }
  destruct (C88_setup X (dofs nnode 2) ties [o] nnode 2 C 4 HCell) as [ps [Eps _]].
  exists ps. split; [exact Eps|]. intros t v sig mem du HM Sdu zero os c1 c2 Hos V1 V2.
  assert (Sz : shape2 zero (nnode + 2) 2). { split; [unfold zero; now rewrite map_length, seq_length|]. intros r Hr. unfold zero in Hr. apply in_map_iff in Hr. destruct Hr as [k [<- _]]. reflexivity. }
  assert (Vz : forall n i, val2 zero n i = 0%R).
  { intros n i. unfold val2, nth2, zero. destruct (Nat.lt_ge_cases n (nnode + 2)) as [L|L].
    - rewrite (nth_indep _ [] (repeat 0%R 2)) by (rewrite map_length, seq_length; exact L). rewrite (map_nth (fun _ => repeat 0%R 2) (seq 0 (nnode + 2)) 0 n). destruct i as [|[|[|]]]; reflexivity.
    - rewrite (nth_overflow (map _ _)) by (rewrite map_length, seq_length; exact L). now destruct i. }
  pose proof (C93_stable X C ties bot rgt top lft Lx Ly H th x E o Cs HB Ho HC) as HN. fold nnode nelem in HN.
  assert (Hd0 : periodic_disp X ties nnode 2 zero).
  { split; [exact Sz|]. intros a b k Hab Hk. rewrite !Vz. rewrite sumn_zero; [ring|]. intros l Hl. rewrite Vz. ring. }
  set (it := mkIteration mem (ddot42 (el_tdim E) Cs) Cs zero du).
  rewrite <- D2 in HCell. rewrite <- D4 in Hcn. assert (Eps' : periodic_setup X nnode (el_ndim E) (dofs nnode (el_ndim E)) C (el_nne E) ties [o] = Ok ps) by (rewrite D2, D4; exact Eps).
  replace (dofs nnode 2) with (dofs nnode (el_ndim E)) in HCell by (now rewrite D2).
  assert (HXc : coordinates C nelem (el_nne E) (el_ndim E) X x) by (unfold coordinates; rewrite D4, D2; exact HX).
  assert (Ev : v = mkVector C (el_nne E) (tp_dofs t) (el_ndim E)) by (unfold v; now rewrite D4, D2).
  assert (Hits : Forall (fun it => valid_memory nelem (nnode + el_ndim E) (el_ndim E) (it_mem it) /\ shape2 (it_fext it) (nnode + el_ndim E) (el_ndim E) /\ shape2 (it_du it) (nnode + el_ndim E) (el_ndim E) /\
    solves_matrix linsolve (tp_nnu t) (condensed (tp_nnu t + tp_nnp t + tp_nnd t) (tie (tp_nnu t) (tp_nnu t + tp_nnp t) (vt_Cdu (ps_vector ps)) (vt_Cdp (ps_vector ps)))
      (assembled C (tp_dofs t) nelem (el_nne E) (el_ndim E) (element_stiffness (mkVector C (el_nne E) (tp_dofs t) (el_ndim E)) E (r_K (it_mem it)) (it_C it))))) [it]).
  { constructor; [|constructor]. rewrite D2. split; [exact HM|]. split; [exact Sz|]. split; [exact Sdu|]. rewrite <- D2. apply spd_solver_matrix; [exact HL|].
    apply (C90_periodic_spd X (dofs nnode (el_ndim E)) ties [o] nnode nelem C x E HE HCell Hcn ps Eps'); try assumption.
    - apply HM.
    - now apply elastic_positive. }
  destruct (C89_run X (dofs nnode (el_ndim E)) ties o nnode nelem C x E HA HCell Hcn HXc ps Eps' linsolve [] (ps_K ps) new_Solver (Forall_nil _) eq_refl
    [] it Hits) with (disp := zero) (os := os) (c1 := c1) (c2 := c2) as [disp [K [s [ue [fint [Fx [Fi [E1 [E2 [E3 [E4 [E5 [E6 [_ [E7 E8]]]]]]]]]]]]]]]; try assumption.
  { intros n i Hn Hi. apply Vz. } { intros A e q i k He Hq Hi Hk. reflexivity. } { now rewrite D2. } { now rewrite D2. }
  assert (E2' : AsElement_nodevec v disp = Ok ue) by (rewrite Ev; exact E2). assert (E3' : internal_force v E (ddot42 (el_tdim E) Cs) c1 c2 disp = Ok fint) by (rewrite Ev; exact E3). clear E2 E3. rename E2' into E2. rename E3' into E3.
  destruct (C88_newton X (dofs nnode (el_ndim E)) ties [o] nnode nelem C x E HE HCell Hcn ps Eps' linsolve [] (ps_K ps) new_Solver (Forall_nil _) eq_refl
    [it]) with (disp := zero) as [disp' [K' [s' [EN [HD _]]]]]; [exact Hits|now rewrite D2|]. cbn [app] in E1. rewrite E1 in EN. injection EN as EN _ _. rewrite <- EN in HD. rewrite D2 in HD.
  destruct (C92_cell X C ties bot rgt top lft Lx Ly H th x E HSh HX) as [HVol HG].
  assert (HMd : mesh_dofs C (tp_dofs t) nelem 4 (nnode + 2) 2 (tp_nnu t + tp_nnp t + tp_nnd t)).
  { pose proof (m_mesh X (dofs nnode (el_ndim E)) ties o nnode nelem C x E HE HCell Hcn ps Eps') as Hm. now rewrite D4, D2 in Hm. }
  destruct (AsElement_nodevec_spec v nelem 4 (nnode + 2) 2 _ eq_refl eq_refl HMd disp (proj1 HD)) as [ue' [Eue [_ Vue]]]. rewrite E2 in Eue. injection Eue as <-.
  assert (HU : nodal_elem C nelem disp (of_rows ue)). { intros e m i He Hm Hi. rewrite of_rows_val. now apply Vue. }
  assert (Dd : forall k l, k < 2 -> l < 2 -> val2 disp (nnode + k) l = val2 du (nnode + k) l).
  { intros k l Hk Hl. rewrite <- D2 in Hk, Hl. rewrite (E8 k l Hk Hl), Vz. cbn [app sumL fold_right]. unfold it at 1. cbn [it_du]. ring. }
  assert (HT : forall i j, i < 2 -> j < 2 -> total nelem E (el_GradN_vector E c1 (of_rows ue)) i j = (val2 du (nnode + j) i * volume nelem E)%R).
  { intros i j Hi Hj. rewrite (HG disp (of_rows ue) (fun j k => val2 du (nnode + j) k) HU); try assumption; [reflexivity|]. intros a b k Hab Hk. rewrite (proj2 HD a b k Hab Hk). f_equal. apply sumn_ext. intros l Hl. now rewrite Dd. }
  rewrite D2 in E7. fold t in E7. 
  assert (Ea : AssembleNode v (to_rows nelem (el_nne E) (el_ndim E) (el_Int_gradN_dot_tensor2_dV E c2 (sig c1 ue))) = Ok fint).
  { pose proof E3 as Ef'. unfold internal_force, internal_force_of in Ef'. rewrite E2 in Ef'. cbn [bind] in Ef'. unfold m_nelem in Ef'. unfold v in Ef' at 2. cbn [m_conn] in Ef'. exact Ef'. }
  exists disp, K, s, ue, fint, Fx, Fi. split; [|split; [exact HD|split; [exact E2|split; [exact E3|split; [exact E4|split; [exact E5|split; [exact E6|split; [exact HVol|split]]]]]]]].
  - cbn [foldM] in E1. destruct (newton_tyings linsolve (vt_v (ps_vector ps)) E (zero, ps_K ps, new_Solver) it) as [r| | |] eqn:Er; cbn [bind] in E1; try discriminate. now rewrite E1 in Er || (injection E1 as E1; rewrite E1 in Er; exact Er).
  - intros i j Hi Hj. split; [now apply Dd|]. split; [now apply HT|]. now apply E7.
  - destruct (C89_stress X (dofs nnode (el_ndim E)) ties o nnode nelem C x E HA HCell Hcn HXc ps Eps' os c2 (sig c1 ue) fint zero Fx Fi) as [_ [_ W]]; try assumption; try (rewrite D2; assumption).
    { rewrite Ev in Ea. exact Ea. }
    rewrite (W c1 disp ue V1); [|now rewrite D2|rewrite Ev in E2; exact E2]. rewrite D2, sumn_swap. apply sumn_ext. intros i Hi. apply sumn_ext. intros j Hj. rewrite (E7 j i Hj Hi), Dd by assumption. unfold sig, it. cbn [it_law]. ring.
Qed.
Print Assumptions C93_periodic.

(** C93: without periodicity: it is enough to hold one node, and a second one in a direction perpendicular to one in which they are apart *)
Theorem C93_held : forall X C ties bot rgt top lft Lx Ly, quad_mesh X C ties bot rgt top lft Lx Ly ->
  forall th x E Cs dofs ndof iip a b i, mesh_body X C th x E -> strictly_elastic (length C) E Cs -> mesh_dofs C dofs (length C) 4 (length X) 2 ndof -> no_holes dofs ndof ->
  a < length X -> b < length X -> i < 2 -> val2 X a i <> val2 X b i ->
  In (idx2 dofs a 0) iip -> In (idx2 dofs a 1) iip -> In (idx2 dofs b (1 - i)) iip ->
  no_mechanism (mkVector C 4 dofs 2) (length C) ndof E Cs iip.
Proof.
  intros X C ties bot rgt top lft Lx Ly H th x E Cs dofs ndof iip a b i HB HC Hm Hh La Lb Hi Hne P1 P2 P3 c y Y Hc Ly' Hy EY HZ. pose proof (quad_mesh_facts _ _ _ _ _ _ _ _ _ H) as M.
  destruct (body_facts _ _ _ _ _ _ _ _ _ _ _ _ M HB) as (HX & _ & HF & _ & _ & D4 & D2 & Dt).
  destruct (AsElement_dofval_spec (mkVector C 4 dofs 2) (length C) 4 (length X) 2 ndof eq_refl eq_refl Hm y Ly') as [Y' [EY' [_ VY]]]. rewrite EY in EY'. injection EY' as <-. cbn [m_conn m_dofs] in VY.
  set (u := tab2 (length X) 2 (fun n j => val1 y (idx2 dofs n j))).
  assert (Vu : forall n j, n < length X -> j < 2 -> val2 u n j = val1 y (idx2 dofs n j)) by (intros n j Hn Hj; unfold u, val2; exact (tab2_nth 0%R (length X) 2 (fun n j => val1 y (idx2 dofs n j)) n j Hn Hj)).
  assert (HR : forall e, e < length C -> exists s t r, forall m, m < 4 -> moves X u s t r (idx2 C e m)).
  { intros e He. destruct (energy_rigid (length C) x E Cs c (of_rows Y) HF HC Hc HZ e He) as [s [t [r HH]]]. exists s, t, r. intros m Hm'. destruct (HH m Hm') as [A B].
    assert (L : idx2 C e m < length X) by (now apply (md_node _ _ _ _ _ _ _ Hm)). rewrite HX in A, B by lia. rewrite of_rows_val in A, B. rewrite VY in A, B by lia. split; rewrite Vu by lia; assumption. }
  assert (P0 : 0 < length C) by (pose proof (mf_nonempty _ _ _ _ _ _ _ _ _ M); lia). destruct (HR 0 P0) as [s [t [r H0]]].
  assert (HA : forall p, p < length X -> moves X u s t r p).
  { intros p Hp. destruct (quad_covered _ _ _ _ _ _ _ _ _ M p Hp) as [e [m [He [Hm' <-]]]]. apply (linked_moves C (length C) X u HR s t r 0 e (quad_linked _ _ _ _ _ _ _ _ _ M e He) H0 m Hm'). }
  destruct (HA a La) as [A1 A2]. destruct (HA b Lb) as [B1 B2]. rewrite Vu in A1, A2, B1, B2 by lia. rewrite (Hy _ P1) in A1. rewrite (Hy _ P2) in A2.
  assert (R0 : r = 0%R).
  { destruct i as [|[|i]]; [| |lia]; cbn [Nat.sub] in P3; [rewrite (Hy _ P3) in B2; apply (Rmult_eq_reg_r (val2 X a 0 - val2 X b 0))|rewrite (Hy _ P3) in B1; apply (Rmult_eq_reg_r (val2 X a 1 - val2 X b 1))]; lra. }
  intros d Hd. destruct (dof_node C dofs E (length C) (length X) ndof ltac:(rewrite D4, D2; exact Hm) Hh d Hd) as [n [k [Hn [Hk ->]]]]. rewrite D2 in Hk. rewrite <- Vu by assumption. destruct (HA n Hn) as [N1 N2].
  rewrite R0 in *. destruct k as [|[|k]]; [rewrite N1|rewrite N2|lia]; lra.
Qed.
Print Assumptions C93_held.

(** C93: so that the statics program returns the one solution, for all prescribed displacements and forces, with any such solver *)
Theorem C93_statics : forall X C ties bot rgt top lft Lx Ly, quad_mesh X C ties bot rgt top lft Lx Ly ->
  forall th x E Cs dofs ndof iip a b i, mesh_body X C th x E -> strictly_elastic (length C) E Cs -> major_symmetric (length C) E Cs -> minor_symmetric (length C) E Cs ->
  mesh_dofs C dofs (length C) 4 (length X) 2 ndof -> no_holes dofs ndof -> prescribed ndof iip ->
  a < length X -> b < length X -> i < 2 -> val2 X a i <> val2 X b i -> In (idx2 dofs a 0) iip -> In (idx2 dofs a 1) iip -> In (idx2 dofs b (1 - i)) iip ->
  let v := mkVector C 4 dofs 2 in
  forall linsolve mem fext disp0 bc, spd_solver linsolve -> valid_memory (length C) (length X) 2 mem -> nodal dofs (length X) 2 fext -> nodal dofs (length X) 2 bc ->
  shape2 disp0 (length X) 2 -> (forall n j, n < length X -> j < 2 -> val2 disp0 n j = 0%R) ->
  let solution disp fint := nodal dofs (length X) 2 disp /\ internal_force v E (ddot42 (el_tdim E) Cs) (r_eps0 mem) (r_f0 mem) disp = Ok fint /\
    forall m j, m < length X -> j < 2 -> (In (idx2 dofs m j) iip -> val2 disp m j = val2 bc m j) /\ (~ In (idx2 dofs m j) iip -> val2 fint m j = val2 fext m j) in
  exists K0 p disp fint fext' fres, new_MatrixPartitioned v iip = Ok K0 /\ new_VectorPartitioned v iip = Ok p /\
    statics linsolve mem p K0 new_Solver E (ddot42 (el_tdim E) Cs) Cs fext disp0 bc = Ok (disp, fint, fext', fres) /\ solution disp fint /\
    forall disp2 fint2, solution disp2 fint2 -> disp2 = disp.
Proof.
  intros X C ties bot rgt top lft Lx Ly H th x E Cs dofs ndof iip a b i HB HC HS HMi Hm Hh Hp La Lb Hi Hne P1 P2 P3 v linsolve mem fext disp0 bc HL HM Nf Nb S0 Z0 solution.
  pose proof (C93_held X C ties bot rgt top lft Lx Ly H th x E Cs dofs ndof iip a b i HB HC Hm Hh La Lb Hi Hne P1 P2 P3) as NM. pose proof (quad_mesh_facts _ _ _ _ _ _ _ _ _ H) as M.
  destruct (body_facts _ _ _ _ _ _ _ _ _ _ _ _ M HB) as (_ & _ & _ & HA & HV & D4 & D2 & Dt). pose proof (affine_elem _ _ _ HA) as HE.
  destruct (mp_new v (length C) 4 (length X) 2 ndof eq_refl eq_refl Hm iip Hp Hh) as [K0 [E0 [[[Ep _] _] _]]].
  pose proof (C90_statics C dofs (length C) (length X) ndof x E iip HE) as T. cbv zeta in T. rewrite D4, D2 in T.
  destruct (T Hm Hp Hh linsolve [] K0 K0 new_Solver (MP_p K0) HL (Forall_nil _) E0 eq_refl Ep mem Cs fext disp0 bc HM HMi HS (elastic_positive _ _ _ HC) HV NM Nf Nb S0 Z0) as [disp [fint [fext' [fres [Er [SO UN]]]]]].
  exists K0, (MP_p K0), disp, fint, fext', fres. split; [exact E0|]. split; [exact Ep|]. split; [exact Er|]. split; [exact SO|]. exact UN.
Qed.
Print Assumptions C93_statics.

(** C93: and passes the patch test: if the whole boundary is given an affine displacement, then all nodes get it *)
Theorem C93_patch : forall X C ties bot rgt top lft Lx Ly, quad_mesh X C ties bot rgt top lft Lx Ly ->
  let nnode := length X in
  forall th x E Cs iip, mesh_body X C th x E -> strictly_elastic (length C) E Cs -> major_symmetric (length C) E Cs -> minor_symmetric (length C) E Cs -> uniform_stiffness (length C) E Cs ->
  prescribed (nnode * 2) iip -> (forall n j, In n bot \/ In n rgt \/ In n top \/ In n lft -> j < 2 -> In (idx2 (dofs nnode 2) n j) iip) ->
  let v := mkVector C 4 (dofs nnode 2) 2 in
  forall linsolve mem fext disp0 bc, spd_solver linsolve -> valid_memory (length C) nnode 2 mem -> shape2 fext nnode 2 -> shape2 bc nnode 2 ->
  shape2 disp0 nnode 2 -> (forall n j, n < nnode -> j < 2 -> val2 disp0 n j = 0%R) ->
  forall a G, (forall n i, n < nnode -> i < 2 -> In (idx2 (dofs nnode 2) n i) iip -> val2 bc n i = (a i + sumn 2 (fun j => G i j * val2 X n j))%R) ->
  (forall n i, n < nnode -> i < 2 -> ~ In (idx2 (dofs nnode 2) n i) iip -> val2 fext n i = 0%R) ->
  exists K0 p disp fint fext' fres, new_MatrixPartitioned v iip = Ok K0 /\ new_VectorPartitioned v iip = Ok p /\
    statics linsolve mem p K0 new_Solver E (ddot42 (el_tdim E) Cs) Cs fext disp0 bc = Ok (disp, fint, fext', fres) /\ affine_field nnode X a G disp.
Proof.
  intros X C ties bot rgt top lft Lx Ly H nnode th x E Cs iip HB HC HS HMi HU Hp Hbd v linsolve mem fext disp0 bc HL HM Sf Sb S0 Z0 a G Hbc Hf.
  pose proof (quad_mesh_facts _ _ _ _ _ _ _ _ _ H) as M. destruct (body_facts _ _ _ _ _ _ _ _ _ _ _ _ M HB) as (HX & HSh & _ & HA & HV & D4 & D2 & Dt). pose proof (affine_elem _ _ _ HA) as HE.
  destruct (mf_opposite _ _ _ _ _ _ _ _ _ M) as (kx & ky & b & t & l & r & O). destruct (op_bx _ _ _ _ _ _ _ _ _ _ _ _ _ _ O 0 ltac:(lia)) as (x0 & N1 & N2).
  assert (L1 : b 0 < nnode) by (apply nth_error_Some; unfold node_at in N1; congruence). assert (L2 : t 0 < nnode) by (apply nth_error_Some; unfold node_at in N2; congruence).
  assert (B1 : In (b 0) bot) by (rewrite (op_b _ _ _ _ _ _ _ _ _ _ _ _ _ _ O); apply in_map, in_seq; lia). assert (B2 : In (t 0) top) by (rewrite (op_t _ _ _ _ _ _ _ _ _ _ _ _ _ _ O); apply in_map, in_seq; lia).
  assert (Hm : mesh_dofs C (dofs nnode 2) (length C) 4 nnode 2 (nnode * 2)).
  { constructor; [apply M|apply Proof_Numbering.dofs_shape| |].
    - intros e k He Hk. apply (mf_range _ _ _ _ _ _ _ _ _ M (nth e C [])); [now apply nth_In|]. unfold idx2, nth2. apply nth_In. rewrite (proj2 (mf_C _ _ _ _ _ _ _ _ _ M)); [exact Hk|]. now apply nth_In.
    - rewrite Proof_Numbering.concat_dofs. destruct nnode as [|n]; [lia|]. change (S n * 2) with (S (S (n * 2))). now rewrite Proof_MeshGeometry.fold_max_seq. }
  pose proof (dofs_no_holes nnode 2) as Hh.
  assert (Own : forall n, n < nnode -> own_dofs (dofs nnode 2) nnode 2 n) by (intros n Hn i n' j Hi Hn' Hj Eq; apply (dofs_own nnode 2); assumption).
  assert (Nod : forall u, shape2 u nnode 2 -> nodal (dofs nnode 2) nnode 2 u).
  { intros u Su. split; [exact Su|]. intros m i n j Hm' Hi' Hn' Hj' Eq. destruct (dofs_own nnode 2 m i n j Hm' Hi' Hn' Hj' Eq) as [-> ->]. reflexivity. }
  assert (NM : no_mechanism v (length C) (nnode * 2) E Cs iip).
  { apply (C93_held X C ties bot rgt top lft Lx Ly H th x E Cs (dofs nnode 2) (nnode * 2) iip (b 0) (t 0) 1); try assumption; try lia; try (apply Hbd; auto; lia).
    apply node_val in N1, N2. rewrite (proj2 N1), (proj2 N2). pose proof (mf_Ly _ _ _ _ _ _ _ _ _ M). lra. }
  destruct (mp_new v (length C) 4 nnode 2 (nnode * 2) eq_refl eq_refl Hm iip Hp Hh) as [K0 [E0 [[[Ep _] _] _]]].
  pose proof (C86_patch C (dofs nnode 2) (length C) nnode (nnode * 2) X x E iip (sheet_patch _ _ _ _ HSh)) as T. cbv zeta in T. rewrite D4, D2 in T.
  destruct (T Hm HX Hp Hh linsolve [] K0 K0 new_Solver (MP_p K0) (Forall_nil _) E0 eq_refl Ep mem Cs fext disp0 bc HM HMi HU NM) with (a := a) (G := G) as [disp [fint [fext' [fres [Er HAf]]]]]; auto.
  - intros K' Ea. pose proof (C90_statics_spd C (dofs nnode 2) (length C) nnode (nnode * 2) x E iip HE) as T2. cbv zeta in T2. rewrite D4, D2 in T2.
    destruct (T2 Hm Hp Hh (r_K mem) Cs (MP_p K0) K0 K' ltac:(apply HM) HS (elastic_positive _ _ _ HC) HV NM Ep eq_refl Ea) as [Q1 [_ Q2]]. now apply HL.
  - intros n i Hn Hi Hin. split; [now apply Hf|]. split; [|now apply Own].
    apply (C91_closed X C ties bot rgt top lft Lx Ly H n Hn); intros K; apply Hin; apply Hbd; auto.
  - exists K0, (MP_p K0), disp, fint, fext', fres. auto.
Qed.
Print Assumptions C93_patch.
