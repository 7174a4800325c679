(** Property C104: the programs in three dimensions, on every mesh of Mesh::Hex8::Regular. *)
From Coq Require Import Reals Lra Lia.
From Verif Require Import Model_Element Spec_Element Proof_Element Proof_ElementQuad4 Proof_ElementMath Base Spec Spec2d Spec3d Sums Spec_Vector Spec_Matrix Spec_MatrixOps Spec_Tyings Spec_Tiling Spec_Conform Model_Numbering Model_Vector Proof_Vector Model_VectorPartitioned Model_Sparse Model_Tyings Prop_Tyings
  Model_Matrix Proof_Matrix Model_MatrixPartitioned Proof_MatrixPartitioned Prop_MatrixPartitioned Model_MatrixTyings Spec_MatrixTyings Proof_MatrixTyings Proof_Tyings2 Model_MeshGeometry Model_Regular2d Proof_Regular2d Model_Hex8Regular Proof_Hex8Regular Model_Pipeline Spec_Pipeline Spec_Patch Proof_PipelineElem Proof_Pipeline Proof_PipelineBalance
  Prop_Pipeline Proof_Patch Proof_PatchRigid Proof_PatchRegular Prop_Patch Model_PeriodicProgram Spec_Periodic Proof_Periodic Proof_PeriodicNodes Prop_Periodic Prop_PeriodicMesh Spec_Macro Proof_Macro Prop_Macro
  Spec_Spd Model_Ldlt Proof_Ldlt Proof_Spd Proof_SpdPeriodic Proof_Linked Prop_Spd Spec_HexMesh Proof_HexBox Proof_HexGrid Proof_HexBody Proof_HexPatch.
From Verif Require Proof_HexLine.

(** C104: an element that is a box, with a rule of the library: only rigid motions have no energy *)
Theorem C104_rigid : forall nelem x E Cs, box_obj nelem x E -> strictly_elastic nelem E Cs ->
  forall c u, valid_call nelem c -> integral nelem E (ddot42 (el_tdim E) Cs (el_GradN_vector E c u)) (el_GradN_vector E c u) = 0%R -> forall e, e < nelem -> rigid3 x u e.
Proof. intros nelem x E Cs HE HC c u Hc HZ. exact (energy_rigid3 nelem x E Cs c u HE HC Hc HZ). Qed.
Print Assumptions C104_rigid.

(** C104: there is a mechanism if and only if a rigid motion of the whole body is allowed by the prescribed and the shared DOFs *)
Theorem C104_restrained : forall m, hex_mesh m -> forall x E Cs dofs ndof iip, hex_body m x E -> strictly_elastic (hex_nelem m) E Cs -> minor_symmetric (hex_nelem m) E Cs ->
  mesh_dofs (hex_conn m) dofs (hex_nelem m) 8 (hex_nnode m) 3 ndof -> no_holes dofs ndof ->
  (no_mechanism (mkVector (hex_conn m) 8 dofs 3) (hex_nelem m) ndof E Cs iip <-> restrained (hex_coor m) dofs iip (hex_nnode m)).
Proof.
  intros m (Hh & X1 & Y1 & Z1) x E Cs dofs ndof iip HB HC HMi Hm Hho. split.
  - exact (restrained_needed m Hh X1 Y1 Z1 x E HB dofs ndof iip Hm Hho Cs HMi).
  - exact (restrained_ok m Hh X1 Y1 Z1 x E HB dofs ndof iip Hm Hho Cs HC).
Qed.
Print Assumptions C104_restrained.

(** C104: it is enough to hold three nodes that are not on one line *)
Theorem C104_three_nodes : forall X dofs iip nnode a b c, a < nnode -> b < nnode -> c < nnode ->
  (forall i, i < 3 -> In (idx2 dofs a i) iip /\ In (idx2 dofs b i) iip /\ In (idx2 dofs c i) iip) ->
  let d := fun n i => (val2 X n i - val2 X a i)%R in
  (d b 1%nat * d c 2%nat - d b 2%nat * d c 1%nat <> 0 \/ d b 2%nat * d c 0%nat - d b 0%nat * d c 2%nat <> 0 \/ d b 0%nat * d c 1%nat - d b 1%nat * d c 0%nat <> 0)%R ->
  restrained X dofs iip nnode.
Proof.
  intros X dofs iip nnode a b c La Lb Lc HI d HD t r [_ H] n i Hn Hi.
  assert (A : forall k, k < 3 -> rigid_motion t r (val2 X a) k = 0%R) by (intros k Hk; apply H; try assumption; apply (HI k Hk)).
  assert (B : forall k, k < 3 -> rigid_motion t r (val2 X b) k = 0%R) by (intros k Hk; apply H; try assumption; apply (HI k Hk)).
  assert (C : forall k, k < 3 -> rigid_motion t r (val2 X c) k = 0%R) by (intros k Hk; apply H; try assumption; apply (HI k Hk)).
  pose proof (A 0 ltac:(lia)) as A0. pose proof (A 1 ltac:(lia)) as A1. pose proof (A 2 ltac:(lia)) as A2.
  pose proof (B 0 ltac:(lia)) as B0. pose proof (B 1 ltac:(lia)) as B1. pose proof (B 2 ltac:(lia)) as B2.
  pose proof (C 0 ltac:(lia)) as C0. pose proof (C 1 ltac:(lia)) as C1. pose proof (C 2 ltac:(lia)) as C2.
  cbn [rigid_motion] in *.
  assert (b0 : (r 1%nat * d b 2%nat = r 2%nat * d b 1%nat)%R) by (unfold d; lra). assert (b1 : (r 2%nat * d b 0%nat = r 0%nat * d b 2%nat)%R) by (unfold d; lra). assert (b2 : (r 0%nat * d b 1%nat = r 1%nat * d b 0%nat)%R) by (unfold d; lra).
  assert (c0 : (r 1%nat * d c 2%nat = r 2%nat * d c 1%nat)%R) by (unfold d; lra). assert (c1 : (r 2%nat * d c 0%nat = r 0%nat * d c 2%nat)%R) by (unfold d; lra). assert (c2 : (r 0%nat * d c 1%nat = r 1%nat * d c 0%nat)%R) by (unfold d; lra).
  pose proof (Proof_HexLine.axis_zero _ _ _ _ _ _ _ _ _ b0 b1 b2 c0 c1 c2 HD) as Z.
  destruct Z as (Z0 & Z1 & Z2). rewrite Z0, Z1, Z2 in *. destruct i as [|[|[|]]]; [| | |lia]; cbn [rigid_motion]; rewrite ?Z0, ?Z1, ?Z2; lra.
Qed.
Print Assumptions C104_three_nodes.

(** C104: the statics program on a body that is held returns the one solution, for all prescribed displacements and forces, with any solver for
    symmetric positive definite systems *)
Theorem C104_statics : forall m, hex_mesh m -> forall x E Cs dofs ndof iip, hex_body m x E -> strictly_elastic (hex_nelem m) E Cs -> major_symmetric (hex_nelem m) E Cs -> minor_symmetric (hex_nelem m) E Cs ->
  let nnode := hex_nnode m in
  mesh_dofs (hex_conn m) dofs (hex_nelem m) 8 nnode 3 ndof -> no_holes dofs ndof -> prescribed ndof iip -> restrained (hex_coor m) dofs iip nnode ->
  let v := mkVector (hex_conn m) 8 dofs 3 in
  forall linsolve mem fext disp0 bc, spd_solver linsolve -> valid_memory (hex_nelem m) nnode 3 mem -> nodal dofs nnode 3 fext -> nodal dofs nnode 3 bc ->
  shape2 disp0 nnode 3 -> (forall n j, n < nnode -> j < 3 -> val2 disp0 n j = 0%R) ->
  let solution disp fint := nodal dofs nnode 3 disp /\ internal_force v E (ddot42 (el_tdim E) Cs) (r_eps0 mem) (r_f0 mem) disp = Ok fint /\
    forall n j, n < nnode -> j < 3 -> (In (idx2 dofs n j) iip -> val2 disp n j = val2 bc n j) /\ (~ In (idx2 dofs n j) iip -> val2 fint n j = val2 fext n j) in
  exists K0 p disp fint fext' fres, new_MatrixPartitioned v iip = Ok K0 /\ new_VectorPartitioned v iip = Ok p /\
    statics linsolve mem p K0 new_Solver E (ddot42 (el_tdim E) Cs) Cs fext disp0 bc = Ok (disp, fint, fext', fres) /\ solution disp fint /\
    forall disp2 fint2, solution disp2 fint2 -> disp2 = disp.
Proof.
  intros m (Hh & X1 & Y1 & Z1) x E Cs dofs ndof iip HB HC HS HMi nnode Hm Hho Hp HR v linsolve mem fext disp0 bc HL HM Nf Nb S0 Z0 solution.
  pose proof (restrained_ok m Hh X1 Y1 Z1 x E HB dofs ndof iip Hm Hho Cs HC HR) as NM. pose proof (body_elem m Hh X1 Y1 Z1 x E HB) as HE. pose proof (body_positive m Hh x E HB) as HV.
  destruct (body_dims m Hh x E HB) as (_ & D8 & D3 & _).
  destruct (mp_new v (hex_nelem m) 8 nnode 3 ndof eq_refl eq_refl Hm iip Hp Hho) as [K0 [E0 [[[Ep _] _] _]]].
  pose proof (C90_statics (hex_conn m) dofs (hex_nelem m) nnode ndof x E iip HE) as T. cbv zeta in T. rewrite D8, D3 in T.
  destruct (T Hm Hp Hho linsolve [] K0 K0 new_Solver (MP_p K0) HL (Forall_nil _) E0 eq_refl Ep mem Cs fext disp0 bc HM HMi HS (elastic_positive _ _ _ HC) HV NM Nf Nb S0 Z0) as [disp [fint [fext' [fres [Er [SO UN]]]]]].
  exists K0, (MP_p K0), disp, fint, fext', fres. split; [exact E0|]. split; [exact Ep|]. split; [exact Er|]. split; [exact SO|]. exact UN.
Qed.
Print Assumptions C104_statics.

(** C104: and passes the patch test: if all nodes of the faces are given an affine displacement, then all nodes get it *)
Theorem C104_patch : forall m, hex_mesh m -> let nnode := hex_nnode m in
  forall x E Cs iip, hex_body m x E -> strictly_elastic (hex_nelem m) E Cs -> major_symmetric (hex_nelem m) E Cs -> minor_symmetric (hex_nelem m) E Cs -> uniform_stiffness (hex_nelem m) E Cs ->
  prescribed (nnode * 3) iip -> (forall n j, face_node m n -> j < 3 -> In (idx2 (dofs nnode 3) n j) iip) ->
  let v := mkVector (hex_conn m) 8 (dofs nnode 3) 3 in
  forall linsolve mem fext disp0 bc, spd_solver linsolve -> valid_memory (hex_nelem m) nnode 3 mem -> shape2 fext nnode 3 -> shape2 bc nnode 3 ->
  shape2 disp0 nnode 3 -> (forall n j, n < nnode -> j < 3 -> val2 disp0 n j = 0%R) ->
  forall a G, (forall n i, n < nnode -> i < 3 -> In (idx2 (dofs nnode 3) n i) iip -> val2 bc n i = (a i + sumn 3 (fun j => G i j * val2 (hex_coor m) n j))%R) ->
  (forall n i, n < nnode -> i < 3 -> ~ In (idx2 (dofs nnode 3) n i) iip -> val2 fext n i = 0%R) ->
  exists K0 p disp fint fext' fres, new_MatrixPartitioned v iip = Ok K0 /\ new_VectorPartitioned v iip = Ok p /\
    statics linsolve mem p K0 new_Solver E (ddot42 (el_tdim E) Cs) Cs fext disp0 bc = Ok (disp, fint, fext', fres) /\ affine_field3 nnode (hex_coor m) a G disp.
Proof.
  intros m HM0 nnode x E Cs iip HB HC HS HMi HU Hp Hbd v linsolve mem fext disp0 bc HL HM Sf Sb S0 Z0 a G Hbc Hf. pose proof HM0 as (Hh & X1 & Y1 & Z1).
  pose proof (body_elem m Hh X1 Y1 Z1 x E HB) as HE. destruct (body_dims m Hh x E HB) as (_ & D8 & D3 & _).
  assert (Pn : 0 < nnode) by (unfold nnode, hex_nnode; nia).
  assert (Hm : mesh_dofs (hex_conn m) (dofs nnode 3) (hex_nelem m) 8 nnode 3 (nnode * 3)).
  { constructor; [apply body_connects|apply Proof_Numbering.dofs_shape|apply body_connects|]. rewrite Proof_Numbering.concat_dofs. destruct nnode as [|n]; [lia|]. change (S n * 3) with (S (S (S (n * 3)))). now rewrite Proof_MeshGeometry.fold_max_seq. }
  pose proof (dofs_no_holes nnode 3) as Hho.
  assert (Own : forall n, n < nnode -> own_dofs (dofs nnode 3) nnode 3 n) by (intros n Hn i n' j Hi Hn' Hj Eq; apply (dofs_own nnode 3); assumption).
  assert (Nod : forall u, shape2 u nnode 3 -> nodal (dofs nnode 3) nnode 3 u).
  { intros u Su. split; [exact Su|]. intros k i n j Hk Hi' Hn' Hj' Eq. destruct (dofs_own nnode 3 k i n j Hk Hi' Hn' Hj' Eq) as [-> ->]. reflexivity. }
  assert (HR : restrained (hex_coor m) (dofs nnode 3) iip nnode).
  { assert (L : forall ix iy iz, ix <= hx_nelx m -> iy <= hx_nely m -> iz <= hx_nelz m -> N3 m ix iy iz < nnode) by (intros; now apply N3_lt).
    apply (C104_three_nodes _ _ _ _ (N3 m 0 0 0) (N3 m (hx_nelx m) 0 0) (N3 m 0 (hx_nely m) 0)); try (apply L; lia).
    - intros i Hi. repeat split; (apply Hbd; [apply (face_iff m Hh); lia|exact Hi]).
    - right. right. rewrite !coor_N by lia. cbn [P3 INR]. assert (Hx : (0 < hx_h m * INR (hx_nelx m))%R) by (apply Rmult_lt_0_compat; [exact Hh|apply lt_0_INR; lia]).
      assert (Hy : (0 < hx_h m * INR (hx_nely m))%R) by (apply Rmult_lt_0_compat; [exact Hh|apply lt_0_INR; lia]). pose proof (Rmult_lt_0_compat _ _ Hx Hy). nra. }
  pose proof (restrained_ok m Hh X1 Y1 Z1 x E HB (dofs nnode 3) (nnode * 3) iip Hm Hho Cs HC HR) as NM. fold v in NM.
  destruct (mp_new v (hex_nelem m) 8 nnode 3 (nnode * 3) eq_refl eq_refl Hm iip Hp Hho) as [K0 [E0 [[[Ep _] _] _]]].
  pose proof (C82_statics (hex_conn m) (dofs nnode 3) (hex_nelem m) nnode (nnode * 3) x E iip HE) as T. cbv zeta in T. rewrite D8, D3 in T. fold v in T.
  destruct (T Hm Hp Hho linsolve [] K0 K0 new_Solver (MP_p K0) (Forall_nil _) E0 eq_refl Ep mem Cs fext disp0 bc HM HMi) as [disp [fint [fext' [fres [Er [Nd [_ [Hfi H]]]]]]]]; auto.
  { intros K' Ea. pose proof (C90_statics_spd (hex_conn m) (dofs nnode 3) (hex_nelem m) nnode (nnode * 3) x E iip HE) as T2. cbv zeta in T2. rewrite D8, D3 in T2.
    destruct (T2 Hm Hp Hho (r_K mem) Cs (MP_p K0) K0 K' ltac:(apply HM) HS (elastic_positive _ _ _ HC) (body_positive m Hh x E HB) NM Ep eq_refl Ea) as [Q1 [_ Q2]]. now apply HL. }
  exists K0, (MP_p K0), disp, fint, fext', fres. split; [exact E0|]. split; [exact Ep|]. split; [exact Er|]. split; [exact (proj1 Nd)|].
  set (u := tab2 nnode 3 (fun n i => (a i + sumn 3 (fun j => G i j * val2 (hex_coor m) n j))%R)).
  assert (Vu : forall n i, n < nnode -> i < 3 -> val2 u n i = (a i + sumn 3 (fun j => G i j * val2 (hex_coor m) n j))%R).
  { intros n i Hn Hj. unfold val2, u. now apply (tab2_nth 0%R nnode 3 (fun n i => (a i + sumn 3 (fun j => G i j * val2 (hex_coor m) n j))%R)). }
  assert (Su : Spec.shape2 u nnode 3) by apply tab2_shape. pose proof (Nod u Su) as Nu.
  pose proof HM as (M1 & M2 & _).
  destruct (affine_force3 m Hh X1 Y1 Z1 x E HB (dofs nnode 3) (nnode * 3) Hm (ddot42 (el_tdim E) Cs) (r_eps0 mem) (r_eps0 mem) a G u M1 M1 (uniform_homogeneous _ _ _ HU) (conj Su Vu)) as [f [Ef [_ Vf]]].
  destruct (elem_obj_raw _ _ _ HE) as [B Ho].
  assert (Hmd' : mesh_dofs (hex_conn m) (dofs nnode 3) (hex_nelem m) (el_nne E) nnode (el_ndim E) (nnode * 3)) by (now rewrite D8, D3).
  assert (Ev : v = mkVector (hex_conn m) (el_nne E) (dofs nnode 3) (el_ndim E)) by (unfold v; now rewrite D8, D3).
  fold v in Ef. 
  pose proof (Hfi _ _ M1 M1) as Hfi'.
  assert (NM' : no_mechanism (mkVector (hex_conn m) (el_nne E) (dofs nnode 3) (el_ndim E)) (hex_nelem m) (nnode * 3) E Cs iip) by (rewrite <- Ev; exact NM).
  intros n i Hn Hj. rewrite <- Vu by assumption.
  apply (unique (hex_conn m) (dofs nnode 3) E (hex_nelem m) nnode (nnode * 3) B Ho Hmd' iip Hho Cs (r_eps0 mem) disp u fint f M1 HMi NM'); rewrite ?D8, ?D3; try assumption.
  - intros n' i' Hn' Hi' Hin. destruct (H n' i' Hn' Hi') as (_ & Hq & _). rewrite Hq by assumption. rewrite Vu by assumption. now apply Hbc.
  - intros n' i' Hn' Hi' Hin. destruct (H n' i' Hn' Hi') as (_ & _ & Hq1 & Hq2). rewrite <- Hq2, Hq1, Hf by assumption. symmetry. apply Vf; try assumption; [|now apply Own].
    intros K. apply Hin. now apply Hbd.
Qed.
Print Assumptions C104_patch.

(** C104: the mean gradient depends only on the displacement of the nodes of the faces *)
Theorem C104_boundary : forall m, hex_mesh m -> forall x E c u1 u2 U1 U2, hex_body m x E -> valid_call (hex_nelem m) c ->
  (forall e k i, e < hex_nelem m -> k < 8 -> i < 3 -> U1 [e;k;i] = val2 u1 (idx2 (hex_conn m) e k) i /\ U2 [e;k;i] = val2 u2 (idx2 (hex_conn m) e k) i) ->
  (forall n j, face_node m n -> j < 3 -> val2 u1 n j = val2 u2 n j) ->
  forall i j, i < 3 -> j < 3 -> total (hex_nelem m) E (el_GradN_vector E c U1) i j = total (hex_nelem m) E (el_GradN_vector E c U2) i j.
Proof.
  intros m (Hh & X1 & Y1 & Z1) x E c u1 u2 U1 U2 HB Hc HU HF i j Hi Hj.
  rewrite (hex_total m x E c u1 U1 i j Hh HB Hc (fun e k i He Hk Hi => proj1 (HU e k i He Hk Hi)) Hi Hj), (hex_total m x E c u2 U2 i j Hh HB Hc (fun e k i He Hk Hi => proj2 (HU e k i He Hk Hi)) Hi Hj).
  f_equal. apply (faces_ext m X1 Y1 Z1); [|exact Hi]. intros ix iy iz Lx Ly Lz HX. apply HF; [|exact Hj]. now apply (face_iff m Hh).
Qed.
Print Assumptions C104_boundary.

(** C104: in a periodic displacement it is the prescribed gradient *)
Theorem C104_cell : forall m, hex_mesh m -> forall x E, hex_body m x E ->
  volume (hex_nelem m) E = (hx_h m * INR (hx_nelx m) * (hx_h m * INR (hx_nely m)) * (hx_h m * INR (hx_nelz m)))%R /\
  forall u U F, (forall e k i, e < hex_nelem m -> k < 8 -> i < 3 -> U [e;k;i] = val2 u (idx2 (hex_conn m) e k) i) ->
  (forall a b j, In (a, b) (hex_nodesPeriodic m) -> j < 3 -> val2 u b j = (val2 u a j + sumn 3 (fun k => F j k * (val2 (hex_coor m) b k - val2 (hex_coor m) a k)))%R) ->
  forall c i j, valid_call (hex_nelem m) c -> i < 3 -> j < 3 -> total (hex_nelem m) E (el_GradN_vector E c U) i j = (F j i * volume (hex_nelem m) E)%R.
Proof.
  intros m (Hh & X1 & Y1 & Z1) x E HB. pose proof (hex_volume m x E Hh HB) as HV. split; [exact HV|]. intros u U F HU HT c i j Hc Hi Hj.
  rewrite (hex_total m x E c u U i j Hh HB Hc HU Hi Hj), HV. now apply faces_periodic.
Qed.
Print Assumptions C104_cell.

(** C104: nothing moves without strain: the periodic program has no mechanism *)
Theorem C104_stable : forall m, hex_mesh m -> forall x E o Cs, hex_body m x E -> strictly_elastic (hex_nelem m) E Cs -> o < hex_nnode m ->
  no_periodic_mechanism (hex_coor m) (hex_nodesPeriodic m) [o] (hex_nnode m) (hex_nelem m) (hex_conn m) E Cs.
Proof. intros m (Hh & X1 & Y1 & Z1) x E o Cs HB HC Ho. exact (stable3 m Hh X1 Y1 Z1 x E HB Cs o HC Ho). Qed.
Print Assumptions C104_stable.

(** C104: the periodic program of C88 (no external forces, linear material), with any solver for symmetric positive definite systems: it
    returns; the displacement is periodic and in equilibrium; its mean gradient is the prescribed one; the forces on the control nodes are
    the integral of the stress; and their work on the mean gradient is the work of the stress (Hill-Mandel) *)
Theorem C104_periodic : forall m, hex_mesh m -> forall x E o Cs linsolve, hex_body m x E -> node_at3 (hex_coor m) o 0 0 0 ->
  let nnode := hex_nnode m in
  let nelem := hex_nelem m in
  strictly_elastic nelem E Cs -> major_symmetric nelem E Cs -> minor_symmetric nelem E Cs -> spd_solver linsolve ->
  exists ps, periodic_setup (hex_coor m) nnode 3 (dofs nnode 3) (hex_conn m) 8 (hex_nodesPeriodic m) [o] = Ok ps /\
  let t := ps_t ps in
  let v := mkVector (hex_conn m) 8 (tp_dofs t) 3 in
  let sig c ue := ddot42 (el_tdim E) Cs (el_SymGradN_vector E c (of_rows ue)) in
  forall mem du, valid_memory nelem (nnode + 3) 3 mem -> shape2 du (nnode + 3) 3 ->
  let zero := map (fun _ => repeat 0%R 3) (seq 0 (nnode + 3)) in
  forall os c1 c2, (forall k, Permutation (os k) (list_prod (seq 0 (nnode + 3)) (seq 0 3))) -> valid_call nelem c1 -> valid_call nelem c2 ->
  exists disp K s ue fint Fx Fi, newton_tyings linsolve (vt_v (ps_vector ps)) E (zero, ps_K ps, new_Solver) (mkIteration mem (ddot42 (el_tdim E) Cs) Cs zero du) = Ok (disp, K, s) /\
    periodic_disp (hex_coor m) (hex_nodesPeriodic m) nnode 3 disp /\ AsElement_nodevec v disp = Ok ue /\ internal_force v E (ddot42 (el_tdim E) Cs) c1 c2 disp = Ok fint /\ periodic_forces (ps_vector ps) os zero fint = Ok (Fx, Fi) /\
    Fx = Fi /\ (forall d, d < tp_nnu t -> val1 Fi d = 0%R) /\ volume nelem E = (hx_h m * INR (hx_nelx m) * (hx_h m * INR (hx_nely m)) * (hx_h m * INR (hx_nelz m)))%R /\
    (forall i j, i < 3 -> j < 3 -> val2 disp (nnode + j) i = val2 du (nnode + j) i /\
       total nelem E (el_GradN_vector E c1 (of_rows ue)) i j = (val2 du (nnode + j) i * volume nelem E)%R /\
       val1 Fi (idx2 (tp_dofs t) (nnode + j) i) = total nelem E (sig c1 ue) i j) /\
    integral nelem E (sig c1 ue) (el_GradN_vector E c1 (of_rows ue)) =
      sumn 3 (fun i => sumn 3 (fun j => val1 Fi (idx2 (tp_dofs t) (nnode + j) i) * val2 du (nnode + j) i))%R.
Proof.
  intros m HM0 x E o Cs linsolve HB Ho nnode nelem HC HS HMi HL. pose proof HM0 as (Hh & X1 & Y1 & Z1). set (X := hex_coor m) in *. set (C := hex_conn m) in *. set (ties := hex_nodesPeriodic m) in *.
  pose proof (hex_box m x E Hh HB) as HBox. pose proof (box_affine _ _ _ HBox) as HA. pose proof (body_positive m Hh x E HB) as HV. pose proof (body_coordinates m x E HB) as HX.
  destruct (body_dims m Hh x E HB) as (_ & D4 & D2 & Dt). pose proof (affine_elem _ _ _ HA) as HE.
  assert (HCell : cell X (dofs nnode 3) ties [o] nnode 3).
  { apply (cell3 X nnode (hx_h m * INR (hx_nelx m)) (hx_h m * INR (hx_nely m)) (hx_h m * INR (hx_nelz m)) ties o); [apply hex_coor_shape|now apply hex_periodic_ties|exact Ho| | |]; (apply Rmult_lt_0_compat; [exact Hh|apply lt_0_INR; lia]). }
  assert (Hcn : connects C nelem 8 nnode) by apply body_connects.
  destruct (C88_setup X (dofs nnode 3) ties [o] nnode 3 C 8 HCell) as [ps [Eps _]].
  exists ps. split; [exact Eps|]. intros t v sig mem du HM Sdu zero os c1 c2 Hos V1 V2.
  assert (Sz : shape2 zero (nnode + 3) 3). { split; [unfold zero; now rewrite map_length, seq_length|]. intros r Hr. unfold zero in Hr. apply in_map_iff in Hr. destruct Hr as [k [<- _]]. reflexivity. }
  assert (Vz : forall n i, val2 zero n i = 0%R).
  { intros n i. unfold val2, nth2, zero. destruct (Nat.lt_ge_cases n (nnode + 3)) as [L|L].
    - rewrite (nth_indep _ [] (repeat 0%R 3)) by (rewrite map_length, seq_length; exact L). rewrite (map_nth (fun _ => repeat 0%R 3) (seq 0 (nnode + 3)) 0 n). destruct i as [|[|[|[|]]]]; reflexivity.
    - rewrite (nth_overflow (map _ _)) by (rewrite map_length, seq_length; exact L). now destruct i. }
  assert (Lo : o < nnode) by (unfold nnode; rewrite <- (proj1 (hex_coor_shape m)); apply nth_error_Some; unfold node_at3 in Ho; fold X; congruence).
  pose proof (stable3 m Hh X1 Y1 Z1 x E HB Cs o HC Lo) as HN. fold nnode nelem X C ties in HN.
  assert (Hd0 : periodic_disp X ties nnode 3 zero).
  { split; [exact Sz|]. intros a b k Hab Hk. rewrite !Vz. rewrite sumn_zero; [ring|]. intros l Hl. rewrite Vz. ring. }
  set (it := mkIteration mem (ddot42 (el_tdim E) Cs) Cs zero du).
  rewrite <- D2 in HCell. rewrite <- D4 in Hcn. assert (Eps' : periodic_setup X nnode (el_ndim E) (dofs nnode (el_ndim E)) C (el_nne E) ties [o] = Ok ps) by (rewrite D2, D4; exact Eps).
  replace (dofs nnode 3) with (dofs nnode (el_ndim E)) in HCell by (now rewrite D2).
  assert (HXc : coordinates C nelem (el_nne E) (el_ndim E) X x) by (unfold coordinates; rewrite D4, D2; exact HX).
  assert (Ev : v = mkVector C (el_nne E) (tp_dofs t) (el_ndim E)) by (unfold v; now rewrite D4, D2).
  assert (Hits : Forall (fun it => valid_memory nelem (nnode + el_ndim E) (el_ndim E) (it_mem it) /\ shape2 (it_fext it) (nnode + el_ndim E) (el_ndim E) /\ shape2 (it_du it) (nnode + el_ndim E) (el_ndim E) /\
    solves_matrix linsolve (tp_nnu t) (condensed (tp_nnu t + tp_nnp t + tp_nnd t) (tie (tp_nnu t) (tp_nnu t + tp_nnp t) (vt_Cdu (ps_vector ps)) (vt_Cdp (ps_vector ps)))
      (assembled C (tp_dofs t) nelem (el_nne E) (el_ndim E) (element_stiffness (mkVector C (el_nne E) (tp_dofs t) (el_ndim E)) E (r_K (it_mem it)) (it_C it))))) [it]).
  { constructor; [|constructor]. rewrite D2. split; [exact HM|]. split; [exact Sz|]. split; [exact Sdu|]. rewrite <- D2. apply spd_solver_matrix; [exact HL|].
    apply (C90_periodic_spd X (dofs nnode (el_ndim E)) ties [o] nnode nelem C x E HE HCell Hcn ps Eps'); try assumption.
    - apply HM.
    - now apply elastic_positive. }
  destruct (C89_run X (dofs nnode (el_ndim E)) ties o nnode nelem C x E HA HCell Hcn HXc ps Eps' linsolve [] (ps_K ps) new_Solver (Forall_nil _) eq_refl
    [] it Hits) with (disp := zero) (os := os) (c1 := c1) (c2 := c2) as [disp [K [s [ue [fint [Fx [Fi [E1 [E2 [E3 [E4 [E5 [E6 [_ [E7 E8]]]]]]]]]]]]]]]; try assumption.
  { intros n i Hn Hi. apply Vz. } { intros A e q i k He Hq Hi Hk. reflexivity. } { now rewrite D2. } { now rewrite D2. }
  assert (E2' : AsElement_nodevec v disp = Ok ue) by (rewrite Ev; exact E2). assert (E3' : internal_force v E (ddot42 (el_tdim E) Cs) c1 c2 disp = Ok fint) by (rewrite Ev; exact E3). clear E2 E3. rename E2' into E2. rename E3' into E3.
  destruct (C88_newton X (dofs nnode (el_ndim E)) ties [o] nnode nelem C x E HE HCell Hcn ps Eps' linsolve [] (ps_K ps) new_Solver (Forall_nil _) eq_refl
    [it]) with (disp := zero) as [disp' [K' [s' [EN [HD _]]]]]; [exact Hits|now rewrite D2|]. cbn [app] in E1. rewrite E1 in EN. injection EN as EN _ _. rewrite <- EN in HD. rewrite D2 in HD.
  pose proof (hex_volume m x E Hh HB) as HVol. fold nelem in HVol.
  assert (HMd : mesh_dofs C (tp_dofs t) nelem 8 (nnode + 3) 3 (tp_nnu t + tp_nnp t + tp_nnd t)).
  { pose proof (m_mesh X (dofs nnode (el_ndim E)) ties o nnode nelem C x E HE HCell Hcn ps Eps') as Hm. now rewrite D4, D2 in Hm. }
  destruct (AsElement_nodevec_spec v nelem 8 (nnode + 3) 3 _ eq_refl eq_refl HMd disp (proj1 HD)) as [ue' [Eue [_ Vue]]]. rewrite E2 in Eue. injection Eue as <-.
  assert (HU : forall e k i, e < nelem -> k < 8 -> i < 3 -> of_rows ue [e;k;i] = val2 disp (idx2 C e k) i). { intros e k i He Hk Hi. rewrite of_rows_val. now apply Vue. }
  assert (Dd : forall k l, k < 3 -> l < 3 -> val2 disp (nnode + k) l = val2 du (nnode + k) l).
  { intros k l Hk Hl. rewrite <- D2 in Hk, Hl. rewrite (E8 k l Hk Hl), Vz. cbn [app sumL fold_right]. unfold it at 1. cbn [it_du]. ring. }
  assert (HT : forall i j, i < 3 -> j < 3 -> total nelem E (el_GradN_vector E c1 (of_rows ue)) i j = (val2 du (nnode + j) i * volume nelem E)%R).
  { intros i j Hi Hj. unfold nelem. rewrite (hex_total m x E c1 disp (of_rows ue) i j Hh HB V1 HU Hi Hj).
    rewrite (faces_periodic m X1 Y1 Z1 disp (fun j k => val2 du (nnode + j) k) j i); [fold nelem; now rewrite HVol| |exact Hi|exact Hj].
    intros a b k Hab Hk. rewrite (proj2 HD a b k Hab Hk). f_equal. apply sumn_ext. intros l Hl. now rewrite Dd. }
  rewrite D2 in E7. fold t in E7. 
  assert (Ea : AssembleNode v (to_rows nelem (el_nne E) (el_ndim E) (el_Int_gradN_dot_tensor2_dV E c2 (sig c1 ue))) = Ok fint).
  { pose proof E3 as Ef'. unfold internal_force, internal_force_of in Ef'. rewrite E2 in Ef'. cbn [bind] in Ef'. unfold m_nelem in Ef'. unfold v in Ef' at 2. cbn [m_conn] in Ef'. replace (length C) with nelem in Ef' by (symmetry; apply (hex_conn_shape m)). exact Ef'. }
  exists disp, K, s, ue, fint, Fx, Fi. split; [|split; [exact HD|split; [exact E2|split; [exact E3|split; [exact E4|split; [exact E5|split; [exact E6|split; [exact HVol|split]]]]]]]].
  - cbn [foldM] in E1. destruct (newton_tyings linsolve (vt_v (ps_vector ps)) E (zero, ps_K ps, new_Solver) it) as [r| | |] eqn:Er; cbn [bind] in E1; try discriminate. now rewrite E1 in Er || (injection E1 as E1; rewrite E1 in Er; exact Er).
  - intros i j Hi Hj. split; [now apply Dd|]. split; [now apply HT|]. now apply E7.
  - destruct (C89_stress X (dofs nnode (el_ndim E)) ties o nnode nelem C x E HA HCell Hcn HXc ps Eps' os c2 (sig c1 ue) fint zero Fx Fi) as [_ [_ W]]; try assumption; try (rewrite D2; assumption).
    { rewrite Ev in Ea. exact Ea. }
    rewrite (W c1 disp ue V1); [|now rewrite D2|rewrite Ev in E2; exact E2]. rewrite D2, sumn_swap. apply sumn_ext. intros i Hi. apply sumn_ext. intros j Hj. rewrite (E7 j i Hj Hi), Dd by assumption. unfold sig, it. cbn [it_law]. ring.
Qed.
Print Assumptions C104_periodic.
