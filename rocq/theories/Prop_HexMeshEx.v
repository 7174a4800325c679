(** Concrete cases for C104. *)
From Coq Require Import Reals Lra Lia.
From Verif Require Import Model_Element Spec_Element Proof_Element Proof_ElementQuad4 Proof_ElementMath Base Spec Spec2d Spec3d Sums Spec_Vector Spec_Matrix Spec_MatrixOps Spec_Tyings Model_Numbering Model_Vector Proof_Vector Model_VectorPartitioned Model_Sparse Model_Tyings
  Model_Matrix Model_MatrixPartitioned Proof_MatrixPartitioned Model_MatrixTyings Spec_MatrixTyings Model_MeshGeometry Model_Hex8Regular Proof_Hex8Regular Model_Pipeline Spec_Pipeline Spec_Patch Proof_PipelineElem Proof_Pipeline Proof_PipelineBalance
  Proof_PipelineEx Prop_Pipeline Proof_PatchRegular Prop_Patch Prop_PatchEx Model_PeriodicProgram Spec_Periodic Prop_Periodic Spec_Macro Prop_Macro Spec_Spd Model_Ldlt Proof_Ldlt Prop_Spd Prop_PartialPeriodicEx
  Spec_HexMesh Proof_HexBox Proof_HexGrid Proof_HexBody Proof_HexPatch Prop_HexMesh.

(** the coordinates per element, and the quadrature object made from them *)
Definition b_x (m : HexRegular) : arr := fun k => match k with [e;n;i] => val2 (hex_coor m) (idx2 (hex_conn m) e n) i | _ => 0%R end.
Definition b_Q (m : HexRegular) : Quadrature := Hex8_new (seq 0 (hex_nelem m)) (hex_nelem m) (b_x m) 8 (Gauss8_xi junk) (Gauss8_w junk) junk junk junk junk junk.
Definition b_c (m : HexRegular) : call := mkCall (seq 0 (hex_nelem m)) junk.
Definition b_mem (m : HexRegular) (n : nat) : run_memory := {| r_eps0 := b_c m; r_f0 := b_c m; r_K := b_c m; r_eps1 := b_c m; r_f1 := b_c m; r_order := list_prod (seq 0 n) (seq 0 3) |}.
Lemma b_valid m n : valid_memory (hex_nelem m) n 3 (b_mem m n).
Proof. repeat (split; [apply Permutation_refl|]). apply Permutation_refl. Qed.
Example C104_ex_body : forall m, hex_body m (b_x m) (Hex8_elem (b_Q m)).
Proof.
  intros m. apply (body_Hex8 m 8 (Gauss8_xi junk) (Gauss8_w junk)).
  - constructor.
  - intros e k i He Hk Hi. reflexivity.
  - apply Hex8_obj_new. apply Permutation_refl.
Qed.
Lemma Isym_elastic3 nelem Q : strictly_elastic nelem (Hex8_elem Q) Isym.
Proof.
  intros A e q He Hq energy.
  set (a := A [e;q;0;0]). set (b := A [e;q;1;1]). set (c := A [e;q;2;2]). set (d := (A [e;q;0;1]%nat + A [e;q;1;0]%nat)%R). set (f := (A [e;q;0;2]%nat + A [e;q;2;0]%nat)%R). set (g := (A [e;q;1;2]%nat + A [e;q;2;1]%nat)%R).
  assert (Ee : energy = (a * a + b * b + c * c + d * d / 2 + f * f / 2 + g * g / 2)%R).
  { unfold energy. cbn [Hex8_elem el_tdim]. unfold sumn, sumL, ddot42, sumn, sumL. cbn [seq fold_right]. unfold Isym, ind. cbn [Nat.eqb andb]. unfold a, b, c, d, f, g. field. }
  rewrite Ee. clear Ee energy.
  pose proof (Rle_0_sqr a) as Ha. pose proof (Rle_0_sqr b) as Hb. pose proof (Rle_0_sqr c) as Hc. pose proof (Rle_0_sqr d) as Hd. pose proof (Rle_0_sqr f) as Hf. pose proof (Rle_0_sqr g) as Hg. unfold Rsqr in *. split; [lra|]. intros Z.
  assert (a = 0)%R by (apply Rsqr_0_uniq; unfold Rsqr; lra). assert (b = 0)%R by (apply Rsqr_0_uniq; unfold Rsqr; lra). assert (c = 0)%R by (apply Rsqr_0_uniq; unfold Rsqr; lra).
  assert (d = 0)%R by (apply Rsqr_0_uniq; unfold Rsqr; lra). assert (f = 0)%R by (apply Rsqr_0_uniq; unfold Rsqr; lra). assert (g = 0)%R by (apply Rsqr_0_uniq; unfold Rsqr; lra).
  unfold a, b, c, d, f, g in *. intros i j Hi Hj. cbn in Hi, Hj. destruct i as [|[|[|i]]]; try lia; destruct j as [|[|[|j]]]; try lia; lra.
Qed.

(** stretching a periodic cell of 3 x 2 x 2 elements in the third direction by a factor 2 of its height *)
Example C104_ex : forall h, (0 < h)%R -> let m := mkHexRegular 3 2 2 h in
  let E := Hex8_elem (b_Q m) in
  let zero := map (fun _ => repeat 0%R 3) (seq 0 39) in
  let du := tab2 (36 + 3) 3 (fun n i => if ((n =? 38) && (i =? 2))%bool then 2%R else 0%R) in
  exists ps disp K s ue, periodic_setup (hex_coor m) 36 3 (dofs 36 3) (hex_conn m) 8 (hex_nodesPeriodic m) [0] = Ok ps /\
    newton_tyings ldlt (vt_v (ps_vector ps)) E (zero, ps_K ps, new_Solver) (mkIteration (b_mem m 39) (ddot42 3 Isym) Isym zero du) = Ok (disp, K, s) /\
    AsElement_nodevec (mkVector (hex_conn m) 8 (tp_dofs (ps_t ps)) 3) disp = Ok ue /\
    total 12 E (el_GradN_vector E (b_c m) (of_rows ue)) 2 2 = (2 * (h * 3 * (h * 2) * (h * 2)))%R.
Proof.
  intros h Hh m E zero du. assert (HM : hex_mesh m) by (repeat split; cbn; try lia; exact Hh).
  assert (Ho : node_at3 (hex_coor m) 0 0 0 0). { unfold node_at3. pose proof (hex_coor_at m 0 0 0 ltac:(lia) ltac:(lia) ltac:(lia)) as H. unfold N3 in H. cbn [INR] in H. rewrite !Rmult_0_r in H. exact H. }
  destruct (C104_periodic m HM (b_x m) E 0 Isym ldlt (C104_ex_body m) Ho (Isym_elastic3 _ _) (Isym_major _ _) (Isym_minor _ _) C90_ldlt) as [ps [Eps HR]].
  destruct (HR (b_mem m 39) du (b_valid m 39)) with (os := fun _ : nat => list_prod (seq 0 39) (seq 0 3)) (c1 := b_c m) (c2 := b_c m) as (disp & K & s & ue & fint & Fx & Fi & E1 & _ & E2 & _ & _ & _ & _ & EV & E3 & _).
  - apply tab2_shape.
  - intros k. apply Permutation_refl.
  - apply Permutation_refl.
  - apply Permutation_refl.
  - exists ps, disp, K, s, ue. split; [exact Eps|]. split; [exact E1|]. split; [exact E2|].
    destruct (E3 2 2 ltac:(lia) ltac:(lia)) as [_ [T _]]. rewrite EV in T. cbn [m hx_nelx hx_nely hx_nelz hx_h] in T.
    replace (val2 du (hex_nnode m + 2) 2) with 2%R in T; [|unfold du, val2; change (hex_nnode m + 2) with 38; rewrite tab2_nth by lia; reflexivity].
    etransitivity; [exact T|]. cbn [INR]. ring.
Qed.

(** a cube of 2 x 2 x 2 elements with one node inside: the patch test *)
Example C104_ex_patch : forall a G, let m := mkHexRegular 2 2 2 1 in
  let E := Hex8_elem (b_Q m) in
  let iip := seq 0 39 ++ seq 42 39 in
  let zero := map (fun _ => repeat 0%R 3) (seq 0 27) in
  let bc := tab2 27 3 (fun n i => (a i + sumn 3 (fun j => G i j * val2 (hex_coor m) n j))%R) in
  exists K0 p disp fint fext fres, new_MatrixPartitioned (mkVector (hex_conn m) 8 (dofs 27 3) 3) iip = Ok K0 /\ new_VectorPartitioned (mkVector (hex_conn m) 8 (dofs 27 3) 3) iip = Ok p /\
    statics ldlt (b_mem m 27) p K0 new_Solver E (ddot42 3 Isym) Isym zero zero bc = Ok (disp, fint, fext, fres) /\
    forall i, i < 3 -> val2 disp 13 i = (a i + (G i 0%nat + G i 1%nat + G i 2%nat))%R.
Proof.
  intros a G m E iip zero bc. assert (HM : hex_mesh m) by (repeat split; cbn; try lia; lra).
  assert (Sz : Spec.shape2 zero 27 3). { split; [reflexivity|]. intros r Hr. unfold zero in Hr. apply in_map_iff in Hr. destruct Hr as [k [<- _]]. reflexivity. }
  assert (Vz : forall n i, n < 27 -> i < 3 -> val2 zero n i = 0%R) by (intros n i Hn Hi; do 27 (destruct n as [|n]; [destruct i as [|[|[|]]]; [reflexivity|reflexivity|reflexivity|lia]|]); lia).
  assert (Hp : prescribed 81 iip).
  { split; [|intros d Hd; apply in_app_or in Hd; rewrite !in_seq in Hd; lia]. apply Base.NoDup_app_intro; try apply seq_NoDup. intros d H1 H2. rewrite in_seq in *. lia. }
  assert (D : forall n i, n < 27 -> i < 3 -> idx2 (dofs 27 3) n i = 3 * n + i) by (intros n i Hn Hi; do 27 (destruct n as [|n]; [destruct i as [|[|[|]]]; [reflexivity|reflexivity|reflexivity|lia]|]); lia).
  destruct (C104_patch m HM (b_x m) E Isym iip (C104_ex_body m) (Isym_elastic3 _ _) (Isym_major _ _) (Isym_minor _ _) (Isym_uniform _ _)) with (linsolve := ldlt) (mem := b_mem m 27) (fext := zero) (disp0 := zero) (bc := bc) (a := a) (G := G)
    as (K0 & p & disp & fint & fext & fres & E0 & Ep & Er & HA); try assumption.
  - intros n j Hn Hj. assert (L : n < 27 /\ n <> 13).
    { unfold face_node in Hn. cbn in Hn. lia. }
    change (hex_nnode m) with 27. rewrite D by lia. apply in_or_app. rewrite !in_seq. lia.
  - exact C90_ldlt.
  - apply (b_valid m 27).
  - apply tab2_shape.
  - intros n i Hn Hi _. unfold bc, val2. change (hex_nnode m) with 27 in Hn. exact (tab2_nth 0%R 27 3 (fun n i => (a i + sumn 3 (fun j => G i j * val2 (hex_coor m) n j))%R) n i Hn Hi).
  - intros n i Hn Hi _. now apply Vz.
  - exists K0, p, disp, fint, fext, fres. split; [exact E0|]. split; [exact Ep|]. split; [exact Er|]. intros i Hi. rewrite (proj2 HA) by (cbn; lia). f_equal. rewrite sumn3.
    change 13 with (N3 m 1 1 1). rewrite !coor_N by (cbn; lia). cbn [P3 INR m hx_h]. ring.
Qed.

(** a cube of one element, held at six DOFs: three of the first node, two of its neighbour in the first direction, one of its neighbour in the second direction; with five of them there is a mechanism *)
Lemma cube_dof n i : n < 8 -> i < 3 -> idx2 (dofs 8 3) n i = 3 * n + i.
Proof. intros Hn Hi. do 8 (destruct n as [|n]; [destruct i as [|[|[|]]]; [reflexivity|reflexivity|reflexivity|lia]|]); lia. Qed.
Example C104_ex_restrained : let m := mkHexRegular 1 1 1 1 in
  no_mechanism (mkVector (hex_conn m) 8 (dofs 8 3) 3) 1 24 (Hex8_elem (b_Q m)) Isym [0;1;2;4;5;8] /\
  ~ no_mechanism (mkVector (hex_conn m) 8 (dofs 8 3) 3) 1 24 (Hex8_elem (b_Q m)) Isym [0;1;2;4;5].
Proof.
  intros m. assert (HM : hex_mesh m) by (repeat split; cbn; try lia; lra).
  assert (Hm : mesh_dofs (hex_conn m) (dofs 8 3) (hex_nelem m) 8 (hex_nnode m) 3 24).
  { constructor; [apply body_connects|apply Proof_Numbering.dofs_shape|apply body_connects|reflexivity]. }
  assert (X : forall ix iy iz i, ix <= 1 -> iy <= 1 -> iz <= 1 -> i < 3 -> val2 (hex_coor m) (N3 m ix iy iz) i = INR (P3 ix iy iz i)) by (intros; rewrite coor_N by assumption; cbn [m hx_h]; ring).
  pose proof (fun iip => C104_restrained m HM (b_x m) (Hex8_elem (b_Q m)) Isym (dofs 8 3) 24 iip (C104_ex_body m) (Isym_elastic3 _ _) (Isym_minor _ _) Hm (dofs_no_holes 8 3)) as T. split.
  - apply T. intros t r [_ H] n i Hn Hi.
    pose proof (H 0 0 ltac:(cbn; lia) ltac:(lia) ltac:(cbn; tauto)) as A0. pose proof (H 0 1 ltac:(cbn; lia) ltac:(lia) ltac:(cbn; tauto)) as A1. pose proof (H 0 2 ltac:(cbn; lia) ltac:(lia) ltac:(cbn; tauto)) as A2.
    pose proof (H 1 1 ltac:(cbn; lia) ltac:(lia) ltac:(cbn; tauto)) as B1. pose proof (H 1 2 ltac:(cbn; lia) ltac:(lia) ltac:(cbn; tauto)) as B2. pose proof (H 2 2 ltac:(cbn; lia) ltac:(lia) ltac:(cbn; tauto)) as C2.
    change 0 with (N3 m 0 0 0) in A0 at 1. change (val2 (hex_coor m) 0) with (val2 (hex_coor m) (N3 m 0 0 0)) in A0, A1, A2. change (val2 (hex_coor m) 1) with (val2 (hex_coor m) (N3 m 1 0 0)) in B1, B2. change (val2 (hex_coor m) 2) with (val2 (hex_coor m) (N3 m 0 1 0)) in C2.
    cbn [rigid_motion] in A0, A1, A2, B1, B2, C2. rewrite !X in A0, A1, A2, B1, B2, C2 by lia. cbn [P3 INR] in *.
    assert (r 0%nat = 0 /\ r 1%nat = 0 /\ r 2%nat = 0 /\ t 0%nat = 0 /\ t 1%nat = 0 /\ t 2%nat = 0)%R as (Q0 & Q1 & Q2 & Q3 & Q4 & Q5) by (repeat split; lra).
    destruct i as [|[|[|]]]; [| | |lia]; cbn [rigid_motion]; rewrite ?Q0, ?Q1, ?Q2, ?Q3, ?Q4, ?Q5; ring.
  - intros K. apply T in K. set (t := fun _ : nat => 0%R). set (r := fun k : nat => match k with 0 => 1%R | _ => 0%R end).
    assert (A : allowed_motion (hex_coor m) (dofs 8 3) [0;1;2;4;5] (hex_nnode m) t r).
    { split.
      - intros n i n' i' Hn Hi Hn' Hi' Eq. rewrite !cube_dof in Eq by assumption. assert (n = n' /\ i = i') as [-> ->] by lia. reflexivity.
      - intros n i Hn Hi Hin. rewrite cube_dof in Hin by assumption. assert (Hin' : n = 0 \/ n = 1) by (cbn in Hin; lia).
        destruct Hin' as [->| ->]; [change (val2 (hex_coor m) 0) with (val2 (hex_coor m) (N3 m 0 0 0))|change (val2 (hex_coor m) 1) with (val2 (hex_coor m) (N3 m 1 0 0))]; destruct i as [|[|[|]]]; try lia; cbn [rigid_motion]; rewrite !X by lia; unfold r, t; cbn [P3 INR]; ring. }
    pose proof (K t r A 2 2 ltac:(cbn; lia) ltac:(lia)) as Z. cbn [rigid_motion] in Z. change (val2 (hex_coor m) 2) with (val2 (hex_coor m) (N3 m 0 1 0)) in Z. rewrite !X in Z by lia. unfold r, t in Z. cbn [P3 INR] in Z. lra.
Qed.
