(** Property C116, continued: the statics program for tubes and cylinders; and concrete cases. *)
From Coq Require Import Reals Lra Lia List Arith Permutation.
From Verif Require Import Model_Element Spec_Element Proof_Element Proof_ElementQuad4 Proof_ElementMath Proof_ElementThm Proof_ElementThm2 Base Spec Spec2d Sums Spec_Vector Spec_Matrix Spec_MatrixOps Spec_Tiling Spec_Conform Model_Numbering Model_Regular2d
  Model_Vector Model_VectorPartitioned Model_Sparse Model_Matrix Model_MatrixPartitioned Model_FineLayer Model_MeshGeometry Model_Pipeline Spec_Pipeline Spec_Patch Spec_Divergence Spec_QuadMesh Spec_Macro Spec_AxisymBody
  Proof_Vector Proof_Numbering Proof_Matrix Proof_MatrixPartitioned Prop_MatrixPartitioned Proof_Regular2d Proof_PipelineElem Proof_Pipeline Proof_PipelineBalance Proof_PipelineEx Prop_Pipeline
  Proof_Patch Proof_PatchRigid Proof_PatchRegular Prop_Patch Prop_PatchEx Model_PeriodicProgram Spec_Periodic Proof_Periodic Proof_PeriodicNodes Prop_PeriodicMesh Proof_Macro Prop_Macro Spec_Spd Model_Ldlt Proof_Ldlt Proof_Spd Prop_Spd Proof_QuadMesh Proof_QuadMeshObj Proof_QuadLinked Proof_ConformClosed Prop_Conform Spec_Divergence Prop_Divergence Prop_QuadMesh Prop_QuadMeshEx
  Proof_AxisymBody Proof_AxisymPatch Proof_AxisymMesh Prop_AxisymBody.
Import ListNotations.

Lemma quad_mesh_dofs X C ties bot rgt top lft Lx Ly : mesh_facts X C ties bot rgt top lft Lx Ly -> 0 < length X -> mesh_dofs C (dofs (length X) 2) (length C) 4 (length X) 2 (length X * 2).
Proof.
  intros M L0. constructor; [apply M|apply Proof_Numbering.dofs_shape| |].
  - intros e k He Hk. apply (mf_range _ _ _ _ _ _ _ _ _ M (nth e C [])); [now apply nth_In|]. unfold idx2, nth2. apply nth_In. rewrite (proj2 (mf_C _ _ _ _ _ _ _ _ _ M)); [exact Hk|]. now apply nth_In.
  - rewrite Proof_Numbering.concat_dofs. destruct (length X) as [|n]; [lia|]. change (S n * 2) with (S (S (n * 2))). now rewrite Proof_MeshGeometry.fold_max_seq.
Qed.

(** C116: the statics program for a tube or a cylinder, held along the axis at one node: it works with every solver for symmetric positive
    definite systems; the answer has the prescribed displacements, is in equilibrium with the forces, and is the only one *)
Theorem C116_statics : forall X C ties bot rgt top lft Lx Ly, quad_mesh X C ties bot rgt top lft Lx Ly ->
  forall R0 Y x j j' A Cs dofs ndof iip n0, (0 <= R0)%R -> moved_out R0 X Y -> on_mesh C (length C) Y x -> Axisym_obj (length C) 4 (Gauss4_xi j) (Gauss4_w j') x A ->
  let E := Axisym_elem A in
  strictly_elastic (length C) E Cs -> major_symmetric (length C) E Cs -> minor_symmetric (length C) E Cs ->
  mesh_dofs C dofs (length C) 4 (length X) 2 ndof -> no_holes dofs ndof -> prescribed ndof iip -> n0 < length X -> In (idx2 dofs n0 0) iip ->
  let v := mkVector C 4 dofs 2 in
  forall linsolve mem fext disp0 bc, spd_solver linsolve -> valid_memory (length C) (length X) 2 mem -> nodal dofs (length X) 2 fext -> nodal dofs (length X) 2 bc ->
  shape2 disp0 (length X) 2 -> (forall n j, n < length X -> j < 2 -> val2 disp0 n j = 0%R) ->
  let solution disp fint := nodal dofs (length X) 2 disp /\ internal_force v E (ddot42 3 Cs) (r_eps0 mem) (r_f0 mem) disp = Ok fint /\
    forall m j, m < length X -> j < 2 -> (In (idx2 dofs m j) iip -> val2 disp m j = val2 bc m j) /\ (~ In (idx2 dofs m j) iip -> val2 fint m j = val2 fext m j) in
  exists K0 p disp fint fext' fres, new_MatrixPartitioned v iip = Ok K0 /\ new_VectorPartitioned v iip = Ok p /\
    statics linsolve mem p K0 new_Solver E (ddot42 3 Cs) Cs fext disp0 bc = Ok (disp, fint, fext', fres) /\ solution disp fint /\
    forall disp2 fint2, solution disp2 fint2 -> disp2 = disp.
Proof.
  intros X C ties bot rgt top lft Lx Ly H R0 Y x j j' A Cs dofs ndof iip n0 HR HMv HX HA E HC HS HMi Hm Hh Hp L0 Hin v linsolve mem fext disp0 bc HL HM Nf Nb S0 Z0 solution.
  destruct (proj1 (C116_bodies _ _ _ _ _ _ _ _ _ H R0 Y x HMv HX) j j' A HR HA) as [HE _].
  pose proof (C116_connected X C ties bot rgt top lft Lx Ly H x E Cs dofs ndof iip n0 HE Hm Hh HC L0 Hin) as NM.
  assert (HV : positive_volume (length C) E) by (intros e q He Hq; left; now apply (ring_pos (length C) x E HE)).
  destruct (mp_new v (length C) 4 (length X) 2 ndof eq_refl eq_refl Hm iip Hp Hh) as [K0 [E0 [[[Ep _] _] _]]].
  destruct (C90_statics C dofs (length C) (length X) ndof x E iip (ring_elem _ _ _ HE) Hm Hp Hh linsolve [] K0 K0 new_Solver (MP_p K0) HL (Forall_nil _) E0 eq_refl Ep mem Cs fext disp0 bc HM HMi HS (elastic_positive _ _ _ HC) HV NM Nf Nb S0 Z0)
    as [disp [fint [fext' [fres [Er [SO UN]]]]]].
  exists K0, (MP_p K0), disp, fint, fext', fres. split; [exact E0|]. split; [exact Ep|]. split; [exact Er|]. split; [exact SO|]. exact UN.
Qed.
Print Assumptions C116_statics.

(** C116: and the patch test: if the stretch is prescribed on the outline (except, if it is on the axis, for the axial displacements of the
    lower side), and there are no forces elsewhere, then all nodes get it *)
Theorem C116_cylinder : forall X C ties bot rgt top lft Lx Ly, quad_mesh X C ties bot rgt top lft Lx Ly ->
  let nnode := length X in
  forall R0 Y x j j' A Cs iip, (0 <= R0)%R -> moved_out R0 X Y -> on_mesh C (length C) Y x -> Axisym_obj (length C) 4 (Gauss4_xi j) (Gauss4_w j') x A ->
  let E := Axisym_elem A in
  strictly_elastic (length C) E Cs -> major_symmetric (length C) E Cs -> minor_symmetric (length C) E Cs -> axially_symmetric (length C) E (ddot42 3 Cs) ->
  prescribed (nnode * 2) iip ->
  (forall n j, In n rgt \/ In n top \/ In n lft -> j < 2 -> In (idx2 (dofs nnode 2) n j) iip) ->
  (forall n, In n bot -> In (idx2 (dofs nnode 2) n 1) iip /\ (R0 <> 0%R -> In (idx2 (dofs nnode 2) n 0) iip)) ->
  let v := mkVector C 4 (dofs nnode 2) 2 in
  forall linsolve mem fext disp0 bc, spd_solver linsolve -> valid_memory (length C) nnode 2 mem -> shape2 fext nnode 2 -> shape2 bc nnode 2 ->
  shape2 disp0 nnode 2 -> (forall n j, n < nnode -> j < 2 -> val2 disp0 n j = 0%R) ->
  forall a b c, (forall n i, n < nnode -> i < 2 -> In (idx2 (dofs nnode 2) n i) iip -> val2 bc n i = if i =? 0 then (c + b * val2 Y n 0)%R else (a * val2 Y n 1)%R) ->
  (forall n i, n < nnode -> i < 2 -> ~ In (idx2 (dofs nnode 2) n i) iip -> val2 fext n i = 0%R) ->
  exists K0 p disp fint fext' fres, new_MatrixPartitioned v iip = Ok K0 /\ new_VectorPartitioned v iip = Ok p /\
    statics linsolve mem p K0 new_Solver E (ddot42 3 Cs) Cs fext disp0 bc = Ok (disp, fint, fext', fres) /\ stretch_field nnode Y a b c disp.
Proof.
  intros X C ties bot rgt top lft Lx Ly H nnode R0 Y x j j' A Cs iip HR HMv HX HA E HC HS HMi HU Hp Hbd Hbt v linsolve mem fext disp0 bc HL HM Sf Sb S0 Z0 a b c Hbc Hf.
  pose proof (quad_mesh_facts _ _ _ _ _ _ _ _ _ H) as M.
  destruct (mf_opposite _ _ _ _ _ _ _ _ _ M) as (kx & ky & bb & t & l & r & O). destruct (op_ly _ _ _ _ _ _ _ _ _ _ _ _ _ _ O 0 ltac:(lia)) as (y0 & N1 & _).
  assert (L1 : l 0 < nnode) by (apply nth_error_Some; unfold node_at in N1; congruence).
  assert (B1 : In (l 0) lft) by (rewrite (op_l _ _ _ _ _ _ _ _ _ _ _ _ _ _ O); apply in_map, in_seq; lia).
  pose proof (quad_mesh_dofs _ _ _ _ _ _ _ _ _ M ltac:(unfold nnode in L1; lia)) as Hm. pose proof (dofs_no_holes nnode 2) as Hh.
  destruct (proj1 (C116_bodies _ _ _ _ _ _ _ _ _ H R0 Y x HMv HX) j j' A HR HA) as [HE HEx].
  pose proof (C116_connected X C ties bot rgt top lft Lx Ly H x E Cs (dofs nnode 2) (nnode * 2) iip (l 0) HE Hm Hh HC L1 (Hbd (l 0) 0 ltac:(tauto) ltac:(lia))) as NM.
  assert (HV : positive_volume (length C) E) by (intros e q He Hq; left; now apply (ring_pos (length C) x E HE)).
  assert (Own : forall n, n < nnode -> own_dofs (dofs nnode 2) nnode 2 n) by (intros n Hn i n' k Hi Hn' Hk Eq; apply (dofs_own nnode 2); assumption).
  assert (Nod : forall u, shape2 u nnode 2 -> nodal (dofs nnode 2) nnode 2 u).
  { intros u Su. split; [exact Su|]. intros m i n k Hm' Hi' Hn' Hk' Eq. destruct (dofs_own nnode 2 m i n k Hm' Hi' Hn' Hk' Eq) as [-> ->]. reflexivity. }
  destruct (mp_new v (length C) 4 nnode 2 (nnode * 2) eq_refl eq_refl Hm iip Hp Hh) as [K0 [E0 [[[Ep _] _] _]]].
  destruct (C116_patch C (dofs nnode 2) (length C) nnode (nnode * 2) Y x E iip HEx Hm HX Hp Hh linsolve [] K0 K0 new_Solver (MP_p K0) (Forall_nil _) E0 eq_refl Ep mem Cs fext disp0 bc HM HMi HU NM)
    with (a := a) (b := b) (c := c) as [disp [fint [fext' [fres [Er HAf]]]]]; try (apply Nod; assumption); try assumption.
  - intros K' Ea.
    destruct (C90_statics_spd C (dofs nnode 2) (length C) nnode (nnode * 2) x E iip (ring_elem _ _ _ HE) Hm Hp Hh (r_K mem) Cs (MP_p K0) K0 K' ltac:(apply HM) HS (elastic_positive _ _ _ HC) HV NM Ep eq_refl Ea) as [Q1 [_ Q2]]. now apply HL.
  - intros n i Hn Hi Hin. split; [now apply Hf|]. split; [|now apply Own].
    assert (Hr : ~ In n rgt) by (intros K; apply Hin, Hbd; tauto). assert (Hl : ~ In n lft) by (intros K; apply Hin, Hbd; tauto). assert (Ht : ~ In n top) by (intros K; apply Hin, Hbd; tauto).
    destruct (C116_closed X C ties bot rgt top lft Lx Ly H R0 Y HMv n Hn Hr Hl) as [Q1 Q2].
    destruct (in_dec Nat.eq_dec n bot) as [Hb|Hb]; [|now apply Q1]. destruct (Hbt n Hb) as [T1 T2].
    destruct i as [|[|i]]; [|now contradict Hin|lia]. destruct (Req_EM_T R0 0) as [Z|Z]; [now apply Q2|]. contradict Hin. now apply T2.
  - exists K0, (MP_p K0), disp, fint, fext', fres. auto.
Qed.
Print Assumptions C116_cylinder.

(** ** concrete cases: a mesh with refinement layers, of 81 elements; a solid cylinder of radius 21 h and length 9 h, with Gauss points, an
    isotropic material and the LDL^T solver *)
Definition c_A (X : list (list R)) (C : list (list nat)) : Axisym := Axisym_new (seq 0 (length C)) (length C) (q_x X C) 4 (Gauss4_xi junk) (Gauss4_w junk) junk junk junk junk junk.
Lemma c_obj X C : Axisym_obj (length C) 4 (Gauss4_xi junk) (Gauss4_w junk) (q_x X C) (c_A X C).
Proof. apply Axisym_obj_new, Permutation_refl. Qed.
Lemma c_on X C : on_mesh C (length C) X (q_x X C).
Proof. intros e m i He Hm Hi. reflexivity. Qed.
Lemma c_moved X : moved_out 0 X X.
Proof. split; [reflexivity|]. intros n _. split; [reflexivity|ring]. Qed.
Lemma c_Isym e q i j k l : Isym [e;q;i;j;k;l] = (0 * (ind (i =? j) * ind (k =? l)) + 1 / 2 * (ind (i =? k) * ind (j =? l) + ind (i =? l) * ind (j =? k)))%R.
Proof. unfold Isym, ind. destruct (i =? l), (j =? k), (i =? k), (j =? l); cbn [andb]; lra. Qed.
Lemma c_elastic n A : strictly_elastic n (Axisym_elem A) Isym.
Proof. apply (C116_isotropic n A 0 (1 / 2) Isym c_Isym); lra. Qed.
Lemma c_symmetric n A : axially_symmetric n (Axisym_elem A) (ddot42 3 Isym).
Proof. apply (C116_isotropic n A 0 (1 / 2) Isym c_Isym). Qed.

(** the hypotheses are met; the volume; a strain that is not zero, and one that is *)
Example C116_ex_cylinder : forall h, (0 < h)%R -> exists X C ties bot rgt top lft, quad_mesh X C ties bot rgt top lft (h * INR 9) (h * INR 21) /\ length C = 81 /\ moved_out 0 X X /\
  ring_obj 81 (q_x X C) (Axisym_elem (c_A X C)) /\ exact_ring 81 (q_x X C) (Axisym_elem (c_A X C)) /\
  volume 81 (Axisym_elem (c_A X C)) = (PI * (h * 21 * (h * 21)) * (h * 9))%R /\
  slides (fun k => match k with [_;_;0] => 5 | _ => 0 end)%R 7 /\ ~ slides (fun k => match k with [_;m;0] => INR m | _ => 0 end)%R 7.
Proof.
  intros h Hh. destruct (C91_ex h Hh) as (X & C & ties & bot & rgt & top & lft & HQ & LC & _). exists X, C, ties, bot, rgt, top, lft. split; [exact HQ|]. split; [exact LC|]. split; [apply c_moved|].
  destruct (proj1 (C116_bodies _ _ _ _ _ _ _ _ _ HQ 0%R X (q_x X C) (c_moved X) (c_on X C)) junk junk (c_A X C) (Rle_refl 0) (c_obj X C)) as [A1 A2].
  pose proof (C116_tube _ _ _ _ _ _ _ _ _ HQ 0%R X (q_x X C) junk junk (c_A X C) (Rle_refl 0) (c_moved X) (c_on X C) (c_obj X C)) as A3. rewrite LC in *.
  split; [exact A1|]. split; [exact A2|]. split; [rewrite A3; cbn [INR]; ring|]. split; [exists 5%R; intros m Hm; split; reflexivity|].
  intros [s Hs]. destruct (Hs 0 ltac:(lia)) as [E0 _]. destruct (Hs 1 ltac:(lia)) as [E1 _]. cbn in E0, E1. lra.
Qed.

(** stretching a cylinder of 2 x 2 elements: all displacements of the sides are prescribed, except the one along the axis of node 1, that is
    on the axis between the ends *)
Definition c2_iip : list nat := [0;1;3;4;5;6;7;10;11;12;13;14;15;16;17].
Example C116_ex_stretch : forall h a b c, (0 < h)%R ->
  let m := mkRegular 2 2 h in
  let E := Axisym_elem (c_A (coor m) (conn m)) in
  let v := mkVector (conn m) 4 (dofs 9 2) 2 in
  let zero := tab2 9 2 (fun _ _ => 0%R) in
  let bc := tab2 9 2 (fun n i => if i =? 0 then (c + b * val2 (coor m) n 0)%R else (a * val2 (coor m) n 1)%R) in
  exists K0 p disp fint fext' fres, new_MatrixPartitioned v c2_iip = Ok K0 /\ new_VectorPartitioned v c2_iip = Ok p /\
    statics ldlt (q_mem0 (coor m) (conn m)) p K0 new_Solver E (ddot42 3 Isym) Isym zero zero bc = Ok (disp, fint, fext', fres) /\ stretch_field 9 (coor m) a b c disp /\
    val2 disp 4 1 = (a * h)%R.
Proof.
  intros h a b c Hh m E v zero bc.
  pose proof (mesh_Regular m Hh ltac:(cbn; lia) ltac:(cbn; lia)) as HQ.
  assert (LX : length (coor m) = 9) by (rewrite (proj1 (coor_shape m)); reflexivity). assert (LC : length (conn m) = 4) by reflexivity.
  pose proof (C116_cylinder _ _ _ _ _ _ _ _ _ HQ 0%R (coor m) (q_x (coor m) (conn m)) junk junk (c_A (coor m) (conn m)) Isym c2_iip (Rle_refl 0) (c_moved _) (c_on _ _) (c_obj _ _) (c_elastic _ _) (Isym_major _ _) (Isym_minor _ _) (c_symmetric _ _)) as T.
  cbv zeta in T. rewrite LX in T.
  assert (Hd : forall n j, n < 9 -> j < 2 -> idx2 (dofs 9 2) n j = n * 2 + j).
  { intros n j Hn Hj. pose proof (Proof_Numbering.dofs_at 9 2 n j Hn Hj) as A. unfold at2 in A. unfold idx2, nth2. destruct (nth_error (dofs 9 2) n) as [row|] eqn:En; [|discriminate].
    rewrite (nth_error_nth _ _ [] En). now apply nth_error_nth. }
  assert (Z : forall n i, n < 9 -> i < 2 -> val2 zero n i = 0%R) by (intros n i Hn Hi; unfold val2, zero; now apply (tab2_nth 0%R 9 2 (fun _ _ => 0%R))).
  destruct T with (linsolve := ldlt) (mem := q_mem0 (coor m) (conn m)) (fext := zero) (disp0 := zero) (bc := bc) (a := a) (b := b) (c := c) as (K0 & p & disp & fint & fext' & fres & A1 & A2 & A3 & A4).
  - split; [repeat constructor; cbn; lia|cbn; lia].
  - intros n j Hn Hj. cbv in Hn. assert (K : n < 9) by lia. rewrite Hd by assumption. destruct j as [|[|j]]; [| |lia]; (do 9 (destruct n as [|n]; [cbn in *; lia|])); lia.
  - intros n Hn. cbv in Hn. assert (K : n < 9) by lia. split; [|lra]. rewrite Hd by lia. (do 9 (destruct n as [|n]; [cbn in *; lia|])); lia.
  - exact C90_ldlt.
  - assert (V : valid_call (length (conn m)) (q_c (conn m))) by apply Permutation_refl. repeat (split; [exact V|]). cbn [q_mem0 r_order]. rewrite LX. apply Permutation_refl.
  - apply tab2_shape.
  - apply tab2_shape.
  - apply tab2_shape.
  - exact Z.
  - intros n i Hn Hi _. unfold val2 at 1, bc. now rewrite (tab2_nth 0%R 9 2) by assumption.
  - intros n i Hn Hi _. now apply Z.
  - exists K0, p, disp, fint, fext', fres. split; [exact A1|]. split; [exact A2|]. split; [exact A3|]. split; [exact A4|].
    rewrite (proj2 (proj2 A4 4 ltac:(lia))).
    assert (W : nth_error (coor m) 4 = Some [(h * INR 1)%R; (h * INR 1)%R]) by (apply (coor_at m 1 1); cbn; lia). unfold val2, nth2. rewrite (nth_error_nth _ _ _ W). cbn [nth INR]. ring.
Qed.
