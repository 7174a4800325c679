(** Property C92: the gradient of a displacement, integrated over the body, follows from the displacement of the boundary. *)
From Coq Require Import Reals Lra Lia List Arith Permutation.
From Verif Require Import Model_Element Spec_Element Proof_Element Proof_ElementQuad4 Proof_ElementMath Base Spec Spec2d Sums Spec_Vector Spec_Tyings Spec_Tiling Spec_Conform Model_Numbering Model_Vector Proof_Vector
  Model_Sparse Model_Tyings Prop_Tyings Model_MatrixTyings Model_Regular2d Model_FineLayer
  Model_Pipeline Spec_Pipeline Proof_PipelineElem Spec_Patch Spec_Macro Proof_Macro Model_PeriodicProgram Spec_Periodic Prop_Periodic Prop_Macro Spec_Divergence Proof_Divergence Proof_Patch Proof_PatchRegular Proof_Conform Proof_ConformClosed Spec_QuadMesh Proof_QuadMesh Proof_QuadMeshObj.
Import ListNotations.
Local Open Scope R_scope.

(** C92: the divergence theorem, exactly, on every conforming mesh however distorted: the integral of component (i, j) of the gradient
    (the derivative in direction i of component j) is the sum, over the steps of the outline, of the mean displacement times the outward
    normal *)
Theorem C92_divergence : forall nelem th x E conn X u ue bot rgt top lft, sheet_obj nelem th x E -> Spec.shape2 conn nelem 4 -> on_mesh conn nelem X x -> nodal_elem conn nelem u ue ->
  conforming_mesh conn bot rgt top lft ->
  forall c i j, valid_call nelem c -> (i < 2)%nat -> (j < 2)%nat ->
  total nelem E (el_GradN_vector E c ue) i j = th * sumL (outline bot rgt top lft) (fun s => mean u j s * normal X i s).
Proof.
  intros nelem th x E conn X u ue bot rgt top lft HE SC HX HU HC c i j Hc Hi Hj. rewrite (sheet_total nelem th x E conn X u ue c i j HE Hc SC HX HU Hi Hj).
  rewrite (conforming_sum conn bot rgt top lft (flux X u i j) HC (flux_odd X u i j)). unfold along, flux. reflexivity.
Qed.
Print Assumptions C92_divergence.

(** C92: so that displacements that are equal on the boundary have the same integral *)
Theorem C92_boundary : forall nelem th x E conn X u1 u2 ue1 ue2 bot rgt top lft, sheet_obj nelem th x E -> Spec.shape2 conn nelem 4 -> on_mesh conn nelem X x ->
  nodal_elem conn nelem u1 ue1 -> nodal_elem conn nelem u2 ue2 -> conforming_mesh conn bot rgt top lft ->
  (forall n i, In n bot \/ In n rgt \/ In n top \/ In n lft -> (i < 2)%nat -> val2 u1 n i = val2 u2 n i) ->
  forall c1 c2 i j, valid_call nelem c1 -> valid_call nelem c2 -> (i < 2)%nat -> (j < 2)%nat ->
  total nelem E (el_GradN_vector E c1 ue1) i j = total nelem E (el_GradN_vector E c2 ue2) i j.
Proof.
  intros nelem th x E conn X u1 u2 ue1 ue2 bot rgt top lft HE SC HX H1 H2 HC HB c1 c2 i j V1 V2 Hi Hj.
  rewrite (C92_divergence nelem th x E conn X u1 ue1 bot rgt top lft HE SC HX H1 HC c1 i j V1 Hi Hj), (C92_divergence nelem th x E conn X u2 ue2 bot rgt top lft HE SC HX H2 HC c2 i j V2 Hi Hj).
  f_equal. apply sumL_ext. intros [p q] Hs. f_equal. unfold mean. cbn [fst snd].
  assert (B : forall n, n = p \/ n = q -> In n bot \/ In n rgt \/ In n top \/ In n lft).
  { intros n Hn. destruct (in_dec Nat.eq_dec n bot) as [|B1]; [tauto|]. destruct (in_dec Nat.eq_dec n rgt) as [|B2]; [tauto|]. destruct (in_dec Nat.eq_dec n top) as [|B3]; [tauto|]. destruct (in_dec Nat.eq_dec n lft) as [|B4]; [tauto|].
    exfalso. destruct Hn as [-> | ->]; [apply (proj1 (off_outline bot rgt top lft p B1 B2 B3 B4 q) Hs)|apply (proj2 (off_outline bot rgt top lft q B1 B2 B3 B4 p) Hs)]. }
  rewrite !HB by (try assumption; apply B; auto). reflexivity.
Qed.
Print Assumptions C92_boundary.

(** C92: the meshes of the library with the rules of four points, for Quad4 (thickness 1) and for Quad4Planar, are such bodies *)
Theorem C92_bodies : forall X C ties bot rgt top lft Lx Ly, quad_mesh X C ties bot rgt top lft Lx Ly ->
  forall x nip xi w, on_mesh C (length C) X x -> full_rule nip xi w ->
  Spec.shape2 C (length C) 4 /\ conforming_mesh C bot rgt top lft /\
  (forall Q, Quad4_obj (length C) nip xi w x Q -> sheet_obj (length C) 1 x (Quad4_elem Q)) /\
  (forall thick P, 0 < thick -> Planar_obj (length C) nip xi w thick x P -> sheet_obj (length C) thick x (Planar_elem P)).
Proof.
  intros X C ties bot rgt top lft Lx Ly H x nip xi w HX HR. pose proof (quad_mesh_facts _ _ _ _ _ _ _ _ _ H) as F. split; [apply (mf_C _ _ _ _ _ _ _ _ _ F)|]. split; [apply (mf_conforming _ _ _ _ _ _ _ _ _ F)|].
  pose proof (mf_tiles _ _ _ _ _ _ _ _ _ F) as HT. split.
  - intros Q HQ. apply (quad4_objs X C Lx Ly x nip xi w HT HX HR Q HQ).
  - intros thick P Ht HP. apply (planar_objs X C Lx Ly x nip xi w HT HX HR thick P Ht HP).
Qed.
Print Assumptions C92_bodies.

(** C92: on such a mesh the volume is that of the rectangle, and if the displacements of the tied nodes differ by F . (difference in
    position) then the integral of the gradient is F times the volume, whatever the displacements inside *)
Theorem C92_cell : forall X C ties bot rgt top lft Lx Ly, quad_mesh X C ties bot rgt top lft Lx Ly ->
  forall th x E, sheet_obj (length C) th x E -> on_mesh C (length C) X x ->
  volume (length C) E = th * (Lx * Ly) /\
  forall u ue F, nodal_elem C (length C) u ue ->
  (forall a b j, In (a, b) ties -> (j < 2)%nat -> val2 u b j = val2 u a j + sumn 2 (fun k => F j k * (val2 X b k - val2 X a k))) ->
  forall c i j, valid_call (length C) c -> (i < 2)%nat -> (j < 2)%nat -> total (length C) E (el_GradN_vector E c ue) i j = F j i * volume (length C) E.
Proof.
  intros X C ties bot rgt top lft Lx Ly H th x E HE HX. pose proof (quad_mesh_facts _ _ _ _ _ _ _ _ _ H) as M.
  destruct (sheet_dims _ _ _ _ HE) as (D4 & D2 & Dt).
  assert (P : forall u ue F, nodal_elem C (length C) u ue ->
    (forall a b j, In (a, b) ties -> (j < 2)%nat -> val2 u b j = val2 u a j + sumn 2 (fun k => F j k * (val2 X b k - val2 X a k))) ->
    forall c i j, valid_call (length C) c -> (i < 2)%nat -> (j < 2)%nat -> total (length C) E (el_GradN_vector E c ue) i j = th * (F j i * (Lx * Ly))).
  { intros u ue F HU HF c i j Hc Hi Hj. rewrite (sheet_total (length C) th x E C X u ue c i j HE Hc (mf_C _ _ _ _ _ _ _ _ _ M) HX HU Hi Hj).
    rewrite (conforming_sum C bot rgt top lft (flux X u i j) (mf_conforming _ _ _ _ _ _ _ _ _ M) (flux_odd X u i j)). f_equal.
    destruct (mf_opposite _ _ _ _ _ _ _ _ _ M) as (kx & ky & b & t & l & r & O). pose proof (op_kx _ _ _ _ _ _ _ _ _ _ _ _ _ _ O) as Kx. pose proof (op_ky _ _ _ _ _ _ _ _ _ _ _ _ _ _ O) as Ky.
    assert (Pb : forall k, (k <= kx)%nat -> val2 X (b k) 1 = 0 /\ val2 X (t k) 1 = Ly /\ val2 X (t k) 0 = val2 X (b k) 0).
    { intros k Hk. destruct (op_bx _ _ _ _ _ _ _ _ _ _ _ _ _ _ O k Hk) as (y & N1 & N2). apply node_val in N1, N2. destruct N1 as [-> ->], N2 as [-> ->]. auto. }
    assert (Pl : forall k, (k <= ky)%nat -> val2 X (l k) 0 = 0 /\ val2 X (r k) 0 = Lx /\ val2 X (r k) 1 = val2 X (l k) 1).
    { intros k Hk. destruct (op_ly _ _ _ _ _ _ _ _ _ _ _ _ _ _ O k Hk) as (y & N1 & N2). apply node_val in N1, N2. destruct N1 as [-> ->], N2 as [-> ->]. auto. }
    pose proof (op_c1 _ _ _ _ _ _ _ _ _ _ _ _ _ _ O) as C1. pose proof (op_c2 _ _ _ _ _ _ _ _ _ _ _ _ _ _ O) as C2. pose proof (op_c3 _ _ _ _ _ _ _ _ _ _ _ _ _ _ O) as C3. pose proof (op_c4 _ _ _ _ _ _ _ _ _ _ _ _ _ _ O) as C4.
    assert (E1 : val2 X (b 0%nat) 0 = 0 /\ val2 X (b kx) 0 = Lx). { rewrite C1, C2. split; [apply Pl; lia|]. destruct (Pl 0%nat ltac:(lia)) as (_ & Q & _). exact Q. }
    assert (E2 : val2 X (l 0%nat) 1 = 0 /\ val2 X (l ky) 1 = Ly). { rewrite <- C1, <- C3. split; [apply Pb; lia|]. destruct (Pb 0%nat ltac:(lia)) as (_ & Q & _). exact Q. }
    destruct (op_t0 _ _ _ _ _ _ _ _ _ _ _ _ _ _ O) as (T1 & T2 & T3).
    assert (G1 : forall j, (j < 2)%nat -> val2 u (b kx) j = val2 u (b 0%nat) j + F j 0%nat * Lx).
    { intros k Hk. rewrite (HF _ _ k T1 Hk), sumn2. rewrite (proj1 E1), (proj2 E1), (proj1 (Pb 0%nat ltac:(lia))), (proj1 (Pb kx ltac:(lia))). ring. }
    assert (G2 : forall j, (j < 2)%nat -> val2 u (t 0%nat) j = val2 u (b 0%nat) j + F j 1%nat * Ly).
    { intros k Hk. rewrite (HF _ _ k T3 Hk), sumn2. destruct (Pb 0%nat ltac:(lia)) as (-> & -> & ->). ring. }
    assert (G3 : forall j, (j < 2)%nat -> val2 u (t kx) j = val2 u (b 0%nat) j + F j 0%nat * Lx + F j 1%nat * Ly).
    { intros k Hk. rewrite (HF _ _ k T2 Hk), sumn2. destruct (Pb kx ltac:(lia)) as (_ & -> & ->). rewrite (proj1 E1), (proj2 E1), (proj1 (Pb 0%nat ltac:(lia))). ring. }
    rewrite (op_b _ _ _ _ _ _ _ _ _ _ _ _ _ _ O), (op_r _ _ _ _ _ _ _ _ _ _ _ _ _ _ O), (op_t _ _ _ _ _ _ _ _ _ _ _ _ _ _ O), (op_l _ _ _ _ _ _ _ _ _ _ _ _ _ _ O).
    apply (rect_flux X u Lx Ly F kx ky b t l r Pb Pl E1 E2); try assumption.
    - intros k j' Hk Hj'. destruct (Nat.eq_dec k 0) as [->|K0]; [now apply G2|]. destruct (Nat.eq_dec k kx) as [->|K1]; [rewrite G3, G1 by assumption; ring|].
      rewrite (HF _ _ j' (op_tx _ _ _ _ _ _ _ _ _ _ _ _ _ _ O k ltac:(lia)) Hj'), sumn2. destruct (Pb k Hk) as (-> & -> & ->). ring.
    - intros k j' Hk Hj'. destruct (Nat.eq_dec k 0) as [->|K0]; [rewrite <- C1, <- C2; now apply G1|]. destruct (Nat.eq_dec k ky) as [->|K1]; [rewrite <- C3, <- C4, G3, G2 by assumption; ring|].
      rewrite (HF _ _ j' (op_ty _ _ _ _ _ _ _ _ _ _ _ _ _ _ O k ltac:(lia)) Hj'), sumn2. destruct (Pl k Hk) as (-> & -> & ->). ring. }
  assert (V : volume (length C) E = th * (Lx * Ly)).
  { set (I := fun j k : nat => if (j =? k)%nat then 1 else 0). set (c := mkCall (seq 0 (length C)) (fun _ => 0)).
    assert (Hc : valid_call (length C) c) by (apply Permutation_refl).
    assert (HU : nodal_elem C (length C) X x) by exact HX.
    assert (HF : forall a b j, In (a, b) ties -> (j < 2)%nat -> val2 X b j = val2 X a j + sumn 2 (fun k => I j k * (val2 X b k - val2 X a k))).
    { intros a b j _ Hj. rewrite sumn2. unfold I. destruct j as [|[|]]; [| |lia]; cbn; ring. }
    pose proof (P X x I HU HF c 0%nat 0%nat Hc ltac:(lia) ltac:(lia)) as E0. unfold I in E0. cbn in E0. transitivity (th * (1 * (Lx * Ly))); [|ring]. rewrite <- E0.
    unfold volume, total. apply sumn_ext. intros e He. apply sumn_ext. intros q Hq.
    rewrite (Proof_Macro.affine_grad (length C) x E c (fun _ => 0) I x (sheet_affine _ _ _ _ HE) Hc); try assumption; try lia.
    - rewrite D2. cbn. unfold I. cbn. ring.
    - intros e' m i _ _ Hi. rewrite D2 in *. rewrite sumn2. unfold I. destruct i as [|[|]]; [| |lia]; cbn; ring. }
  split; [exact V|]. intros u ue F HU HF c i j Hc Hi Hj. rewrite (P u ue F HU HF c i j Hc Hi Hj), V. ring.
Qed.
Print Assumptions C92_cell.
