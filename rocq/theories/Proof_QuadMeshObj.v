(** Element objects on the planar meshes. *)
From Coq Require Import Reals Lra Lia List Arith Permutation.
From Verif Require Import Model_Element Spec_Element Proof_Element Proof_ElementQuad4 Proof_ElementMath Base Spec Spec2d Sums Spec_Vector Spec_Tiling Spec_Conform Model_Numbering Model_Regular2d Model_FineLayer
  Model_Pipeline Spec_Pipeline Proof_PipelineElem Spec_Patch Spec_Macro Spec_Divergence Proof_Patch Proof_PatchRegular Proof_ConformClosed Spec_QuadMesh Proof_QuadMesh.
Import ListNotations.
Local Open Scope R_scope.

(** the Jacobian of a strictly convex, counter-clockwise quadrilateral is positive everywhere *)
Lemma convex_jac (y : nat -> nat -> R) p : convex_ccw (y 0 0)%nat (y 0 1)%nat (y 1 0)%nat (y 1 1)%nat (y 2 0)%nat (y 2 1)%nat (y 3 0)%nat (y 3 1)%nat ->
  -1 <= p 0%nat <= 1 -> -1 <= p 1%nat <= 1 -> 0 < jac2 y p.
Proof.
  intros (A1 & A2 & A3 & A0) H0 H1.
  set (a1 := area2 (y 0 0)%nat (y 0 1)%nat (y 1 0)%nat (y 1 1)%nat (y 2 0)%nat (y 2 1)%nat) in *. set (a2 := area2 (y 1 0)%nat _ _ _ _ _) in *.
  set (a3 := area2 (y 2 0)%nat _ _ _ _ _) in *. set (a0 := area2 (y 3 0)%nat _ _ _ _ _) in *.
  assert (E : jac2 y p = (Spec_Element.shape2 0%nat p * a0 + Spec_Element.shape2 1%nat p * a1 + Spec_Element.shape2 2%nat p * a2 + Spec_Element.shape2 3%nat p * a3) / 4).
  { unfold jac2, dinterp2, a0, a1, a2, a3, area2. rewrite !sumn4. unfold Spec_Element.shape2, dshape2, corner2. field. }
  assert (P : forall m, (m < 4)%nat -> 0 <= Spec_Element.shape2 m p).
  { intros m Hm. destruct m as [|[|[|[|]]]]; try lia; unfold Spec_Element.shape2, corner2; apply Rmult_le_pos; lra. }
  assert (S : Spec_Element.shape2 0%nat p + Spec_Element.shape2 1%nat p + Spec_Element.shape2 2%nat p + Spec_Element.shape2 3%nat p = 1) by (unfold Spec_Element.shape2, corner2; field).
  assert (M : exists a, 0 < a /\ a <= a0 /\ a <= a1 /\ a <= a2 /\ a <= a3).
  { exists (Rmin (Rmin a0 a1) (Rmin a2 a3)). split; [repeat apply Rmin_glb_lt; assumption|].
    pose proof (Rmin_l (Rmin a0 a1) (Rmin a2 a3)). pose proof (Rmin_r (Rmin a0 a1) (Rmin a2 a3)). pose proof (Rmin_l a0 a1). pose proof (Rmin_r a0 a1). pose proof (Rmin_l a2 a3). pose proof (Rmin_r a2 a3). repeat split; lra. }
  destruct M as (a & Ha & B0 & B1 & B2 & B3).
  pose proof (P 0%nat ltac:(lia)) as P0. pose proof (P 1%nat ltac:(lia)) as P1. pose proof (P 2%nat ltac:(lia)) as P2. pose proof (P 3%nat ltac:(lia)) as P3.
  pose proof (Rmult_le_compat_l _ _ _ P0 B0). pose proof (Rmult_le_compat_l _ _ _ P1 B1). pose proof (Rmult_le_compat_l _ _ _ P2 B2). pose proof (Rmult_le_compat_l _ _ _ P3 B3).
  assert (a * (Spec_Element.shape2 0%nat p + Spec_Element.shape2 1%nat p + Spec_Element.shape2 2%nat p + Spec_Element.shape2 3%nat p) = a) by (rewrite S; ring). rewrite E. lra.
Qed.

Lemma tiles_jac X C Lx Ly x e p : tiles X C Lx Ly -> on_mesh C (length C) X x -> (e < length C)%nat -> -1 <= p 0%nat <= 1 -> -1 <= p 1%nat <= 1 -> 0 < jac2 (nodes x e) p.
Proof.
  intros HT HX He H0 H1. destruct (t_convex _ _ _ _ HT (nth e C []) (nth_In _ _ He)) as (x0 & y0 & x1 & y1 & x2 & y2 & x3 & y3 & (n0 & n1 & n2 & n3 & En & N0 & N1 & N2 & N3) & HC).
  apply node_val in N0, N1, N2, N3.
  assert (I : forall m, idx2 C e m = nth m [n0;n1;n2;n3] 0%nat) by (intros m; unfold idx2, nth2; now rewrite En).
  apply convex_jac; [|assumption|assumption]. unfold nodes. rewrite !HX by lia. rewrite !I. cbn [nth]. now rewrite (proj1 N0), (proj2 N0), (proj1 N1), (proj2 N1), (proj1 N2), (proj2 N2), (proj1 N3), (proj2 N3).
Qed.

Definition rule_facts nip (xi w : arr) : Prop := centred nip xi w /\ sumn nip (fun q => w [q]) = 4 /\ (forall q, (q < nip)%nat -> 0 < w [q] /\ -1 <= xi [q;0]%nat <= 1 /\ -1 <= xi [q;1]%nat <= 1) /\ not_on_a_line nip xi.

Lemma sqrt3_inv : 0 < 1 / sqrt 3 <= 1.
Proof.
  assert (H : 1 < sqrt 3) by (rewrite <- sqrt_1 at 1; apply sqrt_lt_1; lra). split; [apply Rdiv_lt_0_compat; lra|].
  apply (Rmult_le_reg_r (sqrt 3)); [lra|]. unfold Rdiv. rewrite Rmult_assoc, Rinv_l by lra. lra.
Qed.
Lemma full_rule_facts nip xi w : full_rule nip xi w -> rule_facts nip xi w.
Proof.
  intros [j j'|j j']; (split; [|split; [|split]]).
  - apply centred_Gauss.
  - rewrite sumn4. unfold Gauss4_w; blk. ring.
  - pose proof sqrt3_inv. apply lt4; unfold Gauss4_w, Gauss4_xi; blk; replace (-1 / sqrt 3) with (- (1 / sqrt 3)) by (unfold Rdiv; ring); lra.
  - apply line_Gauss.
  - apply centred_Nodal.
  - rewrite sumn4. unfold Nodal4_w; blk. ring.
  - apply lt4; unfold Nodal4_w, Nodal4_xi; blk; lra.
  - apply line_Nodal.
Qed.

Section O.
Variables (X : list (list R)) (C : list (list nat)) (Lx Ly : R) (x : arr) (nip : nat) (xi w : arr).
Hypothesis HT : tiles X C Lx Ly.
Hypothesis HX : on_mesh C (length C) X x.
Hypothesis HR : full_rule nip xi w.
Notation ne := (length C).

Lemma rule_jac e q : (e < ne)%nat -> (q < nip)%nat -> 0 < w [q] /\ 0 < jac2 (nodes x e) (point xi q).
Proof.
  intros He Hq. destruct (full_rule_facts _ _ _ HR) as (_ & _ & H & _). destruct (H q Hq) as (Hw & Hx & Hy). split; [exact Hw|]. now apply (tiles_jac X C Lx Ly x e (point xi q) HT HX He).
Qed.
Lemma rule_jac0 e q : (e < ne)%nat -> (q < nip)%nat -> jac2 (nodes x e) (point xi q) <> 0.
Proof. intros He Hq. pose proof (proj2 (rule_jac e q He Hq)). lra. Qed.

Lemma quad4_objs Q : Quad4_obj ne nip xi w x Q -> sheet_obj ne 1 x (Quad4_elem Q) /\ full_obj ne x (Quad4_elem Q) /\ affine_obj ne x (Quad4_elem Q) /\ positive_volume ne (Quad4_elem Q).
Proof.
  intros HQ. pose proof (Quad4_facts _ _ _ _ _ _ HQ) as F. destruct (full_rule_facts _ _ _ HR) as (R1 & R2 & _ & R4).
  assert (V : forall e q, (e < ne)%nat -> (q < nip)%nat -> 0 < q_vol Q [e;q]).
  { intros e q He Hq. rewrite (f_vol F) by assumption. destruct (rule_jac e q He Hq). now apply Rmult_lt_0_compat. }
  split; [|split; [|split]].
  - econstructor; [exact HQ|exact R1|exact R2|exact rule_jac0].
  - econstructor; [exact HQ|exact R4|]. intros e q He Hq. split; [now apply rule_jac0|now apply V].
  - econstructor; [exact HQ|exact rule_jac0].
  - intros e q He Hq. cbn [Quad4_elem el_nip el_dV] in *. rewrite (f_nip F) in Hq. left. now apply V.
Qed.

Lemma planar_objs thick P : 0 < thick -> Planar_obj ne nip xi w thick x P -> sheet_obj ne thick x (Planar_elem P) /\ full_obj ne x (Planar_elem P) /\ affine_obj ne x (Planar_elem P) /\ positive_volume ne (Planar_elem P).
Proof.
  intros Ht HQ. pose proof (proj2 (Planar_facts _ _ _ _ _ _ _ HQ)) as F. destruct (full_rule_facts _ _ _ HR) as (R1 & R2 & _ & R4).
  assert (V : forall e q, (e < ne)%nat -> (q < nip)%nat -> 0 < q_vol (p_base P) [e;q]).
  { intros e q He Hq. rewrite (f_vol F) by assumption. destruct (rule_jac e q He Hq). repeat apply Rmult_lt_0_compat; assumption. }
  split; [|split; [|split]].
  - econstructor; [exact HQ|exact R1|exact R2|exact rule_jac0].
  - econstructor; [exact HQ|exact R4|]. intros e q He Hq. split; [now apply rule_jac0|now apply V].
  - econstructor; [exact HQ|exact rule_jac0].
  - intros e q He Hq. cbn [Planar_elem el_nip el_dV] in *. rewrite (f_nip F) in Hq. left. now apply V.
Qed.
End O.
