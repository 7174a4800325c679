(** The elements of the meshes of quadrilaterals are linked by edges, and every node is in an element. *)
From Coq Require Import Reals Lra Lia List Arith Permutation.
From Verif Require Import Model_Element Spec_Element Base Spec Spec2d Sums Spec_Vector Spec_Tiling Spec_Conform Spec_Spd Proof_Conform Proof_ConformTiles Proof_ConformMesh Proof_ConformClosed Proof_Joined Spec_QuadMesh Proof_QuadMesh.
Import ListNotations.

Lemma row_side C e p q : Spec.shape2 C (length C) 4 -> e < length C -> In (p, q) (sides (nth e C [])) -> exists m k, m < 4 /\ k < 4 /\ p = idx2 C e m /\ q = idx2 C e k.
Proof.
  intros SC He H. pose proof (nth_error_nth _ _ [] (row4 C (length C) SC e He)) as E. rewrite E in H.
  apply In_nth_error in H. destruct H as [m Em]. assert (Hm : m < 4) by (destruct m as [|[|[|[|m]]]]; [lia..|destruct m; discriminate Em]).
  rewrite (sides_at C (length C) e m He Hm) in Em. injection Em as <- <-. exists m, ((m + 1) mod 4). split; [exact Hm|]. split; [apply mod4_lt|]. auto.
Qed.

Lemma side_distinct X C Lx Ly e p q : tiles X C Lx Ly -> In e C -> In (p, q) (sides e) -> exists i, i < 2 /\ val2 X p i <> val2 X q i.
Proof.
  intros HT He H. destruct (t_convex _ _ _ _ HT e He) as (x0 & y0 & x1 & y1 & x2 & y2 & x3 & y3 & (n0 & n1 & n2 & n3 & -> & N0 & N1 & N2 & N3) & (A1 & A2 & A3 & A4)).
  apply node_val in N0, N1, N2, N3.
  assert (D : forall p q x y x' y', (val2 X p 0 = x /\ val2 X p 1 = y)%R -> (val2 X q 0 = x' /\ val2 X q 1 = y')%R -> ~ (x = x' /\ y = y') -> exists i, i < 2 /\ val2 X p i <> val2 X q i).
  { clear. intros p q x y x' y' [<- <-] [<- <-] N. destruct (Req_dec (val2 X p 0) (val2 X q 0)) as [E|E]; [|now exists 0; split; [lia|]]. exists 1. split; [lia|]. tauto. }
  unfold area2 in *. cbn in H. destruct H as [H|[H|[H|[H|[]]]]]; injection H as <- <-; (eapply D; [eassumption|eassumption|]); intros [-> ->]; lra.
Qed.

Lemma quad_joined X C ties bot rgt top lft Lx Ly : mesh_facts X C ties bot rgt top lft Lx Ly -> forall e f, e < length C -> f < length C -> joined C e f.
Proof.
  intros M. destruct (mf_bounds _ _ _ _ _ _ _ _ _ M) as (obot & otop & olft & orgt & bl & br & tl & tr & HB).
  apply (mesh_joined X C Lx Ly bot top lft rgt obot otop olft orgt bl br tl tr); [apply M|apply M|exact HB|apply (proj1 (proj2 (mf_domain _ _ _ _ _ _ _ _ _ M)))|apply M|].
  exact (quad_cross X C Lx Ly (mf_tiles _ _ _ _ _ _ _ _ _ M)).
Qed.

Lemma quad_linked X C ties bot rgt top lft Lx Ly : mesh_facts X C ties bot rgt top lft Lx Ly -> forall e, e < length C -> linked C (length C) 4 2 X 0 e.
Proof.
  intros M e He. pose proof (mf_C _ _ _ _ _ _ _ _ _ M) as SC. assert (H0 : 0 < length C) by lia. pose proof (quad_joined _ _ _ _ _ _ _ _ _ M 0 e H0 He) as J.
  induction J as [|f g [p q] J IH Hg S1 S2]; [constructor|].
  assert (Hf : f < length C). { destruct (Nat.lt_ge_cases f (length C)) as [|L]; [assumption|]. rewrite nth_overflow in S1 by exact L. contradiction. }
  destruct (row_side C f p q SC Hf S1) as (m1 & m2 & M1 & M2 & P1 & P2). destruct (row_side C g q p SC Hg S2) as (k2 & k1 & K2 & K1 & Q2 & Q1).
  destruct (side_distinct X C Lx Ly (nth f C []) p q (mf_tiles _ _ _ _ _ _ _ _ _ M) (nth_In _ _ Hf) S1) as (i & Hi & D).
  apply (linked_step C (length C) 4 2 X 0 f g m1 m2 k1 k2 i); try assumption; [now apply IH|congruence|congruence|]. now rewrite <- P1, <- P2.
Qed.

Lemma quad_covered X C ties bot rgt top lft Lx Ly : mesh_facts X C ties bot rgt top lft Lx Ly -> forall p, p < length X -> exists e m, e < length C /\ m < 4 /\ idx2 C e m = p.
Proof.
  intros M p Hp. destruct (t_used _ _ _ _ (mf_tiles _ _ _ _ _ _ _ _ _ M) p Hp) as (r & Hr & Hpr). destruct (In_nth C r [] Hr) as (e & He & Er). destruct (In_nth r p 0 Hpr) as (m & Hm & Em).
  exists e, m. split; [exact He|]. rewrite (proj2 (mf_C _ _ _ _ _ _ _ _ _ M) r Hr) in Hm. split; [exact Hm|]. unfold idx2, nth2. now rewrite Er.
Qed.
