(** The sum over all sides for the regular meshes and for FineLayer. *)
From Coq Require Import Reals Lra Lia List Arith Permutation.
From Verif Require Import Base Spec Spec2d Sums Spec_Tiling Spec_Conform Model_Numbering Model_Regular2d Proof_Vector Proof_Regular2d Proof_RegularTiling Model_FineLayer
  Proof_FineLayer Proof_FineLayerMesh Proof_FineLayerBoundary Proof_Conform Proof_ConformTiles.
Import ListNotations.
Local Open Scope R_scope.

Lemma along_map f (g : nat -> nat) : forall k a, along f (steps (map g (seq a (S k)))) = sumn k (fun i => f (g (a + i)%nat) (g (a + i + 1)%nat)).
Proof.
  induction k as [|k IH]; intros a; [reflexivity|]. cbn [seq map]. unfold steps. cbn [tl combine]. unfold along in *. cbn [sumL fold_right fst snd].
  specialize (IH (S a)). cbn [seq map] in IH. unfold steps in IH. cbn [tl combine] in IH. unfold sumL in IH. rewrite IH.
  change (S k) with (1 + k)%nat. rewrite sumn_app. f_equal.
  - unfold sumn. cbn. rewrite Nat.add_0_r, Nat.add_1_r. ring.
  - apply sumn_ext. intros i _. f_equal; f_equal; lia.
Qed.
Lemma along_map0 f (g : nat -> nat) k : along f (steps (map g (seq 0 (k + 1)))) = sumn k (fun i => f (g i) (g (i + 1)%nat)).
Proof. rewrite Nat.add_1_r. apply along_map. Qed.
Lemma along_flat f conn : along f (flat_map sides conn) = sumL conn (fun e => along f (sides e)).
Proof. apply sumL_flat_map. Qed.
Lemma along_quad f a b c d : along f (sides [a; b; c; d]) = f a b + f b c + f c d + f d a.
Proof. unfold along, sides. cbn. ring. Qed.
Lemma along_tri f a b c : along f (sides [a; b; c]) = f a b + f b c + f c a.
Proof. unfold along, sides. cbn. ring. Qed.
Lemma telescope n g : sumn n (fun i => g (i + 1)%nat - g i) = g n - g 0%nat.
Proof. induction n as [|n IH]; [unfold sumn; cbn; ring|]. rewrite sumn_S, IH, Nat.add_1_r. ring. Qed.
Lemma rows_telescope n B l r : sumn n (fun i => B i + r i - B (i + 1)%nat - l i) = B 0%nat + sumn n r - B n - sumn n l.
Proof.
  rewrite (sumn_ext n _ (fun i => r i + (-1 * l i + -1 * (B (i + 1)%nat - B i)))) by (intros; ring). rewrite sumn_plus, sumn_plus, !sumn_scal, telescope. ring.
Qed.

Section Reg.
Variable m : Regular.
Notation nx := (nelx m). Notation ny := (nely m).

Lemma Regular_sum f : odd f -> along f (flat_map sides (conn m)) = along f (outline (nodesBottomEdge m) (nodesRightEdge m) (nodesTopEdge m) (nodesLeftEdge m)).
Proof.
  intros Hf. rewrite along_outline by assumption. unfold nodesBottomEdge, nodesRightEdge, nodesTopEdge, nodesLeftEdge, arange. rewrite !Nat.sub_0_r.
  rewrite <- (map_id (seq 0 (nx + 1))) at 1. rewrite !along_map0.
  rewrite along_flat. unfold conn. rewrite sumL_flat_map.
  set (B := fun iy => sumn nx (fun i => f (iy * (nx + 1) + i)%nat (iy * (nx + 1) + (i + 1))%nat)).
  set (r := fun iy => f (iy * (nx + 1) + nx)%nat ((iy + 1) * (nx + 1) + nx)%nat).
  set (l := fun iy => f (iy * (nx + 1))%nat ((iy + 1) * (nx + 1))%nat).
  transitivity (sumn ny (fun iy => B iy + r iy - B (iy + 1)%nat - l iy)).
  - apply sumL_ext. intros iy _. rewrite sumL_map. change (sumL (seq 0 nx)) with (sumn nx).
    rewrite (sumn_ext nx _ (fun ix => f (iy * (nx + 1) + ix)%nat (iy * (nx + 1) + (ix + 1))%nat + (-1 * f ((iy + 1) * (nx + 1) + ix)%nat ((iy + 1) * (nx + 1) + (ix + 1))%nat +
      (f (iy * (nx + 1) + (ix + 1))%nat ((iy + 1) * (nx + 1) + (ix + 1))%nat - f (iy * (nx + 1) + ix)%nat ((iy + 1) * (nx + 1) + ix)%nat)))).
    + rewrite sumn_plus, sumn_plus, sumn_scal. rewrite (telescope nx (fun ix => f (iy * (nx + 1) + ix)%nat ((iy + 1) * (nx + 1) + ix)%nat)).
      unfold B, r, l. rewrite !Nat.add_0_r. ring.
    + intros ix _. rewrite along_quad. rewrite (Hf ((iy + 1) * (nx + 1) + (ix + 1))%nat ((iy + 1) * (nx + 1) + ix)%nat), (Hf ((iy + 1) * (nx + 1) + ix)%nat (iy * (nx + 1) + ix)%nat). ring.
  - rewrite rows_telescope. unfold B, r, l. cbn [Nat.mul Nat.add].
    rewrite (sumn_ext nx (fun i => f (ny * (nx + 1) + i)%nat (ny * (nx + 1) + (i + 1))%nat) (fun i => f (i + ny * (nx + 1))%nat (i + 1 + ny * (nx + 1))%nat)); [reflexivity|].
    intros i _. f_equal; lia.
Qed.

Lemma Tri3_sum f : odd f -> along f (flat_map sides (tri_conn m)) = along f (outline (tri_nodesBottomEdge m) (tri_nodesRightEdge m) (tri_nodesTopEdge m) (tri_nodesLeftEdge m)).
Proof.
  intros Hf. transitivity (along f (flat_map sides (conn m))).
  - rewrite !along_flat. unfold conn, tri_conn. rewrite !sumL_flat_map. apply sumL_ext. intros iy _. rewrite sumL_flat_map, sumL_map. apply sumL_ext. intros ix _.
    cbn [sumL fold_right]. rewrite !along_tri, along_quad. rewrite (Hf ((iy + 1) * (nx + 1) + ix)%nat (iy * (nx + 1) + (ix + 1))%nat). ring.
  - rewrite Regular_sum by assumption. unfold nodesBottomEdge, nodesRightEdge, nodesTopEdge, nodesLeftEdge, arange. rewrite !Nat.sub_0_r.
    unfold tri_nodesBottomEdge, tri_nodesRightEdge, tri_nodesTopEdge, tri_nodesLeftEdge. now rewrite map_id.
Qed.

Lemma Regular_conforming : 0 < hh m -> (1 <= nx)%nat -> (1 <= ny)%nat -> conforming_mesh (conn m) (nodesBottomEdge m) (nodesRightEdge m) (nodesTopEdge m) (nodesLeftEdge m).
Proof.
  intros Hh Hx Hy. pose proof (lt_0_INR nx ltac:(lia)). pose proof (lt_0_INR ny ltac:(lia)).
  destruct (boundary_outline _ _ _ _ _ _ _ _ _ _ _ _ _ _ _ (Rmult_lt_0_compat _ _ Hh H) (Rmult_lt_0_compat _ _ Hh H0) (Regular_boundary_sets m Hx Hy Hh)) as [A B].
  apply sum_conforming; try assumption; [|exact Regular_sum]. eapply tiles_sides. now apply Regular_tiles.
Qed.
Lemma Tri3_conforming : 0 < hh m -> (1 <= nx)%nat -> (1 <= ny)%nat -> conforming_mesh (tri_conn m) (tri_nodesBottomEdge m) (tri_nodesRightEdge m) (tri_nodesTopEdge m) (tri_nodesLeftEdge m).
Proof.
  intros Hh Hx Hy. pose proof (lt_0_INR nx ltac:(lia)). pose proof (lt_0_INR ny ltac:(lia)).
  destruct (boundary_outline _ _ _ _ _ _ _ _ _ _ _ _ _ _ _ (Rmult_lt_0_compat _ _ Hh H) (Rmult_lt_0_compat _ _ Hh H0) (tri_boundary_sets m Hx Hy Hh)) as [A B].
  apply sum_conforming; try assumption; [|exact Tri3_sum]. eapply tri_sides. now apply Tri3_tiles.
Qed.
End Reg.

Section FL.
Variables (nelx n : nat) (w y : nat -> nat) (r : nat -> bool).
Hypothesis HL : layered nelx n w y r.
Notation L := (L n).
Notation Rf := (Rf n r).
Notation W := (W n w).
Notation NX := (NX nelx n w).
Notation WN := (WN n w).
Notation NN := (NN nelx n w).
Notation SN := (SN nelx n w r).

Lemma along_erow f iy : (iy <= L)%nat -> along f (steps (erow nelx n w r iy)) = sumn (NN iy - 1) (fun i => f (SN iy + i)%nat (SN iy + (i + 1))%nat).
Proof.
  intros H. unfold erow. pose proof (NN_pos _ _ _ _ _ HL iy H). replace (NN iy) with ((NN iy - 1) + 1)%nat at 1 by lia. apply along_map0.
Qed.

Lemma sumn_triple k g : sumn (3 * k) g = sumn k (fun i => g (3 * i)%nat + g (3 * i + 1)%nat + g (3 * i + 2)%nat).
Proof.
  induction k as [|k IH]; [reflexivity|]. replace (3 * S k)%nat with (3 * k + 3)%nat by lia. rewrite sumn_app, IH, !sumn_S. unfold sumn at 2. cbn [seq sumL fold_right]. rewrite Nat.add_0_r. ring.
Qed.

Lemma layer_sum f iy : odd f -> (iy < L)%nat ->
  sumL (lconn nelx n w r iy) (fun e => along f (sides e)) = along f (steps (erow nelx n w r iy)) + f (SN iy + (NN iy - 1))%nat (SN (iy + 1) + (NN (iy + 1) - 1))%nat
    - along f (steps (erow nelx n w r (iy + 1))) - f (SN iy) (SN (iy + 1)).
Proof.
  intros Hf Hi. rewrite !along_erow by lia. pose proof (W_NX _ _ _ _ _ HL iy Hi) as EW. pose proof (W_pos _ _ _ _ _ HL iy Hi) as Wp.
  pose proof (WN_last _ _ _ _ _ HL iy ltac:(lia)) as E0. pose proof (WN_last _ _ _ _ _ HL (iy + 1) ltac:(lia)) as E1.
  unfold lconn. destruct (WN_layer _ _ _ _ _ HL iy Hi) as [(Er & A1 & A2 & _)|(Er & s & Hs & Ew & _ & Ec)]; rewrite Er.
  - assert (N0 : (NN iy - 1 = NX iy)%nat) by nia. assert (N1 : (NN (iy + 1) - 1 = NX iy)%nat) by nia. rewrite N0, N1.
    rewrite sumL_flat_map. change (sumL (seq 0 (NX iy))) with (sumn (NX iy)).
    rewrite (sumn_ext (NX iy) _ (fun ix => f (SN iy + ix)%nat (SN iy + (ix + 1))%nat + (-1 * f (SN (iy + 1) + ix)%nat (SN (iy + 1) + (ix + 1))%nat +
      (f (SN iy + (ix + 1))%nat (SN (iy + 1) + (ix + 1))%nat - f (SN iy + ix)%nat (SN (iy + 1) + ix)%nat)))).
    + rewrite sumn_plus, sumn_plus, sumn_scal. rewrite (telescope (NX iy) (fun ix => f (SN iy + ix)%nat (SN (iy + 1) + ix)%nat)). rewrite !Nat.add_0_r. ring.
    + intros ix _. cbn [sumL fold_right]. rewrite along_quad. rewrite (Hf (SN (iy + 1) + (ix + 1))%nat (SN (iy + 1) + ix)%nat), (Hf (SN (iy + 1) + ix)%nat (SN iy + ix)%nat). ring.
  - destruct Ec as [(Hc & A1 & A2)|(Hc & A1 & A2)].
    + destruct (Nat.ltb_spec iy n) as [_|]; [|lia].
      assert (N0 : (NN iy - 1 = NX iy)%nat) by nia. assert (N1 : (NN (iy + 1) - 1 = 3 * NX iy)%nat) by nia. rewrite N0, N1.
      rewrite sumL_flat_map. change (sumL (seq 0 (NX iy))) with (sumn (NX iy)). rewrite sumn_triple.
      rewrite (sumn_ext (NX iy) _ (fun ix => f (SN iy + ix)%nat (SN iy + (ix + 1))%nat + (-1 * (f (SN (iy + 1) + 3 * ix)%nat (SN (iy + 1) + (3 * ix + 1))%nat +
        f (SN (iy + 1) + (3 * ix + 1))%nat (SN (iy + 1) + (3 * ix + 1 + 1))%nat + f (SN (iy + 1) + (3 * ix + 2))%nat (SN (iy + 1) + (3 * ix + 2 + 1))%nat) +
        (f (SN iy + (ix + 1))%nat (SN (iy + 1) + 3 * (ix + 1))%nat - f (SN iy + ix)%nat (SN (iy + 1) + 3 * ix)%nat)))).
      * rewrite sumn_plus, sumn_plus, sumn_scal. rewrite (telescope (NX iy) (fun ix => f (SN iy + ix)%nat (SN (iy + 1) + 3 * ix)%nat)). rewrite Nat.mul_0_r, !Nat.add_0_r. ring.
      * intros ix _. cbn [sumL fold_right]. rewrite !along_quad. replace (3 * (ix + 1))%nat with (3 * ix + 3)%nat by lia. replace (3 * ix + 1 + 1)%nat with (3 * ix + 2)%nat by lia. replace (3 * ix + 2 + 1)%nat with (3 * ix + 3)%nat by lia.
        set (b0 := (SN iy + ix)%nat). set (b1 := (SN iy + (ix + 1))%nat). set (m0 := (SN iy + NN iy + 2 * ix)%nat). set (m1 := (SN iy + NN iy + (2 * ix + 1))%nat).
        set (t0 := (SN (iy + 1) + 3 * ix)%nat). set (t1 := (SN (iy + 1) + (3 * ix + 1))%nat). set (t2 := (SN (iy + 1) + (3 * ix + 2))%nat). set (t3 := (SN (iy + 1) + (3 * ix + 3))%nat).
        rewrite (Hf m1 m0), (Hf m0 b0), (Hf t3 t2), (Hf t2 m1), (Hf m1 b1), (Hf t2 t1), (Hf t1 m0), (Hf t1 t0), (Hf t0 b0). ring.
    + destruct (Nat.ltb_spec iy n) as [|_]; [lia|].
      assert (N0 : (NN iy - 1 = 3 * NX iy)%nat) by nia. assert (N1 : (NN (iy + 1) - 1 = NX iy)%nat) by nia. rewrite N0, N1.
      rewrite sumL_flat_map. change (sumL (seq 0 (NX iy))) with (sumn (NX iy)). rewrite sumn_triple.
      rewrite (sumn_ext (NX iy) _ (fun ix => (f (SN iy + 3 * ix)%nat (SN iy + (3 * ix + 1))%nat + f (SN iy + (3 * ix + 1))%nat (SN iy + (3 * ix + 1 + 1))%nat +
        f (SN iy + (3 * ix + 2))%nat (SN iy + (3 * ix + 2 + 1))%nat) + (-1 * f (SN (iy + 1) + ix)%nat (SN (iy + 1) + (ix + 1))%nat +
        (f (SN iy + 3 * (ix + 1))%nat (SN (iy + 1) + (ix + 1))%nat - f (SN iy + 3 * ix)%nat (SN (iy + 1) + ix)%nat)))).
      * rewrite sumn_plus, (sumn_plus (NX iy) (fun ix => -1 * _)), sumn_scal. rewrite (telescope (NX iy) (fun ix => f (SN iy + 3 * ix)%nat (SN (iy + 1) + ix)%nat)). rewrite Nat.mul_0_r, !Nat.add_0_r. ring.
      * intros ix _. cbn [sumL fold_right]. rewrite !along_quad. replace (3 * (ix + 1))%nat with (3 * ix + 3)%nat by lia. replace (3 * ix + 1 + 1)%nat with (3 * ix + 2)%nat by lia. replace (3 * ix + 2 + 1)%nat with (3 * ix + 3)%nat by lia.
        set (t0 := (SN (iy + 1) + ix)%nat). set (t1 := (SN (iy + 1) + (ix + 1))%nat). set (m0 := (SN iy + NN iy + 2 * ix)%nat). set (m1 := (SN iy + NN iy + (2 * ix + 1))%nat).
        set (b0 := (SN iy + 3 * ix)%nat). set (b1 := (SN iy + (3 * ix + 1))%nat). set (b2 := (SN iy + (3 * ix + 2))%nat). set (b3 := (SN iy + (3 * ix + 3))%nat).
        rewrite (Hf m0 t0), (Hf t0 b0), (Hf m1 m0), (Hf m0 b1), (Hf t1 m1), (Hf m1 b2), (Hf t1 t0). ring.
Qed.

Lemma FL_sum f : odd f -> along f (flat_map sides (connl nelx n w r)) = along f (outline (erow nelx n w r 0) (rgtl nelx n w r) (erow nelx n w r L) (lftl nelx n w r)).
Proof.
  intros Hf. rewrite along_outline by assumption. unfold rgtl, lftl. rewrite !along_map0. rewrite along_flat. unfold connl. rewrite sumL_flat_map.
  rewrite (sumL_ext _ _ (fun iy => along f (steps (erow nelx n w r iy)) + f (SN iy + (NN iy - 1))%nat (SN (iy + 1) + (NN (iy + 1) - 1))%nat
    - along f (steps (erow nelx n w r (iy + 1))) - f (SN iy) (SN (iy + 1)))).
  - apply (rows_telescope L (fun iy => along f (steps (erow nelx n w r iy)))).
  - intros iy Hi. apply in_seq in Hi. apply layer_sum; [assumption|lia].
Qed.
End FL.
