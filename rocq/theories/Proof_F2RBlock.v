(** Quad4::Map::FineLayer2Regular: one block of the loops of the constructor. *)
From Coq Require Import Reals ZArith Lra.
From Verif Require Import Base Spec Spec2d Sums Model_Numbering Model_Regular2d Model_FineLayer Model_Map Proof_Vector Proof_Regular2d Proof_FineLayer Proof_FineLayerMesh Proof_Refine Proof_F2RLocal.

Lemma map_seq_shift {A} (f : nat -> A) a k : map f (seq a k) = map (fun i => f (a + i)) (seq 0 k).
Proof.
  assert (G : forall b, map f (seq (a + b) k) = map (fun i => f (a + i)) (seq b k)).
  { induction k as [|k IH]; intros b; [reflexivity|]. cbn [seq map]. f_equal. rewrite <- IH. now rewrite Nat.add_succ_r. }
  specialize (G 0). now rewrite Nat.add_0_r in G.
Qed.
Lemma flat_map_seq_shift {A} (f : nat -> list A) a k : flat_map f (seq a k) = flat_map (fun i => f (a + i)) (seq 0 k).
Proof. rewrite !flat_map_concat_map. f_equal. apply map_seq_shift. Qed.

Definition order (K : kind) : list nat := match K with Sq => [0] | Low => [0; 2; 3; 1] | Up => [3; 1; 0; 2] end.

Section Blk.
Variable id : nat -> nat -> nat.
Definition B (wd hd : nat) : list (list nat) := map (fun j => map (id j) (seq 0 wd)) (seq 0 hd).
Definition pl (q : nat * nat * R) : nat * R := (id (fst (fst q)) (snd (fst q)), snd q).

Lemma row_view_Ok wd hd j a b : j < hd -> a <= b -> b <= wd -> row_view (B wd hd) j a b = Ok (map (id j) (seq a (b - a))).
Proof.
  intros Hj Ha Hb. unfold row_view, B, get. rewrite nth_error_map, nth_error_seq. destruct (Nat.ltb_spec j hd); [|lia]. cbn [option_map bind Nat.add]. now rewrite slice_map_seq.
Qed.
Lemma get_row j a l k : k < l -> get (map (id j) (seq a l)) k = Ok (id j (a + k)).
Proof. intros H. unfold get. rewrite nth_error_map, nth_error_seq. destruct (Nat.ltb_spec k l); [|lia]. reflexivity. Qed.
Lemma full_Ok j a l x z : z <= l -> full (map (id j) (seq a l)) x z = Ok (map pl (run j (a + x, a + z, 1%R))).
Proof.
  intros H. unfold full, arange. rewrite (mapM_Ok _ _ (fun k => (id j (a + k), 1%R))).
  - f_equal. unfold run. rewrite map_map. cbn [fst snd]. unfold pl. cbn [fst snd]. replace (a + z - (a + x)) with (z - x) by lia.
    rewrite (map_seq_shift _ x), (map_seq_shift _ (a + x)). apply map_ext. intros i. now rewrite Nat.add_assoc.
  - intros k Hk. apply in_seq in Hk. rewrite get_row by lia. reflexivity.
Qed.
Lemma halff_Ok j a l k : k < l -> halff (map (id j) (seq a l)) k = Ok (map pl (run j (a + k, a + k + 1, (/ 2)%R))).
Proof.
  intros H. unfold halff. rewrite get_row by assumption. cbn [bind]. unfold run. cbn [fst snd]. replace (a + k + 1 - (a + k)) with 1 by lia. reflexivity.
Qed.
Lemma usub_Ok a b : b <= a -> usub a b = Ok (a - b).
Proof. intros H. unfold usub. destruct (Nat.ltb_spec a b); [lia|reflexivity]. Qed.
Lemma hfh_Ok j a l : 1 <= l -> half_full_half (map (id j) (seq a l)) = Ok (map pl (run j (a, a + 1, (/ 2)%R) ++ run j (a + 1, a + l - 1, 1%R) ++ run j (a + l - 1, a + l, (/ 2)%R))).
Proof.
  intros H. unfold half_full_half. rewrite map_length, seq_length. rewrite usub_Ok by lia. cbn [bind]. rewrite !halff_Ok, full_Ok by lia. cbn [bind]. rewrite !map_app.
  replace (a + 0) with a by lia. replace (a + (l - 1)) with (a + l - 1) by lia. now replace (a + l - 1 + 1) with (a + l) by lia.
Qed.
Lemma fh_Ok j a l : 1 <= l -> full_half (map (id j) (seq a l)) = Ok (map pl (run j (a, a + l - 1, 1%R) ++ run j (a + l - 1, a + l, (/ 2)%R))).
Proof.
  intros H. unfold full_half. rewrite map_length, seq_length. rewrite usub_Ok by lia. cbn [bind]. rewrite !halff_Ok, full_Ok by lia. cbn [bind]. rewrite !map_app.
  replace (a + 0) with a by lia. replace (a + (l - 1)) with (a + l - 1) by lia. now replace (a + l - 1 + 1) with (a + l) by lia.
Qed.
Lemma hf_Ok j a l : 1 <= l -> half_full (map (id j) (seq a l)) = Ok (map pl (run j (a, a + 1, (/ 2)%R) ++ run j (a + 1, a + l, 1%R))).
Proof.
  intros H. unfold half_full. rewrite map_length, seq_length. rewrite !halff_Ok, full_Ok by lia. cbn [bind]. rewrite !map_app. now replace (a + 0) with a by lia.
Qed.
Lemma all_full_Ok wd hd r0 r1 c0 c1 : r0 <= r1 -> r1 <= hd -> c0 <= c1 -> c1 <= wd ->
  all_full (view2 (B wd hd) r0 r1 c0 c1) = flat_map (fun j => map pl (run j (c0, c1, 1%R))) (seq r0 (r1 - r0)).
Proof.
  intros H1 H2 H3 H4. unfold all_full, view2, B. rewrite slice_map_seq by assumption. rewrite map_map, <- flat_map_concat_map, map_flat_map. apply flat_map_ext.
  intros j. rewrite slice_map_seq by assumption. unfold run. rewrite !map_map. reflexivity.
Qed.
Lemma loc_split K k s : kh K s = 2 * s -> map pl (loc K k s) = flat_map (fun j => map pl (runs K k s j)) (seq 0 s) ++ flat_map (fun j => map pl (runs K k s j)) (seq s s).
Proof. intros E. unfold loc. rewrite E, map_flat_map. replace (2 * s) with (s + s) by lia. now rewrite seq_app, flat_map_app. Qed.
Lemma flat_map_nil {A C} (f : A -> list C) l : (forall a, In a l -> f a = []) -> flat_map f l = [].
Proof. induction l as [|a l IH]; intros H; [reflexivity|]. cbn. rewrite H by now left. apply IH. intros. apply H. now right. Qed.

Lemma sq_Ok s e0 : to_elem e0 (all_full (B s s)) = flat_map (fun k => to_elem (e0 + k) (map pl (loc Sq k s))) (order Sq).
Proof.
  cbn [order flat_map]. rewrite app_nil_r, Nat.add_0_r. f_equal. unfold all_full, B, loc. rewrite <- flat_map_concat_map, !map_flat_map. cbn [kh]. apply flat_map_ext.
  intros j. unfold runs. cbn [rr flat_map]. rewrite app_nil_r. unfold run. rewrite !map_map. cbn [fst snd]. now rewrite Nat.sub_0_r.
Qed.

Lemma below_Ok s e0 : 1 <= s -> block_below (B (3 * s) (2 * s)) (3 * s) (2 * s) e0 = Ok (flat_map (fun k => to_elem (e0 + k) (map pl (loc Low k s))) (order Low)).
Proof.
  intros Hs. unfold block_below.
  replace (2 * s / 2) with s by (rewrite Nat.mul_comm, Nat.div_mul; lia). replace (1 * (3 * s) / 3) with s by (rewrite Nat.mul_1_l, Nat.mul_comm, Nat.div_mul; lia).
  replace (2 * (3 * s) / 3) with (2 * s) by (replace (2 * (3 * s)) with (2 * s * 3) by lia; rewrite Nat.div_mul; lia). replace (3 * (3 * s) / 3) with (3 * s) by (replace (3 * (3 * s)) with (3 * s * 3) by lia; rewrite Nat.div_mul; lia).
  replace (0 * (3 * s) / 3) with 0 by (cbn; reflexivity).
  rewrite (concatM_Ok _ (fun j => map pl (runs Low 0 s j))).
  2:{ intros j Hj. apply in_seq in Hj. rewrite usub_Ok by lia. cbn [bind]. rewrite row_view_Ok by lia. cbn [bind]. rewrite hfh_Ok by lia. do 2 f_equal.
      unfold runs. cbn [rr]. destruct (Nat.ltb_spec j s); [|lia]. cbn [flat_map]. rewrite app_nil_r. replace (j + (3 * s - j - j) - 1) with (3 * s - j - 1) by lia. now replace (j + (3 * s - j - j)) with (3 * s - j) by lia. }
  cbn [bind]. rewrite (concatM_Ok _ (fun j => map pl (runs Low 3 s j))).
  2:{ intros j Hj. apply in_seq in Hj. rewrite row_view_Ok by lia. cbn [bind]. rewrite fh_Ok by lia. do 2 f_equal.
      unfold runs. cbn [rr]. destruct (Nat.ltb_spec j s); [|lia]. cbn [flat_map]. rewrite app_nil_r. replace (0 + (j + 1 - 0) - 1) with j by lia. now replace (0 + (j + 1 - 0)) with (j + 1) by lia. }
  cbn [bind]. rewrite (concatM_Ok _ (fun j => map pl (runs Low 1 s j))).
  2:{ intros j Hj. apply in_seq in Hj. rewrite usub_Ok by lia. cbn [bind]. rewrite row_view_Ok by lia. cbn [bind]. rewrite hf_Ok by lia. do 2 f_equal.
      unfold runs. cbn [rr]. destruct (Nat.ltb_spec j s); [|lia]. cbn [flat_map]. rewrite app_nil_r. replace (3 * s - (j + 1)) with (3 * s - j - 1) by lia. replace (3 * s - j - 1 + 1) with (3 * s - j) by lia. now replace (3 * s - j - 1 + (3 * s - (3 * s - j - 1))) with (3 * s) by lia. }
  cbn [bind]. rewrite !all_full_Ok by lia. f_equal. cbn [order flat_map]. rewrite app_nil_r, !loc_split by reflexivity.
  replace (2 * s - s) with s by lia.
  rewrite (flat_map_nil (fun j => map pl (runs Low 0 s j)) (seq s s)), (flat_map_nil (fun j => map pl (runs Low 2 s j)) (seq 0 s)).
  - rewrite app_nil_r. cbn [app].
    assert (E : forall k a b, (forall j, s <= j -> rr Low k s j = [(a, b, 1%R)]) -> flat_map (fun j => map pl (runs Low k s j)) (seq s s) = flat_map (fun j => map pl (run j (a, b, 1%R))) (seq s s)).
    { intros k a b H. apply flat_map_ext_in'. intros j Hj. apply in_seq in Hj. unfold runs. rewrite H by lia. cbn [flat_map]. now rewrite app_nil_r. }
    rewrite (E 1 (2 * s) (3 * s)), (E 2 s (2 * s)), (E 3 0 s); [reflexivity| | |]; intros j Hj; cbn [rr]; (destruct (Nat.ltb_spec j s); [lia|reflexivity]).
  - intros j Hj. apply in_seq in Hj. unfold runs. cbn [rr]. destruct (Nat.ltb_spec j s); [reflexivity|lia].
  - intros j Hj. apply in_seq in Hj. unfold runs. cbn [rr]. destruct (Nat.ltb_spec j s); [lia|reflexivity].
Qed.

Lemma above_Ok s e0 : 1 <= s -> block_above (B (3 * s) (2 * s)) (3 * s) (2 * s) e0 = Ok (flat_map (fun k => to_elem (e0 + k) (map pl (loc Up k s))) (order Up)).
Proof.
  intros Hs. unfold block_above.
  replace (2 * s / 2) with s by (rewrite Nat.mul_comm, Nat.div_mul; lia). replace (1 * (3 * s) / 3) with s by (rewrite Nat.mul_1_l, Nat.mul_comm, Nat.div_mul; lia).
  replace (2 * (3 * s) / 3) with (2 * s) by (replace (2 * (3 * s)) with (2 * s * 3) by lia; rewrite Nat.div_mul; lia). replace (3 * (3 * s) / 3) with (3 * s) by (replace (3 * (3 * s)) with (3 * s * 3) by lia; rewrite Nat.div_mul; lia).
  replace (0 * (3 * s) / 3) with 0 by (cbn; reflexivity).
  rewrite (concatM_Ok _ (fun j => map pl (runs Up 3 s (s + j)))).
  2:{ intros j Hj. apply in_seq in Hj. rewrite usub_Ok by lia. cbn [bind]. rewrite row_view_Ok by lia. cbn [bind]. rewrite hfh_Ok by lia. do 2 f_equal.
      unfold runs. cbn [rr]. destruct (Nat.ltb_spec (s + j) s); [lia|]. cbn [flat_map]. rewrite app_nil_r. replace (2 * s - 1 - (s + j)) with (s - (j + 1)) by lia.
      replace (2 * s - (s + j)) with (s - (j + 1) + 1) by lia. replace (s - (j + 1) + (2 * s + j + 1 - (s - (j + 1)))) with (s + (s + j) + 1) by lia. now replace (s + (s + j) + 1 - 1) with (s + (s + j)) by lia. }
  cbn [bind]. rewrite (concatM_Ok _ (fun j => map pl (runs Up 0 s (s + j)))).
  2:{ intros j Hj. apply in_seq in Hj. rewrite usub_Ok by lia. cbn [bind]. rewrite row_view_Ok by lia. cbn [bind]. rewrite fh_Ok by lia. do 2 f_equal.
      unfold runs. cbn [rr]. destruct (Nat.ltb_spec (s + j) s); [lia|]. cbn [flat_map]. rewrite app_nil_r. replace (2 * s - 1 - (s + j)) with (s - j - 1) by lia. replace (2 * s - (s + j)) with (s - j) by lia.
      replace (0 + (s - j - 0) - 1) with (s - j - 1) by lia. now replace (0 + (s - j - 0)) with (s - j) by lia. }
  cbn [bind]. rewrite (concatM_Ok _ (fun j => map pl (runs Up 2 s (s + j)))).
  2:{ intros j Hj. apply in_seq in Hj. rewrite row_view_Ok by lia. cbn [bind]. rewrite hf_Ok by lia. do 2 f_equal.
      unfold runs. cbn [rr]. destruct (Nat.ltb_spec (s + j) s); [lia|]. cbn [flat_map]. rewrite app_nil_r. replace (s + (s + j)) with (2 * s + j) by lia. now replace (2 * s + j + (3 * s - (2 * s + j))) with (3 * s) by lia. }
  cbn [bind]. rewrite !all_full_Ok by lia. f_equal. cbn [order flat_map]. rewrite app_nil_r, !loc_split by reflexivity.
  rewrite Nat.sub_0_r.
  rewrite (flat_map_nil (fun j => map pl (runs Up 3 s j)) (seq 0 s)), (flat_map_nil (fun j => map pl (runs Up 1 s j)) (seq s s)).
  - rewrite app_nil_r. cbn [app].
    rewrite <- !(flat_map_seq_shift (fun j => map pl (runs Up _ s j)) s s).
    assert (E : forall k a b, (forall j, j < s -> rr Up k s j = [(a, b, 1%R)]) -> flat_map (fun j => map pl (runs Up k s j)) (seq 0 s) = flat_map (fun j => map pl (run j (a, b, 1%R))) (seq 0 s)).
    { intros k a b H. apply flat_map_ext_in'. intros j Hj. apply in_seq in Hj. unfold runs. rewrite H by lia. cbn [flat_map]. now rewrite app_nil_r. }
    rewrite (E 0 0 s), (E 1 s (2 * s)), (E 2 (2 * s) (3 * s)); [reflexivity| | |]; intros j Hj; cbn [rr]; (destruct (Nat.ltb_spec j s); [reflexivity|lia]).
  - intros j Hj. apply in_seq in Hj. unfold runs. cbn [rr]. destruct (Nat.ltb_spec j s); [lia|reflexivity].
  - intros j Hj. apply in_seq in Hj. unfold runs. cbn [rr]. destruct (Nat.ltb_spec j s); [reflexivity|lia].
Qed.
End Blk.
