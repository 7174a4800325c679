(** Quad4::Map::FineLayer2Regular: the cells of the regular mesh in one block of the FineLayer mesh. *)
From Coq Require Import Reals ZArith Lra.
From Verif Require Import Base Spec Spec2d Sums Spec_Tiling Spec_Map Proof_FineLayerMesh Proof_FineLayerTiling Proof_FineLayerArea.
Local Open Scope R_scope.

Inductive kind := Sq | Low | Up.
Definition tms (K : kind) : list tmpl := match K with Sq => [sq] | Low => lows | Up => ups end.
Notation hf := (/ 2)%R.
Notation one := 1%R.

(** a run (a, b, f) of a row: cells a, .., b - 1 with fraction f; rows of element [k] of a block of size [s] *)
Definition rr (K : kind) (k s j : nat) : list (nat * nat * R) :=
  match K, k with
  | Sq, _ => [(0, s, one)]
  | Low, 0 => if j <? s then [(j, j + 1, hf); (j + 1, 3 * s - j - 1, one); (3 * s - j - 1, 3 * s - j, hf)] else []
  | Low, 1 => if j <? s then [(3 * s - j - 1, 3 * s - j, hf); (3 * s - j, 3 * s, one)] else [(2 * s, 3 * s, one)]
  | Low, 2 => if j <? s then [] else [(s, 2 * s, one)]
  | Low, _ => if j <? s then [(0, j, one); (j, j + 1, hf)] else [(0, s, one)]
  | Up, 0 => if j <? s then [(0, s, one)] else [(0, 2 * s - 1 - j, one); (2 * s - 1 - j, 2 * s - j, hf)]
  | Up, 1 => if j <? s then [(s, 2 * s, one)] else []
  | Up, 2 => if j <? s then [(2 * s, 3 * s, one)] else [(s + j, s + j + 1, hf); (s + j + 1, 3 * s, one)]
  | Up, _ => if j <? s then [] else [(2 * s - 1 - j, 2 * s - j, hf); (2 * s - j, s + j, one); (s + j, s + j + 1, hf)]
  end%nat.
Definition run (j : nat) (q : nat * nat * R) : list (nat * nat * R) :=
  map (fun c => (j, c, snd q)) (seq (fst (fst q)) (snd (fst q) - fst (fst q))).
Definition runs (K : kind) (k s j : nat) : list (nat * nat * R) := flat_map (run j) (rr K k s j).
Definition kw (K : kind) (s : nat) : nat := match K with Sq => s | _ => (3 * s)%nat end.
Definition kh (K : kind) (s : nat) : nat := match K with Sq => s | _ => (2 * s)%nat end.
Definition loc (K : kind) (k s : nat) : list (nat * nat * R) := flat_map (runs K k s) (seq 0 (kh K s)).

Lemma in_run j q j' c f : In (j', c, f) (run j q) <-> j' = j /\ f = snd q /\ (fst (fst q) <= c < snd (fst q))%nat.
Proof.
  unfold run. rewrite in_map_iff. split.
  - intros (c' & E & H). injection E as <- <- <-. apply in_seq in H. repeat split; lia.
  - intros (-> & -> & H). exists c. split; [reflexivity|]. apply in_seq. lia.
Qed.
Lemma in_loc K k s j c f : In (j, c, f) (loc K k s) <-> (j < kh K s)%nat /\ exists a b, In (a, b, f) (rr K k s j) /\ (a <= c < b)%nat.
Proof.
  unfold loc. rewrite in_flat_map. split.
  - intros (j' & Hj & H). apply in_seq in Hj. unfold runs in H. apply in_flat_map in H. destruct H as ([[a b] f'] & Hr & H). apply in_run in H. cbn in H. destruct H as (-> & -> & H). split; [lia|]. eauto.
  - intros (Hj & a & b & Hr & H). exists j. split; [apply in_seq; lia|]. unfold runs. apply in_flat_map. exists (a, b, f). split; [exact Hr|]. now apply in_run.
Qed.

Lemma NoDup_run j q : NoDup (run j q).
Proof. unfold run. apply NoDup_map_inj; [apply seq_NoDup|]. intros a b _ _ E. now injection E. Qed.

Ltac cells := repeat (cbn [In app flat_map run fst snd] in *).

(** all cells are in the block; the fraction is 1 or 1/2 *)
Lemma rr_range K k s j a b f : (k < 4)%nat -> (j < kh K s)%nat -> In (a, b, f) (rr K k s j) -> (b <= kw K s)%nat /\ (f = 1 \/ f = hf).
Proof.
  intros Hk Hj H. destruct K; cbn [kh kw] in *.
  - destruct H as [E|[]]. injection E as <- <- <-. split; [lia|now left].
  - destruct k as [|[|[|k]]]; cbn [rr] in H; destruct (Nat.ltb_spec j s) as [G|G]; cbn [In] in H;
      repeat (destruct H as [H|H]; [injection H as <- <- <-; split; [lia|auto]|]); destruct H.
  - destruct k as [|[|[|k]]]; cbn [rr] in H; destruct (Nat.ltb_spec j s) as [G|G]; cbn [In] in H;
      repeat (destruct H as [H|H]; [injection H as <- <- <-; split; [lia|auto]|]); destruct H.
Qed.
(** a cell is in at most one run *)
Lemma rr_once K k s j c a b f a' b' f' : (k < 4)%nat -> (j < kh K s)%nat -> In (a, b, f) (rr K k s j) -> In (a', b', f') (rr K k s j) -> (a <= c < b)%nat -> (a' <= c < b')%nat ->
  f = f'.
Proof.
  intros Hk Hj H H' Hc Hc'. destruct K; cbn [kh kw] in *.
  - destruct H as [E|[]], H' as [E'|[]]. congruence.
  - destruct k as [|[|[|k]]]; cbn [rr] in H, H'; destruct (Nat.ltb_spec j s) as [G|G]; cbn [In] in H, H';
      repeat (destruct H as [H|H]; [injection H as <- <- <-; repeat (destruct H' as [H'|H']; [injection H' as <- <- <-; first [reflexivity|exfalso; lia]|]); destruct H'|]); destruct H.
  - destruct k as [|[|[|k]]]; cbn [rr] in H, H'; destruct (Nat.ltb_spec j s) as [G|G]; cbn [In] in H, H';
      repeat (destruct H as [H|H]; [injection H as <- <- <-; repeat (destruct H' as [H'|H']; [injection H' as <- <- <-; first [reflexivity|exfalso; lia]|]); destruct H'|]); destruct H.
Qed.

Lemma runs_NoDup K k s j : (k < 4)%nat -> (j < kh K s)%nat -> NoDup (map fst (runs K k s j)).
Proof.
  intros Hk Hj. unfold runs.
  assert (G : forall l, (forall i i' a b f a' b' f' c, nth_error l i = Some (a, b, f) -> nth_error l i' = Some (a', b', f') -> (a <= c < b)%nat -> (a' <= c < b')%nat -> i = i') -> NoDup (map fst (flat_map (run j) l))).
  { induction l as [|[[a b] f] l IH]; intros H; [constructor|]. cbn [flat_map]. rewrite map_app. apply NoDup_app_intro.
    - unfold run. rewrite map_map. cbn [fst]. apply NoDup_map_inj; [apply seq_NoDup|]. intros x y _ _ E. now injection E.
    - apply IH. intros i i' a0 b0 f0 a1 b1 f1 c E1 E2 C1 C2. assert (Q : S i = S i') by (eapply H; eassumption). lia.
    - intros [j' c] H1 H2. apply in_map_iff in H1, H2. destruct H1 as ([[j1 c1] f1] & Q1 & H1). destruct H2 as ([[j2 c2] f2] & Q2 & H2). cbn in Q1, Q2. injection Q1 as -> ->. injection Q2 as -> ->.
      apply in_run in H1. cbn in H1. apply in_flat_map in H2. destruct H2 as ([[a2 b2] f2'] & H2 & H3). apply in_run in H3. cbn in H3. apply In_nth_error in H2. destruct H2 as [i Hi].
      assert (Q : 0%nat = S i) by (eapply (H 0%nat (S i)); [reflexivity|exact Hi|apply H1|apply H3]). lia. }
  apply G. clear G. intros i i' a b f a' b' f' c E E' Hc Hc'. destruct K; cbn [kh kw] in *.
  - cbn [rr] in *. destruct i as [|i]; [|destruct i; discriminate E]. destruct i' as [|i']; [|destruct i'; discriminate E']. reflexivity.
  - destruct k as [|[|[|k]]]; cbn [rr] in E, E'; destruct (Nat.ltb_spec j s) as [G|G];
      (destruct i as [|[|[|i]]]; cbn in E; try discriminate E; try (destruct i; discriminate E));
      (destruct i' as [|[|[|i']]]; cbn in E'; try discriminate E'; try (destruct i'; discriminate E')); try reflexivity;
      injection E as <- <- <-; injection E' as <- <- <-; exfalso; lia.
  - destruct k as [|[|[|k]]]; cbn [rr] in E, E'; destruct (Nat.ltb_spec j s) as [G|G];
      (destruct i as [|[|[|i]]]; cbn in E; try discriminate E; try (destruct i; discriminate E));
      (destruct i' as [|[|[|i']]]; cbn in E'; try discriminate E'; try (destruct i'; discriminate E')); try reflexivity;
      injection E as <- <- <-; injection E' as <- <- <-; exfalso; lia.
Qed.
Lemma map_flat_map {A B C} (f : B -> C) (g : A -> list B) l : map f (flat_map g l) = flat_map (fun a => map f (g a)) l.
Proof. induction l as [|a l IH]; [reflexivity|]. cbn. now rewrite map_app, IH. Qed.
Lemma loc_NoDup K k s : (k < 4)%nat -> NoDup (map fst (loc K k s)).
Proof.
  intros Hk. unfold loc. rewrite map_flat_map. apply NoDup_flat_map; [apply seq_NoDup| |].
  - intros j Hj. apply in_seq in Hj. apply runs_NoDup; [assumption|lia].
  - intros j j' [x y] _ _ H H'. apply in_map_iff in H, H'. destruct H as ([[j1 c1] f1] & Q1 & H1). destruct H' as ([[j2 c2] f2] & Q2 & H2). cbn in Q1, Q2. injection Q1 as -> ->. injection Q2 as -> ->.
    unfold runs in H1, H2. apply in_flat_map in H1, H2. destruct H1 as (q & _ & H1). destruct H2 as (q' & _ & H2). apply in_run in H1, H2. destruct H1 as [-> _], H2 as [-> _]. reflexivity.
Qed.

(** ** the fractions of a cell over the elements of a block sum to 1 *)
Definition frac_at (K : kind) (k s j c : nat) : R := sumL (rr K k s j) (fun q => ind ((fst (fst q) <=? c) && (c <? snd (fst q)))%nat * snd q).
Lemma ind_in a b c (f : R) : (a <= c < b)%nat -> ind ((a <=? c) && (c <? b))%nat * f = f.
Proof. intros H. rewrite (proj2 (Nat.leb_le a c)), (proj2 (Nat.ltb_lt c b)) by lia. cbn. ring. Qed.
Lemma ind_out a b c (f : R) : (c < a \/ b <= c)%nat -> ind ((a <=? c) && (c <? b))%nat * f = 0.
Proof. intros H. destruct (Nat.leb_spec a c), (Nat.ltb_spec c b); cbn; try ring. lia. Qed.
Ltac indic := repeat first [rewrite ind_in by lia | rewrite ind_out by lia].
Lemma fractions_one K s j c : (j < kh K s)%nat -> (c < kw K s)%nat -> sumL (seq 0 (length (tms K))) (fun k => frac_at K k s j c) = 1.
Proof.
  intros Hj Hc. unfold sumL. destruct K; cbn [kh kw tms length lows ups seq fold_right] in *; unfold frac_at, sumL; cbn [rr].
  - cbn [fold_right fst snd]. indic. ring.
  - destruct (Nat.ltb_spec j s) as [G|G]; cbn [fold_right fst snd].
    + destruct (lt_eq_lt_dec c j) as [[C|C]|C]; [indic; field|indic; field|].
      destruct (lt_eq_lt_dec c (3 * s - j - 1)) as [[D|D]|D]; indic; field.
    + destruct (le_lt_dec s c) as [C|C]; [|indic; field]. destruct (le_lt_dec (2 * s) c) as [D|D]; indic; field.
  - destruct (Nat.ltb_spec j s) as [G|G]; cbn [fold_right fst snd].
    + destruct (le_lt_dec s c) as [C|C]; [|indic; field]. destruct (le_lt_dec (2 * s) c) as [D|D]; indic; field.
    + destruct (lt_eq_lt_dec c (2 * s - 1 - j)) as [[C|C]|C]; [indic; field|indic; field|].
      destruct (lt_eq_lt_dec c (s + j)) as [[D|D]|D]; indic; field.
Qed.

(** ** the fractions of an element sum to its area *)
Lemma sumn_lin n A B : sumn n (fun i => A + B * INR i) = INR n * A + B * (INR n * (INR n - 1) / 2).
Proof. induction n as [|n IH]; [unfold sumn, sumL; simpl; field|]. rewrite sumn_S, IH, S_INR. field. Qed.
Lemma sumL_run j q : sumL (run j q) snd = INR (snd (fst q) - fst (fst q)) * snd q.
Proof. unfold run. rewrite sumL_map. cbn [snd]. rewrite sumL_const, seq_length. reflexivity. Qed.
Lemma loc_sum K k s : sumL (loc K k s) snd = sumn (kh K s) (fun j => sumL (rr K k s j) (fun q => INR (snd (fst q) - fst (fst q)) * snd q)).
Proof.
  unfold loc. rewrite sumL_flat_map. unfold sumn. apply sumL_ext. intros j _. unfold runs. rewrite sumL_flat_map. apply sumL_ext. intros q _. apply sumL_run.
Qed.
Lemma loc_sum2 K k s A B A' B' : kh K s = (s + s)%nat ->
  (forall j, (j < s)%nat -> sumL (rr K k s j) (fun q => INR (snd (fst q) - fst (fst q)) * snd q) = A + B * INR j) ->
  (forall i, (i < s)%nat -> sumL (rr K k s (s + i)) (fun q => INR (snd (fst q) - fst (fst q)) * snd q) = A' + B' * INR i) ->
  sumL (loc K k s) snd = INR s * A + B * (INR s * (INR s - 1) / 2) + (INR s * A' + B' * (INR s * (INR s - 1) / 2)).
Proof.
  intros E H1 H2. rewrite loc_sum, E, sumn_app. rewrite (sumn_ext s _ _ H1), (sumn_ext s _ _ H2), !sumn_lin. reflexivity.
Qed.
Ltac row_open := let G := fresh in match goal with |- context [(?a <? ?b)%nat] => destruct (Nat.ltb_spec a b) as [G|G]; [try (exfalso; lia)|try (exfalso; lia)] end;
  unfold sumL; cbn [fold_right fst snd]; repeat (rewrite minus_INR by lia); repeat (rewrite plus_INR); repeat (rewrite mult_INR); repeat (rewrite minus_INR by lia); rewrite ?plus_INR, ?mult_INR, ?I0, ?I1, ?I2, ?I3; try field.
Lemma loc_area K k s T : nth_error (tms K) k = Some T -> sumL (loc K k s) snd = INR s * INR s * tarea T.
Proof.
  intros H. destruct K; cbn [tms] in H.
  - destruct k as [|k]; [|destruct k; discriminate H]. injection H as <-. rewrite loc_sum. cbn [kh rr]. rewrite (sumn_ext s _ (fun i => INR s + 0 * INR i)).
    + rewrite sumn_lin. unfold sq, tarea, quad_area. cbn [fst snd]. rewrite ?I0, ?I1. field.
    + intros i _. unfold sumL. cbn [fold_right fst snd]. rewrite Nat.sub_0_r. ring.
  - assert (E : kh Low s = (s + s)%nat) by (cbn [kh]; lia).
    destruct k as [|[|[|[|k]]]]; cbn in H; [| | | |destruct k; discriminate H]; injection H as <-; unfold tarea, quad_area; cbn [fst snd]; rewrite ?I0, ?I1, ?I2, ?I3.
    + rewrite (loc_sum2 Low 0 s (3 * INR s - 1) (-2) 0 0 E); [field| |]; intros j Hj; cbn [rr]; row_open.
    + rewrite (loc_sum2 Low 1 s (/ 2) 1 (INR s) 0 E); [field| |]; intros j Hj; cbn [rr]; row_open.
    + rewrite (loc_sum2 Low 2 s 0 0 (INR s) 0 E); [field| |]; intros j Hj; cbn [rr]; row_open.
    + rewrite (loc_sum2 Low 3 s (/ 2) 1 (INR s) 0 E); [field| |]; intros j Hj; cbn [rr]; row_open.
  - assert (E : kh Up s = (s + s)%nat) by (cbn [kh]; lia).
    destruct k as [|[|[|[|k]]]]; cbn in H; [| | | |destruct k; discriminate H]; injection H as <-; unfold tarea, quad_area; cbn [fst snd]; rewrite ?I0, ?I1, ?I2, ?I3.
    + rewrite (loc_sum2 Up 0 s (INR s) 0 (INR s - / 2) (-1) E); [field| |]; intros j Hj; cbn [rr]; row_open.
    + rewrite (loc_sum2 Up 1 s (INR s) 0 0 0 E); [field| |]; intros j Hj; cbn [rr]; row_open.
    + rewrite (loc_sum2 Up 2 s (INR s) 0 (INR s - / 2) (-1) E); [field| |]; intros j Hj; cbn [rr]; row_open.
    + rewrite (loc_sum2 Up 3 s 0 0 (INR s + 1) 2 E); [field| |]; intros j Hj; cbn [rr]; row_open.
Qed.

(** ** the cells of an element *)
Definition lin (K : kind) (k : nat) (S x y : R) : Prop :=
  match K, k with
  | Sq, _ => 0 <= x <= S /\ 0 <= y <= S
  | Low, 0%nat => 0 <= y <= S /\ y <= x /\ x + y <= 3 * S
  | Low, 1%nat => 2 * S <= x <= 3 * S /\ y <= 2 * S /\ 3 * S <= x + y
  | Low, 2%nat => S <= x <= 2 * S /\ S <= y <= 2 * S
  | Low, _ => 0 <= x <= S /\ y <= 2 * S /\ x <= y
  | Up, 0%nat => 0 <= x <= S /\ 0 <= y /\ x + y <= 2 * S
  | Up, 1%nat => S <= x <= 2 * S /\ 0 <= y <= S
  | Up, 2%nat => 2 * S <= x <= 3 * S /\ 0 <= y /\ y <= x - S
  | Up, _ => S <= y <= 2 * S /\ x - S <= y /\ 2 * S <= x + y
  end.
Lemma lin_tin K k T S u v : 0 < S -> nth_error (tms K) k = Some T -> (tin T u v <-> lin K k S (S * u) (S * v)).
Proof.
  intros HS H. destruct K; cbn [tms] in H.
  - destruct k as [|k]; [|destruct k; discriminate H]. injection H as <-. cbn [lin]. open. split; intros; repeat split; nra.
  - destruct k as [|[|[|[|k]]]]; cbn in H; [| | | |destruct k; discriminate H]; injection H as <-; cbn [lin]; open; split; intros; repeat split; nra.
  - destruct k as [|[|[|[|k]]]]; cbn in H; [| | | |destruct k; discriminate H]; injection H as <-; cbn [lin]; open; split; intros; repeat split; nra.
Qed.

Ltac toR H := apply le_INR in H; rewrite ?plus_INR, ?mult_INR, ?I0, ?I1, ?I2, ?I3 in H.
Ltac fact P := try (let H := fresh in assert (H : P%nat) by lia; toR H).
Ltac facts c j s := fact (c + 1 <= j)%nat; fact (c <= j)%nat; fact (j <= c)%nat; fact (j + 1 <= c)%nat;
  fact (c + j + 2 <= 3 * s)%nat; fact (c + j + 1 <= 3 * s)%nat; fact (3 * s <= c + j + 1)%nat; fact (3 * s <= c + j)%nat;
  fact (c + 1 <= s)%nat; fact (s <= c)%nat; fact (c + 1 <= 2 * s)%nat; fact (2 * s <= c)%nat; fact (c + 1 <= 3 * s)%nat;
  fact (j + 1 <= s)%nat; fact (s <= j)%nat; fact (j + 1 <= 2 * s)%nat;
  fact (c + j + 2 <= 2 * s)%nat; fact (c + j + 1 <= 2 * s)%nat; fact (2 * s <= c + j + 1)%nat; fact (2 * s <= c + j)%nat;
  fact (c + 1 <= s + j)%nat; fact (c <= s + j)%nat; fact (s + j <= c)%nat; fact (s + j + 1 <= c)%nat;
  pose proof (pos_INR c); pose proof (pos_INR j).

Lemma full_inside K k s j c a b x y : (k < 4)%nat -> (j < kh K s)%nat -> In (a, b, one) (rr K k s j) -> (a <= c < b)%nat ->
  INR c <= x <= INR c + 1 -> INR j <= y <= INR j + 1 -> lin K k (INR s) x y.
Proof.
  intros Hk Hj H Hc Hx Hy. destruct K; cbn [kh] in *.
  - destruct H as [E|[]]. injection E as <- <-. cbn [lin]. facts c j s. lra.
  - destruct k as [|[|[|[|k]]]]; [| | | |lia]; cbn [rr] in H; destruct (Nat.ltb_spec j s) as [G|G]; cbn [In] in H;
      repeat (destruct H as [H|H]; [first [injection H as E1 E2 E3 | injection H as E1 E2]; try (exfalso; lra); facts c j s; cbn [lin]; lra|]); destruct H.
  - destruct k as [|[|[|[|k]]]]; [| | | |lia]; cbn [rr] in H; destruct (Nat.ltb_spec j s) as [G|G]; cbn [In] in H;
      repeat (destruct H as [H|H]; [first [injection H as E1 E2 E3 | injection H as E1 E2]; try (exfalso; lra); facts c j s; cbn [lin]; lra|]); destruct H.
Qed.
Lemma none_outside K k s j c x y : (k < length (tms K))%nat -> (j < kh K s)%nat -> (c < kw K s)%nat ->
  (forall a b f, In (a, b, f) (rr K k s j) -> ~ (a <= c < b)%nat) ->
  INR c < x < INR c + 1 -> INR j < y < INR j + 1 -> ~ lin K k (INR s) x y.
Proof.
  intros Hk Hj Hc H Hx Hy Hl. destruct K; cbn [kh kw tms length lows ups] in *.
  - apply (H 0%nat s one); [now left|lia].
  - destruct k as [|[|[|[|k]]]]; [| | | |lia]; cbn [rr] in H; destruct (Nat.ltb_spec j s) as [G|G]; cbn [lin] in Hl.
    + pose proof (H _ _ _ (or_introl eq_refl)) as H0. pose proof (H _ _ _ (or_intror (or_introl eq_refl))) as H1. pose proof (H _ _ _ (or_intror (or_intror (or_introl eq_refl)))) as H2.
      destruct (le_lt_dec j c); facts c j s; lra.
    + facts c j s; lra.
    + pose proof (H _ _ _ (or_introl eq_refl)) as H0. pose proof (H _ _ _ (or_intror (or_introl eq_refl))) as H1. facts c j s; lra.
    + pose proof (H _ _ _ (or_introl eq_refl)) as H0. facts c j s; lra.
    + facts c j s; lra.
    + pose proof (H _ _ _ (or_introl eq_refl)) as H0. destruct (le_lt_dec s c); facts c j s; lra.
    + pose proof (H _ _ _ (or_introl eq_refl)) as H0. pose proof (H _ _ _ (or_intror (or_introl eq_refl))) as H1. facts c j s; lra.
    + pose proof (H _ _ _ (or_introl eq_refl)) as H0. facts c j s; lra.
  - destruct k as [|[|[|[|k]]]]; [| | | |lia]; cbn [rr] in H; destruct (Nat.ltb_spec j s) as [G|G]; cbn [lin] in Hl.
    + pose proof (H _ _ _ (or_introl eq_refl)) as H0. facts c j s; lra.
    + pose proof (H _ _ _ (or_introl eq_refl)) as H0. pose proof (H _ _ _ (or_intror (or_introl eq_refl))) as H1. facts c j s; lra.
    + pose proof (H _ _ _ (or_introl eq_refl)) as H0. destruct (le_lt_dec s c); facts c j s; lra.
    + facts c j s; lra.
    + pose proof (H _ _ _ (or_introl eq_refl)) as H0. facts c j s; lra.
    + pose proof (H _ _ _ (or_introl eq_refl)) as H0. pose proof (H _ _ _ (or_intror (or_introl eq_refl))) as H1. facts c j s; lra.
    + facts c j s; lra.
    + pose proof (H _ _ _ (or_introl eq_refl)) as H0. pose proof (H _ _ _ (or_intror (or_introl eq_refl))) as H1. pose proof (H _ _ _ (or_intror (or_intror (or_introl eq_refl)))) as H2.
      destruct (le_lt_dec (2 * s) (c + j + 1)); facts c j s; lra.
Qed.
Lemma half_diagonal K k s j c a b : (k < 4)%nat -> (j < kh K s)%nat -> In (a, b, hf) (rr K k s j) -> (a <= c < b)%nat ->
  exists px py qx qy, diagonal (INR c) (INR c + 1) (INR j) (INR j + 1) px py qx qy /\
  forall x y, INR c <= x <= INR c + 1 -> INR j <= y <= INR j + 1 -> (lin K k (INR s) x y <-> 0 <= area2 px py qx qy x y).
Proof.
  intros Hk Hj H Hc.
  assert (SOL : forall px py qx qy, diagonal (INR c) (INR c + 1) (INR j) (INR j + 1) px py qx qy ->
    (forall x y, INR c <= x <= INR c + 1 -> INR j <= y <= INR j + 1 -> (lin K k (INR s) x y <-> 0 <= area2 px py qx qy x y)) ->
    exists px py qx qy, diagonal (INR c) (INR c + 1) (INR j) (INR j + 1) px py qx qy /\
    forall x y, INR c <= x <= INR c + 1 -> INR j <= y <= INR j + 1 -> (lin K k (INR s) x y <-> 0 <= area2 px py qx qy x y)) by (intros px py qx qy D1 D2; exists px, py, qx, qy; auto).
  destruct K; cbn [kh] in *.
  - destruct H as [E|[]]. injection E as E1 E2 E3. exfalso. clear - E3. lra.
  - destruct k as [|[|[|[|k]]]]; [| | | |lia]; cbn [rr] in H; destruct (Nat.ltb_spec j s) as [G|G]; cbn [In] in H;
      repeat (destruct H as [H|H]; [first [injection H as E1 E2 E3 | injection H as E1 E2]; try (exfalso; lra); facts c j s;
        first [ apply (SOL (INR c) (INR j) (INR c + 1) (INR j + 1)); [split; auto|]; unfold area2; cbn [lin]; intros x y Hx Hy; split; intros; lra
              | apply (SOL (INR c + 1) (INR j + 1) (INR c) (INR j)); [split; auto|]; unfold area2; cbn [lin]; intros x y Hx Hy; split; intros; lra
              | apply (SOL (INR c + 1) (INR j) (INR c) (INR j + 1)); [split; auto|]; unfold area2; cbn [lin]; intros x y Hx Hy; split; intros; lra
              | apply (SOL (INR c) (INR j + 1) (INR c + 1) (INR j)); [split; auto|]; unfold area2; cbn [lin]; intros x y Hx Hy; split; intros; lra ]|]); destruct H.
  - destruct k as [|[|[|[|k]]]]; [| | | |lia]; cbn [rr] in H; destruct (Nat.ltb_spec j s) as [G|G]; cbn [In] in H;
      repeat (destruct H as [H|H]; [first [injection H as E1 E2 E3 | injection H as E1 E2]; try (exfalso; lra); facts c j s;
        first [ apply (SOL (INR c) (INR j) (INR c + 1) (INR j + 1)); [split; auto|]; unfold area2; cbn [lin]; intros x y Hx Hy; split; intros; lra
              | apply (SOL (INR c + 1) (INR j + 1) (INR c) (INR j)); [split; auto|]; unfold area2; cbn [lin]; intros x y Hx Hy; split; intros; lra
              | apply (SOL (INR c + 1) (INR j) (INR c) (INR j + 1)); [split; auto|]; unfold area2; cbn [lin]; intros x y Hx Hy; split; intros; lra
              | apply (SOL (INR c) (INR j + 1) (INR c + 1) (INR j)); [split; auto|]; unfold area2; cbn [lin]; intros x y Hx Hy; split; intros; lra ]|]); destruct H.
Qed.
