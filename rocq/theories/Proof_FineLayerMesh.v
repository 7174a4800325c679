(** Nodes and elements of Quad4::FineLayer. *)
From Coq Require Import Reals ZArith Lra.
From Verif Require Import Base Spec Spec2d Model_Numbering Model_Regular2d Model_FineLayer Proof_Vector Proof_Regular2d Proof_FineLayer.

(** ** lists made of blocks *)
Lemma length_blocks {A} (f : nat -> list A) len : forall k, (forall i, i < k -> length (f i) = len i) -> length (flat_map f (seq 0 k)) = nsum k len.
Proof.
  induction k as [|k IH]; intros H; [reflexivity|]. rewrite seq_S, flat_map_app, app_length, IH by (intros; apply H; lia). cbn. rewrite app_nil_r, H by lia. reflexivity.
Qed.
Lemma nth_blocks {A} (f : nat -> list A) len : forall k i j, (forall i, i < k -> length (f i) = len i) -> i < k -> j < len i ->
  nth_error (flat_map f (seq 0 k)) (nsum i len + j) = nth_error (f i) j.
Proof.
  induction k as [|k IH]; intros i j H Hi Hj; [lia|]. rewrite seq_S, flat_map_app. cbn [flat_map Nat.add]. rewrite app_nil_r.
  assert (Lk : length (flat_map f (seq 0 k)) = nsum k len) by (apply length_blocks; intros; apply H; lia).
  destruct (Nat.eq_dec i k) as [->|Hne].
  - rewrite nth_error_app2 by lia. f_equal. lia.
  - rewrite nth_error_app1; [apply IH; auto; lia|]. rewrite Lk. pose proof (nsum_le (S i) k len ltac:(lia)) as G. cbn in G. lia.
Qed.
Lemma blocks_split len : forall k p, p < nsum k len -> exists i j, i < k /\ j < len i /\ p = nsum i len + j.
Proof.
  induction k as [|k IH]; intros p H; [cbn in H; lia|]. cbn in H. destruct (le_lt_dec (nsum k len) p) as [G|G].
  - exists k, (p - nsum k len). lia.
  - destruct (IH p G) as (i & j & A & B & C). exists i, j. lia.
Qed.
Lemma blocks_inj len i j i' j' : j < len i -> j' < len i' -> nsum i len + j = nsum i' len + j' -> i = i' /\ j = j'.
Proof.
  intros H H' E. destruct (lt_eq_lt_dec i i') as [[G| ->]|G]; [| lia |].
  - pose proof (nsum_le (S i) i' len G) as Q. cbn in Q. lia.
  - pose proof (nsum_le (S i') i len G) as Q. cbn in Q. lia.
Qed.
Lemma flat_map_shift {A} (f g : nat -> list A) k : forall a,
  f a ++ flat_map (fun i => g i ++ f (i + 1)) (seq a k) = flat_map (fun i => f i ++ g i) (seq a k) ++ f (a + k).
Proof.
  induction k as [|k IH]; intros a; [cbn; now rewrite app_nil_r, Nat.add_0_r|].
  cbn [seq flat_map]. rewrite <- !app_assoc. f_equal. f_equal. rewrite Nat.add_1_r, IH. now replace (S a + k) with (a + S k) by lia.
Qed.
Lemma flat_map_ext_in' {A B} (f g : A -> list B) l : (forall a, In a l -> f a = g a) -> flat_map f l = flat_map g l.
Proof. induction l as [|a l IH]; intros H; [reflexivity|]. cbn. rewrite H, IH by (auto with datatypes; intros; apply H; now right). reflexivity. Qed.

Lemma map_flat_map1 {A B} (f : A -> B) l : map f l = flat_map (fun a => [f a]) l.
Proof. induction l as [|a l IH]; [reflexivity|]. cbn. now rewrite IH. Qed.

(** shapes of the elements: corners in units of the local size *)
Definition tmpl : Type := (nat * nat) * (nat * nat) * (nat * nat) * (nat * nat).
Definition sq : tmpl := ((0, 0), (1, 0), (1, 1), (0, 1)).
Definition lows : list tmpl := [((0, 0), (3, 0), (2, 1), (1, 1)); ((3, 0), (3, 2), (2, 2), (2, 1)); ((1, 1), (2, 1), (2, 2), (1, 2)); ((0, 0), (1, 1), (1, 2), (0, 2))].
Definition ups : list tmpl := [((0, 0), (1, 0), (1, 1), (0, 2)); ((1, 0), (2, 0), (2, 1), (1, 1)); ((2, 0), (3, 0), (3, 2), (2, 1)); ((1, 1), (2, 1), (3, 2), (0, 2))].

Section Mesh.
Variables (nelx n : nat) (w y : nat -> nat) (r : nat -> bool) (h : R).
Hypothesis HL : layered nelx n w y r.
Notation L := (L n).
Notation W := (W n w).
Notation Hy := (Hy n y).
Notation Rf := (Rf n r).
Notation NX := (NX nelx n w).
Notation WN := (WN n w).
Notation NN := (NN nelx n w).
Notation NM := (NM nelx n w r).
Notation NE := (NE nelx n w r).
Notation SN := (SN nelx n w r).
Notation SE := (SE nelx n w r).
Notation Y := (Y n y).
Notation m := (FL_of nelx n w y r h).

Lemma layers_m : f_layers m = L.
Proof. apply tab1_len. Qed.

Lemma fold_y l : forall z, fold_left (fun y k => y + INR k * h)%R l z = (z + h * INR (fold_right Nat.add 0%nat l))%R.
Proof. induction l as [|a l IH]; intros z; cbn [fold_left fold_right]; [cbn; ring|]. rewrite IH, plus_INR. ring. Qed.
Lemma firstn_tab1 {A} k N (f : nat -> A) : k <= N -> firstn k (tab1 N f) = tab1 k f.
Proof. intros H. unfold tab1. rewrite firstn_map. f_equal. replace N with (k + (N - k)) by lia. rewrite seq_app, firstn_app, seq_length, Nat.sub_diag. cbn. rewrite app_nil_r. apply firstn_all2. rewrite seq_length. lia. Qed.
Lemma sum_tab1 k f : fold_right Nat.add 0 (tab1 k f) = nsum k f.
Proof.
  induction k as [|k IH]; [reflexivity|]. cbn [nsum]. rewrite <- IH. unfold tab1. rewrite seq_S, map_app. cbn [map Nat.add]. clear IH.
  generalize (f k). intros a. induction (map f (seq 0 k)) as [|b l IHl]; cbn; [lia|]. rewrite IHl. lia.
Qed.
Lemma f_y_spec iy : iy <= L -> f_y m iy = (h * INR (Y iy))%R.
Proof. intros H. unfold f_y. cbn [f_nhy f_h FL_of]. rewrite fold_y, firstn_tab1, sum_tab1 by assumption. unfold Proof_FineLayer.Y. ring. Qed.

Lemma linspace_layer iy ix : iy < L -> ix <= NX iy -> linspace 0 (h * INR nelx) (NX iy + 1) ix = (h * INR (W iy * ix))%R.
Proof.
  intros H Hx. pose proof (W_NX _ _ _ _ _ HL iy H) as E. rewrite <- E at 1. rewrite !mult_INR, <- !Rmult_assoc. now apply linspace_INR.
Qed.

Definition rowc (a b : nat) : list R := [h * INR a; h * INR b]%R.
Definition row (iy : nat) : list (list R) := tab1 (NN iy) (fun j => rowc (WN iy * j) (Y iy)).
Definition mid (iy : nat) : list (list R) :=
  if Rf iy then tab1 (2 * NX iy) (fun j => rowc (W iy * (j / 2) + W iy / 3 * (j mod 2 + 1)) (Y iy + Hy iy / 2)) else [].

Lemma node_row_spec i iy : i < L -> iy <= L -> WN iy = W i -> node_row m i iy = Ok (row iy).
Proof.
  intros Hi Hj E. unfold node_row. cbn [f_layer_nelx f_Lx FL_of]. rewrite tab1_get by assumption. cbn [bind]. f_equal.
  unfold row, tab1, Proof_FineLayer.NN. rewrite E. fold (NX i). apply map_ext_in. intros j Hin. apply in_seq in Hin.
  rewrite linspace_layer, f_y_spec by (assumption || lia). reflexivity.
Qed.

Lemma flat_map_pairs {A} (f : nat -> nat -> A) k : flat_map (fun ix => map (f ix) (seq 0 2)) (seq 0 k) = tab1 (2 * k) (fun j => f (j / 2) (j mod 2)).
Proof.
  unfold tab1. induction k as [|k IH]; [reflexivity|]. rewrite (seq_S k 0), flat_map_app, IH. replace (2 * S k) with (2 * k + 2) by lia.
  rewrite seq_app, map_app. f_equal. cbn [seq map flat_map Nat.add app].
  replace (2 * k / 2) with k by (rewrite Nat.mul_comm, Nat.div_mul; lia). replace (2 * k mod 2) with 0 by (rewrite Nat.mul_comm, Nat.mod_mul; lia).
  replace (S (2 * k)) with (1 + k * 2) by lia. rewrite Nat.div_add, Nat.mod_add by lia. reflexivity.
Qed.

Lemma node_mid_spec iy : iy < L -> node_mid m iy = Ok (mid iy).
Proof.
  intros Hi. unfold node_mid, mid. cbn [f_layer_nelx f_nhx f_nhy f_refine f_Lx f_h FL_of]. rewrite !tab1_get by assumption. cbn [bind].
  unfold Zr. destruct (Rf iy); cbn [Z.eqb]; [|reflexivity]. f_equal.
  rewrite (flat_map_pairs (fun ix j => [linspace 0 (h * INR nelx) (NX iy + 1) ix + h * INR (W iy / 3) * INR (j + 1); f_y m iy + h * INR (Hy iy / 2)]%R)).
  apply tab1_ext. intros j Hj. unfold rowc. rewrite f_y_spec by lia.
  rewrite linspace_layer; [|assumption|]. 2:{ apply Nat.lt_le_incl, Nat.div_lt_upper_bound; lia. }
  rewrite !plus_INR, !mult_INR, !plus_INR. apply (f_equal2 (fun a b => [a; b])); ring.
Qed.

Definition coorl : list (list R) := flat_map (fun iy => row iy ++ mid iy) (seq 0 L) ++ row L.

Lemma mid_length iy : length (mid iy) = NM iy.
Proof. unfold mid, Proof_FineLayer.NM. destruct (Rf iy); [apply tab1_len|reflexivity]. Qed.
Lemma row_length iy : length (row iy) = NN iy.
Proof. apply tab1_len. Qed.
Lemma coorl_length : length coorl = SN L + NN L.
Proof.
  unfold coorl. rewrite app_length, row_length. f_equal. apply length_blocks. intros i _. now rewrite app_length, row_length, mid_length.
Qed.

Lemma coor_spec : f_coor m = Ok coorl.
Proof.
  pose proof (l_n _ _ _ _ _ HL) as Hn. pose proof (n_L _ _ _ _ _ HL) as HnL.
  unfold f_coor. rewrite layers_m, (L_half n).
  rewrite (concatM_Ok _ (fun iy => if iy =? n - 1 then row iy else row iy ++ mid iy)).
  2:{ intros iy Hin. apply in_seq in Hin. rewrite (node_row_spec iy iy) by (try lia; apply WN_low; lia). cbn [bind].
      destruct (iy =? n - 1); [reflexivity|]. rewrite node_mid_spec by lia. reflexivity. }
  cbn [bind]. rewrite (concatM_Ok _ (fun iy => mid iy ++ row (iy + 1))).
  2:{ intros iy Hin. apply in_seq in Hin. rewrite node_mid_spec by lia. cbn [bind].
      rewrite (node_row_spec iy (iy + 1)) by (try lia; rewrite WN_up by lia; f_equal; lia). reflexivity. }
  cbn [bind].
  match goal with |- fill_rows _ ?l = _ => assert (E : l = coorl) end.
  - rewrite seq_app, flat_map_app. cbn [seq flat_map Nat.add]. rewrite Nat.eqb_refl, app_nil_r.
    rewrite <- app_assoc, flat_map_shift. rewrite (flat_map_ext_in' _ (fun i => row i ++ mid i)).
    2:{ intros i Hi. apply in_seq in Hi. destruct (Nat.eqb_spec i (n - 1)); [lia|reflexivity]. }
    rewrite app_assoc, <- flat_map_app. change (n - 1) with (0 + (n - 1)) at 2. rewrite <- seq_app. unfold coorl. do 3 f_equal; lia.
  - rewrite E. apply fill_rows_Ok. apply coorl_length.
Qed.

(** *** positions of the nodes, in units of h *)
Definition pos (p a b : nat) : Prop := nth_error coorl p = Some (rowc a b).

Lemma SN_S iy : SN (iy + 1) = SN iy + NN iy + NM iy.
Proof. rewrite Nat.add_1_r. unfold Proof_FineLayer.SN. cbn [nsum]. lia. Qed.

Lemma tab1_nth_error {A} k (f : nat -> A) i : i < k -> nth_error (tab1 k f) i = Some (f i).
Proof. intros H. apply get_Ok. now apply tab1_get. Qed.

Lemma pos_row iy j : iy <= L -> j < NN iy -> pos (SN iy + j) (WN iy * j) (Y iy).
Proof.
  intros Hi Hj. unfold pos, coorl.
  assert (Len : forall i, i < L -> length (row i ++ mid i) = NN i + NM i) by (intros; now rewrite app_length, row_length, mid_length).
  destruct (Nat.eq_dec iy L) as [->|Hne].
  - rewrite nth_error_app2 by (rewrite (length_blocks _ _ _ Len); unfold Proof_FineLayer.SN; lia). rewrite (length_blocks _ _ _ Len).
    fold (SN L). replace (SN L + j - SN L) with j by lia. unfold row. now rewrite tab1_nth_error.
  - rewrite nth_error_app1.
    + unfold Proof_FineLayer.SN. rewrite (nth_blocks _ _ L iy j Len) by lia. rewrite nth_error_app1 by (rewrite row_length; lia). unfold row. now rewrite tab1_nth_error.
    + rewrite (length_blocks _ _ _ Len). pose proof (nsum_le (S iy) L (fun k => NN k + NM k) ltac:(lia)) as G. cbn [nsum] in G. unfold Proof_FineLayer.SN. lia.
Qed.

Lemma pos_mid iy j k s : iy < L -> Rf iy = true -> j < NX iy -> k < 2 -> W iy = 3 * s -> Hy iy = 2 * s ->
  pos (SN iy + NN iy + (2 * j + k)) (W iy * j + s * (k + 1)) (Y iy + s).
Proof.
  intros Hi Hr Hj Hk Ew Eh. unfold pos, coorl.
  assert (Len : forall i, i < L -> length (row i ++ mid i) = NN i + NM i) by (intros; now rewrite app_length, row_length, mid_length).
  assert (M : NM iy = 2 * NX iy) by (unfold Proof_FineLayer.NM; now rewrite Hr).
  rewrite nth_error_app1.
  - unfold Proof_FineLayer.SN. rewrite <- Nat.add_assoc, (nth_blocks _ _ L iy _ Len) by lia. rewrite nth_error_app2 by (rewrite row_length; lia).
    rewrite row_length. replace (NN iy + (2 * j + k) - NN iy) with (2 * j + k) by lia. unfold mid. rewrite Hr, tab1_nth_error by lia.
    do 2 f_equal.
    + replace (2 * j + k) with (k + j * 2) by lia. rewrite Nat.div_add, Nat.mod_add, Nat.div_small, Nat.mod_small by lia.
      rewrite Ew at 2. rewrite (Nat.mul_comm 3 s), Nat.div_mul by lia. reflexivity.
    + rewrite Eh. rewrite (Nat.mul_comm 2 s), Nat.div_mul by lia. reflexivity.
  - rewrite (length_blocks _ _ _ Len). pose proof (nsum_le (S iy) L (fun k => NN k + NM k) ltac:(lia)) as G. cbn [nsum] in G. unfold Proof_FineLayer.SN. lia.
Qed.

(** *** every node *)
Inductive node_case (p : nat) : nat -> nat -> Prop :=
  | case_row iy j : iy <= L -> j < NN iy -> p = SN iy + j -> node_case p (WN iy * j) (Y iy)
  | case_mid iy j k s : iy < L -> Rf iy = true -> j < NX iy -> k < 2 -> 1 <= s -> W iy = 3 * s -> Hy iy = 2 * s ->
      p = SN iy + NN iy + (2 * j + k) -> node_case p (W iy * j + s * (k + 1)) (Y iy + s).

Lemma node_case_pos p a b : node_case p a b -> pos p a b.
Proof. intros []; subst p; [now apply pos_row|now apply pos_mid]. Qed.

Lemma node_cases p : p < SN L + NN L -> exists a b, node_case p a b.
Proof.
  intros H. destruct (le_lt_dec (SN L) p) as [G|G].
  - do 2 eexists. apply (case_row p L (p - SN L)); lia.
  - destruct (blocks_split _ _ _ G) as (i & j & Hi & Hj & E). fold (SN i) in E. destruct (le_lt_dec (NN i) j) as [K|K].
    + unfold Proof_FineLayer.NM in Hj. destruct (Rf i) eqn:Er; [|lia].
      destruct (WN_layer _ _ _ _ _ HL i Hi) as [(E' & _)|(_ & s & Hs & E1 & E2 & _)]; [congruence|].
      pose proof (Nat.div_mod (j - NN i) 2 ltac:(lia)). pose proof (Nat.mod_upper_bound (j - NN i) 2 ltac:(lia)).
      do 2 eexists. apply (case_mid p i ((j - NN i) / 2) ((j - NN i) mod 2) s); auto; [|lia]. apply Nat.div_lt_upper_bound; lia.
    + do 2 eexists. apply (case_row p i j); lia.
Qed.

Hypothesis Hh : (0 < h)%R.

Lemma rowc_inj a b a' b' : rowc a b = rowc a' b' -> a = a' /\ b = b'.
Proof. unfold rowc. intros E. injection E as E1 E2. apply Rmult_eq_reg_l in E1, E2; try lra. split; now apply INR_eq. Qed.

Lemma pos_case p a b : pos p a b -> node_case p a b.
Proof.
  intros H. assert (Hp : p < length coorl) by (apply nth_error_Some; unfold pos in H; congruence). rewrite coorl_length in Hp.
  destruct (node_cases p Hp) as (a' & b' & C). pose proof (node_case_pos _ _ _ C) as G. unfold pos in *.
  rewrite H in G. injection G as E1 E2. destruct (rowc_inj a b a' b') as [-> ->]; [unfold rowc; congruence|]. exact C.
Qed.

Lemma node_at_pos p X Z' : node_at coorl p X Z' -> exists a b, X = (h * INR a)%R /\ Z' = (h * INR b)%R /\ node_case p a b.
Proof.
  intros H. assert (Hp : p < length coorl) by (eapply node_at_lt; eassumption). rewrite coorl_length in Hp.
  destruct (node_cases p Hp) as (a & b & C). pose proof (node_case_pos _ _ _ C) as G. unfold pos, node_at in *. rewrite H in G. injection G as -> ->.
  now exists a, b.
Qed.

Lemma Y_lt i j : i < j -> j <= L -> Y i + Hy i <= Y j.
Proof. intros H H'. unfold Proof_FineLayer.Y. exact (nsum_le (S i) j Hy H). Qed.
Lemma Y_mono i j : i <= j -> Y i <= Y j.
Proof. apply nsum_le. Qed.
Lemma Y_inj i j : i <= L -> j <= L -> Y i = Y j -> i = j.
Proof.
  intros Hi Hj E. destruct (lt_eq_lt_dec i j) as [[G| ->]|G]; [|reflexivity|].
  - pose proof (Y_lt i j G Hj). pose proof (Hy_pos _ _ _ _ _ HL i ltac:(lia)). lia.
  - pose proof (Y_lt j i G Hi). pose proof (Hy_pos _ _ _ _ _ HL j ltac:(lia)). lia.
Qed.
(** a height strictly inside layer [i] is not the height of a row *)
Lemma Y_between i j s : i < L -> j <= L -> 1 <= s -> s < Hy i -> Y i + s <> Y j.
Proof.
  intros Hi Hj Hs Hh' E. destruct (le_lt_dec j i) as [G|G].
  - pose proof (Y_mono j i G). lia.
  - pose proof (Y_lt i j G Hj). lia.
Qed.

Lemma case_inj p p' a b : node_case p a b -> node_case p' a b -> p = p'.
Proof.
  intros C C'. inversion C as [iy j Hi Hj E Ea Eb|iy j k s Hi Hr Hj Hk Hs Ew Eh E Ea Eb];
  inversion C' as [iy' j' Hi' Hj' E' Ea' Eb'|iy' j' k' s' Hi' Hr' Hj' Hk' Hs' Ew' Eh' E' Ea' Eb'].
  - assert (iy = iy') by (apply Y_inj; auto; congruence). subst iy'. rewrite E, E'. f_equal.
    destruct (WN_NN _ _ _ _ _ HL iy Hi) as (_ & _ & _ & _ & Hw). apply (Nat.mul_cancel_l _ _ (WN iy)); lia.
  - exfalso. apply (Y_between iy' iy s'); try assumption; lia.
  - exfalso. apply (Y_between iy iy' s); try assumption; lia.
  - assert (iy = iy').
    { destruct (lt_eq_lt_dec iy iy') as [[G|G]|G]; [|assumption|].
      - pose proof (Y_lt iy iy' G ltac:(lia)). lia.
      - pose proof (Y_lt iy' iy G ltac:(lia)). lia. }
    subst iy'. assert (s' = s) by lia. subst s'. rewrite E, E'. f_equal.
    assert (W iy * j + s * (k + 1) = W iy * j' + s * (k' + 1)) by congruence. rewrite Ew in H.
    assert (3 * j + k = 3 * j' + k') by nia. lia.
Qed.

Lemma case_bounds p a b : node_case p a b -> a <= nelx /\ b <= Y L.
Proof.
  intros []; subst.
  - destruct (WN_NN _ _ _ _ _ HL iy H) as (k & _ & Ek & E & _). split; [|now apply Y_mono]. rewrite <- E. apply Nat.mul_le_mono_l. lia.
  - pose proof (W_NX _ _ _ _ _ HL iy H) as E. pose proof (Y_lt iy L H ltac:(lia)). split; [|lia]. rewrite <- E. rewrite H4. nia.
Qed.

Lemma FL_in_domain : in_domain coorl (h * INR nelx) (h * INR (Y L)).
Proof.
  split; [|split].
  - intros p Hp. rewrite coorl_length in Hp. destruct (node_cases p Hp) as (a & b & C). do 2 eexists. apply (node_case_pos _ _ _ C).
  - intros p a b H. destruct (node_at_pos _ _ _ H) as (a' & b' & -> & -> & C). destruct (case_bounds _ _ _ C) as [A B].
    apply le_INR in A, B. pose proof (pos_INR a'). pose proof (pos_INR b'). nra.
  - intros p p' a b H H'. destruct (node_at_pos _ _ _ H) as (a1 & b1 & E1 & E2 & C). destruct (node_at_pos _ _ _ H') as (a2 & b2 & E3 & E4 & C').
    rewrite E1 in E3. rewrite E2 in E4. apply Rmult_eq_reg_l in E3, E4; try lra. apply INR_eq in E3, E4. subst a2 b2. eapply case_inj; eassumption.
Qed.

(** *** elements *)
Definition sz (iy : nat) : nat := if Rf iy then W iy / 3 else W iy.
Definition tm (iy : nat) : list tmpl := if Rf iy then (if iy <? n then lows else ups) else [sq].
Definition lconn (iy : nat) : list (list nat) :=
  let bot := SN iy in let mid := SN iy + NN iy in let top := SN (iy + 1) in
  if Rf iy then
    if iy <? n then
      flat_map (fun ix =>
      [ [bot + ix; bot + (ix + 1); mid + (2 * ix + 1); mid + 2 * ix];
        [bot + (ix + 1); top + (3 * ix + 3); top + (3 * ix + 2); mid + (2 * ix + 1)];
        [mid + 2 * ix; mid + (2 * ix + 1); top + (3 * ix + 2); top + (3 * ix + 1)];
        [bot + ix; mid + 2 * ix; top + (3 * ix + 1); top + 3 * ix] ]) (seq 0 (NX iy))
    else
      flat_map (fun ix =>
      [ [bot + 3 * ix; bot + (3 * ix + 1); mid + 2 * ix; top + ix];
        [bot + (3 * ix + 1); bot + (3 * ix + 2); mid + (2 * ix + 1); mid + 2 * ix];
        [bot + (3 * ix + 2); bot + (3 * ix + 3); top + (ix + 1); mid + (2 * ix + 1)];
        [mid + 2 * ix; mid + (2 * ix + 1); top + (ix + 1); top + ix] ]) (seq 0 (NX iy))
  else flat_map (fun ix => [[bot + ix; bot + (ix + 1); top + (ix + 1); top + ix]]) (seq 0 (NX iy)).
Definition connl : list (list nat) := flat_map lconn (seq 0 L).

Lemma layer_conn_spec iy : iy < L -> layer_conn m iy = Ok (lconn iy).
Proof.
  clear Hh. intros Hi. pose proof (l_n _ _ _ _ _ HL) as Hn. unfold layer_conn. rewrite layers_m, (L_half n).
  cbn [f_startNode f_nnd f_refine f_layer_nelx FL_of]. rewrite !tab1_get by (assumption || (rewrite (L_S _ _ _ _ _ HL); lia)). cbn [bind].
  unfold Zr, lconn. destruct (Rf iy); cbn [Z.eqb andb].
  - destruct (Nat.leb_spec iy (n - 1)); destruct (Nat.ltb_spec iy n); try lia; [reflexivity|].
    destruct (Nat.ltb_spec (n - 1) iy); [reflexivity|lia].
  - apply (f_equal Ok). apply map_flat_map1.
Qed.

Lemma tm_length iy : length (tm iy) * NX iy = NE iy.
Proof. clear. unfold tm, Proof_FineLayer.NE. destruct (Rf iy); [destruct (iy <? n)|]; cbn [length lows ups]; lia. Qed.
Lemma lconn_length iy : length (lconn iy) = NE iy.
Proof.
  clear. unfold lconn, Proof_FineLayer.NE. destruct (Rf iy); [destruct (iy <? n)|];
  (erewrite length_flat_map_const; [rewrite seq_length|intros; cbn [length]; reflexivity]); lia.
Qed.

Lemma conn_spec : f_conn m = Ok connl.
Proof.
  clear Hh. unfold f_conn. rewrite layers_m. rewrite (concatM_Ok _ lconn).
  2:{ intros i Hi. apply in_seq in Hi. apply layer_conn_spec. lia. }
  cbn [bind]. apply fill_rows_Ok. cbn [f_nelem FL_of]. apply length_blocks. intros i _. apply lconn_length.
Qed.

Inductive elem_case (e iy ix : nat) (T : tmpl) : Prop :=
  | Elem_case k : iy < L -> ix < NX iy -> nth_error (tm iy) k = Some T -> e = SE iy + (ix * length (tm iy) + k) -> elem_case e iy ix T.

Lemma elem_cases e : e < SE L -> exists iy ix T, elem_case e iy ix T.
Proof.
  clear Hh. intros H. destruct (blocks_split _ _ _ H) as (iy & j & Hi & Hj & E). fold (SE iy) in E.
  assert (Lt : length (tm iy) <> 0) by (unfold tm; destruct (Rf iy); [destruct (iy <? n)|]; discriminate).
  pose proof (Nat.div_mod j (length (tm iy)) Lt). pose proof (Nat.mod_upper_bound j (length (tm iy)) Lt) as U.
  destruct (nth_error (tm iy) (j mod length (tm iy))) as [T|] eqn:ET; [|apply nth_error_None in ET; lia].
  exists iy, (j / length (tm iy)), T. apply (Elem_case _ _ _ _ (j mod length (tm iy))); auto.
  - rewrite <- tm_length in Hj. apply Nat.div_lt_upper_bound; lia.
  - lia.
Qed.
Lemma elem_case_lt e iy ix T : elem_case e iy ix T -> e < SE L.
Proof.
  clear Hh. intros [k Hi Hx Hk ->]. pose proof (nsum_le (S iy) L NE ltac:(lia)) as G. cbn [nsum] in G. fold (SE L) (SE iy) in G.
  assert (k < length (tm iy)) by (apply nth_error_Some; congruence). rewrite <- tm_length in G. nia.
Qed.

Lemma row_case iy j p a b : iy <= L -> p = SN iy + j -> a = WN iy * j -> b = Y iy -> a <= nelx -> node_case p a b.
Proof.
  intros Hi -> -> -> Ha. apply case_row; auto. destruct (WN_NN _ _ _ _ _ HL iy Hi) as (k & _ & -> & E & Hw). nia.
Qed.
Lemma mid_case iy j k s p a b : iy < L -> Rf iy = true -> j < NX iy -> k < 2 -> 1 <= s -> W iy = 3 * s -> Hy iy = 2 * s ->
  p = SN iy + NN iy + (2 * j + k) -> a = 3 * s * j + s * (k + 1) -> b = Y iy + s -> node_case p a b.
Proof. intros ? ? ? ? ? E ? -> -> ->. rewrite <- E. now apply (case_mid _ iy j k s). Qed.

Definition cx (iy ix : nat) (t : nat * nat) : nat := W iy * ix + sz iy * fst t.
Definition cy (iy : nat) (t : nat * nat) : nat := Y iy + sz iy * snd t.
Definition corner (p iy ix : nat) (t : nat * nat) : Prop := node_case p (cx iy ix t) (cy iy t).

Lemma sz_facts iy : iy < L -> (Rf iy = false /\ sz iy = W iy /\ 1 <= sz iy /\ Hy iy = sz iy) \/
  (Rf iy = true /\ W iy = 3 * sz iy /\ 1 <= sz iy /\ Hy iy = 2 * sz iy).
Proof.
  intros H. unfold sz. destruct (WN_layer _ _ _ _ _ HL iy H) as [(-> & _ & _ & ->)|(-> & s & Hs & -> & -> & _)]; [left|right].
  - repeat split. now apply (W_pos _ _ _ _ _ HL).
  - rewrite (Nat.mul_comm 3 s), Nat.div_mul by lia. repeat split; lia.
Qed.

Lemma elem_at e iy ix t0 t1 t2 t3 : elem_case e iy ix (t0, t1, t2, t3) -> exists p0 p1 p2 p3,
  nth_error connl e = Some [p0; p1; p2; p3] /\ corner p0 iy ix t0 /\ corner p1 iy ix t1 /\ corner p2 iy ix t2 /\ corner p3 iy ix t3.
Proof.
  intros [k Hi Hx Hk ->].
  assert (Hn : nth_error connl (SE iy + (ix * length (tm iy) + k)) = nth_error (lconn iy) (ix * length (tm iy) + k)).
  { unfold connl, Proof_FineLayer.SE. apply nth_blocks; auto; [intros; apply lconn_length|].
    assert (k < length (tm iy)) by (apply nth_error_Some; congruence). rewrite <- tm_length. nia. }
  rewrite Hn. clear Hn. pose proof (W_NX _ _ _ _ _ HL iy Hi) as EW. unfold corner, cx, cy.
  assert (EY : Y (iy + 1) = Y iy + Hy iy) by (rewrite Nat.add_1_r; reflexivity).
  assert (Hb : W iy * ix + W iy <= nelx) by (rewrite <- EW; nia).
  unfold tm, lconn, sz in *. destruct (WN_layer _ _ _ _ _ HL iy Hi) as [(Er & E1 & E2 & E3)|(Er & s & Hs & Ew & Eh & Ec)]; rewrite Er in *.
  - destruct k as [|[|k]]; cbn in Hk; try discriminate. injection Hk as <- <- <- <-. cbn [length].
    rewrite nth_error_flat_map_const by (intros; reflexivity || lia). rewrite nth_error_seq. destruct (Nat.ltb_spec ix (NX iy)); [|lia]. cbn [nth_error Nat.add].
    do 4 eexists. split; [reflexivity|]. cbn [fst snd].
    split; [|split; [|split]].
    + apply (row_case iy ix); lia.
    + apply (row_case iy (ix + 1)); lia.
    + apply (row_case (iy + 1) (ix + 1)); lia.
    + apply (row_case (iy + 1) ix); lia.
  - assert (ES : W iy / 3 = s) by (rewrite Ew, (Nat.mul_comm 3 s), Nat.div_mul; lia). rewrite ES, Ew in *.
    destruct Ec as [(Hc & E1 & E2)|(Hc & E1 & E2)].
    + destruct (Nat.ltb_spec iy n) as [_|]; [|lia]. cbn [length lows].
      assert (Hk4 : k < 4) by (destruct k as [|[|[|[|k]]]]; [lia|lia|lia|lia|destruct k; discriminate Hk]).
      rewrite nth_error_flat_map_const by (exact Hk4 || (intros; reflexivity)).
      rewrite nth_error_seq. destruct (Nat.ltb_spec ix (NX iy)); [|lia]. cbn [Nat.add].
      destruct k as [|[|[|[|k]]]]; cbn in Hk; [| | | |destruct k; discriminate Hk]; injection Hk as <- <- <- <-; cbn [nth_error];
      do 4 eexists; (split; [reflexivity|]); cbn [fst snd]; (split; [|split; [|split]]);
      first [ apply (row_case iy ix); lia | apply (row_case iy (ix + 1)); lia
            | apply (row_case (iy + 1) (3 * ix)); lia | apply (row_case (iy + 1) (3 * ix + 1)); lia
            | apply (row_case (iy + 1) (3 * ix + 2)); lia | apply (row_case (iy + 1) (3 * ix + 3)); lia
            | apply (mid_case iy ix 0 s); lia || assumption | apply (mid_case iy ix 1 s); lia || assumption ].
    + destruct (Nat.ltb_spec iy n) as [|_]; [lia|]. cbn [length ups].
      assert (Hk4 : k < 4) by (destruct k as [|[|[|[|k]]]]; [lia|lia|lia|lia|destruct k; discriminate Hk]).
      rewrite nth_error_flat_map_const by (exact Hk4 || (intros; reflexivity)).
      rewrite nth_error_seq. destruct (Nat.ltb_spec ix (NX iy)); [|lia]. cbn [Nat.add].
      destruct k as [|[|[|[|k]]]]; cbn in Hk; [| | | |destruct k; discriminate Hk]; injection Hk as <- <- <- <-; cbn [nth_error];
      do 4 eexists; (split; [reflexivity|]); cbn [fst snd]; (split; [|split; [|split]]);
      first [ apply (row_case (iy + 1) ix); lia | apply (row_case (iy + 1) (ix + 1)); lia
            | apply (row_case iy (3 * ix)); lia | apply (row_case iy (3 * ix + 1)); lia
            | apply (row_case iy (3 * ix + 2)); lia | apply (row_case iy (3 * ix + 3)); lia
            | apply (mid_case iy ix 0 s); lia || assumption | apply (mid_case iy ix 1 s); lia || assumption ].
Qed.
End Mesh.
