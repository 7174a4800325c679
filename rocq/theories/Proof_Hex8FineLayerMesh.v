(** Nodes and elements of Hex8::FineLayer. *)
From Coq Require Import Reals ZArith Lra.
From Verif Require Import Base Spec Spec3d Model_Numbering Model_Regular2d Model_FineLayer Model_Hex8Regular Model_Hex8FineLayer
  Proof_Vector Proof_Regular2d Proof_Hex8Regular Proof_FineLayer Proof_FineLayerMesh Proof_Hex8FineLayer.

Lemma forin2_ext {A} la lb (f g : nat -> nat -> A) : (forall i j, In i la -> In j lb -> f i j = g i j) -> forin2 la lb f = forin2 la lb g.
Proof. intros H. unfold forin2. apply flat_map_ext_in'. intros i Hi. apply map_ext_in. intros j Hj. now apply H. Qed.
Lemma forin3_ext {A} la lb lc (f g : nat -> nat -> nat -> A) : (forall i j k, In i la -> In j lb -> In k lc -> f i j k = g i j k) -> forin3 la lb lc f = forin3 la lb lc g.
Proof. intros H. unfold forin3. apply flat_map_ext_in'. intros i Hi. apply forin2_ext. intros j k Hj Hk. now apply H. Qed.
Lemma concat_forin2 {A} la lb (f : nat -> nat -> list A) : concat (forin2 la lb f) = flat_map (fun i => flat_map (f i) lb) la.
Proof.
  unfold forin2. induction la as [|i la IH]; [reflexivity|]. cbn [flat_map]. rewrite concat_app, IH. f_equal. now rewrite flat_map_concat_map.
Qed.
Lemma forin2_flat {A} la lb (f : nat -> nat -> A) : forin2 la lb f = flat_map (fun i => flat_map (fun j => [f i j]) lb) la.
Proof. unfold forin2. apply flat_map_ext_in'. intros i _. apply map_flat_map1. Qed.

(** shapes of the elements: a two-dimensional shape, in the (x,y) plane ([KX]) or in the (z,y) plane, extended in the
    third direction; the three orders in which the code lists the nodes of the latter *)
Inductive kind := KX | K1 | K2 | K3.
Definition tmpl3 : Type := kind * tmpl.
Definition tX (t : nat * nat) (s : nat) : nat * nat * nat := (fst t, snd t, s).
Definition tZ (t : nat * nat) (s : nat) : nat * nat * nat := (s, snd t, fst t).
Definition corners3 (K : tmpl3) : list (nat * nat * nat) :=
  match K with
  | (k, (t0, t1, t2, t3)) =>
      match k with
      | KX => [tX t0 0; tX t1 0; tX t2 0; tX t3 0; tX t0 1; tX t1 1; tX t2 1; tX t3 1]
      | K1 => [tZ t0 0; tZ t1 0; tZ t1 1; tZ t0 1; tZ t3 0; tZ t2 0; tZ t2 1; tZ t3 1]
      | K2 => [tZ t0 0; tZ t0 1; tZ t3 1; tZ t3 0; tZ t1 0; tZ t1 1; tZ t2 1; tZ t2 0]
      | K3 => [tZ t3 0; tZ t3 1; tZ t2 1; tZ t2 0; tZ t0 0; tZ t0 1; tZ t1 1; tZ t1 0]
      end
  end.
Definition lowz : list tmpl3 := combine [K1; K3; K2; K2] lows.
Definition upz : list tmpl3 := combine [K2; K2; K2; K2] ups.
Definition lowx : list tmpl3 := combine [KX; KX; KX; KX] lows.
Definition upx : list tmpl3 := combine [KX; KX; KX; KX] ups.
Definition sqs : list tmpl3 := [(KX, sq)].

Section Mesh.
Variables (nelx nelz n : nat) (wx wz y : nat -> nat) (r : nat -> Z) (h : R).
Hypothesis HL : layered3 nelx nelz n wx wz y r.
Notation HX := (l3_x _ _ _ _ _ _ _ HL).
Notation HZ := (l3_z _ _ _ _ _ _ _ HL).
Notation Wx := (W n wx).
Notation Wz := (W n wz).
Notation WNx := (WN n wx).
Notation WNz := (WN n wz).
Notation Hy := (Hy n y).
Notation Y := (Y n y).
Notation NX := (NX nelx n wx).
Notation NZ := (Proof_FineLayer.NX nelz n wz).
Notation NNx := (NN nelx n wx).
Notation NNz := (NN nelz n wz).
Notation Rx := (Rf n (rx r)).
Notation Rz := (Rf n (rz r)).
Notation L := (L n).
Notation T := (T n r).
Notation NN3 := (NN3 nelx nelz n wx wz).
Notation NM3 := (NM3 nelx nelz n wx wz r).
Notation NE3 := (NE3 nelx nelz n wx wz r).
Notation SN := (SN3 nelx nelz n wx wz r).
Notation SE := (SE3 nelx nelz n wx wz r).
Notation m := (HFL_of nelx nelz n wx wz y r h).

Lemma layers_m3 : g_layers m = L.
Proof. apply tab1_len. Qed.
Lemma n_pos : 1 <= n.
Proof. apply (l_n _ _ _ _ _ HX). Qed.
Lemma nL : n - 1 < L.
Proof. apply (n_L _ _ _ _ _ HX). Qed.
Lemma Hy_pos3 iy : iy < L -> 1 <= Hy iy.
Proof. intros H. apply (l3_y _ _ _ _ _ _ _ HL). now apply (dist_lt _ _ _ _ _ HX). Qed.

(** the three kinds of layers *)
Inductive layer_kind (iy : nat) : Prop :=
  | kind_plain : Rx iy = false -> Rz iy = false -> T iy = (-1)%Z -> layer_kind iy
  | kind_x s : Rx iy = true -> Rz iy = false -> T iy = 0%Z -> 1 <= s -> Hy iy = 2 * s -> layer_kind iy
  | kind_z s : Rx iy = false -> Rz iy = true -> T iy = 2%Z -> 1 <= s -> Hy iy = 2 * s -> layer_kind iy.
Lemma layer_kinds iy : iy < L -> layer_kind iy.
Proof.
  intros H. destruct (l3_t _ _ _ _ _ _ _ HL (dist n iy) (dist_lt _ _ _ _ _ HX iy H)) as [E|[[E|E] (s & Hs & E')]].
  - apply kind_plain; unfold Rf, rx, rz, Proof_Hex8FineLayer.T; rewrite E; reflexivity.
  - apply (kind_x iy s); try assumption; unfold Rf, rx, rz, Proof_Hex8FineLayer.T; rewrite E; reflexivity.
  - apply (kind_z iy s); try assumption; unfold Rf, rx, rz, Proof_Hex8FineLayer.T; rewrite E; reflexivity.
Qed.

(** *** coordinates *)
Lemma g_y_spec iy : iy <= L -> g_y m iy = (h * INR (Y iy))%R.
Proof. intros H. unfold g_y. cbn [g_nhy g_h HFL_of]. rewrite fold_y, firstn_tab1, sum_tab1 by assumption. unfold Proof_FineLayer.Y. ring. Qed.

Definition rowc3 (a b c : nat) : list R := [h * INR a; h * INR b; h * INR c]%R.
Definition row3 (iy : nat) : list (list R) := forin2 (seq 0 (NNz iy)) (seq 0 (NNx iy)) (fun iz ix => rowc3 (WNx iy * ix) (Y iy) (WNz iy * iz)).
Definition mid3 (iy : nat) : list (list R) :=
  if Rx iy then forin3 (seq 0 (NZ iy + 1)) (seq 0 (NX iy)) (seq 0 2) (fun iz ix j => rowc3 (Wx iy * ix + Wx iy / 3 * (j + 1)) (Y iy + Hy iy / 2) (Wz iy * iz))
  else if Rz iy then forin3 (seq 0 (NZ iy)) (seq 0 2) (seq 0 (NX iy + 1)) (fun iz j ix => rowc3 (Wx iy * ix) (Y iy + Hy iy / 2) (Wz iy * iz + Wz iy / 3 * (j + 1)))
  else [].

Lemma lin_x iy ix : iy < L -> ix <= NX iy -> linspace 0 (h * INR nelx) (NX iy + 1) ix = (h * INR (Wx iy * ix))%R.
Proof. intros A B. exact (linspace_layer _ _ _ _ _ h HX iy ix A B). Qed.
Lemma lin_z iy iz : iy < L -> iz <= NZ iy -> linspace 0 (h * INR nelz) (NZ iy + 1) iz = (h * INR (Wz iy * iz))%R.
Proof. intros A B. exact (linspace_layer _ _ _ _ _ h HZ iy iz A B). Qed.

Lemma node_plane_spec i iy : i < L -> iy <= L -> WNx iy = Wx i -> WNz iy = Wz i -> node_plane m i iy = Ok (row3 iy).
Proof.
  intros Hi Hj E E'. unfold node_plane. cbn [g_layer_nelx g_layer_nelz g_Lx g_Lz HFL_of]. rewrite !tab1_get by assumption. cbn [bind]. f_equal.
  unfold row3, Proof_FineLayer.NN. rewrite E, E'. fold (NX i). fold (NZ i). apply forin2_ext. intros iz ix Hz Hx. apply in_seq in Hz, Hx.
  rewrite lin_x, lin_z, g_y_spec by (assumption || lia). reflexivity.
Qed.
Lemma node_mid3_spec iy : iy < L -> node_mid3 m iy = Ok (mid3 iy).
Proof.
  intros Hi. unfold node_mid3, mid3. cbn [g_layer_nelx g_layer_nelz g_nhx g_nhy g_nhz g_refine g_Lx g_Lz g_h HFL_of]. rewrite !tab1_get by assumption. cbn [bind].
  assert (ER : Rx iy = (T iy =? 0)%Z /\ Rz iy = (T iy =? 2)%Z) by (split; reflexivity). destruct ER as [-> ->].
  destruct (T iy =? 0)%Z; [|destruct (T iy =? 2)%Z; [|reflexivity]]; f_equal; apply forin3_ext; intros a b c Ha Hb Hc; apply in_seq in Ha, Hb, Hc;
  rewrite lin_x, lin_z, g_y_spec by (assumption || lia); unfold rowc3; rewrite !plus_INR, !mult_INR, !plus_INR;
  apply (f_equal3 (fun a b c => [a; b; c])); ring.
Qed.

Definition coorl3 : list (list R) := flat_map (fun iy => row3 iy ++ mid3 iy) (seq 0 L) ++ row3 L.

Lemma mid3_length iy : length (mid3 iy) = NM3 iy.
Proof.
  unfold mid3, Proof_Hex8FineLayer.NM3. destruct (Rx iy); [|destruct (Rz iy); [|reflexivity]]; rewrite forin3_length, !seq_length; lia.
Qed.
Lemma row3_length iy : length (row3 iy) = NN3 iy.
Proof. unfold row3, Proof_Hex8FineLayer.NN3. rewrite forin2_length, !seq_length. lia. Qed.
Lemma coorl3_length : length coorl3 = SN L + NN3 L.
Proof.
  unfold coorl3. rewrite app_length, row3_length. f_equal. apply length_blocks. intros i _. now rewrite app_length, row3_length, mid3_length.
Qed.

Lemma coor3_spec : g_coor m = Ok coorl3.
Proof.
  pose proof n_pos as Hn. pose proof nL as HnL.
  unfold g_coor. rewrite layers_m3, (L_half n).
  rewrite (concatM_Ok _ (fun iy => if iy =? n - 1 then row3 iy else row3 iy ++ mid3 iy)).
  2:{ intros iy Hin. apply in_seq in Hin. rewrite (node_plane_spec iy iy) by (try lia; apply WN_low; lia). cbn [bind].
      destruct (iy =? n - 1); [reflexivity|]. rewrite node_mid3_spec by lia. reflexivity. }
  cbn [bind]. rewrite (concatM_Ok _ (fun iy => mid3 iy ++ row3 (iy + 1))).
  2:{ intros iy Hin. apply in_seq in Hin. rewrite node_mid3_spec by lia. cbn [bind].
      rewrite (node_plane_spec iy (iy + 1)) by (try lia; rewrite WN_up by lia; f_equal; lia). reflexivity. }
  cbn [bind].
  match goal with |- fill_rows _ ?l = _ => assert (E : l = coorl3) end.
  - rewrite seq_app, flat_map_app. cbn [seq flat_map Nat.add]. rewrite Nat.eqb_refl, app_nil_r.
    rewrite <- app_assoc, flat_map_shift. rewrite (flat_map_ext_in' _ (fun i => row3 i ++ mid3 i)).
    2:{ intros i Hi. apply in_seq in Hi. destruct (Nat.eqb_spec i (n - 1)); [lia|reflexivity]. }
    rewrite app_assoc, <- flat_map_app. change (n - 1) with (0 + (n - 1)) at 2. rewrite <- seq_app. unfold coorl3. do 3 f_equal; lia.
  - rewrite E. apply fill_rows_Ok. apply coorl3_length.
Qed.

(** *** positions of the nodes, in units of h *)
Definition pos3 (p a b c : nat) : Prop := nth_error coorl3 p = Some (rowc3 a b c).

Lemma SN3_S iy : SN (iy + 1) = SN iy + NN3 iy + NM3 iy.
Proof. rewrite Nat.add_1_r. unfold SN3. cbn [nsum]. lia. Qed.
Lemma blocks3 i : i < L -> length (row3 i ++ mid3 i) = NN3 i + NM3 i.
Proof. intros. now rewrite app_length, row3_length, mid3_length. Qed.
Lemma SN3_lt i j : i < j -> SN i + NN3 i + NM3 i <= SN j.
Proof. intros H. unfold SN3. pose proof (nsum_le (S i) j (fun k => NN3 k + NM3 k) H) as G. cbn [nsum] in G. lia. Qed.

Lemma pos3_row iy ix iz : iy <= L -> ix < NNx iy -> iz < NNz iy -> pos3 (SN iy + (ix + iz * NNx iy)) (WNx iy * ix) (Y iy) (WNz iy * iz).
Proof.
  intros Hi Hx Hz. unfold pos3, coorl3. rewrite (Nat.add_comm ix).
  assert (Lt : iz * NNx iy + ix < NN3 iy) by (unfold Proof_Hex8FineLayer.NN3; nia).
  destruct (Nat.eq_dec iy L) as [->|Hne].
  - rewrite nth_error_app2 by (rewrite (length_blocks _ _ _ blocks3); unfold SN3; lia). rewrite (length_blocks _ _ _ blocks3).
    fold (SN L). match goal with |- nth_error _ ?x = _ => replace x with (iz * NNx L + ix) by lia end. unfold row3. now rewrite nth_forin2.
  - rewrite nth_error_app1.
    + unfold SN3. rewrite (nth_blocks _ _ L iy _ blocks3) by lia. rewrite nth_error_app1 by (rewrite row3_length; lia). unfold row3. now rewrite nth_forin2.
    + rewrite (length_blocks _ _ _ blocks3). pose proof (SN3_lt iy L ltac:(lia)) as G. unfold SN3 in *. lia.
Qed.

Lemma pos3_mid iy q : iy < L -> q < NM3 iy -> nth_error coorl3 (SN iy + NN3 iy + q) = nth_error (mid3 iy) q.
Proof.
  intros Hi Hq. unfold coorl3. rewrite nth_error_app1.
  - unfold SN3. rewrite <- Nat.add_assoc, (nth_blocks _ _ L iy _ blocks3) by lia. rewrite nth_error_app2 by (rewrite row3_length; lia). rewrite row3_length. f_equal. lia.
  - rewrite (length_blocks _ _ _ blocks3). pose proof (SN3_lt iy L ltac:(lia)) as G. unfold SN3 in *. lia.
Qed.
Lemma div3 a s : a = 3 * s -> a / 3 = s.
Proof. intros ->. rewrite Nat.mul_comm, Nat.div_mul; lia. Qed.
Lemma div2 a s : a = 2 * s -> a / 2 = s.
Proof. intros ->. rewrite Nat.mul_comm, Nat.div_mul; lia. Qed.

Lemma pos3_midx iy j k iz s t : iy < L -> Rx iy = true -> j < NX iy -> k < 2 -> iz < NZ iy + 1 -> Wx iy = 3 * s -> Hy iy = 2 * t ->
  pos3 (SN iy + NN3 iy + ((2 * j + k) + iz * (2 * NX iy))) (Wx iy * j + s * (k + 1)) (Y iy + t) (Wz iy * iz).
Proof.
  intros Hi Hr Hj Hk Hz Ew Eh. unfold pos3. assert (M : NM3 iy = 2 * NX iy * (NZ iy + 1)) by (unfold Proof_Hex8FineLayer.NM3; now rewrite Hr).
  rewrite pos3_mid; [|assumption|rewrite M; nia]. unfold mid3. rewrite Hr. replace (2 * j + k + iz * (2 * NX iy)) with (iz * (NX iy * 2) + (j * 2 + k)) by lia.
  rewrite nth_forin3 by assumption. now rewrite (div3 _ _ Ew), (div2 _ _ Eh).
Qed.
Lemma pos3_midz iy j k ix s t : iy < L -> Rz iy = true -> j < NZ iy -> k < 2 -> ix < NX iy + 1 -> Wz iy = 3 * s -> Hy iy = 2 * t ->
  pos3 (SN iy + NN3 iy + (ix + (2 * j + k) * (NX iy + 1))) (Wx iy * ix) (Y iy + t) (Wz iy * j + s * (k + 1)).
Proof.
  intros Hi Hr Hj Hk Hx Ew Eh. unfold pos3. assert (Hr' : Rx iy = false) by (pose proof (not_both n r iy) as B; destruct (Rx iy); [rewrite (B eq_refl) in Hr; discriminate|reflexivity]).
  assert (M : NM3 iy = (NX iy + 1) * (2 * NZ iy)) by (unfold Proof_Hex8FineLayer.NM3; now rewrite Hr', Hr).
  rewrite pos3_mid; [|assumption|rewrite M; nia]. unfold mid3. rewrite Hr', Hr. replace (ix + (2 * j + k) * (NX iy + 1)) with (j * (2 * (NX iy + 1)) + (k * (NX iy + 1) + ix)) by lia.
  rewrite nth_forin3 by assumption. now rewrite (div3 _ _ Ew), (div2 _ _ Eh).
Qed.

(** *** every node *)
Inductive node_case3 (p : nat) : nat -> nat -> nat -> Prop :=
  | case3_row iy ix iz : iy <= L -> ix < NNx iy -> iz < NNz iy -> p = SN iy + (ix + iz * NNx iy) -> node_case3 p (WNx iy * ix) (Y iy) (WNz iy * iz)
  | case3_midx iy j k iz s t : iy < L -> Rx iy = true -> j < NX iy -> k < 2 -> iz < NZ iy + 1 -> 1 <= s -> 1 <= t -> Wx iy = 3 * s -> Hy iy = 2 * t ->
      p = SN iy + NN3 iy + ((2 * j + k) + iz * (2 * NX iy)) -> node_case3 p (Wx iy * j + s * (k + 1)) (Y iy + t) (Wz iy * iz)
  | case3_midz iy j k ix s t : iy < L -> Rz iy = true -> j < NZ iy -> k < 2 -> ix < NX iy + 1 -> 1 <= s -> 1 <= t -> Wz iy = 3 * s -> Hy iy = 2 * t ->
      p = SN iy + NN3 iy + (ix + (2 * j + k) * (NX iy + 1)) -> node_case3 p (Wx iy * ix) (Y iy + t) (Wz iy * j + s * (k + 1)).

Lemma node_case3_pos p a b c : node_case3 p a b c -> pos3 p a b c.
Proof. intros []; subst p; [now apply pos3_row|now apply pos3_midx|now apply pos3_midz]. Qed.

Lemma Wx_3 iy : iy < L -> Rx iy = true -> exists s, 1 <= s /\ Wx iy = 3 * s.
Proof. intros H Hr. destruct (WN_layer _ _ _ _ _ HX iy H) as [(E & _)|(_ & s & Hs & E & _)]; [congruence|eauto]. Qed.
Lemma Wz_3 iy : iy < L -> Rz iy = true -> exists s, 1 <= s /\ Wz iy = 3 * s.
Proof. intros H Hr. destruct (WN_layer _ _ _ _ _ HZ iy H) as [(E & _)|(_ & s & Hs & E & _)]; [congruence|eauto]. Qed.

Lemma split2 a b p : p < a * b -> exists i j, i < a /\ j < b /\ p = j + i * b.
Proof.
  intros H. assert (b <> 0) by lia. exists (p / b), (p mod b). pose proof (Nat.div_mod p b ltac:(lia)). pose proof (Nat.mod_upper_bound p b ltac:(lia)).
  repeat split; [|assumption|lia]. apply Nat.div_lt_upper_bound; lia.
Qed.

Lemma node_cases3 p : p < SN L + NN3 L -> exists a b c, node_case3 p a b c.
Proof.
  intros H. assert (Row : forall iy q, iy <= L -> q < NN3 iy -> p = SN iy + q -> exists a b c, node_case3 p a b c).
  { intros iy q Hi Hq E. unfold Proof_Hex8FineLayer.NN3 in Hq. rewrite Nat.mul_comm in Hq. destruct (split2 _ _ _ Hq) as (iz & ix & A1 & A2 & ->). do 3 eexists. now apply (case3_row p iy ix iz). }
  destruct (le_lt_dec (SN L) p) as [G|G].
  - apply (Row L (p - SN L)); lia.
  - destruct (blocks_split _ _ _ G) as (i & j & Hi & Hj & E). fold (SN i) in E. destruct (le_lt_dec (NN3 i) j) as [K|K]; [|apply (Row i j); lia].
    destruct (layer_kinds i Hi) as [Er1 Er2 _|t Er1 Er2 _ Ht Eh|t Er1 Er2 _ Ht Eh].
    + unfold Proof_Hex8FineLayer.NM3 in Hj. rewrite Er1, Er2 in Hj. lia.
    + unfold Proof_Hex8FineLayer.NM3 in Hj. rewrite Er1 in Hj. destruct (Wx_3 i Hi Er1) as (s & Hs & Ew).
      destruct (split2 (NZ i + 1) (NX i * 2) (j - NN3 i) ltac:(lia)) as (iz & q & A1 & A2 & A3). destruct (split2 (NX i) 2 q A2) as (ix & k & B1 & B2 & B3).
      do 3 eexists. apply (case3_midx p i ix k iz s t); auto; lia.
    + unfold Proof_Hex8FineLayer.NM3 in Hj. rewrite Er1, Er2 in Hj. destruct (Wz_3 i Hi Er2) as (s & Hs & Ew).
      destruct (split2 (NZ i * 2) (NX i + 1) (j - NN3 i) ltac:(lia)) as (q & ix & A1 & A2 & A3). destruct (split2 (NZ i) 2 q A1) as (iz & k & B1 & B2 & B3).
      do 3 eexists. apply (case3_midz p i iz k ix s t); auto; lia.
Qed.

Hypothesis Hh : (0 < h)%R.

Lemma rowc3_inj a b c a' b' c' : rowc3 a b c = rowc3 a' b' c' -> a = a' /\ b = b' /\ c = c'.
Proof. unfold rowc3. intros E. injection E as E1 E2 E3. apply Rmult_eq_reg_l in E1, E2, E3; try lra. repeat split; now apply INR_eq. Qed.

Lemma node_at3_pos p a b c : node_at3 coorl3 p a b c -> exists a' b' c', a = (h * INR a')%R /\ b = (h * INR b')%R /\ c = (h * INR c')%R /\ node_case3 p a' b' c'.
Proof.
  intros H. assert (Hp : p < length coorl3) by (eapply node_at3_lt; eassumption). rewrite coorl3_length in Hp.
  destruct (node_cases3 p Hp) as (a' & b' & c' & C). pose proof (node_case3_pos _ _ _ _ C) as G. unfold pos3, node_at3 in *. rewrite H in G. injection G as -> -> ->.
  now exists a', b', c'.
Qed.

Lemma Y_inj3 i j : i <= L -> j <= L -> Y i = Y j -> i = j.
Proof.
  intros Hi Hj E. destruct (lt_eq_lt_dec i j) as [[G| ->]|G]; [|reflexivity|].
  - pose proof (Y_lt n y i j G Hj). pose proof (Hy_pos3 i ltac:(lia)). lia.
  - pose proof (Y_lt n y j i G Hi). pose proof (Hy_pos3 j ltac:(lia)). lia.
Qed.
Lemma Y_inj_mid i j s t : i < L -> j < L -> 1 <= s < Hy i -> 1 <= t < Hy j -> Y i + s = Y j + t -> i = j.
Proof.
  intros Hi Hj Hs Ht E. destruct (lt_eq_lt_dec i j) as [[G|G]|G]; [|assumption|].
  - pose proof (Y_lt n y i j G ltac:(lia)). lia.
  - pose proof (Y_lt n y j i G ltac:(lia)). lia.
Qed.

Lemma case3_inj p p' a b c : node_case3 p a b c -> node_case3 p' a b c -> p = p'.
Proof.
  intros C C'.
  inversion C as [iy ix iz Hi Hx Hz E Ea Eb Ec|iy j k iz s t Hi Hr Hj Hk Hz Hs Ht Ew Eh E Ea Eb Ec|iy j k ix s t Hi Hr Hj Hk Hx Hs Ht Ew Eh E Ea Eb Ec];
  inversion C' as [iy' ix' iz' Hi' Hx' Hz' E' Ea' Eb' Ec'|iy' j' k' iz' s' t' Hi' Hr' Hj' Hk' Hz' Hs' Ht' Ew' Eh' E' Ea' Eb' Ec'|iy' j' k' ix' s' t' Hi' Hr' Hj' Hk' Hx' Hs' Ht' Ew' Eh' E' Ea' Eb' Ec'];
  try (exfalso; apply (Y_between n y iy' iy t'); lia); try (exfalso; apply (Y_between n y iy iy' t); lia).
  - assert (iy = iy') by (apply Y_inj3; auto; congruence). subst iy'. rewrite E, E'.
    destruct (WN_NN _ _ _ _ _ HX iy Hi) as (_ & _ & _ & _ & Hw). destruct (WN_NN _ _ _ _ _ HZ iy Hi) as (_ & _ & _ & _ & Hw').
    assert (ix = ix') by (apply (Nat.mul_cancel_l _ _ (WNx iy)); lia). assert (iz = iz') by (apply (Nat.mul_cancel_l _ _ (WNz iy)); lia). now subst.
  - assert (iy = iy') by (apply (Y_inj_mid iy iy' t t'); lia). subst iy'. assert (s' = s) by lia. subst s'. rewrite E, E'.
    assert (G : Wx iy * j + s * (k + 1) = Wx iy * j' + s * (k' + 1)) by congruence. rewrite Ew in G.
    assert (G' : 3 * j + k = 3 * j' + k') by nia. assert (j = j') by lia. assert (k = k') by lia.
    pose proof (W_pos _ _ _ _ _ HZ iy Hi). assert (iz = iz') by (apply (Nat.mul_cancel_l _ _ (Wz iy)); lia). now subst.
  - exfalso. assert (iy = iy') by (apply (Y_inj_mid iy iy' t t'); lia). subst iy'. pose proof (not_both n r iy Hr). congruence.
  - exfalso. assert (iy = iy') by (apply (Y_inj_mid iy iy' t t'); lia). subst iy'. pose proof (not_both n r iy Hr'). congruence.
  - assert (iy = iy') by (apply (Y_inj_mid iy iy' t t'); lia). subst iy'. assert (s' = s) by lia. subst s'. rewrite E, E'.
    assert (G : Wz iy * j + s * (k + 1) = Wz iy * j' + s * (k' + 1)) by congruence. rewrite Ew in G.
    assert (G' : 3 * j + k = 3 * j' + k') by nia. assert (j = j') by lia. assert (k = k') by lia.
    pose proof (W_pos _ _ _ _ _ HX iy Hi). assert (ix = ix') by (apply (Nat.mul_cancel_l _ _ (Wx iy)); lia). now subst.
Qed.

Lemma case3_bounds p a b c : node_case3 p a b c -> a <= nelx /\ b <= Y L /\ c <= nelz.
Proof.
  intros [iy ix iz Hi Hx Hz E|iy j k iz s t Hi Hr Hj Hk Hz Hs Ht Ew Eh E|iy j k ix s t Hi Hr Hj Hk Hx Hs Ht Ew Eh E].
  - destruct (WN_NN _ _ _ _ _ HX iy Hi) as (q & _ & Eq & E1 & _). destruct (WN_NN _ _ _ _ _ HZ iy Hi) as (q' & _ & Eq' & E1' & _).
    split; [|split; [now apply Y_mono|]]; [rewrite <- E1|rewrite <- E1']; apply Nat.mul_le_mono_l; lia.
  - pose proof (W_NX _ _ _ _ _ HX iy Hi) as E1. pose proof (W_NX _ _ _ _ _ HZ iy Hi) as E2. pose proof (Y_lt n y iy L Hi ltac:(lia)).
    split; [|split; [lia|]]; [rewrite <- E1, Ew; nia|rewrite <- E2; apply Nat.mul_le_mono_l; lia].
  - pose proof (W_NX _ _ _ _ _ HX iy Hi) as E1. pose proof (W_NX _ _ _ _ _ HZ iy Hi) as E2. pose proof (Y_lt n y iy L Hi ltac:(lia)).
    split; [|split; [lia|]]; [rewrite <- E1; apply Nat.mul_le_mono_l; lia|rewrite <- E2, Ew; nia].
Qed.

Lemma HFL_in_domain : in_domain3 coorl3 (h * INR nelx) (h * INR (Y L)) (h * INR nelz).
Proof.
  split; [|split].
  - intros p Hp. rewrite coorl3_length in Hp. destruct (node_cases3 p Hp) as (a & b & c & C). do 3 eexists. apply (node_case3_pos _ _ _ _ C).
  - intros p a b c H. destruct (node_at3_pos _ _ _ _ H) as (a' & b' & c' & -> & -> & -> & C). destruct (case3_bounds _ _ _ _ C) as (A & B & D).
    apply le_INR in A, B, D. pose proof (pos_INR a'). pose proof (pos_INR b'). pose proof (pos_INR c'). nra.
  - intros p p' a b c H H'. destruct (node_at3_pos _ _ _ _ H) as (a1 & b1 & c1 & E1 & E2 & E3 & C). destruct (node_at3_pos _ _ _ _ H') as (a2 & b2 & c2 & E4 & E5 & E6 & C').
    rewrite E1 in E4. rewrite E2 in E5. rewrite E3 in E6. apply Rmult_eq_reg_l in E4, E5, E6; try lra. apply INR_eq in E4, E5, E6. subst a2 b2 c2. eapply case3_inj; eassumption.
Qed.
End Mesh.
