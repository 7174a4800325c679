(** Quad4::FineLayer: [elementgrid_ravel]. *)
From Coq Require Import Reals ZArith Lra Sorted.
From Verif Require Import Base Spec Spec2d Spec_Tiling Spec_FineLayer Model_Numbering Model_Regular2d Model_FineLayer Proof_Vector Proof_Regular2d Proof_FineLayer Proof_FineLayerMesh Proof_FineLayerTiling Proof_FineLayerArea Proof_FineLayerBoundary Proof_FineLayerRoll Proof_FineLayerThm.

Lemma find_seq_first (p : nat -> bool) k : forall a i, find p (seq a k) = Some i -> a <= i < a + k /\ p i = true /\ forall j, a <= j < i -> p j = false.
Proof.
  induction k as [|k IH]; intros a i H; [discriminate H|]. cbn in H. destruct (p a) eqn:E.
  - injection H as <-. split; [lia|]. split; [exact E|]. intros; lia.
  - apply IH in H. destruct H as (A & B & C). split; [lia|]. split; [exact B|]. intros j Hj. destruct (Nat.eq_dec j a) as [->|]; [exact E|apply C; lia].
Qed.
Lemma argmax_spec p l i : i < length l -> p (nth i l 0) = true -> argmax p l <= i /\ p (nth (argmax p l) l 0) = true /\ forall j, j < argmax p l -> p (nth j l 0) = false.
Proof.
  intros Hi Hp. unfold argmax. destruct (find _ _) as [k|] eqn:E.
  - apply find_seq_first in E. destruct E as (A & B & C). split; [|split; [exact B|intros j Hj; apply C; lia]].
    destruct (le_lt_dec k i); [assumption|]. rewrite C in Hp by lia. discriminate.
  - exfalso. eapply find_none in E; [|apply in_seq; split; [apply Nat.le_0_l|exact Hi]]. cbn in E. congruence.
Qed.
Lemma argmax_unique p l i : i < length l -> p (nth i l 0) = true -> (forall j, j < i -> p (nth j l 0) = false) -> argmax p l = i.
Proof.
  intros Hi Hp Hn. destruct (argmax_spec p l i Hi Hp) as (A & B & C). destruct (Nat.eq_dec (argmax p l) i) as [|Hne]; [assumption|].
  rewrite Hn in B by lia. discriminate.
Qed.

Section Grid.
Variables (nelx n : nat) (w y : nat -> nat) (r : nat -> bool) (h : R).
Hypothesis HL : layered nelx n w y r.
Hypothesis Hh : (0 < h)%R.
Notation L := (L n).
Notation W := (W n w).
Notation Hy := (Hy n y).
Notation Rf := (Rf n r).
Notation NX := (NX nelx n w).
Notation NE := (NE nelx n w r).
Notation SE := (SE nelx n w r).
Notation Y := (Y n y).
Notation X := (coorl nelx n w y r h).
Notation C := (connl nelx n w r).
Notation m := (FL_of nelx n w y r h).
Notation sz := (sz n w r).
Notation tm := (tm n r).
Notation tl := (tl n r).
Notation elem_case := (elem_case nelx n w r).

Lemma cumsum_spec : cumsum (f_nhy m) = tab1 L (fun i => Y (i + 1)).
Proof.
  cbn [f_nhy FL_of]. unfold cumsum. rewrite tab1_len. apply map_ext_in. intros i Hi. apply in_seq in Hi. rewrite firstn_tab1 by lia. apply sum_tab1.
Qed.
Lemma nth_cumsum i : i < L -> nth i (tab1 L (fun i => Y (i + 1))) 0 = Y (i + 1).
Proof. intros H. unfold tab1. now rewrite nth_map_seq. Qed.
Lemma Y_le i j : i <= j -> Y i <= Y j.
Proof. apply nsum_le. Qed.

(** the layer of a row *)
Lemma row_layer t : t < Y L -> exists i, i < L /\ Y i <= t < Y (i + 1).
Proof.
  intros H. assert (forall k, t < Y k -> exists i, i < k /\ Y i <= t < Y (i + 1)) as Q.
  { induction k as [|k IH]; intros Hk; [unfold Proof_FineLayer.Y in Hk; cbn in Hk; lia|].
    destruct (le_lt_dec (Y k) t) as [G|G]; [exists k; rewrite Nat.add_1_r; lia|]. destruct (IH G) as (i & A & B). exists i. split; [lia|exact B]. }
  exact (Q L H).
Qed.
Lemma argmax_lo t i : i < L -> Y i <= t < Y (i + 1) -> argmax (fun x => t <? x) (cumsum (f_nhy m)) = i.
Proof.
  intros Hi Ht. rewrite cumsum_spec. apply argmax_unique; [now rewrite tab1_len|rewrite nth_cumsum by assumption; apply Nat.ltb_lt; lia|].
  intros j Hj. rewrite nth_cumsum by lia. apply Nat.ltb_ge. pose proof (Y_le (j + 1) i ltac:(lia)). lia.
Qed.
Lemma argmax_hi t i : i < L -> Y i < t <= Y (i + 1) -> argmax (fun x => t <=? x) (cumsum (f_nhy m)) = i.
Proof.
  intros Hi Ht. rewrite cumsum_spec. apply argmax_unique; [now rewrite tab1_len|rewrite nth_cumsum by assumption; apply Nat.leb_le; lia|].
  intros j Hj. rewrite nth_cumsum by lia. apply Nat.leb_gt. pose proof (Y_le (j + 1) i ltac:(lia)). lia.
Qed.

(** between two layers the blocks are at most as wide as in the widest of the two, and fit in it *)
Lemma W_fits a b i : a <= i <= b -> b < L -> exists k, 1 <= k /\ Nat.max (W a) (W b) = k * W i.
Proof.
  intros Hi Hb. assert (D : exists c, (c = a \/ c = b) /\ dist n i <= dist n c /\ forall c', c' = a \/ c' = b -> dist n c' <= dist n c).
  { assert (Dec : forall c, dist n c = if c <? n then n - 1 - c else c - (n - 1)).
    { intros c. unfold dist. destruct (Nat.ltb_spec c n); lia. }
    destruct (le_lt_dec (dist n a) (dist n b)).
    - exists b. split; [now right|]. split; [|intros c' [->| ->]; lia]. revert l. rewrite !Dec. destruct (Nat.ltb_spec a n), (Nat.ltb_spec b n), (Nat.ltb_spec i n); lia.
    - exists a. split; [now left|]. split; [|intros c' [->| ->]; lia]. revert l. rewrite !Dec. destruct (Nat.ltb_spec a n), (Nat.ltb_spec b n), (Nat.ltb_spec i n); lia. }
  destruct D as (c & Hc & D1 & D2). assert (HcL : c < L) by (destruct Hc; lia).
  assert (M : forall i', dist n i' <= dist n c -> exists k, 1 <= k /\ W c = k * W i').
  { intros i' Hd. destruct (w_multiple _ _ _ _ _ HL (dist n i') (dist n c) Hd (dist_lt _ _ _ _ _ HL c HcL)) as [q E]. exists q. fold (W c) (W i') in E.
    pose proof (W_pos _ _ _ _ _ HL c HcL). split; [|lia]. destruct q; lia. }
  replace (Nat.max (W a) (W b)) with (W c); [now apply M|].
  assert (W a <= W c /\ W b <= W c) as [A B].
  { split; [destruct (M a (D2 a (or_introl eq_refl))) as (k & H1 & ->)|destruct (M b (D2 b (or_intror eq_refl))) as (k & H1 & ->)]; nia. }
  destruct Hc as [-> | ->]; lia.
Qed.

Lemma layer_sorted : forall f len, (forall i, f i = map (fun k => SE i + fst (len i) + k) (seq 0 (snd (len i)))) ->
  (forall i, fst (len i) + snd (len i) <= NE i) -> forall k a, StronglySorted lt (flat_map f (seq a k)).
Proof.
  intros f len Hf Hl. induction k as [|k IH]; intros a; [constructor|]. cbn [seq flat_map].
  assert (A : forall x, In x (f a) -> x < SE (S a)).
  { intros x Hx. rewrite Hf in Hx. apply in_map_iff in Hx. destruct Hx as (j & <- & Hj). apply in_seq in Hj. unfold Proof_FineLayer.SE. cbn [nsum]. specialize (Hl a). lia. }
  assert (B : forall x, In x (flat_map f (seq (S a) k)) -> SE (S a) <= x).
  { intros x Hx. apply in_flat_map in Hx. destruct Hx as (i & Hi & Hx). apply in_seq in Hi. rewrite Hf in Hx. apply in_map_iff in Hx. destruct Hx as (j & <- & _).
    pose proof (nsum_le (S a) i NE ltac:(lia)). unfold Proof_FineLayer.SE. lia. }
  assert (Sa : StronglySorted lt (f a)).
  { rewrite Hf. generalize (SE a + fst (len a)) as b. intros b. clear. generalize 0 as s. induction (snd (len a)) as [|k IH]; intros s; [constructor|]. cbn [seq map]. constructor; [apply IH|].
    apply Forall_forall. intros x Hx. apply in_map_iff in Hx. destruct Hx as (j & <- & Hj). apply in_seq in Hj. lia. }
  induction Sa as [|x l Sl IHl Fx]; [apply IH|]. cbn [app]. constructor.
  - apply IHl. intros z Hz. apply A. now right.
  - apply Forall_app. split; [exact Fx|]. apply Forall_forall. intros z Hz. apply B in Hz. specialize (A x ltac:(now left)). lia.
Qed.

(** corners of an element on all sides of the middle of its block *)
Lemma tm_extent iy T : In T (tm iy) -> (exists t, In t (tcorners T) /\ 0 < fst t) /\ (exists t, In t (tcorners T) /\ fst t < bw (tm iy)) /\
  (exists t, In t (tcorners T) /\ 0 < snd t) /\ (exists t, In t (tcorners T) /\ snd t < bh (tm iy)).
Proof.
  destruct (tm_kinds n r iy) as [E|[E|E]]; rewrite E; cbn [lows ups In]; intros H; repeat (destruct H as [<-|H]); try destruct H;
  cbn [tcorners sq bw bh]; repeat split;
  first [ eexists; split; [left; reflexivity|cbn; lia] | eexists; split; [right; left; reflexivity|cbn; lia]
        | eexists; split; [right; right; left; reflexivity|cbn; lia] | eexists; split; [right; right; right; left; reflexivity|cbn; lia] ].
Qed.
Lemma tm_bounds iy T t : In T (tm iy) -> In t (tcorners T) -> fst t <= bw (tm iy) /\ snd t <= bh (tm iy).
Proof.
  destruct (tm_kinds n r iy) as [E|[E|E]]; rewrite E; cbn [lows ups In]; intros H; repeat (destruct H as [<-|H]); try destruct H;
  cbn [tcorners sq In]; intros H; repeat (destruct H as [<-|H]); try destruct H; cbn; lia.
Qed.

Lemma within_iff e iy ix T E x0 x1 a b : elem_case e iy ix T -> nth_error C e = Some E -> (exists k0, x0 = W iy * k0) -> (exists k1, x1 = W iy * k1) -> a <= b <= L ->
  (element_within X E (h * INR x0) (h * INR x1) (h * INR (Y a)) (h * INR (Y b)) <-> x0 <= W iy * ix /\ W iy * (ix + 1) <= x1 /\ a <= iy /\ iy + 1 <= b).
Proof.
  intros K HE [k0 ->] [k1 ->] Hab. destruct (elem_quad _ _ _ _ _ h HL _ _ _ _ K) as (E' & HE' & _ & Q1 & Q2). rewrite HE in HE'. injection HE' as <-.
  assert (Hi : iy < L) by now destruct K. assert (HT : In T (tm iy)) by (destruct K as [k _ _ Hk _]; now apply nth_error_In in Hk).
  destruct (block_size nelx n w y r HL iy Hi) as (S1 & S2 & S3).
  assert (EY : Y (iy + 1) = Y iy + Hy iy) by (rewrite Nat.add_1_r; reflexivity).
  assert (P : forall p t, corner nelx n w y r p iy ix t -> node_at X p (h * INR (W iy * ix + sz iy * fst t)) (h * INR (Y iy + sz iy * snd t))).
  { intros p t Hc. apply (corner_at _ _ _ _ _ h) in Hc. unfold px, py in Hc. rewrite !plus_INR, (mult_INR (sz iy)), (mult_INR (sz iy) (snd t)). exact Hc. }
  assert (le_h : forall i j, (h * INR i <= h * INR j)%R <-> i <= j).
  { intros i j. split; intros Q; [|apply Rmult_le_compat_l; [lra|now apply le_INR]]. apply INR_le. now apply (Rmult_le_reg_l h). }
  split.
  - intros Hw. destruct (tm_extent iy T HT) as ((t1 & A1 & B1) & (t2 & A2 & B2) & (t3 & A3 & B3) & (t4 & A4 & B4)).
    assert (V : forall t, In t (tcorners T) -> W iy * k0 <= W iy * ix + sz iy * fst t <= W iy * k1 /\ Y a <= Y iy + sz iy * snd t <= Y b).
    { intros t Ht. destruct (Q1 t Ht) as (p & Hp & Hc). specialize (Hw p _ _ Hp (P p t Hc)). rewrite !le_h in Hw. exact Hw. }
    pose proof (V t1 A1) as [V1 _]. pose proof (V t2 A2) as [V2 _]. pose proof (V t3 A3) as [_ V3]. pose proof (V t4 A4) as [_ V4].
    assert (Wp : 1 <= W iy) by now apply (W_pos _ _ _ _ _ HL).
    assert (k0 <= ix).
    { assert (W iy * k0 < W iy * (ix + 1)) by (apply Nat.le_lt_trans with (W iy * ix + sz iy * fst t2); [lia|]; rewrite Nat.mul_add_distr_l, S2 at 1; nia). nia. }
    assert (ix + 1 <= k1).
    { assert (W iy * ix < W iy * k1) by nia. nia. }
    repeat split; try nia.
    + destruct (le_lt_dec a iy); [assumption|]. pose proof (Y_le (iy + 1) a ltac:(lia)). assert (sz iy * snd t4 < Hy iy) by (rewrite S3; nia). lia.
    + destruct (le_lt_dec (iy + 1) b); [assumption|]. pose proof (Y_le b iy ltac:(lia)). assert (0 < sz iy * snd t3) by nia. lia.
  - intros (H1 & H2 & H3 & H4) p px' py' Hp Hpos. destruct (Q2 p Hp) as (t & Ht & Hc). destruct (node_at_fun _ _ _ _ _ _ (P p t Hc) Hpos) as [<- <-]. rewrite !le_h.
    destruct (tm_bounds iy T t HT Ht) as [Hu Hv]. pose proof (Y_le a iy H3). pose proof (Y_le (iy + 1) b H4). rewrite S2 in *. rewrite S3 in EY. nia.
Qed.

Lemma ravel_spec r0 r1 c0 c1 : r0 < r1 <= Y L -> c0 < c1 <= nelx -> exists ret yl yu,
  elementgrid_ravel m (Some (r0, r1)) (Some (c0, c1)) = Ok ret /\
  yl <= yu < L /\ Y yl <= r0 < Y (yl + 1) /\ Y yu < r1 <= Y (yu + 1) /\ StronglySorted lt ret /\ (forall e, In e ret -> e < SE L) /\
  let hx := Nat.max (W yl) (W yu) in
  forall e E, nth_error C e = Some E ->
    (In e ret <-> element_within X E (h * INR (c0 / hx * hx)) (h * INR (c1 / hx * hx)) (h * INR (Y yl)) (h * INR (Y (yu + 1)))).
Proof.
  intros Hr Hc. destruct (row_layer r0 ltac:(lia)) as (yl & Hl & El). destruct (row_layer (r1 - 1) ltac:(lia)) as (yu & Hu & Eu).
  assert (Hlu : yl <= yu) by (destruct (le_lt_dec yl yu); [assumption|]; pose proof (Y_le (yu + 1) yl ltac:(lia)); lia).
  set (hx := Nat.max (W yl) (W yu)). pose proof (W_pos _ _ _ _ _ HL yl Hl) as Pl. assert (Hhx : 1 <= hx) by (subst hx; lia).
  set (a := c0 / hx). set (b := c1 / hx).
  assert (Ea : (c0 - c0 mod hx) / hx = a).
  { pose proof (Nat.div_mod c0 hx ltac:(lia)). replace (c0 - c0 mod hx) with (a * hx) by (subst a; lia). apply Nat.div_mul. lia. }
  assert (Eb : (c1 - c1 mod hx) / hx = b).
  { pose proof (Nat.div_mod c1 hx ltac:(lia)). replace (c1 - c1 mod hx) with (b * hx) by (subst b; lia). apply Nat.div_mul. lia. }
  assert (Hab : a <= b) by (apply Nat.div_le_mono; lia).
  assert (Hbx : b * hx <= nelx) by (pose proof (Nat.div_mod c1 hx ltac:(lia)); subst b; lia).
  set (q := fun i => hx / W i).
  assert (Q : forall i, yl <= i <= yu -> hx = q i * W i /\ 1 <= q i).
  { intros i Hi. destruct (W_fits yl yu i Hi Hu) as (k & H1 & E). fold hx in E. unfold q. rewrite E. rewrite Nat.div_mul by (pose proof (W_pos _ _ _ _ _ HL i ltac:(lia)); lia). split; [reflexivity|assumption]. }
  set (f := fun i => if (yl <=? i) && (i <=? yu) then map (fun k => SE i + a * q i * tl i + k) (seq 0 ((b - a) * q i * tl i)) else []).
  assert (ER : elementgrid_ravel m (Some (r0, r1)) (Some (c0, c1)) = Ok (flat_map f (seq yl (yu + 1 - yl)))).
  { unfold elementgrid_ravel. cbn [fst snd]. destruct (Nat.eqb_spec r0 r1); [lia|]. destruct (Nat.eqb_spec c0 c1); [lia|]. cbn [orb].
    assert (E1 : (if 0 <? r0 then argmax (fun x => r0 <? x) (cumsum (f_nhy m)) else 0) = yl).
    { destruct (Nat.ltb_spec 0 r0); [now apply argmax_lo|]. destruct (Nat.eq_dec yl 0) as [|Hn0]; [congruence|].
      pose proof (Y_le 1 yl ltac:(lia)) as Q1. pose proof (Hy_pos _ _ _ _ _ HL 0 ltac:(lia)) as Q2. unfold Proof_FineLayer.Y in Q1 at 1. cbn [nsum] in Q1. lia. }
    rewrite E1, (argmax_hi r1 yu) by lia. cbn [f_nhx FL_of]. rewrite !tab1_get by lia. cbn [bind]. fold hx. rewrite Ea, Eb.
    unfold usub. destruct (Nat.ltb_spec b a); [lia|]. cbn [bind]. unfold arange. apply concatM_Ok. intros i Hi. apply in_seq in Hi.
    cbn [f_nhx f_refine f_startElem FL_of]. rewrite !tab1_get by lia. cbn [bind]. destruct (Q i ltac:(lia)) as [Q1 Q2].
    pose proof (W_pos _ _ _ _ _ HL i ltac:(lia)) as Wp.
    unfold f. destruct (Nat.leb_spec yl i); [|lia]. destruct (Nat.leb_spec i yu); [|lia]. cbn [andb].
    assert (D1 : (b - a) * hx / W i = (b - a) * q i) by (rewrite Q1, Nat.mul_assoc, Nat.div_mul by lia; reflexivity).
    unfold tl, Proof_FineLayerMesh.tm, Zr. rewrite D1. destruct (Rf i); cbn [Z.eqb Pos.eqb].
    - replace (length (if i <? n then lows else ups)) with 4 by (destruct (i <? n); reflexivity).
      replace (a * (hx * 4) / W i) with (a * q i * 4); [reflexivity|]. rewrite Q1. replace (a * (q i * W i * 4)) with (a * q i * 4 * W i) by lia. now rewrite Nat.div_mul by lia.
    - cbn [length]. rewrite !Nat.mul_1_r. replace (a * hx / W i) with (a * q i); [reflexivity|]. rewrite Q1, Nat.mul_assoc, Nat.div_mul by lia. reflexivity. }
  assert (NXq : forall i, yl <= i <= yu -> b * q i <= NX i).
  { intros i Hi. destruct (Q i Hi) as [Q1 _]. pose proof (W_NX _ _ _ _ _ HL i ltac:(lia)) as E. pose proof (W_pos _ _ _ _ _ HL i ltac:(lia)). rewrite Q1, <- E in Hbx. nia. }
  exists (flat_map f (seq yl (yu + 1 - yl))), yl, yu. split; [exact ER|]. split; [lia|]. split; [lia|]. split; [lia|]. split.
  - apply (layer_sorted f (fun i => if (yl <=? i) && (i <=? yu) then (a * q i * tl i, (b - a) * q i * tl i) else (0, 0))).
    + intros i. unfold f. destruct ((yl <=? i) && (i <=? yu)); reflexivity.
    + intros i. destruct (Nat.leb_spec yl i); cbn [andb]; [|cbn; lia]. destruct (Nat.leb_spec i yu); cbn [andb fst snd]; [|lia].
      rewrite NE_tl. specialize (NXq i ltac:(lia)). rewrite <- !Nat.mul_add_distr_r. replace (a + (b - a)) with b by lia. apply Nat.mul_le_mono_r. exact NXq.
  - split.
    { intros e He. apply in_flat_map in He. destruct He as (i & Hi & He). apply in_seq in Hi. unfold f in He. destruct (Nat.leb_spec yl i); [|lia]. destruct (Nat.leb_spec i yu); [|lia]. cbn [andb] in He.
      apply in_map_iff in He. destruct He as (k & <- & Hk). apply in_seq in Hk. specialize (NXq i ltac:(lia)). pose proof (nsum_le (S i) L NE ltac:(lia)) as Q1. cbn [nsum] in Q1. unfold Proof_FineLayer.SE.
      assert (a * q i * tl i + (b - a) * q i * tl i <= NE i).
      { rewrite <- !Nat.mul_add_distr_r. replace (a + (b - a)) with b by lia. rewrite NE_tl. apply Nat.mul_le_mono_r. exact NXq. }
      lia. }
    intros hx' e E HE. subst hx'. fold hx a b.
    assert (He : e < SE L) by (rewrite <- (C_length nelx n w r); apply nth_error_Some; congruence).
    destruct (elem_cases nelx n w r e He) as (iy & ix & T & K).
    assert (Hi : iy < L) by now destruct K. pose proof (W_pos _ _ _ _ _ HL iy Hi) as Wp.
    assert (IN : In e (flat_map f (seq yl (yu + 1 - yl))) <-> (yl <= iy <= yu /\ a * q iy <= ix < b * q iy)).
    { destruct K as [j _ Hx Hj Ee]. fold (tl iy) in Ee. assert (Hjl : j < tl iy) by (apply nth_error_Some; unfold Proof_FineLayerRoll.tl; congruence). rewrite in_flat_map. split.
      - intros (i & Hin & Hf). apply in_seq in Hin. unfold f in Hf. destruct (Nat.leb_spec yl i); [|lia]. destruct (Nat.leb_spec i yu); [|lia]. cbn [andb] in Hf.
        apply in_map_iff in Hf. destruct Hf as (k & Ek & Hk). apply in_seq in Hk. specialize (NXq i ltac:(lia)).
        destruct (blocks_inj NE iy (ix * tl iy + j) i (a * q i * tl i + k)) as [Q1 Q2].
        + rewrite NE_tl. nia.
        + rewrite NE_tl. assert (a * q i * tl i + k < b * q i * tl i) by nia. nia.
        + fold (SE iy) (SE i). lia.
        + subst i. split; [lia|]. split; nia.
      - intros (H1 & H2). exists iy. split; [apply in_seq; lia|]. unfold f. destruct (Nat.leb_spec yl iy); [|lia]. destruct (Nat.leb_spec iy yu); [|lia]. cbn [andb].
        apply in_map_iff. exists ((ix - a * q iy) * tl iy + j). rewrite Nat.mul_sub_distr_r. split; [rewrite Ee; nia|]. apply in_seq. nia. }
    rewrite IN. split.
    + intros [H1 H2]. destruct (Q iy H1) as [Q1 Q2]. apply (within_iff e iy ix T E _ _ yl (yu + 1) K HE).
      * exists (a * q iy). rewrite Q1. lia.
      * exists (b * q iy). rewrite Q1. lia.
      * lia.
      * rewrite Q1. repeat split; nia.
    + intros Hw.
      (* first the layer: the horizontal extent of the window does not matter for it *)
      assert (Hlay : yl <= iy /\ iy + 1 <= yu + 1).
      { assert (Hw' : element_within X E (h * INR 0) (h * INR nelx) (h * INR (Y yl)) (h * INR (Y (yu + 1)))).
        { intros p x z Hp Hpos. destruct (Hw p x z Hp Hpos) as [[B1 B2] B3]. split; [|exact B3]. split.
          - cbn [INR]. rewrite Rmult_0_r. pose proof (pos_INR (a * hx)). nra.
          - apply Rle_trans with (1 := B2). apply Rmult_le_compat_l; [lra|now apply le_INR]. }
        apply (within_iff e iy ix T E 0 nelx yl (yu + 1) K HE) in Hw'; [lia| | |lia].
        - exists 0. lia.
        - exists (NX iy). symmetry. now apply (W_NX _ _ _ _ _ HL). }
      destruct (Q iy ltac:(lia)) as [Q1 Q2]. apply (within_iff e iy ix T E _ _ yl (yu + 1) K HE) in Hw.
      * rewrite Q1 in Hw. split; [lia|]. split; nia.
      * exists (a * q iy). rewrite Q1. lia.
      * exists (b * q iy). rewrite Q1. lia.
      * lia.
Qed.
End Grid.

Lemma sorted_unique : forall l l', StronglySorted lt l -> StronglySorted lt l' -> (forall x : nat, In x l <-> In x l') -> l = l'.
Proof.
  induction l as [|a l IH]; intros l' H H' E; [destruct l' as [|b l']; [reflexivity|]; exfalso; apply (proj2 (E b)); now left|].
  destruct l' as [|b l']; [exfalso; apply (proj1 (E a)); now left|]. apply StronglySorted_inv in H, H'. destruct H as [S F], H' as [S' F'].
  rewrite Forall_forall in F, F'.
  assert (a = b).
  { destruct (proj1 (E a) (or_introl eq_refl)) as [|Ha]; [now symmetry|]. destruct (proj2 (E b) (or_introl eq_refl)) as [|Hb]; [assumption|]. apply F' in Ha. apply F in Hb. lia. }
  subst b. f_equal. apply IH; auto. intros x. split; intros Hx.
  - destruct (proj1 (E x) (or_intror Hx)) as [<-|]; [|assumption]. apply F in Hx. lia.
  - destruct (proj2 (E x) (or_intror Hx)) as [<-|]; [|assumption]. apply F' in Hx. lia.
Qed.
Lemma seq_sorted k : forall a, StronglySorted lt (seq a k).
Proof. induction k as [|k IH]; intros a; cbn; constructor; [apply IH|]. apply Forall_forall. intros x Hx. apply in_seq in Hx. lia. Qed.

Section Init.
Variables (nelx nely nfine : nat) (h : R) (m : FineLayer).
Hypothesis Hx : 1 <= nelx.
Hypothesis Hy1 : 1 <= nely.
Hypothesis E : FineLayer_init nelx nely h nfine = Some (Ok m).

Lemma T_ravel : (0 < h)%R -> exists X C, f_coor m = Ok X /\ f_conn m = Ok C /\
  forall r0 r1 c0 c1, r0 < r1 <= f_nely m -> c0 < c1 <= nelx ->
  exists ret yl yu wl wu, elementgrid_ravel m (Some (r0, r1)) (Some (c0, c1)) = Ok ret /\
    nth_error (f_nhx m) yl = Some wl /\ nth_error (f_nhx m) yu = Some wu /\
    total (firstn yl (f_nhy m)) <= r0 < total (firstn (yl + 1) (f_nhy m)) /\
    total (firstn yu (f_nhy m)) < r1 <= total (firstn (yu + 1) (f_nhy m)) /\
    StronglySorted lt ret /\ (forall e, In e ret -> e < f_nelem m) /\
    let hx := Nat.max wl wu in
    forall e Ee, nth_error C e = Some Ee ->
      (In e ret <-> element_within X Ee (h * INR (c0 / hx * hx)) (h * INR (c1 / hx * hx))
                      (h * INR (total (firstn yl (f_nhy m)))) (h * INR (total (firstn (yu + 1) (f_nhy m))))).
Proof.
  intros Hh. destruct (the_mesh _ _ _ _ _ Hx Hy1 E) as (n & w & y & r & -> & G). pose proof (g_layered _ _ _ _ _ _ _ G) as HL.
  exists (coorl nelx n w y r h), (connl nelx n w r). split; [now apply coor_spec|]. split; [now apply conn_spec|].
  intros r0 r1 c0 c1. rewrite (nely_spec nelx n w y r h). intros Hr Hc. destruct (ravel_spec nelx n w y r h HL Hh r0 r1 c0 c1 Hr Hc) as (ret & yl & yu & E1 & E2 & E3 & E4 & E5 & E6 & E7).
  exists ret, yl, yu, (W n w yl), (W n w yu). split; [exact E1|]. cbn [f_nhx f_nhy f_nelem FL_of]. rewrite !tab1_nth_error by lia. rewrite !firstn_tab1 by lia. unfold total. rewrite !sum_tab1.
  split; [reflexivity|]. split; [reflexivity|]. split; [exact E3|]. split; [exact E4|]. split; [exact E5|]. split; [exact E6|]. exact E7.
Qed.

Lemma T_ravel_empty : forall r c, (exists a, r = Some (a, a)) \/ (exists a, c = Some (a, a)) -> elementgrid_ravel m r c = Ok [].
Proof.
  intros r c H. unfold elementgrid_ravel. destruct H as [[a ->]|[a ->]]; cbn [fst snd]; rewrite Nat.eqb_refl; cbn [orb]; [reflexivity|]. now rewrite orb_true_r.
Qed.

Lemma T_ravel_all : elementgrid_ravel m None None = Ok (seq 0 (f_nelem m)) /\
  (forall r, elementgrid_ravel m r None = elementgrid_ravel m r (Some (0, nelx))) /\
  (forall c, elementgrid_ravel m None c = elementgrid_ravel m (Some (0, f_nely m)) c).
Proof.
  destruct (the_mesh _ _ _ _ _ Hx Hy1 E) as (n & w & y & r & -> & G). pose proof (g_layered _ _ _ _ _ _ _ G) as HL. pose proof (n_L _ _ _ _ _ HL) as HnL.
  assert (EX := nelx_spec _ _ _ _ _ _ _ h G).
  split; [|split; intros; unfold elementgrid_ravel; now rewrite ?EX].
  replace (elementgrid_ravel (FL_of nelx n w y r h) None None) with (elementgrid_ravel (FL_of nelx n w y r h) (Some (0, Y n y (L n))) (Some (0, nelx)))
    by (unfold elementgrid_ravel; now rewrite EX, (nely_spec nelx n w y r h)).
  (* the result does not depend on h *)
  replace (elementgrid_ravel (FL_of nelx n w y r h) (Some (0, Y n y (L n))) (Some (0, nelx))) with (elementgrid_ravel (FL_of nelx n w y r 1) (Some (0, Y n y (L n))) (Some (0, nelx))) by reflexivity.
  assert (PY : 0 < Y n y (L n)) by (pose proof (Y_half _ _ _ _ _ _ _ G); pose proof (Y_mid _ _ _ _ _ _ _ G); lia).
  destruct (ravel_spec nelx n w y r 1 HL ltac:(lra) 0 (Y n y (L n)) 0 nelx ltac:(lia) ltac:(lia)) as (ret & yl & yu & E1 & E2 & E3 & E4 & E5 & E6 & E7).
  rewrite E1. f_equal. apply sorted_unique; [exact E5|apply seq_sorted|]. intros e. rewrite in_seq. cbn [f_nelem FL_of]. split; [intros He; apply E6 in He; lia|].
  intros [_ He]. cbn [Nat.add] in He.
  assert (yl = 0).
  { destruct (Nat.eq_dec yl 0) as [|Hn0]; [assumption|]. pose proof (nsum_le 1 yl (Hy n y) ltac:(lia)) as Q1. pose proof (Hy_pos _ _ _ _ _ HL 0 ltac:(lia)) as Q2. unfold Y in *. cbn [nsum] in Q1. lia. }
  assert (EU : yu + 1 = L n).
  { destruct (Nat.eq_dec (yu + 1) (L n)) as [|Hne]; [assumption|]. pose proof (nsum_le (yu + 1) (L n - 1) (Hy n y) ltac:(lia)) as Q1. pose proof (Hy_pos _ _ _ _ _ HL (L n - 1) ltac:(lia)) as Q2.
    assert (Q3 : Y n y (L n) = Y n y (L n - 1) + Hy n y (L n - 1)) by (replace (L n) with (S (L n - 1)) at 1 by lia; reflexivity). unfold Y in *. lia. }
  subst yl. destruct (nth_error (connl nelx n w r) e) as [Ee|] eqn:HE; [|apply nth_error_None in HE; rewrite C_length in HE; lia].
  apply (E7 e Ee HE). intros p x z Hp Hpos. rewrite EU.
  pose proof (FL_in_domain _ _ _ _ _ 1 HL ltac:(lra)) as (_ & D & _). destruct (D p x z Hpos) as [D1 D2].
  assert (W1 : Nat.max (W n w 0) (W n w yu) = W n w 0).
  { replace (W n w yu) with (W n w 0); [lia|]. unfold W. replace yu with (L n - 1 - 0) by lia. rewrite dist_sym by lia. reflexivity. }
  rewrite W1. pose proof (W_NX _ _ _ _ _ HL 0 ltac:(lia)) as EW. pose proof (W_pos _ _ _ _ _ HL 0 ltac:(lia)) as PW.
  rewrite Nat.div_0_l by lia. replace (nelx / W n w 0 * W n w 0) with nelx by (change (nelx / W n w 0) with (NX nelx n w 0); lia).
  unfold Y at 1. cbn [nsum INR Nat.mul]. rewrite Rmult_0_r. split; [exact D1|exact D2].
Qed.
End Init.
