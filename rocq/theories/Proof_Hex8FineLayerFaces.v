(** Hex8::FineLayer: the node sets on the boundary, by position. *)
From Coq Require Import Reals ZArith Lra.
From Verif Require Import Base Spec Spec3d Model_Numbering Model_Regular2d Model_FineLayer Model_Hex8Regular Model_Hex8FineLayer
  Proof_Vector Proof_Regular2d Proof_Hex8Regular Proof_FineLayer Proof_FineLayerMesh Proof_FineLayerThm Proof_Hex8FineLayer Proof_Hex8FineLayerMesh Proof_Hex8FineLayerElem Proof_Hex8FineLayerSides.

(** ** one direction: the nodes of a side are determined by their position along the side and their height *)
Section Dir.
Variables (nel n : nat) (w v y : nat -> nat) (rr : nat -> bool).
Hypothesis HD : layered nel n w v rr.
Hypothesis Hpos : forall iy, iy < L n -> 1 <= Hy n y iy.
Hypothesis Heven : forall iy, iy < L n -> Rf n rr iy = true -> exists t, 1 <= t /\ Hy n y iy = 2 * t.
Notation W := (W n w).
Notation WN := (WN n w).
Notation Hy := (Hy n y).
Notation Y := (Y n y).
Notation NX := (NX nel n w).
Notation cnt := (NN nel n w).
Notation Rf := (Rf n rr).
Notation L := (L n).
Definition mcd (iy : nat) : nat := if Rf iy then 2 * NX iy else 0.
Definition along (x : idx) : nat := match x with Row k i => WN k * i | Mid iy q => W iy * (q / 2) + W iy / 3 * (q mod 2 + 1) end.
Definition height (x : idx) : nat := match x with Row k _ => Y k | Mid iy _ => Y iy + Hy iy / 2 end.
Definition wfi (x : idx) : Prop := match x with Row k i => k <= L /\ i < cnt k | Mid iy q => iy < L /\ q < mcd iy end.

Lemma mid_facts iy q : iy < L -> q < mcd iy -> exists s t, 1 <= s /\ 1 <= t /\ W iy = 3 * s /\ W iy / 3 = s /\ Hy iy = 2 * t /\ Hy iy / 2 = t /\ q < 2 * NX iy /\ q / 2 < NX iy /\ q mod 2 < 2 /\ q = 2 * (q / 2) + q mod 2.
Proof.
  intros Hi Hq. unfold mcd in Hq. destruct (Rf iy) eqn:E; [|lia]. destruct (Heven iy Hi E) as (t & Ht & Et).
  destruct (WN_layer _ _ _ _ _ HD iy Hi) as [(E' & _)|(_ & s & Hs & Es & _)]; [congruence|]. exists s, t.
  pose proof (Nat.div_mod q 2 ltac:(lia)). pose proof (Nat.mod_upper_bound q 2 ltac:(lia)).
  repeat split; auto using div3, div2; lia.
Qed.
Lemma cnt_pos k : k <= L -> 2 <= cnt k.
Proof. intros H. destruct (WN_NN _ _ _ _ _ HD k H) as (j & A1 & A2 & _). lia. Qed.
Lemma WN_pos k : k <= L -> 1 <= WN k.
Proof. intros H. destruct (WN_NN _ _ _ _ _ HD k H) as (j & _ & _ & _ & A). exact A. Qed.
Lemma WN_end k : k <= L -> WN k * (cnt k - 1) = nel.
Proof. intros H. destruct (WN_NN _ _ _ _ _ HD k H) as (j & A1 & A2 & A3 & _). rewrite A2, Nat.add_sub. exact A3. Qed.

Lemma YL_mono i j : i <= j -> Y i <= Y j.
Proof. apply Y_mono. Qed.
Lemma YL_lt i j : i < j -> j <= L -> Y i < Y j.
Proof. intros H H'. pose proof (Y_lt n y i j H H'). pose proof (Hpos i ltac:(lia)). lia. Qed.
Lemma YL_inj i j : i <= L -> j <= L -> Y i = Y j -> i = j.
Proof. intros Hi Hj E. destruct (lt_eq_lt_dec i j) as [[G|G]|G]; [|assumption|]; [pose proof (YL_lt i j G Hj)|pose proof (YL_lt j i G Hi)]; lia. Qed.
Lemma Y_next iy : Y (iy + 1) = Y iy + Hy iy.
Proof. rewrite Nat.add_1_r. reflexivity. Qed.
Lemma mid_height iy q : iy < L -> q < mcd iy -> Y iy < height (Mid iy q) < Y (iy + 1).
Proof. intros Hi Hq. destruct (mid_facts iy q Hi Hq) as (s & t & _ & Ht & _ & _ & E1 & E2 & _). cbn [height]. rewrite Y_next. lia. Qed.

Lemma wfi_inj x x' : wfi x -> wfi x' -> along x = along x' -> height x = height x' -> x = x'.
Proof.
  destruct x as [k i|iy q], x' as [k' i'|iy' q']; intros [H1 H2] [H1' H2'] Ea Eh.
  - cbn [along height] in *. assert (k = k') by now apply YL_inj. subst k'. f_equal. apply (Nat.mul_cancel_l _ _ (WN k)); [|exact Ea]. pose proof (WN_pos k H1). lia.
  - exfalso. pose proof (mid_height iy' q' H1' H2') as [G1 G2]. cbn [height] in *. destruct (le_lt_dec k iy'); [pose proof (YL_mono k iy')|pose proof (YL_mono (iy' + 1) k)]; lia.
  - exfalso. pose proof (mid_height iy q H1 H2) as [G1 G2]. cbn [height] in *. destruct (le_lt_dec k' iy); [pose proof (YL_mono k' iy)|pose proof (YL_mono (iy + 1) k')]; lia.
  - pose proof (mid_height iy q H1 H2) as [G1 G2]. pose proof (mid_height iy' q' H1' H2') as [G1' G2'].
    assert (iy = iy'). { destruct (lt_eq_lt_dec iy iy') as [[G|G]|G]; [|assumption|]; [pose proof (YL_mono (iy + 1) iy')|pose proof (YL_mono (iy' + 1) iy)]; lia. }
    subst iy'. f_equal. destruct (mid_facts iy q H1 H2) as (s & t & Hs & _ & Es & Es' & _ & _ & _ & _ & D1 & D2). destruct (mid_facts iy q' H1 H2') as (_ & _ & _ & _ & _ & _ & _ & _ & _ & _ & D1' & D2').
    cbn [along] in Ea. rewrite Es', Es in Ea. assert (3 * (q / 2) + q mod 2 = 3 * (q' / 2) + q' mod 2) by nia. lia.
Qed.

Lemma along_le x : wfi x -> along x <= nel.
Proof.
  destruct x as [k i|iy q]; intros [H1 H2]; cbn [along].
  - pose proof (WN_end k H1). pose proof (cnt_pos k H1). nia.
  - destruct (mid_facts iy q H1 H2) as (s & t & Hs & _ & Es & Es' & _ & _ & _ & D0 & D1 & D2). pose proof (W_NX _ _ _ _ _ HD iy H1) as E. rewrite Es', Es in *. nia.
Qed.
Lemma along_0 x : wfi x -> (along x = 0 <-> match x with Row _ i => i = 0 | Mid _ _ => False end).
Proof.
  destruct x as [k i|iy q]; intros [H1 H2]; cbn [along].
  - pose proof (WN_pos k H1). nia.
  - destruct (mid_facts iy q H1 H2) as (s & t & Hs & _ & Es & Es' & _ & _ & _ & D0 & D1 & D2). rewrite Es'. nia.
Qed.
Lemma along_end x : wfi x -> (along x = nel <-> match x with Row k i => i = cnt k - 1 | Mid _ _ => False end).
Proof.
  destruct x as [k i|iy q]; intros [H1 H2]; cbn [along].
  - pose proof (WN_end k H1). pose proof (WN_pos k H1). nia.
  - destruct (mid_facts iy q H1 H2) as (s & t & Hs & _ & Es & Es' & _ & _ & _ & D0 & D1 & D2). pose proof (W_NX _ _ _ _ _ HD iy H1) as E. rewrite Es', Es in *. nia.
Qed.
Lemma along_in x : wfi x -> (0 < along x < nel <-> match x with Row k i => In i (range true (cnt k)) | Mid _ _ => True end).
Proof.
  intros Hx. pose proof (along_0 x Hx). pose proof (along_end x Hx). pose proof (along_le x Hx). destruct x as [k i|iy q]; [rewrite In_range|]; destruct Hx; lia.
Qed.
Lemma height_le x : wfi x -> height x <= Y L.
Proof.
  destruct x as [k i|iy q]; intros [H1 H2]; [now apply YL_mono|]. pose proof (mid_height iy q H1 H2). pose proof (YL_mono (iy + 1) L ltac:(lia)). lia.
Qed.
Lemma height_in x : wfi x -> (0 < height x < Y L <-> match x with Row k i => In k (range true (L + 1)) | Mid _ _ => True end).
Proof.
  destruct x as [k i|iy q]; intros [H1 H2].
  - rewrite In_range. cbn [height]. change 0 with (Y 0) at 1. split.
    + intros [G1 G2]. destruct (Nat.eq_dec k 0) as [->|]; [lia|]. destruct (Nat.eq_dec k L) as [->|]; lia.
    + intros G. split; apply YL_lt; lia.
  - pose proof (mid_height iy q H1 H2). pose proof (YL_mono (iy + 1) L ltac:(lia)). tauto || (split; [auto|]; lia).
Qed.
Lemma height_eq x k : wfi x -> k <= L -> (height x = Y k <-> match x with Row k' _ => k' = k | Mid _ _ => False end).
Proof.
  intros Hx Hk. destruct x as [k' i|iy q]; destruct Hx as [H1 H2].
  - cbn [height]. split; [now apply YL_inj|congruence].
  - pose proof (mid_height iy q H1 H2) as [G1 G2]. split; [|tauto]. intros E. rewrite E in G1, G2. destruct (le_lt_dec k iy); [pose proof (YL_mono k iy)|pose proof (YL_mono (iy + 1) k)]; lia.
Qed.
Lemma height_win x : wfi x -> (Y 1 <= height x <= Y (L - 1) <-> match x with Row k _ => 1 <= k <= L - 1 | Mid iy _ => 1 <= iy < L - 1 end).
Proof.
  destruct x as [k i|iy q]; intros [H1 H2].
  - cbn [height]. split.
    + intros [G1 G2]. split; [destruct k; [|lia]|].
      * pose proof (l_n _ _ _ _ _ HD). assert (1 <= L) by (unfold Proof_FineLayer.L; lia). pose proof (YL_lt 0 1 ltac:(lia) ltac:(lia)). lia.
      * destruct (le_lt_dec k (L - 1)); [assumption|]. pose proof (YL_lt (L - 1) k l H1). lia.
    + intros G. split; apply YL_mono; lia.
  - pose proof (mid_height iy q H1 H2) as [G1 G2]. split.
    + intros [K1 K2]. split; [destruct iy; [cbn [Nat.add] in G2; lia|lia]|]. destruct (le_lt_dec (L - 1) iy); [pose proof (YL_mono (L - 1) iy l); lia|assumption].
    + intros K. pose proof (YL_mono 1 iy ltac:(lia)). pose proof (YL_mono (iy + 1) (L - 1) ltac:(lia)). lia.
Qed.

(** index lists, by position *)
Definition describes (l : list idx) (Q : nat -> nat -> Prop) : Prop :=
  NoDup l /\ (forall x, In x l -> wfi x) /\ forall x, wfi x -> (In x l <-> Q (along x) (height x)).

Lemma d_full : describes (idxl cnt mcd false 0 L) (fun _ _ => True).
Proof.
  split; [apply idxl_NoDup; lia|]. split; intros x; rewrite In_idxl by lia; destruct x; cbn [wfi]; rewrite ?In_range; intuition lia.
Qed.
Lemma d_open : 2 <= n -> describes (idxl cnt mcd true 1 (L - 1)) (fun a b => 0 < a < nel /\ Y 1 <= b <= Y (L - 1)).
Proof.
  intros Hn. assert (HL1 : 1 <= L - 1) by (unfold Proof_FineLayer.L; lia). split; [now apply idxl_NoDup|]. split; intros x.
  - rewrite In_idxl by lia. destruct x as [k i|iy q]; cbn [wfi]; rewrite ?In_range; intros H; [|lia]. assert (k <= L) by lia. pose proof (cnt_pos k H0). lia.
  - intros Hx. rewrite (along_in x Hx), (height_win x Hx), In_idxl by lia. destruct x; destruct Hx; tauto.
Qed.
Lemma d_open1 : n = 1 -> describes [] (fun a b => 0 < a < nel /\ Y 1 <= b <= Y (L - 1)).
Proof.
  intros Hn. assert (HL1 : L = 1) by (unfold Proof_FineLayer.L; lia). split; [constructor|]. split; intros x; [intros []|]. intros Hx. split; [intros []|]. intros [_ G].
  apply (height_win x Hx) in G. destruct x; lia.
Qed.
Lemma d_row op k : k <= L -> describes (irow cnt op k) (fun a b => b = Y k /\ (op = true -> 0 < a < nel)).
Proof.
  intros Hk. unfold irow. split; [apply NoDup_map_inj; [apply range_NoDup|intros i j _ _ E; now injection E]|]. split; intros x.
  - intros H. apply in_map_iff in H. destruct H as (i & <- & H). apply In_range in H. pose proof (cnt_pos k Hk). destruct op; cbn [wfi]; lia.
  - intros Hx. rewrite (height_eq x k Hx Hk), (along_in x Hx). rewrite in_map_iff. destruct x as [k' i|iy q].
    + destruct Hx as [H1 H2]. split.
      * intros (j & E & H). injection E as -> ->. split; [reflexivity|]. intros ->. exact H.
      * intros [-> H]. exists i. split; [reflexivity|]. destruct op; [now apply H|]. now apply In_range.
    + split; [intros (j & E & _); discriminate|tauto].
Qed.
Lemma d_col op : describes (map (fun k => Row k 0) (range op (L + 1))) (fun a b => a = 0 /\ (op = true -> 0 < b < Y L)).
Proof.
  split; [apply NoDup_map_inj; [apply range_NoDup|intros i j _ _ E; now injection E]|]. split; intros x.
  - intros H. apply in_map_iff in H. destruct H as (i & <- & H). apply In_range in H. cbn [wfi]. assert (i <= L) by (destruct op; lia). pose proof (cnt_pos i H0). lia.
  - intros Hx. rewrite (along_0 x Hx), (height_in x Hx). rewrite in_map_iff. destruct x as [k i|iy q].
    + destruct Hx as [H1 H2]. split.
      * intros (j & E & H). injection E as -> <-. split; [reflexivity|]. intros ->. exact H.
      * intros [-> H]. exists k. split; [reflexivity|]. destruct op; [now apply H|]. apply In_range. lia.
    + split; [intros (j & E & _); discriminate|tauto].
Qed.
Lemma d_col' op : describes (map (fun k => Row k (cnt k - 1)) (range op (L + 1))) (fun a b => a = nel /\ (op = true -> 0 < b < Y L)).
Proof.
  split; [apply NoDup_map_inj; [apply range_NoDup|intros i j _ _ E; now injection E]|]. split; intros x.
  - intros H. apply in_map_iff in H. destruct H as (i & <- & H). apply In_range in H. cbn [wfi]. assert (i <= L) by (destruct op; lia). pose proof (cnt_pos i H0). lia.
  - intros Hx. rewrite (along_end x Hx), (height_in x Hx). rewrite in_map_iff. destruct x as [k i|iy q].
    + destruct Hx as [H1 H2]. split.
      * intros (j & E & H). injection E as -> <-. split; [reflexivity|]. intros ->. exact H.
      * intros [-> H]. exists k. split; [reflexivity|]. destruct op; [now apply H|]. apply In_range. lia.
    + split; [intros (j & E & _); discriminate|tauto].
Qed.
End Dir.

Section Faces.
Variables (nelx nelz n : nat) (wx wz y : nat -> nat) (r : nat -> Z) (h : R).
Hypothesis HL : layered3 nelx nelz n wx wz y r.
Hypothesis Hh : (0 < h)%R.
Notation HX := (l3_x _ _ _ _ _ _ _ HL).
Notation HZ := (l3_z _ _ _ _ _ _ _ HL).
Notation Wx := (W n wx).
Notation Wz := (W n wz).
Notation WNx := (WN n wx).
Notation WNz := (WN n wz).
Notation Hy := (Hy n y).
Notation Y := (Y n y).
Notation NX := (NX nelx n wx).
Notation NZ := (Proof_FineLayer.NX nelz n wz).
Notation NNx := (NN nelx n wx).
Notation NNz := (NN nelz n wz).
Notation Rx := (Rf n (rx r)).
Notation Rz := (Rf n (rz r)).
Notation L := (L n).
Notation T := (T n r).
Notation NN3 := (NN3 nelx nelz n wx wz).
Notation NM3 := (NM3 nelx nelz n wx wz r).
Notation SN := (SN3 nelx nelz n wx wz r).
Notation m := (HFL_of nelx nelz n wx wz y r h).
Notation X := (coorl3 nelx nelz n wx wz y r h).
Notation node_case3 := (node_case3 nelx nelz n wx wz y r).
Notation nP := (nP nelx nelz n wx wz r).
Notation nMX := (nMX nelx nelz n wx wz r).
Notation nMZ := (nMZ nelx nelz n wx wz r).
Notation Ff := (Ff nelx nelz n wx wz r).
Notation Fb := (Fb nelx nelz n wx wz r).
Notation Fl := (Fl nelx nelz n wx wz r).
Notation Fr := (Fr nelx nelz n wx wz r).
Notation wfx := (wfi nelx n wx (rx r)).
Notation wfz := (wfi nelz n wz (rz r)).
Notation alx := (along n wx).
Notation alz := (along n wz).
Notation hgt := (height n y).

Lemma pos_y : forall iy, iy < L -> 1 <= Hy iy.
Proof. exact (Hy_pos3 _ _ _ _ _ _ _ HL). Qed.
Lemma even_x iy : iy < L -> Rx iy = true -> exists t, 1 <= t /\ Hy iy = 2 * t.
Proof. intros H E. destruct (layer_kinds _ _ _ _ _ _ _ HL iy H) as [A|t A B C D F|t A B C D F]; [congruence|eauto|eauto]. Qed.
Lemma even_z iy : iy < L -> Rz iy = true -> exists t, 1 <= t /\ Hy iy = 2 * t.
Proof. intros H E. destruct (layer_kinds _ _ _ _ _ _ _ HL iy H) as [A|t A B C D F|t A B C D F]; [congruence|eauto|eauto]. Qed.
Notation mfx := (mid_facts nelx n wx _ y _ HX even_x).
Notation mfz := (mid_facts nelz n wz _ y _ HZ even_z).

Lemma nP_case k i j : k <= L -> i < NNx k -> j < NNz k -> node_case3 (nP k i j) (WNx k * i) (Y k) (WNz k * j).
Proof. intros H1 H2 H3. now apply case3_row. Qed.
Lemma nMX_case iy q iz : iy < L -> q < mcd nelx n wx (rx r) iy -> iz < NZ iy + 1 -> node_case3 (nMX iy q iz) (alx (Mid iy q)) (hgt (Mid iy q)) (Wz iy * iz).
Proof.
  intros H1 H2 H3. destruct (mfx iy q H1 H2) as (s & t & Hs & Ht & Es & Es' & Et & Et' & D0 & D1 & D2 & D3). cbn [along height]. rewrite Es', Et'.
  assert (E : Rx iy = true) by (unfold mcd in H2; destruct (Rx iy); [reflexivity|lia]).
  apply (case3_midx _ _ _ _ _ _ _ _ iy (q / 2) (q mod 2) iz s t); auto. unfold Proof_Hex8FineLayerSides.nMX. lia.
Qed.
Lemma nMZ_case iy ix q : iy < L -> q < mcd nelz n wz (rz r) iy -> ix < NX iy + 1 -> node_case3 (nMZ iy ix q) (Wx iy * ix) (hgt (Mid iy q)) (alz (Mid iy q)).
Proof.
  intros H1 H2 H3. destruct (mfz iy q H1 H2) as (s & t & Hs & Ht & Es & Es' & Et & Et' & D0 & D1 & D2 & D3). cbn [along height]. rewrite Es', Et'.
  assert (E : Rz iy = true) by (unfold mcd in H2; destruct (Rz iy); [reflexivity|lia]).
  apply (case3_midz _ _ _ _ _ _ _ _ iy (q / 2) (q mod 2) ix s t); auto. unfold Proof_Hex8FineLayerSides.nMZ. rewrite <- D3. lia.
Qed.

(** every node *)
Lemma node_kinds p a b c : node_case3 p a b c ->
  (exists k i j, k <= L /\ i < NNx k /\ j < NNz k /\ p = nP k i j /\ a = WNx k * i /\ b = Y k /\ c = WNz k * j) \/
  (exists iy q iz, iy < L /\ q < mcd nelx n wx (rx r) iy /\ iz < NZ iy + 1 /\ p = nMX iy q iz /\ a = alx (Mid iy q) /\ b = hgt (Mid iy q) /\ c = Wz iy * iz) \/
  (exists iy ix q, iy < L /\ q < mcd nelz n wz (rz r) iy /\ ix < NX iy + 1 /\ p = nMZ iy ix q /\ a = Wx iy * ix /\ b = hgt (Mid iy q) /\ c = alz (Mid iy q)).
Proof.
  intros [iy ix iz Hi Hx Hz E|iy j k iz s t Hi Hr Hj Hk Hz Hs Ht Ew Eh E|iy j k ix s t Hi Hr Hj Hk Hx Hs Ht Ew Eh E].
  - left. exists iy, ix, iz. auto 10.
  - right. left. exists iy, (2 * j + k), iz.
    assert (D : (2 * j + k) / 2 = j /\ (2 * j + k) mod 2 = k) by (split; [rewrite Nat.mul_comm, Nat.div_add_l, (Nat.div_small k) by lia; lia|rewrite Nat.add_comm, Nat.mul_comm, Nat.mod_add, Nat.mod_small by lia; reflexivity]).
    destruct D as [D1 D2]. cbn [along height]. rewrite D1, D2, (div3 _ _ Ew), (div2 _ _ Eh). unfold mcd. rewrite Hr. repeat split; auto; lia.
  - right. right. exists iy, ix, (2 * j + k).
    assert (D : (2 * j + k) / 2 = j /\ (2 * j + k) mod 2 = k) by (split; [rewrite Nat.mul_comm, Nat.div_add_l, (Nat.div_small k) by lia; lia|rewrite Nat.add_comm, Nat.mul_comm, Nat.mod_add, Nat.mod_small by lia; reflexivity]).
    destruct D as [D1 D2]. cbn [along height]. rewrite D1, D2, (div3 _ _ Ew), (div2 _ _ Eh). unfold mcd. rewrite Hr. repeat split; auto; lia.
Qed.

(** the nodes of the sides *)
Lemma Ff_case x : wfx x -> node_case3 (Ff x) (alx x) (hgt x) 0.
Proof.
  destruct x as [k i|iy q]; intros [H1 H2].
  - pose proof (nP_case k i 0 H1 H2) as G. rewrite Nat.mul_0_r in G. apply G. pose proof (cnt_pos _ _ _ _ _ HZ k H1). lia.
  - pose proof (nMX_case iy q 0 H1 H2) as G. rewrite Nat.mul_0_r in G. apply G. lia.
Qed.
Lemma Fb_case x : wfx x -> node_case3 (Fb x) (alx x) (hgt x) nelz.
Proof.
  destruct x as [k i|iy q]; intros [H1 H2].
  - pose proof (cnt_pos _ _ _ _ _ HZ k H1). pose proof (nP_case k i (NNz k - 1) H1 H2 ltac:(lia)) as G. rewrite (WN_end _ _ _ _ _ HZ k H1) in G. exact G.
  - pose proof (nMX_case iy q (NZ iy) H1 H2 ltac:(lia)) as G. rewrite (W_NX _ _ _ _ _ HZ iy H1) in G. exact G.
Qed.
Lemma Fl_case x : wfz x -> node_case3 (Fl x) 0 (hgt x) (alz x).
Proof.
  destruct x as [k i|iy q]; intros [H1 H2].
  - pose proof (nP_case k 0 i H1) as G. rewrite Nat.mul_0_r in G. apply G; [|exact H2]. pose proof (cnt_pos _ _ _ _ _ HX k H1). lia.
  - pose proof (nMZ_case iy 0 q H1 H2) as G. rewrite Nat.mul_0_r in G. apply G. lia.
Qed.
Lemma Fr_case x : wfz x -> node_case3 (Fr x) nelx (hgt x) (alz x).
Proof.
  destruct x as [k i|iy q]; intros [H1 H2].
  - pose proof (cnt_pos _ _ _ _ _ HX k H1). pose proof (nP_case k (NNx k - 1) i H1 ltac:(lia) H2) as G. rewrite (WN_end _ _ _ _ _ HX k H1) in G. exact G.
  - pose proof (nMZ_case iy (NX iy) q H1 H2 ltac:(lia)) as G. rewrite (W_NX _ _ _ _ _ HX iy H1) in G. exact G.
Qed.

Lemma Ff_inv p a b : node_case3 p a b 0 -> exists x, wfx x /\ p = Ff x /\ a = alx x /\ b = hgt x.
Proof.
  intros H. destruct (node_kinds _ _ _ _ H) as [(k & i & j & H1 & H2 & H3 & E & Ea & Eb & Ec)|[(iy & q & iz & H1 & H2 & H3 & E & Ea & Eb & Ec)|(iy & ix & q & H1 & H2 & H3 & E & Ea & Eb & Ec)]].
  - assert (j = 0) by (pose proof (WN_pos _ _ _ _ _ HZ k H1); nia). subst j. exists (Row k i). repeat split; assumption.
  - assert (iz = 0) by (pose proof (W_pos _ _ _ _ _ HZ iy H1); nia). subst iz. exists (Mid iy q). repeat split; assumption.
  - exfalso. symmetry in Ec. apply (along_0 nelz n wz _ y _ HZ even_z (Mid iy q)) in Ec; [exact Ec|now split].
Qed.
Lemma Fb_inv p a b : node_case3 p a b nelz -> exists x, wfx x /\ p = Fb x /\ a = alx x /\ b = hgt x.
Proof.
  intros H. destruct (node_kinds _ _ _ _ H) as [(k & i & j & H1 & H2 & H3 & E & Ea & Eb & Ec)|[(iy & q & iz & H1 & H2 & H3 & E & Ea & Eb & Ec)|(iy & ix & q & H1 & H2 & H3 & E & Ea & Eb & Ec)]].
  - assert (j = NNz k - 1) by (pose proof (WN_pos _ _ _ _ _ HZ k H1); pose proof (WN_end _ _ _ _ _ HZ k H1); nia). subst j. exists (Row k i). repeat split; assumption.
  - assert (iz = NZ iy) by (pose proof (W_pos _ _ _ _ _ HZ iy H1); pose proof (W_NX _ _ _ _ _ HZ iy H1); nia). subst iz. exists (Mid iy q). repeat split; assumption.
  - exfalso. symmetry in Ec. apply (along_end nelz n wz _ y _ HZ even_z (Mid iy q)) in Ec; [exact Ec|now split].
Qed.
Lemma Fl_inv p b c : node_case3 p 0 b c -> exists x, wfz x /\ p = Fl x /\ c = alz x /\ b = hgt x.
Proof.
  intros H. destruct (node_kinds _ _ _ _ H) as [(k & i & j & H1 & H2 & H3 & E & Ea & Eb & Ec)|[(iy & q & iz & H1 & H2 & H3 & E & Ea & Eb & Ec)|(iy & ix & q & H1 & H2 & H3 & E & Ea & Eb & Ec)]].
  - assert (i = 0) by (pose proof (WN_pos _ _ _ _ _ HX k H1); nia). subst i. exists (Row k j). repeat split; assumption.
  - exfalso. symmetry in Ea. apply (along_0 nelx n wx _ y _ HX even_x (Mid iy q)) in Ea; [exact Ea|now split].
  - assert (ix = 0) by (pose proof (W_pos _ _ _ _ _ HX iy H1); nia). subst ix. exists (Mid iy q). repeat split; assumption.
Qed.
Lemma Fr_inv p b c : node_case3 p nelx b c -> exists x, wfz x /\ p = Fr x /\ c = alz x /\ b = hgt x.
Proof.
  intros H. destruct (node_kinds _ _ _ _ H) as [(k & i & j & H1 & H2 & H3 & E & Ea & Eb & Ec)|[(iy & q & iz & H1 & H2 & H3 & E & Ea & Eb & Ec)|(iy & ix & q & H1 & H2 & H3 & E & Ea & Eb & Ec)]].
  - assert (i = NNx k - 1) by (pose proof (WN_pos _ _ _ _ _ HX k H1); pose proof (WN_end _ _ _ _ _ HX k H1); nia). subst i. exists (Row k j). repeat split; assumption.
  - exfalso. symmetry in Ea. apply (along_end nelx n wx _ y _ HX even_x (Mid iy q)) in Ea; [exact Ea|now split].
  - assert (ix = NX iy) by (pose proof (W_pos _ _ _ _ _ HX iy H1); pose proof (W_NX _ _ _ _ _ HX iy H1); nia). subst ix. exists (Mid iy q). repeat split; assumption.
Qed.

Lemma case3_fun p a b c a' b' c' : node_case3 p a b c -> node_case3 p a' b' c' -> a = a' /\ b = b' /\ c = c'.
Proof.
  intros H H'. apply (node_case3_pos nelx nelz n wx wz y r 1) in H, H'. unfold pos3 in *. rewrite H in H'. apply (rowc3_inj 1 Rlt_0_1). congruence.
Qed.

(** lists of nodes by position, in units of h *)
Definition nodes_of (l : list nat) (Q : nat -> nat -> nat -> Prop) : Prop :=
  NoDup l /\ forall p, In p l <-> exists a b c, node_case3 p a b c /\ Q a b c.

Lemma nodes_of_lists l Q (P : R -> R -> R -> Prop) : nodes_of l Q ->
  (forall a b c, a <= nelx -> b <= Y L -> c <= nelz -> (P (h * INR a)%R (h * INR b)%R (h * INR c)%R <-> Q a b c)) -> lists_nodes3 X l P.
Proof.
  intros [N H] HP. split; [exact N|]. intros p. rewrite H. split.
  - intros (a & b & c & C & HQ). do 3 eexists. split; [apply (node_case3_pos _ _ _ _ _ _ _ h _ _ _ _ C)|]. destruct (case3_bounds _ _ _ _ _ _ _ HL _ _ _ _ C) as (A1 & A2 & A3). now apply HP.
  - intros (a & b & c & C & Hp). destruct (node_at3_pos _ _ _ _ _ _ _ h HL _ _ _ _ C) as (a' & b' & c' & -> & -> & -> & K).
    destruct (case3_bounds _ _ _ _ _ _ _ HL _ _ _ _ K) as (A1 & A2 & A3). exists a', b', c'. split; [exact K|]. now apply HP.
Qed.

Notation dx := (describes nelx n wx y (rx r)).
Notation dz := (describes nelz n wz y (rz r)).
Lemma front_nodes l Q : dx l Q -> nodes_of (map Ff l) (fun a b c => c = 0 /\ Q a b).
Proof.
  intros (N & W & D). split.
  - apply NoDup_map_inj; [exact N|]. intros x x' Hx Hx' E. pose proof (Ff_case x (W x Hx)) as A. pose proof (Ff_case x' (W x' Hx')) as B. rewrite E in A.
    destruct (case3_fun _ _ _ _ _ _ _ A B) as (A1 & A2 & _). apply (wfi_inj nelx n wx _ y _ HX pos_y even_x); auto.
  - intros p. rewrite in_map_iff. split.
    + intros (x & <- & Hx). exists (alx x), (hgt x), 0. split; [apply Ff_case; auto|]. split; [reflexivity|]. apply D; auto.
    + intros (a & b & c & C & -> & HQ). destruct (Ff_inv _ _ _ C) as (x & Hx & -> & -> & ->). exists x. split; [reflexivity|]. now apply D.
Qed.
Lemma back_nodes l Q : dx l Q -> nodes_of (map Fb l) (fun a b c => c = nelz /\ Q a b).
Proof.
  intros (N & W & D). split.
  - apply NoDup_map_inj; [exact N|]. intros x x' Hx Hx' E. pose proof (Fb_case x (W x Hx)) as A. pose proof (Fb_case x' (W x' Hx')) as B. rewrite E in A.
    destruct (case3_fun _ _ _ _ _ _ _ A B) as (A1 & A2 & _). apply (wfi_inj nelx n wx _ y _ HX pos_y even_x); auto.
  - intros p. rewrite in_map_iff. split.
    + intros (x & <- & Hx). exists (alx x), (hgt x), nelz. split; [apply Fb_case; auto|]. split; [reflexivity|]. apply D; auto.
    + intros (a & b & c & C & -> & HQ). destruct (Fb_inv _ _ _ C) as (x & Hx & -> & -> & ->). exists x. split; [reflexivity|]. now apply D.
Qed.
Lemma left_nodes l Q : dz l Q -> nodes_of (map Fl l) (fun a b c => a = 0 /\ Q c b).
Proof.
  intros (N & W & D). split.
  - apply NoDup_map_inj; [exact N|]. intros x x' Hx Hx' E. pose proof (Fl_case x (W x Hx)) as A. pose proof (Fl_case x' (W x' Hx')) as B. rewrite E in A.
    destruct (case3_fun _ _ _ _ _ _ _ A B) as (_ & A1 & A2). apply (wfi_inj nelz n wz _ y _ HZ pos_y even_z); auto.
  - intros p. rewrite in_map_iff. split.
    + intros (x & <- & Hx). exists 0, (hgt x), (alz x). split; [apply Fl_case; auto|]. split; [reflexivity|]. apply D; auto.
    + intros (a & b & c & C & -> & HQ). destruct (Fl_inv _ _ _ C) as (x & Hx & -> & -> & ->). exists x. split; [reflexivity|]. now apply D.
Qed.
Lemma right_nodes l Q : dz l Q -> nodes_of (map Fr l) (fun a b c => a = nelx /\ Q c b).
Proof.
  intros (N & W & D). split.
  - apply NoDup_map_inj; [exact N|]. intros x x' Hx Hx' E. pose proof (Fr_case x (W x Hx)) as A. pose proof (Fr_case x' (W x' Hx')) as B. rewrite E in A.
    destruct (case3_fun _ _ _ _ _ _ _ A B) as (_ & A1 & A2). apply (wfi_inj nelz n wz _ y _ HZ pos_y even_z); auto.
  - intros p. rewrite in_map_iff. split.
    + intros (x & <- & Hx). exists nelx, (hgt x), (alz x). split; [apply Fr_case; auto|]. split; [reflexivity|]. apply D; auto.
    + intros (a & b & c & C & -> & HQ). destruct (Fr_inv _ _ _ C) as (x & Hx & -> & -> & ->). exists x. split; [reflexivity|]. now apply D.
Qed.

(** planes *)
Definition planel (op : bool) (k : nat) : list nat := forin2 (range op (NNx k)) (range op (NNz k)) (fun i j => nP k i j).
Lemma plane_nodes op k : k <= L -> nodes_of (planel op k) (fun a b c => b = Y k /\ (op = true -> 0 < a < nelx /\ 0 < c < nelz)).
Proof.
  intros Hk. pose proof (cnt_pos _ _ _ _ _ HX k Hk) as Cx. pose proof (cnt_pos _ _ _ _ _ HZ k Hk) as Cz.
  pose proof (WN_pos _ _ _ _ _ HX k Hk) as Px. pose proof (WN_pos _ _ _ _ _ HZ k Hk) as Pz. pose proof (WN_end _ _ _ _ _ HX k Hk) as Ex. pose proof (WN_end _ _ _ _ _ HZ k Hk) as Ez.
  assert (Rg : forall c i, 2 <= c -> In i (range op c) -> i < c) by (intros c i Hc H; apply In_range in H; destruct op; lia).
  split.
  - apply NoDup_forin2; try apply range_NoDup. intros i j i' j' Hi Hj Hi' Hj' E.
    assert (A : node_case3 (nP k i j) (WNx k * i) (Y k) (WNz k * j)) by (apply nP_case; auto). rewrite E in A.
    assert (B : node_case3 (nP k i' j') (WNx k * i') (Y k) (WNz k * j')) by (apply nP_case; auto). destruct (case3_fun _ _ _ _ _ _ _ A B) as (G1 & _ & G2). nia.
  - intros p. unfold planel. rewrite In_forin2. split.
    + intros (i & j & Hi & Hj & ->). exists (WNx k * i), (Y k), (WNz k * j). split; [apply nP_case; auto|]. split; [reflexivity|].
      intros ->. apply In_range in Hi, Hj. nia.
    + intros (a & b & c & C & -> & HQ). destruct (node_kinds _ _ _ _ C) as [(k' & i & j & H1 & H2 & H3 & E & Ea & Eb & Ec)|[(iy & q & iz & H1 & H2 & H3 & E & Ea & Eb & Ec)|(iy & ix & q & H1 & H2 & H3 & E & Ea & Eb & Ec)]].
      * assert (k' = k) by (apply (YL_inj n y pos_y); auto). subst k'. exists i, j. rewrite !In_range. rewrite Ea, Ec in HQ. destruct op; [specialize (HQ eq_refl)|]; repeat split; auto; nia.
      * exfalso. symmetry in Eb. apply (height_eq nelx n wx _ y _ HX pos_y even_x (Mid iy q) k) in Eb; auto. now split.
      * exfalso. symmetry in Eb. apply (height_eq nelz n wz _ y _ HZ pos_y even_z (Mid iy q) k) in Eb; auto. now split.
Qed.
End Faces.
