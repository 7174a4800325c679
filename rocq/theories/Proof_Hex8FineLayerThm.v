(** Hex8::FineLayer: the theorems. *)
From Coq Require Import Reals ZArith Lra Classical_Prop.
From Verif Require Import Base Spec Spec3d Spec_FineLayer Spec_FineLayer3 Spec_Element Spec_Tiling3 Model_Numbering Model_Regular2d Model_FineLayer Model_Hex8Regular Model_Hex8FineLayer
  Proof_Vector Proof_Numbering Proof_Regular2d Proof_Hex8Regular Proof_FineLayer Proof_FineLayerMesh Proof_FineLayerThm Proof_FineLayerBoundary Proof_Periodic3
  Proof_Hex8FineLayer Proof_Hex8FineLayerMesh Proof_Hex8FineLayerElem Proof_Tiling3 Proof_Hex8FineLayerTiling Proof_Hex8FineLayerSides Proof_Hex8FineLayerFaces
  Proof_Hex8FineLayerBoundary Proof_Hex8FineLayerLists Proof_Hex8FineLayerPeriodic.

(** ** the layers *)
Record linv (nelx nelz nmin : nat) (p : layer) (d : nat) : Prop := {
  li_x : 1 <= lx p; li_z : 1 <= lz p;
  li_unit : unit_of p = Nat.max (lx p) (lz p);
  li_shape : (lt p = (-1)%Z /\ ly p = Nat.max (lx p) (lz p)) \/ ((lt p = 0%Z \/ lt p = 2%Z) /\ 3 * ly p = 2 * Nat.max (lx p) (lz p));
  li_xz : lx p < lz p -> nelx mod (3 * lx p) <> 0;
  li_zx : lz p < lx p -> nelz mod (3 * lz p) <> 0 \/ (lt p = 0%Z /\ lx p = 3 * lz p) \/ nmin <= d;
  li_0 : lt p = 0%Z -> lz p < lx p }.

Lemma linv_fine nelx nelz nmin d : linv nelx nelz nmin fine1 d.
Proof. constructor; cbn; try lia; try reflexivity. Qed.

Lemma unit_ref p s : lt p <> (-1)%Z -> ly p = 2 * s -> unit_of p = 3 * s.
Proof. intros H E. unfold unit_of. destruct (Z.eqb_spec (lt p) (-1)); [congruence|]. now rewrite E, half_2. Qed.

(** the rule in terms of the sizes *)
Definition rule3 (nelx nelz half : nat) (p : layer) (d : nat) (t : layer) : Prop :=
  let u := Nat.max (lx p) (lz p) in
  (lt t = 0%Z <-> ~ follow_z nelz half d (ly p) (lz p) (lt p) /\ may_coarsen nelx half d u (lx p)) /\
  (lt t = 2%Z <-> follow_z nelz half d (ly p) (lz p) (lt p) \/ (~ may_coarsen nelx half d u (lx p) /\ may_coarsen nelz half d u (lz p))).

Lemma follow_b nelz half d p : (lt p =? 0)%Z && (d + ly p <? half) && (nelz mod (3 * lz p) =? 0) = true <-> follow_z nelz half d (ly p) (lz p) (lt p).
Proof. unfold follow_z. rewrite !andb_true_iff, Z.eqb_eq, Nat.ltb_lt, Nat.eqb_eq. tauto. Qed.
Lemma may_b nel half d u w : (3 * u <=? d) && (nel mod (3 * w) =? 0) && (d + u <? half) = true <-> may_coarsen nel half d u w.
Proof. unfold may_coarsen. rewrite !andb_true_iff, Nat.leb_le, Nat.ltb_lt, Nat.eqb_eq. tauto. Qed.

Lemma next3_rule nelx nelz nmin p d : unit_of p = Nat.max (lx p) (lz p) -> rule3 nelx nelz nmin p d (next3 nelx nelz nmin p d).
Proof.
  intros U. unfold rule3, next3. rewrite U. set (u := Nat.max (lx p) (lz p)).
  pose proof (follow_b nelz nmin d p) as F. pose proof (may_b nelx nmin d u (lx p)) as MX. pose proof (may_b nelz nmin d u (lz p)) as MZ.
  destruct ((lt p =? 0)%Z && (d + ly p <? nmin) && (nelz mod (3 * lz p) =? 0)).
  - assert (follow_z nelz nmin d (ly p) (lz p) (lt p)) by (apply F; reflexivity). cbn [lt]. split; [split; [discriminate|tauto]|tauto].
  - assert (~ follow_z nelz nmin d (ly p) (lz p) (lt p)) by (intros Q; apply F in Q; discriminate Q).
    destruct ((3 * u <=? d) && (nelx mod (3 * lx p) =? 0) && (d + u <? nmin)).
    + assert (may_coarsen nelx nmin d u (lx p)) by (apply MX; reflexivity). cbn [lt]. split; [tauto|]. split; [discriminate|tauto].
    + assert (~ may_coarsen nelx nmin d u (lx p)) by (intros Q; apply MX in Q; discriminate Q).
      destruct ((3 * u <=? d) && (nelz mod (3 * lz p) =? 0) && (d + u <? nmin)).
      * assert (may_coarsen nelz nmin d u (lz p)) by (apply MZ; reflexivity). cbn [lt]. split; [split; [discriminate|tauto]|tauto].
      * assert (~ may_coarsen nelz nmin d u (lz p)) by (intros Q; apply MZ in Q; discriminate Q). cbn [lt]. split; (split; [discriminate|tauto]).
Qed.

Lemma linv_next nelx nelz nmin p d : d < nmin -> linv nelx nelz nmin p d -> let t := next3 nelx nelz nmin p d in linv nelx nelz nmin t (d + ly t).
Proof.
  intros Hd [I1 I2 IU IS IX IZ I0]. cbv zeta. unfold next3. rewrite IU. set (u := Nat.max (lx p) (lz p)) in *.
  destruct ((lt p =? 0)%Z && (d + ly p <? nmin) && (nelz mod (3 * lz p) =? 0)) eqn:F.
  - apply follow_b in F. destruct F as (F1 & F2 & F3). specialize (I0 F1). specialize (IZ I0).
    assert (E : lx p = 3 * lz p) by (destruct IZ as [Q|[Q|Q]]; [congruence|tauto|lia]).
    assert (Ey : ly p = 2 * lz p) by (destruct IS as [[Q _]|[_ Q]]; [congruence|unfold u in Q; lia]).
    constructor; cbn [lx ly lz lt]; [lia|lia| |right; split; [now right|lia]|lia|lia|discriminate].
    + rewrite (unit_ref _ (lz p)); cbn [lt ly]; [lia|discriminate|lia].
  - assert (NF : ~ follow_z nelz nmin d (ly p) (lz p) (lt p)) by (intros Q; apply follow_b in Q; congruence). clear F.
    assert (T0 : lt p = 0%Z -> lx p = 3 * lz p -> nelz mod (3 * lz p) = 0 -> nmin <= d + ly p).
    { intros A1 A2 A3. unfold follow_z in NF. destruct (le_lt_dec nmin (d + ly p)); [assumption|tauto]. }
    assert (Ly : ly p <= u) by (destruct IS as [[_ Q]|[_ Q]]; unfold u in *; lia).
    destruct ((3 * u <=? d) && (nelx mod (3 * lx p) =? 0) && (d + u <? nmin)) eqn:MX.
    + apply may_b in MX. destruct MX as (M1 & M2 & M3). assert (Hzx : lz p <= lx p) by (destruct (le_lt_dec (lz p) (lx p)); [assumption|exfalso; now apply IX]).
      assert (Eu : u = lx p) by (unfold u; lia). constructor; cbn [lx ly lz lt]; [lia|lia| |right; split; [now left|lia]|lia| |lia].
      * rewrite (unit_ref _ u); cbn [lt ly]; [lia|discriminate|lia].
      * intros _. destruct (Nat.eq_dec (lz p) (lx p)) as [E|E]; [right; left; split; [reflexivity|lia]|].
        destruct (IZ ltac:(lia)) as [Q|[[Q1 Q2]|Q]]; [now left| |right; right; lia].
        destruct (Nat.eq_dec (nelz mod (3 * lz p)) 0) as [Q|Q]; [|now left]. specialize (T0 Q1 Q2 Q). lia.
    + assert (NX : ~ may_coarsen nelx nmin d u (lx p)) by (intros Q; apply may_b in Q; congruence). clear MX.
      destruct ((3 * u <=? d) && (nelz mod (3 * lz p) =? 0) && (d + u <? nmin)) eqn:MZ.
      * apply may_b in MZ. destruct MZ as (M1 & M2 & M3).
        assert (Hxz : lx p <= lz p).
        { destruct (le_lt_dec (lx p) (lz p)) as [|H]; [assumption|exfalso]. destruct (IZ H) as [Q|[[Q1 Q2]|Q]]; [congruence|specialize (T0 Q1 Q2 M2); lia|lia]. }
        assert (Eu : u = lz p) by (unfold u; lia). constructor; cbn [lx ly lz lt]; [lia|lia| |right; split; [now right|lia]| |lia|discriminate].
        -- rewrite (unit_ref _ u); cbn [lt ly]; [lia|discriminate|lia].
        -- intros _ Q. apply NX. unfold may_coarsen. auto.
      * constructor; cbn [lx ly lz lt]; auto; try discriminate.
        intros H. destruct (IZ H) as [Q|[[Q1 Q2]|Q]]; [now left| |right; right; lia].
        destruct (Nat.eq_dec (nelz mod (3 * lz p)) 0) as [Q|Q]; [|now left]. right. right. specialize (T0 Q1 Q2 Q). lia.
Qed.

Lemma next3_step nelx nelz nmin p d : let t := next3 nelx nelz nmin p d in
  (lt t = (-1)%Z /\ lx t = lx p /\ lz t = lz p) \/ (lt t = 0%Z /\ lx t = 3 * lx p /\ lz t = lz p) \/ (lt t = 2%Z /\ lx t = lx p /\ lz t = 3 * lz p).
Proof. cbv zeta. unfold next3. repeat match goal with |- context [if ?c then mkLayer _ _ _ _ else _] => destruct c end; cbn [lx ly lz lt]; auto. Qed.

Section Thm.
Variables (nelx nely nelz nfine n : nat) (wx wz y : nat -> nat) (r : nat -> Z) (h : R).
Hypothesis G : greedy3 nelx nely nelz nfine n wx wz y r.
Let HL := g3_layered _ _ _ _ _ _ _ _ _ G.
Notation HX := (l3_x _ _ _ _ _ _ _ HL).
Notation HZ := (l3_z _ _ _ _ _ _ _ HL).
Notation L := (L n).
Notation Wx := (W n wx).
Notation Wz := (W n wz).
Notation Hy := (Hy n y).
Notation NX := (NX nelx n wx).
Notation NZ := (Proof_FineLayer.NX nelz n wz).
Notation T := (T n r).
Notation Y := (Y n y).
Notation X := (coorl3 nelx nelz n wx wz y r h).
Notation C := (connl3 nelx nelz n wx wz r).
Notation m := (HFL_of nelx nelz n wx wz y r h).
Notation lay := (lay wx wz y r).

Lemma n1 : 1 <= n.
Proof. exact (l_n _ _ _ _ _ HX). Qed.

Lemma upper_heights3 k : k <= n -> total (firstn k (skipn (n - 1) (g_nhy m))) = nsum k y.
Proof.
  intros H. pose proof (n_L _ _ _ _ _ HX). cbn [g_nhy HFL_of]. rewrite skipn_tab1 by lia. rewrite firstn_tab1 by (unfold Proof_FineLayer.L; lia). unfold total. rewrite sum_tab1.
  apply nsum_ext. intros i Hi. unfold Proof_FineLayer.Hy. rewrite (dist_up _ _ _ _ _ HX) by lia. f_equal. lia.
Qed.

Lemma below d : d < n -> nsum d y < (nely + 1) / 2.
Proof.
  intros H. pose proof (g3_last _ _ _ _ _ _ _ _ _ G) as Q. enough (nsum d y <= nsum (n - 1) y) by lia. apply nsum_le. lia.
Qed.
Lemma lay_inv d : d < n -> linv nelx nelz ((nely + 1) / 2) (lay d) (nsum (S d) y).
Proof.
  induction d as [|d IH]; intros Hd.
  - rewrite (g3_fine _ _ _ _ _ _ _ _ _ G) by lia. apply linv_fine.
  - destruct (le_lt_dec (2 * S d) nfine) as [H|H].
    + rewrite (g3_fine _ _ _ _ _ _ _ _ _ G) by lia. apply linv_fine.
    + pose proof (g3_rule _ _ _ _ _ _ _ _ _ G d Hd H) as E. pose proof (linv_next nelx nelz _ _ _ (below _ Hd) (IH ltac:(lia))) as Q. cbv zeta in Q. rewrite <- E in Q.
      replace (nsum (S (S d)) y) with (nsum (S d) y + ly (lay (S d))) by reflexivity. exact Q.
Qed.

Lemma layer3_inv i x u z kx kz t : layer3_is (g_nhx m) (g_nhy m) (g_nhz m) (g_layer_nelx m) (g_layer_nelz m) (g_refine m) i x u z kx kz t ->
  i < L /\ x = Wx i /\ u = Hy i /\ z = Wz i /\ kx = NX i /\ kz = NZ i /\ t = T i.
Proof.
  intros (A1 & A2 & A3 & A4 & A5 & A6). cbn [g_nhx g_nhy g_nhz g_layer_nelx g_layer_nelz g_refine HFL_of] in *.
  apply tab1_some in A1, A2, A3, A4, A5, A6. intuition.
Qed.
Lemma layer3_intro i : i < L -> layer3_is (g_nhx m) (g_nhy m) (g_nhz m) (g_layer_nelx m) (g_layer_nelz m) (g_refine m) i (Wx i) (Hy i) (Wz i) (NX i) (NZ i) (T i).
Proof. intros H. unfold layer3_is. cbn [g_nhx g_nhy g_nhz g_layer_nelx g_layer_nelz g_refine HFL_of]. rewrite !tab1_nth_error by assumption. repeat split. Qed.

Lemma structure3 : layer_structure3 nelx nely nelz nfine (n - 1) (g_nhx m) (g_nhy m) (g_nhz m) (g_layer_nelx m) (g_layer_nelz m) (g_refine m).
Proof.
  pose proof n1 as Hn. pose proof (n_L _ _ _ _ _ HX) as HnL. constructor.
  - cbn [g_nhx g_nhy g_nhz g_layer_nelx g_layer_nelz g_refine HFL_of]. split; [repeat constructor|]; rewrite tab1_len; unfold Proof_FineLayer.L; lia.
  - cbn [g_nhx g_nhy g_nhz g_layer_nelx g_layer_nelz g_refine HFL_of]. unfold Proof_FineLayer.NX, Proof_FineLayer.W, Proof_FineLayer.Hy, Proof_Hex8FineLayer.T.
    split; [repeat constructor|]; apply rev_tab1; intros i Hi; now rewrite dist_sym.
  - pose proof (layer3_intro (n - 1) HnL) as E. pose proof (W_mid _ _ _ _ _ HX) as E1. pose proof (W_NX _ _ _ _ _ HX (n - 1) HnL) as E2. rewrite E1 in *.
    pose proof (W_mid _ _ _ _ _ HZ) as E3. pose proof (W_NX _ _ _ _ _ HZ (n - 1) HnL) as E4. rewrite E3 in *.
    replace (NX (n - 1)) with nelx in E by lia. replace (NZ (n - 1)) with nelz in E by lia.
    assert (Ed : dist n (n - 1) = 0) by (rewrite dist_low by lia; lia).
    replace (Hy (n - 1)) with 1 in E by (unfold Proof_FineLayer.Hy; rewrite Ed; symmetry; apply HL).
    replace (T (n - 1)) with (-1)%Z in E; [exact E|]. unfold Proof_Hex8FineLayer.T. rewrite Ed.
    pose proof (g3_fine _ _ _ _ _ _ _ _ _ G 0 ltac:(lia) ltac:(lia)) as Q. unfold Proof_Hex8FineLayer.lay in Q. injection Q as _ _ _ Q. auto.
  - intros i x u z kx kz t H. apply layer3_inv in H. destruct H as (Hi & -> & -> & -> & -> & -> & ->). pose proof (dist_lt _ _ _ _ _ HX _ Hi).
    split; [now apply (w_pow _ _ _ _ _ HX)|]. split; [now apply (w_pow _ _ _ _ _ HZ)|]. split; [now apply (W_NX _ _ _ _ _ HX)|now apply (W_NX _ _ _ _ _ HZ)].
  - intros i x u z kx kz t H. apply layer3_inv in H. destruct H as (Hi & -> & -> & -> & -> & -> & ->). pose proof (dist_lt _ _ _ _ _ HX _ Hi) as Hd.
    exact (li_shape _ _ _ _ _ (lay_inv _ Hd)).
  - intros i x u z kx kz t x' u' z' kx' kz' t' Hc H H'. apply layer3_inv in H, H'. destruct H as (Hi & -> & -> & -> & -> & -> & ->). destruct H' as (Hi' & -> & -> & -> & -> & -> & ->).
    assert (Ed : dist n (i + 1) = S (dist n i)) by (rewrite !(dist_up _ _ _ _ _ HX) by lia; lia).
    pose proof (dist_lt _ _ _ _ _ HX _ Hi') as Hd. unfold Proof_Hex8FineLayer.T, Proof_FineLayer.W. rewrite Ed in *.
    destruct (le_lt_dec (2 * S (dist n i)) nfine) as [H|H].
    + left. pose proof (g3_fine _ _ _ _ _ _ _ _ _ G _ Hd H) as Q. pose proof (g3_fine _ _ _ _ _ _ _ _ _ G (dist n i) ltac:(lia) ltac:(lia)) as Q'.
      unfold Proof_Hex8FineLayer.lay, fine1 in Q, Q'. injection Q as -> _ -> ->. injection Q' as -> _ -> _. auto.
    + pose proof (g3_rule _ _ _ _ _ _ _ _ _ G _ Hd H) as E. pose proof (next3_step nelx nelz ((nely + 1) / 2) (lay (dist n i)) (nsum (S (dist n i)) y)) as Q. cbv zeta in Q. rewrite <- E in Q. exact Q.
  - intros i x u z kx kz t x' u' z' kx' kz' t' Hc H H'. apply layer3_inv in H, H'. destruct H as (Hi & -> & -> & -> & -> & -> & ->). destruct H' as (Hi' & -> & -> & -> & -> & -> & ->).
    cbv zeta. assert (HiL : i + 1 - (n - 1) < n) by (unfold Proof_FineLayer.L in Hi'; lia). rewrite upper_heights3 by lia.
    assert (Ed' : dist n i = i - (n - 1)) by (rewrite (dist_up _ _ _ _ _ HX) by lia; lia).
    assert (Ed : dist n (i + 1) = S (dist n i)) by (rewrite !(dist_up _ _ _ _ _ HX) by lia; lia).
    replace (i + 1 - (n - 1)) with (S (dist n i)) by lia. pose proof (dist_lt _ _ _ _ _ HX _ Hi') as Hd. rewrite Ed in Hd.
    unfold Proof_Hex8FineLayer.T, Proof_FineLayer.W, Proof_FineLayer.Hy. rewrite Ed. set (d := dist n i) in *. clearbody d.
    destruct (le_lt_dec (2 * S d) nfine) as [H|H].
    + pose proof (g3_fine _ _ _ _ _ _ _ _ _ G _ Hd H) as Q. unfold Proof_Hex8FineLayer.lay, fine1 in Q. injection Q as _ _ _ ->.
      split; (split; [discriminate|]); intros (Q & _); lia.
    + pose proof (g3_rule _ _ _ _ _ _ _ _ _ G _ Hd H) as E. pose proof (next3_rule nelx nelz ((nely + 1) / 2) (lay d) (nsum (S d) y) (li_unit _ _ _ _ _ (lay_inv d ltac:(lia)))) as Q.
      rewrite <- E in Q. unfold rule3 in Q. cbn [lx ly lz lt Proof_Hex8FineLayer.lay] in Q. destruct Q as [Q1 Q2]. split; [rewrite Q1|rewrite Q2]; tauto.
  - rewrite <- (firstn_all (skipn (n - 1) (g_nhy m))). replace (length (skipn (n - 1) (g_nhy m))) with n.
    + rewrite upper_heights3 by lia. apply G.
    + rewrite skipn_length. cbn [g_nhy HFL_of]. rewrite tab1_len. unfold Proof_FineLayer.L. lia.
  - rewrite upper_heights3 by lia. apply G.
Qed.

(** total height *)
Lemma lower3 : nsum (n - 1) Hy + 1 = nsum n y.
Proof.
  pose proof n1 as Hn.
  assert (A : forall j, j <= n - 1 -> nsum j Hy + nsum (n - j) y = nsum n y).
  { induction j as [|j IHj]; intros Hj; [now rewrite Nat.sub_0_r|]. rewrite <- IHj by lia. replace (n - j) with (S (n - S j)) by lia. cbn [nsum].
    replace (Hy j) with (y (n - S j)); [lia|]. unfold Proof_FineLayer.Hy. rewrite dist_low by lia. f_equal. lia. }
  specialize (A (n - 1) ltac:(lia)). replace (n - (n - 1)) with 1 in A by lia. cbn [nsum Nat.add] in A. pose proof (l3_y0 _ _ _ _ _ _ _ HL) as E0. rewrite E0 in A. exact A.
Qed.
Lemma Y_half3 : Y L + 1 = 2 * nsum n y.
Proof.
  pose proof n1 as Hn. pose proof lower3 as A.
  assert (B : forall k, nsum (n - 1 + k) Hy = nsum (n - 1) Hy + nsum k y).
  { induction k as [|k IH]; [rewrite Nat.add_0_r; cbn; lia|]. replace (n - 1 + S k) with (S (n - 1 + k)) by lia. cbn [nsum]. rewrite IH.
    unfold Proof_FineLayer.Hy at 2. rewrite (dist_up _ _ _ _ _ HX) by lia. replace (n - 1 + k - (n - 1)) with k by lia. lia. }
  unfold Proof_FineLayer.Y. replace L with (n - 1 + n) by (unfold Proof_FineLayer.L; lia). rewrite B. lia.
Qed.
Lemma Y_mid3 : Y (n - 1) + 1 = nsum n y.
Proof. exact lower3. Qed.
Lemma nely_spec3 : g_nely m = Y L.
Proof. unfold g_nely. cbn [g_nhy HFL_of]. apply sum_tab1. Qed.
Lemma nelx_spec3 : g_nelx m = nelx.
Proof.
  pose proof (n_L _ _ _ _ _ HX) as HnL. unfold g_nelx. cbn [g_layer_nelx HFL_of]. pose proof (W_NX _ _ _ _ _ HX (n - 1) HnL) as E. rewrite (W_mid _ _ _ _ _ HX) in E.
  rewrite (amax_tab1 _ _ (n - 1)); [lia|assumption|]. intros i Hi. pose proof (W_NX _ _ _ _ _ HX i Hi). pose proof (W_pos _ _ _ _ _ HX i Hi). nia.
Qed.
Lemma nelz_spec3 : g_nelz m = nelz.
Proof.
  pose proof (n_L _ _ _ _ _ HZ) as HnL. unfold g_nelz. cbn [g_layer_nelz HFL_of]. pose proof (W_NX _ _ _ _ _ HZ (n - 1) HnL) as E. rewrite (W_mid _ _ _ _ _ HZ) in E.
  rewrite (amax_tab1 _ _ (n - 1)); [lia|assumption|]. intros i Hi. pose proof (W_NX _ _ _ _ _ HZ i Hi). pose proof (W_pos _ _ _ _ _ HZ i Hi). nia.
Qed.

Lemma height3 : nely <= g_nely m + 1 /\ (Nat.Odd nely -> nely <= g_nely m) /\
  ((forall t, In t (g_refine m) -> t = (-1)%Z) -> g_nely m = (nely + 1) / 2 * 2 - 1).
Proof.
  pose proof n1 as Hn.
  rewrite nely_spec3. pose proof Y_half3 as E. pose proof (g3_enough _ _ _ _ _ _ _ _ _ G) as E1. pose proof (g3_last _ _ _ _ _ _ _ _ _ G) as E2.
  pose proof (Nat.div_mod (nely + 1) 2 ltac:(lia)) as D. pose proof (Nat.mod_upper_bound (nely + 1) 2 ltac:(lia)) as M. split; [lia|]. split.
  - intros [k Hk]. replace ((nely + 1) mod 2) with 0 in D; [lia|]. symmetry. rewrite Hk. replace (2 * k + 1 + 1) with ((k + 1) * 2) by lia. now apply Nat.mod_mul.
  - intros Hr. assert (R1 : forall d, d < n -> r d = (-1)%Z).
    { intros d Hd. specialize (Hr (T (n - 1 + d))). unfold Proof_Hex8FineLayer.T in Hr. rewrite (dist_up _ _ _ _ _ HX) in Hr by lia. replace (n - 1 + d - (n - 1)) with d in Hr by lia. apply Hr.
      cbn [g_refine HFL_of]. replace (r d) with (T (n - 1 + d)); [apply (in_map T), in_seq; unfold Proof_FineLayer.L; lia|].
      unfold Proof_Hex8FineLayer.T. rewrite (dist_up _ _ _ _ _ HX) by lia. f_equal. lia. }
    assert (R0 : forall d, d < n -> wx d = 1 /\ wz d = 1).
    { induction d as [|d IH]; intros Hd.
      - pose proof (g3_fine _ _ _ _ _ _ _ _ _ G 0 ltac:(lia) ltac:(lia)) as Q. injection Q as -> _ -> _. auto.
      - destruct (IH ltac:(lia)) as [I1 I2]. specialize (R1 _ Hd). destruct (l_step _ _ _ _ _ HX d Hd) as [(_ & -> & _)|(B1 & _)]; [|unfold rx, isx in B1; rewrite R1 in B1; discriminate B1].
        destruct (l_step _ _ _ _ _ HZ d Hd) as [(_ & -> & _)|(B1 & _)]; [auto|unfold rz, isz in B1; rewrite R1 in B1; discriminate B1]. }
    assert (S0 : forall k, k <= n -> nsum k y = k).
    { induction k as [|k IH]; intros Hk; [reflexivity|]. cbn. rewrite IH by lia. destruct (R0 k ltac:(lia)) as [A B]. specialize (R1 k ltac:(lia)).
      destruct (li_shape _ _ _ _ _ (lay_inv k ltac:(lia))) as [[_ Q]|[Q _]]; cbn [lt ly lx lz Proof_Hex8FineLayer.lay] in Q; [rewrite Q, A, B; cbn; lia|rewrite R1 in Q; destruct Q; discriminate]. }
    rewrite S0 in E, E1 by lia. rewrite S0 in E2 by lia. lia.
Qed.

(** the middle layer *)
Lemma middle3_eq : g_elementsMiddleLayer m = Ok (map (fun i => SE3 nelx nelz n wx wz r (n - 1) + i) (seq 0 (nelx * nelz))).
Proof.
  pose proof n1 as Hn. pose proof (n_L _ _ _ _ _ HX) as HnL. unfold g_elementsMiddleLayer. rewrite layers_m3, (L_half n).
  cbn [g_layer_nelx g_layer_nelz g_startElem HFL_of]. rewrite !tab1_get by assumption. cbn [bind].
  pose proof (W_NX _ _ _ _ _ HX _ HnL) as E1. rewrite (W_mid _ _ _ _ _ HX) in E1. pose proof (W_NX _ _ _ _ _ HZ _ HnL) as E2. rewrite (W_mid _ _ _ _ _ HZ) in E2.
  replace (NX (n - 1)) with nelx by lia. replace (NZ (n - 1)) with nelz by lia. set (s := SE3 nelx nelz n wx wz r (n - 1)). clearbody s.
  set (ws := forin2 (seq 0 nelx) (seq 0 nelz) (fun x z => (x + z * nelx, Some (s + x + z * nelx)))).
  assert (Iw : forall k v, In (k, v) ws <-> k < nelx * nelz /\ v = Some (s + k)).
  { intros k v. unfold ws. rewrite In_forin2. split.
    - intros (x & z & Hx & Hz & Q). apply in_seq in Hx, Hz. injection Q as -> ->. split; [nia|f_equal; lia].
    - intros [Hk ->]. rewrite Nat.mul_comm in Hk. destruct (split2 _ _ _ Hk) as (z & x & A1 & A2 & ->). exists x, z. rewrite !in_seq. split; [lia|]. split; [lia|]. now rewrite Nat.add_assoc. }
  destruct (write_all_Ok ws (repeat None (nelx * nelz))) as (a & Ea & La & _ & _ & Va).
  { intros k v Hk. apply Iw in Hk. rewrite repeat_length. lia. }
  rewrite Ea. cbn [bind]. apply mapM_Ok. intros i Hi. apply in_seq in Hi. destruct (Va i) as (v & Iv & Ev).
  { apply in_map_iff. exists (i, Some (s + i)). split; [reflexivity|]. apply Iw. split; [lia|reflexivity]. }
  apply Iw in Iv. destruct Iv as [_ ->]. unfold get_init. now rewrite Ev.
Qed.

Lemma middle3_at i : i < nelx * nelz -> exists E, nth_error C (SE3 nelx nelz n wx wz r (n - 1) + i) = Some E /\
  cube_at X E (h * INR (i mod nelx)) (h * INR (Y (n - 1))) (h * INR (i / nelx)) h.
Proof.
  intros Hi. pose proof n1 as Hn. pose proof (n_L _ _ _ _ _ HX) as HnL.
  pose proof (W_NX _ _ _ _ _ HX _ HnL) as E1. rewrite (W_mid _ _ _ _ _ HX) in E1. pose proof (W_NX _ _ _ _ _ HZ _ HnL) as E2. rewrite (W_mid _ _ _ _ _ HZ) in E2.
  pose proof (Rf_mid _ _ _ _ _ HX) as RX. pose proof (Rf_mid _ _ _ _ _ HZ) as RZ.
  set (ix := i mod nelx). set (iz := i / nelx). assert (Hx0 : nelx <> 0) by nia.
  assert (Di : i = nelx * iz + ix) by (apply Nat.div_mod; assumption). assert (Hix : ix < nelx) by (apply Nat.mod_upper_bound; assumption).
  assert (Hiz : iz < nelz) by (apply Nat.div_lt_upper_bound; lia).
  assert (Et : tm3 n r (n - 1) = sqs) by (unfold tm3; now rewrite RX, RZ).
  assert (K : elem_case3 nelx nelz n wx wz r (SE3 nelx nelz n wx wz r (n - 1) + i) (n - 1) ix iz (KX, sq)).
  { apply (Elem_case3 _ _ _ _ _ _ _ _ _ _ _ 0); [exact HnL|lia|lia|now rewrite Et|]. rewrite Et. cbn [sqs length]. replace (NX (n - 1)) with nelx by lia. lia. }
  pose proof (case_facts _ _ _ _ _ _ _ HL _ _ _ _ _ K) as (_ & _ & _ & _ & EC & _ & Hc). eexists. split; [exact EC|].
  assert (ES : sx n wx r (n - 1) = 1 /\ sy n y r (n - 1) = 1 /\ sz n wz r (n - 1) = 1).
  { destruct (size_facts _ _ _ _ _ _ _ HL _ HnL) as (_ & _ & _ & A & B & D). rewrite RX in A. rewrite RZ in D. rewrite RX, RZ in B. rewrite (W_mid _ _ _ _ _ HX) in A. rewrite (W_mid _ _ _ _ _ HZ) in D.
    replace (Hy (n - 1)) with 1 in B; [cbn in A, B, D; lia|]. unfold Proof_FineLayer.Hy. rewrite dist_low by lia. replace (n - 1 - (n - 1)) with 0 by lia. symmetry. apply HL. }
  destruct ES as (S1 & S2 & S3).
  assert (P : forall u v w, In (u, v, w) (Proof_Hex8FineLayerMesh.corners3 (KX, sq)) -> node_at3 X (nd nelx nelz n wx wz r (n - 1) ix iz (u, v, w)) (h * INR ix + h * INR u) (h * INR (Y (n - 1)) + h * INR v) (h * INR iz + h * INR w)).
  { intros u v w I. pose proof (corner_at _ _ _ _ _ _ _ h _ _ _ _ _ (Hc _ I)) as Q. unfold pt, org, scl, tc in Q. rewrite S1, S2, S3, (W_mid _ _ _ _ _ HX), (W_mid _ _ _ _ _ HZ), !Nat.mul_1_l in Q.
    cbn [INR] in Q. rewrite Rmult_1_r in Q. exact Q. }
  cbn [Proof_Hex8FineLayerMesh.corners3 sq tX map] in P |- *. unfold cube_at. do 8 eexists. split; [reflexivity|].
  assert (Aux : forall p a b c a' b' c', node_at3 X p a b c -> a = a' -> b = b' -> c = c' -> node_at3 X p a' b' c') by (intros p a b c a' b' c' Q <- <- <-; exact Q).
  refine (conj _ (conj _ (conj _ (conj _ (conj _ (conj _ (conj _ _))))))); (eapply Aux; [apply P; cbn; auto 12| | |]); cbn [INR fst snd]; ring.
Qed.
End Thm.

(** ** the object that the constructor returns *)
Lemma T3_terminates : forall nelx nely nelz h nfine, 1 <= nelx -> 1 <= nely -> 1 <= nelz -> exists m, HexFineLayer_init nelx nely nelz h nfine = Some (Ok m).
Proof. intros nelx nely nelz h nfine Hx Hy Hz. destruct (HexFineLayer_init_spec nelx nely nelz h nfine Hx Hy Hz) as (n & wx & wz & y & r & E & _). eauto. Qed.

Lemma Rf0 n (r : nat -> Z) (f : Z -> bool) t : f t = false -> r (dist n 0) = t -> Rf n (fun d => f (r d)) 0 = false.
Proof. intros H E. unfold Rf. now rewrite E. Qed.

(** degrees of freedom, if some nodes are not tied *)
Lemma partial_dofs3 X Lx Ly Lz ndim ties (b : R) : (0 < Lx)%R -> (0 < Ly)%R -> (0 < Lz)%R -> in_domain3 X Lx Ly Lz -> wf_ties (length X) ties ->
  (forall a c x y z x' y' z', In (a, c) ties -> node_at3 X a x y z -> node_at3 X c x' y' z' -> congruent3 Lx Ly Lz x y z x' y' z') ->
  lists_nodes3 X (map snd ties) (fun x y z => (x = Lx \/ y = Ly \/ z = Lz) /\ ~ outermost_inner Lx Ly Lz b x y z) ->
  exists D, dofsPeriodic (length X) ndim ties = Ok D /\ Spec.shape2 D (length X) ndim /\
   (forall m i v x y z m' i' v' x' y' z', at2 D m i = Some v -> at2 D m' i' = Some v' -> node_at3 X m x y z -> node_at3 X m' x' y' z' ->
      (v = v' -> i = i' /\ congruent3 Lx Ly Lz x y z x' y' z') /\
      (~ outermost_inner Lx Ly Lz b x y z -> ~ outermost_inner Lx Ly Lz b x' y' z' -> (v = v' <-> i = i' /\ congruent3 Lx Ly Lz x y z x' y' z'))) /\
   (forall v, In v (concat D) <-> v < (length X - length ties) * ndim).
Proof.
  intros PX PY PZ [Hpos [Hdom Hinj]] Hwf Hcong [Hnd Hdep].
  destruct (dofsPeriodic_spec (length X) ndim ties Hwf) as [D [HD [HS [Heq Hcount]]]].
  exists D. split; [exact HD|]. split; [exact HS|]. split; [|exact Hcount].
  assert (Hrep : forall m x y z, node_at3 X m x y z -> exists r u v w, represents ties m r /\ node_at3 X r u v w /\ congruent3 Lx Ly Lz u v w x y z /\
     (~ outermost_inner Lx Ly Lz b x y z -> (0 <= u < Lx)%R /\ (0 <= v < Ly)%R /\ (0 <= w < Lz)%R)).
  { intros m x y z Hm. destruct (represents_exists ties m) as [r Hr].
    assert (Hrl : r < length X) by (eapply represents_lt; eauto; eapply node_at3_lt; eauto).
    destruct (Hpos r Hrl) as [u [v [w Hu]]]. exists r, u, v, w. split; [exact Hr|]. split; [exact Hu|].
    assert (Hc : congruent3 Lx Ly Lz u v w x y z).
    { destruct Hr as [Hr|[-> _]]; [eapply Hcong; eauto|]. destruct (node_at3_fun _ _ _ _ _ _ _ _ Hu Hm) as [-> [-> ->]]. apply congruent3_refl. }
    split; [exact Hc|]. intros Ho. pose proof (Hdom _ _ _ _ Hu) as Hd.
    assert (Hnr : ~ In r (map snd ties)).
    { destruct Hr as [Hr|[-> Hr]]; [|exact Hr]. destruct Hwf as [_ [_ Hind]]. apply Hind. apply in_map_iff. exists (r, m). auto. }
    assert (Hb : ~ (u = Lx \/ v = Ly \/ w = Lz)).
    { intro Hup. assert (Ou : outermost_inner Lx Ly Lz b u v w).
      { apply NNPP. intros Hn. apply Hnr, Hdep. exists u, v, w. auto. }
      destruct Hr as [Hr|[-> _]]; [|destruct (node_at3_fun _ _ _ _ _ _ _ _ Hu Hm) as [-> [-> ->]]; contradiction].
      assert (Hm' : In m (map snd ties)) by (apply in_map_iff; exists (r, m); auto). apply Hdep in Hm'. destruct Hm' as (x0 & y0 & z0 & A & Hup' & _).
      destruct (node_at3_fun _ _ _ _ _ _ _ _ A Hm) as [-> [-> ->]]. pose proof (Hdom _ _ _ _ Hm) as Hd'.
      destruct Hc as (p & q & s & Ep & Eq & Es). destruct Ou as (Ow & Ov & On).
      assert (F : forall k L a b, (0 < a < L)%R -> (0 <= b <= L)%R -> (b = a + IZR k * L)%R -> b = a).
      { intros k L a c Ha Hc Ek. assert (k = 0%Z); [|subst k; lra].
        assert (-1 < k < 1)%Z; [|lia]. split; apply lt_IZR; nra. }
      unfold inside in *. assert (y = v) by (apply (F q Ly v y); [exact Ov|lra|exact Eq]). clear Eq. subst y.
      destruct Ow as [[-> Hi]|[-> Hi]].
      - assert (x = u) by (apply (F p Lx u x); [exact Hi|lra|exact Ep]). clear Ep. subst x. apply Ho. split; [|split; auto]. left. split; [|auto]. destruct Hup' as [Q|[Q|Q]]; [lra|lra|exact Q].
      - assert (z = w) by (apply (F s Lz w z); [exact Hi|lra|exact Es]). clear Es. subst z. apply Ho. split; [|split; auto]. right. split; [|auto]. destruct Hup' as [Q|[Q|Q]]; [exact Q|lra|lra]. }
    assert (u <> Lx /\ v <> Ly /\ w <> Lz) by tauto. lra. }
  intros m i v x y z m' i' v' x' y' z' Hv Hv' Hm Hm'.
  destruct (Hrep m x y z Hm) as [r [a [b0 [c [Hr [Hra [Hc Hi]]]]]]].
  destruct (Hrep m' x' y' z' Hm') as [r' [a' [b' [c' [Hr' [Hra' [Hc' Hi']]]]]]].
  destruct (Heq m i r v m' i' r' v' Hr Hv Hr' Hv') as [E _].
  assert (S1 : v = v' -> i = i' /\ congruent3 Lx Ly Lz x y z x' y' z').
  { rewrite E. intros [-> ->]. split; [reflexivity|]. destruct (node_at3_fun _ _ _ _ _ _ _ _ Hra Hra') as [-> [-> ->]].
    eapply congruent3_trans; [|exact Hc']. apply congruent3_sym. exact Hc. }
  split; [exact S1|]. intros O1 O2. split; [exact S1|]. specialize (Hi O1). specialize (Hi' O2).
  rewrite E. intros [-> Hcc]. split; [|reflexivity].
  assert (HH : congruent3 Lx Ly Lz a b0 c a' b' c').
  { eapply congruent3_trans; [exact Hc|]. eapply congruent3_trans; [exact Hcc|]. now apply congruent3_sym. }
  destruct HH as [p [q [s [Hp [Hq Hs]]]]].
  apply mod_unique in Hp; [|lra|lra]. apply mod_unique in Hq; [|lra|lra]. apply mod_unique in Hs; [|lra|lra]. subst.
  eapply Hinj; eauto.
Qed.

Section Init.
Variables (nelx nely nelz nfine : nat) (h : R) (m : HexFineLayer).
Hypothesis Hx : 1 <= nelx.
Hypothesis Hy1 : 1 <= nely.
Hypothesis Hz : 1 <= nelz.
Hypothesis E : HexFineLayer_init nelx nely nelz h nfine = Some (Ok m).

Lemma the_mesh3 : exists n wx wz y r, m = HFL_of nelx nelz n wx wz y r h /\ greedy3 nelx nely nelz nfine n wx wz y r.
Proof. destruct (HexFineLayer_init_spec nelx nely nelz h nfine Hx Hy1 Hz) as (n & wx & wz & y & r & E' & G). exists n, wx, wz, y, r. split; [congruence|exact G]. Qed.

Lemma T3_structure : g_h m = h /\ g_nelx m = nelx /\ g_nelz m = nelz /\
  (exists c, layer_structure3 nelx nely nelz nfine c (g_nhx m) (g_nhy m) (g_nhz m) (g_layer_nelx m) (g_layer_nelz m) (g_refine m)) /\
  g_nely m = total (g_nhy m) /\ nely <= g_nely m + 1 /\ (Nat.Odd nely -> nely <= g_nely m) /\
  ((forall t, In t (g_refine m) -> t = (-1)%Z) -> g_nely m = (nely + 1) / 2 * 2 - 1).
Proof.
  destruct the_mesh3 as (n & wx & wz & y & r & -> & G). split; [reflexivity|]. split; [eapply nelx_spec3; exact G|]. split; [eapply nelz_spec3; exact G|]. split; [exists (n - 1); exact (structure3 _ _ _ _ _ _ _ _ _ h G)|].
  split; [reflexivity|]. exact (height3 _ _ _ _ _ _ _ _ _ h G).
Qed.

Lemma T3_mesh : exists X C, g_coor m = Ok X /\ g_conn m = Ok C /\ Spec.shape2 X (g_nnode m) 3 /\ Spec.shape2 C (g_nelem m) 8 /\
  (forall e p, In e C -> In p e -> p < g_nnode m) /\ (forall p, p < g_nnode m -> exists e, In e C /\ In p e).
Proof.
  destruct the_mesh3 as (n & wx & wz & y & r & -> & G). pose proof (g3_layered _ _ _ _ _ _ _ _ _ G) as HL.
  set (h1 := 1%R). pose proof (HFL_tiles nelx nelz n wx wz y r h1 HL ltac:(subst h1; lra)) as T. pose proof (HFL_in_domain nelx nelz n wx wz y r h1 HL ltac:(subst h1; lra)) as Dm.
  exists (coorl3 nelx nelz n wx wz y r h), (connl3 nelx nelz n wx wz r). split; [now apply coor3_spec|]. split; [now apply conn3_spec|].
  assert (EL : length (coorl3 nelx nelz n wx wz y r h) = length (coorl3 nelx nelz n wx wz y r h1)) by now rewrite !coorl3_length.
  assert (EN : length (coorl3 nelx nelz n wx wz y r h) = g_nnode (HFL_of nelx nelz n wx wz y r h)) by (rewrite coorl3_length; reflexivity).
  split; [|split; [|split]].
  - split; [exact EN|]. intros x Hin. apply In_nth_error in Hin. destruct Hin as (p & Hp).
    assert (Hl : p < SN3 nelx nelz n wx wz r (L n) + NN3 nelx nelz n wx wz (L n)) by (rewrite <- (coorl3_length nelx nelz n wx wz y r h); apply nth_error_Some; congruence).
    destruct (node_cases3 _ _ _ _ _ y _ HL p Hl) as (a & b & c & K). apply (node_case3_pos _ _ _ _ _ _ _ h) in K. unfold pos3, rowc3 in K. rewrite Hp in K. injection K as ->. reflexivity.
  - split; [apply connl3_length|]. intros e He. destruct (t3_jacobian _ _ _ _ _ T e He) as (x & (Hl & _) & _). exact Hl.
  - intros e p He Hp. rewrite <- EN, EL. destruct (t3_jacobian _ _ _ _ _ T e He) as (x & (Hl & Hn) & _). apply In_nth_error in Hp. destruct Hp as (k & Hk).
    apply nth_error_Some. specialize (Hn _ _ Hk). unfold node_at3 in Hn. congruence.
  - intros p Hp. apply (t3_used _ _ _ _ _ T). now rewrite <- EL, EN.
Qed.

Lemma T3_geometry : (0 < h)%R -> exists X C, g_coor m = Ok X /\ g_conn m = Ok C /\
  tiles3 X C (h * INR nelx) (h * INR (g_nely m)) (h * INR nelz) /\ in_domain3 X (h * INR nelx) (h * INR (g_nely m)) (h * INR nelz).
Proof.
  intros Hh. destruct the_mesh3 as (n & wx & wz & y & r & -> & G). pose proof (g3_layered _ _ _ _ _ _ _ _ _ G) as HL.
  exists (coorl3 nelx nelz n wx wz y r h), (connl3 nelx nelz n wx wz r). split; [now apply coor3_spec|]. split; [now apply conn3_spec|]. rewrite nely_spec3.
  split; [now apply HFL_tiles|now apply HFL_in_domain].
Qed.

Lemma T3_middle : exists X C l, g_coor m = Ok X /\ g_conn m = Ok C /\ g_elementsMiddleLayer m = Ok l /\ length l = nelx * nelz /\
  (forall i e, nth_error l i = Some e -> exists E, nth_error C e = Some E /\
     cube_at X E (h * INR (i mod nelx)) (h * INR ((g_nely m - 1) / 2)) (h * INR (i / nelx)) h).
Proof.
  destruct the_mesh3 as (n & wx & wz & y & r & -> & G). pose proof (g3_layered _ _ _ _ _ _ _ _ _ G) as HL.
  exists (coorl3 nelx nelz n wx wz y r h), (connl3 nelx nelz n wx wz r). eexists. split; [now apply coor3_spec|]. split; [now apply conn3_spec|]. split; [eapply middle3_eq; exact G|].
  split; [now rewrite map_length, seq_length|]. intros i e He. rewrite nth_error_map, nth_error_seq in He. destruct (Nat.ltb_spec i (nelx * nelz)) as [Hi|]; [|discriminate He]. cbn in He. injection He as <-.
  rewrite nely_spec3. replace ((Y n y (L n) - 1) / 2) with (Y n y (n - 1)); [exact (middle3_at _ _ _ _ _ _ _ _ _ h G i Hi)|].
  pose proof (Y_half3 _ _ _ _ _ _ _ _ _ G) as Q1. pose proof (Y_mid3 _ _ _ _ _ _ _ _ _ G) as Q2. replace (Y n y (L n) - 1) with (Y n y (n - 1) * 2) by lia. symmetry. now apply Nat.div_mul.
Qed.

Notation Lx := (h * INR nelx)%R.
Notation Ly := (h * INR (g_nely m))%R.
Notation Lz := (h * INR nelz)%R.
Notation is_list X := (fun lP : res (list nat) * (R -> R -> R -> Prop) => exists l, fst lP = Ok l /\ lists_nodes3 X l (snd lP)).

Lemma T3_faces : (0 < h)%R -> exists X, g_coor m = Ok X /\ Forall (is_list X)
  [ (g_nodesFront m, fun x y z => z = 0%R); (g_nodesBack m, fun x y z => z = Lz);
    (g_nodesLeft m, fun x y z => x = 0%R); (g_nodesRight m, fun x y z => x = Lx);
    (g_nodesBottom m, fun x y z => y = 0%R); (g_nodesTop m, fun x y z => y = Ly) ].
Proof.
  intros Hh. destruct the_mesh3 as (n & wx & wz & y & r & -> & G). pose proof (g3_layered _ _ _ _ _ _ _ _ _ G) as HL. rewrite nely_spec3.
  eexists. split; [now apply coor3_spec|now apply faces3].
Qed.
Lemma T3_edges : (0 < h)%R -> exists X, g_coor m = Ok X /\ Forall (is_list X)
   [ (g_nodesFrontBottomEdge m, fun x y z => z = 0%R /\ y = 0%R); (g_nodesFrontTopEdge m, fun x y z => z = 0%R /\ y = Ly);
     (g_nodesFrontLeftEdge m, fun x y z => z = 0%R /\ x = 0%R); (g_nodesFrontRightEdge m, fun x y z => z = 0%R /\ x = Lx);
     (g_nodesBackBottomEdge m, fun x y z => z = Lz /\ y = 0%R); (g_nodesBackTopEdge m, fun x y z => z = Lz /\ y = Ly);
     (g_nodesBackLeftEdge m, fun x y z => z = Lz /\ x = 0%R); (g_nodesBackRightEdge m, fun x y z => z = Lz /\ x = Lx);
     (g_nodesBottomLeftEdge m, fun x y z => y = 0%R /\ x = 0%R); (g_nodesBottomRightEdge m, fun x y z => y = 0%R /\ x = Lx);
     (g_nodesTopLeftEdge m, fun x y z => y = Ly /\ x = 0%R); (g_nodesTopRightEdge m, fun x y z => y = Ly /\ x = Lx) ].
Proof.
  intros Hh. destruct the_mesh3 as (n & wx & wz & y & r & -> & G). pose proof (g3_layered _ _ _ _ _ _ _ _ _ G) as HL. rewrite nely_spec3.
  eexists. split; [now apply coor3_spec|now apply edges3].
Qed.
Lemma T3_open_edges : (0 < h)%R -> exists X, g_coor m = Ok X /\ Forall (is_list X)
   [ (g_nodesFrontBottomOpenEdge m, fun x y z => z = 0%R /\ y = 0%R /\ inside Lx x); (g_nodesFrontTopOpenEdge m, fun x y z => z = 0%R /\ y = Ly /\ inside Lx x);
     (g_nodesFrontLeftOpenEdge m, fun x y z => z = 0%R /\ x = 0%R /\ inside Ly y); (g_nodesFrontRightOpenEdge m, fun x y z => z = 0%R /\ x = Lx /\ inside Ly y);
     (g_nodesBackBottomOpenEdge m, fun x y z => z = Lz /\ y = 0%R /\ inside Lx x); (g_nodesBackTopOpenEdge m, fun x y z => z = Lz /\ y = Ly /\ inside Lx x);
     (g_nodesBackLeftOpenEdge m, fun x y z => z = Lz /\ x = 0%R /\ inside Ly y); (g_nodesBackRightOpenEdge m, fun x y z => z = Lz /\ x = Lx /\ inside Ly y);
     (g_nodesBottomLeftOpenEdge m, fun x y z => y = 0%R /\ x = 0%R /\ inside Lz z); (g_nodesBottomRightOpenEdge m, fun x y z => y = 0%R /\ x = Lx /\ inside Lz z);
     (g_nodesTopLeftOpenEdge m, fun x y z => y = Ly /\ x = 0%R /\ inside Lz z); (g_nodesTopRightOpenEdge m, fun x y z => y = Ly /\ x = Lx /\ inside Lz z) ].
Proof.
  intros Hh. destruct the_mesh3 as (n & wx & wz & y & r & -> & G). pose proof (g3_layered _ _ _ _ _ _ _ _ _ G) as HL. rewrite nely_spec3.
  eexists. split; [now apply coor3_spec|now apply open_edges3].
Qed.
Lemma T3_corners : exists X, g_coor m = Ok X /\ Forall (fun cP => exists p, fst cP = Ok p /\ match snd cP with (x, y, z) => node_at3 X p x y z end)
   [ (g_nodesFrontBottomLeftCorner m, (0, 0, 0)%R); (g_nodesFrontBottomRightCorner m, (Lx, 0, 0)%R); (g_nodesFrontTopLeftCorner m, (0, Ly, 0)%R); (g_nodesFrontTopRightCorner m, (Lx, Ly, 0)%R);
     (g_nodesBackBottomLeftCorner m, (0, 0, Lz)%R); (g_nodesBackBottomRightCorner m, (Lx, 0, Lz)%R); (g_nodesBackTopLeftCorner m, (0, Ly, Lz)%R); (g_nodesBackTopRightCorner m, (Lx, Ly, Lz)%R) ].
Proof.
  destruct the_mesh3 as (n & wx & wz & y & r & -> & G). pose proof (g3_layered _ _ _ _ _ _ _ _ _ G) as HL. rewrite nely_spec3.
  eexists. split; [now apply coor3_spec|now apply corners3].
Qed.

Lemma refine0 n wx wz y r : 1 <= n -> nth_error (g_refine (HFL_of nelx nelz n wx wz y r h)) 0 = Some (r (dist n 0)).
Proof. intros Hn. cbn [g_refine HFL_of]. rewrite tab1_nth_error by (unfold L; lia). reflexivity. Qed.

Lemma T3_open_faces_x : (0 < h)%R -> nth_error (g_refine m) 0 <> Some 0%Z -> exists X, g_coor m = Ok X /\ Forall (is_list X)
  [ (g_nodesFrontFace m, fun x y z => z = 0%R /\ inside Lx x /\ inside Ly y); (g_nodesBackFace m, fun x y z => z = Lz /\ inside Lx x /\ inside Ly y) ].
Proof.
  intros Hh. destruct the_mesh3 as (n & wx & wz & y & r & -> & G). pose proof (g3_layered _ _ _ _ _ _ _ _ _ G) as HL. rewrite nely_spec3.
  rewrite refine0 by exact (n1 _ _ _ _ _ _ _ _ _ G). intros Hr. eexists. split; [now apply coor3_spec|]. apply open_faces3_x; [exact HL|exact Hh|]. unfold Rf, rx, isx.
  destruct (Z.eqb_spec (r (dist n 0)) 0); congruence.
Qed.
Lemma T3_open_faces_z : (0 < h)%R -> nth_error (g_refine m) 0 <> Some 2%Z -> exists X, g_coor m = Ok X /\ Forall (is_list X)
  [ (g_nodesLeftFace m, fun x y z => x = 0%R /\ inside Ly y /\ inside Lz z); (g_nodesRightFace m, fun x y z => x = Lx /\ inside Ly y /\ inside Lz z) ].
Proof.
  intros Hh. destruct the_mesh3 as (n & wx & wz & y & r & -> & G). pose proof (g3_layered _ _ _ _ _ _ _ _ _ G) as HL. rewrite nely_spec3.
  rewrite refine0 by exact (n1 _ _ _ _ _ _ _ _ _ G). intros Hr. eexists. split; [now apply coor3_spec|]. apply open_faces3_z; [exact HL|exact Hh|]. unfold Rf, rz, isz.
  destruct (Z.eqb_spec (r (dist n 0)) 2); congruence.
Qed.
Lemma T3_win_faces : (0 < h)%R -> exists X b, g_coor m = Ok X /\ nth_error (g_nhy m) 0 = Some b /\
  let between y := (h * INR b <= y <= Ly - h * INR b)%R in Forall (is_list X)
  [ (g_nodesFrontFace m, fun x y z => z = 0%R /\ inside Lx x /\ between y); (g_nodesBackFace m, fun x y z => z = Lz /\ inside Lx x /\ between y);
    (g_nodesLeftFace m, fun x y z => x = 0%R /\ between y /\ inside Lz z); (g_nodesRightFace m, fun x y z => x = Lx /\ between y /\ inside Lz z);
    (g_nodesBottomFace m, fun x y z => y = 0%R /\ inside Lx x /\ inside Lz z); (g_nodesTopFace m, fun x y z => y = Ly /\ inside Lx x /\ inside Lz z) ].
Proof.
  intros Hh. destruct the_mesh3 as (n & wx & wz & y & r & -> & G). pose proof (g3_layered _ _ _ _ _ _ _ _ _ G) as HL. rewrite nely_spec3. pose proof (n1 _ _ _ _ _ _ _ _ _ G) as Hn.
  eexists. exists (Hy n y 0). split; [now apply coor3_spec|]. split; [cbn [g_nhy HFL_of]; apply tab1_nth_error; unfold L; lia|]. cbv zeta. exact (win_faces3 _ _ _ _ _ _ _ h HL Hh).
Qed.

Lemma T3_periodic : (0 < h)%R -> nth_error (g_refine m) 0 = Some (-1)%Z -> exists X ties D, g_coor m = Ok X /\ g_nodesPeriodic m = Ok ties /\ g_dofsPeriodic m = Ok D /\
  periodic_ties3 X Lx Ly Lz ties /\ periodic_dofs3 X Lx Ly Lz 3 D ((g_nnode m - length ties) * 3).
Proof.
  intros Hh. destruct the_mesh3 as (n & wx & wz & y & r & -> & G). pose proof (g3_layered _ _ _ _ _ _ _ _ _ G) as HL. rewrite nely_spec3. pose proof (n1 _ _ _ _ _ _ _ _ _ G) as Hn.
  rewrite refine0 by exact Hn. intros Hr. injection Hr as Hr. pose proof (ties_eq _ _ _ _ _ _ _ h HL) as Et.
  destruct (periodic_facts _ _ _ _ _ _ _ h HL Hh) as (_ & _ & _ & P). assert (PT := P ltac:(unfold Rf, rx, isx; now rewrite Hr) ltac:(unfold Rf, rz, isz; now rewrite Hr)).
  destruct (periodic_dofs3_generic _ _ _ _ 3 _ (HFL_in_domain _ _ _ _ _ _ _ h HL Hh) PT) as (D & ED & PD).
  do 2 eexists. exists D. split; [now apply coor3_spec|]. split; [exact Et|]. rewrite coorl3_length in ED, PD. split; [unfold g_dofsPeriodic; rewrite Et; exact ED|]. split; [exact PT|exact PD].
Qed.

Lemma T3_periodic_partial : (0 < h)%R -> exists X ties D b, g_coor m = Ok X /\ g_nodesPeriodic m = Ok ties /\ g_dofsPeriodic m = Ok D /\ nth_error (g_nhy m) 0 = Some b /\
  let left_out := outermost_inner Lx Ly Lz (h * INR b) in
  wf_ties (g_nnode m) ties /\
  (forall a c x y z x' y' z', In (a, c) ties -> node_at3 X a x y z -> node_at3 X c x' y' z' -> congruent3 Lx Ly Lz x y z x' y' z') /\
  lists_nodes3 X (map snd ties) (fun x y z => (x = Lx \/ y = Ly \/ z = Lz) /\ ~ left_out x y z) /\
  Spec.shape2 D (g_nnode m) 3 /\
  (forall p i v x y z p' i' v' x' y' z', at2 D p i = Some v -> at2 D p' i' = Some v' -> node_at3 X p x y z -> node_at3 X p' x' y' z' ->
      (v = v' -> i = i' /\ congruent3 Lx Ly Lz x y z x' y' z') /\
      (~ left_out x y z -> ~ left_out x' y' z' -> (v = v' <-> i = i' /\ congruent3 Lx Ly Lz x y z x' y' z'))) /\
  (forall v, In v (concat D) <-> v < (g_nnode m - length ties) * 3).
Proof.
  intros Hh. destruct the_mesh3 as (n & wx & wz & y & r & -> & G). pose proof (g3_layered _ _ _ _ _ _ _ _ _ G) as HL. rewrite nely_spec3. pose proof (n1 _ _ _ _ _ _ _ _ _ G) as Hn.
  pose proof (ties_eq _ _ _ _ _ _ _ h HL) as Et. destruct (periodic_facts _ _ _ _ _ _ _ h HL Hh) as (Pw & Pc & Pl & _).
  set (b := (h * INR (Hy n y 0))%R). set (X := coorl3 nelx nelz n wx wz y r h) in *. set (ties := nodesPeriodic3d _) in *.
  assert (Pl' : lists_nodes3 X (map snd ties) (fun u v w => (u = Lx \/ v = (h * INR (Y n y (L n)))%R \/ w = Lz) /\ ~ outermost_inner Lx (h * INR (Y n y (L n))) Lz b u v w)).
  { destruct Pl as [N I]. split; [exact N|]. intros p. rewrite (I p). split; intros (u & v & w & A & B); exists u, v, w; (split; [exact A|]); unfold tied, outermost_inner, win in *; fold b in B |- *; tauto. }
  assert (P1 : (0 < Lx)%R) by (apply Rmult_lt_0_compat; [exact Hh|apply lt_0_INR; lia]). assert (P3 : (0 < Lz)%R) by (apply Rmult_lt_0_compat; [exact Hh|apply lt_0_INR; lia]).
  assert (P2 : (0 < h * INR (Y n y (L n)))%R).
  { apply Rmult_lt_0_compat; [exact Hh|apply lt_0_INR]. pose proof (Y_half3 _ _ _ _ _ _ _ _ _ G). pose proof (Y_mid3 _ _ _ _ _ _ _ _ _ G). lia. }
  destruct (partial_dofs3 X _ _ _ 3 ties b P1 P2 P3 (HFL_in_domain _ _ _ _ _ _ _ h HL Hh) Pw Pc Pl') as (D & ED & HS & HD & HC).
  assert (EN : length X = g_nnode (HFL_of nelx nelz n wx wz y r h)) by (unfold X; rewrite coorl3_length; reflexivity). rewrite EN in ED, HS, HC, Pw.
  exists X, ties, D, (Hy n y 0). split; [now apply coor3_spec|]. split; [exact Et|]. split; [unfold g_dofsPeriodic; rewrite Et; exact ED|].
  split; [cbn [g_nhy HFL_of]; apply tab1_nth_error; unfold L; lia|]. cbv zeta. fold b. split; [exact Pw|]. split; [exact Pc|]. split; [exact Pl'|]. split; [exact HS|]. split; [exact HD|exact HC].
Qed.
End Init.
