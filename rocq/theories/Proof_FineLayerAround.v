(** Quad4::FineLayer: [elementgrid_leftright] and [elementgrid_around_ravel]. *)
From Coq Require Import Reals ZArith Lra Sorted.
From Verif Require Import Base Spec Spec2d Spec_Tiling Spec_FineLayer Model_Numbering Model_Regular2d Model_FineLayer Proof_Vector Proof_Regular2d Proof_FineLayer Proof_FineLayerMesh Proof_FineLayerTiling Proof_FineLayerArea Proof_FineLayerBoundary Proof_FineLayerRoll Proof_FineLayerThm Proof_FineLayerGrid.

Lemma mod_down x d : 1 <= d -> exists k, x - x mod d = k * d /\ k * d <= x < k * d + d.
Proof.
  intros H. exists (x / d). pose proof (Nat.div_mod x d ltac:(lia)). pose proof (Nat.mod_upper_bound x d ltac:(lia)). nia.
Qed.

Lemma columns_spec mid N nel dx left right : mid < nel -> nel = N * dx -> 1 <= dx -> dx <= right \/ dx = 1 ->
  exists a b, columns mid nel dx left right = Ok (a * dx, b * dx) /\
    a * dx <= mid - left < a * dx + dx /\ b * dx <= nel /\ mid < b * dx /\
    Nat.min nel (mid + right) <= b * dx <= mid + right + dx /\ (dx = 1 -> b * dx = Nat.min nel (mid + right + 1)).
Proof.
  intros Hm HN Hd Hr. unfold columns.
  replace (if left <=? mid then mid - left else 0) with (mid - left) by (destruct (Nat.leb_spec left mid); lia).
  replace (if mid + right <? nel then mid + right + 1 else nel) with (Nat.min nel (mid + right + 1)) by (destruct (Nat.ltb_spec (mid + right) nel); lia).
  destruct (mod_down (mid - left) dx Hd) as (a & Ea & Ha). destruct (mod_down (Nat.min nel (mid + right + 1)) dx Hd) as (b & Eb & Hb). rewrite Ea, Eb.
  unfold usub. destruct (Nat.ltb_spec mid (a * dx)); [lia|]. cbn [bind].
  assert (EA : (if mid - a * dx <? left then if a * dx <? dx then 0 else a * dx - dx else a * dx) = a * dx).
  { destruct (Nat.ltb_spec (mid - a * dx) left); [|reflexivity]. assert (mid < left) by lia. assert (a = 0) by nia. subst a. cbn. destruct dx; reflexivity. }
  rewrite EA. clear EA.
  assert (Hbm : mid <= b * dx).
  { destruct (le_lt_dec nel (mid + right + 1)) as [G|G].
    - rewrite Nat.min_l in * by lia. assert (b = N) by nia. subst b. lia.
    - rewrite Nat.min_r in * by lia. destruct Hr; lia. }
  destruct (Nat.ltb_spec (b * dx) mid); [lia|]. cbn [bind]. assert (HdN : dx <= nel) by (subst nel; destruct N; lia).
  destruct (Nat.ltb_spec nel dx); [lia|]. cbn [bind].
  destruct (Nat.ltb_spec (b * dx - mid) right) as [G|G].
  - destruct (Nat.ltb_spec (nel - dx) (b * dx)) as [G'|G'].
    + assert (b = N) by nia. subst b. exists a, N. rewrite HN. split; [reflexivity|]. lia.
    + exists a, (b + 1). replace ((b + 1) * dx) with (b * dx + dx) by lia. split; [reflexivity|]. split; [lia|]. split; [lia|]. split; [lia|]. split; [lia|].
      intros ->. lia.
  - exists a, b. split; [reflexivity|]. split; [lia|]. split; [lia|]. destruct Hr as [Hr|Hr]; [split; [lia|]; split; [lia|]; intros ->; lia|]. subst dx. lia.
Qed.

Section Around.
Variables (nelx nely nfine n : nat) (w y : nat -> nat) (r : nat -> bool) (h : R).
Hypothesis G : greedy nelx nely nfine n w y r.
Let HL := g_layered _ _ _ _ _ _ _ G.
Notation L := (L n).
Notation W := (W n w).
Notation Hy := (Hy n y).
Notation Rf := (Rf n r).
Notation NX := (NX nelx n w).
Notation NE := (NE nelx n w r).
Notation SE := (SE nelx n w r).
Notation Y := (Y n y).
Notation X := (coorl nelx n w y r h).
Notation C := (connl nelx n w r).
Notation m := (FL_of nelx n w y r h).
Notation tm := (tm n r).
Notation elem_case := (elem_case nelx n w r).
Notation q := (q nelx n w).
Notation rolll := (rolll nelx n w r).
Notation c := (n - 1).

Lemma NX_mid : NX c = nelx.
Proof. pose proof (W_NX _ _ _ _ _ HL c (n_L _ _ _ _ _ HL)) as E. rewrite (W_mid _ _ _ _ _ HL) in E. lia. Qed.
Hypothesis Hn2 : 2 <= n.
Lemma NE_mid : NE c = nelx.
Proof. unfold Proof_FineLayer.NE. rewrite (Rf_mid _ _ _ _ _ HL). apply NX_mid. Qed.
Lemma Hy_mid : Hy c = 1.
Proof. unfold Proof_FineLayer.Hy. rewrite dist_low by lia. rewrite Nat.sub_diag. apply HL. Qed.
Lemma Y_mid1 : Y (c + 1) = Y c + 1.
Proof. rewrite Nat.add_1_r. change (Y (S c)) with (Y c + Hy c). now rewrite Hy_mid. Qed.
Lemma SE_S i : SE (S i) = SE i + NE i. Proof. reflexivity. Qed.
Lemma Y_S i : Y (S i) = Y i + Hy i. Proof. reflexivity. Qed.
Lemma layers_m : f_layers m = L.
Proof. unfold f_layers. cbn [f_nhy FL_of]. apply tab1_len. Qed.

Lemma layer_of_mid i : i < nelx -> argmin_le (SE c + i) (f_startElem m) = n.
Proof.
  intros Hi. cbn [f_startElem FL_of]. pose proof (n_L _ _ _ _ _ HL). assert (n < L) by (unfold Proof_FineLayer.L; lia).
  unfold argmin_le. apply argmax_unique; [now rewrite tab1_len| |].
  - unfold tab1. rewrite nth_map_seq by assumption. assert (Q : SE n = SE c + nelx) by (pose proof (SE_S c) as Q; rewrite NE_mid in Q; rewrite <- Q; f_equal; lia). rewrite Q. destruct (Nat.leb_spec (SE c + nelx) (SE c + i)); [lia|reflexivity].
  - intros j Hj. unfold tab1. rewrite nth_map_seq by lia. pose proof (nsum_le j c NE ltac:(lia)) as Q. fold (SE j) (SE c) in Q. destruct (Nat.leb_spec (SE j) (SE c + i)); [reflexivity|lia].
Qed.
Lemma step_spec : amax (f_nhx m) = W 0.
Proof.
  cbn [f_nhx FL_of]. pose proof (n_L _ _ _ _ _ HL). apply amax_tab1; [lia|]. intros i Hi. destruct (q_spec _ _ _ _ _ HL i Hi) as [_ E].
  pose proof (W_pos _ _ _ _ _ HL 0 ltac:(lia)). assert (1 <= q i) by (destruct (q i); lia). nia.
Qed.

Definition midcol (i : nat) : nat := NX 0 / 2 * W 0 + i mod W 0.
Lemma midcol_lt i : midcol i < nelx.
Proof.
  pose proof (n_L _ _ _ _ _ HL). pose proof (W_NX _ _ _ _ _ HL 0 ltac:(lia)) as E. pose proof (W_pos _ _ _ _ _ HL 0 ltac:(lia)) as P. pose proof (NX_pos _ _ _ _ _ HL 0 ltac:(lia)) as P'.
  pose proof (Nat.mod_upper_bound i (W 0) ltac:(lia)). pose proof (Nat.div_lt (NX 0) 2 ltac:(lia) ltac:(lia)). unfold midcol. nia.
Qed.
Lemma roll_to_mid_spec i : i < nelx -> exists nroll d, roll_to_mid (SE c + i) nelx (SE c) (W 0) = Ok (midcol i, nroll) /\ nroll * W 0 + i = midcol i + d * nelx.
Proof.
  intros Hi. pose proof (n_L _ _ _ _ _ HL). pose proof (W_NX _ _ _ _ _ HL 0 ltac:(lia)) as E. pose proof (W_pos _ _ _ _ _ HL 0 ltac:(lia)) as P. pose proof (NX_pos _ _ _ _ _ HL 0 ltac:(lia)) as P'.
  unfold roll_to_mid, usub. destruct (Nat.ltb_spec (SE c + i) (SE c)); [lia|]. cbn [bind]. replace (SE c + i - SE c) with i by lia.
  replace (nelx / W 0) with (NX 0) by reflexivity.
  replace ((NX 0 - NX 0 mod 2) / 2) with (NX 0 / 2).
  2:{ pose proof (Nat.div_mod (NX 0) 2 ltac:(lia)). replace (NX 0 - NX 0 mod 2) with (NX 0 / 2 * 2) by lia. now rewrite Nat.div_mul by lia. }
  fold (midcol i). pose proof (midcol_lt i). destruct (Nat.ltb_spec nelx (midcol i)); [lia|]. cbn [bind].
  replace (nelx - midcol i + (SE c + i) - SE c) with (nelx - midcol i + i) by lia.
  set (t := (nelx - midcol i + i) mod nelx). pose proof (Nat.div_mod (nelx - midcol i + i) nelx ltac:(lia)) as D. fold t in D. set (d := (nelx - midcol i + i) / nelx) in *.
  pose proof (Nat.mod_upper_bound (nelx - midcol i + i) nelx ltac:(lia)) as B. fold t in B.
  assert (DV : exists k, nelx - t = k * W 0).
  { pose proof (Nat.div_mod i (W 0) ltac:(lia)) as Di. unfold midcol in *. set (u := NX 0 / 2) in *. set (v := i / W 0) in *. set (s := i mod W 0) in *.
    assert (Hu : u <= NX 0) by (subst u; apply Nat.div_le_upper_bound; lia).
    assert (Ht : t + d * nelx + u * W 0 = nelx + v * W 0) by lia. rewrite <- E in *.
    exists (d * NX 0 + u - v). rewrite Nat.mul_sub_distr_r. nia. }
  destruct DV as [k Ek]. exists k, d. rewrite Ek, Nat.div_mul by lia. split; [reflexivity|]. rewrite <- Ek. lia.
Qed.

Lemma elem_mid p : p < nelx -> exists T, elem_case (SE c + p) c p T.
Proof.
  intros Hp. pose proof (n_L _ _ _ _ _ HL) as HnL. assert (E : exists T, tm c = [T]) by (unfold Proof_FineLayerMesh.tm; rewrite (Rf_mid _ _ _ _ _ HL); eauto).
  destruct E as [T E]. exists T. apply (Elem_case _ _ _ _ _ _ _ _ 0); [exact HnL|now rewrite NX_mid|now rewrite E|rewrite E; cbn [length]; lia].
Qed.
Lemma q_mid : q c = W 0.
Proof. destruct (q_spec _ _ _ _ _ HL c (n_L _ _ _ _ _ HL)) as [_ E]. rewrite (W_mid _ _ _ _ _ HL) in E. lia. Qed.

Lemma roll_mid i p nroll d : i < nelx -> p < nelx -> nroll * W 0 + i = midcol i + d * nelx ->
  nth_error (rolll nroll) (SE c + p) = Some (SE c + (p + i + (nelx - midcol i)) mod nelx).
Proof.
  intros Hi Hp Hr. destruct (elem_mid p Hp) as [T K]. destruct (roll_nth _ _ _ _ _ HL nroll _ _ _ _ K) as (e' & ix' & z & E1 & K' & Ez).
  rewrite E1. f_equal. rewrite q_mid, NX_mid in Ez. pose proof (midcol_lt i). assert (Hix : ix' < nelx) by (destruct K' as [? ? Q]; rewrite NX_mid in Q; exact Q).
  replace ((p + i + (nelx - midcol i)) mod nelx) with ix'.
  - destruct (elem_mid ix' Hix) as [T' K2]. destruct K' as [j' _ _ Hj' ->], K2 as [j2 _ _ Hj2 E2]. assert (E : exists T, tm c = [T]) by (unfold Proof_FineLayerMesh.tm; rewrite (Rf_mid _ _ _ _ _ HL); eauto).
    destruct E as [T0 E]. rewrite E in *. destruct j' as [|[|j']]; try discriminate Hj'. cbn [length]. lia.
  - pose proof (Nat.div_mod (p + i + (nelx - midcol i)) nelx ltac:(lia)) as D. pose proof (Nat.mod_upper_bound (p + i + (nelx - midcol i)) nelx ltac:(lia)) as B.
    set (s := (p + i + (nelx - midcol i)) mod nelx) in *. set (v := (p + i + (nelx - midcol i)) / nelx) in *.
    apply (mod_col nelx ix' s (1 + d) (z + v) (ix' + (1 + d) * nelx)); [assumption|exact B|reflexivity|nia].
Qed.

Lemma get_H k : k < L -> get (cumsum (f_nhy m)) k = Ok (Y (k + 1)).
Proof. intros H. rewrite cumsum_spec. now rewrite tab1_get. Qed.

Lemma ravel_mid a b : a < b <= nelx -> elementgrid_ravel m (Some (Y c, Y (c + 1))) (Some (a, b)) = Ok (seq (SE c + a) (b - a)).
Proof.
  intros Hab. pose proof (n_L _ _ _ _ _ HL) as HnL. unfold elementgrid_ravel. cbn [fst snd]. rewrite Y_mid1. destruct (Nat.eqb_spec (Y c) (Y c + 1)); [lia|]. destruct (Nat.eqb_spec a b); [lia|]. cbn [orb].
  assert (E1 : (if 0 <? Y c then argmax (fun x => Y c <? x) (cumsum (f_nhy m)) else 0) = c).
  { destruct (Nat.ltb_spec 0 (Y c)) as [Q|Q]; [apply argmax_lo; [exact HnL|rewrite Y_mid1; lia]|].
    exfalso. assert (Hy 0 <= Y c) by (pose proof (nsum_le 1 c Hy ltac:(lia)) as Q1; cbn [nsum] in Q1; exact Q1). pose proof (Hy_pos _ _ _ _ _ HL 0 ltac:(lia)). lia. }
  rewrite E1. rewrite (argmax_hi _ _ _ _ _ _ (Y c + 1) c) by (try exact HnL; rewrite Y_mid1; lia).
  cbn [f_nhx FL_of]. rewrite !tab1_get by lia. cbn [bind]. rewrite (W_mid _ _ _ _ _ HL). rewrite Nat.max_id, !Nat.mod_1_r, !Nat.div_1_r, !Nat.sub_0_r.
  unfold usub. destruct (Nat.ltb_spec b a); [lia|]. cbn [bind]. unfold arange. replace (c + 1 - c) with 1 by lia. cbn [seq].
  rewrite (concatM_Ok _ (fun _ => seq (SE c + a) (b - a))); [cbn [flat_map]; now rewrite app_nil_r|].
  intros i [<-|[]]. cbn [f_nhx f_refine f_startElem FL_of]. rewrite !tab1_get by lia. cbn [bind]. rewrite (W_mid _ _ _ _ _ HL), (Rf_mid _ _ _ _ _ HL). cbn [Zr Z.eqb Pos.eqb].
  rewrite !Nat.mul_1_r, !Nat.div_1_r. f_equal. apply map_add_seq'.
Qed.

Lemma leftright_spec i left right : i < nelx -> exists M ret,
  elementsMiddleLayer m = Ok M /\ elementgrid_leftright m (SE c + i) left right true = Ok ret /\ M = seq (SE c) nelx /\
  ret = map (fun p => SE c + (p + i + (nelx - midcol i)) mod nelx) (seq (midcol i - left) (Nat.min nelx (midcol i + right + 1) - (midcol i - left))).
Proof.
  intros Hi. pose proof (n_L _ _ _ _ _ HL) as HnL. pose proof (midcol_lt i) as Hm. pose proof (L_half n) as Hh.
  eexists _, _. split; [|split; [|split; reflexivity]].
  - unfold elementsMiddleLayer. rewrite layers_m, Hh. cbn [f_startElem f_layer_nelx FL_of]. rewrite !tab1_get by assumption. cbn [bind]. f_equal. rewrite NX_mid. apply map_add_seq'.
  - unfold elementgrid_leftright. cbn [negb]. rewrite layer_of_mid by assumption. unfold usub at 1. destruct (Nat.ltb_spec n 1); [lia|]. cbn [bind].
    rewrite layers_m, Hh. rewrite Nat.eqb_refl. cbn [negb]. rewrite step_spec. cbn [f_layer_nelx f_startElem f_nhx FL_of]. rewrite !tab1_get by assumption. cbn [bind]. rewrite NX_mid, (W_mid _ _ _ _ _ HL).
    destruct (roll_to_mid_spec i Hi) as (nroll & d & E & Er). rewrite E. cbn [bind fst snd].
    destruct (columns_spec (midcol i) nelx nelx 1 left right Hm ltac:(lia) ltac:(lia) ltac:(lia)) as (a & b & Ec & Ha & _ & _ & _ & Hb). specialize (Hb eq_refl). rewrite !Nat.mul_1_r in *.
    rewrite Ec. cbn [bind].
    change (tab1 L Hy) with (f_nhy m). destruct (Nat.ltb_spec 0 c); [|lia]. rewrite !get_H by lia. cbn [bind]. replace (c - 1 + 1) with c by lia.
    change (mkFL _ _ _ _ _ _ _ _ _ _ _) with m. rewrite ravel_mid by lia. cbn [bind]. rewrite (roll_spec _ _ _ _ _ _ HL). cbn [bind].
    replace a with (midcol i - left) by lia. replace b with (Nat.min nelx (midcol i + right + 1)) by lia.
    set (p0 := midcol i - left). set (k := Nat.min nelx (midcol i + right + 1) - p0).
    replace (seq (SE c + p0) k) with (map (Nat.add (SE c)) (seq p0 k)).
    2:{ replace (SE c + p0) with (p0 + SE c) by lia. rewrite <- map_add_seq. apply map_ext. intros; lia. }
    rewrite (mapM_Ok _ _ (fun e => SE c + (e - SE c + i + (nelx - midcol i)) mod nelx)).
    + rewrite map_map. f_equal. apply map_ext. intros p. do 3 f_equal. lia.
    + intros e He. apply in_map_iff in He. destruct He as (p & <- & Hp). apply in_seq in Hp. unfold get. rewrite (roll_mid i p nroll d) by (try assumption; subst k; lia).
      replace (SE c + p - SE c) with p by lia. reflexivity.
Qed.

(** ** around an element *)
Lemma w_dist d : d < n -> w d = 1 \/ w d <= nsum d y.
Proof.
  induction d as [|d IH]; intros Hd; [left; apply HL|]. destruct (l_step _ _ _ _ _ HL d Hd) as [(_ & E & _)|(E & E1 & _)].
  - rewrite E. destruct (IH ltac:(lia)) as [Q|Q]; [now left|right; cbn [nsum]; lia].
  - right. rewrite E1. apply (g_rule _ _ _ _ _ _ _ G d Hd) in E. apply E.
Qed.
Lemma Y_upper k : Y (c + k) = Y c + nsum k y.
Proof.
  induction k as [|k IH]; [rewrite Nat.add_0_r; cbn; lia|]. replace (c + S k) with (S (c + k)) by lia. rewrite Y_S, IH. cbn [nsum].
  unfold Proof_FineLayer.Hy. rewrite (dist_up _ _ _ _ _ HL) by lia. replace (c + k - c) with k by lia. lia.
Qed.
Lemma Y_sym k : k <= L -> Y (L - k) + Y k = Y L.
Proof.
  induction k as [|k IH]; intros Hk; [rewrite Nat.sub_0_r; unfold Proof_FineLayer.Y; cbn; lia|]. rewrite <- (IH ltac:(lia)). rewrite Y_S. replace (L - k) with (S (L - S k)) by lia. rewrite Y_S.
  replace (Hy (L - S k)) with (Hy k); [lia|]. unfold Proof_FineLayer.Hy. f_equal. rewrite <- dist_sym by lia. f_equal. lia.
Qed.
Lemma Y_total : Y L = 2 * Y c + 1.
Proof. pose proof (Y_half _ _ _ _ _ _ _ G). pose proof (Y_mid _ _ _ _ _ _ _ G). lia. Qed.
Lemma Y_mono i j : i <= j -> Y i <= Y j.
Proof. apply nsum_le. Qed.
Lemma Y_strict i j : i < j -> j <= L -> Y i < Y j.
Proof. intros H Hj. pose proof (Y_mono (S i) j ltac:(lia)). rewrite Y_S in *. pose proof (Hy_pos _ _ _ _ _ HL i ltac:(lia)). lia. Qed.

(** [e] is [e'] shifted: the boxes are shifted likewise *)
Lemma translated_within E E' D x0 x1 y0 y1 : translated X E E' D -> (exists a b c' d e f g i, quad X E' a b c' d e f g i) ->
  (element_within X E x0 x1 y0 y1 <-> element_within X E' (x0 - D) (x1 - D) y0 y1).
Proof.
  intros HT (a1 & b1 & a2 & b2 & a3 & b3 & a4 & b4 & HQ). pose proof (HT _ _ _ _ _ _ _ _ HQ) as HQ'.
  destruct HQ as (n0 & n1 & n2 & n3 & -> & P0 & P1 & P2 & P3). destruct HQ' as (m0 & m1 & m2 & m3 & -> & P0' & P1' & P2' & P3').
  split; intros Hw p px' py' Hp Hpos.
  - cbn in Hp. destruct Hp as [<-|[<-|[<-|[<-|[]]]]].
    + destruct (node_at_fun _ _ _ _ _ _ P0 Hpos) as [<- <-]. specialize (Hw m0 _ _ ltac:(cbn; tauto) P0'). lra.
    + destruct (node_at_fun _ _ _ _ _ _ P1 Hpos) as [<- <-]. specialize (Hw m1 _ _ ltac:(cbn; tauto) P1'). lra.
    + destruct (node_at_fun _ _ _ _ _ _ P2 Hpos) as [<- <-]. specialize (Hw m2 _ _ ltac:(cbn; tauto) P2'). lra.
    + destruct (node_at_fun _ _ _ _ _ _ P3 Hpos) as [<- <-]. specialize (Hw m3 _ _ ltac:(cbn; tauto) P3'). lra.
  - cbn in Hp. destruct Hp as [<-|[<-|[<-|[<-|[]]]]].
    + destruct (node_at_fun _ _ _ _ _ _ P0' Hpos) as [<- <-]. specialize (Hw n0 _ _ ltac:(cbn; tauto) P0). lra.
    + destruct (node_at_fun _ _ _ _ _ _ P1' Hpos) as [<- <-]. specialize (Hw n1 _ _ ltac:(cbn; tauto) P1). lra.
    + destruct (node_at_fun _ _ _ _ _ _ P2' Hpos) as [<- <-]. specialize (Hw n2 _ _ ltac:(cbn; tauto) P2). lra.
    + destruct (node_at_fun _ _ _ _ _ _ P3' Hpos) as [<- <-]. specialize (Hw n3 _ _ ltac:(cbn; tauto) P3). lra.
Qed.

(** two boxes of the width of the mesh, a multiple of this width apart, contain no common element *)
Lemma within_period E Lx (z : Z) y0 y1 y0' y1' : (exists p x v p' x' v', In p E /\ In p' E /\ node_at X p x v /\ node_at X p' x' v' /\ (x < x')%R) -> (0 < Lx)%R ->
  element_within X E 0 Lx y0 y1 -> element_within X E (IZR z * Lx) (Lx + IZR z * Lx) y0' y1' -> z = 0%Z.
Proof.
  intros (p & x & v & p' & x' & v' & Hp & Hp' & P & P' & Hlt) HLx H1 H2.
  destruct (H1 p x v Hp P) as [A1 _]. destruct (H1 p' x' v' Hp' P') as [A2 _]. destruct (H2 p x v Hp P) as [B1 _]. destruct (H2 p' x' v' Hp' P') as [B2 _].
  assert (-1 < IZR z < 1)%R as [Z1 Z2] by nra. apply lt_IZR in Z1, Z2. lia.
Qed.

Lemma around_all e size : e < SE (c + 1) -> SE c <= e -> Y L <= 2 * size -> elementgrid_around_ravel m e size true = Ok (seq 0 (SE L)).
Proof.
  intros He1 He2 Hs. pose proof (n_L _ _ _ _ _ HL) as HnL. rewrite Nat.add_1_r, SE_S, NE_mid in He1. replace e with (SE c + (e - SE c)) by lia. set (i := e - SE c). assert (Hi : i < nelx) by (subst i; lia).
  unfold elementgrid_around_ravel. cbn [negb]. rewrite layer_of_mid by assumption. unfold usub at 1. destruct (Nat.ltb_spec n 1); [lia|]. cbn [bind].
  rewrite layers_m, (L_half n), Nat.eqb_refl. cbn [negb]. cbn [f_layer_nelx FL_of]. rewrite tab1_get by assumption. cbn [bind].
  replace (length (cumsum (f_nhy m)) - 1) with (L - 1) by (rewrite cumsum_spec, tab1_len; reflexivity). rewrite get_H by lia. replace (L - 1 + 1) with L by lia. cbn [bind].
  destruct (Nat.leb_spec (Y L) (2 * size)); [reflexivity|lia].
Qed.

Lemma around_spec i size : (0 < h)%R -> i < nelx -> 2 * size < Y L ->
  exists ret yl yu a b, elementgrid_around_ravel m (SE c + i) size true = Ok ret /\ NoDup ret /\ (forall e, In e ret -> e < SE L) /\
    yl + yu = L - 1 /\ Y yl <= Y c - size < Y (yl + 1) /\ Y yu < Y c + 1 + size <= Y (yu + 1) /\
    (W yu <= size \/ W yu = 1) /\
    a <= midcol i /\ b <= nelx - midcol i /\
    (size <= a < size + W yu \/ a = midcol i /\ midcol i < size) /\
    (size <= b <= size + W yu \/ b = nelx - midcol i /\ nelx - midcol i <= size) /\ 1 <= b /\
    forall e E, nth_error C e = Some E ->
      (In e ret <-> exists z : Z, element_within X E (h * (INR i - INR a) + IZR z * (h * INR nelx)) (h * (INR i + INR b) + IZR z * (h * INR nelx)) (h * INR (Y yl)) (h * INR (Y (yu + 1)))).
Proof.
  intros Hh Hi Hs. pose proof (n_L _ _ _ _ _ HL) as HnL. pose proof (midcol_lt i) as Hm. pose proof Y_total as YT. pose proof Y_mid1 as Ym.
  (* layers *)
  destruct (row_layer n y (Y c - size) ltac:(lia)) as (yl & Hl & El).
  set (yu := L - 1 - yl). assert (Hlu : yl + yu = L - 1) by (subst yu; lia). assert (Hu : yu < L) by lia.
  assert (Eu : Y yu < Y c + 1 + size <= Y (yu + 1)).
  { pose proof (Y_sym (yl + 1) ltac:(lia)) as Q1. pose proof (Y_sym yl ltac:(lia)) as Q2. replace (L - (yl + 1)) with yu in Q1 by lia. replace (L - yl) with (yu + 1) in Q2 by lia. lia. }
  assert (Hcu : c <= yu). { destruct (le_lt_dec c yu); [assumption|]. pose proof (Y_mono (yu + 1) c ltac:(lia)). lia. }
  assert (Hlc : yl <= c) by (unfold Proof_FineLayer.L in *; lia).
  assert (WW : W yl = W yu).
  { unfold Proof_FineLayer.W. f_equal. rewrite <- (dist_sym n yl) by assumption. reflexivity. }
  assert (Wu : W yu <= size \/ W yu = 1).
  { unfold Proof_FineLayer.W. rewrite (dist_up _ _ _ _ _ HL) by assumption. destruct (w_dist (yu - c)) as [Q|Q]; [unfold Proof_FineLayer.L in *; lia|now right|left].
    pose proof (Y_upper (yu - c)) as Q1. replace (c + (yu - c)) with yu in Q1 by lia. lia. }
  pose proof (W_pos _ _ _ _ _ HL yu Hu) as Wp.
  assert (WN : nelx = NX yu * W yu) by (pose proof (W_NX _ _ _ _ _ HL yu Hu); lia).
  destruct (roll_to_mid_spec i Hi) as (nroll & d & E & Er).
  destruct (columns_spec (midcol i) (NX yu) nelx (W yu) size size Hm WN Wp Wu) as (a & b & Ec & Ha & Hb1 & Hb2 & Hb3 & _).
  destruct (ravel_spec nelx n w y r h HL Hh (Y yl) (Y (yu + 1)) (a * W yu) (b * W yu)) as (ret & yl' & yu' & E1 & E2 & E3 & E4 & E5 & E6 & E7).
  { pose proof (Y_strict yl (yu + 1) ltac:(lia) ltac:(lia)). pose proof (Y_mono (yu + 1) L ltac:(lia)). lia. }
  { lia. }
  assert (yl' = yl).
  { destruct (lt_eq_lt_dec yl' yl) as [[Q|Q]|Q]; [|assumption|]; exfalso.
    - pose proof (Y_mono (yl' + 1) yl ltac:(lia)). lia.
    - pose proof (Y_strict yl yl' Q ltac:(lia)). lia. }
  assert (yu' = yu).
  { destruct (lt_eq_lt_dec yu' yu) as [[Q|Q]|Q]; [|assumption|]; exfalso.
    - pose proof (Y_strict (yu' + 1) (yu + 1) ltac:(lia) ltac:(lia)). lia.
    - pose proof (Y_mono (yu + 1) yu' ltac:(lia)). lia. }
  subst yl' yu'. rewrite WW, Nat.max_id in E7. cbv zeta in E7. rewrite !Nat.div_mul in E7 by lia.
  set (f := fun e => nth e (rolll nroll) 0).
  assert (LR : length (rolll nroll) = SE L) by apply (roll_length nelx n w r).
  exists (map f ret), yl, yu, (midcol i - a * W yu), (b * W yu - midcol i).
  split.
  { unfold elementgrid_around_ravel. cbn [negb]. rewrite layer_of_mid by assumption. unfold usub at 1. destruct (Nat.ltb_spec n 1); [lia|]. cbn [bind].
    rewrite layers_m, (L_half n), Nat.eqb_refl. cbn [negb]. rewrite step_spec. cbn [f_layer_nelx f_startElem FL_of]. rewrite !tab1_get by assumption. cbn [bind]. rewrite NX_mid.
    change (mkFL _ _ _ _ _ _ _ _ _ _ _) with m. change (tab1 L Hy) with (f_nhy m).
    replace (length (cumsum (f_nhy m)) - 1) with (L - 1) by (rewrite (cumsum_spec nelx n w y r h), tab1_len; reflexivity). rewrite get_H by lia. replace (L - 1 + 1) with L by lia. cbn [bind].
    destruct (Nat.leb_spec (Y L) (2 * size)); [lia|]. rewrite get_H by assumption. rewrite Ym. cbn [bind].
    unfold usub at 1. destruct (Nat.ltb_spec (Y c + 1) (size + 1)); [lia|]. cbn [bind]. replace (Y c + 1 - (size + 1)) with (Y c - size) by lia.
    rewrite (argmax_lo nelx n w y r h (Y c - size) yl Hl El). rewrite (argmax_hi nelx n w y r h (Y c + 1 + size) yu Hu Eu).
    assert (EH : (if 0 <? yl then get (cumsum (f_nhy m)) (yl - 1) else Ok 0) = Ok (Y yl)).
    { destruct (Nat.ltb_spec 0 yl); [rewrite get_H by lia; do 2 f_equal; lia|]. replace yl with 0 by lia. reflexivity. }
    rewrite EH. cbn [bind]. rewrite get_H by assumption. cbn [bind]. rewrite E. cbn [bind fst snd]. unfold f_nhx at 1, FL_of at 1. rewrite tab1_get by assumption. cbn [bind]. rewrite Ec. cbn [bind]. rewrite E1. cbn [bind].
    rewrite (roll_spec _ _ _ _ _ _ HL). cbn [bind]. apply mapM_Ok. intros e He. apply E6 in He. unfold get. destruct (nth_error (rolll nroll) e) as [e'|] eqn:Q; [|apply nth_error_None in Q; lia].
    unfold f. now rewrite (nth_error_nth _ _ 0 Q). }
  assert (PR : forall e, e < SE L -> nth_error (rolll nroll) e = Some (f e)).
  { intros e He. unfold f. apply nth_error_nth'. lia. }
  assert (INJ : forall e e', e < SE L -> e' < SE L -> f e = f e' -> e = e').
  { intros e e' He He' Q. assert (ND : NoDup (rolll nroll)) by (eapply Permutation_NoDup; [symmetry; apply (roll_perm nelx n w r)|apply seq_NoDup]).
    rewrite NoDup_nth_error in ND. apply ND; [lia|]. rewrite !PR by assumption. congruence. }
  split.
  { apply NoDup_nth_error. intros k k' Hk Q. rewrite map_length in Hk. rewrite !nth_error_map in Q.
    assert (NR : NoDup ret). { clear -E5. induction E5 as [|x l S IH F]; constructor; [|assumption]. intros H. rewrite Forall_forall in F. apply F in H. lia. }
    destruct (nth_error ret k) as [e|] eqn:Qk; [|apply nth_error_None in Qk; lia]. destruct (nth_error ret k') as [e'|] eqn:Qk'; [|discriminate Q]. cbn in Q. injection Q as Q.
    assert (e = e') by (apply INJ; try apply E6; try assumption; eapply nth_error_In; eassumption). subst e'. eapply NoDup_nth_error_inj; eassumption. }
  split.
  { intros e He. apply in_map_iff in He. destruct He as (e0 & <- & He). assert (Hin : In (f e0) (rolll nroll)) by (eapply nth_error_In; apply PR, E6, He).
    apply (Permutation_in _ (roll_perm nelx n w r nroll)) in Hin. apply in_seq in Hin. lia. }
  split; [exact Hlu|]. split; [exact El|]. split; [exact Eu|]. split; [exact Wu|]. split; [lia|]. split; [lia|].
  split; [destruct (le_lt_dec size (midcol i)); [left; lia|right; assert (a = 0) by nia; subst a; lia]|].
  split; [destruct (le_lt_dec (midcol i + size) nelx); [left; lia|right; split; [|lia]; lia]|]. split; [lia|].
  (* membership *)
  assert (HLx : (0 < h * INR nelx)%R) by (apply Rmult_lt_0_compat; [assumption|apply lt_0_INR; lia]).
  assert (W0N : (h * INR nelx / INR (NX 0) = h * INR (W 0))%R).
  { pose proof (W_NX _ _ _ _ _ HL 0 ltac:(lia)) as Q. pose proof (NX_pos _ _ _ _ _ HL 0 ltac:(lia)). rewrite <- Q at 1. rewrite mult_INR. field. apply not_0_INR. lia. }
  assert (Er' : (INR nroll * INR (W 0) + INR i = INR (midcol i) + INR d * INR nelx)%R) by (rewrite <- !mult_INR, <- !plus_INR; now f_equal).
  assert (BX : forall z : Z, (h * (INR i - INR (midcol i - a * W yu)) + IZR z * (h * INR nelx) = h * INR (a * W yu) - (h * INR (midcol i) - h * INR i - IZR z * (h * INR nelx)))%R /\
                             (h * (INR i + INR (b * W yu - midcol i)) + IZR z * (h * INR nelx) = h * INR (b * W yu) - (h * INR (midcol i) - h * INR i - IZR z * (h * INR nelx)))%R).
  { intros z. rewrite !minus_INR by lia. split; ring. }
  assert (K1 : forall e1 E1, nth_error C e1 = Some E1 -> In e1 (map f ret) <->
    exists z : Z, element_within X E1 (h * INR (a * W yu) - (h * INR (midcol i) - h * INR i - IZR z * (h * INR nelx))) (h * INR (b * W yu) - (h * INR (midcol i) - h * INR i - IZR z * (h * INR nelx))) (h * INR (Y yl)) (h * INR (Y (yu + 1)))).
  2:{ intros e1 E1' HE1. rewrite (K1 e1 E1' HE1). split; intros [z Q]; exists z; destruct (BX z) as [B1 B2]; rewrite ?B1, ?B2 in *; exact Q. }
  intros e1 E1' HE1.
  assert (He1 : e1 < SE L) by (rewrite <- (C_length nelx n w r); apply nth_error_Some; congruence).
  assert (SUR : exists e0, e0 < SE L /\ f e0 = e1).
  { assert (Hin : In e1 (rolll nroll)) by (apply (Permutation_in _ (Permutation_sym (roll_perm nelx n w r nroll))), in_seq; lia).
    apply In_nth_error in Hin. destruct Hin as [e0 Q]. exists e0. assert (e0 < SE L) by (rewrite <- LR; apply nth_error_Some; congruence). split; [assumption|]. rewrite PR in Q by assumption. congruence. }
  destruct SUR as (e0 & He0 & Ef).
  assert (IN : In e1 (map f ret) <-> In e0 ret).
  { rewrite in_map_iff. split; [intros (x & Q1 & Q2)|intros Q; exists e0; auto]. replace e0 with x; [assumption|]. apply INJ; [now apply E6|assumption|congruence]. }
  rewrite IN. clear IN.
  destruct (roll_translates _ _ _ _ _ _ _ h G nroll e0 He0 Hh) as (e' & E0 & E' & z0 & R1 & R2 & R3 & HT). rewrite PR, Ef in R1 by assumption. injection R1 as <-. rewrite HE1 in R3. injection R3 as <-.
  rewrite (E7 e0 E0 R2). set (D := (INR nroll * (h * INR nelx / INR (NX 0)) - INR z0 * (h * INR nelx))%R) in *.
  assert (ED : D = (h * INR (midcol i) - h * INR i - IZR (Z.of_nat z0 - Z.of_nat d) * (h * INR nelx))%R).
  { unfold D. rewrite W0N. rewrite minus_IZR, <- !INR_IZR_INZ. replace (INR nroll * (h * INR (W 0)))%R with (h * (INR nroll * INR (W 0)))%R by ring.
    replace (INR nroll * INR (W 0))%R with (INR (midcol i) + INR d * INR nelx - INR i)%R by lra. ring. }
  assert (Q1 : exists a b c' d e f g i, quad X E1' a b c' d e f g i).
  { destruct (elem_cases nelx n w r e1 He1) as (iy & ix & T & K). destruct (elem_quad _ _ _ _ _ h HL e1 iy ix T K) as (E2' & HE2 & Q & _). rewrite HE1 in HE2. injection HE2 as <-. destruct T as [[[t0 t1] t2] t3]. cbn in Q. do 8 eexists. exact Q. }
  assert (DOM : forall e E, nth_error C e = Some E -> element_within X E 0 (h * INR nelx) 0 (h * INR (Y L))).
  { intros e2 E2' HE2 p x v Hp P. pose proof (FL_in_domain _ _ _ _ _ h HL Hh) as (_ & D1 & _). exact (D1 p x v P). }
  rewrite (translated_within E0 E1' D _ _ _ _ HT Q1). split.
  - intros Q. exists (Z.of_nat z0 - Z.of_nat d)%Z. rewrite <- ED. exact Q.
  - intros [z Q]. set (D' := (h * INR (midcol i) - h * INR i - IZR z * (h * INR nelx))%R) in *.
    (* shift to the position of [e0] *)
    assert (Qz : (Z.of_nat z0 - Z.of_nat d = z)%Z).
    { symmetry. apply Zminus_eq.
      assert (Sh : element_within X E0 (h * INR (a * W yu) - D' + D) (h * INR (b * W yu) - D' + D) (h * INR (Y yl)) (h * INR (Y (yu + 1)))).
      { apply (translated_within E0 E1' D _ _ _ _ HT Q1). intros p x v Hp P. specialize (Q p x v Hp P). lra. }
      apply (within_period E0 (h * INR nelx) _ 0 (h * INR (Y L)) (h * INR (Y yl)) (h * INR (Y (yu + 1)))).
      - destruct (elem_cases nelx n w r e0 He0) as (iy & ix & T & K). destruct (elem_quad _ _ _ _ _ h HL e0 iy ix T K) as (E2' & HE2 & _ & QQ & _). rewrite R2 in HE2. injection HE2 as <-.
        assert (HT0 : In T (tm iy)) by (destruct K as [k _ _ Hk _]; now apply nth_error_In in Hk). assert (Hiy : iy < L) by now destruct K.
        destruct (block_size nelx n w y r HL iy Hiy) as (S1 & S2 & S3).
        assert (WD : exists t t', In t (tcorners T) /\ In t' (tcorners T) /\ fst t < fst t').
        { destruct (tm_kinds n r iy) as [E'|[E'|E']]; rewrite E' in HT0; cbn [lows ups In] in HT0; repeat (destruct HT0 as [<-|HT0]); try destruct HT0;
          cbn [tcorners sq];
          first [ eexists _, _; split; [left; reflexivity|]; split; [right; left; reflexivity|cbn; lia]
                | eexists _, _; split; [left; reflexivity|]; split; [right; right; left; reflexivity|cbn; lia]
                | eexists _, _; split; [right; right; left; reflexivity|]; split; [left; reflexivity|cbn; lia] ]. }
        destruct WD as (t & t' & Ht & Ht' & Hlt). destruct (QQ t Ht) as (p & Hp & Pc). destruct (QQ t' Ht') as (p' & Hp' & Pc').
        apply (corner_at _ _ _ _ _ h) in Pc, Pc'. eexists p, _, _, p', _, _. split; [exact Hp|]. split; [exact Hp'|]. split; [exact Pc|]. split; [exact Pc'|].
        unfold px. apply lt_INR in Hlt. assert (Q9 : (0 < INR (sz n w r iy))%R) by (apply lt_0_INR; lia). pose proof (Rmult_lt_0_compat _ _ Hh Q9) as Q10. assert (0 < (INR (fst t') - INR (fst t)))%R as Q11 by lra. pose proof (Rmult_lt_0_compat _ _ Q10 Q11). lra.
      - assumption.
      - exact (DOM e0 E0 R2).
      - intros p x v Hp P. specialize (Sh p x v Hp P). unfold D' in Sh. rewrite ED in Sh. rewrite !minus_IZR in *.
        assert (h * INR (b * W yu) <= h * INR nelx)%R by (apply Rmult_le_compat_l; [lra|apply le_INR; lia]).
        assert (0 <= h * INR (a * W yu))%R by (apply Rmult_le_pos; [lra|apply pos_INR]).
        destruct Sh as [[Sh1 Sh2] Sh3]. split; [|exact Sh3]. lra. }
    rewrite ED. rewrite Qz. exact Q.
Qed.
End Around.

Section Init.
Variables (nelx nely nfine : nat) (h : R) (m : FineLayer).
Hypothesis Hx : 1 <= nelx.
Hypothesis Hy1 : 1 <= nely.
Hypothesis E : FineLayer_init nelx nely h nfine = Some (Ok m).

Lemma middle_eq n w y r : m = FL_of nelx n w y r h -> greedy nelx nely nfine n w y r -> elementsMiddleLayer m = Ok (seq (SE nelx n w r (n - 1)) nelx).
Proof.
  intros -> G. pose proof (g_layered _ _ _ _ _ _ _ G) as HL. pose proof (n_L _ _ _ _ _ HL) as HnL.
  unfold elementsMiddleLayer. rewrite layers_m, (L_half n). cbn [f_startElem f_layer_nelx FL_of]. rewrite !tab1_get by assumption. cbn [bind]. f_equal.
  rewrite (NX_mid _ _ _ _ _ _ _ G). apply map_add_seq'.
Qed.

Lemma T_leftright : 1 < f_layers m -> exists M n0, elementsMiddleLayer m = Ok M /\ nth_error (f_layer_nelx m) 0 = Some n0 /\ 1 <= n0 /\
  forall i e left right, nth_error M i = Some e ->
  let c0 := nelx / n0 in
  let mid := n0 / 2 * c0 + i mod c0 in
  exists ret, elementgrid_leftright m e left right true = Ok ret /\
    length ret = Nat.min left mid + 1 + Nat.min right (nelx - 1 - mid) /\
    forall k e', nth_error ret k = Some e' -> nth_error M ((i + nelx + k - Nat.min left mid) mod nelx) = Some e'.
Proof.
  intros HL1. destruct (the_mesh _ _ _ _ _ Hx Hy1 E) as (n & w & y & r & Em & G). pose proof (g_layered _ _ _ _ _ _ _ G) as HL. pose proof (n_L _ _ _ _ _ HL) as HnL.
  pose proof (middle_eq n w y r Em G) as EM. rewrite Em in *. clear m Em E.
  rewrite layers_m in HL1. assert (Hn2 : 2 <= n) by (unfold L in HL1; lia).
  exists (seq (SE nelx n w r (n - 1)) nelx), (NX nelx n w 0). split; [exact EM|]. split; [cbn [f_layer_nelx FL_of]; apply tab1_nth_error; lia|]. split; [now apply (NX_pos _ _ _ _ _ HL); lia|].
  intros i e left right He. rewrite nth_error_seq in He. destruct (Nat.ltb_spec i nelx) as [Hi|]; [|discriminate He]. injection He as <-.
  assert (Ec0 : nelx / NX nelx n w 0 = W n w 0).
  { pose proof (W_NX _ _ _ _ _ HL 0 ltac:(lia)) as Q. pose proof (NX_pos _ _ _ _ _ HL 0 ltac:(lia)). rewrite <- Q at 1. now apply Nat.div_mul; lia. }
  cbv zeta. rewrite Ec0. change (NX nelx n w 0 / 2 * W n w 0 + i mod W n w 0) with (midcol nelx n w i).
  destruct (leftright_spec nelx nely nfine n w y r h G Hn2 i left right Hi) as (M & ret & EM' & ER & _ & Eret). clear EM'.
  pose proof (midcol_lt nelx nely nfine n w y r G Hn2 i) as Hm. set (mid := midcol nelx n w i) in *.
  exists ret. split; [exact ER|]. rewrite Eret. split; [rewrite map_length, seq_length; lia|].
  intros k e' Hk. rewrite nth_error_map, nth_error_seq in Hk. destruct (Nat.ltb_spec k (Nat.min nelx (mid + right + 1) - (mid - left))); [|discriminate Hk]. cbn in Hk. injection Hk as <-.
  rewrite nth_error_seq. replace (i + nelx + k - Nat.min left mid) with (mid - left + k + i + (nelx - mid)) by lia.
  pose proof (Nat.mod_upper_bound (mid - left + k + i + (nelx - mid)) nelx ltac:(lia)) as B. destruct (Nat.ltb_spec ((mid - left + k + i + (nelx - mid)) mod nelx) nelx); [reflexivity|lia].
Qed.

Lemma T_around_all : 1 < f_layers m -> exists M, elementsMiddleLayer m = Ok M /\
  forall e size, In e M -> f_nely m <= 2 * size -> elementgrid_around_ravel m e size true = Ok (seq 0 (f_nelem m)).
Proof.
  intros HL1. destruct (the_mesh _ _ _ _ _ Hx Hy1 E) as (n & w & y & r & Em & G). pose proof (g_layered _ _ _ _ _ _ _ G) as HL. pose proof (n_L _ _ _ _ _ HL) as HnL.
  pose proof (middle_eq n w y r Em G) as EM. rewrite Em in *. clear m Em E. rewrite layers_m in HL1. assert (Hn2 : 2 <= n) by (unfold L in HL1; lia).
  exists (seq (SE nelx n w r (n - 1)) nelx). split; [exact EM|]. intros e size He Hs. rewrite (nely_spec nelx n w y r h) in Hs. apply in_seq in He.
  apply (around_all nelx nely nfine n w y r h G Hn2 e size); [|lia|exact Hs]. rewrite Nat.add_1_r, SE_S, (NE_mid _ _ _ _ _ _ _ G). lia.
Qed.

Lemma T_around : (0 < h)%R -> 1 < f_layers m -> exists X C M n0, f_coor m = Ok X /\ f_conn m = Ok C /\ elementsMiddleLayer m = Ok M /\ nth_error (f_layer_nelx m) 0 = Some n0 /\ 1 <= n0 /\
  forall i e size, nth_error M i = Some e -> 2 * size < f_nely m ->
  let c0 := nelx / n0 in
  let mid := n0 / 2 * c0 + i mod c0 in
  let row := (f_nely m - 1) / 2 in
  exists ret yl yu dx a b, elementgrid_around_ravel m e size true = Ok ret /\ NoDup ret /\ (forall e1, In e1 ret -> e1 < f_nelem m) /\
    nth_error (f_nhx m) yu = Some dx /\ (dx <= size \/ dx = 1) /\
    total (firstn yl (f_nhy m)) <= row - size < total (firstn (yl + 1) (f_nhy m)) /\
    total (firstn yu (f_nhy m)) < row + 1 + size <= total (firstn (yu + 1) (f_nhy m)) /\
    (size <= a < size + dx \/ a = mid /\ mid < size) /\
    (size <= b <= size + dx \/ b = nelx - mid /\ nelx - mid <= size) /\ 1 <= b /\ a + b <= nelx /\
    forall e1 E1, nth_error C e1 = Some E1 ->
      (In e1 ret <-> exists z : Z, element_within X E1 (h * (INR i - INR a) + IZR z * (h * INR nelx)) (h * (INR i + INR b) + IZR z * (h * INR nelx))
          (h * INR (total (firstn yl (f_nhy m)))) (h * INR (total (firstn (yu + 1) (f_nhy m))))).
Proof.
  intros Hh HL1. destruct (the_mesh _ _ _ _ _ Hx Hy1 E) as (n & w & y & r & Em & G). pose proof (g_layered _ _ _ _ _ _ _ G) as HL. pose proof (n_L _ _ _ _ _ HL) as HnL.
  pose proof (middle_eq n w y r Em G) as EM. rewrite Em in *. clear m Em E. rewrite layers_m in HL1. assert (Hn2 : 2 <= n) by (unfold L in HL1; lia).
  exists (coorl nelx n w y r h), (connl nelx n w r), (seq (SE nelx n w r (n - 1)) nelx), (NX nelx n w 0). split; [now apply coor_spec|]. split; [now apply conn_spec|]. split; [exact EM|].
  split; [cbn [f_layer_nelx FL_of]; apply tab1_nth_error; lia|]. split; [now apply (NX_pos _ _ _ _ _ HL); lia|].
  intros i e size He Hs. rewrite (nely_spec nelx n w y r h) in Hs. rewrite nth_error_seq in He. destruct (Nat.ltb_spec i nelx) as [Hi|]; [|discriminate He]. injection He as <-.
  assert (Ec0 : nelx / NX nelx n w 0 = W n w 0).
  { pose proof (W_NX _ _ _ _ _ HL 0 ltac:(lia)) as Q. pose proof (NX_pos _ _ _ _ _ HL 0 ltac:(lia)). rewrite <- Q at 1. now apply Nat.div_mul; lia. }
  cbv zeta. rewrite Ec0. change (NX nelx n w 0 / 2 * W n w 0 + i mod W n w 0) with (midcol nelx n w i).
  assert (Erow : (f_nely (FL_of nelx n w y r h) - 1) / 2 = Y n y (n - 1)).
  { rewrite (nely_spec nelx n w y r h), (Y_total _ _ _ _ _ _ _ G Hn2). replace (2 * Y n y (n - 1) + 1 - 1) with (Y n y (n - 1) * 2) by lia. apply Nat.div_mul. lia. }
  rewrite Erow.
  destruct (around_spec nelx nely nfine n w y r h G Hn2 i size Hh Hi Hs) as (ret & yl & yu & a & b & A1 & A2 & A3 & A4 & A5 & A6 & A7 & A8 & A9 & A10 & A11 & A12 & A13).
  pose proof (midcol_lt nelx nely nfine n w y r G Hn2 i) as Hm.
  exists ret, yl, yu, (W n w yu), a, b. split; [exact A1|]. split; [exact A2|]. split; [exact A3|]. cbn [f_nhx f_nhy FL_of]. split; [apply tab1_nth_error; lia|].
  rewrite !firstn_tab1 by lia. unfold total. rewrite !sum_tab1. change (nsum ?k (Hy n y)) with (Y n y k).
  split; [exact A7|]. split; [exact A5|]. split; [exact A6|]. split; [exact A10|]. split; [exact A11|]. split; [exact A12|]. split; [lia|]. exact A13.
Qed.
End Init.
