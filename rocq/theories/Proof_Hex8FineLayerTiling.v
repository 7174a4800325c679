(** Hex8::FineLayer: the elements tile the domain. *)
From Coq Require Import Reals ZArith Lra.
From Verif Require Import Base Spec Spec2d Spec3d Spec_Element Spec_Tiling Spec_Tiling3 Model_Numbering Model_Regular2d Model_FineLayer Model_Hex8Regular Model_Hex8FineLayer
  Proof_Vector Proof_Regular2d Proof_Hex8Regular Proof_FineLayer Proof_FineLayerMesh Proof_FineLayerTiling Proof_Hex8FineLayer Proof_Hex8FineLayerMesh Proof_Hex8FineLayerElem Proof_Tiling3.

Lemma corners3_In k T u v w : In (u, v, w) (corners3 (k, T)) <-> match k with KX => In (u, v) (tcorners T) /\ v01 w | _ => In (w, v) (tcorners T) /\ v01 u end.
Proof.
  destruct T as [[[[a0 b0] [a1 b1]] [a2 b2]] [a3 b3]]. unfold v01.
  destruct k; cbn [corners3 tcorners In]; cbv [tX tZ fst snd]; split;
  (intros H; repeat match goal with H : _ /\ _ |- _ => destruct H | H : _ \/ _ |- _ => destruct H | H : (_, _) = (_, _) |- _ => injection H as <- <- | H : (_, _, _) = (_, _, _) |- _ => injection H as <- <- <- | H : False |- _ => destruct H end; subst; auto 12).
Qed.

Section Tiling.
Variables (nelx nelz n : nat) (wx wz y : nat -> nat) (r : nat -> Z) (h : R).
Hypothesis HL : layered3 nelx nelz n wx wz y r.
Hypothesis Hh : (0 < h)%R.
Notation HX := (l3_x _ _ _ _ _ _ _ HL).
Notation HZ := (l3_z _ _ _ _ _ _ _ HL).
Notation Wx := (W n wx).
Notation Wz := (W n wz).
Notation Hy := (Hy n y).
Notation Y := (Y n y).
Notation NX := (NX nelx n wx).
Notation NZ := (Proof_FineLayer.NX nelz n wz).
Notation Rx := (Rf n (rx r)).
Notation Rz := (Rf n (rz r)).
Notation L := (L n).
Notation SE := (SE3 nelx nelz n wx wz r).
Notation X := (coorl3 nelx nelz n wx wz y r h).
Notation C := (connl3 nelx nelz n wx wz r).
Notation sx := (sx n wx r).
Notation sy := (sy n y r).
Notation sz := (sz n wz r).
Notation tm3 := (tm3 n r).
Notation nd := (nd nelx nelz n wx wz r).
Notation elem_case3 := (elem_case3 nelx nelz n wx wz r).
Notation node_case3 := (node_case3 nelx nelz n wx wz y r).

Definition ts2 (iy : nat) : list tmpl := if Rx iy || Rz iy then (if iy <? n then lows else ups) else [sq].
Definition bx (iy : nat) : nat := if Rx iy then 3 else 1.
Definition by' (iy : nat) : nat := if Rx iy || Rz iy then 2 else 1.
Definition bz (iy : nat) : nat := if Rz iy then 3 else 1.

Lemma ts2_kinds iy : ts2 iy = [sq] \/ ts2 iy = lows \/ ts2 iy = ups.
Proof. unfold ts2. destruct (Rx iy || Rz iy); [destruct (iy <? n)|]; auto. Qed.
Lemma ts2_templates iy T : In T (ts2 iy) -> In T (sq :: lows ++ ups).
Proof. destruct (ts2_kinds iy) as [E|[E|E]]; rewrite E; cbn; tauto. Qed.
Lemma tm3_ts2 iy : map snd (tm3 iy) = ts2 iy.
Proof. unfold Proof_Hex8FineLayerElem.tm3, ts2. destruct (Rx iy); [destruct (iy <? n); reflexivity|]. destruct (Rz iy); [destruct (iy <? n); reflexivity|reflexivity]. Qed.
Lemma tm3_kind iy K : In K (tm3 iy) -> if Rz iy then fst K <> KX else fst K = KX.
Proof.
  unfold Proof_Hex8FineLayerElem.tm3. pose proof (not_both n r iy) as B. destruct (Rx iy) eqn:E.
  - rewrite (B eq_refl). destruct (iy <? n); cbn; intros H; repeat (destruct H as [<-|H]; [reflexivity|]); destruct H.
  - destruct (Rz iy); [destruct (iy <? n)|]; cbn; intros H; repeat (destruct H as [<-|H]; [first [reflexivity|discriminate]|]); destruct H.
Qed.
Lemma bw_bx iy : (if Rz iy then bz iy else bx iy) = bw (ts2 iy) /\ by' iy = bh (ts2 iy) /\ (if Rz iy then bx iy else bz iy) = 1.
Proof.
  unfold bx, by', bz, ts2. pose proof (not_both n r iy) as B. destruct (Rx iy) eqn:E.
  - rewrite (B eq_refl). cbn [orb]. destruct (iy <? n); auto.
  - destruct (Rz iy); cbn [orb]; [destruct (iy <? n)|]; auto.
Qed.

Lemma tin3_iff iy K u v w : In K (tm3 iy) -> tin3 K u v w <-> if Rz iy then tin (snd K) w v /\ (0 <= u <= 1)%R else tin (snd K) u v /\ (0 <= w <= 1)%R.
Proof. intros H. apply tm3_kind in H. unfold tin3. destruct (Rz iy); destruct (fst K); try congruence; tauto. Qed.
Lemma tint3_iff iy K u v w : In K (tm3 iy) -> tint3 K u v w <-> if Rz iy then tint (snd K) w v /\ (0 < u < 1)%R else tint (snd K) u v /\ (0 < w < 1)%R.
Proof. intros H. apply tm3_kind in H. unfold tint3. destruct (Rz iy); destruct (fst K); try congruence; tauto. Qed.

Lemma tm3_snd iy K : In K (tm3 iy) -> In (snd K) (ts2 iy).
Proof. intros H. rewrite <- tm3_ts2. now apply in_map. Qed.

Lemma t3_box iy K u v w : In K (tm3 iy) -> tin3 K u v w -> (0 <= u <= INR (bx iy) /\ 0 <= v <= INR (by' iy) /\ 0 <= w <= INR (bz iy))%R.
Proof.
  intros H I. rewrite (tin3_iff iy) in I by assumption. destruct (bw_bx iy) as (B1 & B2 & B3). pose proof (t_box _ (ts2_kinds iy) (snd K)) as G. rewrite <- B1, <- B2 in G.
  destruct (Rz iy); rewrite B3; destruct I as [I I']; apply (G _ _ (tm3_snd _ _ H)) in I; rewrite I1; tauto.
Qed.
Lemma t3_box_strict iy K u v w : In K (tm3 iy) -> tint3 K u v w -> (0 < u < INR (bx iy) /\ 0 < v < INR (by' iy) /\ 0 < w < INR (bz iy))%R.
Proof.
  intros H I. rewrite (tint3_iff iy) in I by assumption. destruct (bw_bx iy) as (B1 & B2 & B3). pose proof (t_box_strict _ (ts2_kinds iy) (snd K)) as G. rewrite <- B1, <- B2 in G.
  destruct (Rz iy); rewrite B3; destruct I as [I I']; apply (G _ _ (tm3_snd _ _ H)) in I; rewrite I1; tauto.
Qed.
Lemma t3_cover iy u v w : (0 <= u <= INR (bx iy))%R -> (0 <= v <= INR (by' iy))%R -> (0 <= w <= INR (bz iy))%R -> exists K, In K (tm3 iy) /\ tin3 K u v w.
Proof.
  intros Hu Hv Hw. destruct (bw_bx iy) as (B1 & B2 & B3). pose proof (tcover _ (ts2_kinds iy)) as G. rewrite <- B1, <- B2 in G.
  assert (Q : exists T, In T (ts2 iy) /\ if Rz iy then tin T w v /\ (0 <= u <= 1)%R else tin T u v /\ (0 <= w <= 1)%R).
  { destruct (Rz iy); rewrite B3, I1 in *.
    - destruct (G w v Hw Hv) as (T & HT & I). now exists T.
    - destruct (G u v Hu Hv) as (T & HT & I). now exists T. }
  destruct Q as (T & HT & I). rewrite <- tm3_ts2 in HT. apply in_map_iff in HT. destruct HT as (K & <- & HK). exists K. split; [exact HK|]. now apply (tin3_iff iy).
Qed.
Lemma t3_disjoint iy k k' K K' u v w : nth_error (tm3 iy) k = Some K -> nth_error (tm3 iy) k' = Some K' -> tint3 K u v w -> tin3 K' u v w -> k = k'.
Proof.
  intros H H' I J. apply (tint3_iff iy) in I; [|eapply nth_error_In; eassumption]. apply (tin3_iff iy) in J; [|eapply nth_error_In; eassumption].
  assert (E : nth_error (ts2 iy) k = Some (snd K)) by (rewrite <- tm3_ts2; apply map_nth_error; exact H).
  assert (E' : nth_error (ts2 iy) k' = Some (snd K')) by (rewrite <- tm3_ts2; apply map_nth_error; exact H').
  destruct (Rz iy); eapply (tdisjoint _ (ts2_kinds iy)); try eassumption; try apply I; apply J.
Qed.

Lemma local_ok2 iy : local_ok (ts2 iy).
Proof.
  pose proof (local_all n (fun _ => Rx iy || Rz iy) iy) as G. unfold Proof_FineLayerMesh.tm, Rf in G. exact G.
Qed.
Lemma local_all3 iy K u v w : In K (tm3 iy) -> In (u, v, w) (pts n r iy) -> tin3 K (INR u) (INR v) (INR w) -> In (u, v, w) (corners3 K).
Proof.
  intros HK Ht I. apply (tin3_iff iy) in I; [|assumption]. pose proof (tm3_kind iy K HK) as Hk. pose proof (tm3_snd iy K HK) as HT.
  unfold pts in Ht. apply in_flat_map in Ht. destruct Ht as (K' & HK' & Ht). pose proof (tm3_kind iy K' HK') as Hk'. pose proof (tm3_snd iy K' HK') as HT'.
  destruct K as [k T], K' as [k' T']. rewrite corners3_In in *. cbn [fst snd] in *. destruct (Rz iy).
  - assert (G : In (w, v) (tcorners T') /\ v01 u) by (destruct k'; congruence || assumption). destruct G as [G1 G2].
    assert (G3 : In (w, v) (tcorners T)) by (apply (local_ok2 iy); [assumption| |tauto]; apply in_flat_map; eauto). destruct k; congruence || tauto.
  - subst k k'. destruct Ht as [G1 G2]. split; [|exact G2]. apply (local_ok2 iy); [assumption| |tauto]. apply in_flat_map; eauto.
Qed.

Lemma sizes iy : iy < L -> Wx iy = sx iy * bx iy /\ Hy iy = sy iy * by' iy /\ Wz iy = sz iy * bz iy.
Proof. intros H. destruct (size_facts _ _ _ _ _ _ _ HL iy H) as (_ & _ & _ & A & B & D). unfold bx, by', bz. auto. Qed.
Lemma pos_s iy : iy < L -> (0 < INR (sx iy) /\ 0 < INR (sy iy) /\ 0 < INR (sz iy))%R.
Proof. intros H. destruct (size_facts _ _ _ _ _ _ _ HL iy H) as (A & B & D & _). repeat split; apply lt_0_INR; lia. Qed.

(** origin and scale of a block *)
Definition org (iy ix iz j : nat) : R := match j with 0 => h * INR (Wx iy * ix) | 1 => h * INR (Y iy) | _ => h * INR (Wz iy * iz) end.
Definition scl (iy j : nat) : R := match j with 0 => h * INR (sx iy) | 1 => h * INR (sy iy) | _ => h * INR (sz iy) end.
Lemma scl_pos iy j : iy < L -> (0 < scl iy j)%R.
Proof. intros H. destruct (pos_s iy H) as (A & B & D). destruct j as [|[|j]]; now apply Rmult_lt_0_compat. Qed.
Definition pt (iy ix iz j : nat) (u : R) : R := (org iy ix iz j + scl iy j * u)%R.

Lemma corner_at p iy ix iz t : corner nelx nelz n wx wz y r p iy ix iz t -> node_at3 X p (pt iy ix iz 0 (tc t 0)) (pt iy ix iz 1 (tc t 1)) (pt iy ix iz 2 (tc t 2)).
Proof.
  destruct t as [[u v] w]. unfold corner. intros H. apply (node_case3_pos _ _ _ _ _ _ _ h) in H. unfold pos3, rowc3 in H. unfold node_at3, pt, org, scl, tc.
  rewrite H, !plus_INR, !mult_INR. apply (f_equal Some). apply (f_equal3 (fun a b c => [a; b; c])); ring.
Qed.

Lemma case_facts e iy ix iz K : elem_case3 e iy ix iz K -> iy < L /\ ix < NX iy /\ iz < NZ iy /\ In K (tm3 iy) /\
  nth_error C e = Some (map (nd iy ix iz) (corners3 K)) /\ In (snd K) (sq :: lows ++ ups) /\
  (forall t, In t (corners3 K) -> corner nelx nelz n wx wz y r (nd iy ix iz t) iy ix iz t).
Proof.
  intros H. pose proof (elem_nodes _ _ _ _ _ _ _ _ _ _ _ H) as E. destruct H as [k Hi Hx Hz Hk _]. apply nth_error_In in Hk.
  repeat split; auto; [apply (ts2_templates iy), tm3_snd, Hk|].
  intros t Ht. apply nd_corner; auto. apply pts_valid. unfold pts. apply in_flat_map. eauto.
Qed.
Lemma el_in3 e iy ix iz K u v w : elem_case3 e iy ix iz K ->
  in_element3 X (map (nd iy ix iz) (corners3 K)) (pt iy ix iz 0 u) (pt iy ix iz 1 v) (pt iy ix iz 2 w) <-> tin3 K u v w.
Proof.
  intros H. destruct (case_facts _ _ _ _ _ H) as (Hi & _ & _ & _ & _ & HT & HC). destruct K as [k T]. unfold pt.
  apply (el_in X (nd iy ix iz) k T (org iy ix iz) (scl iy)); [exact HT|intros; now apply scl_pos|]. intros t Ht. now apply corner_at, HC.
Qed.
Lemma el_int3 e iy ix iz K u v w : elem_case3 e iy ix iz K ->
  in_interior3 X (map (nd iy ix iz) (corners3 K)) (pt iy ix iz 0 u) (pt iy ix iz 1 v) (pt iy ix iz 2 w) -> tint3 K u v w.
Proof.
  intros H. destruct (case_facts _ _ _ _ _ H) as (Hi & _ & _ & _ & _ & HT & HC). destruct K as [k T]. unfold pt.
  apply (el_int X (nd iy ix iz) k T (org iy ix iz) (scl iy)); [exact HT|intros; now apply scl_pos|]. intros t Ht. now apply corner_at, HC.
Qed.

Lemma local1 iy ix iz j a : iy < L -> exists u, a = pt iy ix iz j u.
Proof. intros H. pose proof (scl_pos iy j H). exists ((a - org iy ix iz j) / scl iy j)%R. unfold pt. field. lra. Qed.
Lemma local3 iy ix iz a b c : iy < L -> exists u v w, a = pt iy ix iz 0 u /\ b = pt iy ix iz 1 v /\ c = pt iy ix iz 2 w.
Proof.
  intros H. destruct (local1 iy ix iz 0 a H) as (u & Eu). destruct (local1 iy ix iz 1 b H) as (v & Ev). destruct (local1 iy ix iz 2 c H) as (w & Ew). now exists u, v, w.
Qed.

Definition blk (iy j : nat) : nat := match j with 0 => bx iy | 1 => by' iy | _ => bz iy end.
Definition lo (iy ix iz j : nat) : nat := match j with 0 => Wx iy * ix | 1 => Y iy | _ => Wz iy * iz end.
Definition hi (iy ix iz j : nat) : nat := match j with 0 => Wx iy * (ix + 1) | 1 => Y (iy + 1) | _ => Wz iy * (iz + 1) end.
Lemma hi_eq iy ix iz j : iy < L -> (h * INR (hi iy ix iz j) = pt iy ix iz j (INR (blk iy j)))%R.
Proof.
  intros H. destruct (sizes iy H) as (A & B & D). unfold pt, hi, org, scl, blk. assert (EY : Y (iy + 1) = Y iy + Hy iy) by (rewrite Nat.add_1_r; reflexivity).
  destruct j as [|[|j]]; [rewrite Nat.mul_add_distr_l, Nat.mul_1_r, plus_INR; rewrite A at 2|rewrite EY, plus_INR, B|rewrite Nat.mul_add_distr_l, Nat.mul_1_r, plus_INR; rewrite D at 2]; rewrite !mult_INR; ring.
Qed.
Lemma lo_eq iy ix iz j : (h * INR (lo iy ix iz j) = pt iy ix iz j 0)%R.
Proof. unfold pt, lo, org. destruct j as [|[|j]]; ring. Qed.
Lemma pt_le iy ix iz j u v : iy < L -> (pt iy ix iz j u <= pt iy ix iz j v <-> u <= v)%R.
Proof.
  intros H. pose proof (scl_pos iy j H) as P. unfold pt. split; intros G.
  - apply (Rmult_le_reg_l (scl iy j)); lra.
  - apply Rplus_le_compat_l, Rmult_le_compat_l; lra.
Qed.
Lemma pt_lt iy ix iz j u v : iy < L -> (pt iy ix iz j u < pt iy ix iz j v <-> u < v)%R.
Proof.
  intros H. pose proof (scl_pos iy j H) as P. unfold pt. split; intros G.
  - apply (Rmult_lt_reg_l (scl iy j)); lra.
  - apply Rplus_lt_compat_l, Rmult_lt_compat_l; lra.
Qed.
Lemma in_block iy ix iz j u : iy < L -> (h * INR (lo iy ix iz j) <= pt iy ix iz j u <= h * INR (hi iy ix iz j) <-> 0 <= u <= INR (blk iy j))%R.
Proof. intros H. rewrite hi_eq, lo_eq by assumption. rewrite !pt_le by assumption. tauto. Qed.
Lemma in_block_strict iy ix iz j u : iy < L -> (h * INR (lo iy ix iz j) < pt iy ix iz j u < h * INR (hi iy ix iz j) <-> 0 < u < INR (blk iy j))%R.
Proof. intros H. rewrite hi_eq, lo_eq by assumption. rewrite !pt_lt by assumption. tauto. Qed.

Lemma in_box3 e iy ix iz K a b c : elem_case3 e iy ix iz K -> in_element3 X (map (nd iy ix iz) (corners3 K)) a b c ->
  (h * INR (Wx iy * ix) <= a <= h * INR (Wx iy * (ix + 1)) /\ h * INR (Y iy) <= b <= h * INR (Y (iy + 1)%nat) /\ h * INR (Wz iy * iz) <= c <= h * INR (Wz iy * (iz + 1)))%R.
Proof.
  intros H I. destruct (case_facts _ _ _ _ _ H) as (Hi & _ & _ & HK & _). destruct (local3 iy ix iz a b c Hi) as (u & v & w & -> & -> & ->).
  apply (el_in3 _ _ _ _ _ _ _ _ H) in I. apply (t3_box iy) in I; [|assumption].
  pose proof (in_block iy ix iz 0 u Hi). pose proof (in_block iy ix iz 1 v Hi). pose proof (in_block iy ix iz 2 w Hi). cbn [lo hi blk] in *. tauto.
Qed.
Lemma in_box3_strict e iy ix iz K a b c : elem_case3 e iy ix iz K -> in_interior3 X (map (nd iy ix iz) (corners3 K)) a b c ->
  (h * INR (Wx iy * ix) < a < h * INR (Wx iy * (ix + 1)) /\ h * INR (Y iy) < b < h * INR (Y (iy + 1)%nat) /\ h * INR (Wz iy * iz) < c < h * INR (Wz iy * (iz + 1)))%R.
Proof.
  intros H I. destruct (case_facts _ _ _ _ _ H) as (Hi & _ & _ & HK & _). destruct (local3 iy ix iz a b c Hi) as (u & v & w & -> & -> & ->).
  apply (el_int3 _ _ _ _ _ _ _ _ H) in I. apply (t3_box_strict iy) in I; [|assumption].
  pose proof (in_block_strict iy ix iz 0 u Hi). pose proof (in_block_strict iy ix iz 1 v Hi). pose proof (in_block_strict iy ix iz 2 w Hi). cbn [lo hi blk] in *. tauto.
Qed.

Lemma elem_of e E : nth_error C e = Some E -> exists iy ix iz K, elem_case3 e iy ix iz K /\ E = map (nd iy ix iz) (corners3 K).
Proof.
  intros H. assert (He : e < SE L) by (rewrite <- (connl3_length nelx nelz n wx wz r); apply nth_error_Some; congruence).
  destruct (elem_cases3 nelx nelz n wx wz r e He) as (iy & ix & iz & K & HK). exists iy, ix, iz, K. split; [exact HK|].
  destruct (case_facts _ _ _ _ _ HK) as (_ & _ & _ & _ & E' & _). congruence.
Qed.

Lemma cover3 a b c : (0 <= a <= h * INR nelx)%R -> (0 <= b <= h * INR (Y L))%R -> (0 <= c <= h * INR nelz)%R -> exists E, In E C /\ in_element3 X E a b c.
Proof.
  intros Ha Hb Hc. pose proof (nL _ _ _ _ _ _ _ HL) as HnL.
  destruct (interval (fun i => h * INR (Y i))%R b (L - 1)) as (iy & Hi & Bi).
  { unfold Proof_FineLayer.Y. cbn. lra. } { replace (S (L - 1)) with L by lia. lra. }
  assert (Hi' : iy < L) by lia.
  pose proof (NX_pos _ _ _ _ _ HX iy Hi') as PX. pose proof (W_NX _ _ _ _ _ HX iy Hi') as EX. pose proof (NX_pos _ _ _ _ _ HZ iy Hi') as PZ. pose proof (W_NX _ _ _ _ _ HZ iy Hi') as EZ.
  destruct (interval (fun i => h * INR (Wx iy * i))%R a (NX iy - 1)) as (ix & Hx & Ax).
  { rewrite Nat.mul_0_r. cbn. lra. } { replace (S (NX iy - 1)) with (NX iy) by lia. rewrite EX. lra. }
  destruct (interval (fun i => h * INR (Wz iy * i))%R c (NZ iy - 1)) as (iz & Hz & Cz).
  { rewrite Nat.mul_0_r. cbn. lra. } { replace (S (NZ iy - 1)) with (NZ iy) by lia. rewrite EZ. lra. }
  destruct (local3 iy ix iz a b c Hi') as (u & v & w & Eu & Ev & Ew).
  pose proof (in_block iy ix iz 0 u Hi') as G0. pose proof (in_block iy ix iz 1 v Hi') as G1. pose proof (in_block iy ix iz 2 w Hi') as G2. cbn [lo hi blk] in *. rewrite <- Eu, <- Ev, <- Ew in *.
  destruct (t3_cover iy u v w) as (K & HK & I); try tauto. apply In_nth_error in HK. destruct HK as [k Hk].
  assert (HK : elem_case3 (SE iy + (iz * (NX iy * length (tm3 iy)) + (ix * length (tm3 iy) + k))) iy ix iz K) by (apply (Elem_case3 _ _ _ _ _ _ _ _ _ _ _ k); auto; lia).
  destruct (case_facts _ _ _ _ _ HK) as (_ & _ & _ & _ & HE & _). eexists. split; [eapply nth_error_In; exact HE|].
  apply (el_in3 _ _ _ _ _ u v w HK) in I. now rewrite Eu, Ev, Ew.
Qed.

Lemma domain3 E a b c : In E C -> in_element3 X E a b c -> (0 <= a <= h * INR nelx /\ 0 <= b <= h * INR (Y L) /\ 0 <= c <= h * INR nelz)%R.
Proof.
  intros H I. apply In_nth_error in H. destruct H as [e H]. destruct (elem_of e E H) as (iy & ix & iz & K & HK & ->). destruct (in_box3 _ _ _ _ _ _ _ _ HK I) as (A & B & D).
  destruct (case_facts _ _ _ _ _ HK) as (Hi & Hx & Hz & _). pose proof (W_NX _ _ _ _ _ HX iy Hi) as EX. pose proof (W_NX _ _ _ _ _ HZ iy Hi) as EZ.
  assert (A1 : Wx iy * (ix + 1) <= nelx) by (rewrite <- EX; apply Nat.mul_le_mono_l; lia).
  assert (A2 : Y (iy + 1) <= Y L) by (apply Y_mono; lia). assert (A3 : Wz iy * (iz + 1) <= nelz) by (rewrite <- EZ; apply Nat.mul_le_mono_l; lia). apply le_INR in A1, A2, A3.
  apply (Rmult_le_compat_l h) in A1, A2, A3; try lra. pose proof (pos_INR (Wx iy * ix)) as P1. pose proof (pos_INR (Y iy)) as P2. pose proof (pos_INR (Wz iy * iz)) as P3.
  apply (Rmult_le_compat_l h) in P1, P2, P3; lra.
Qed.

Lemma grid_eq w i j (a b : R) : 1 <= w -> (h * INR (w * i) < a)%R -> (a < h * INR (w * (i + 1)))%R -> (h * INR (w * j) <= a)%R -> (a <= h * INR (w * (j + 1)))%R -> i = j.
Proof.
  intros Hw A1 A2 A3 A4. assert (w * i < w * (j + 1)) by (eapply (INR_lt_h h Hh); eassumption). assert (w * j < w * (i + 1)) by (apply INR_lt; apply (Rmult_lt_reg_l h); lra).
  apply Nat.mul_lt_mono_pos_l in H, H0; lia.
Qed.

Lemma disjoint3 k k' E E' a b c : nth_error C k = Some E -> nth_error C k' = Some E' -> in_interior3 X E a b c -> in_element3 X E' a b c -> k = k'.
Proof.
  intros H H' I I'. destruct (elem_of k E H) as (iy & ix & iz & K & HK & ->). destruct (elem_of k' E' H') as (iy' & ix' & iz' & K' & HK' & ->).
  destruct (in_box3_strict _ _ _ _ _ _ _ _ HK I) as ([A1 A2] & [B1 B2] & [D1 D2]). destruct (in_box3 _ _ _ _ _ _ _ _ HK' I') as ([A1' A2'] & [B1' B2'] & [D1' D2']).
  destruct (case_facts _ _ _ _ _ HK) as (Hi & Hx & Hz & Hk & _). destruct (case_facts _ _ _ _ _ HK') as (Hi' & Hx' & Hz' & Hk' & _).
  assert (iy = iy').
  { assert (Y iy < Y (iy' + 1)) by (eapply (INR_lt_h h Hh); eassumption).
    assert (Y iy' < Y (iy + 1)) by (apply INR_lt; apply (Rmult_lt_reg_l h); lra).
    destruct (lt_eq_lt_dec iy iy') as [[Q|Q]|Q]; [|assumption|].
    - pose proof (Y_mono n y (iy + 1) iy' ltac:(lia)). lia.
    - pose proof (Y_mono n y (iy' + 1) iy ltac:(lia)). lia. }
  subst iy'. assert (ix = ix') by (apply (grid_eq (Wx iy) ix ix' a a); auto; now apply (W_pos _ _ _ _ _ HX)). assert (iz = iz') by (apply (grid_eq (Wz iy) iz iz' c c); auto; now apply (W_pos _ _ _ _ _ HZ)).
  subst ix' iz'. destruct (local3 iy ix iz a b c Hi) as (u & v & w & Eu & Ev & Ew). rewrite Eu, Ev, Ew in *.
  apply (el_int3 _ _ _ _ _ u v w HK) in I. apply (el_in3 _ _ _ _ _ u v w HK') in I'.
  destruct HK as [j _ _ _ Hj ->], HK' as [j' _ _ _ Hj' ->]. now rewrite (t3_disjoint iy _ _ _ _ u v w Hj Hj' I I').
Qed.

(** nodes in a block *)
Lemma local_nodes3 p iy ix iz a b c : node_case3 p a b c -> iy < L -> ix < NX iy -> iz < NZ iy ->
  Wx iy * ix <= a <= Wx iy * (ix + 1) -> Y iy <= b <= Y (iy + 1) -> Wz iy * iz <= c <= Wz iy * (iz + 1) ->
  exists u v w, valid n r iy (u, v, w) /\ a = Wx iy * ix + sx iy * u /\ b = Y iy + sy iy * v /\ c = Wz iy * iz + sz iy * w.
Proof.
  intros K Hi Hx Hz Ha Hb Hc. destruct (size_facts _ _ _ _ _ _ _ HL iy Hi) as (P1 & P2 & P3 & F1 & F2 & F3).
  assert (EY : Y (iy + 1) = Y iy + Hy iy) by (rewrite Nat.add_1_r; reflexivity).
  rewrite Nat.mul_add_distr_l, Nat.mul_1_r in Ha, Hc. unfold valid.
  pose proof (dir_geo _ _ _ _ _ HX iy Hi) as GX. pose proof (dir_geo _ _ _ _ _ HZ iy Hi) as GZ.
  destruct K as [i j k Hi' Hj Hk Hp|i j k q s t Hi' Hr Hj Hk Hq Hs Ht Ew Eh Hp|i j k q s t Hi' Hr Hj Hk Hq Hs Ht Ew Eh Hp].
  - assert (Q : i = iy \/ i = iy + 1).
    { destruct (le_lt_dec i iy) as [G|G].
      - destruct (Nat.eq_dec i iy); [now left|]. pose proof (Y_lt n y i iy ltac:(lia) ltac:(lia)). pose proof (Hy_pos3 _ _ _ _ _ _ _ HL i ltac:(lia)). lia.
      - destruct (Nat.eq_dec i (iy + 1)); [now right|]. pose proof (Y_lt n y (iy + 1) i ltac:(lia) ltac:(lia)). pose proof (Hy_pos3 _ _ _ _ _ _ _ HL (iy + 1) ltac:(lia)). lia. }
    (* position along a direction in which the block is one cell / three cells / one coarse cell *)
    assert (One : forall w0 i0 j0, 1 <= w0 -> w0 * i0 <= w0 * j0 <= w0 * i0 + w0 -> exists u, v01 u /\ w0 * j0 = w0 * i0 + w0 * u).
    { intros w0 i0 j0 H0 H1. exists (j0 - i0). assert (j0 = i0 \/ j0 = i0 + 1) by nia. unfold v01. split; [lia|nia]. }
    assert (Three : forall s0 i0 j0, 1 <= s0 -> 3 * s0 * i0 <= s0 * j0 <= 3 * s0 * i0 + 3 * s0 -> exists u, (u = 0 \/ u = 1 \/ u = 2 \/ u = 3) /\ s0 * j0 = 3 * s0 * i0 + s0 * u).
    { intros s0 i0 j0 H0 H1. exists (j0 - 3 * i0). assert (3 * i0 <= j0 <= 3 * i0 + 3) by nia. split; [lia|nia]. }
    assert (Coarse : forall s0 i0 j0, 1 <= s0 -> 3 * s0 * i0 <= 3 * s0 * j0 <= 3 * s0 * i0 + 3 * s0 -> exists u, (u = 0 \/ u = 3) /\ 3 * s0 * j0 = 3 * s0 * i0 + s0 * u).
    { intros s0 i0 j0 H0 H1. exists (3 * (j0 - i0)). assert (j0 = i0 \/ j0 = i0 + 1) by nia. split; [lia|nia]. }
    destruct (layer_kinds _ _ _ _ _ _ _ HL iy Hi) as [E1 E2 _|q E1 E2 _ Ht Eh|q E1 E2 _ Ht Eh]; rewrite ?E1, ?E2 in *; cbn [orb] in *.
    + destruct GX as [(_ & X1 & X2 & X3 & X4)|(X0 & _)]; [|discriminate]. destruct GZ as [(_ & Z1 & Z2 & Z3 & Z4)|(Z0 & _)]; [|discriminate].
      assert (EW : WN n wx i = Wx iy /\ WN n wz i = Wz iy) by (destruct Q as [-> | ->]; auto). destruct EW as [EW EW']. rewrite EW, EW' in *.
      destruct (One (Wx iy) ix j ltac:(lia) Ha) as (u & Hu & Eu). destruct (One (Wz iy) iz k ltac:(lia) Hc) as (w & Hw & Ew').
      exists u, (i - iy), w. replace (sx iy) with (Wx iy) by lia. replace (sz iy) with (Wz iy) by lia. replace (sy iy) with (Hy iy) by lia. unfold v01 in *.
      destruct Q as [-> | ->]; [rewrite Nat.sub_diag|replace (iy + 1 - iy) with 1 by lia]; repeat split; try assumption; try (now left); try (now right); lia.
    + destruct GX as [(X0 & _)|(_ & s & Hs & Es & GX)]; [discriminate|]. destruct GZ as [(_ & Z1 & Z2 & Z3 & Z4)|(Z0 & _)]; [|discriminate].
      assert (EW' : WN n wz i = Wz iy) by (destruct Q as [-> | ->]; auto). rewrite EW' in *. destruct (One (Wz iy) iz k ltac:(lia) Hc) as (w & Hw & Ew').
      replace (sz iy) with (Wz iy) by lia. replace (sx iy) with s by lia. replace (sy iy) with q by lia. rewrite Es in *.
      destruct GX as [(Hd & X1 & X2 & X3 & X4)|(Hd & X1 & X2 & X3 & X4)].
      * destruct (Nat.ltb_spec iy n) as [_|]; [|lia]. destruct Q as [-> | ->]; rewrite ?X1, ?X2 in *.
        -- destruct (Coarse s ix j Hs Ha) as (u & Hu & Eu). exists u, 0, w. unfold vlow. repeat split; auto; lia.
        -- destruct (Three s ix j Hs Ha) as (u & Hu & Eu). exists u, 2, w. unfold vlow. repeat split; auto; lia.
      * destruct (Nat.ltb_spec iy n) as [|_]; [lia|]. destruct Q as [-> | ->]; rewrite ?X1, ?X2 in *.
        -- destruct (Three s ix j Hs Ha) as (u & Hu & Eu). exists u, 0, w. unfold vup. repeat split; auto; lia.
        -- destruct (Coarse s ix j Hs Ha) as (u & Hu & Eu). exists u, 2, w. unfold vup. repeat split; auto; lia.
    + destruct GZ as [(X0 & _)|(_ & s & Hs & Es & GZ)]; [discriminate|]. destruct GX as [(_ & Z1 & Z2 & Z3 & Z4)|(Z0 & _)]; [|discriminate].
      assert (EW' : WN n wx i = Wx iy) by (destruct Q as [-> | ->]; auto). rewrite EW' in *. destruct (One (Wx iy) ix j ltac:(lia) Ha) as (w & Hw & Ew').
      replace (sx iy) with (Wx iy) by lia. replace (sz iy) with s by lia. replace (sy iy) with q by lia. rewrite Es in *.
      destruct GZ as [(Hd & X1 & X2 & X3 & X4)|(Hd & X1 & X2 & X3 & X4)].
      * destruct (Nat.ltb_spec iy n) as [_|]; [|lia]. destruct Q as [-> | ->]; rewrite ?X1, ?X2 in *.
        -- destruct (Coarse s iz k Hs Hc) as (u & Hu & Eu). exists w, 0, u. unfold vlow. repeat split; auto; lia.
        -- destruct (Three s iz k Hs Hc) as (u & Hu & Eu). exists w, 2, u. unfold vlow. repeat split; auto; lia.
      * destruct (Nat.ltb_spec iy n) as [|_]; [lia|]. destruct Q as [-> | ->]; rewrite ?X1, ?X2 in *.
        -- destruct (Three s iz k Hs Hc) as (u & Hu & Eu). exists w, 0, u. unfold vup. repeat split; auto; lia.
        -- destruct (Coarse s iz k Hs Hc) as (u & Hu & Eu). exists w, 2, u. unfold vup. repeat split; auto; lia.
  - assert (i = iy).
    { destruct (lt_eq_lt_dec i iy) as [[G|G]|G]; [|assumption|].
      - pose proof (Y_lt n y i iy G ltac:(lia)). lia.
      - pose proof (Y_mono n y (iy + 1) i ltac:(lia)). lia. }
    subst i. pose proof (not_both n r iy Hr) as Er. rewrite Hr, Er in *. cbn [orb] in *.
    replace (sz iy) with (Wz iy) by lia. replace (sx iy) with s by lia. replace (sy iy) with t by lia. rewrite Ew in *.
    assert (j = ix) by nia. subst j. assert (q = iz \/ q = iz + 1) by nia. exists (k + 1), 1, (q - iz). unfold v01, vlow, vup. repeat split; try nia.
    destruct (iy <? n); right; left; lia.
  - assert (i = iy).
    { destruct (lt_eq_lt_dec i iy) as [[G|G]|G]; [|assumption|].
      - pose proof (Y_lt n y i iy G ltac:(lia)). lia.
      - pose proof (Y_mono n y (iy + 1) i ltac:(lia)). lia. }
    subst i. assert (Er : Rx iy = false) by (pose proof (not_both n r iy) as B; destruct (Rx iy); [rewrite (B eq_refl) in Hr; discriminate|reflexivity]). rewrite Hr, Er in *. cbn [orb] in *.
    replace (sx iy) with (Wx iy) by lia. replace (sz iy) with s by lia. replace (sy iy) with t by lia. rewrite Ew in *.
    assert (j = iz) by nia. subst j. assert (q = ix \/ q = ix + 1) by nia. exists (q - ix), 1, (k + 1). unfold v01, vlow, vup. repeat split; try nia.
    destruct (iy <? n); right; left; lia.
Qed.

Lemma conforming3 E p a b c : In E C -> node_at3 X p a b c -> in_element3 X E a b c -> In p E.
Proof.
  intros H Hp I. apply In_nth_error in H. destruct H as [e H]. destruct (elem_of e E H) as (iy & ix & iz & K & HK & ->).
  destruct (in_box3 _ _ _ _ _ _ _ _ HK I) as ([A1 A2] & [B1 B2] & [D1 D2]). destruct (case_facts _ _ _ _ _ HK) as (Hi & Hx & Hz & Hk & _ & _ & HC).
  destruct (node_at3_pos _ _ _ _ _ _ _ h HL p a b c Hp) as (a' & b' & c' & Ea & Eb & Ec & Kp). rewrite Ea, Eb, Ec in *.
  apply Rmult_le_reg_l in A1, A2, B1, B2, D1, D2; try exact Hh. apply INR_le in A1, A2, B1, B2, D1, D2.
  destruct (local_nodes3 _ _ _ _ _ _ _ Kp Hi Hx Hz (conj A1 A2) (conj B1 B2) (conj D1 D2)) as (u & v & w & V & Eu & Ev & Ew).
  assert (Ep : (h * INR a')%R = pt iy ix iz 0 (INR u) /\ (h * INR b')%R = pt iy ix iz 1 (INR v) /\ (h * INR c')%R = pt iy ix iz 2 (INR w)).
  { rewrite Eu, Ev, Ew. unfold pt, org, scl. rewrite !plus_INR, !mult_INR. repeat split; ring. }
  destruct Ep as (Ep1 & Ep2 & Ep3). rewrite Ep1, Ep2, Ep3 in I. apply (el_in3 _ _ _ _ _ _ _ _ HK) in I.
  assert (Ht : In (u, v, w) (corners3 K)) by (apply (local_all3 iy K); [exact Hk|now apply valid_pts|exact I]).
  pose proof (HC _ Ht) as G. unfold corner in G. rewrite <- Eu, <- Ev, <- Ew in G. rewrite (case3_inj _ _ _ _ _ _ _ HL _ _ _ _ _ Kp G). now apply in_map.
Qed.

Lemma used3 p : p < length X -> exists E, In E C /\ In p E.
Proof.
  intros Hp. destruct (HFL_in_domain _ _ _ _ _ _ _ h HL Hh) as (D1 & D2 & _). destruct (D1 p Hp) as (a & b & c & N). destruct (D2 _ _ _ _ N) as (A & B & D).
  destruct (cover3 a b c A B D) as (E & HE & I). exists E. split; [exact HE|]. eapply conforming3; eassumption.
Qed.

Lemma HFL_tiles : tiles3 X C (h * INR nelx) (h * INR (Y L)) (h * INR nelz).
Proof.
  constructor.
  - intros E H. apply In_nth_error in H. destruct H as [e H]. destruct (elem_of e E H) as (iy & ix & iz & K & HK & ->).
    destruct (case_facts _ _ _ _ _ HK) as (Hi & _ & _ & _ & _ & HT & HC). destruct K as [k T].
    apply (el_jac X (nd iy ix iz) k T (org iy ix iz) (scl iy)); [exact HT|intros; now apply scl_pos|]. intros t Ht. now apply corner_at, HC.
  - exact cover3.
  - exact domain3.
  - intros k k' E E' a b c H H' Hne I I'. apply Hne. eapply disjoint3; eassumption.
  - exact conforming3.
  - exact used3.
Qed.
End Tiling.
