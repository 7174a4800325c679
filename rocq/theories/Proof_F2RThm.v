(** Quad4::Map::FineLayer2Regular: the fractions and mapToRegular. *)
From Coq Require Import Reals ZArith Lra Permutation.
From Verif Require Import Base Spec Spec2d Sums Spec_Vector Spec_Tiling Spec_Map Model_Numbering Model_Regular2d Model_Vector Model_FineLayer Model_Map
  Proof_Vector Proof_Regular2d Proof_RegularTiling Proof_FineLayer Proof_FineLayerMesh Proof_FineLayerTiling Proof_FineLayerArea Proof_FineLayerBoundary Proof_FineLayerGrid Proof_FineLayerThm
  Proof_Refine Proof_F2RLocal Proof_F2RBlock Proof_F2R.
Local Open Scope R_scope.

Lemma sumR_L {A} (f : A -> R) l : sumR (map f l) = sumL l f.
Proof. apply sumR_map_fold. Qed.
Lemma sumL_cons {A} (a : A) l f : sumL (a :: l) f = f a + sumL l f.
Proof. reflexivity. Qed.
Lemma sumR_id l : sumR l = sumL l (fun x => x).
Proof. rewrite <- (map_id l) at 1. apply sumR_L. Qed.
Lemma combine_fst_snd {A B} (l : list (A * B)) : combine (map fst l) (map snd l) = l.
Proof. induction l as [|[a b] l IH]; cbn; [reflexivity|]. now rewrite IH. Qed.
Lemma share_pairs l c : share (map fst l) (map snd l) c = sumL l (fun q => ind (fst q =? c)%nat * snd q).
Proof. unfold share. rewrite combine_fst_snd, sumR_L. apply sumL_ext. intros q _. destruct (fst q =? c)%nat; cbn; ring. Qed.

(** ** mapToRegular *)
Section ToRegular.
Variables (N d : nat) (data : list (list R)).
Lemma row_step F c f e : (e < length data)%nat -> (forall v, In v data -> length v = d) -> (c < N)%nat ->
  (do old <- get (tab2 N d F) c; do v <- get data e; set (tab2 N d F) c (map (fun p => fst p + f * snd p) (combine old v))) =
  Ok (tab2 N d (fun r k => F r k + ind (c =? r)%nat * (f * comp data e k))).
Proof.
  intros He Hs Hc. assert (T2 : forall G : nat -> nat -> R, tab2 N d G = tab1 N (fun i => tab1 d (G i))) by reflexivity. rewrite !T2, tab1_get by assumption. cbn [bind].
  destruct (nth_error data e) as [v|] eqn:Ev; [|apply nth_error_None in Ev; lia]. unfold get. rewrite Ev. cbn [bind]. rewrite set_tab1 by assumption. f_equal. apply tab1_ext. intros i Hi.
  assert (Lv : length v = d) by (apply Hs; eapply nth_error_In; exact Ev). assert (Nv : nth e data [] = v) by now apply nth_error_nth.
  rewrite (Nat.eqb_sym c i). destruct (Nat.eqb_spec i c) as [->|Hne].
  - apply nth_error_ext. intros k. rewrite nth_error_map. destruct (Nat.ltb_spec k d) as [G|G].
    + rewrite (tab1_nth_error d (fun k => F c k + ind true * (f * comp data e k)) k G).
      assert (E : nth_error (combine (tab1 d (F c)) v) k = Some (F c k, nth k v 0)).
      { clear - G Lv. rewrite <- (map_id v). assert (V : v = tab1 d (fun k => nth k v 0)).
        { apply nth_error_ext. intros i. destruct (Nat.ltb_spec i d) as [H|H]; [rewrite tab1_nth_error by assumption; apply nth_error_nth'; lia|]. rewrite !(proj2 (nth_error_None _ _)); [reflexivity|rewrite tab1_len; lia|lia]. }
        rewrite map_id. rewrite V at 1. unfold tab1. clear V. assert (Q : forall l, combine (map (F c) l) (map (fun k => nth k v 0) l) = map (fun k => (F c k, nth k v 0)) l) by (induction l as [|a l IH]; cbn; [reflexivity|]; now rewrite IH).
        rewrite Q, nth_error_map, nth_error_seq. destruct (Nat.ltb_spec k d); [reflexivity|lia]. }
      rewrite E. cbn [option_map fst snd]. unfold comp, ind. rewrite Nv. f_equal. ring.
    + rewrite (proj2 (nth_error_None (tab1 d _) k)) by (rewrite tab1_len; lia). rewrite (proj2 (nth_error_None (combine _ _) k)) by (rewrite combine_length, tab1_len; lia). reflexivity.
  - apply tab1_ext. intros k _. unfold ind. ring.
Qed.
Lemma elem_step e : (e < length data)%nat -> (forall v, In v data -> length v = d) -> forall l F, (forall q, In q l -> (fst q < N)%nat) ->
  foldM (fun ret q => do old <- get ret (fst q); do v <- get data e; set ret (fst q) (map (fun p => fst p + snd q * snd p) (combine old v))) l (tab2 N d F) =
  Ok (tab2 N d (fun r k => F r k + sumL l (fun q => ind (fst q =? r)%nat * snd q) * comp data e k)).
Proof.
  intros He Hs. induction l as [|q l IH]; intros F H.
  - cbn. f_equal. apply map_ext. intros i. apply map_ext. intros k. ring.
  - cbn [foldM]. rewrite row_step by (try assumption; apply H; now left). cbn [bind]. rewrite IH by (intros; apply H; now right). f_equal.
    apply map_ext. intros i. apply map_ext. intros k. rewrite (sumL_cons q l). ring.
Qed.
Lemma all_step ps : (forall v, In v data -> length v = d) -> forall es F, (forall e, In e es -> (e < length data)%nat /\ (e < length ps)%nat) -> (forall l q, In l ps -> In q l -> (fst q < N)%nat) ->
  foldM (fun ret e => do l <- get ps e; foldM (fun ret q => do old <- get ret (fst q); do v <- get data e; set ret (fst q) (map (fun p => fst p + snd q * snd p) (combine old v))) l ret) es (tab2 N d F) =
  Ok (tab2 N d (fun r k => F r k + sumL es (fun e => sumL (nth e ps []) (fun q => ind (fst q =? r)%nat * snd q) * comp data e k))).
Proof.
  intros Hs. induction es as [|e es IH]; intros F He Hp.
  - cbn. f_equal. apply map_ext. intros i. apply map_ext. intros k. ring.
  - cbn [foldM]. destruct (He e (or_introl eq_refl)) as [H1 H2]. rewrite (get_nth [] ps e H2). cbn [bind]. rewrite elem_step; try assumption; [|intros q Hq; apply (Hp (nth e ps [])); [now apply nth_In|assumption]].
    cbn [bind]. rewrite IH; [|intros; apply He; now right|assumption]. f_equal. apply map_ext. intros i. apply map_ext. intros k. rewrite (sumL_cons e es). ring.
Qed.
End ToRegular.

Section F2RT.
Variables (nelx n : nat) (w y : nat -> nat) (r : nat -> bool) (h : R).
Hypothesis HL : layered nelx n w y r.
Notation L := (L n).
Notation W := (W n w).
Notation Hy := (Hy n y).
Notation Rf := (Rf n r).
Notation NX := (NX nelx n w).
Notation NE := (NE nelx n w r).
Notation SE := (SE nelx n w r).
Notation Y := (Y n y).
Notation X := (coorl nelx n w y r h).
Notation C := (connl nelx n w r).
Notation sz := (sz n w r).
Notation tm := (tm n r).
Notation elem_case := (elem_case nelx n w r).
Notation m := (FL_of nelx n w y r h).
Notation reg := (mkRegular nelx (Y L) h).
Notation kd := (kd n r).
Notation cid := (cid nelx n w y).
Notation TL := (TL nelx n w r).
Notation eps := (eps nelx n w r).
Notation gg := (gg nelx n w y r).
Notation FR := (F2Rr nelx n w y r h).

(** ** cells of the regular mesh *)
Lemma cell_cases c : (c < nelx * Y L)%nat -> exists iy ix j cx, (iy < L)%nat /\ (ix < NX iy)%nat /\ (j < Hy iy)%nat /\ (cx < W iy)%nat /\ c = cid iy ix j cx.
Proof.
  intros H. pose proof (l_nelx _ _ _ _ _ HL) as Hn. destruct (grid_split nelx c) as (gy & gx & Hx & ->); [lia|].
  assert (Hg : (gy < Y L)%nat) by nia. destruct (blocks_split Hy L gy Hg) as (iy & j & Hi & Hj & ->).
  pose proof (W_pos _ _ _ _ _ HL iy Hi) as Wp. pose proof (W_NX _ _ _ _ _ HL iy Hi) as EX. destruct (grid_split (W iy) gx) as (ix & cx & Hc & ->); [lia|].
  exists iy, ix, j, cx. repeat split; try assumption; [nia|]. unfold Proof_F2R.cid, Proof_FineLayer.Y. lia.
Qed.
Lemma col_lt iy ix cx : (iy < L)%nat -> (ix < NX iy)%nat -> (cx < W iy)%nat -> (W iy * ix + cx < nelx)%nat.
Proof. intros Hi Hx Hc. pose proof (W_NX _ _ _ _ _ HL iy Hi) as EX. nia. Qed.
Lemma row_lt iy j : (iy < L)%nat -> (j < Hy iy)%nat -> (Y iy + j < Y L)%nat.
Proof. intros Hi Hj. pose proof (nsum_le (S iy) L Hy ltac:(lia)) as G. cbn [nsum] in G. unfold Proof_FineLayer.Y. lia. Qed.
Lemma cid_lt iy ix j cx : (iy < L)%nat -> (ix < NX iy)%nat -> (j < Hy iy)%nat -> (cx < W iy)%nat -> (cid iy ix j cx < nelx * Y L)%nat.
Proof. intros Hi Hx Hj Hc. pose proof (col_lt iy ix cx Hi Hx Hc). pose proof (row_lt iy j Hi Hj). unfold Proof_F2R.cid. nia. Qed.
Lemma cid_inj iy ix j cx iy' ix' j' cx' : (iy < L)%nat -> (ix < NX iy)%nat -> (j < Hy iy)%nat -> (cx < W iy)%nat ->
  (iy' < L)%nat -> (ix' < NX iy')%nat -> (j' < Hy iy')%nat -> (cx' < W iy')%nat -> cid iy ix j cx = cid iy' ix' j' cx' -> iy = iy' /\ ix = ix' /\ j = j' /\ cx = cx'.
Proof.
  intros Hi Hx Hj Hc Hi' Hx' Hj' Hc' E. unfold Proof_F2R.cid in E. apply grid_inj in E; [|now apply col_lt|now apply col_lt]. destruct E as [E1 E2].
  apply blocks_inj in E1; try assumption. destruct E1 as [<- <-]. rewrite (Nat.mul_comm (W iy) ix), (Nat.mul_comm (W iy) ix') in E2. apply grid_inj in E2; try assumption. tauto.
Qed.

(** ** the fractions of a cell *)
Lemma loc_at K k s j c : (j < kh K s)%nat -> sumL (loc K k s) (fun q => ind ((fst (fst q) =? j) && (snd (fst q) =? c))%nat * snd q) = frac_at K k s j c.
Proof.
  intros Hj. unfold loc. rewrite sumL_flat_map. transitivity (sumL (seq 0 (kh K s)) (fun i => ind (i =? j)%nat * frac_at K k s i c)).
  - apply sumL_ext. intros i _. unfold runs. rewrite sumL_flat_map. unfold frac_at. rewrite <- sumL_scal. apply sumL_ext. intros [[a b] f] _. unfold run. rewrite sumL_map. cbn [fst snd].
    destruct (Nat.eqb_spec i j) as [->|Hne].
    + cbn [andb]. rewrite sumL_scal_r. cbn [ind]. rewrite Rmult_1_l. f_equal.
      destruct (Nat.leb_spec a c) as [G|G], (Nat.ltb_spec c b) as [G'|G']; cbn [andb ind].
      * rewrite (sumL_ext _ _ (fun i => ind (i =? c)%nat * 1)) by (intros; ring). apply sumL_delta; [apply seq_NoDup|apply in_seq; lia].
      * apply sumL_zero. intros i Hi. apply in_seq in Hi. destruct (Nat.eqb_spec i c); [lia|reflexivity].
      * apply sumL_zero. intros i Hi. apply in_seq in Hi. destruct (Nat.eqb_spec i c); [lia|reflexivity].
      * apply sumL_zero. intros i Hi. apply in_seq in Hi. destruct (Nat.eqb_spec i c); [lia|reflexivity].
    + cbn [andb ind]. rewrite (Rmult_0_l (ind ((a <=? c) && (c <? b))%nat * f)). apply sumL_zero. intros. apply Rmult_0_l.
  - apply (sumL_delta _ j (fun i => frac_at K k s i c)); [apply seq_NoDup|apply in_seq; lia].
Qed.
Lemma loc_lt iy k j c f : (iy < L)%nat -> (k < 4)%nat -> In (j, c, f) (loc (kd iy) k (sz iy)) -> (j < Hy iy)%nat /\ (c < W iy)%nat /\ (f = 1 \/ f = hf).
Proof.
  intros Hi Hk H. apply in_loc in H. destruct H as (Hj & a & b & H & Hc). destruct (kd_size nelx n w y r HL iy Hi) as (S1 & S2 & S3). destruct (rr_range _ _ _ _ _ _ _ Hk Hj H) as [Hb Hf]. rewrite <- S2, <- S3. split; [assumption|]. split; [lia|assumption].
Qed.
Lemma tm4 iy k : (k < length (tm iy))%nat -> (k < 4)%nat.
Proof. unfold Proof_FineLayerMesh.tm. destruct (Rf iy); [destruct (iy <? n)%nat|]; cbn; lia. Qed.
Lemma gg_at iy ix j cx iy' ix' k : (iy < L)%nat -> (ix < NX iy)%nat -> (j < Hy iy)%nat -> (cx < W iy)%nat -> (iy' < L)%nat -> (ix' < NX iy')%nat -> (k < length (tm iy'))%nat ->
  sumL (gg (iy', ix', k)) (fun q => ind (fst q =? cid iy ix j cx)%nat * snd q) = ind (iy' =? iy)%nat * (ind (ix' =? ix)%nat * frac_at (kd iy) k (sz iy) j cx).
Proof.
  intros Hi Hx Hj Hc Hi' Hx' Hk. unfold Proof_F2R.gg. rewrite sumL_map. unfold pl. cbn [fst snd].
  assert (Z : iy' <> iy \/ ix' <> ix -> sumL (loc (kd iy') k (sz iy')) (fun b => ind (cid iy' ix' (fst (fst b)) (snd (fst b)) =? cid iy ix j cx)%nat * snd b) = 0).
  { intros Hne. apply sumL_zero. intros [[j' c'] f] Hq. destruct (loc_lt iy' k j' c' f Hi' (tm4 _ _ Hk) Hq) as (Hj' & Hc' & _). cbn [fst snd].
    destruct (Nat.eqb_spec (cid iy' ix' j' c') (cid iy ix j cx)) as [E|E]; [|apply Rmult_0_l]. apply cid_inj in E; try assumption. destruct E as (-> & -> & _). exfalso. destruct Hne as [Q|Q]; now apply Q. }
  destruct (Nat.eqb_spec iy' iy) as [->|Hne]; [|rewrite Z by auto; cbn [ind]; ring]. destruct (Nat.eqb_spec ix' ix) as [->|Hne]; [|rewrite Z by auto; cbn [ind]; ring].
  cbn [ind]. rewrite !Rmult_1_l. destruct (kd_size nelx n w y r HL iy Hi) as (S1 & S2 & S3). rewrite <- loc_at by (rewrite S3; assumption). apply sumL_ext. intros [[j' c'] f] Hq. destruct (loc_lt iy k j' c' f Hi (tm4 _ _ Hk) Hq) as (Hj' & Hc' & _). cbn [fst snd]. f_equal. f_equal.
  destruct (Nat.eqb_spec (cid iy ix j' c') (cid iy ix j cx)) as [E|E].
  - apply cid_inj in E; try assumption. destruct E as (_ & _ & -> & ->). now rewrite !Nat.eqb_refl.
  - destruct (Nat.eqb_spec j' j) as [->|]; [|reflexivity]. destruct (Nat.eqb_spec c' cx) as [->|]; [|reflexivity]. now contradiction E.
Qed.
Lemma sum_elems (F : list (nat * R) -> nat -> R) : sumL (seq 0 (SE L)) (fun e => F (nth e (fr_pairs FR) []) e) = sumL TL (fun t => F (gg t) (eps t)).
Proof.
  rewrite <- (sumL_perm _ _ _ (TL_perm nelx n w r)). rewrite sumL_map. apply sumL_ext. intros t Ht. now rewrite (nth_error_nth _ _ [] (pairs_at nelx n w y r h t Ht)).
Qed.
Lemma fractions_cell c : (c < nelx * Y L)%nat -> sumL (seq 0 (SE L)) (fun e => sumL (nth e (fr_pairs FR) []) (fun q => ind (fst q =? c)%nat * snd q)) = 1.
Proof.
  intros H. destruct (cell_cases c H) as (iy & ix & j & cx & Hi & Hx & Hj & Hc & ->). rewrite (sum_elems (fun l _ => sumL l (fun q => ind (fst q =? cid iy ix j cx)%nat * snd q))).
  unfold Proof_F2R.TL. rewrite sumL_flat_map.
  rewrite (sumL_ext _ _ (fun iy' => ind (iy' =? iy)%nat * 1)); [apply (sumL_delta _ iy (fun _ => 1)); [apply seq_NoDup|apply in_seq; lia]|].
  intros iy' Hi'. apply in_seq in Hi'. rewrite sumL_flat_map. destruct (kd_size nelx n w y r HL iy Hi) as (S1 & S2 & S3).
  rewrite (sumL_ext _ _ (fun ix' => ind (ix' =? ix)%nat * ind (iy' =? iy)%nat)).
  - destruct (Nat.eqb_spec iy' iy) as [->|Hne]; [|cbn [ind]; rewrite sumL_scal_r; ring]. rewrite (sumL_delta _ ix (fun _ => ind true)); [cbn [ind]; ring|apply seq_NoDup|apply in_seq; lia].
  - intros ix' Hx'. apply in_seq in Hx'. rewrite sumL_map. rewrite (sumL_ext _ _ (fun k => ind (iy' =? iy)%nat * ind (ix' =? ix)%nat * frac_at (kd iy) k (sz iy) j cx)).
    + destruct (Nat.eqb_spec iy' iy) as [->|Hne]; [|cbn [ind]; rewrite sumL_scal; ring]. rewrite sumL_scal.
      rewrite (sumL_perm _ (seq 0 (length (tms (kd iy))))); [rewrite fractions_one by (rewrite ?S2, ?S3; assumption); ring|].
      apply NoDup_Permutation; [apply order_NoDup|apply seq_NoDup|]. intros k. rewrite order_in, in_seq. lia.
    + intros k Hk. rewrite gg_at; try assumption; try lia; [ring|]. rewrite tm_kd. now apply order_in.
Qed.

(** ** the fractions of an element *)
Lemma eps_case iy ix k : In (iy, ix, k) TL -> exists T, nth_error (tms (kd iy)) k = Some T /\ elem_case (eps (iy, ix, k)) iy ix T.
Proof.
  intros H. apply in_TL in H. destruct H as (Hi & Hx & Hk). destruct (nth_error (tm iy) k) as [T|] eqn:E; [|apply nth_error_None in E; lia]. exists T. rewrite <- tm_kd. split; [assumption|]. now apply (Elem_case _ _ _ _ _ _ _ _ k).
Qed.
Lemma fractions_element t : In t TL -> sumL (gg t) snd * (h * h) = element_area X (nth (eps t) C []).
Proof.
  destruct t as [[iy ix] k]. intros H. destruct (eps_case _ _ _ H) as (T & ET & EC). rewrite (elem_area nelx n w y r h HL _ _ _ _ EC). cbn [Proof_F2R.gg]. rewrite sumL_map. unfold pl. cbn [snd]. rewrite (sumL_ext _ _ snd) by reflexivity.
  rewrite (loc_area _ _ _ _ ET). ring.
Qed.
Lemma gg_ids t : In t TL -> NoDup (map fst (gg t)) /\ (forall q, In q (gg t) -> (fst q < nelx * Y L)%nat /\ (snd q = 1 \/ snd q = / 2)).
Proof.
  destruct t as [[iy ix] k]. intros H. apply in_TL in H. destruct H as (Hi & Hx & Hk). split.
  - cbn [Proof_F2R.gg]. rewrite map_map. unfold pl. cbn [fst]. rewrite <- (map_map fst (fun p => cid iy ix (fst p) (snd p))). apply NoDup_map_inj; [apply loc_NoDup; now apply tm4 in Hk|].
    intros [j c] [j' c'] A A'. apply in_map_iff in A, A'. destruct A as ([[a b] f] & E & A), A' as ([[a' b'] f'] & E' & A'). cbn in E, E'. injection E as -> ->. injection E' as -> ->.
    destruct (loc_lt _ _ _ _ _ Hi (tm4 _ _ Hk) A) as (U & V & _). destruct (loc_lt _ _ _ _ _ Hi (tm4 _ _ Hk) A') as (U' & V' & _). cbn [fst snd]. intros E. apply cid_inj in E; try assumption. destruct E as (_ & _ & -> & ->). reflexivity.
  - intros q Hq. cbn [Proof_F2R.gg] in Hq. apply in_map_iff in Hq. destruct Hq as ([[j c] f] & <- & A). destruct (loc_lt _ _ _ _ _ Hi (tm4 _ _ Hk) A) as (U & V & F). cbn [pl fst snd]. split; [now apply cid_lt|assumption].
Qed.

(** ** geometry *)
Hypothesis Hh : 0 < h.
Lemma cell_quad iy ix j cx : (iy < L)%nat -> (ix < NX iy)%nat -> (j < Hy iy)%nat -> (cx < W iy)%nat -> exists K, nth_error (conn reg) (cid iy ix j cx) = Some K /\
  quad (coor reg) K (h * (INR (W iy * ix) + INR cx)) (h * (INR (Y iy) + INR j)) (h * (INR (W iy * ix) + (INR cx + 1))) (h * (INR (Y iy) + INR j))
    (h * (INR (W iy * ix) + (INR cx + 1))) (h * (INR (Y iy) + (INR j + 1))) (h * (INR (W iy * ix) + INR cx)) (h * (INR (Y iy) + (INR j + 1))).
Proof.
  intros Hi Hx Hj Hc. pose proof (col_lt iy ix cx Hi Hx Hc) as Q1. pose proof (row_lt iy j Hi Hj) as Q2. eexists. split.
  - unfold Proof_F2R.cid. apply (conn_at reg); assumption.
  - pose proof (reg_quad reg (W iy * ix + cx) (Y iy + j) Q1 Q2) as Q. cbn [hh] in Q.
    replace (h * (INR (W iy * ix) + INR cx)) with (h * INR (W iy * ix + cx)) by (now rewrite plus_INR).
    replace (h * (INR (Y iy) + INR j)) with (h * INR (Y iy + j)) by (now rewrite plus_INR).
    replace (h * (INR (W iy * ix) + (INR cx + 1))) with (h * INR (W iy * ix + cx + 1)) by (rewrite !plus_INR, I1; ring).
    replace (h * (INR (Y iy) + (INR j + 1))) with (h * INR (Y iy + j + 1)) by (rewrite !plus_INR, I1; ring). exact Q.
Qed.
Lemma cell_geom iy ix k j cx E K : In (iy, ix, k) TL -> (j < Hy iy)%nat -> (cx < W iy)%nat ->
  nth_error C (eps (iy, ix, k)) = Some E -> nth_error (conn reg) (cid iy ix j cx) = Some K ->
  exists Kq : quad (coor reg) K (h * (INR (W iy * ix) + INR cx)) (h * (INR (Y iy) + INR j)) (h * (INR (W iy * ix) + (INR cx + 1))) (h * (INR (Y iy) + INR j))
    (h * (INR (W iy * ix) + (INR cx + 1))) (h * (INR (Y iy) + (INR j + 1))) (h * (INR (W iy * ix) + INR cx)) (h * (INR (Y iy) + (INR j + 1))),
  forall x z, exists a b, x = h * (INR (W iy * ix) + a) /\ z = h * (INR (Y iy) + b) /\
    (in_element X E x z <-> lin (kd iy) k (INR (sz iy)) a b) /\
    (in_element (coor reg) K x z <-> (INR cx <= a <= INR cx + 1 /\ INR j <= b <= INR j + 1)) /\
    (in_interior (coor reg) K x z <-> (INR cx < a < INR cx + 1 /\ INR j < b < INR j + 1)).
Proof.
  intros Ht Hj Hc HE HK. destruct (eps_case _ _ _ Ht) as (T & ET & EC). pose proof Ht as Ht'. apply in_TL in Ht'. destruct Ht' as (Hi & Hx & Hk).
  destruct (cell_quad iy ix j cx Hi Hx Hj Hc) as (K' & HK' & Q). rewrite HK in HK'. injection HK' as <-. exists Q.
  intros x z. destruct (local nelx n w y r h HL Hh iy ix x z Hi) as (u & v & -> & ->). pose proof (sz_pos nelx n w y r HL iy Hi) as Sp. exists (INR (sz iy) * u), (INR (sz iy) * v). split; [reflexivity|]. split; [reflexivity|]. split.
  - rewrite (proj1 (elem_inside nelx n w y r h HL Hh _ _ _ _ _ u v EC HE)). now apply lin_tin.
  - destruct (in_element_box _ _ _ _ _ _ (px n w r h iy ix u) (py n w y r h iy v) Q) as [A B]; [nra|nra|]. rewrite A, B. unfold px, py. split; split; intros [P1 P2]; (split; split; nra).
Qed.

Lemma tab1_map {A B} (f : A -> B) k (g : nat -> A) : map f (tab1 k g) = tab1 k (fun i => f (g i)).
Proof. unfold tab1. apply map_map. Qed.
Lemma geom_listed t E c K f : In t TL -> nth_error C (eps t) = Some E -> nth_error (conn reg) c = Some K -> In (c, f) (gg t) ->
  (f = 1 -> covered_fully X E (coor reg) K) /\ (f = / 2 -> covered_half X E (coor reg) K).
Proof.
  destruct t as [[iy ix] k]. intros Ht HE HK Hq. pose proof Ht as Ht'. apply in_TL in Ht'. destruct Ht' as (Hi & Hx & Hk). pose proof (tm4 _ _ Hk) as K4.
  cbn [Proof_F2R.gg] in Hq. apply in_map_iff in Hq. destruct Hq as ([[j cx] f'] & Q & Hq). unfold pl in Q. cbn [fst snd] in Q. injection Q as <- <-.
  destruct (loc_lt _ _ _ _ _ Hi K4 Hq) as (Hj & Hc & _). destruct (cell_geom iy ix k j cx E K Ht Hj Hc HE HK) as [Kq G]. apply in_loc in Hq. destruct Hq as (Hj' & a & b & Hr & Hab). split.
  - intros ->. intros x z I. destruct (G x z) as (u & v & -> & -> & G1 & G2 & _). apply G2 in I. apply G1. eapply full_inside; eauto; tauto.
  - intros ->. destruct (half_diagonal _ _ _ _ _ _ _ K4 Hj' Hr Hab) as (p1 & p2 & q1 & q2 & D & H).
    exists (h * (INR (W iy * ix) + INR cx)), (h * (INR (W iy * ix) + (INR cx + 1))), (h * (INR (Y iy) + INR j)), (h * (INR (Y iy) + (INR j + 1))).
    exists (h * (INR (W iy * ix) + p1)), (h * (INR (Y iy) + p2)), (h * (INR (W iy * ix) + q1)), (h * (INR (Y iy) + q2)).
    split; [exact Kq|]. split; [nra|]. split; [nra|]. split; [unfold diagonal in *; destruct D as [[[-> ->]|[-> ->]] [[-> ->]|[-> ->]]]; auto|].
    intros x z I. destruct (G x z) as (u & v & -> & -> & G1 & G2 & _). apply G2 in I. rewrite G1, H by tauto.
    pose proof (area2_scale h (INR (W iy * ix)) (INR (Y iy)) 1 p1 p2 q1 q2 u v) as S. rewrite !Rmult_1_l, Rmult_1_r in S. rewrite S. symmetry. now apply pos_scale.
Qed.
Lemma geom_unlisted t E c K : In t TL -> nth_error C (eps t) = Some E -> nth_error (conn reg) c = Some K -> ~ In c (map fst (gg t)) -> covered_not X E (coor reg) K.
Proof.
  destruct t as [[iy ix] k]. intros Ht HE HK Hn x z I I'. pose proof Ht as Ht'. apply in_TL in Ht'. destruct Ht' as (Hi & Hx & Hk). pose proof (tm4 _ _ Hk) as K4. destruct (eps_case _ _ _ Ht) as (T & ET & EC).
  assert (Hc : (c < nelx * Y L)%nat) by (assert (Q : (c < length (conn reg))%nat) by (apply nth_error_Some; congruence); rewrite (proj1 (conn_shape reg)) in Q; exact Q).
  destruct (cell_cases c Hc) as (iy0 & ix0 & j & cx & Hi0 & Hx0 & Hj & Hcx & ->).
  destruct (in_box nelx n w y r h HL Hh _ _ _ _ _ _ _ EC HE I') as [[B1 B2] [B3 B4]].
  destruct (cell_quad iy0 ix0 j cx Hi0 Hx0 Hj Hcx) as (K' & HK' & Q). rewrite HK in HK'. injection HK' as <-.
  pose proof I as I2. apply (in_element_box _ _ _ _ _ _ x z Q) in I2; [|nra|nra]. destruct I2 as [[A1 A2] [A3 A4]].
  replace (h * (INR (W iy0 * ix0) + INR cx)) with (h * INR (W iy0 * ix0 + cx)) in * by (now rewrite plus_INR).
  replace (h * (INR (Y iy0) + INR j)) with (h * INR (Y iy0 + j)) in * by (now rewrite plus_INR).
  replace (h * (INR (W iy0 * ix0) + (INR cx + 1))) with (h * INR (W iy0 * ix0 + cx + 1)) in * by (rewrite !plus_INR, I1; ring).
  replace (h * (INR (Y iy0) + (INR j + 1))) with (h * INR (Y iy0 + j + 1)) in * by (rewrite !plus_INR, I1; ring).
  assert (M1 : (W iy0 * ix0 + cx < W iy * (ix + 1))%nat) by (apply INR_lt; apply (Rmult_lt_reg_l h); lra).
  assert (M2 : (W iy * ix < W iy0 * ix0 + cx + 1)%nat) by (apply INR_lt; apply (Rmult_lt_reg_l h); lra).
  assert (M3 : (Y iy0 + j < Y (iy + 1))%nat) by (apply INR_lt; apply (Rmult_lt_reg_l h); lra).
  assert (M4 : (Y iy < Y iy0 + j + 1)%nat) by (apply INR_lt; apply (Rmult_lt_reg_l h); lra).
  rewrite Y_S in M3. assert (E1 : iy0 = iy /\ j = (Y iy0 + j - Y iy)%nat) by (apply (blocks_inj Hy); try assumption; unfold Proof_FineLayer.Y in *; lia). destruct E1 as [-> _].
  assert (E2 : ix0 = ix /\ cx = (W iy * ix0 + cx - W iy * ix)%nat) by (apply (grid_inj (W iy)); lia). destruct E2 as [-> _].
  destruct (cell_geom iy ix k j cx E K Ht Hj Hcx HE HK) as [_ G]. destruct (G x z) as (u & v & _ & _ & G1 & _ & G3). apply G3 in I. apply G1 in I'.
  destruct (kd_size nelx n w y r HL iy Hi) as (S1 & S2 & S3). revert I'. apply (none_outside (kd iy) k (sz iy) j cx u v); [now rewrite <- tm_kd|lia|lia| |tauto|tauto].
  intros a b f Hr Hab. apply Hn. cbn [Proof_F2R.gg]. rewrite map_map. apply in_map_iff. exists (j, cx, f). split; [reflexivity|]. apply in_loc. split; [lia|eauto].
Qed.
Lemma pairs_len : length (fr_pairs FR) = SE L.
Proof. cbn [fr_pairs F2Rr]. apply tab1_len. Qed.
Lemma pairs_nth e : (e < SE L)%nat -> exists t, In t TL /\ e = eps t /\ nth e (fr_pairs FR) [] = gg t.
Proof.
  intros H. destruct (eps_onto nelx n w r e H) as (t & Ht & <-). exists t. split; [assumption|]. split; [reflexivity|]. apply nth_error_nth. now apply pairs_at.
Qed.
Lemma toRegular_spec d data : length data = SE L -> (forall v, In v data -> length v = d) ->
  mapToRegular d FR data = Ok (tab2 (nelx * Y L) d (fun c k => sumL (seq 0 (SE L)) (fun e => sumL (nth e (fr_pairs FR) []) (fun q => ind (fst q =? c)%nat * snd q) * comp data e k))).
Proof.
  intros Hl Hs. unfold mapToRegular. change (f_nelem (fr_finelayer FR)) with (SE L). change (nelem (fr_regular FR)) with (nelx * Y L)%nat.
  replace (repeat (repeat 0 d) (nelx * Y L)) with (tab2 (nelx * Y L) d (fun _ _ => 0)).
  - rewrite (all_step (nelx * Y L) d data (fr_pairs FR) Hs).
    + f_equal. apply map_ext. intros c. apply map_ext. intros k. ring.
    + intros e He. apply in_seq in He. rewrite pairs_len. lia.
    + intros l q Hin Hq. apply In_nth_error in Hin. destruct Hin as [e He]. destruct (pairs_inv _ _ _ _ _ _ _ _ He) as (t & Ht & _ & ->). now apply (gg_ids t).
  - unfold tab2. generalize (nelx * Y L)%nat. intros N. assert (R1 : forall {A} (x : A) a k, map (fun _ : nat => x) (seq a k) = repeat x k) by (intros A x a k; revert a; induction k as [|k IH]; intros a; cbn; [reflexivity|]; now rewrite IH). now rewrite R1, R1.
Qed.
Lemma integral d data k : length data = SE L -> (forall v, In v data -> length v = d) ->
  (h * h) * sumL (seq 0 (nelx * Y L)) (fun c => sumL (seq 0 (SE L)) (fun e => sumL (nth e (fr_pairs FR) []) (fun q => ind (fst q =? c)%nat * snd q) * comp data e k))
  = sumL (seq 0 (SE L)) (fun e => element_area X (nth e C []) * comp data e k).
Proof.
  intros Hl Hs. rewrite sumL_swap, <- sumL_scal. apply sumL_ext. intros e He. apply in_seq in He. rewrite sumL_scal_r. destruct (pairs_nth e ltac:(lia)) as (t & Ht & -> & ->).
  rewrite <- (fractions_element t Ht). pose proof (sumL_group (gg t) fst (nelx * Y L) snd (fun _ => 1)) as G. cbv beta in G.
  rewrite (sumL_ext (gg t) snd (fun a => 1 * snd a)) by (intros; ring). rewrite <- G by (intros q Hq; now apply (gg_ids t Ht)). unfold sumn. rewrite (sumL_ext _ _ (fun d => 1 * sumL (gg t) (fun a => ind (fst a =? d)%nat * snd a))) by (intros; ring). ring.
Qed.
End F2RT.

Section Init.
Variables (nx ny nfine : nat) (h : R) (m : FineLayer) (fr : FineLayer2Regular).
Hypothesis Hx : (1 <= nx)%nat.
Hypothesis Hy1 : (1 <= ny)%nat.
Hypothesis E : FineLayer_init nx ny h nfine = Some (Ok m).
Notation reg := (fr_regular fr).

Lemma U_init : exists fr, FineLayer2Regular_init m = Ok fr /\ fr_finelayer fr = m /\ fr_regular fr = mkRegular (f_nelx m) (f_nely m) (f_h m).
Proof.
  destruct (the_mesh nx ny nfine h m Hx Hy1 E) as (n & w & y & r & -> & G). pose proof (g_layered _ _ _ _ _ _ _ G) as HL. exists (F2Rr nx n w y r h). split; [now apply F2R_init|]. split; [reflexivity|].
  rewrite (nelx_spec _ _ _ _ _ _ _ h G), nely_spec. reflexivity.
Qed.
Hypothesis EF : FineLayer2Regular_init m = Ok fr.
Lemma the_map : exists n w y r, m = FL_of nx n w y r h /\ layered nx n w y r /\ fr = F2Rr nx n w y r h.
Proof.
  destruct (the_mesh nx ny nfine h m Hx Hy1 E) as (n & w & y & r & -> & G). pose proof (g_layered _ _ _ _ _ _ _ G) as HL. exists n, w, y, r. split; [reflexivity|]. split; [assumption|].
  pose proof (F2R_init nx n w y r h HL) as Q. rewrite Q in EF. now injection EF.
Qed.
Ltac mesh := destruct the_map as (n & w & y & r & -> & HL & ->).

Lemma U_lists : length (fr_map fr) = f_nelem m /\ length (fr_fraction fr) = f_nelem m /\
  forall e ids fs, nth_error (fr_map fr) e = Some ids -> nth_error (fr_fraction fr) e = Some fs ->
  length fs = length ids /\ NoDup ids /\ (forall c, In c ids -> (c < nelem reg)%nat) /\ (forall f, In f fs -> f = 1 \/ f = / 2).
Proof.
  mesh. unfold fr_map, fr_fraction. rewrite !map_length, pairs_len. split; [reflexivity|]. split; [reflexivity|]. intros e ids fs H1 H2. rewrite nth_error_map in H1; rewrite nth_error_map in H2.
  destruct (nth_error (fr_pairs (F2Rr nx n w y r h)) e) as [l|] eqn:El; [|discriminate]. injection H1 as <-. injection H2 as <-. destruct (pairs_inv _ _ _ _ _ _ _ _ El) as (t & Ht & -> & ->).
  destruct (gg_ids nx n w y r HL t Ht) as [N B]. rewrite !map_length. split; [reflexivity|]. split; [assumption|]. split.
  - intros c Hc. apply in_map_iff in Hc. destruct Hc as (q & <- & Hq). now apply B.
  - intros f Hf. apply in_map_iff in Hf. destruct Hf as (q & <- & Hq). now apply B.
Qed.

Lemma U_geometry : 0 < h -> forall X C e El ids fs c K, f_coor m = Ok X -> f_conn m = Ok C -> nth_error C e = Some El -> nth_error (fr_map fr) e = Some ids -> nth_error (fr_fraction fr) e = Some fs ->
  nth_error (conn reg) c = Some K ->
  (forall k, nth_error ids k = Some c -> nth_error fs k = Some 1 -> covered_fully X El (coor reg) K) /\
  (forall k, nth_error ids k = Some c -> nth_error fs k = Some (/ 2) -> covered_half X El (coor reg) K) /\
  (~ In c ids -> covered_not X El (coor reg) K).
Proof.
  intros Hh. mesh. intros X C e El ids fs c K HX HC HE H1 H2 HK. rewrite (Proof_FineLayerMesh.coor_spec _ _ _ _ _ _ HL) in HX. rewrite (Proof_FineLayerMesh.conn_spec _ _ _ _ _ h HL) in HC. injection HX as <-. injection HC as <-.
  unfold fr_map, fr_fraction in H1, H2. rewrite nth_error_map in H1; rewrite nth_error_map in H2.
  destruct (nth_error (fr_pairs (F2Rr nx n w y r h)) e) as [l|] eqn:Ee; [|discriminate]. injection H1 as <-. injection H2 as <-. destruct (pairs_inv _ _ _ _ _ _ _ _ Ee) as (t & Ht & -> & ->).
  assert (P : forall k f, nth_error (map fst (gg nx n w y r t)) k = Some c -> nth_error (map snd (gg nx n w y r t)) k = Some f -> In (c, f) (gg nx n w y r t)).
  { intros k f A B. rewrite nth_error_map in A; rewrite nth_error_map in B. destruct (nth_error (gg nx n w y r t) k) as [[c' f']|] eqn:G; [|discriminate]. cbn in A, B. injection A as ->. injection B as ->. eapply nth_error_In. exact G. }
  cbn [fr_regular F2Rr] in *. split; [|split].
  - intros k A B. eapply (geom_listed nx n w y r h HL Hh t); eauto.
  - intros k A B. eapply (geom_listed nx n w y r h HL Hh t); eauto.
  - intros A. eapply (geom_unlisted nx n w y r h HL Hh t); eauto.
Qed.

Lemma map_nth_fs e : nth e (fr_map fr) [] = map fst (nth e (fr_pairs fr) []) /\ nth e (fr_fraction fr) [] = map snd (nth e (fr_pairs fr) []).
Proof. unfold fr_map, fr_fraction. split; [change (@nil nat) with (map (@fst nat R) [])|change (@nil R) with (map (@snd nat R) [])]; now rewrite map_nth. Qed.
Lemma share_sum c (F : nat -> R) : sumR (map (fun e => share (nth e (fr_map fr) []) (nth e (fr_fraction fr) []) c * F e) (seq 0 (f_nelem m))) =
  sumL (seq 0 (f_nelem m)) (fun e => sumL (nth e (fr_pairs fr) []) (fun q => ind (fst q =? c)%nat * snd q) * F e).
Proof. rewrite sumR_L. apply sumL_ext. intros e _. destruct (map_nth_fs e) as [-> ->]. now rewrite share_pairs. Qed.

Lemma U_cells c : (c < nelem reg)%nat -> sumR (map (fun e => share (nth e (fr_map fr) []) (nth e (fr_fraction fr) []) c) (seq 0 (f_nelem m))) = 1.
Proof.
  intros Hc. rewrite (map_ext _ (fun e => share (nth e (fr_map fr) []) (nth e (fr_fraction fr) []) c * 1)) by (intros; ring). rewrite (share_sum c (fun _ => 1)). revert Hc. mesh. intros Hc.
  rewrite (sumL_ext _ _ (fun e => sumL (nth e (fr_pairs (F2Rr nx n w y r h)) []) (fun q => ind (fst q =? c)%nat * snd q))) by (intros; ring). now apply fractions_cell.
Qed.
Lemma U_area X C e fs : f_coor m = Ok X -> f_conn m = Ok C -> nth_error (fr_fraction fr) e = Some fs -> sumR fs * (h * h) = element_area X (nth e C []).
Proof.
  mesh. intros HX HC H2. rewrite (Proof_FineLayerMesh.coor_spec _ _ _ _ _ _ HL) in HX. rewrite (Proof_FineLayerMesh.conn_spec _ _ _ _ _ h HL) in HC. injection HX as <-. injection HC as <-.
  unfold fr_fraction in H2. rewrite nth_error_map in H2. destruct (nth_error (fr_pairs (F2Rr nx n w y r h)) e) as [l|] eqn:Ee; [|discriminate]. injection H2 as <-. destruct (pairs_inv _ _ _ _ _ _ _ _ Ee) as (t & Ht & -> & ->).
  rewrite <- (fractions_element nx n w y r h HL t Ht). now rewrite sumR_L.
Qed.

Lemma U_mapToRegular d data : shape2 data (f_nelem m) d -> exists D, mapToRegular d fr data = Ok D /\ shape2 D (nelem reg) d /\
  (forall c k, (c < nelem reg)%nat -> (k < d)%nat ->
    comp D c k = sumR (map (fun e => share (nth e (fr_map fr) []) (nth e (fr_fraction fr) []) c * comp data e k) (seq 0 (f_nelem m)))) /\
  (forall X C k, f_coor m = Ok X -> f_conn m = Ok C -> (k < d)%nat ->
    h * h * total_all D k = sumR (map (fun e => element_area X (nth e C []) * comp data e k) (seq 0 (f_nelem m)))) /\
  (forall k lo up, (k < d)%nat -> (forall e, (e < f_nelem m)%nat -> lo <= comp data e k <= up) -> forall c, (c < nelem reg)%nat -> lo <= comp D c k <= up).
Proof.
  intros [Hl Hs]. pose proof U_cells as UC. pose proof share_sum as SS. pose proof U_lists as UL. revert Hl UC SS UL. mesh. intros Hl UC SS UL. change (f_nelem (FL_of nx n w y r h)) with (SE nx n w r (L n)) in *.
  rewrite (toRegular_spec nx n w y r h HL d data Hl Hs). eexists. split; [reflexivity|]. change (nelem (fr_regular (F2Rr nx n w y r h))) with (nx * Y n y (L n))%nat in *.
  assert (SH : forall G : nat -> nat -> R, shape2 (tab2 (nx * Y n y (L n)) d G) (nx * Y n y (L n)) d) by (intros G; apply tab2_shape).
  split; [apply SH|].
  assert (CM : forall (G : nat -> nat -> R) c k, (c < nx * Y n y (L n))%nat -> (k < d)%nat -> comp (tab2 (nx * Y n y (L n)) d G) c k = G c k).
  { intros G c k Hc Hk. unfold comp. rewrite (nth_of_nth_error (tab2 (nx * Y n y (L n)) d G) c (tab1 d (G c)) []) by (unfold tab2; rewrite nth_error_map, nth_error_seq; destruct (Nat.ltb_spec c (nx * Y n y (L n))); [reflexivity|lia]). apply nth_of_nth_error. now apply tab1_nth_error. }
  split; [intros c k Hc Hk; rewrite CM by assumption; now rewrite (SS c (fun e => comp data e k))|]. split.
  - intros X C k HX HC Hk. rewrite (Proof_FineLayerMesh.coor_spec _ _ _ _ _ _ HL) in HX. rewrite (Proof_FineLayerMesh.conn_spec _ _ _ _ _ h HL) in HC. injection HX as <-. injection HC as <-.
    rewrite sumR_L, <- (integral nx n w y r h HL d data k Hl Hs). f_equal. unfold total_all, total_over. rewrite (proj1 (SH _)), sumR_L. apply sumL_ext. intros c Hc. apply in_seq in Hc. now rewrite CM by (try assumption; lia).
  - intros k lo up Hk B c Hc. rewrite CM by assumption. rewrite <- (SS c (fun e => comp data e k)). specialize (UC c Hc).
    assert (P : forall e, 0 <= share (nth e (fr_map (F2Rr nx n w y r h)) []) (nth e (fr_fraction (F2Rr nx n w y r h)) []) c).
    { intros e. unfold share. rewrite sumR_L. apply sumL_nonneg. intros [a f] Hq. cbn [fst snd]. destruct (Nat.eqb_spec a c); [|lra]. destruct UL as (_ & _ & UL). apply in_combine_r in Hq.
      destruct (nth_error (fr_fraction (F2Rr nx n w y r h)) e) as [fs|] eqn:Ef; [|rewrite nth_overflow in Hq by (now apply nth_error_None); destruct Hq]. rewrite (nth_of_nth_error _ _ _ [] Ef) in Hq.
      destruct (nth_error (fr_map (F2Rr nx n w y r h)) e) as [ids|] eqn:Ei; [|apply nth_error_None in Ei; assert (Q : (e < length (fr_fraction (F2Rr nx n w y r h)))%nat) by (apply nth_error_Some; congruence); unfold fr_map, fr_fraction in *; rewrite map_length in *; lia].
      destruct (UL e ids fs Ei Ef) as (_ & _ & _ & V). destruct (V f Hq); lra. }
    rewrite sumR_L in *. split.
    + rewrite <- (Rmult_1_r lo), <- UC, <- sumL_scal. apply sumL_le. intros e He. apply in_seq in He. specialize (P e). specialize (B e ltac:(lia)). nra.
    + rewrite <- (Rmult_1_r up), <- UC, <- sumL_scal. apply sumL_le. intros e He. apply in_seq in He. specialize (P e). specialize (B e ltac:(lia)). nra.
Qed.
End Init.
