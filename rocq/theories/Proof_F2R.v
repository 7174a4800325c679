(** Quad4::Map::FineLayer2Regular: the constructor and mapToRegular. *)
From Coq Require Import Reals ZArith Lra Permutation.
From Verif Require Import Base Spec Spec2d Sums Spec_Vector Spec_Tiling Spec_Map Model_Numbering Model_Regular2d Model_Vector Model_FineLayer Model_Map
  Proof_Vector Proof_Regular2d Proof_RegularTiling Proof_FineLayer Proof_FineLayerMesh Proof_FineLayerTiling Proof_FineLayerArea Proof_FineLayerBoundary Proof_FineLayerGrid Proof_FineLayerThm
  Proof_Refine Proof_F2RLocal Proof_F2RBlock.

(** ** pushing to a vector of vectors *)
Lemma set_tab1 {A} n (f : nat -> A) k v : k < n -> set (tab1 n f) k v = Ok (tab1 n (fun e => if e =? k then v else f e)).
Proof.
  intros H. destruct (set_Ok (tab1 n f) k v) as (a & E & L & N); [now rewrite tab1_len|]. rewrite E. f_equal. apply nth_error_ext. intros i. rewrite N.
  destruct (Nat.ltb_spec i n) as [G|G].
  - rewrite (tab1_nth_error n (fun e => if e =? k then v else f e) i G). destruct (Nat.eqb_spec i k) as [->|Hne]; [reflexivity|]. now rewrite tab1_nth_error.
  - destruct (Nat.eqb_spec i k); [lia|]. rewrite (proj2 (nth_error_None _ i)) by (rewrite tab1_len; lia). symmetry. apply nth_error_None. rewrite tab1_len. lia.
Qed.
Lemma push_fold {A} n : forall (ws : list (nat * A)) f, (forall w, In w ws -> fst w < n) ->
  foldM (fun a w => do l <- get a (fst w); set a (fst w) (l ++ [snd w])) ws (tab1 n f) = Ok (tab1 n (fun e => f e ++ map snd (filter (fun w => fst w =? e) ws))).
Proof.
  induction ws as [|[k x] ws IH]; intros f H.
  - cbn. f_equal. apply tab1_ext. intros i _. now rewrite app_nil_r.
  - cbn [foldM fst snd]. rewrite tab1_get by (apply (H (k, x)); now left). cbn [bind]. rewrite set_tab1 by (apply (H (k, x)); now left). cbn [bind]. rewrite IH by (intros; apply H; now right).
    f_equal. apply tab1_ext. intros i _. cbn [filter fst]. rewrite (Nat.eqb_sym k i). destruct (Nat.eqb_spec i k) as [->|Hne]; [|reflexivity]. cbn [map snd]. now rewrite <- app_assoc.
Qed.
Lemma push_all_Ok {A} n (ws : list (nat * A)) : (forall w, In w ws -> fst w < n) -> push_all n ws = Ok (tab1 n (fun e => map snd (filter (fun w => fst w =? e) ws))).
Proof.
  intros H. unfold push_all. replace (repeat [] n) with (tab1 n (fun _ => @nil A)).
  - now rewrite push_fold.
  - unfold tab1. clear. assert (G : forall a, map (fun _ : nat => @nil A) (seq a n) = repeat [] n) by (induction n as [|n IH]; intros a; [reflexivity|]; cbn; now rewrite IH). apply G.
Qed.
Lemma filter_to_elem {B} e0 e (l : list B) : map snd (filter (fun w => fst w =? e) (map (pair e0) l)) = if e0 =? e then l else [].
Proof.
  destruct (Nat.eqb_spec e0 e) as [->|Hne].
  - induction l as [|b l IH]; [reflexivity|]. cbn [map filter fst]. rewrite Nat.eqb_refl. cbn [map snd]. now rewrite IH.
  - induction l as [|b l IH]; [reflexivity|]. cbn [map filter fst]. destruct (Nat.eqb_spec e0 e); [contradiction|]. exact IH.
Qed.
Lemma filter_flat_map {A B} (p : B -> bool) (f : A -> list B) l : filter p (flat_map f l) = flat_map (fun a => filter p (f a)) l.
Proof. induction l as [|a l IH]; [reflexivity|]. cbn. now rewrite filter_app, IH. Qed.
Lemma pick {A B} (eps : A -> nat) (g : A -> list B) : forall l t, NoDup l -> (forall a b, In a l -> In b l -> eps a = eps b -> a = b) -> In t l ->
  map snd (filter (fun w => fst w =? eps t) (flat_map (fun a => map (pair (eps a)) (g a)) l)) = g t.
Proof.
  intros l t N I H. rewrite filter_flat_map, Proof_F2RLocal.map_flat_map.
  assert (G : forall l', (forall a, In a l' -> In a l) -> NoDup l' -> flat_map (fun a => map snd (filter (fun w => fst w =? eps t) (map (pair (eps a)) (g a)))) l' = if in_dec (fun x y => Nat.eq_dec x y) (eps t) (map eps l') then g t else []).
  { induction l' as [|a l' IH]; intros S N'; [reflexivity|]. cbn [flat_map]. rewrite IH; [|intros; apply S; now right|now inversion N'].
    rewrite filter_to_elem. destruct (Nat.eqb_spec (eps a) (eps t)) as [E|E].
    - assert (a = t) by (apply I; auto; apply S; now left). subst a. destruct (in_dec (fun x y => Nat.eq_dec x y) (eps t) (map eps l')) as [D|D].
      + exfalso. apply in_map_iff in D. destruct D as (b & Eb & Hb). assert (b = t) by (apply I; auto; apply S; now right). subst b. inversion N'; contradiction.
      + rewrite app_nil_r. destruct (in_dec (fun x y => Nat.eq_dec x y) (eps t) (map eps (t :: l'))) as [|Q]; [reflexivity|]. exfalso. apply Q. now left.
    - cbn [app]. destruct (in_dec (fun x y => Nat.eq_dec x y) (eps t) (map eps l')) as [D|D], (in_dec (fun x y => Nat.eq_dec x y) (eps t) (map eps (a :: l'))) as [D'|D']; try reflexivity.
      + exfalso. apply D'. now right.
      + exfalso. destruct D'; contradiction. }
  rewrite (G l) by auto. destruct (in_dec (fun x y => Nat.eq_dec x y) (eps t) (map eps l)) as [|Q]; [reflexivity|]. exfalso. apply Q. now apply in_map.
Qed.

Lemma flat_map_flat_map' {A B C} (f : B -> list C) (g : A -> list B) l : flat_map f (flat_map g l) = flat_map (fun a => flat_map f (g a)) l.
Proof. induction l as [|a l IH]; [reflexivity|]. cbn. now rewrite flat_map_app, IH. Qed.
Lemma flat_map_map' {A B C} (f : B -> list C) (g : A -> B) l : flat_map f (map g l) = flat_map (fun a => f (g a)) l.
Proof. induction l as [|a l IH]; [reflexivity|]. cbn. now rewrite IH. Qed.

Section F2R.
Variables (nelx n : nat) (w y : nat -> nat) (r : nat -> bool) (h : R).
Hypothesis HL : layered nelx n w y r.
Notation L := (L n).
Notation W := (W n w).
Notation Hy := (Hy n y).
Notation Rf := (Rf n r).
Notation NX := (NX nelx n w).
Notation NE := (NE nelx n w r).
Notation SE := (SE nelx n w r).
Notation Y := (Y n y).
Notation X := (coorl nelx n w y r h).
Notation C := (connl nelx n w r).
Notation sz := (sz n w r).
Notation tm := (tm n r).
Notation elem_case := (elem_case nelx n w r).
Notation m := (FL_of nelx n w y r h).
Notation reg := (mkRegular nelx (Y L) h).

Definition kd (iy : nat) : kind := if Rf iy then (if iy <? n then Low else Up) else Sq.
Lemma tm_kd iy : tm iy = tms (kd iy).
Proof. unfold Proof_FineLayerMesh.tm, kd. destruct (Rf iy); [destruct (iy <? n)|]; reflexivity. Qed.
Lemma kd_size iy : iy < L -> 1 <= sz iy /\ kw (kd iy) (sz iy) = W iy /\ kh (kd iy) (sz iy) = Hy iy.
Proof.
  intros H. destruct (sz_facts _ _ _ _ _ HL iy H) as [(E & E1 & E2 & E3)|(E & E1 & E2 & E3)]; unfold kd; rewrite E; cbn [kw kh]; [lia|]. destruct (iy <? n); cbn [kw kh]; lia.
Qed.
Definition cid (iy ix j c : nat) : nat := (Y iy + j) * nelx + (W iy * ix + c).
Definition trip : Type := nat * nat * nat.
Definition eps (t : trip) : nat := match t with (iy, ix, k) => SE iy + (ix * length (tm iy) + k) end.
Definition gg (t : trip) : list (nat * R) := match t with (iy, ix, k) => map (pl (cid iy ix)) (loc (kd iy) k (sz iy)) end.
Definition TL : list trip := flat_map (fun iy => flat_map (fun ix => map (fun k => (iy, ix, k)) (order (kd iy))) (seq 0 (NX iy))) (seq 0 L).

Lemma order_in K k : In k (order K) <-> k < length (tms K).
Proof. destruct K; cbn [order tms length lows ups In]; lia. Qed.
Lemma order_NoDup K : NoDup (order K).
Proof. destruct K; cbn [order]; repeat constructor; cbn [In]; lia. Qed.
Lemma in_TL iy ix k : In (iy, ix, k) TL <-> iy < L /\ ix < NX iy /\ k < length (tm iy).
Proof.
  unfold TL. rewrite in_flat_map. split.
  - intros (iy' & Hi & H). apply in_seq in Hi. apply in_flat_map in H. destruct H as (ix' & Hx & H). apply in_seq in Hx. apply in_map_iff in H. destruct H as (k' & E & H). injection E as -> -> ->. rewrite tm_kd. apply order_in in H. lia.
  - intros (Hi & Hx & Hk). exists iy. split; [apply in_seq; lia|]. apply in_flat_map. exists ix. split; [apply in_seq; lia|]. apply in_map_iff. exists k. split; [reflexivity|]. apply order_in. now rewrite <- tm_kd.
Qed.
Lemma TL_NoDup : NoDup TL.
Proof.
  unfold TL. apply NoDup_flat_map; [apply seq_NoDup| |].
  - intros iy _. apply NoDup_flat_map; [apply seq_NoDup| |].
    + intros ix _. apply NoDup_map_inj; [apply order_NoDup|]. intros a b _ _ E. now injection E.
    + intros a b x _ _ Ha Hb. apply in_map_iff in Ha, Hb. destruct Ha as (k & <- & _), Hb as (k' & E & _). now injection E.
  - intros a b x _ _ Ha Hb. apply in_flat_map in Ha, Hb. destruct Ha as (ix & _ & Ha), Hb as (ix' & _ & Hb). apply in_map_iff in Ha, Hb. destruct Ha as (k & <- & _), Hb as (k' & E & _). now injection E.
Qed.
Lemma eps_bound iy ix k : ix < NX iy -> k < length (tm iy) -> ix * length (tm iy) + k < NE iy.
Proof. intros Hx Hk. rewrite <- (tm_length nelx n w r). nia. Qed.
Lemma eps_inj t t' : In t TL -> In t' TL -> eps t = eps t' -> t = t'.
Proof.
  destruct t as [[iy ix] k], t' as [[iy' ix'] k']. rewrite !in_TL. intros (Hi & Hx & Hk) (Hi' & Hx' & Hk') E. cbn [eps] in E. unfold Proof_FineLayer.SE in E.
  apply blocks_inj in E; [|now apply eps_bound|now apply eps_bound]. destruct E as [<- E]. apply grid_inj in E; try assumption. destruct E as [-> ->]. reflexivity.
Qed.
Lemma eps_lt t : In t TL -> eps t < SE L.
Proof.
  destruct t as [[iy ix] k]. rewrite in_TL. intros (Hi & Hx & Hk). cbn [eps]. pose proof (eps_bound iy ix k Hx Hk). pose proof (nsum_le (S iy) L NE ltac:(lia)) as G. cbn [nsum] in G. unfold Proof_FineLayer.SE in *. lia.
Qed.
Lemma eps_onto e : e < SE L -> exists t, In t TL /\ eps t = e.
Proof.
  intros H. destruct (elem_cases nelx n w r e H) as (iy & ix & T & [k Hi Hx Hk ->]). exists (iy, ix, k). split; [|reflexivity]. apply in_TL. repeat split; auto. apply nth_error_Some. congruence.
Qed.
Lemma TL_perm : Permutation (map eps TL) (seq 0 (SE L)).
Proof.
  apply NoDup_Permutation; [|apply seq_NoDup|].
  - apply NoDup_map_inj; [apply TL_NoDup|]. apply eps_inj.
  - intros e. rewrite in_map_iff, in_seq. split.
    + intros (t & <- & Ht). apply eps_lt in Ht. lia.
    + intros [_ H]. destruct (eps_onto e H) as (t & Ht & E). eauto.
Qed.

(** ** the constructor *)
Lemma nelx_eq : amax (f_layer_nelx m) = nelx.
Proof.
  pose proof (n_L _ _ _ _ _ HL) as HnL. cbn [f_layer_nelx FL_of]. pose proof (W_NX _ _ _ _ _ HL (n - 1) HnL) as E. rewrite (W_mid _ _ _ _ _ HL) in E.
  rewrite (amax_tab1 _ _ (n - 1)); [lia|assumption|]. intros i Hi. pose proof (W_NX _ _ _ _ _ HL i Hi). pose proof (W_pos _ _ _ _ _ HL i Hi). nia.
Qed.
Lemma Y_S iy : Y (iy + 1) = Y iy + Hy iy.
Proof. rewrite Nat.add_1_r. reflexivity. Qed.
Lemma cum_get iy : iy <= L -> get (0 :: cumsum (f_nhy m)) iy = Ok (Y iy).
Proof.
  intros H. rewrite cumsum_spec. destruct iy as [|iy]; [reflexivity|]. change (get (0 :: tab1 L (fun i => Y (i + 1))) (S iy)) with (get (tab1 L (fun i => Y (i + 1))) iy). rewrite tab1_get by lia. now rewrite Nat.add_1_r.
Qed.
Lemma block_eq iy ix : iy < L -> ix < NX iy ->
  map (slice (ix * W iy) ((ix + 1) * W iy)) (slice (Y iy) (Y (iy + 1)) (elementgrid reg)) = B (cid iy ix) (W iy) (Hy iy).
Proof.
  intros Hi Hx. rewrite elementgrid_rows. cbn [Model_Regular2d.nelx nely].
  pose proof (W_NX _ _ _ _ _ HL iy Hi) as EX. assert (A : (ix + 1) * W iy <= nelx) by (rewrite <- EX; nia).
  rewrite slice_map_seq by (try apply Y_mono; lia). rewrite map_map, Y_S. replace (Y iy + Hy iy - Y iy) with (Hy iy) by lia.
  rewrite map_seq_shift. unfold B. apply map_ext. intros j. rewrite slice_map_seq by lia. replace ((ix + 1) * W iy - ix * W iy) with (W iy) by lia.
  rewrite map_seq_shift. apply map_ext. intros c. unfold cid. lia.
Qed.
Definition F2Rr : FineLayer2Regular := mkF2R m reg (tab1 (SE L) (fun e => map snd (filter (fun q => fst q =? e) (flat_map (fun t => map (pair (eps t)) (gg t)) TL)))).
Lemma F2R_init : FineLayer2Regular_init m = Ok F2Rr.
Proof.
  unfold FineLayer2Regular_init. cbv zeta.
  replace (mkRegular (amax (f_layer_nelx m)) (fold_right Nat.add 0 (f_nhy m)) (f_h m)) with reg.
  2:{ f_equal; [symmetry; exact nelx_eq|symmetry; exact (nely_spec nelx n w y r h)]. }
  replace (length (f_nhy m)) with L by (symmetry; apply tab1_len). rewrite (L_half n).
  rewrite (concatM_Ok _ (fun iy => flat_map (fun ix => flat_map (fun k => to_elem (eps (iy, ix, k)) (gg (iy, ix, k))) (order (kd iy))) (seq 0 (NX iy)))).
  - cbn [bind].
    assert (EW : flat_map (fun iy => flat_map (fun ix => flat_map (fun k => to_elem (eps (iy, ix, k)) (gg (iy, ix, k))) (order (kd iy))) (seq 0 (NX iy))) (seq 0 L) = flat_map (fun t => map (pair (eps t)) (gg t)) TL).
    { unfold TL. rewrite flat_map_flat_map'. apply flat_map_ext. intros iy. rewrite flat_map_flat_map'. apply flat_map_ext. intros ix. rewrite flat_map_map'. reflexivity. }
    rewrite EW, push_all_Ok.
    + reflexivity.
    + intros q Hq. apply in_flat_map in Hq. destruct Hq as (t & Ht & Hq). apply in_map_iff in Hq. destruct Hq as (x & <- & _). cbn [fst f_nelem FL_of]. now apply eps_lt.
  - intros iy Hi. apply in_seq in Hi. rewrite !cum_get by lia. cbn [bind]. cbn [f_refine f_layer_nelx f_nhx f_nhy f_startElem FL_of]. rewrite !tab1_get by lia. cbn [bind].
    apply concatM_Ok. intros ix Hx. apply in_seq in Hx. rewrite block_eq by lia. cbn [eps gg].
    destruct (kd_size iy ltac:(lia)) as (S1 & S2 & S3). unfold kd in *. unfold Proof_FineLayerMesh.tm. unfold Zr. destruct (Rf iy) eqn:ER; cbn [Z.eqb].
    + destruct (Nat.ltb_spec iy n) as [G|G]; cbn [kw kh length lows ups] in *.
      * destruct (Nat.leb_spec iy (n - 1)); [|lia]. cbn [andb]. rewrite <- S2, <- S3. rewrite below_Ok by assumption. f_equal. apply flat_map_ext. intros k. f_equal. lia.
      * destruct (Nat.leb_spec iy (n - 1)); [pose proof (l_n _ _ _ _ _ HL); lia|]. destruct (Nat.ltb_spec (n - 1) iy); [|lia]. cbn [andb]. rewrite <- S2, <- S3. rewrite above_Ok by assumption. f_equal. apply flat_map_ext. intros k. f_equal. lia.
    + cbn [Pos.eqb kw kh length] in *. rewrite <- S2 at 1. rewrite <- S3. rewrite sq_Ok. f_equal. apply flat_map_ext. intros k. f_equal. lia.
Qed.
Lemma pairs_at t : In t TL -> nth_error (fr_pairs F2Rr) (eps t) = Some (gg t).
Proof. intros H. cbn [fr_pairs F2Rr]. rewrite tab1_nth_error by now apply eps_lt. f_equal. apply pick; auto using TL_NoDup. apply eps_inj. Qed.
Lemma pairs_inv e l : nth_error (fr_pairs F2Rr) e = Some l -> exists t, In t TL /\ e = eps t /\ l = gg t.
Proof.
  intros H. assert (He : e < SE L) by (rewrite <- (tab1_len (SE L) (fun e => map snd (filter (fun q => fst q =? e) (flat_map (fun t => map (pair (eps t)) (gg t)) TL)))); apply nth_error_Some; cbn [fr_pairs F2Rr] in H; congruence).
  destruct (eps_onto e He) as (t & Ht & <-). rewrite pairs_at in H by assumption. injection H as <-. eauto.
Qed.
End F2R.
