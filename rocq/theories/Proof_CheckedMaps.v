(** Lemmas for C115. *)
From Coq Require Import Reals ZArith Lra Permutation Sorted Lia.
From Verif Require Import Base Sums Spec Spec2d Spec_Tiling Spec_FineLayer Spec_Map Spec_Vector Model_Numbering Model_Vector Model_Misc Model_Regular2d Model_Hex8Regular
  Model_FineLayer Model_Hex8FineLayer Model_Map Model_Checked Model_CheckedMaps Spec_Misc Spec_CheckedMaps Proof_F2RThm Proof_Numbering Proof_Regular2d Proof_Vector Proof_Misc Proof_Refine Proof_Checked Proof_StitchChecked Proof_CheckedMatrixTyings2 Spec.
Local Open Scope nat_scope.

Lemma asrt {A} ck c (k : res A) : c = true -> assert ck c k = k.
Proof. intros ->. unfold assert. now rewrite andb_false_r. Qed.

Lemma asrt_no {A} c (k : res A) : c = false -> assert true c k = Throw.
Proof. intros ->. reflexivity. Qed.

Lemma cells_per rest : cells rest = per_element rest. Proof. reflexivity. Qed.
Lemma indices_nth_of rest : forall k, k < per_element rest -> nth_error (indices rest) k = Some (index_of rest k).
Proof.
  induction rest as [|n rest IH]; intros k Hk.
  - cbn in *. now replace k with 0 by lia.
  - change (per_element (n :: rest)) with (n * per_element rest) in Hk.
    assert (P : 0 < per_element rest) by (destruct (per_element rest); lia).
    cbn [indices index_of].
    replace (nth_error (flat_map (fun i => map (cons i) (indices rest)) (seq 0 n)) k) with
      (nth_error (flat_map (fun i => map (cons i) (indices rest)) (seq 0 n)) (k / per_element rest * per_element rest + k mod per_element rest))
      by (f_equal; pose proof (Nat.div_mod_eq k (per_element rest)); lia).
    assert (K : k / per_element rest < n) by (apply Nat.div_lt_upper_bound; lia).
    rewrite (nth_error_flat_map_const _ (per_element rest)); [|intros; now rewrite map_length, indices_length|apply Nat.mod_upper_bound; lia].
    rewrite nth_error_seq. destruct (Nat.ltb_spec (k / per_element rest) n); [|lia]. rewrite nth_error_map, IH by (apply Nat.mod_upper_bound; lia). reflexivity.
Qed.
Lemma rows_nd_length n rest a : length (rows_nd n rest a) = n. Proof. unfold rows_nd. now rewrite map_length, seq_length. Qed.
Lemma rows_nd_shape n rest a : shape2 (rows_nd n rest a) n (per_element rest).
Proof. split; [apply rows_nd_length|]. intros x Hx. unfold rows_nd in Hx. apply in_map_iff in Hx. destruct Hx as (e & <- & _). now rewrite map_length, indices_length. Qed.
Lemma rows_nd_comp n rest a e k : e < n -> k < per_element rest -> comp (rows_nd n rest a) e k = entry a rest e k.
Proof.
  intros He Hk. unfold comp, entry.
  rewrite (nth_of_nth_error (rows_nd n rest a) e (map (fun ix => a_ent a (e :: ix)) (indices rest)) []) by (unfold rows_nd; rewrite nth_error_map, nth_error_seq; destruct (Nat.ltb_spec e n); [reflexivity|lia]).
  apply nth_of_nth_error. rewrite nth_error_map, indices_nth_of by assumption. reflexivity.
Qed.
Lemma eq_list_spec a : forall b, eq_list a b = true <-> a = b.
Proof.
  induction a as [|x a IH]; intros [|y b]; cbn; split; intros H; try discriminate; try reflexivity.
  - apply andb_true_iff in H. destruct H as [H1 H2]. apply Nat.eqb_eq in H1. apply IH in H2. congruence.
  - injection H as -> ->. rewrite Nat.eqb_refl. now apply IH.
Qed.

(** ** constructors *)
Lemma P_regular nelx nely h :
  (1 <= nelx -> 1 <= nely -> forall ck, Regular_checked ck nelx nely h = Ok (mkRegular nelx nely h)) /\
  (nelx = 0 \/ nely = 0 -> Regular_checked true nelx nely h = Throw).
Proof.
  unfold Regular_checked. split.
  - intros Hx Hy ck. rewrite !asrt by now apply Nat.leb_le. reflexivity.
  - intros H. destruct nelx; [reflexivity|]. destruct nely; [reflexivity|]. lia.
Qed.
Lemma P_hex nelx nely nelz h :
  (1 <= nelx -> 1 <= nely -> 1 <= nelz -> forall ck, HexRegular_checked ck nelx nely nelz h = Ok (mkHexRegular nelx nely nelz h)) /\
  (nelx = 0 \/ nely = 0 \/ nelz = 0 -> HexRegular_checked true nelx nely nelz h = Throw).
Proof.
  unfold HexRegular_checked. split.
  - intros Hx Hy Hz ck. rewrite !asrt by now apply Nat.leb_le. reflexivity.
  - intros H. destruct nelx; [reflexivity|]. destruct nely; [reflexivity|]. destruct nelz; [reflexivity|]. lia.
Qed.
Lemma P_fine nelx nely h nfine :
  (1 <= nelx -> 1 <= nely -> forall ck, FineLayer_checked ck nelx nely h nfine = FineLayer_init nelx nely h nfine) /\
  (nelx = 0 \/ nely = 0 -> FineLayer_checked true nelx nely h nfine = Some Throw).
Proof.
  unfold FineLayer_checked. split.
  - intros Hx Hy ck. destruct nelx; [lia|]. destruct nely; [lia|]. cbn [Nat.leb andb negb]. now rewrite andb_false_r.
  - intros H. destruct nelx; [reflexivity|]. destruct nely; [reflexivity|]. lia.
Qed.
Lemma P_hexfine nelx nely nelz h nfine :
  (1 <= nelx -> 1 <= nely -> 1 <= nelz -> forall ck, HexFineLayer_checked ck nelx nely nelz h nfine = HexFineLayer_init nelx nely nelz h nfine) /\
  (nelx = 0 \/ nely = 0 \/ nelz = 0 -> HexFineLayer_checked true nelx nely nelz h nfine = Some Throw).
Proof.
  unfold HexFineLayer_checked. split.
  - intros Hx Hy Hz ck. destruct nelx; [lia|]. destruct nely; [lia|]. destruct nelz; [lia|]. cbn [Nat.leb andb negb]. now rewrite andb_false_r.
  - intros H. destruct nelx; [reflexivity|]. destruct nely; [reflexivity|]. destruct nelz; [reflexivity|]. lia.
Qed.
Lemma P_refine m nx ny :
  (1 <= nx -> 1 <= ny -> 1 <= nelx m -> 1 <= nely m -> exists r, (forall ck, RefineRegular_checked ck m nx ny = Ok r) /\ RefineRegular_init m nx ny = Ok r) /\
  (nx = 0 \/ ny = 0 \/ nelx m = 0 \/ nely m = 0 -> RefineRegular_checked true m nx ny = Throw).
Proof.
  unfold RefineRegular_checked. split.
  - intros Hx Hy Hm Hn. destruct (T_map m nx ny Hx Hy) as (r & E & _). exists r. split; [|exact E]. intros ck.
    rewrite (proj1 (P_regular (nx * nelx m) (ny * nely m) (hh m))) by nia. exact E.
  - intros H. rewrite (proj2 (P_regular (nx * nelx m) (ny * nely m) (hh m))) by nia. reflexivity.
Qed.

(** ** FineLayer *)
Lemma P_layer m layer :
  (layer < length (f_layer_nelx m) -> forall ck, elementsLayer_checked ck m layer = elementsLayer m layer) /\
  (length (f_layer_nelx m) <= layer -> elementsLayer_checked true m layer = Throw /\ elementsLayer_checked false m layer = Oob).
Proof.
  unfold elementsLayer_checked. split; intros H.
  - intros ck. apply asrt. now apply Nat.ltb_lt.
  - assert (F : (layer <? length (f_layer_nelx m)) = false) by now apply Nat.ltb_ge. rewrite F. split; [reflexivity|]. cbn.
    unfold elementsLayer, get. now rewrite (proj2 (nth_error_None _ _) H).
Qed.

Lemma size_true l : (length l =? 0) || (length l =? 2) = true <-> range_size l.
Proof.
  unfold range_size. destruct l as [|a [|b [|c l]]]; cbn; split; intros H; try discriminate; auto.
  - destruct H as [H|(x & y & H)]; discriminate.
  - right. eauto.
  - destruct H as [H|(x & y & H)]; discriminate.
Qed.
Lemma P_ravel m rows cols :
  (range_size rows -> range_size cols -> range_in (f_nely m) rows -> range_in (f_nelx m) cols ->
     forall ck, elementgrid_ravel_checked ck m rows cols = elementgrid_ravel m (start_stop rows) (start_stop cols)) /\
  (~ (range_size rows /\ range_size cols /\ range_in (f_nely m) rows /\ range_in (f_nelx m) cols) -> elementgrid_ravel_checked true m rows cols = Throw).
Proof.
  unfold elementgrid_ravel_checked. cbv zeta. split.
  - intros S1 S2 B1 B2 ck. rewrite !asrt by now apply size_true.
    destruct S1 as [->|(a & b & ->)]; cbn [start_stop]; [|destruct (B1 a b eq_refl); rewrite !asrt by now apply Nat.leb_le];
    (destruct S2 as [->|(c & d & ->)]; cbn [start_stop]; [reflexivity|destruct (B2 c d eq_refl); rewrite !asrt by (now apply Nat.leb_le); reflexivity]).
  - intros H. destruct ((length rows =? 0) || (length rows =? 2)) eqn:S1; [|reflexivity]. destruct ((length cols =? 0) || (length cols =? 2)) eqn:S2; [|reflexivity].
    apply size_true in S1, S2. cbn [assert andb negb].
    assert (B : ~ range_in (f_nely m) rows \/ (range_in (f_nely m) rows /\ ~ range_in (f_nelx m) cols)).
    { destruct S1 as [->|(a & b & ->)].
      - right. split; [intros a b Q; discriminate|]. intros Q. apply H. split; [now left|]. split; [exact S2|]. split; [intros a b Z; discriminate|exact Q].
      - destruct (le_dec a (f_nely m)), (le_dec b (f_nely m)); try (left; intros Q; specialize (Q a b eq_refl); lia).
        right. assert (range_in (f_nely m) [a; b]) by (intros x y Q; injection Q as <- <-; lia). split; [assumption|]. intros Q. apply H. split; [right; eauto|]. split; [exact S2|]. split; assumption. }
    assert (T : forall n l K, range_size l -> ~ range_in n l -> (match start_stop l with Some (a, b) => fun k => assert true (a <=? n) (assert true (b <=? n) k) | None => fun k : res (list nat) => k end) K = Throw).
    { intros n l K [->|(a & b & ->)] Q; [exfalso; apply Q; intros x y Z; discriminate|]. cbn [start_stop]. unfold assert.
      destruct (Nat.leb_spec a n); [|reflexivity]. destruct (Nat.leb_spec b n); [|reflexivity]. exfalso. apply Q. intros x y Z. injection Z as <- <-. lia. }
    destruct B as [B|[B1 B2]].
    + unfold assert at 1 2. cbn [andb negb]. now apply T.
    + unfold assert at 1 2. cbn [andb negb]. rewrite (T (f_nelx m) cols _ S2 B2). destruct (start_stop rows) as [[a b]|]; [|reflexivity].
      unfold assert. destruct (a <=? f_nely m); [|reflexivity]. destruct (b <=? f_nely m); reflexivity.
Qed.

(** ** data *)
Section Maps.
Variables (m : Regular) (nx ny : nat).
Hypothesis (H1 : 1 <= nx) (H2 : 1 <= ny).
Let r := RRr m nx ny.

Lemma map_concat_len : length (concat (rr_map r)) = nelem (rr_fine r).
Proof using H1 H2. apply (concat_MM_length m nx ny H1 H2). Qed.
Lemma map_len : length (rr_map r) = nelem m.
Proof using H1 H2. apply (MM_length m nx ny H1 H2). Qed.
Lemma fine_row row e : In row (rr_map r) -> In e row -> e < nelem (rr_fine r).
Proof using H1 H2. apply (row_lt m nx ny H1 H2). Qed.
End Maps.

Lemma sum_ext (l : list nat) f g : (forall e, In e l -> f e = g e) -> sumR (map f l) = sumR (map g l).
Proof. intros H. f_equal. apply map_ext_in. exact H. Qed.

Lemma P_mean : forall m nx ny r data, 1 <= nx -> 1 <= ny -> RefineRegular_init m nx ny = Ok r ->
  (forall rest, a_shape data = nelem (rr_fine r) :: rest -> exists M, (forall ck, meanToCoarse_checked ck r data = Ok (nelem m :: rest, M)) /\
     shape2 M (nelem m) (per_element rest) /\
     (forall c row k, nth_error (rr_map r) c = Some row -> k < per_element rest ->
        comp M c k = (sumR (map (fun e => entry data rest e k) row) / INR (nx * ny))%R)) /\
  ((forall rest, a_shape data <> nelem (rr_fine r) :: rest) -> meanToCoarse_checked true r data = Throw).
Proof.
  intros m nx ny r data H1 H2 E. pose proof E as E0. rewrite (RR_init m nx ny H1 H2) in E0. injection E0 as E0.
  assert (LC : length (concat (rr_map r)) = nelem (rr_fine r)) by (rewrite <- E0; apply map_concat_len; assumption).
  assert (LM : length (rr_map r) = nelem m) by (rewrite <- E0; apply map_len; assumption).
  assert (IR : forall row e, In row (rr_map r) -> In e row -> e < nelem (rr_fine r)) by (rewrite <- E0; intros; eapply (fine_row m nx ny); eassumption).
  unfold meanToCoarse_checked. split.
  - intros rest ->. rewrite LC, LM.
    destruct (T_mean m nx ny r (per_element rest) (rows_nd (nelem (rr_fine r)) rest data) H1 H2 E (rows_nd_shape _ _ _)) as (M & EM & SM & VM & _).
    exists M. split; [|split; [exact SM|]].
    + intros ck. rewrite asrt by apply Nat.eqb_refl. rewrite cells_per, EM. reflexivity.
    + intros c row k Hc Hk. rewrite (VM c row k Hc Hk). unfold total_over. f_equal. apply sum_ext. intros e He. apply rows_nd_comp; [|exact Hk].
      apply (IR row); [eapply nth_error_In; eassumption|exact He].
  - intros H. destruct (a_shape data) as [|n rest]; [reflexivity|]. rewrite LC. apply asrt_no. apply Nat.eqb_neq. intros ->. now apply (H rest).
Qed.

Lemma P_tofine : forall m nx ny r data, 1 <= nx -> 1 <= ny -> RefineRegular_init m nx ny = Ok r ->
  (forall rest, a_shape data = nelem m :: rest -> exists F, (forall ck, mapToFine_checked ck r data = Ok (nelem (rr_fine r) :: rest, F)) /\
     shape2 F (nelem (rr_fine r)) (per_element rest) /\
     (forall c row e k, nth_error (rr_map r) c = Some row -> In e row -> k < per_element rest -> comp F e k = entry data rest c k)) /\
  ((forall rest, a_shape data <> nelem m :: rest) -> mapToFine_checked true r data = Throw).
Proof.
  intros m nx ny r data H1 H2 E. pose proof E as E0. rewrite (RR_init m nx ny H1 H2) in E0. injection E0 as E0.
  assert (LC : length (concat (rr_map r)) = nelem (rr_fine r)) by (rewrite <- E0; apply map_concat_len; assumption).
  assert (LM : length (rr_map r) = nelem m) by (rewrite <- E0; apply map_len; assumption).
  unfold mapToFine_checked. split.
  - intros rest ->. rewrite LC, LM.
    destruct (T_mapToFine m nx ny r (per_element rest) (rows_nd (nelem m) rest data) H1 H2 E (rows_nd_shape _ _ _)) as (F & EF & SF & VF).
    exists F. split; [|split; [exact SF|]].
    + intros ck. rewrite asrt by apply Nat.eqb_refl. rewrite EF. reflexivity.
    + intros c row e k Hc He Hk. assert (C : c < nelem m) by (rewrite <- LM; apply nth_error_Some; congruence).
      rewrite <- (rows_nd_comp (nelem m) rest data c k C Hk). unfold comp. f_equal.
      pose proof (VF c row e Hc He) as Q. destruct (nth_error (rows_nd (nelem m) rest data) c) as [x|] eqn:Z; [|apply nth_error_None in Z; rewrite rows_nd_length in Z; lia].
      rewrite (nth_of_nth_error _ _ _ [] Q), (nth_of_nth_error _ _ _ [] Z). reflexivity.
  - intros H. destruct (a_shape data) as [|n rest]; [reflexivity|]. rewrite LM. apply asrt_no. apply Nat.eqb_neq. intros ->. now apply (H rest).
Qed.

(** ** weights *)
Lemma get_rows {A} (W : list (list A)) n row : (forall e, In e row -> e < n) -> mapM (get W) row = mapM (get (firstn n W)) row.
Proof. intros H. apply mapM_ext. intros e He. unfold get. now rewrite nth_error_firstn by auto. Qed.
Lemma average_rows d r F W n : (forall row e, In row (rr_map r) -> In e row -> e < n) -> averageToCoarse d r F W = averageToCoarse d r F (firstn n W).
Proof.
  intros H. unfold averageToCoarse. apply mapM_ext. intros row Hr. destruct (mapM (get F) row) as [v| | |]; [|reflexivity..]. cbn [bind].
  rewrite (get_rows W n row) by (intros e He; now apply (H row)). reflexivity.
Qed.
Lemma comp_firstn n (W : list (list R)) e k : e < n -> comp (firstn n W) e k = comp W e k.
Proof.
  intros He. unfold comp. f_equal. destruct (nth_error W e) as [x|] eqn:Z.
  - rewrite (nth_of_nth_error W e x [] Z). apply nth_of_nth_error. now rewrite nth_error_firstn.
  - rewrite !nth_overflow; [reflexivity| |]; apply nth_error_None; [exact Z|now rewrite nth_error_firstn].
Qed.

Lemma P_average : forall m nx ny r data weights, 1 <= nx -> 1 <= ny -> RefineRegular_init m nx ny = Ok r ->
  (forall rest n', a_shape data = nelem (rr_fine r) :: rest -> a_shape weights = n' :: rest -> nelem (rr_fine r) <= n' ->
     exists A, (forall ck, averageToCoarse_checked ck r data weights = Ok (nelem m :: rest, A)) /\ shape2 A (nelem m) (per_element rest) /\
  (forall c row k, nth_error (rr_map r) c = Some row -> k < per_element rest ->
        let W := sumR (map (fun e => entry weights rest e k) row) in
        W <> 0%R -> (comp A c k * W = sumR (map (fun e => entry data rest e k * entry weights rest e k) row))%R)) /\
  (forall rest n' rest', a_shape data = nelem (rr_fine r) :: rest -> a_shape weights = n' :: rest' -> nelem (rr_fine r) <= n' -> rest' <> rest -> 1 <= nelem m ->
     forall ck, averageToCoarse_checked ck r data weights = Throw) /\
  (forall rest n', a_shape data = nelem (rr_fine r) :: rest -> a_shape weights = n' :: rest -> n' < nelem (rr_fine r) ->
     forall ck, averageToCoarse_checked ck r data weights = Oob) /\
  ((forall rest, a_shape data <> nelem (rr_fine r) :: rest) -> averageToCoarse_checked true r data weights = Throw).
Proof.
  intros m nx ny r data weights H1 H2 E. pose proof E as E0. rewrite (RR_init m nx ny H1 H2) in E0. injection E0 as E0.
  assert (LC : length (concat (rr_map r)) = nelem (rr_fine r)) by (rewrite <- E0; apply map_concat_len; assumption).
  assert (LM : length (rr_map r) = nelem m) by (rewrite <- E0; apply map_len; assumption).
  assert (IR : forall row e, In row (rr_map r) -> In e row -> e < nelem (rr_fine r)) by (rewrite <- E0; intros; eapply (fine_row m nx ny); eassumption).
  assert (G : forall rest (a : array R) n row, nelem (rr_fine r) <= n -> In row (rr_map r) -> exists v, mapM (get (rows_nd n rest a)) row = Ok v).
  { intros rest a n row Hn Hr. eexists. apply gather_Ok. intros e He. rewrite rows_nd_length. specialize (IR row e Hr He). lia. }
  unfold averageToCoarse_checked. split; [|split; [|split]].
  - intros rest n' -> -> Hn. rewrite LC, LM. set (D := rows_nd (nelem (rr_fine r)) rest data). set (W := rows_nd n' rest weights).
    assert (SW : shape2 (firstn (nelem (rr_fine r)) W) (nelem (rr_fine r)) (per_element rest)).
    { split; [rewrite firstn_length; unfold W; rewrite rows_nd_length; lia|]. intros x Hx. apply (proj2 (rows_nd_shape n' rest weights)). fold W. rewrite <- (firstn_skipn (nelem (rr_fine r)) W). apply in_or_app. now left. }
    destruct (T_average m nx ny r (per_element rest) D (firstn (nelem (rr_fine r)) W) H1 H2 E (rows_nd_shape _ _ _) SW) as (A & EA & SA & VA & _).
    exists A. split; [|split; [exact SA|]].
    + intros ck. rewrite asrt by apply Nat.eqb_refl. rewrite (Base.mapM_Ok _ (rr_map r) (fun _ => tt)).
      * cbn [bind]. rewrite cells_per, (average_rows _ _ _ W (nelem (rr_fine r)) IR), EA. reflexivity.
      * intros row Hr. destruct (G rest data _ row (le_n _) Hr) as (v & Ev). destruct (G rest weights n' row Hn Hr) as (w & Ew). unfold D, W. rewrite Ev, Ew. cbn [bind].
        rewrite (proj2 (eq_list_spec rest rest) eq_refl). reflexivity.
    + intros c row k Hc Hk. set (Wt := sumR (map (fun e => entry weights rest e k) row)). intros HW. pose proof (nth_error_In _ _ Hc) as Hr.
      assert (EW : total_over row (firstn (nelem (rr_fine r)) W) k = Wt).
      { unfold total_over, Wt. apply sum_ext. intros e He. pose proof (IR row e Hr He) as He'. rewrite comp_firstn by exact He'. apply rows_nd_comp; lia. }
      rewrite <- EW. rewrite VA by (try assumption; now rewrite EW). apply sum_ext. intros e He. pose proof (IR row e Hr He) as He'. rewrite comp_firstn by exact He'.
      unfold D, W. rewrite !rows_nd_comp by lia. reflexivity.
  - intros rest n' rest' -> -> Hn HR HM ck. rewrite asrt by (rewrite LC; apply Nat.eqb_refl).
    assert (F : eq_list rest rest' = false) by (destruct (eq_list rest rest') eqn:Q; [apply eq_list_spec in Q; congruence|reflexivity]). rewrite F.
    destruct (rr_map r) as [|row l] eqn:EL; [cbn in LM; lia|]. cbn [mapM].
    destruct (G rest data _ row (le_n _) (or_introl eq_refl)) as (v & Ev). destruct (G rest' weights n' row Hn (or_introl eq_refl)) as (w & Ew). rewrite Ev, Ew. reflexivity.
  - intros rest n' -> -> Hn ck. rewrite asrt by (rewrite LC; apply Nat.eqb_refl).
    destruct (T_map m nx ny H1 H2) as (r' & E' & _ & _ & _ & _ & P & _). rewrite E in E'. injection E' as <-.
    assert (I : In n' (concat (rr_map r))) by (apply (Permutation_in _ (Permutation_sym P)), in_seq; lia).
    apply in_concat in I. destruct I as (row & Hr & Hn').
    rewrite (mapM_oob _ (rr_map r) row Hr); [reflexivity| |].
    + destruct (G rest data _ row (le_n _) Hr) as (v & Ev). rewrite Ev. cbn [bind].
      rewrite (mapM_oob (get (rows_nd n' rest weights)) row n' Hn'); [reflexivity| |intros; apply get_two].
      unfold get. rewrite (proj2 (nth_error_None _ _)); [reflexivity|]. rewrite rows_nd_length. lia.
    + intros row' Hr'. destruct (G rest data _ row' (le_n _) Hr') as (v & Ev). rewrite Ev. cbn [bind].
      apply bind_two; [apply mapM_two; intros; apply get_two|]. intros _. rewrite (proj2 (eq_list_spec rest rest) eq_refl). eauto.
  - intros H. destruct (a_shape data) as [|n rest]; [reflexivity|]. destruct (a_shape weights) as [|n' rest']; [reflexivity|]. rewrite LC. apply asrt_no. apply Nat.eqb_neq. intros ->. now apply (H rest).
Qed.

(** ** from a FineLayer mesh to a regular mesh *)
Lemma P_toregular : forall nelx nely nfine h m fr data, 1 <= nelx -> 1 <= nely -> FineLayer_init nelx nely h nfine = Some (Ok m) -> FineLayer2Regular_init m = Ok fr ->
  (forall rest, a_shape data = f_nelem m :: rest -> exists D, (forall ck, mapToRegular_checked ck fr data = Ok (nelem (fr_regular fr) :: rest, D)) /\ shape2 D (nelem (fr_regular fr)) (per_element rest) /\
  (forall c k, c < nelem (fr_regular fr) -> k < per_element rest ->
        comp D c k = sumR (map (fun e => share (nth e (fr_map fr) []) (nth e (fr_fraction fr) []) c * entry data rest e k)%R (seq 0 (f_nelem m))))) /\
  ((forall rest, a_shape data <> f_nelem m :: rest) -> mapToRegular_checked true fr data = Throw).
Proof.
  intros nelx nely nfine h m fr data H1 H2 E F.
  assert (FM : fr_finelayer fr = m).
  { unfold FineLayer2Regular_init in F. cbv zeta in F. destruct (concatM _ _) as [ws| | |] in F; [|discriminate..]. cbn [bind] in F. destruct (push_all _ _) as [p| | |] in F; [|discriminate..]. injection F as <-. reflexivity. }
  unfold mapToRegular_checked. rewrite FM. split.
  - intros rest ->.
    destruct (U_mapToRegular nelx nely nfine h m fr H1 H2 E F (per_element rest) (rows_nd (f_nelem m) rest data) (rows_nd_shape _ _ _)) as (D & ED & SD & VD & _).
    exists D. split; [|split; [exact SD|]].
    + intros ck. rewrite asrt by apply Nat.eqb_refl. rewrite cells_per, ED. reflexivity.
    + intros c k Hc Hk. rewrite (VD c k Hc Hk). apply sum_ext. intros e He. apply in_seq in He. rewrite rows_nd_comp by lia. reflexivity.
  - intros H. destruct (a_shape data) as [|n rest]; [reflexivity|]. apply asrt_no. apply Nat.eqb_neq. intros ->. now apply (H rest).
Qed.

(** ** as3d *)
Lemma P_as3d arg :
  (forall n d, a_shape arg = [n; d] -> 1 <= d <= 3 -> exists r, (forall ck, as3d_checked ck arg = Ok r) /\ shape2 r n 3 /\ forall i j, i < n -> j < 3 -> comp r i j = if j <? d then a_ent arg [i; j] else 0%R) /\
  ((forall n d, a_shape arg = [n; d] -> d = 0 \/ 3 < d) -> as3d_checked true arg = Throw).
Proof.
  unfold as3d_checked. split.
  - intros n d -> Hd. eexists. split; [intros ck; rewrite asrt; [reflexivity|]; apply andb_true_iff; split; apply Nat.ltb_lt; lia|].
    assert (D : d = 1 \/ d = 2 \/ d = 3) by lia.
    assert (V : forall f : list R -> list R, (forall l, length l = d -> length (f l) = 3) -> shape2 (map f (rows2 n d arg)) n 3 /\ forall i j, i < n -> comp (map f (rows2 n d arg)) i j = nth j (f (map (fun k => a_ent arg [i; k]) (seq 0 d))) 0%R).
    { intros f Hf. split; [split|].
      - unfold rows2. now rewrite !map_length, seq_length.
      - intros x Hx. apply in_map_iff in Hx. destruct Hx as (y & <- & Hy). apply Hf. now apply (proj2 (rows2_shape n d arg)).
      - intros i j Hi. unfold comp. f_equal. apply nth_of_nth_error. unfold rows2. rewrite !nth_error_map, nth_error_seq. destruct (Nat.ltb_spec i n); [reflexivity|lia]. }
    destruct D as [->|[->| ->]]; unfold as3d; cbn [Nat.eqb].
    + destruct (V (fun r => firstn 1 r ++ [0%R; 0%R])) as [S Q]; [intros [|? [|]]; cbn; intros; lia|]. split; [exact S|]. intros i j Hi Hj. rewrite Q by exact Hi. destruct j as [|[|[|]]]; [reflexivity..|lia].
    + destruct (V (fun r => firstn 2 r ++ [0%R])) as [S Q]; [intros [|? [|? [|]]]; cbn; intros; lia|]. split; [exact S|]. intros i j Hi Hj. rewrite Q by exact Hi. destruct j as [|[|[|]]]; [reflexivity..|lia].
    + destruct (V (fun r => r)) as [S Q]; [auto|]. rewrite map_id in S, Q. split; [exact S|]. intros i j Hi Hj. rewrite Q by exact Hi. destruct j as [|[|[|]]]; [reflexivity..|lia].
  - intros H. destruct (a_shape arg) as [|n [|d [|]]]; [reflexivity..| |reflexivity]. apply asrt_no. destruct (H n d eq_refl) as [->|Hd]; [reflexivity|].
    apply andb_false_iff. right. apply Nat.ltb_ge. lia.
Qed.
