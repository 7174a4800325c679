(** Proofs about Quad4::Map::RefineRegular. *)
From Coq Require Import Reals ZArith Lra Permutation Sorting.Sorted.
From Verif Require Import Base Spec Spec2d Sums Spec_Vector Spec_Tiling Spec_FineLayer Spec_Map Model_Numbering Model_Regular2d Model_Vector Model_FineLayer Model_Map
  Proof_Topology Proof_Numbering Proof_Vector Proof_Regular2d Proof_RegularTiling Proof_FineLayer Proof_FineLayerArea Proof_FineLayerBoundary Proof_FineLayerGrid.

Lemma loop_fill_fun {A} n (ws : list (nat * A)) (g : nat -> A) :
  (forall k v, In (k, v) ws -> k < n /\ v = g k) -> (forall k, k < n -> In k (map fst ws)) -> loop_fill n ws = Ok (map g (seq 0 n)).
Proof.
  intros H C. unfold loop_fill. set (ws' := map _ ws).
  destruct (write_all_Ok ws' (repeat None n)) as (a & E & L & _ & _ & W).
  { intros k v Hin. rewrite repeat_length. unfold ws' in Hin. apply in_map_iff in Hin. destruct Hin as ([k' v'] & Q & Hin). injection Q as <- <-. apply (H k' v' Hin). }
  rewrite E. cbn [bind]. apply mapM_Ok. intros i Hi. apply in_seq in Hi. unfold get_init.
  destruct (W i) as (v & Hv & E2). { unfold ws'. rewrite map_map. cbn [fst]. apply (C i). lia. }
  rewrite E2. unfold ws' in Hv. apply in_map_iff in Hv. destruct Hv as ([k' v'] & Q & Hin). injection Q as <- <-. now rewrite (proj2 (H k' v' Hin)).
Qed.

Lemma slice_map_seq {A} (f : nat -> A) a b n : a <= b -> b <= n -> slice a b (map f (seq 0 n)) = map f (seq a (b - a)).
Proof.
  intros Ha Hb. unfold slice. apply nth_error_ext. intros i.
  destruct (Nat.ltb_spec i (b - a)) as [G|G].
  - rewrite nth_error_firstn, nth_error_skipn by lia. rewrite !nth_error_map, !nth_error_seq.
    destruct (Nat.ltb_spec (a + i) n); [|lia]. destruct (Nat.ltb_spec i (b - a)); [|lia]. reflexivity.
  - rewrite (proj2 (nth_error_None _ i)) by (rewrite firstn_length; lia). symmetry. apply nth_error_None. rewrite map_length, seq_length. lia.
Qed.

Lemma elementgrid_rows g : elementgrid g = map (fun iy => map (fun ix => iy * nelx g + ix) (seq 0 (nelx g))) (seq 0 (nely g)).
Proof.
  pose proof (elementgrid_shape g) as S. apply (list_ext2 0 _ _ (nely g) (nelx g)); [exact S|apply (tab2_shape (nely g) (nelx g) (fun iy ix => iy * nelx g + ix))|].
  intros iy ix Hy Hx. pose proof (elementgrid_at g ix iy Hx Hy) as E. unfold at2 in E. destruct (nth_error (elementgrid g) iy) as [row|] eqn:R; [|discriminate].
  unfold nth2. rewrite (nth_error_nth _ _ [] R), (nth_error_nth _ _ 0 E). rewrite !nth_map_seq by lia. reflexivity.
Qed.

Lemma NoDup_concat_nth {A} : forall l : list (list A), (forall k row, nth_error l k = Some row -> NoDup row) ->
  (forall k k' r r' x, nth_error l k = Some r -> nth_error l k' = Some r' -> In x r -> In x r' -> k = k') -> NoDup (concat l).
Proof.
  induction l as [|r l IH]; intros H1 H2; [constructor|]. cbn [concat]. apply NoDup_app_intro.
  - apply (H1 0). reflexivity.
  - apply IH; [intros k; apply (H1 (S k))|]. intros k k' r1 r2 x E1 E2 I1 I2. assert (Q : S k = S k') by (exact (H2 (S k) (S k') r1 r2 x E1 E2 I1 I2)). lia.
  - intros x Hx Hc. apply in_concat in Hc. destruct Hc as (r' & Hr' & Hx'). apply In_nth_error in Hr'. destruct Hr' as [k Hk]. pose proof (H2 0 (S k) r r' x eq_refl Hk Hx Hx'). lia.
Qed.
Lemma sumR_map_fold {A} (f : A -> R) l : fold_right Rplus 0%R (map f l) = sumL l f.
Proof. induction l as [|a l IH]; cbn; [reflexivity|]. now rewrite IH. Qed.
Lemma comp_row (D : list (list R)) n d e : shape2 D n d -> e < n -> nth e D [] = map (comp D e) (seq 0 d).
Proof.
  intros [L S] He. pose proof (S (nth e D []) ltac:(apply nth_In; lia)) as Le. rewrite <- Le. symmetry. unfold comp. apply (nth_ext _ _ 0%R 0%R); [now rewrite map_length, seq_length|].
  intros i Hi. rewrite map_length, seq_length in Hi. now rewrite nth_map_seq.
Qed.

Section RR.
Variables (m : Regular) (nx ny : nat).
Hypothesis (Hnx : 1 <= nx) (Hny : 1 <= ny).
Notation NX := (nelx m).
Notation NY := (nely m).
Notation NF := (nx * nelx m).
Notation fine := (mkRegular (nx * nelx m) (ny * nely m) (hh m)).
Definition rowf (i j : nat) : list nat := flat_map (fun iy => map (fun ix => iy * NF + ix) (seq (j * nx) nx)) (seq (i * ny) ny).
Definition MM : list (list nat) := flat_map (fun i => map (rowf i) (seq 0 NX)) (seq 0 NY).
Definition RRr : RefineRegular := mkRR m fine nx ny MM.

Lemma view_rowf i j : i < NY -> j < NX -> concat (view2 (elementgrid fine) (i * ny) ((i + 1) * ny) (j * nx) ((j + 1) * nx)) = rowf i j.
Proof.
  intros Hi Hj. unfold view2. rewrite elementgrid_rows. cbn [nelx nely]. rewrite slice_map_seq by nia. rewrite map_map, <- flat_map_concat_map.
  replace ((i + 1) * ny - i * ny) with ny by lia. unfold rowf. apply flat_map_ext. intros iy. rewrite slice_map_seq by nia. now replace ((j + 1) * nx - j * nx) with nx by lia.
Qed.
Lemma RR_init : RefineRegular_init m nx ny = Ok RRr.
Proof.
  unfold RefineRegular_init. cbv zeta. pose proof (elementgrid_rows m) as R. rewrite R. rewrite map_length, seq_length.
  rewrite (concatM_Ok _ (fun i => map (fun j => (i * NX + j, rowf i j)) (seq 0 NX))).
  - cbn [bind]. rewrite loop_fill_Ok.
    + cbn [bind]. unfold RRr, MM. do 2 f_equal. rewrite !flat_map_concat_map, concat_map, map_map. f_equal. apply map_ext. intros i. now rewrite map_map.
    + rewrite flat_map_concat_map, concat_map, map_map. pose proof (concat_elementgrid m) as Q. rewrite R in Q. rewrite <- Q. f_equal. apply map_ext. intros i. now rewrite map_map.
  - intros i Hi. apply in_seq in Hi. apply mapM_Ok. intros j Hj. apply in_seq in Hj.
    unfold get. rewrite nth_error_map, nth_error_seq. destruct (Nat.ltb_spec i NY); [|lia]. cbn [option_map bind].
    rewrite nth_error_map, nth_error_seq. destruct (Nat.ltb_spec j NX); [|lia]. cbn [option_map bind Nat.add]. now rewrite view_rowf by lia.
Qed.

Lemma rowf_length i j : length (rowf i j) = nx * ny.
Proof. unfold rowf. rewrite (length_flat_map_const _ nx); [rewrite seq_length; lia|]. intros a _. now rewrite map_length, seq_length. Qed.
Lemma in_rowf i j ef : In ef (rowf i j) <-> exists a b, a < ny /\ b < nx /\ ef = (i * ny + a) * NF + (j * nx + b).
Proof.
  unfold rowf. rewrite in_flat_map. split.
  - intros (iy & Hy & H). apply in_seq in Hy. apply in_map_iff in H. destruct H as (ix & <- & Hx). apply in_seq in Hx.
    exists (iy - i * ny), (ix - j * nx). split; [lia|]. split; [lia|].
    replace (i * ny + (iy - i * ny)) with iy by lia. lia.
  - intros (a & b & Ha & Hb & ->). exists (i * ny + a). split; [apply in_seq; lia|]. apply in_map_iff. exists (j * nx + b). split; [reflexivity|]. apply in_seq. lia.
Qed.
Lemma MM_length : length MM = nelem m.
Proof. unfold MM, nelem. rewrite (length_flat_map_const _ NX); [rewrite seq_length; lia|]. intros a _. now rewrite map_length, seq_length. Qed.
Lemma MM_at i j : i < NY -> j < NX -> nth_error MM (i * NX + j) = Some (rowf i j).
Proof.
  intros Hi Hj. unfold MM. rewrite (nth_error_flat_map_const _ NX) by (try assumption; intros; now rewrite map_length, seq_length).
  rewrite nth_error_seq. destruct (Nat.ltb_spec i NY); [|lia]. rewrite nth_error_map, nth_error_seq. destruct (Nat.ltb_spec j NX); [|lia]. reflexivity.
Qed.
Lemma MM_inv ec row : nth_error MM ec = Some row -> exists i j, i < NY /\ j < NX /\ ec = i * NX + j /\ row = rowf i j.
Proof.
  intros H. assert (Hk : ec < NX * NY) by (pose proof MM_length as Q; unfold nelem in Q; rewrite <- Q; apply nth_error_Some; congruence).
  destruct (grid_split NX ec) as (i & j & Hj & ->); [nia|]. assert (Hi : i < NY) by nia. rewrite MM_at in H by assumption. injection H as <-. eauto 6.
Qed.
Lemma MM_in row : In row MM -> exists i j, i < NY /\ j < NX /\ row = rowf i j.
Proof. intros H. apply In_nth_error in H. destruct H as [k H]. apply MM_inv in H. destruct H as (i & j & Hi & Hj & _ & ->). eauto. Qed.
Lemma MM_shape : shape2 MM (nelem m) (nx * ny).
Proof. split; [apply MM_length|]. intros row H. apply MM_in in H. destruct H as (i & j & _ & _ & ->). apply rowf_length. Qed.

Definition parent (ef : nat) : nat := (ef / NF / ny) * NX + (ef mod NF) / nx.
Lemma parent_at i j a b : j < NX -> a < ny -> b < nx -> parent ((i * ny + a) * NF + (j * nx + b)) = i * NX + j.
Proof.
  intros Hj Ha Hb. assert (L : j * nx + b < NF) by nia. assert (L0 : NF <> 0) by nia. unfold parent.
  rewrite (Nat.add_comm ((i * ny + a) * NF)), Nat.div_add, Nat.mod_add by lia. rewrite (Nat.div_small _ _ L), (Nat.mod_small _ _ L). cbn [Nat.add].
  rewrite (Nat.add_comm (i * ny)), Nat.div_add, (Nat.div_small _ _ Ha) by lia. rewrite (Nat.add_comm (j * nx)), Nat.div_add, (Nat.div_small _ _ Hb) by lia. reflexivity.
Qed.
Lemma fine_split ef : ef < nelem fine -> exists i j a b, i < NY /\ j < NX /\ a < ny /\ b < nx /\ ef = (i * ny + a) * NF + (j * nx + b).
Proof.
  unfold nelem. cbn [nelx nely]. intros H. destruct (grid_split NF ef) as (iy & ix & Hx & ->); [nia|]. destruct (grid_split ny iy) as (i & a & Ha & ->); [lia|]. destruct (grid_split nx ix) as (j & b & Hb & ->); [lia|].
  assert (Hj : j < NX) by nia. assert (Hi2 : i * ny + a < ny * NY) by nia. assert (Hi : i < NY) by nia.
  exists i, j, a, b. auto.
Qed.
Lemma parent_row ec row ef : nth_error MM ec = Some row -> (In ef row <-> ef < nelem fine /\ parent ef = ec).
Proof.
  intros H. apply MM_inv in H. destruct H as (i & j & Hi & Hj & -> & ->). rewrite in_rowf. split.
  - intros (a & b & Ha & Hb & ->). split; [|now apply parent_at]. unfold nelem. cbn [nelx nely]. assert (j * nx + b < NF) by nia. assert (i * ny + a < ny * NY) by nia. nia.
  - intros [H E]. destruct (fine_split ef H) as (i' & j' & a & b & Hi' & Hj' & Ha & Hb & ->). rewrite parent_at in E by assumption. apply grid_inj in E; try assumption. destruct E as [-> ->]. eauto 6.
Qed.
Lemma rowf_sorted i j : i < NY -> j < NX -> StronglySorted lt (rowf i j).
Proof.
  intros Hi Hj. unfold rowf. generalize (i * ny) as s. generalize ny as k. induction k as [|k IH]; intros s; cbn [seq flat_map]; [constructor|].
  apply StronglySorted_app; [|apply IH|].
  - assert (G : forall l a, StronglySorted lt l -> StronglySorted lt (map (fun x => a + x) l)).
    { intros l a. induction 1 as [|x l S' IH' F]; cbn; constructor; auto. apply Forall_forall. intros y Hy. apply in_map_iff in Hy. destruct Hy as (z & <- & Hz). rewrite Forall_forall in F. specialize (F z Hz). lia. }
    apply G. apply seq_sorted.
  - intros x y Hx Hy. apply in_map_iff in Hx. destruct Hx as (ix & <- & Hx). apply in_seq in Hx. apply in_flat_map in Hy. destruct Hy as (iy & Hy & Hy'). apply in_map_iff in Hy'. destruct Hy' as (ix' & <- & Hx'). apply in_seq in Hy.
    assert (ix < NF) by nia. nia.
Qed.

Lemma rows_NoDup i j : i < NY -> j < NX -> NoDup (rowf i j).
Proof.
  intros Hi Hj. pose proof (rowf_sorted i j Hi Hj) as S. induction S as [|x l S IH F]; constructor; [|exact IH].
  intros H. rewrite Forall_forall in F. specialize (F x H). lia.
Qed.
Lemma concat_MM : Permutation (concat MM) (seq 0 (nelem fine)).
Proof.
  apply NoDup_Permutation; [|apply seq_NoDup|].
  - apply NoDup_concat_nth.
    + intros k row H. apply MM_inv in H. destruct H as (i & j & Hi & Hj & _ & ->). now apply rows_NoDup.
    + intros k k' r r' x Hk Hk' Hx Hx'. apply (parent_row _ _ x Hk) in Hx. apply (parent_row _ _ x Hk') in Hx'. lia.
  - intros ef. rewrite in_concat, in_seq. split.
    + intros (row & Hr & Hx). apply In_nth_error in Hr. destruct Hr as [k Hk]. apply (parent_row _ _ ef Hk) in Hx. lia.
    + intros [_ H]. destruct (fine_split ef H) as (i & j & a & b & Hi & Hj & Ha & Hb & ->). exists (rowf i j). split; [eapply nth_error_In; now apply MM_at|]. apply in_rowf. eauto 6.
Qed.
Lemma concat_MM_length : length (concat MM) = nelem fine.
Proof. now rewrite (Permutation_length concat_MM), seq_length. Qed.
Lemma parent_lt ef : ef < nelem fine -> parent ef < nelem m.
Proof. intros H. destruct (fine_split ef H) as (i & j & a & b & Hi & Hj & Ha & Hb & ->). rewrite parent_at by assumption. unfold nelem. nia. Qed.

(** data *)
Section Data.
Variables (d : nat).
Lemma mapToFine_eq (data : list (list R)) : shape2 data (nelem m) d -> mapToFine RRr data = Ok (map (fun ef => nth (parent ef) data []) (seq 0 (nelem fine))).
Proof.
  intros S. unfold mapToFine. cbn [rr_map RRr]. rewrite concat_MM_length, MM_length.
  rewrite (concatM_Ok _ (fun e => map (fun i => (i, nth e data [])) (nth e MM []))).
  - cbn [bind]. apply loop_fill_fun.
    + intros k v H. apply in_flat_map in H. destruct H as (e & He & H). apply in_seq in He. apply in_map_iff in H. destruct H as (i & Q & Hi). injection Q as <- <-.
      assert (Hn : nth_error MM e = Some (nth e MM [])) by (apply nth_error_nth'; rewrite MM_length; lia). apply (parent_row _ _ i Hn) in Hi. destruct Hi as [A <-]. auto.
    + intros k Hk. apply in_map_iff. exists (k, nth (parent k) data []). split; [reflexivity|]. apply in_flat_map. exists (parent k). pose proof (parent_lt k Hk) as L. split; [apply in_seq; lia|].
      apply in_map_iff. exists k. split; [reflexivity|]. eapply parent_row; [apply nth_error_nth'; rewrite MM_length; exact L|]. auto.
  - intros e He. apply in_seq in He. unfold get. rewrite (nth_error_nth' MM []) by (rewrite MM_length; lia). cbn [bind]. rewrite (nth_error_nth' data []) by (rewrite (proj1 S); lia). reflexivity.
Qed.
Lemma mapToFine_shape (data : list (list R)) : shape2 data (nelem m) d -> shape2 (map (fun ef => nth (parent ef) data []) (seq 0 (nelem fine))) (nelem fine) d.
Proof.
  intros [L S]. split; [now rewrite map_length, seq_length|]. intros r Hr. apply in_map_iff in Hr. destruct Hr as (ef & <- & He). apply in_seq in He. apply S. apply nth_In. rewrite L. apply parent_lt. lia.
Qed.
Lemma row_lt row ef : In row MM -> In ef row -> ef < nelem fine.
Proof. intros Hr He. apply In_nth_error in Hr. destruct Hr as [k Hk]. now apply (parent_row _ _ ef Hk) in He. Qed.
Lemma colsum_rows F row : colsum d (map (fun e => nth e F []) row) = map (total_over row F) (seq 0 d).
Proof. unfold colsum. apply map_ext. intros c. rewrite map_map. reflexivity. Qed.
Lemma gather_Ok (F : list (list R)) row : (forall e, In e row -> e < length F) -> mapM (get F) row = Ok (map (fun e => nth e F []) row).
Proof. intros H. apply mapM_Ok. intros e He. unfold get. now rewrite (nth_error_nth' F []) by auto. Qed.

Lemma meanToCoarse_eq F : shape2 F (nelem fine) d ->
  meanToCoarse d RRr F = Ok (map (fun row => map (fun c => (total_over row F c / INR (nx * ny))%R) (seq 0 d)) MM).
Proof.
  intros S. unfold meanToCoarse. apply mapM_Ok. cbn [rr_map RRr]. intros row Hr.
  rewrite gather_Ok by (intros e He; rewrite (proj1 S); now apply (row_lt row)). cbn [bind]. rewrite colsum_rows, map_map, map_length.
  destruct (MM_in row Hr) as (i & j & _ & _ & ->). now rewrite rowf_length.
Qed.
Lemma averageToCoarse_eq F Wt : shape2 F (nelem fine) d -> shape2 Wt (nelem fine) d ->
  averageToCoarse d RRr F Wt = Ok (map (fun row => map (fun c => (sumR (map (fun e => comp F e c * comp Wt e c) row) / total_over row Wt c)%R) (seq 0 d)) MM).
Proof.
  intros S S'. unfold averageToCoarse. apply mapM_Ok. cbn [rr_map RRr]. intros row Hr.
  rewrite !gather_Ok by (intros e He; rewrite ?(proj1 S), ?(proj1 S'); now apply (row_lt row)). cbn [bind]. f_equal.
  rewrite colsum_rows.
  assert (E : map (fun p => map (fun q => (fst q * snd q)%R) (combine (fst p) (snd p))) (combine (map (fun e => nth e F []) row) (map (fun e => nth e Wt []) row)) =
    map (fun e => map (fun c => (comp F e c * comp Wt e c)%R) (seq 0 d)) row).
  { pose proof (fun e => row_lt row e Hr) as G. clear Hr. induction row as [|e row IH]; [reflexivity|]. cbn [map combine]. rewrite IH by (intros; apply G; now right). f_equal. cbn [fst snd].
    rewrite (comp_row F _ d e S), (comp_row Wt _ d e S') by (apply G; now left). generalize (seq 0 d) as l. induction l as [|c l IHl]; [reflexivity|]. cbn. now rewrite IHl. }
  rewrite E. unfold colsum.
  assert (E2 : forall c, c < d -> fold_right Rplus 0%R (map (fun row0 => nth c row0 0%R) (map (fun e => map (fun c => (comp F e c * comp Wt e c)%R) (seq 0 d)) row)) = sumR (map (fun e => (comp F e c * comp Wt e c)%R) row)).
  { intros c Hc. rewrite map_map. unfold sumR. f_equal. apply map_ext. intros e. now rewrite nth_map_seq. }
  assert (E3 : forall l, (forall c, In c l -> c < d) -> map (fun q => (fst q / snd q)%R) (combine (map (fun c => fold_right Rplus 0%R (map (fun row0 => nth c row0 0%R) (map (fun e => map (fun c => (comp F e c * comp Wt e c)%R) (seq 0 d)) row))) l) (map (total_over row Wt) l)) = map (fun c => (sumR (map (fun e => comp F e c * comp Wt e c) row) / total_over row Wt c)%R) l).
  { induction l as [|c l IH]; intros Hl; [reflexivity|]. cbn [map combine]. rewrite IH by (intros; apply Hl; now right). cbn [fst snd]. f_equal. rewrite E2; [reflexivity|apply Hl; now left]. }
  apply E3. intros c Hc. apply in_seq in Hc. lia.
Qed.
Lemma total_over_L row F c : total_over row F c = sumL row (fun e => comp F e c).
Proof. unfold total_over, sumR. apply sumR_map_fold. Qed.
Lemma comp_mapped (g : list nat -> nat -> R) ec c : ec < nelem m -> c < d -> comp (map (fun row => map (g row) (seq 0 d)) MM) ec c = g (nth ec MM []) c.
Proof.
  intros He Hc. unfold comp. rewrite (nth_indep _ [] (map (g []) (seq 0 d))) by (rewrite map_length, MM_length; exact He).
  rewrite (map_nth (fun row => map (g row) (seq 0 d))). now rewrite nth_map_seq.
Qed.
Lemma INR_n : (INR (nx * ny) <> 0)%R. Proof. apply not_0_INR. nia. Qed.

Lemma roundtrip data F : shape2 data (nelem m) d -> mapToFine RRr data = Ok F -> meanToCoarse d RRr F = Ok data.
Proof.
  intros S E. rewrite (mapToFine_eq data S) in E. injection E as <-. rewrite meanToCoarse_eq by now apply mapToFine_shape. f_equal.
  apply (list_ext1 [] _ _ (nelem m)); [now rewrite map_length, MM_length|apply S|]. intros ec He.
  rewrite (comp_row data _ d ec S He). apply (list_ext1 0%R _ _ d); [|now rewrite map_length, seq_length|].
  { rewrite (nth_indep _ [] (map (fun c => (total_over [] (map (fun ef => nth (parent ef) data []) (seq 0 (nelem fine))) c / INR (nx * ny))%R) (seq 0 d))) by (rewrite map_length, MM_length; exact He).
    rewrite (map_nth (fun row => map (fun c => (total_over row (map (fun ef => nth (parent ef) data []) (seq 0 (nelem fine))) c / INR (nx * ny))%R) (seq 0 d))). now rewrite map_length, seq_length. }
  intros c Hc. rewrite nth_map_seq by exact Hc.
  pose proof (comp_mapped (fun row c => (total_over row (map (fun ef => nth (parent ef) data []) (seq 0 (nelem fine))) c / INR (nx * ny))%R) ec c He Hc) as Q. unfold comp at 1 in Q. rewrite Q.
  assert (Hn : nth_error MM ec = Some (nth ec MM [])) by (apply nth_error_nth'; rewrite MM_length; lia).
  rewrite total_over_L, (sumL_ext _ _ (fun _ => comp data ec c)).
  - rewrite sumL_const. rewrite (proj2 MM_shape (nth ec MM [])) by (eapply nth_error_In; exact Hn). field. apply INR_n.
  - intros e Hin. apply (parent_row _ _ e Hn) in Hin. destruct Hin as [Le <-]. unfold comp. rewrite nth_map_seq by exact Le. reflexivity.
Qed.
Lemma conserve F M c : shape2 F (nelem fine) d -> meanToCoarse d RRr F = Ok M -> c < d -> (total_all M c * INR (nx * ny) = total_all F c)%R.
Proof.
  intros S E Hc. rewrite (meanToCoarse_eq F S) in E. injection E as <-. unfold total_all. rewrite map_length, MM_length, (proj1 S), !total_over_L.
  rewrite <- (sumL_perm _ _ _ concat_MM). rewrite <- sumL_scal_r.
  rewrite (sumL_ext _ _ (fun ec => sumL (nth ec MM []) (fun e => comp F e c))).
  - rewrite <- (sumL_flat_map (fun ec => nth ec MM [])). rewrite flat_map_concat_map. f_equal. f_equal.
    rewrite <- MM_length. apply (list_ext1 [] _ _ (length MM)); [now rewrite map_length, seq_length|reflexivity|]. intros i Hi. now rewrite nth_map_seq.
  - intros ec He. apply in_seq in He. rewrite (comp_mapped (fun row c => (total_over row F c / INR (nx * ny))%R)) by lia. rewrite total_over_L. field. apply INR_n.
Qed.
End Data.
End RR.

(** ** geometry *)
Section Geo.
Local Open Scope R_scope.
Variables (m : Regular) (nx ny : nat).
Hypothesis (Hnx : (1 <= nx)%nat) (Hny : (1 <= ny)%nat) (Hh : 0 < hh m).
Notation fine := (mkRegular (nx * nelx m) (ny * nely m) (hh m)).
Notation h := (hh m).

Lemma within_cells g fx fy a b c e : 0 < hh g -> (fx < nelx g)%nat -> (fy < nely g)%nat ->
  (element_within (coor g) [ fy * (nelx g + 1) + fx; fy * (nelx g + 1) + (fx + 1); (fy + 1) * (nelx g + 1) + (fx + 1); (fy + 1) * (nelx g + 1) + fx ]%nat
    (hh g * INR a) (hh g * INR b) (hh g * INR c) (hh g * INR e) <-> (a <= fx /\ fx + 1 <= b /\ c <= fy /\ fy + 1 <= e)%nat).
Proof.
  intros Hg Hx Hy.
  assert (MON : forall p q : nat, hh g * INR p <= hh g * INR q <-> (p <= q)%nat).
  { intros p q. split; intros H; [apply INR_le; now apply (Rmult_le_reg_l (hh g))|]. apply Rmult_le_compat_l; [lra|]. now apply le_INR. }
  assert (A1 : node_at (coor g) (fy * (nelx g + 1) + fx) (hh g * INR fx) (hh g * INR fy)) by (apply coor_at; lia).
  assert (A2 : node_at (coor g) ((fy + 1) * (nelx g + 1) + (fx + 1)) (hh g * INR (fx + 1)) (hh g * INR (fy + 1))) by (apply coor_at; lia).
  split.
  - intros H. pose proof (H _ _ _ (or_introl eq_refl) A1) as [[B1 _] [B2 _]]. pose proof (H _ _ _ (or_intror (or_intror (or_introl eq_refl))) A2) as [[_ B3] [_ B4]].
    rewrite MON in B1, B2, B3, B4. lia.
  - intros (B1 & B2 & B3 & B4) p x y Hp Hn. assert (Q : exists i j, (i = fx \/ i = fx + 1)%nat /\ (j = fy \/ j = fy + 1)%nat /\ x = hh g * INR i /\ y = hh g * INR j).
    { assert (G : forall i j, (i <= nelx g)%nat -> (j <= nely g)%nat -> p = (j * (nelx g + 1) + i)%nat -> x = hh g * INR i /\ y = hh g * INR j).
      { intros i j Hi Hj ->. assert (K : node_at (coor g) (j * (nelx g + 1) + i) (hh g * INR i) (hh g * INR j)) by (now apply coor_at). destruct (node_at_fun _ _ _ _ _ _ Hn K) as [-> ->]. auto. }
      destruct Hp as [<-|[<-|[<-|[<-|[]]]]]; [exists fx, fy|exists (fx + 1)%nat, fy|exists (fx + 1)%nat, (fy + 1)%nat|exists fx, (fy + 1)%nat]; (split; [lia|]; split; [lia|]; apply G; try lia; reflexivity). }
    destruct Q as (i & j & Qi & Qj & -> & ->). rewrite !MON. lia.
Qed.

Lemma row_geometry ec row Ec x0 x1 y0 y1 ef Ef :
  nth_error (MM m nx ny) ec = Some row -> nth_error (conn m) ec = Some Ec -> quad (coor m) Ec x0 y0 x1 y0 x1 y1 x0 y1 -> nth_error (conn fine) ef = Some Ef ->
  (In ef row <-> element_within (coor fine) Ef (INR nx * x0) (INR nx * x1) (INR ny * y0) (INR ny * y1)).
Proof.
  intros Hr Hc Q Hf. destruct (MM_inv _ _ _ Hnx Hny _ _ Hr) as (i & j & Hi & Hj & -> & ->). rewrite conn_at in Hc by assumption. injection Hc as <-.
  destruct (quad_unique _ _ _ _ _ _ _ _ _ _ _ _ _ _ _ _ _ _ (reg_quad m j i Hj Hi) Q) as (-> & -> & -> & _ & _ & -> & _ & _).
  destruct (reg_nth fine ef Ef Hf) as (fx & fy & Hx & Hy & -> & ->).
  assert (M : forall p q, INR p * (h * INR q) = h * INR (q * p)) by (intros; rewrite mult_INR; ring). rewrite !M.
  pose proof (within_cells fine fx fy (j * nx) ((j + 1) * nx) (i * ny) ((i + 1) * ny) Hh Hx Hy) as WC. cbn [hh] in WC. rewrite WC. cbn [nelx nely] in Hx, Hy |- *.
  rewrite in_rowf by assumption. split.
  - intros (a & b & Ha & Hb & E). apply grid_inj in E; [|assumption|nia]. destruct E as [-> ->]. nia.
  - intros (B1 & B2 & B3 & B4). exists (fy - i * ny)%nat, (fx - j * nx)%nat. split; [lia|]. split; [lia|]. replace (i * ny + (fy - i * ny))%nat with fy by lia. lia.
Qed.

Lemma fine_tiles : (1 <= nelx m)%nat -> (1 <= nely m)%nat -> tiles (coor fine) (conn fine) (INR nx * (h * INR (nelx m))) (INR ny * (h * INR (nely m))).
Proof.
  intros H1 H2. assert (M : forall p q, INR p * (h * INR q) = h * INR (p * q)) by (intros; rewrite mult_INR; ring). rewrite !M. apply (Regular_tiles fine); [exact Hh| |]; cbn [nelx nely]; nia.
Qed.
Lemma fine_domain : (1 <= nelx m)%nat -> (1 <= nely m)%nat -> tiles (coor fine) (conn fine) (h * INR (nelx m)) (h * INR (nely m)) -> nx = 1%nat /\ ny = 1%nat.
Proof.
  intros H1 H2 T. pose proof (fine_tiles H1 H2) as T'.
  assert (PX : 0 < h * INR (nelx m)) by (apply Rmult_lt_0_compat; [assumption|]; apply lt_0_INR; lia).
  assert (PY : 0 < h * INR (nely m)) by (apply Rmult_lt_0_compat; [assumption|]; apply lt_0_INR; lia).
  assert (P1 : 1 <= INR nx) by (apply (le_INR 1); assumption). assert (P2 : 1 <= INR ny) by (apply (le_INR 1); assumption).
  destruct (t_cover _ _ _ _ T' (INR nx * (h * INR (nelx m))) (INR ny * (h * INR (nely m)))) as (e & He & I); [nra|nra|].
  destruct (t_domain _ _ _ _ T e _ _ He I) as [[_ A] [_ B]].
  assert (INR nx <= INR 1) by (simpl; nra). assert (INR ny <= INR 1) by (simpl; nra). split; apply Nat.le_antisymm; try assumption; now apply INR_le.
Qed.
End Geo.

(** ** the theorems *)
Lemma T_map : forall m nx ny, 1 <= nx -> 1 <= ny -> exists r, RefineRegular_init m nx ny = Ok r /\
  rr_coarse r = m /\ nelx (rr_fine r) = nx * nelx m /\ nely (rr_fine r) = ny * nely m /\
  shape2 (rr_map r) (nelem m) (nx * ny) /\
  Permutation (concat (rr_map r)) (seq 0 (nelem (rr_fine r))) /\
  (forall row, In row (rr_map r) -> StronglySorted lt row).
Proof.
  intros m nx ny H1 H2. exists (RRr m nx ny). split; [now apply RR_init|]. cbn [RRr rr_coarse rr_fine rr_map nelx nely].
  do 3 (split; [reflexivity|]). split; [now apply MM_shape|]. split; [now apply concat_MM|]. intros row Hr.
  destruct (MM_in _ _ _ H1 H2 row Hr) as (i & j & Hi & Hj & ->). now apply rowf_sorted.
Qed.
Lemma T_rows : forall m nx ny r ec row Ec x0 x1 y0 y1 ef Ef, 1 <= nx -> 1 <= ny -> (0 < hh m)%R ->
  RefineRegular_init m nx ny = Ok r ->
  nth_error (rr_map r) ec = Some row -> nth_error (conn m) ec = Some Ec -> quad (coor m) Ec x0 y0 x1 y0 x1 y1 x0 y1 ->
  nth_error (conn (rr_fine r)) ef = Some Ef ->
  (In ef row <-> element_within (coor (rr_fine r)) Ef (INR nx * x0) (INR nx * x1) (INR ny * y0) (INR ny * y1)).
Proof.
  intros m nx ny r ec row Ec x0 x1 y0 y1 ef Ef H1 H2 Hh E. rewrite RR_init in E by assumption. injection E as <-. cbn [RRr rr_map rr_fine].
  now apply row_geometry.
Qed.
Lemma T_mapToFine : forall m nx ny r d (data : list (list R)), 1 <= nx -> 1 <= ny -> RefineRegular_init m nx ny = Ok r ->
  shape2 data (nelem m) d -> exists F, mapToFine r data = Ok F /\ shape2 F (nelem (rr_fine r)) d /\
  forall ec row ef, nth_error (rr_map r) ec = Some row -> In ef row -> nth_error F ef = nth_error data ec.
Proof.
  intros m nx ny r d data H1 H2 E S. rewrite RR_init in E by assumption. injection E as <-. cbn [rr_map rr_fine RRr].
  eexists. split; [exact (mapToFine_eq m nx ny H1 H2 d data S)|]. split; [exact (mapToFine_shape m nx ny H1 H2 d data S)|].
  intros ec row ef Hr Hin. assert (L : ec < nelem m) by (rewrite <- (MM_length m nx ny H1 H2); apply nth_error_Some; congruence).
  apply (parent_row m nx ny H1 H2 _ _ ef Hr) in Hin. destruct Hin as [A <-].
  rewrite nth_error_map, nth_error_seq. destruct (Nat.ltb_spec ef (nelem (mkRegular (nx * nelx m) (ny * nely m) (hh m)))); [|lia]. cbn [option_map Nat.add].
  symmetry. apply nth_error_nth'. rewrite (proj1 S). exact L.
Qed.
Lemma T_mean : forall m nx ny r d (F : list (list R)), 1 <= nx -> 1 <= ny -> RefineRegular_init m nx ny = Ok r ->
  shape2 F (nelem (rr_fine r)) d -> exists M, meanToCoarse d r F = Ok M /\ shape2 M (nelem m) d /\
  (forall ec row c, nth_error (rr_map r) ec = Some row -> c < d -> comp M ec c = (total_over row F c / INR (nx * ny))%R) /\
  (forall c, c < d -> (total_all M c * INR (nx * ny) = total_all F c)%R).
Proof.
  intros m nx ny r d F H1 H2 E S. rewrite RR_init in E by assumption. injection E as <-. cbn [rr_map rr_fine RRr] in *.
  pose proof (meanToCoarse_eq m nx ny H1 H2 d F S) as Q. eexists. split; [exact Q|]. split; [|split].
  - split; [rewrite map_length; now apply MM_length|]. intros x Hx. apply in_map_iff in Hx. destruct Hx as (row & <- & _). now rewrite map_length, seq_length.
  - intros ec row c Hr Hc. assert (L : ec < nelem m) by (rewrite <- (MM_length m nx ny H1 H2); apply nth_error_Some; congruence).
    rewrite (comp_mapped m nx ny H1 H2 d (fun row c => (total_over row F c / INR (nx * ny))%R) ec c L Hc). now rewrite (nth_error_nth _ _ [] Hr).
  - intros c Hc. exact (conserve m nx ny H1 H2 d F _ c S Q Hc).
Qed.
Lemma T_roundtrip : forall m nx ny r d (data F : list (list R)), 1 <= nx -> 1 <= ny -> RefineRegular_init m nx ny = Ok r ->
  shape2 data (nelem m) d -> mapToFine r data = Ok F -> meanToCoarse d r F = Ok data.
Proof.
  intros m nx ny r d data F H1 H2 E S. rewrite RR_init in E by assumption. injection E as <-. now apply roundtrip.
Qed.
Lemma T_average : forall m nx ny r d (F Wt : list (list R)), 1 <= nx -> 1 <= ny -> RefineRegular_init m nx ny = Ok r ->
  shape2 F (nelem (rr_fine r)) d -> shape2 Wt (nelem (rr_fine r)) d ->
  exists A, averageToCoarse d r F Wt = Ok A /\ shape2 A (nelem m) d /\
  (forall ec row c, nth_error (rr_map r) ec = Some row -> c < d -> total_over row Wt c <> 0%R ->
     (comp A ec c * total_over row Wt c = sumR (map (fun e => comp F e c * comp Wt e c) row))%R) /\
  (forall ec row c lo up, nth_error (rr_map r) ec = Some row -> c < d -> (forall e, In e row -> 0 < comp Wt e c)%R ->
     (forall e, In e row -> lo <= comp F e c <= up)%R -> (lo <= comp A ec c <= up)%R) /\
  (forall w, w <> 0%R -> (forall e c, comp Wt e c = w \/ nelem (rr_fine r) <= e \/ d <= c) -> meanToCoarse d r F = Ok A).
Proof.
  intros m nx ny r d F Wt H1 H2 E S S'. rewrite RR_init in E by assumption. injection E as <-. cbn [rr_map rr_fine RRr] in *.
  eexists. split; [exact (averageToCoarse_eq m nx ny H1 H2 d F Wt S S')|].
  assert (CM : forall ec row c, nth_error (MM m nx ny) ec = Some row -> c < d ->
    comp (map (fun row => map (fun c => (sumR (map (fun e => comp F e c * comp Wt e c) row) / total_over row Wt c)%R) (seq 0 d)) (MM m nx ny)) ec c = (sumR (map (fun e => comp F e c * comp Wt e c) row) / total_over row Wt c)%R).
  { intros ec row c Hr Hc. assert (L : ec < nelem m) by (rewrite <- (MM_length m nx ny H1 H2); apply nth_error_Some; congruence).
    rewrite (comp_mapped m nx ny H1 H2 d (fun row c => (sumR (map (fun e => comp F e c * comp Wt e c) row) / total_over row Wt c)%R) ec c L Hc). now rewrite (nth_error_nth _ _ [] Hr). }
  split; [|split; [|split]].
  - split; [rewrite map_length; now apply MM_length|]. intros x Hx. apply in_map_iff in Hx. destruct Hx as (row & <- & _). now rewrite map_length, seq_length.
  - intros ec row c Hr Hc Hw. rewrite (CM ec row c Hr Hc). now field.
  - intros ec row c lo up Hr Hc Hw Hb. rewrite (CM ec row c Hr Hc). unfold sumR. rewrite sumR_map_fold, total_over_L.
    assert (P : (0 < sumL row (fun e => comp Wt e c))%R).
    { assert (Lr : length row = nx * ny) by (apply (proj2 (MM_shape m nx ny H1 H2)); eapply nth_error_In; exact Hr).
      destruct row as [|e row]; [simpl in Lr; nia|]. unfold sumL. cbn [fold_right]. pose proof (Hw e (or_introl eq_refl)) as Pe.
      pose proof (sumL_nonneg row (fun e => comp Wt e c)) as Pn. unfold sumL in Pn. apply Rplus_lt_le_0_compat; [exact Pe|]. apply Pn. intros a Ha. left. apply Hw. now right. }
    split.
    + apply (Rmult_le_reg_r _ _ _ P). unfold Rdiv. rewrite Rmult_assoc, Rinv_l by lra. rewrite Rmult_1_r, <- sumL_scal. apply sumL_le. intros e He. pose proof (Hw e He). pose proof (Hb e He). nra.
    + apply (Rmult_le_reg_r _ _ _ P). unfold Rdiv. rewrite Rmult_assoc, Rinv_l by lra. rewrite Rmult_1_r, <- sumL_scal. apply sumL_le. intros e He. pose proof (Hw e He). pose proof (Hb e He). nra.
  - intros w Hw He. rewrite (meanToCoarse_eq m nx ny H1 H2 d F S). f_equal. apply map_ext_in. intros row Hr. apply map_ext_in. intros c Hc. apply in_seq in Hc.
    unfold sumR. rewrite sumR_map_fold, !total_over_L.
    rewrite (sumL_ext _ (fun e => comp F e c * comp Wt e c)%R (fun e => comp F e c * w)%R), (sumL_ext _ (fun e => comp Wt e c) (fun _ => w)).
    + rewrite sumL_scal_r, sumL_const. rewrite (proj2 (MM_shape m nx ny H1 H2) row Hr). field. split; [assumption|]. now apply INR_n.
    + intros e Hin. pose proof (row_lt m nx ny H1 H2 row e Hr Hin). destruct (He e c) as [G|[G|G]]; [exact G|lia|lia].
    + intros e Hin. pose proof (row_lt m nx ny H1 H2 row e Hr Hin). destruct (He e c) as [G|[G|G]]; [now rewrite G|lia|lia].
Qed.
Lemma T_scaled : forall m nx ny r, 1 <= nx -> 1 <= ny -> (0 < hh m)%R -> 1 <= nelx m -> 1 <= nely m ->
  RefineRegular_init m nx ny = Ok r ->
  tiles (coor (rr_fine r)) (conn (rr_fine r)) (INR nx * (hh m * INR (nelx m))) (INR ny * (hh m * INR (nely m))).
Proof.
  intros m nx ny r H1 H2 Hh Hx Hy E. rewrite RR_init in E by assumption. injection E as <-. cbn [RRr rr_fine]. now apply fine_tiles.
Qed.
Lemma T_trivial : forall m nx ny r, 1 <= nx -> 1 <= ny -> (0 < hh m)%R -> 1 <= nelx m -> 1 <= nely m ->
  RefineRegular_init m nx ny = Ok r ->
  (tiles (coor (rr_fine r)) (conn (rr_fine r)) (hh m * INR (nelx m)) (hh m * INR (nely m)) <-> nx = 1 /\ ny = 1).
Proof.
  intros m nx ny r H1 H2 Hh Hx Hy E. rewrite RR_init in E by assumption. injection E as <-. cbn [RRr rr_fine]. split; [now apply fine_domain|].
  intros [-> ->]. pose proof (fine_tiles m 1 1 H1 H2 Hh Hx Hy) as T. change (INR 1) with 1%R in T. rewrite !Rmult_1_l in T. exact T.
Qed.
Lemma T_refuted : exists m nx ny r, (0 < hh m)%R /\ 1 <= nelx m /\ 1 <= nely m /\ 1 <= nx /\ 1 <= ny /\
  RefineRegular_init m nx ny = Ok r /\
  ~ tiles (coor (rr_fine r)) (conn (rr_fine r)) (hh m * INR (nelx m)) (hh m * INR (nely m)).
Proof.
  exists (mkRegular 2 1 1), 2, 1. eexists. cbn [hh nelx nely]. split; [lra|]. do 4 (split; [lia|]). split; [apply RR_init; lia|].
  intros T. pose proof (fine_domain (mkRegular 2 1 1) 2 1 ltac:(lia) ltac:(lia) Rlt_0_1 ltac:(cbn; lia) ltac:(cbn; lia) T) as [Q _]. discriminate Q.
Qed.
