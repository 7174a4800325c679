(** Quad4::FineLayer::roll *)
From Coq Require Import Reals ZArith Lra.
From Verif Require Import Base Spec Spec2d Spec_Tiling Model_Numbering Model_Regular2d Model_FineLayer Proof_Vector Proof_Regular2d Proof_FineLayer Proof_FineLayerMesh Proof_FineLayerTiling Proof_FineLayerArea.

Lemma xt_roll_perm {A} s (l : list A) : Permutation (xt_roll s l) l.
Proof. unfold xt_roll. rewrite Permutation_app_comm. now rewrite firstn_skipn. Qed.
Lemma xt_roll_length {A} s (l : list A) : length (xt_roll s l) = length l.
Proof. apply Permutation_length, xt_roll_perm. Qed.
Lemma nth_roll {A} s (l : list A) p : p < length l -> nth_error (xt_roll s l) p = nth_error l ((p + (length l - s mod length l)) mod length l).
Proof.
  intros Hp. unfold xt_roll. set (N := length l) in *. assert (HN : N <> 0) by lia. pose proof (Nat.mod_upper_bound s N HN). set (t := s mod N) in *.
  assert (Ls : length (skipn (N - t) l) = t) by (rewrite skipn_length; fold N; lia).
  destruct (le_lt_dec t p) as [G|G].
  - rewrite nth_error_app2 by lia. rewrite Ls. replace (p + (N - t)) with (p - t + 1 * N) by lia. rewrite Nat.mod_add, Nat.mod_small by lia.
    rewrite <- (firstn_skipn (N - t) l) at 2. rewrite nth_error_app1; [reflexivity|]. rewrite firstn_length. fold N. lia.
  - rewrite nth_error_app1 by lia. rewrite Nat.mod_small by lia.
    rewrite <- (firstn_skipn (N - t) l) at 2. rewrite nth_error_app2 by (rewrite firstn_length; fold N; lia). f_equal. rewrite firstn_length. fold N. lia.
Qed.
Lemma Permutation_flat_map {A B} (f g : A -> list B) l : (forall a, In a l -> Permutation (f a) (g a)) -> Permutation (flat_map f l) (flat_map g l).
Proof.
  induction l as [|a l IH]; intros H; [reflexivity|]. cbn. apply Permutation_app; [apply H; now left|apply IH; intros; apply H; now right].
Qed.

Section Roll.
Variables (nelx n : nat) (w y : nat -> nat) (r : nat -> bool) (h : R).
Hypothesis HL : layered nelx n w y r.
Notation L := (L n).
Notation W := (W n w).
Notation Rf := (Rf n r).
Notation NX := (NX nelx n w).
Notation NE := (NE nelx n w r).
Notation SE := (SE nelx n w r).
Notation Y := (Y n y).
Notation X := (coorl nelx n w y r h).
Notation C := (connl nelx n w r).
Notation tm := (tm n r).
Notation elem_case := (elem_case nelx n w r).
Notation m := (FL_of nelx n w y r h).

(** the coarser layers are a multiple of the finer *)
Lemma w_multiple d d' : d <= d' -> d' < n -> exists q, w d' = w d * q.
Proof.
  induction 1 as [|d' H IH]; intros Hd; [exists 1; lia|]. destruct (IH ltac:(lia)) as [q E].
  destruct (l_step _ _ _ _ _ HL d' Hd) as [(_ & -> & _)|(_ & -> & _)]; [exists q; exact E|exists (3 * q); lia].
Qed.
Lemma dist_0 : dist n 0 = n - 1.
Proof. pose proof (l_n _ _ _ _ _ HL). rewrite dist_low by lia. lia. Qed.

Definition q (iy : nat) : nat := NX iy / NX 0.
Lemma q_spec iy : iy < L -> NX iy = q iy * NX 0 /\ W 0 = W iy * q iy.
Proof.
  intros H. pose proof (dist_lt _ _ _ _ _ HL iy H) as Hd. pose proof (n_L _ _ _ _ _ HL). pose proof (l_n _ _ _ _ _ HL).
  destruct (w_multiple (dist n iy) (n - 1)) as [k E]; [lia|lia|]. rewrite <- dist_0 in E. fold (W 0) (W iy) in E.
  pose proof (W_NX _ _ _ _ _ HL iy H) as E1. pose proof (W_NX _ _ _ _ _ HL 0 ltac:(lia)) as E2. pose proof (W_pos _ _ _ _ _ HL iy H) as P.
  pose proof (NX_pos _ _ _ _ _ HL 0 ltac:(lia)) as P0.
  assert (E3 : NX iy = k * NX 0). { rewrite E in E2. apply (Nat.mul_cancel_l _ _ (W iy)); [lia|]. lia. }
  assert (Eq : q iy = k) by (unfold q; rewrite E3; apply Nat.div_mul; lia). rewrite Eq. split; assumption.
Qed.

Definition tl (iy : nat) : nat := length (tm iy).
Lemma tl_pos iy : 1 <= tl iy.
Proof. unfold tl, Proof_FineLayerMesh.tm. destruct (Rf iy); [destruct (iy <? n)|]; cbn; lia. Qed.
Lemma NE_tl iy : NE iy = NX iy * tl iy.
Proof. rewrite <- tm_length. unfold tl. lia. Qed.

Definition rolll (k : nat) : list nat := flat_map (fun iy => xt_roll (k * q iy * tl iy) (map (Nat.add (SE iy)) (seq 0 (NE iy)))) (seq 0 L).

Lemma block_length k iy : length (xt_roll (k * q iy * tl iy) (map (Nat.add (SE iy)) (seq 0 (NE iy)))) = NE iy.
Proof. now rewrite xt_roll_length, map_length, seq_length. Qed.

Lemma map_add_seq' b k : map (Nat.add b) (seq 0 k) = seq b k.
Proof. replace (seq b k) with (seq (0 + b) k) by reflexivity. rewrite <- map_add_seq. apply map_ext. intros. lia. Qed.

Lemma roll_spec k : f_roll m k = Ok (rolll k).
Proof.
  pose proof (n_L _ _ _ _ _ HL). unfold f_roll. rewrite layers_m. cbn [f_layer_nelx f_refine f_startElem f_nelem FL_of]. rewrite tab1_get by lia. cbn [bind].
  rewrite (concatM_Ok _ (fun iy => combine (seq (SE iy) (NE iy)) (xt_roll (k * q iy * tl iy) (map (Nat.add (SE iy)) (seq 0 (NE iy)))))).
  - cbn [bind]. rewrite loop_fill_Ok.
    + f_equal. unfold rolll. rewrite !flat_map_concat_map, concat_map, map_map. f_equal. apply map_ext. intros iy. apply map_snd_combine. rewrite seq_length, block_length. reflexivity.
    + unfold Proof_FineLayer.SE at 3. rewrite seq_blocks. rewrite !flat_map_concat_map, concat_map, map_map. f_equal. apply map_ext. intros iy.
      rewrite combine_fst by (rewrite seq_length, block_length; reflexivity). fold (SE iy). now rewrite map_add_seq'.
  - intros iy Hi. apply in_seq in Hi. rewrite !tab1_get by lia. cbn [bind]. fold (q iy).
    assert (Zr (Rf iy) =? -1 = negb (Rf iy))%Z as -> by (now destruct (Rf iy)). unfold tl, Proof_FineLayerMesh.tm, Proof_FineLayer.NE, arange.
    destruct (Rf iy); cbn [negb].
    + replace (length (if iy <? n then lows else ups)) with 4 by (now destruct (iy <? n)). rewrite (Nat.mul_comm (NX iy) 4). now replace (SE iy + 4 * NX iy - SE iy) with (4 * NX iy) by lia.
    + cbn [length]. rewrite Nat.mul_1_r. now replace (SE iy + NX iy - SE iy) with (NX iy) by lia.
Qed.

Lemma roll_perm k : Permutation (rolll k) (seq 0 (SE L)).
Proof.
  unfold rolll, Proof_FineLayer.SE at 2. rewrite seq_blocks. apply Permutation_flat_map. intros iy _. apply xt_roll_perm.
Qed.
Lemma roll_length k : length (rolll k) = SE L.
Proof. rewrite (Permutation_length (roll_perm k)). apply seq_length. Qed.

(** element [e'] that takes the place of [e] *)
Lemma roll_nth k e iy ix T : elem_case e iy ix T -> exists e' ix' z, nth_error (rolll k) e = Some e' /\ elem_case e' iy ix' T /\
  ix' + k * q iy = ix + z * NX iy.
Proof.
  intros [j Hi Hx Hj ->]. fold (tl iy) in *. assert (Hjl : j < tl iy) by (apply nth_error_Some; congruence).
  pose proof (NX_pos _ _ _ _ _ HL iy Hi) as HN. pose proof (NE_tl iy) as HE.
  pose proof (nth_blocks _ NE L iy (ix * tl iy + j) (fun i _ => block_length k i) Hi ltac:(nia)) as B.
  change (nsum iy NE) with (SE iy) in B. fold (rolll k) in B. rewrite B. clear B.
  rewrite nth_roll by (rewrite map_length, seq_length; nia). rewrite map_length, seq_length.
  set (s := (k * q iy) mod NX iy). pose proof (Nat.mod_upper_bound (k * q iy) (NX iy) ltac:(lia)) as Hs. fold s in Hs.
  assert (Es : (k * q iy * tl iy) mod NE iy = s * tl iy).
  { rewrite HE. rewrite Nat.mul_mod_distr_r by lia. reflexivity. }
  rewrite Es. set (ix' := (ix + (NX iy - s)) mod NX iy). assert (Hx' : ix' < NX iy) by (apply Nat.mod_upper_bound; lia).
  assert (E : (ix * tl iy + j + (NE iy - s * tl iy)) mod NE iy = ix' * tl iy + j).
  { rewrite HE. replace (ix * tl iy + j + (NX iy * tl iy - s * tl iy)) with ((ix + (NX iy - s)) * tl iy + j) by nia.
    rewrite (Nat.div_mod (ix + (NX iy - s)) (NX iy)) by lia. fold ix'. set (d := (ix + (NX iy - s)) / NX iy).
    replace ((NX iy * d + ix') * tl iy + j) with (ix' * tl iy + j + d * (NX iy * tl iy)) by lia. rewrite Nat.mod_add by nia. apply Nat.mod_small. nia. }
  rewrite E. rewrite nth_error_map, nth_error_seq. destruct (Nat.ltb_spec (ix' * tl iy + j) (NE iy)); [|nia]. cbn [option_map Nat.add].
  pose proof (Nat.div_mod (k * q iy) (NX iy) ltac:(lia)) as D1. fold s in D1.
  pose proof (Nat.div_mod (ix + (NX iy - s)) (NX iy) ltac:(lia)) as D2. fold ix' in D2. set (d2 := (ix + (NX iy - s)) / NX iy) in *. set (d1 := k * q iy / NX iy) in *.
  assert (Hd : d2 <= 1) by nia.
  exists (SE iy + (ix' * tl iy + j)), ix', (d1 + 1 - d2). split; [reflexivity|]. split; [now apply (Elem_case _ _ _ _ _ _ _ _ j)|].
  rewrite D1. destruct d2 as [|[|d2]]; [| |lia]; nia.
Qed.

Lemma elem_unique e iy ix T iy' ix' T' : elem_case e iy ix T -> elem_case e iy' ix' T' -> iy = iy' /\ ix = ix' /\ T = T'.
Proof.
  intros [j Hi Hx Hj E] [j' Hi' Hx' Hj' E']. fold (tl iy) (tl iy') in *.
  assert (j < tl iy) by (apply nth_error_Some; congruence). assert (j' < tl iy') by (apply nth_error_Some; congruence).
  destruct (blocks_inj NE iy (ix * tl iy + j) iy' (ix' * tl iy' + j')) as [<- E2].
  { rewrite NE_tl. nia. } { rewrite NE_tl. nia. } { fold (SE iy) (SE iy'). congruence. }
  apply grid_inj in E2; try assumption. destruct E2 as [-> ->]. rewrite Hj in Hj'. injection Hj' as ->. auto.
Qed.
Lemma elem_inj e e' iy ix T : elem_case e iy ix T -> elem_case e' iy ix T -> NoDup (tm iy) -> e = e'.
Proof.
  intros [j Hi Hx Hj ->] [j' _ _ Hj' ->] N. do 2 f_equal. eapply NoDup_nth_error_inj; eassumption.
Qed.
Lemma tm_NoDup iy : NoDup (tm iy).
Proof. destruct (tm_kinds n r iy) as [-> |[-> | ->]]; repeat constructor; cbn; intuition discriminate. Qed.

(** the column is determined modulo the number of columns *)
Lemma mod_col N a b z z' c : a < N -> b < N -> c = a + z * N -> c = b + z' * N -> a = b.
Proof. intros. assert (a + z * N = b + z' * N) by congruence. rewrite (Nat.add_comm a), (Nat.add_comm b) in H3. now destruct (grid_inj N z a z' b H H0 H3). Qed.

Lemma roll_ext (f : nat -> nat) k : (forall e, e < SE L -> nth_error (rolll k) e = Some (f e)) -> rolll k = map f (seq 0 (SE L)).
Proof.
  intros H. apply nth_error_ext. intros e. rewrite nth_error_map, nth_error_seq. destruct (Nat.ltb_spec e (SE L)) as [G|G]; [now apply H|].
  cbn. apply nth_error_None. rewrite roll_length. exact G.
Qed.

Lemma roll_multiple z : rolll (z * NX 0) = seq 0 (SE L).
Proof.
  rewrite (roll_ext (fun e => e)); [apply map_id|]. intros e He. destruct (elem_cases nelx n w r e He) as (iy & ix & T & K).
  destruct (roll_nth (z * NX 0) e iy ix T K) as (e' & ix' & z' & E & K' & Ez). rewrite E. f_equal.
  assert (Hi : iy < L) by now destruct K. destruct (q_spec iy Hi) as [Eq _].
  assert (ix' = ix).
  { apply (mod_col (NX iy) ix' ix z z' (ix' + z * NX 0 * q iy)); [now destruct K'|now destruct K|rewrite Eq; lia|exact Ez]. }
  subst ix'. eapply elem_inj; eauto using tm_NoDup.
Qed.

Lemma roll_compose a b e e1 : nth_error (rolll b) e = Some e1 -> nth_error (rolll (a + b)) e = nth_error (rolll a) e1.
Proof.
  intros H. assert (He : e < SE L) by (rewrite <- (roll_length b); apply nth_error_Some; congruence).
  destruct (elem_cases nelx n w r e He) as (iy & ix & T & K). assert (Hi : iy < L) by now destruct K.
  destruct (roll_nth b e iy ix T K) as (e1' & i1 & z1 & E1 & K1 & Z1). rewrite H in E1. injection E1 as <-.
  destruct (roll_nth a e1 iy i1 T K1) as (e2 & i2 & z2 & E2 & K2 & Z2). rewrite E2.
  destruct (roll_nth (a + b) e iy ix T K) as (e3 & i3 & z3 & E3 & K3 & Z3). rewrite E3. f_equal.
  assert (i3 = i2).
  { destruct (le_lt_dec z3 (z1 + z2)) as [G|G].
    - apply (mod_col (NX iy) i3 i2 (z1 + z2 - z3) 0 (i3 + (z1 + z2 - z3) * NX iy)); [now destruct K3|now destruct K2|reflexivity|nia].
    - apply (mod_col (NX iy) i3 i2 0 (z3 - (z1 + z2)) i3); [now destruct K3|now destruct K2|lia|nia]. }
  subst i3. eapply elem_inj; eauto using tm_NoDup.
Qed.
End Roll.
