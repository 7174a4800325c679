(** Proofs about the small utilities. *)
From Coq Require Import Reals Lra Ascii.
From Verif Require Import Base Spec Spec_Vector Spec_Misc Model_Numbering Proof_Numbering Model_Vector Model_Topology Proof_Topology Proof_Vector Model_Misc.

(** ** isSequential *)
Lemma count_Ok dofs : forall ex, (forall i, In i dofs -> i < length ex) -> exists ex',
  foldM (fun ex i => do c <- get ex i; set ex i (c + 1)) dofs ex = Ok ex' /\ length ex' = length ex /\
  forall i, i < length ex -> nth i ex' 0 = nth i ex 0 + count_occ Nat.eq_dec dofs i.
Proof.
  induction dofs as [|d dofs IH]; intros ex H; simpl.
  - exists ex. split; [reflexivity|]. split; [reflexivity|]. intros; lia.
  - rewrite (get_nth 0) by (apply H; now left). cbn [bind].
    destruct (set_Ok ex d (nth d ex 0 + 1)) as [e1 [E1 [L1 V1]]]; [apply H; now left|]. rewrite E1. cbn [bind].
    destruct (IH e1) as [e2 [E2 [L2 V2]]]; [intros; rewrite L1; apply H; now right|].
    exists e2. split; [exact E2|]. split; [congruence|]. intros i Hi. rewrite V2 by lia.
    assert (N1 : nth i e1 0 = if i =? d then nth d ex 0 + 1 else nth i ex 0).
    { apply nth_error_nth. rewrite V1. destruct (i =? d); [reflexivity|]. now apply nth_error_nth'. }
    rewrite N1. destruct (Nat.eq_dec d i) as [->|Hn]; [rewrite Nat.eqb_refl; lia|].
    destruct (Nat.eqb_spec i d); [congruence|lia].
Qed.

Lemma isSequential_true dofs : isSequential dofs = Ok true.
Proof.
  unfold isSequential. destruct (count_Ok dofs (repeat 0 (amax dofs + 1))) as [ex [E [L V]]].
  { intros i Hi. rewrite repeat_length. apply amax_ge in Hi. lia. }
  rewrite E. cbn [bind]. clear E.
  assert (H : forall i, In i dofs -> get ex i = Ok (nth i ex 0) /\ nth i ex 0 <> 0).
  { intros i Hi. rewrite repeat_length in *. pose proof (amax_ge _ _ Hi). split; [apply get_nth; lia|].
    rewrite V by lia. apply (count_occ_In Nat.eq_dec) in Hi. lia. }
  clear L V. revert H. generalize dofs. intros l H. induction l as [|i l IH]; simpl; [reflexivity|].
  destruct (H i) as [E Hn]; [now left|]. rewrite E. cbn [bind]. destruct (Nat.eqb_spec (nth i ex 0) 0); [contradiction|].
  apply IH. intros; apply H; now right.
Qed.

Lemma isSequential_refuted : exists dofs, isSequential dofs = Ok true /\ exists d, d <= amax dofs /\ ~ In d dofs.
Proof. exists [0; 2]. split; [reflexivity|]. exists 1. split; [cbn; lia|]. simpl. intuition discriminate. Qed.

(** ** isDiagonal *)
Lemma isDiagonal_spec nelem N a : shape3 a nelem N N -> exists b, isDiagonal nelem N a = Ok b /\
  (b = true <-> forall e i j, e < nelem -> i < N -> j < N -> i <> j -> (Rabs (val3 a e i j) <= eps)%R).
Proof.
  intro Hs. unfold isDiagonal.
  set (good := fun eij : nat * nat * nat => (snd (fst eij) =? snd eij) ||
      (if Rlt_dec eps (Rabs (val3 a (fst (fst eij)) (snd (fst eij)) (snd eij))) then false else true)).
  assert (K : forall l b, (forall x, In x l -> fst (fst x) < nelem /\ snd (fst x) < N /\ snd x < N) ->
     foldM (fun (ok : bool) eij =>
           if ok then
             if snd (fst eij) =? snd eij then Ok true
             else do x <- get3 a (fst (fst eij)) (snd (fst eij)) (snd eij);
                  Ok (if Rlt_dec eps (Rabs x) then false else true)
           else Ok false) l b = Ok (b && forallb good l)).
  { induction l as [|x l IH]; intros b Hl; simpl; [now rewrite andb_true_r|].
    destruct (Hl x) as [H1 [H2 H3]]; [now left|]. unfold good at 1. destruct b; cbn [bind].
    - destruct (snd (fst x) =? snd x) eqn:Eq; cbn [bind orb].
      + rewrite IH by (intros; apply Hl; now right). now rewrite !andb_true_l.
      + rewrite (get3_nth 0%R _ nelem N N) by assumption. cbn [bind]. rewrite IH by (intros; apply Hl; now right). reflexivity.
    - rewrite IH by (intros; apply Hl; now right). reflexivity. }
  eexists. split; [apply K|].
  - intros [[e i] j] Hx. apply in_prod_iff in Hx. destruct Hx as [Hx Hj]. apply in_prod_iff in Hx. destruct Hx as [He Hi].
    apply in_seq in He, Hi, Hj. simpl. lia.
  - rewrite andb_true_l, forallb_forall. split.
    + intros H e i j He Hi Hj Hn. specialize (H (e, i, j)). unfold good in H. simpl in H.
      destruct (Nat.eqb_spec i j) as [|_]; [contradiction|]. simpl in H.
      destruct (Rlt_dec eps (Rabs (val3 a e i j))) as [|Hle]; [|lra].
      exfalso. assert (false = true); [|discriminate]. apply H. repeat rewrite in_prod_iff. rewrite !in_seq. lia.
    + intros H [[e i] j] Hx. apply in_prod_iff in Hx. destruct Hx as [Hx Hj]. apply in_prod_iff in Hx. destruct Hx as [He Hi].
      apply in_seq in He, Hi, Hj. unfold good. simpl. destruct (Nat.eqb_spec i j); [reflexivity|]. simpl.
      destruct (Rlt_dec eps (Rabs (val3 a e i j))) as [Hlt|]; [|reflexivity].
      exfalso. assert (Rabs (val3 a e i j) <= eps)%R by (apply H; lia). lra.
Qed.

(** ** StopList *)
Lemma stop_reset_repeat l : stop_reset l = repeat Inf (length l).
Proof. unfold stop_reset. induction l; simpl; congruence. Qed.
Lemma resize_length n l : length (resize n l) = n.
Proof. unfold resize. rewrite app_length, firstn_length, repeat_length. lia. Qed.

Lemma roll_insert_Ok a l r : roll_insert (a :: l) r = Ok (l ++ [r]).
Proof.
  unfold roll_insert. simpl. rewrite app_length. simpl. replace (length l + 1 - 1) with (length l) by lia.
  induction l as [|b l IH]; simpl; [reflexivity|]. rewrite IH. reflexivity.
Qed.

Lemma lastn_snoc {A} n (l : list A) r : 0 < n -> n <= length l -> lastn n (l ++ [r]) = tl (lastn n l) ++ [r].
Proof.
  intros Hn Hl. unfold lastn. rewrite app_length. simpl.
  replace (length l + 1 - n) with (S (length l - n)) by lia.
  rewrite skipn_app. replace (S (length l - n) - length l) with 0 by lia. simpl. f_equal.
  remember (length l - n) as k. assert (Hk : k < length l) by lia. clear - Hk.
  revert l Hk. induction k as [|k IH]; intros [|a l] H; simpl in *; try lia; [reflexivity|]. apply IH. lia.
Qed.

Lemma stop_run_spec n h : (forall h1 h2, h = h1 ++ h2 -> 0 < hist_length n h1) ->
  stop_run n h = Ok (lastn (hist_length n h) (repeat Inf (hist_length n h) ++ hist_inserts [] h)).
Proof.
  unfold stop_run.
  assert (K : forall h n acc s, s = lastn n (repeat Inf n ++ acc) ->
     (forall h1 h2, h = h1 ++ h2 -> 0 < hist_length n h1) ->
     foldM stop_step h s = Ok (lastn (hist_length n h) (repeat Inf (hist_length n h) ++ hist_inserts acc h))).
  { clear n h. induction h as [|o h IH]; intros n acc s -> Hpos; simpl; [reflexivity|].
    assert (L : length (lastn n (repeat Inf n ++ acc)) = n).
    { unfold lastn. rewrite skipn_length, app_length, repeat_length. lia. }
    assert (Z : forall k, repeat Inf k = lastn k (repeat Inf k ++ [])).
    { intro k. unfold lastn. rewrite app_nil_r, repeat_length, Nat.sub_diag. reflexivity. }
    destruct o as [|k|r]; simpl; cbn [bind].
    - apply IH; [rewrite stop_reset_repeat, L; apply Z|]. intros h1 h2 E. apply (Hpos (Reset :: h1) h2). simpl. now rewrite E.
    - apply IH; [unfold stop_reset_n; rewrite stop_reset_repeat, resize_length; apply Z|].
      intros h1 h2 E. apply (Hpos (Reset_n k :: h1) h2). simpl. now rewrite E.
    - assert (Hn : 0 < n) by apply (Hpos [] (Insert r :: h) eq_refl).
      destruct (lastn n (repeat Inf n ++ acc)) as [|a l] eqn:El; [simpl in L; lia|].
      rewrite roll_insert_Ok. cbn [bind]. apply IH.
      + rewrite app_assoc, lastn_snoc; [|exact Hn|rewrite app_length, repeat_length; lia]. rewrite El. reflexivity.
      + intros h1 h2 E. apply (Hpos (Insert r :: h1) h2). simpl. now rewrite E. }
  intro H. apply (K h n []); [|exact H].
  unfold StopList. rewrite stop_reset_repeat, resize_length. unfold lastn. rewrite app_nil_r, repeat_length, Nat.sub_diag. reflexivity.
Qed.

Lemma ext_ltb_spec a b : ext_ltb a b = true <-> ext_lt a b.
Proof. destruct a, b; simpl; try destruct (Rlt_dec _ _); intuition (try discriminate; try lra). Qed.
Lemma ext_lt_trans_neg a b c : b <> NaN -> ~ ext_lt a b -> ~ ext_lt b c -> ~ ext_lt a c.
Proof. destruct a, b, c; simpl; intros; try tauto; try congruence; lra. Qed.

Lemma descending_neighbours l : descending l = true <->
  forall i a b, nth_error l i = Some a -> nth_error l (S i) = Some b -> ~ ext_lt a b.
Proof.
  unfold descending. induction l as [|a l IH].
  - simpl. split; [|auto]. intros _ i a b H. destruct i; discriminate.
  - destruct l as [|b l].
    + simpl. split; [|auto]. intros _ i x y Hi Hj. destruct i; discriminate.
    + change (is_sorted (fun x y => ext_ltb y x) (a :: b :: l)) with (negb (ext_ltb a b) && is_sorted (fun x y => ext_ltb y x) (b :: l)).
      rewrite andb_true_iff, IH, negb_true_iff. split.
      * intros [H1 H2] [|i] x y Hi Hj; [|exact (H2 i x y Hi Hj)].
        simpl in Hi, Hj. injection Hi as <-. injection Hj as <-. intro H. apply ext_ltb_spec in H. congruence.
      * intro H. split.
        -- destruct (ext_ltb a b) eqn:E; [|reflexivity]. apply ext_ltb_spec in E. exfalso. apply (H 0 a b); auto.
        -- intros i x y Hi Hj. apply (H (S i)); auto.
Qed.
Lemma descending_spec l : no_nan l -> descending l = true <->
  forall i j a b, i < j -> nth_error l i = Some a -> nth_error l j = Some b -> ~ ext_lt a b.
Proof.
  intro Hn. rewrite descending_neighbours. split; [|intros H i a b Hi Hj; apply (H i (S i)); auto].
  intros H i j a b Hij Hi Hj. revert i a Hij Hi. induction j as [|j IH] in b, Hj |- *; intros i a Hij Hi; [lia|].
  destruct (Nat.eq_dec i j) as [->|Hne]; [exact (H j a b Hi Hj)|].
  destruct (nth_error l j) as [c|] eqn:Ec.
  - apply (ext_lt_trans_neg _ c); [apply Hn; eapply nth_error_In; exact Ec | apply (IH c eq_refl i a); [lia | exact Hi] | exact (H j c b Ec Hj)].
  - apply nth_error_None in Ec. assert (nth_error l (S j) = None) by (apply nth_error_None; lia). congruence.
Qed.

Lemma ext_geb_spec a b : ext_geb a b = false <-> a = NaN \/ b = NaN \/ ext_lt a b.
Proof. destruct a, b; simpl; try destruct (Rlt_dec _ _); intuition (try discriminate; try lra). Qed.
Lemma all_less_exact l tol : all_less l tol = true <-> forall r, In r l -> r = NaN \/ tol = NaN \/ ext_lt r tol.
Proof.
  unfold all_less. rewrite negb_true_iff. split.
  - intros H r Hr. apply ext_geb_spec. destruct (ext_geb r tol) eqn:E; [|reflexivity].
    assert (existsb (fun i => ext_geb i tol) l = true); [|congruence]. apply existsb_exists. eauto.
  - intro H. destruct (existsb _ l) eqn:E; [|reflexivity]. apply existsb_exists in E. destruct E as [r [Hr E]].
    specialize (H r Hr). apply ext_geb_spec in H. congruence.
Qed.
Lemma all_less_spec l tol : no_nan l -> tol <> NaN -> all_less l tol = true <-> forall r, In r l -> ext_lt r tol.
Proof. intros Hn Ht. rewrite all_less_exact. split; intros H r Hr; [destruct (H r Hr) as [E|[E|E]]; [now apply Hn in Hr | contradiction | exact E] | auto]. Qed.

Lemma stop_zero : forall r, stop_run 0 [Insert r] = Oob.
Proof. reflexivity. Qed.

(** ** AsTensor *)
Fixpoint rank_of (shape ix : list nat) : nat :=
  match shape, ix with n :: s, i :: ix' => i * numel s + rank_of s ix' | _, _ => 0 end.

Lemma rank_lt shape ix : in_range shape ix -> rank_of shape ix < numel shape.
Proof.
  induction 1 as [|n i s ix Hi Hr IH]; simpl; [lia|]. unfold numel in *. simpl. fold (numel s) in *. nia.
Qed.

Lemma entry_rank {A} shape : forall (data : list A) ix, length data = numel shape -> in_range shape ix ->
  entry shape data ix = nth_error data (rank_of shape ix).
Proof.
  induction shape as [|n s IH]; intros data ix L Hr; inversion Hr as [|n0 i s0 ix' Hi Hr' E1 E2]; subst; simpl; [reflexivity|].
  assert (Hp : numel (n :: s) = n * numel s) by reflexivity. rewrite Hp in L.
  pose proof (rank_lt s ix' Hr') as Hlt.
  rewrite IH; [|rewrite firstn_length, skipn_length; nia|exact Hr'].
  rewrite nth_error_firstn by exact Hlt. rewrite nth_error_skipn. reflexivity.
Qed.

Lemma offset_rank shape : forall ix k kx, in_range shape ix -> offset (strides shape ++ repeat 0 k) (ix ++ kx) = rank_of shape ix.
Proof.
  induction shape as [|n s IH]; intros ix k kx Hr; inversion Hr as [|n0 i s0 ix' Hi Hr' E1 E2]; subst; simpl.
  - revert kx. induction k as [|k IHk]; intros [|a kx]; simpl; auto.
  - rewrite IH by exact Hr'. destruct (Nat.eqb_spec n 1) as [->|]; [replace i with 0 by lia; lia|]. fold (numel s). lia.
Qed.

Lemma indices_length shape : length (indices shape) = numel shape.
Proof.
  induction shape as [|n s IH]; simpl; [reflexivity|].
  rewrite (length_flat_map_const _ (numel s)); [rewrite seq_length; reflexivity|]. intros. now rewrite map_length.
Qed.

Lemma indices_nth shape : forall ix, in_range shape ix -> nth_error (indices shape) (rank_of shape ix) = Some ix.
Proof.
  induction shape as [|n s IH]; intros ix Hr; inversion Hr as [|n0 i s0 ix' Hi Hr' E1 E2]; subst; simpl; [reflexivity|].
  rewrite (nth_error_flat_map_const _ (numel s)); [|intros; now rewrite map_length, indices_length|now apply rank_lt].
  rewrite nth_error_seq. destruct (Nat.ltb_spec i n); [|lia]. simpl. rewrite nth_error_map, IH by exact Hr'. reflexivity.
Qed.

Lemma in_range_app s s' ix : in_range (s ++ s') ix -> exists i k, ix = i ++ k /\ in_range s i /\ in_range s' k.
Proof. intro H. apply Forall2_app_inv_l in H. destruct H as [i [k [H1 [H2 ->]]]]. eauto. Qed.

Lemma indices_in_range shape : forall ix, In ix (indices shape) -> in_range shape ix.
Proof.
  induction shape as [|n s IH]; intros ix H; simpl in H; [destruct H as [<-|[]]; constructor|].
  apply in_flat_map in H. destruct H as [i [Hi H]]. apply in_map_iff in H. destruct H as [ix' [<- H]].
  apply in_seq in Hi. constructor; [lia|]. now apply IH.
Qed.

Lemma AsTensor_spec {A} (ashape : list nat) (data : list A) shape : length data = numel ashape -> exists d,
  AsTensor ashape data shape = Ok (ashape ++ shape, d) /\ length d = numel (ashape ++ shape) /\
  forall ix kx, in_range ashape ix -> in_range shape kx -> entry (ashape ++ shape) d (ix ++ kx) = entry ashape data ix.
Proof.
  intro L. unfold AsTensor, asTensor. replace (length (ashape ++ shape) - length ashape) with (length shape) by (rewrite app_length; lia).
  destruct data as [|a0 data'] eqn:Ed.
  - assert (E0 : indices (ashape ++ shape) = []).
    { apply length_zero_iff_nil. rewrite indices_length. unfold numel in *. rewrite fold_right_app. simpl in L.
      clear - L. induction ashape as [|n s IH]; simpl in *; [lia|]. destruct n; [lia|]. 
      assert (fold_right Nat.mul 1 s = 0) by lia. rewrite IH by auto. lia. }
    rewrite E0. simpl. exists []. split; [reflexivity|]. split; [rewrite <- indices_length, E0; reflexivity|].
    intros ix kx H1 H2. exfalso. pose proof (rank_lt ashape ix H1). simpl in L. lia.
  - rewrite <- Ed in *. 
    rewrite (mapM_Ok _ _ (fun ix => nth (offset (strides ashape ++ repeat 0 (length shape)) ix) data a0)).
    2:{ intros ix Hix. apply indices_in_range in Hix. apply in_range_app in Hix. destruct Hix as [i [k [-> [H1 H2]]]].
        apply get_nth. rewrite offset_rank by exact H1. rewrite L. now apply rank_lt. }
    cbn [bind]. eexists. split; [reflexivity|]. split; [now rewrite map_length, indices_length|].
    intros ix kx H1 H2. rewrite entry_rank; [|now rewrite map_length, indices_length|now apply Forall2_app].
    rewrite nth_error_map, indices_nth by now apply Forall2_app. simpl.
    rewrite offset_rank by exact H1. rewrite entry_rank by assumption. symmetry. apply nth_error_nth'. rewrite L. now apply rank_lt.
Qed.

(** ** as3d *)
Lemma as3d_spec u n d : shape2 u n d -> 0 < d < 4 -> shape2 (as3d u d) n 3 /\
  forall m i, m < n -> i < 3 -> val2 (as3d u d) m i = if i <? d then val2 u m i else 0%R.
Proof.
  intros [L Hr] Hd.
  assert (K : forall (g : list R -> list R), (forall r, length r = d -> length (g r) = 3 /\ forall i, i < 3 -> nth i (g r) 0%R = if i <? d then nth i r 0%R else 0%R) ->
     shape2 (map g u) n 3 /\ forall m i, m < n -> i < 3 -> val2 (map g u) m i = if i <? d then val2 u m i else 0%R).
  { intros g Hg. split.
    - split; [now rewrite map_length|]. intros r H. apply in_map_iff in H. destruct H as [r0 [<- H0]]. apply Hg. auto.
    - intros m i Hm Hi. unfold val2, nth2. rewrite (nth_error_nth (map g u) m [] (x := g (nth m u []))).
      + apply Hg; auto. apply Hr. apply nth_In. lia.
      + rewrite nth_error_map. rewrite (nth_error_nth' u []) by lia. reflexivity. }
  unfold as3d. destruct (Nat.eqb_spec d 3) as [->|H3].
  - split; [split; auto|]. intros m i Hm Hi. destruct (Nat.ltb_spec i 3); [reflexivity|lia].
  - destruct (Nat.eqb_spec d 2) as [->|H2]; [apply K|].
    + intros [|a [|b [|c r]]] H; simpl in H; try lia. split; [reflexivity|]. intros [|[|[|i]]] Hi; try lia; reflexivity.
    + destruct (Nat.eqb_spec d 1) as [->|H1]; [apply K|lia].
      intros [|a [|b r]] H; simpl in H; try lia. split; [reflexivity|]. intros [|[|[|i]]] Hi; try lia; reflexivity.
Qed.

(** ** is_unique *)
Lemma forallb_combine_eq : forall l l', length l = length l' ->
  (forallb (fun ab => fst ab =? snd ab) (combine l l') = true <-> l = l').
Proof.
  induction l as [|a l IH]; intros [|b l'] H; simpl in *; try lia; [tauto|].
  rewrite andb_true_iff, Nat.eqb_eq, IH by lia. split; [intros [-> ->]; reflexivity|]. intro E. inversion E. auto.
Qed.

Lemma sorted_le_ext l : forall l', StronglySorted le l -> StronglySorted le l' -> Permutation l l' -> l = l'.
Proof.
  induction l as [|a l IH]; intros l' S S' P.
  - apply Permutation_nil in P. now subst.
  - destruct l' as [|b l']; [apply Permutation_sym, Permutation_nil in P; discriminate|].
    inversion S as [|? ? S1 F1]; inversion S' as [|? ? S2 F2]; subst. rewrite Forall_forall in F1, F2.
    assert (a = b).
    { assert (Ha : In a (b :: l')) by (apply (Permutation_in _ P); now left).
      assert (Hb : In b (a :: l)) by (apply (Permutation_in _ (Permutation_sym P)); now left).
      destruct Ha as [->|Ha]; [reflexivity|]. destruct Hb as [->|Hb]; [reflexivity|].
      apply F2 in Ha. apply F1 in Hb. lia. }
    subst b. f_equal. apply IH; auto. now apply Permutation_cons_inv in P.
Qed.

Lemma is_unique_spec l : is_unique l = true <-> NoDup l.
Proof.
  unfold is_unique. destruct (Nat.eqb_spec (length (unique l)) (length (std_sort l))) as [E|E]; simpl.
  - rewrite forallb_combine_eq by exact E. split.
    + intro H. apply (Permutation_NoDup (std_sort_perm l)). rewrite <- H. apply unique_NoDup.
    + intro H. symmetry. assert (S : StronglySorted le (unique l)).
      { clear. pose proof (unique_sorted l) as H. induction H as [|x u Hs IH Hf]; constructor; auto.
        eapply Forall_impl; [|exact Hf]. intros; simpl in *; lia. }
      rewrite <- (std_sort_id (unique l) S).
      assert (P : Permutation l (unique l)).
      { apply NoDup_Permutation; [exact H|apply unique_NoDup|]. intro x. now rewrite unique_In. }
      apply sorted_le_ext; [apply std_sort_sorted|apply std_sort_sorted|].
      rewrite !std_sort_perm. exact P.
  - split; [discriminate|]. intro H. exfalso. apply E.
    rewrite (Permutation_length (std_sort_perm l)). apply Permutation_length. apply NoDup_Permutation; [apply unique_NoDup|exact H|].
    intro x. apply unique_In.
Qed.

(** ** unquote *)
Lemma unquote_filter l : unquote l = Ok (filter (fun c => negb (Ascii.eqb c quote)) l).
Proof.
  unfold unquote. set (q := fun c => negb (Ascii.eqb c quote)).
  set (step := fun (st : list ascii * nat) i => _).
  assert (K : forall rest done junk, length (filter q done) + length junk = length done ->
     exists junk', foldM step (seq (length done) (length rest)) (filter q done ++ junk ++ rest, length (filter q done)) =
       Ok (filter q (done ++ rest) ++ junk', length (filter q (done ++ rest)))).
  { induction rest as [|c rest IH]; intros done junk H; simpl.
    - exists junk. now rewrite !app_nil_r.
    - unfold step at 1. simpl fst. simpl snd.
      assert (G : get (filter q done ++ junk ++ c :: rest) (length done) = Ok c).
      { apply get_Ok. rewrite app_assoc, nth_error_app2 by (rewrite app_length; lia).
        rewrite app_length. replace (length done - _) with 0 by lia. reflexivity. }
      rewrite G. cbn [bind]. assert (F : filter q (done ++ [c]) = filter q done ++ (if q c then [c] else [])).
      { rewrite filter_app. simpl. destruct (q c); reflexivity. }
      replace (S (length done)) with (length (done ++ [c])) by (rewrite app_length; simpl; lia).
      replace (done ++ c :: rest) with ((done ++ [c]) ++ rest) by (rewrite <- app_assoc; reflexivity).
      destruct (Ascii.eqb c quote) eqn:Eq.
      + cbn [bind]. assert (Qc : q c = false) by (unfold q; now rewrite Eq). rewrite Qc, app_nil_r in F.
        destruct (IH (done ++ [c]) (junk ++ [c])) as [j' E'].
        { rewrite F, !app_length. simpl. lia. }
        exists j'. rewrite <- E'. rewrite F. repeat rewrite <- app_assoc. reflexivity.
      + assert (Qc : q c = true) by (unfold q; now rewrite Eq). rewrite Qc in F.
        (* the write position holds the first junk character, or c itself *)
        assert (W : exists junk1, set (filter q done ++ junk ++ c :: rest) (length (filter q done)) c =
                     Ok (filter q (done ++ [c]) ++ junk1 ++ rest) /\ length junk1 = length junk).
        { rewrite F. destruct junk as [|x junk].
          - exists []. split; [|reflexivity]. simpl. clear. induction (filter q done) as [|y f IHf]; simpl; [reflexivity|]. now rewrite IHf.
          - exists (junk ++ [c]). split; [|rewrite app_length; simpl; lia].
            simpl. clear. induction (filter q done) as [|y f IHf]; simpl; [|now rewrite IHf].
            repeat rewrite <- app_assoc. reflexivity. }
        destruct W as [junk1 [W1 W2]]. simpl in W1. simpl. rewrite W1. cbn [bind].
        destruct (IH (done ++ [c]) junk1) as [j' E'].
        { rewrite F, !app_length. simpl. lia. }
        exists j'. rewrite <- E'. repeat f_equal. rewrite F, app_length. simpl. lia. }
  destruct (K l [] []) as [j E]; [reflexivity|]. simpl in E. rewrite E. cbn [bind fst snd].
  rewrite firstn_app, Nat.sub_diag, firstn_all. simpl. now rewrite app_nil_r.
Qed.
