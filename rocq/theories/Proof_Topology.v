(** Proofs about the connectivity utilities. *)
From Verif Require Import Base Spec Spec_Topology Model_Topology.
Arguments occurs : simpl never.

(** ** sorting *)
Lemma insert_le_perm x l : Permutation (insert_le x l) (x :: l).
Proof.
  induction l as [|y l IH]; simpl; [constructor; constructor|].
  destruct (x <=? y); [apply Permutation_refl|].
  eapply perm_trans; [apply perm_skip, IH|apply perm_swap].
Qed.

Lemma std_sort_perm l : Permutation (std_sort l) l.
Proof.
  induction l as [|x l IH]; simpl; [constructor|].
  eapply perm_trans; [apply insert_le_perm|]. now constructor.
Qed.

Lemma insert_le_sorted x l : StronglySorted le l -> StronglySorted le (insert_le x l).
Proof.
  induction l as [|y l IH]; intro H; simpl; [constructor; constructor|].
  inversion H as [|? ? Hs Hf]; subst.
  destruct (Nat.leb_spec x y).
  - constructor; [exact H|]. constructor; [assumption|].
    eapply Forall_impl; [|exact Hf]. intros; simpl in *; lia.
  - constructor; [apply IH; exact Hs|].
    rewrite Forall_forall in *. intros w Hw.
    apply (Permutation_in _ (insert_le_perm x l)) in Hw. destruct Hw as [->|Hw]; [lia|auto].
Qed.

Lemma std_sort_sorted l : StronglySorted le (std_sort l).
Proof. induction l as [|x l IH]; simpl; [constructor|]. now apply insert_le_sorted. Qed.

Lemma std_sort_id l : StronglySorted le l -> std_sort l = l.
Proof.
  induction 1 as [|x l Hs IH Hf]; simpl; [reflexivity|]. rewrite IH.
  destruct l as [|y l]; simpl; [reflexivity|].
  inversion Hf; subst. destruct (Nat.leb_spec x y); [reflexivity|lia].
Qed.

Lemma occurs_perm x l l' : Permutation l l' -> occurs x l = occurs x l'.
Proof. intro H. unfold occurs. now apply Permutation_count_occ. Qed.

Lemma occurs_app x l l' : occurs x (l ++ l') = occurs x l + occurs x l'.
Proof. apply count_occ_app. Qed.

Lemma occurs_cons x y l : occurs x (y :: l) = (if y =? x then 1 else 0) + occurs x l.
Proof.
  unfold occurs. destruct (Nat.eqb_spec y x).
  - rewrite count_occ_cons_eq by auto. reflexivity.
  - rewrite count_occ_cons_neq by auto. reflexivity.
Qed.

Lemma occurs_In x l : In x l <-> 0 < occurs x l.
Proof. unfold occurs. rewrite (count_occ_In Nat.eq_dec). lia. Qed.

(** ** coordination *)
Lemma coordination_fold : forall l N, (forall x, In x l -> x < length N) ->
  exists N', foldM (fun N it => do v <- get N it; set N it (v + 1)) l N = Ok N' /\
    length N' = length N /\
    forall m v, nth_error N m = Some v -> nth_error N' m = Some (v + occurs m l).
Proof.
  induction l as [|x l IH]; intros N H.
  - exists N. simpl. repeat split; auto. intros. now rewrite Nat.add_0_r.
  - simpl. destruct (get_lt N x) as [v Hv]; [apply H; now left|].
    rewrite Hv. simpl. destruct (set_Ok N x (v + 1)) as [N1 [E [Hl Hn]]]; [apply H; now left|].
    rewrite E. simpl. destruct (IH N1) as [N2 [E2 [Hl2 Hn2]]].
    { intros y Hy. rewrite Hl. apply H. now right. }
    exists N2. split; [exact E2|]. split; [congruence|].
    intros m w Hw. rewrite occurs_cons. apply get_Ok in Hv.
    destruct (Nat.eqb_spec x m).
    + subst. rewrite Hv in Hw. inversion Hw; subst.
      erewrite Hn2; [|rewrite Hn, Nat.eqb_refl; reflexivity]. f_equal. lia.
    + erewrite Hn2; [f_equal; lia|]. rewrite Hn.
      destruct (Nat.eqb_spec m x); [congruence|exact Hw].
Qed.

Lemma coordination_spec conn : exists N, coordination conn = Ok N /\
  length N = amax (concat conn) + 1 /\
  forall m, m < length N -> nth_error N m = Some (occurs m (concat conn)).
Proof.
  unfold coordination.
  destruct (coordination_fold (concat conn) (repeat 0 (amax (concat conn) + 1))) as [N [E [Hl Hn]]].
  - intros x Hx. rewrite repeat_length. apply amax_ge in Hx. lia.
  - exists N. split; [exact E|]. rewrite repeat_length in Hl. split; [exact Hl|].
    intros m Hm. rewrite (Hn m 0); [reflexivity|]. apply nth_error_repeat_lt. lia.
Qed.

(** ** elem2node *)
Definition row_of (l : list (nat * nat)) (m : nat) : list nat :=
  map fst (filter (fun en => snd en =? m) l).

Lemma push_fold : forall l ret, (forall e n, In (e, n) l -> n < length ret) ->
  exists ret', foldM (fun r en => push_back r (snd en) (fst en)) l ret = Ok ret' /\
    length ret' = length ret /\
    forall m row, nth_error ret m = Some row -> nth_error ret' m = Some (row ++ row_of l m).
Proof.
  induction l as [|[e n] l IH]; intros ret H.
  - exists ret. simpl. repeat split; auto. intros. unfold row_of. simpl. now rewrite app_nil_r.
  - simpl. unfold push_back at 1.
    assert (Hn : n < length ret) by (apply (H e); now left).
    destruct (get_lt ret n Hn) as [row Hrow]. rewrite Hrow. simpl.
    destruct (set_Ok ret n (row ++ [e]) Hn) as [r1 [E [Hl1 Hn1]]]. rewrite E. simpl.
    destruct (IH r1) as [r2 [E2 [Hl2 Hn2]]].
    { intros e' n' Hin. rewrite Hl1. apply (H e'). now right. }
    exists r2. split; [exact E2|]. split; [congruence|].
    intros m w Hw. unfold row_of. simpl. apply get_Ok in Hrow.
    destruct (Nat.eqb_spec n m).
    + subst. rewrite Hrow in Hw. inversion Hw; subst.
      erewrite Hn2; [|rewrite Hn1, Nat.eqb_refl; reflexivity].
      simpl. rewrite <- app_assoc. reflexivity.
    + erewrite Hn2; [reflexivity|]. rewrite Hn1. destruct (Nat.eqb_spec m n); [congruence|exact Hw].
Qed.

Lemma enum_nth {A} (l : list A) i : nth_error (enum l) i = option_map (fun a => (i, a)) (nth_error l i).
Proof.
  unfold enum. assert (G : forall s, nth_error (combine (seq s (length l)) l) i =
    option_map (fun a => (s + i, a)) (nth_error l i)).
  { revert i. induction l as [|a l IH]; intros i s; simpl; [now destruct i|].
    destruct i as [|i]; simpl; [now rewrite Nat.add_0_r|].
    rewrite IH. destruct (nth_error l i); simpl; [repeat f_equal; lia|reflexivity]. }
  apply G.
Qed.

Lemma enum_In {A} (l : list A) i a : In (i, a) (enum l) <-> nth_error l i = Some a.
Proof.
  split.
  - intro H. apply In_nth_error in H. destruct H as [k Hk]. rewrite enum_nth in Hk.
    destruct (nth_error l k) eqn:E; simpl in Hk; inversion Hk; subst. exact E.
  - intro H. apply (nth_error_In _ i). rewrite enum_nth, H. reflexivity.
Qed.

Lemma enum_length {A} (l : list A) : length (enum l) = length l.
Proof. unfold enum. rewrite combine_length, seq_length. lia. Qed.

Lemma incidences_In conn e n : In (e, n) (incidences conn) ->
  exists r, nth_error conn e = Some r /\ In n r.
Proof.
  unfold incidences. rewrite in_flat_map. intros [[e' r] [H1 H2]].
  apply enum_In in H1. simpl in H2. apply in_map_iff in H2. destruct H2 as [n' [E H2]].
  inversion E; subst. eauto.
Qed.

Lemma In_concat {A} (x : A) l : In x (concat l) <-> exists r, In r l /\ In x r.
Proof.
  induction l as [|a l IH]; simpl.
  - split; [tauto|intros [r [[] _]]].
  - rewrite in_app_iff, IH. split.
    + intros [H|[r [H1 H2]]]; [exists a|exists r]; auto.
    + intros [r [[->|H1] H2]]; [now left|right; eauto].
Qed.

Definition elem2node_rows (conn : list (list nat)) : list (list nat) :=
  map (row_of (incidences conn)) (seq 0 (amax (concat conn) + 1)).

Lemma row_of_flat s conn m : row_of (flat_map (fun er => map (fun n => (fst er, n)) (snd er))
    (combine (seq s (length conn)) conn)) m =
  flat_map (fun er => repeat (fst er) (occurs m (snd er))) (combine (seq s (length conn)) conn).
Proof.
  revert s. induction conn as [|r conn IH]; intro s; simpl; [reflexivity|].
  unfold row_of in *. rewrite filter_app, map_app. f_equal; [|apply IH].
  induction r as [|x r IHr]; simpl; [reflexivity|]. rewrite occurs_cons.
  destruct (Nat.eqb_spec x m); simpl; [f_equal|]; apply IHr.
Qed.

Lemma row_of_incidences conn m : row_of (incidences conn) m =
  flat_map (fun er => repeat (fst er) (occurs m (snd er))) (enum conn).
Proof. apply row_of_flat. Qed.

Lemma occurs_repeat x y k : occurs x (repeat y k) = if y =? x then k else 0.
Proof.
  induction k as [|k IH]; simpl; [now destruct (y =? x)|].
  rewrite occurs_cons, IH. destruct (y =? x); reflexivity.
Qed.

Lemma row_of_counts conn m e : occurs e (row_of (incidences conn) m) = occurrences conn e m.
Proof.
  rewrite row_of_incidences. unfold enum, occurrences.
  assert (G : forall s, occurs e (flat_map (fun er => repeat (fst er) (occurs m (snd er)))
      (combine (seq s (length conn)) conn)) =
      if s <=? e then match nth_error conn (e - s) with Some n => occurs m n | None => 0 end else 0).
  { induction conn as [|r conn IH]; intro s; simpl.
    - destruct (s <=? e); [destruct (e - s)|]; reflexivity.
    - rewrite occurs_app, occurs_repeat, IH.
      destruct (Nat.eqb_spec s e).
      + subst. rewrite Nat.leb_refl, Nat.sub_diag. destruct (Nat.leb_spec (S e) e); simpl; lia.
      + destruct (Nat.leb_spec (S s) e), (Nat.leb_spec s e); try lia.
        replace (e - s) with (S (e - S s)) by lia. reflexivity. }
  rewrite G. simpl. now rewrite Nat.sub_0_r.
Qed.

Lemma StronglySorted_app {A} (R : A -> A -> Prop) l1 : forall l2,
  StronglySorted R l1 -> StronglySorted R l2 -> (forall x y, In x l1 -> In y l2 -> R x y) ->
  StronglySorted R (l1 ++ l2).
Proof.
  induction l1 as [|a l1 IH]; intros l2 H1 H2 H; simpl; [exact H2|].
  inversion H1; subst. constructor.
  - apply IH; auto. intros; apply H; [now right|assumption].
  - apply Forall_app. split; [assumption|]. apply Forall_forall. intros y Hy. apply H; [now left|exact Hy].
Qed.

Lemma repeat_sorted x k : StronglySorted le (repeat x k).
Proof.
  induction k as [|k IH]; simpl; constructor; [exact IH|].
  apply Forall_forall. intros y Hy. apply repeat_spec in Hy. lia.
Qed.

Lemma row_of_sorted conn m : StronglySorted le (row_of (incidences conn) m).
Proof.
  rewrite row_of_incidences. unfold enum. generalize 0 as s.
  induction conn as [|r conn IH]; intro s; simpl; [constructor|].
  apply StronglySorted_app; [apply repeat_sorted|apply IH|].
  intros x y Hx Hy. apply repeat_spec in Hx. subst.
  apply in_flat_map in Hy. destruct Hy as [[e r'] [H1 H2]]. apply repeat_spec in H2. subst.
  apply in_combine_l in H1. apply in_seq in H1. simpl. lia.
Qed.

Lemma length_row_of conn m : length (row_of (incidences conn) m) = occurs m (concat conn).
Proof.
  rewrite row_of_incidences. unfold enum. generalize 0 as s.
  induction conn as [|r conn IH]; intro s; simpl; [reflexivity|].
  rewrite app_length, repeat_length, occurs_app, IH. reflexivity.
Qed.

Lemma elem2node_eq conn sorted : elem2node conn sorted = Ok (elem2node_rows conn).
Proof.
  unfold elem2node. destruct (coordination_spec conn) as [N [E [Hl HN]]]. rewrite E. simpl.
  destruct (push_fold (incidences conn) (repeat [] (length N))) as [ret [Er [Hlr Hr]]].
  { intros e n Hin. apply incidences_In in Hin. destruct Hin as [r [Hr Hn]].
    rewrite repeat_length, Hl. assert (In n (concat conn)).
    { apply In_concat. exists r. split; [eapply nth_error_In; eauto|exact Hn]. }
    apply amax_ge in H. lia. }
  rewrite Er. simpl. rewrite repeat_length in Hlr.
  assert (Eq : ret = elem2node_rows conn).
  { apply nth_error_ext. intro i. unfold elem2node_rows. rewrite nth_error_map, nth_error_seq.
    rewrite <- Hl. destruct (Nat.ltb_spec i (length N)).
    - rewrite (Hr i []); [reflexivity|]. apply nth_error_repeat_lt. lia.
    - simpl. apply nth_error_None. lia. }
  rewrite Eq. destruct sorted; [|reflexivity]. f_equal. unfold elem2node_rows. rewrite map_map.
  apply map_ext. intro m. apply std_sort_id, row_of_sorted.
Qed.

Lemma elem2node_rows_nth conn m : m < amax (concat conn) + 1 ->
  nth_error (elem2node_rows conn) m = Some (row_of (incidences conn) m).
Proof.
  intro H. unfold elem2node_rows. rewrite nth_error_map, nth_error_seq.
  destruct (Nat.ltb_spec m (amax (concat conn) + 1)); [reflexivity|lia].
Qed.

Lemma elem2node_rows_length conn : length (elem2node_rows conn) = amax (concat conn) + 1.
Proof. unfold elem2node_rows. now rewrite map_length, seq_length. Qed.

Lemma numbers_up_to_amax conn N : numbers_up_to conn N -> amax (concat conn) + 1 = N.
Proof.
  intros [H1 H2]. pose proof (amax_ge _ _ H2). pose proof (H1 _ (amax_in (concat conn) ltac:(intro E; rewrite E in H2; inversion H2))).
  lia.
Qed.

Theorem elem2node_spec : forall conn sorted N, numbers_up_to conn N ->
  exists E C, elem2node conn sorted = Ok E /\ coordination conn = Ok C /\
    length E = N /\ length C = N /\
    (forall m row, nth_error E m = Some row ->
       StronglySorted le row /\ (forall e, occurs e row = occurrences conn e m) /\
       nth_error C m = Some (length row)).
Proof.
  intros conn sorted N HN. apply numbers_up_to_amax in HN.
  destruct (coordination_spec conn) as [C [EC [HlC HC]]].
  exists (elem2node_rows conn), C. rewrite elem2node_eq. split; [reflexivity|].
  split; [exact EC|]. rewrite elem2node_rows_length. split; [exact HN|]. split; [lia|].
  intros m row Hm.
  assert (Hlt : m < amax (concat conn) + 1).
  { rewrite <- elem2node_rows_length. apply nth_error_Some. congruence. }
  rewrite elem2node_rows_nth in Hm by exact Hlt. inversion Hm; subst row.
  split; [apply row_of_sorted|]. split; [intro e; apply row_of_counts|].
  rewrite length_row_of. apply HC. lia.
Qed.

(** ** nodaltyings *)
Definition tie_row (dofs : list (list nat)) (m : nat) : list nat :=
  match at2 dofs m 0 with Some d => row_of (incidences dofs) d | None => [] end.

Lemma at2_In {A} (l : list (list A)) i j x : at2 l i j = Some x -> In x (concat l).
Proof.
  unfold at2. intro H. destruct (nth_error l i) as [r|] eqn:E; [|discriminate].
  apply In_concat. exists r. split; [eapply nth_error_In; eauto|eapply nth_error_In; eauto].
Qed.

Lemma shape2_at {A} (l : list (list A)) n d i j : shape2 l n d -> i < n -> j < d ->
  exists x, at2 l i j = Some x.
Proof.
  intros [Hl Hr] Hi Hj. unfold at2.
  destruct (nth_error l i) as [r|] eqn:E; [|apply nth_error_None in E; lia].
  destruct (nth_error r j) as [x|] eqn:E2; [eauto|].
  apply nth_error_None in E2. rewrite (Hr r) in E2; [lia|]. eapply nth_error_In; eauto.
Qed.

Lemma nodaltyings_eq dofs ndim : shape2 dofs (length dofs) (S ndim) ->
  nodaltyings dofs = Ok (map (tie_row dofs) (seq 0 (length dofs))).
Proof.
  intro Hs. unfold nodaltyings, node2dof. rewrite elem2node_eq. simpl.
  apply mapM_Ok. intros m Hm. apply in_seq in Hm.
  destruct (shape2_at _ _ _ m 0 Hs) as [d Hd]; [lia|lia|].
  unfold tie_row. rewrite Hd. unfold at2 in Hd.
  destruct (nth_error dofs m) as [r|] eqn:E; [|discriminate].
  unfold get at 1. rewrite E. simpl. unfold get at 1. rewrite Hd. simpl.
  unfold get. rewrite elem2node_rows_nth.
  - simpl. f_equal. apply std_sort_id, row_of_sorted.
  - assert (In d (concat dofs)). { apply (at2_In _ m 0). unfold at2. now rewrite E. }
    apply amax_ge in H. lia.
Qed.

Lemma occurs_nth x l : (exists j, nth_error l j = Some x) <-> 0 < occurs x l.
Proof.
  rewrite <- occurs_In. split; [intros [j H]; eapply nth_error_In; eauto|apply In_nth_error].
Qed.

Lemma occurs_le1 x l : (forall i j, nth_error l i = Some x -> nth_error l j = Some x -> i = j) ->
  occurs x l <= 1.
Proof.
  induction l as [|y l IH]; intro H; [unfold occurs; simpl; lia|]. rewrite occurs_cons.
  assert (IH' : occurs x l <= 1).
  { apply IH. intros i j Hi Hj. specialize (H (S i) (S j) Hi Hj). lia. }
  destruct (Nat.eqb_spec y x); [|lia].
  destruct (Nat.eq_dec (occurs x l) 0); [lia|].
  assert (Hp : 0 < occurs x l) by lia. apply occurs_nth in Hp. destruct Hp as [j Hj].
  specialize (H 0 (S j)). subst. specialize (H eq_refl Hj). discriminate.
Qed.

Lemma sorted_occurs_lt l : StronglySorted le l -> (forall x, occurs x l <= 1) -> StronglySorted lt l.
Proof.
  induction 1 as [|x l Hs IH Hf]; intro H; constructor.
  - apply IH. intro y. specialize (H y). rewrite occurs_cons in H. lia.
  - rewrite Forall_forall in *. intros y Hy. specialize (Hf y Hy).
    destruct (Nat.eq_dec x y); [|lia]. subst. specialize (H y).
    rewrite occurs_cons, Nat.eqb_refl in H. apply occurs_In in Hy. lia.
Qed.

Lemma tie_row_counts dofs m d n : at2 dofs m 0 = Some d ->
  occurs n (tie_row dofs m) = occurrences dofs n d.
Proof. intro H. unfold tie_row. rewrite H. apply row_of_counts. Qed.

Lemma nodal_occurrences dofs ndim n d m : nodal_dofs dofs ndim -> at2 dofs m 0 = Some d ->
  occurrences dofs n d <= 1 /\ (0 < occurrences dofs n d <-> at2 dofs n 0 = Some d).
Proof.
  intros [Hs Hd] Hm. unfold occurrences, at2 at 1.
  destruct (nth_error dofs n) as [r|] eqn:E.
  - split.
    + apply occurs_le1. intros i j Hi Hj. apply (Hd n i n j d); unfold at2; now rewrite E.
    + rewrite <- occurs_nth. split.
      * intros [j Hj]. assert (0 = j) by (apply (Hd m 0 n j d); [exact Hm|unfold at2; now rewrite E]).
        now subst.
      * intro H. now exists 0.
  - split; [lia|]. split; [lia|discriminate].
Qed.

Lemma tie_row_In dofs ndim m n : nodal_dofs dofs ndim -> In n (tie_row dofs m) <-> tied dofs m n.
Proof.
  intro H. unfold tied. destruct (at2 dofs m 0) as [d|] eqn:E.
  - rewrite occurs_In, (tie_row_counts _ _ _ _ E).
    destruct (nodal_occurrences dofs ndim n d m H E) as [_ Hi]. rewrite Hi.
    split; [intro; exists d; auto|]. intros [d' [H1 H2]]. congruence.
  - unfold tie_row. rewrite E. simpl. split; [tauto|intros [d [? _]]; discriminate].
Qed.

Lemma tie_row_sorted dofs ndim m : nodal_dofs dofs ndim -> StronglySorted lt (tie_row dofs m).
Proof.
  intro H. destruct (at2 dofs m 0) as [d|] eqn:E.
  - apply sorted_occurs_lt.
    + unfold tie_row. rewrite E. apply row_of_sorted.
    + intro n. rewrite (tie_row_counts _ _ _ _ E). now apply (nodal_occurrences dofs ndim n d m).
  - unfold tie_row. rewrite E. constructor.
Qed.

Theorem nodaltyings_spec : forall dofs ndim, 0 < ndim -> nodal_dofs dofs ndim ->
  exists T, nodaltyings dofs = Ok T /\ length T = length dofs /\
    forall m row, nth_error T m = Some row ->
      StronglySorted lt row /\ In m row /\ (forall n, In n row <-> tied dofs m n).
Proof.
  intros dofs [|ndim] Hp H; [lia|]. exists (map (tie_row dofs) (seq 0 (length dofs))).
  split; [apply (nodaltyings_eq _ ndim); apply H|]. split; [now rewrite map_length, seq_length|].
  intros m row Hm. rewrite nth_error_map, nth_error_seq in Hm.
  destruct (Nat.ltb_spec m (length dofs)); simpl in Hm; [|discriminate].
  inversion Hm; subst row. split; [eapply tie_row_sorted; eauto|].
  split; [|intro n; eapply tie_row_In; eauto].
  eapply tie_row_In; [exact H|]. destruct (shape2_at dofs (length dofs) (S ndim) m 0 (proj1 H)) as [d Hd]; [lia|lia|].
  exists d. auto.
Qed.

Theorem nodaltyings_symmetric : forall dofs ndim T m n rm rn, 0 < ndim -> nodal_dofs dofs ndim ->
  nodaltyings dofs = Ok T -> nth_error T m = Some rm -> nth_error T n = Some rn ->
  (In n rm <-> In m rn) /\ (In n rm -> rm = rn).
Proof.
  intros dofs ndim T m n rm rn Hp H HT Hm Hn.
  destruct (nodaltyings_spec dofs ndim Hp H) as [T' [E [Hl Hr]]]. rewrite HT in E. inversion E; subst T'.
  destruct (Hr _ _ Hm) as [Sm [Im Em]]. destruct (Hr _ _ Hn) as [Sn [In_ En]].
  split.
  - rewrite Em, En. unfold tied. split; intros [d [? ?]]; exists d; auto.
  - intro Hin. apply Em in Hin. destruct Hin as [d [H1 H2]].
    apply sorted_ext; auto. intro x. rewrite Em, En. unfold tied.
    split; intros [d' [H3 H4]]; exists d'; split; congruence.
Qed.

Theorem node2dof_spec : forall dofs sorted N, numbers_up_to dofs N ->
  exists E, node2dof dofs sorted = Ok E /\ length E = N /\
    forall d row, nth_error E d = Some row -> forall n,
      occurs n row = occurrences dofs n d /\ (In n row <-> exists i, at2 dofs n i = Some d).
Proof.
  intros dofs sorted N H. destruct (elem2node_spec dofs sorted N H) as [E [C [HE [_ [Hl [_ Hr]]]]]].
  exists E. split; [exact HE|]. split; [exact Hl|]. intros d row Hd n.
  destruct (Hr d row Hd) as [_ [Hc _]]. split; [apply Hc|].
  rewrite occurs_In, Hc. unfold occurrences, at2. destruct (nth_error dofs n).
  - now rewrite <- occurs_nth.
  - split; [lia|intros [i Hi]; discriminate].
Qed.

(** ** elem2node with ties *)
Definition sum_occ (conn : list (list nat)) (e : nat) (g : list nat) : nat :=
  fold_right (fun n s => occurrences conn e n + s) 0 g.

Lemma concat_fold : forall g (ret : list (list nat)) acc, (forall j, In j g -> j < length ret) ->
  exists row, foldM (fun acc j => do rj <- get ret j; Ok (acc ++ rj)) g acc = Ok row /\
    forall e, occurs e row = occurs e acc +
       fold_right (fun j s => occurs e (nth j ret []) + s) 0 g.
Proof.
  induction g as [|j g IH]; intros ret acc H; simpl.
  - exists acc. split; [reflexivity|]. intro; lia.
  - destruct (get_lt ret j) as [rj Hj]; [apply H; now left|]. rewrite Hj. simpl.
    destruct (IH ret (acc ++ rj)) as [row [E Hc]]; [intros; apply H; now right|].
    exists row. split; [exact E|]. intro e. rewrite Hc, occurs_app.
    apply get_Ok in Hj. rewrite (nth_error_nth _ _ [] Hj). lia.
Qed.

Lemma concat_fold_oob : forall g (ret : list (list nat)) acc j, In j g -> length ret <= j ->
  foldM (fun acc j => do rj <- get ret j; Ok (acc ++ rj)) g acc = Oob.
Proof.
  induction g as [|i g IH]; intros ret acc j Hj Hl; simpl; [destruct Hj|].
  destruct (lt_dec i (length ret)) as [Hi|Hi].
  - destruct (get_lt ret i Hi) as [ri Hri]. rewrite Hri. simpl.
    destruct Hj as [->|Hj]; [lia|]. now apply (IH ret _ j).
  - unfold get at 1. rewrite (proj2 (nth_error_None _ _)) by lia. reflexivity.
Qed.

Lemma set_fold : forall g ret (row : list nat), (forall j, In j g -> j < length ret) ->
  exists ret', foldM (fun r j => set r j row) g ret = Ok ret' /\ length ret' = length ret /\
    forall k, nth_error ret' k = if mem k g then Some row else nth_error ret k.
Proof.
  induction g as [|j g IH]; intros ret row H; simpl.
  - exists ret. auto.
  - destruct (set_Ok ret j row) as [r1 [E [Hl Hn]]]; [apply H; now left|]. rewrite E. simpl.
    destruct (IH r1 row) as [r2 [E2 [Hl2 Hn2]]]; [intros; rewrite Hl; apply H; now right|].
    exists r2. split; [exact E2|]. split; [congruence|]. intro k. rewrite Hn2, Hn.
    destruct (mem k g), (k =? j); reflexivity.
Qed.

Definition leader (dofs : list (list nat)) (m : nat) : nat := hd m (tie_row dofs m).

Lemma tied_eq dofs ndim m n : nodal_dofs dofs ndim -> tied dofs m n -> tie_row dofs m = tie_row dofs n.
Proof.
  intros H [d [H1 H2]]. unfold tie_row. now rewrite H1, H2.
Qed.

Section Merge.
Variables (dofs : list (list nat)) (ndim : nat).
Hypothesis Hd : nodal_dofs dofs ndim.
Hypothesis Hp : 0 < ndim.

Lemma tie_self m : m < length dofs -> In m (tie_row dofs m).
Proof.
  intro H. eapply tie_row_In; [exact Hd|].
  destruct (shape2_at dofs (length dofs) ndim m 0 (proj1 Hd)) as [d E]; [lia|lia|]. exists d; auto.
Qed.

Lemma tie_lt m n : In n (tie_row dofs m) -> n < length dofs.
Proof.
  intro H. eapply tie_row_In in H; [|exact Hd]. destruct H as [d [_ H]].
  unfold at2 in H. destruct (nth_error dofs n) eqn:E; [|discriminate].
  apply nth_error_Some. congruence.
Qed.

Lemma tie_head m : m < length dofs -> exists g, tie_row dofs m = leader dofs m :: g /\
   leader dofs m <= m /\ (forall x, In x g -> leader dofs m < x).
Proof.
  intro H. pose proof (tie_self m H) as Hs. pose proof (tie_row_sorted dofs ndim m Hd) as Hsort.
  unfold leader. destruct (tie_row dofs m) as [|x g]; [destruct Hs|]. exists g. simpl.
  split; [reflexivity|]. inversion Hsort as [|? ? _ Hf]; subst. rewrite Forall_forall in Hf.
  split; [|exact Hf]. destruct Hs as [->|Hs]; [lia|]. specialize (Hf _ Hs). lia.
Qed.

Lemma leader_tied m n : In n (tie_row dofs m) -> leader dofs n = leader dofs m.
Proof.
  intro H. unfold leader. pose proof H as H'. eapply tie_row_In in H'; [|exact Hd].
  rewrite <- (tied_eq dofs ndim m n Hd H'). destruct (tie_row dofs m); [destruct H|reflexivity].
Qed.

Lemma leader_idem m : m < length dofs -> leader dofs (leader dofs m) = leader dofs m.
Proof.
  intro H. destruct (tie_head m H) as [g [E _]]. apply leader_tied. rewrite E. now left.
Qed.

Variables (conn : list (list nat)) (sorted : bool).
Let N := amax (concat conn) + 1.

(** every node of a non-trivial group of tied nodes is used by the connectivity *)
Definition ties_in_conn := forall m n, tied dofs m n -> m <> n -> m < N.

(** invariant: before iteration [k] the groups with leader < k are merged *)
Definition Inv (k : nat) (ret : list (list nat)) : Prop :=
  length ret = N /\
  forall m row, nth_error ret m = Some row ->
    StronglySorted le row \/ sorted = false.

Definition InvC (k : nat) (ret : list (list nat)) : Prop :=
  Inv k ret /\
  forall m row, nth_error ret m = Some row ->
    forall e, occurs e row =
      if (m <? length dofs) && (leader dofs m <? k)
      then sum_occ conn e (tie_row dofs m) else occurrences conn e m.

Lemma merge_step_Inv k ret : ties_in_conn -> k < length dofs -> InvC k ret ->
  exists ret', merge_step (map (tie_row dofs) (seq 0 (length dofs))) sorted ret k = Ok ret' /\
    InvC (S k) ret'.
Proof.
  intros Hin Hk [[Hl Hs] HC]. unfold merge_step, get at 1.
  rewrite nth_error_map, nth_error_seq. destruct (Nat.ltb_spec k (length dofs)); [|lia].
  simpl. destruct (tie_head k Hk) as [g [Eg [Hle Hgt]]]. rewrite Eg.
  assert (Hskip : (forall m, m < length dofs -> leader dofs m = k -> tie_row dofs m = [k] /\ m = k) ->
     InvC (S k) ret).
  { intro Hsk. split; [split; assumption|]. intros m row Hm e. rewrite (HC m row Hm).
    destruct (Nat.ltb_spec m (length dofs)); simpl; [|reflexivity].
    destruct (Nat.ltb_spec (leader dofs m) k), (Nat.ltb_spec (leader dofs m) (S k)); try lia; try reflexivity.
    destruct (Hsk m) as [Em ->]; [assumption|lia|]. rewrite Em. simpl. lia. }
  destruct (Nat.leb_spec (length (leader dofs k :: g)) 1) as [Hlen|Hlen].
  - exists ret. split; [reflexivity|]. apply Hskip. intros m Hm Hlm.
    destruct g; simpl in Hlen; [|lia].
    destruct (tie_head m Hm) as [gm [Em _]].
    assert (Hkm : In k (tie_row dofs m)) by (rewrite Em; left; exact Hlm).
    assert (E2 : tie_row dofs m = tie_row dofs k).
    { eapply tied_eq; [exact Hd|]. eapply tie_row_In; eauto. }
    assert (Hlk : leader dofs k = k) by (rewrite (leader_tied m k Hkm); exact Hlm).
    rewrite E2, Eg, Hlk. split; [reflexivity|].
    pose proof (tie_self m Hm) as Hmm. rewrite E2, Eg, Hlk in Hmm. destruct Hmm as [->|[]]. reflexivity.
  - simpl in Hlen. change (get (leader dofs k :: g) 0) with (Ok (leader dofs k)). cbn [bind].
    destruct (Nat.ltb_spec (leader dofs k) k) as [Hlt|Hge].
    + exists ret. split; [reflexivity|]. apply Hskip. intros m Hm Hlm. exfalso.
      rewrite <- Hlm, leader_idem in Hlt by exact Hm. lia.
    + assert (Hlk : leader dofs k = k) by lia. cbn [tl].
      assert (Hall : forall x, In x (k :: g) -> x < N).
      { intros x Hx. assert (Hx' : In x (tie_row dofs k)) by (rewrite Eg, Hlk; exact Hx).
        eapply tie_row_In in Hx'; [|exact Hd].
        destruct Hx as [<-|Hx].
        - destruct g as [|y g]; [simpl in Hlen; lia|]. apply (Hin k y).
          + eapply tie_row_In; [exact Hd|]. rewrite Eg. right. now left.
          + specialize (Hgt y (or_introl eq_refl)). lia.
        - apply (Hin x k); [destruct Hx' as [d [? ?]]; exists d; auto|]. specialize (Hgt x Hx). lia. }
      destruct (get_lt ret k) as [rk Hrk]; [rewrite Hl; apply Hall; now left|]. rewrite Hrk. cbn [bind].
      destruct (concat_fold g ret rk) as [row [Erow Hrow]].
      { intros j Hj. rewrite Hl. apply Hall. now right. }
      rewrite Erow. cbn [bind]. set (row' := if sorted then std_sort row else row).
      destruct (set_Ok ret k row') as [r1 [E1 [Hl1 Hn1]]]; [rewrite Hl; apply Hall; now left|].
      rewrite E1. cbn [bind].
      destruct (set_fold g r1 row') as [r2 [E2 [Hl2 Hn2]]].
      { intros j Hj. rewrite Hl1, Hl. apply Hall. now right. }
      exists r2. split; [exact E2|].
      assert (Hrow' : forall e, occurs e row' = occurs e row).
      { intro e. unfold row'. destruct sorted; [apply occurs_perm, std_sort_perm|reflexivity]. }
      assert (Horig : forall x, In x (k :: g) -> forall e, occurs e (nth x ret []) = occurrences conn e x).
      { intros x Hx e. destruct (nth_error ret x) as [rx|] eqn:Ex.
        - rewrite (nth_error_nth _ _ [] Ex), (HC x rx Ex).
          assert (leader dofs x = k) as ->.
          { rewrite (leader_tied k x); [exact Hlk|]. rewrite Eg, Hlk. exact Hx. }
          rewrite Nat.ltb_irrefl, andb_false_r. reflexivity.
        - apply nth_error_None in Ex. specialize (Hall x Hx). lia. }
      assert (Hcount : forall e, occurs e row' = sum_occ conn e (k :: g)).
      { intro e. rewrite Hrow', Hrow. unfold sum_occ. simpl fold_right. f_equal.
        - apply get_Ok in Hrk. rewrite <- (Horig k (or_introl eq_refl)).
          now rewrite (nth_error_nth _ _ [] Hrk).
        - assert (Hsub : forall x, In x g -> In x (k :: g)) by (intros; now right). revert Hsub.
          generalize g at 1 3 4. intro g'. induction g' as [|y g' IH]; intro Hsub; simpl; [reflexivity|].
          rewrite Horig by (apply Hsub; now left). f_equal. apply IH. intros; apply Hsub; now right. }
      assert (Hnth : forall m, nth_error r2 m = if mem m (k :: g) then Some row' else nth_error ret m).
      { intro m. rewrite Hn2, Hn1. unfold mem. simpl. destruct (m =? k), (existsb (Nat.eqb m) g); reflexivity. }
      split; [split; [congruence|]|].
      * intros m rm Hm. rewrite Hnth in Hm. destruct (mem m (k :: g)).
        -- inversion Hm; subst. unfold row'. destruct sorted; [left; apply std_sort_sorted|now right].
        -- now apply (Hs m).
      * intros m rm Hm e. rewrite Hnth in Hm. destruct (mem m (k :: g)) eqn:Em.
        -- inversion Hm; subst rm. apply mem_In in Em.
           assert (Hmk : In m (tie_row dofs k)) by (rewrite Eg, Hlk; exact Em).
           pose proof (tie_lt _ _ Hmk). destruct (Nat.ltb_spec m (length dofs)); [|lia].
           rewrite (leader_tied k m Hmk), Hlk. destruct (Nat.ltb_spec k (S k)); [|lia]. simpl andb. cbv iota.
           rewrite Hcount. f_equal. eapply tie_row_In in Hmk; [|exact Hd].
           rewrite <- (tied_eq dofs ndim k m Hd Hmk), Eg, Hlk. reflexivity.
        -- rewrite (HC m rm Hm). apply mem_false in Em.
           destruct (Nat.ltb_spec m (length dofs)); simpl; [|reflexivity].
           destruct (Nat.ltb_spec (leader dofs m) k), (Nat.ltb_spec (leader dofs m) (S k)); try lia; try reflexivity.
           exfalso. apply Em. assert (Hlm : leader dofs m = k) by lia.
           destruct (tie_head m) as [gm [Egm _]]; [assumption|].
           assert (Hkm : In k (tie_row dofs m)) by (rewrite Egm; left; exact Hlm).
           eapply tie_row_In in Hkm; [|exact Hd]. pose proof (tied_eq dofs ndim m k Hd Hkm) as Eq.
           rewrite <- Hlk. rewrite <- Eg, <- Eq. apply tie_self. assumption.
Qed.

Lemma merge_fold n : forall k ret, ties_in_conn -> k + n <= length dofs -> InvC k ret ->
  exists ret', foldM (merge_step (map (tie_row dofs) (seq 0 (length dofs))) sorted) (seq k n) ret = Ok ret' /\
    InvC (k + n) ret'.
Proof.
  induction n as [|n IH]; intros k ret Hin Hk HI; simpl.
  - exists ret. rewrite Nat.add_0_r. auto.
  - destruct (merge_step_Inv k ret Hin ltac:(lia) HI) as [r1 [E HI1]]. rewrite E. simpl.
    destruct (IH (S k) r1 Hin ltac:(lia) HI1) as [r2 [E2 HI2]]. exists r2. split; [exact E2|].
    now replace (k + S n) with (S k + n) by lia.
Qed.

Lemma InvC_0 : InvC 0 (elem2node_rows conn).
Proof.
  split; [split|].
  - apply elem2node_rows_length.
  - intros m row Hm. left. assert (Hlt : m < amax (concat conn) + 1).
    { rewrite <- elem2node_rows_length. apply nth_error_Some. congruence. }
    rewrite elem2node_rows_nth in Hm by exact Hlt. inversion Hm. apply row_of_sorted.
  - intros m row Hm e. assert (Hlt : m < amax (concat conn) + 1).
    { rewrite <- elem2node_rows_length. apply nth_error_Some. congruence. }
    rewrite elem2node_rows_nth in Hm by exact Hlt. inversion Hm.
    rewrite andb_false_r. apply row_of_counts.
Qed.
End Merge.

Theorem elem2node_dofs_ok : forall conn dofs ndim sorted N, numbers_up_to conn N ->
  0 < ndim -> nodal_dofs dofs ndim ->
  (forall m n, tied dofs m n -> m <> n -> m < N) ->
  exists E T, elem2node_dofs conn dofs sorted = Ok E /\ nodaltyings dofs = Ok T /\ length E = N /\
    forall m row, nth_error E m = Some row ->
      (sorted = true -> StronglySorted le row) /\
      (forall group, nth_error T m = Some group -> forall e,
          occurs e row = list_sum (map (occurrences conn e) group)) /\
      (nth_error T m = None -> forall e, occurs e row = occurrences conn e m).
Proof.
  intros conn dofs [|ndim] sorted N HN Hp Hd Hin; [lia|].
  pose proof (numbers_up_to_amax _ _ HN) as EN.
  destruct (merge_fold dofs (S ndim) Hd Hp conn sorted (length dofs) 0 (elem2node_rows conn))
    as [E [HE [[HlE HsE] HcE]]].
  - intros m n Ht Hne. rewrite EN. eauto.
  - lia.
  - apply InvC_0.
  - exists E, (map (tie_row dofs) (seq 0 (length dofs))).
    assert (HT : nodaltyings dofs = Ok (map (tie_row dofs) (seq 0 (length dofs))))
      by (apply (nodaltyings_eq _ ndim); apply Hd).
    split; [unfold elem2node_dofs; rewrite elem2node_eq, HT; exact HE|].
    split; [exact HT|]. split; [congruence|].
    intros m row Hm. split; [intro Hs; destruct (HsE m row Hm); congruence|].
    rewrite nth_error_map, nth_error_seq. split.
    + intros group Hg e. destruct (Nat.ltb_spec m (length dofs)) as [Hlt|]; simpl in Hg; [|discriminate].
      inversion Hg; subst group. rewrite (HcE m row Hm e).
      destruct (tie_head dofs (S ndim) Hd Hp m Hlt) as [g [Eg [Hle _]]].
      destruct (Nat.ltb_spec m (length dofs)); [|lia].
      simpl. destruct (Nat.ltb_spec (leader dofs m) (length dofs)); [|lia].
      unfold sum_occ, list_sum. generalize (tie_row dofs m). clear.
      intro l. induction l as [|x l IH]; simpl; congruence.
    + intros Hg e. destruct (Nat.ltb_spec m (length dofs)) as [Hlt|Hge]; simpl in Hg; [discriminate|].
      rewrite (HcE m row Hm e). destruct (Nat.ltb_spec m (length dofs)); [lia|]. reflexivity.
Qed.

Lemma merge_step_oob dofs ndim conn sorted ret m n : nodal_dofs dofs ndim -> 0 < ndim ->
  length ret = amax (concat conn) + 1 -> tied dofs m n -> m <> n -> amax (concat conn) + 1 <= m ->
  merge_step (map (tie_row dofs) (seq 0 (length dofs))) sorted ret (leader dofs m) = Oob.
Proof.
  intros Hd Hp Hl Ht Hne Hge.
  assert (Hm : m < length dofs).
  { apply (tie_lt dofs ndim Hd m m). eapply tie_row_In; [exact Hd|]. destruct Ht as [d [? ?]]; exists d; auto. }
  destruct (tie_head dofs ndim Hd Hp m Hm) as [g [Eg [Hle Hgt]]].
  unfold merge_step, get at 1. rewrite nth_error_map, nth_error_seq.
  destruct (Nat.ltb_spec (leader dofs m) (length dofs)); [|lia]. simpl.
  assert (Hkm : In (leader dofs m) (tie_row dofs m)) by (rewrite Eg; now left).
  pose proof Hkm as Hkt. eapply tie_row_In in Hkt; [|exact Hd].
  rewrite <- (tied_eq dofs ndim _ _ Hd Hkt), Eg.
  assert (Hmg : In m (leader dofs m :: g)) by (rewrite <- Eg; apply (tie_self dofs ndim Hd Hp m Hm)).
  assert (Hng : In n (leader dofs m :: g)) by (rewrite <- Eg; eapply tie_row_In; eauto).
  destruct g as [|y g].
  { exfalso. destruct Hmg as [Hmg|[]], Hng as [Hng|[]]. congruence. }
  destruct (Nat.leb_spec (length (leader dofs m :: y :: g)) 1) as [Hx|_]; [simpl in Hx; lia|].
  change (get (leader dofs m :: y :: g) 0) with (Ok (leader dofs m)). cbn [bind].
  rewrite Nat.ltb_irrefl. cbn [tl].
  destruct (lt_dec (leader dofs m) (length ret)) as [Hlt|Hnl].
  - destruct (get_lt ret _ Hlt) as [rk Hrk]. rewrite Hrk. cbn [bind].
    rewrite (concat_fold_oob (y :: g) ret rk m); [reflexivity| |lia].
    destruct Hmg as [Hmg|Hmg]; [lia|exact Hmg].
  - unfold get at 1. rewrite (proj2 (nth_error_None _ _)) by lia. reflexivity.
Qed.

Lemma merge_step_Ok_or_oob' dofs ndim sorted ret k : nodal_dofs dofs ndim -> 0 < ndim ->
  k < length dofs ->
  match merge_step (map (tie_row dofs) (seq 0 (length dofs))) sorted ret k with
  | Ok ret' => length ret' = length ret | Oob => True | _ => False end.
Proof.
  intros Hd Hp Hk. unfold merge_step, get at 1. rewrite nth_error_map, nth_error_seq.
  destruct (Nat.ltb_spec k (length dofs)); [|lia]. cbn [option_map bind].
  destruct (tie_head dofs ndim Hd Hp k Hk) as [g [Eg [Hle Hgt]]]. simpl Nat.add. rewrite Eg.
  destruct (length (leader dofs k :: g) <=? 1); [reflexivity|].
  change (get (leader dofs k :: g) 0) with (Ok (leader dofs k)). cbn [bind tl].
  destruct (leader dofs k <? k); [reflexivity|].
  destruct (lt_dec k (length ret)) as [Hlt|Hnl].
  - destruct (get_lt ret _ Hlt) as [rk Hrk]. rewrite Hrk. cbn [bind].
    assert (Hg : (forall j, In j g -> j < length ret) \/ exists j, In j g /\ length ret <= j).
    { clear. induction g as [|x g IH]; [left; intros j []|].
      destruct (lt_dec x (length ret)); [|right; exists x; split; [now left|lia]].
      destruct IH as [IH|[j [Hj Hl]]]; [left; intros j [->|Hj]; auto|right; exists j; split; [now right|exact Hl]]. }
    destruct Hg as [Hg|[j [Hj Hlj]]].
    + destruct (concat_fold g ret rk Hg) as [row [E _]]. rewrite E. cbn [bind].
      destruct (set_Ok ret k (if sorted then std_sort row else row) Hlt) as [r1 [E1 [Hl1 _]]].
      rewrite E1. cbn [bind].
      destruct (set_fold g r1 (if sorted then std_sort row else row)) as [r2 [E2 [Hl2 _]]].
      { intros j Hj. rewrite Hl1. auto. }
      rewrite E2. congruence.
    + rewrite (concat_fold_oob g ret rk j Hj Hlj). exact I.
  - unfold get at 1. rewrite (proj2 (nth_error_None _ _)) by lia. exact I.
Qed.

Lemma merge_step_Ok_or_oob dofs ndim sorted ret k : nodal_dofs dofs ndim -> 0 < ndim ->
  k < length dofs ->
  (exists ret', merge_step (map (tie_row dofs) (seq 0 (length dofs))) sorted ret k = Ok ret' /\ length ret' = length ret)
  \/ merge_step (map (tie_row dofs) (seq 0 (length dofs))) sorted ret k = Oob.
Proof.
  intros Hd Hp Hk. pose proof (merge_step_Ok_or_oob' dofs ndim sorted ret k Hd Hp Hk) as H.
  destruct (merge_step _ sorted ret k); [left; eauto|now right|destruct H|destruct H].
Qed.

Theorem elem2node_dofs_oob : forall conn dofs ndim sorted N m n, numbers_up_to conn N ->
  0 < ndim -> nodal_dofs dofs ndim -> tied dofs m n -> m <> n -> N <= m ->
  elem2node_dofs conn dofs sorted = Oob.
Proof.
  intros conn dofs [|ndim] sorted N m n HN Hp Hd Ht Hne Hge; [lia|].
  pose proof (numbers_up_to_amax _ _ HN) as EN.
  assert (HT : nodaltyings dofs = Ok (map (tie_row dofs) (seq 0 (length dofs))))
      by (apply (nodaltyings_eq _ ndim); apply Hd).
  unfold elem2node_dofs. rewrite elem2node_eq, HT. simpl.
  assert (Hm : m < length dofs).
  { apply (tie_lt dofs (S ndim) Hd m m). eapply tie_row_In; [exact Hd|]. destruct Ht as [d [? ?]]; exists d; auto. }
  destruct (tie_head dofs (S ndim) Hd Hp m Hm) as [g [Eg [Hle Hgt]]].
  assert (G : forall c k ret, k + c = length dofs -> k <= leader dofs m ->
     length ret = amax (concat conn) + 1 ->
     foldM (merge_step (map (tie_row dofs) (seq 0 (length dofs))) sorted) (seq k c) ret = Oob).
  { induction c as [|c IH]; intros k ret Hk Hlead Hl; [lia|]. simpl.
    destruct (Nat.eq_dec k (leader dofs m)) as [->|Hnk].
    - rewrite (merge_step_oob dofs (S ndim) conn sorted ret m n); auto. lia.
    - destruct (merge_step_Ok_or_oob dofs (S ndim) sorted ret k Hd Hp ltac:(lia)) as [[r1 [E1 Hl1]]|E1].
      + rewrite E1. simpl. apply IH; lia.
      + rewrite E1. reflexivity. }
  apply G; [lia|lia|]. apply elem2node_rows_length.
Qed.

(** ** elemmap2nodemap *)
Lemma write_last {A} : forall (ws : list (nat * A)) (arr arr' : list A),
  write_all arr ws = Ok arr' ->
  forall pre k v post, ws = pre ++ (k, v) :: post -> ~ In k (map fst post) ->
  nth_error arr' k = Some v.
Proof.
  intros ws arr arr' H pre k v post -> Hk. unfold write_all in H. rewrite foldM_app in H.
  destruct (foldM _ pre arr) as [a1| | |]; simpl in H; try discriminate.
  destruct (set a1 k v) as [a2| | |] eqn:E; simpl in H; try discriminate.
  apply set_inv in E. destruct E as [_ [Hl Hn]].
  assert (G : forall post a, (foldM (fun a kv => set a (fst kv) (snd kv)) post a = Ok arr') ->
     ~ In k (map fst post) -> nth_error arr' k = nth_error a k).
  { clear. induction post as [|[k' v'] post IH]; intros a H Hk; simpl in H.
    - now inversion H.
    - destruct (set a k' v') as [a'| | |] eqn:E; simpl in H; try discriminate.
      rewrite (IH a' H) by (intro; apply Hk; now right).
      apply set_inv in E. destruct E as [_ [_ E]]. rewrite E.
      destruct (Nat.eqb_spec k k'); [|reflexivity]. exfalso. apply Hk. left. simpl. congruence. }
  rewrite (G _ _ H Hk), Hn, Nat.eqb_refl. reflexivity.
Qed.

Lemma last_with_dec conn m i : (exists e, last_with conn m i e) \/ (forall e, at2 conn e i <> Some m).
Proof.
  assert (G : forall k, k <= length conn ->
     (exists e, e < k /\ at2 conn e i = Some m /\ forall e', e < e' -> e' < k -> at2 conn e' i <> Some m)
     \/ (forall e, e < k -> at2 conn e i <> Some m)).
  { induction k as [|k IH]; intro Hk; [right; intros; lia|].
    destruct (option_map (Nat.eqb m) (at2 conn k i)) as [[|]|] eqn:E.
    - left. exists k. destruct (at2 conn k i) eqn:E2; simpl in E; [|discriminate].
      inversion E as [E3]. apply Nat.eqb_eq in E3. subst. split; [lia|]. split; [reflexivity|]. intros; lia.
    - assert (Hk' : at2 conn k i <> Some m).
      { intro Hx. rewrite Hx in E. simpl in E. rewrite Nat.eqb_refl in E. discriminate. }
      destruct IH as [[e [He [H1 H2]]]|IH]; [lia| |].
      + left. exists e. split; [lia|]. split; [exact H1|]. intros e' H3 H4.
        destruct (Nat.eq_dec e' k); [now subst|]. apply H2; lia.
      + right. intros e He. destruct (Nat.eq_dec e k); [now subst|]. apply IH; lia.
    - assert (Hk' : at2 conn k i <> Some m).
      { intro Hx. rewrite Hx in E. discriminate. }
      destruct IH as [[e [He [H1 H2]]]|IH]; [lia| |].
      + left. exists e. split; [lia|]. split; [exact H1|]. intros e' H3 H4.
        destruct (Nat.eq_dec e' k); [now subst|]. apply H2; lia.
      + right. intros e He. destruct (Nat.eq_dec e k); [now subst|]. apply IH; lia. }
  destruct (G (length conn) (le_n _)) as [[e [He [H1 H2]]]|H].
  - left. exists e. split; [exact H1|]. intros e' H3 H4. apply (H2 e' H3); [|exact H4].
    unfold at2 in H4. destruct (nth_error conn e') eqn:E; [|discriminate]. apply nth_error_Some. congruence.
  - right. intros e He. apply (H e); [|exact He].
    unfold at2 in He. destruct (nth_error conn e) eqn:E; [|discriminate]. apply nth_error_Some. congruence.
Qed.

Lemma column_map_spec elem_map N conn i : elem_map_ok elem_map N conn -> i < 4 ->
  exists t, column_map N elem_map conn i = Ok t /\ length t = N /\
    forall m, m < N ->
      (forall e, last_with conn m i e -> exists e', nth_error elem_map e = Some e' /\
          nth_error t m = at2 conn e' i) /\
      ((forall e, at2 conn e i <> Some m) -> nth_error t m = Some N).
Proof.
  intros [Hs [Hlm [Hem Hn]]] Hi. unfold column_map.
  set (g := fun eo : nat * list nat =>
     (nth i (snd eo) 0, nth i (nth (nth (fst eo) elem_map 0) conn []) 0)).
  rewrite (mapM_Ok _ (enum conn) g).
  2:{ intros [e r] Her. apply enum_In in Her. simpl.
      assert (He : e < length elem_map) by (rewrite Hlm; apply nth_error_Some; congruence).
      destruct (get_lt elem_map e He) as [e' He']. rewrite He'. simpl. apply get_Ok in He'.
      assert (He2 : e' < length conn) by (apply Hem; eapply nth_error_In; eauto).
      destruct (get_lt conn e' He2) as [r' Hr']. rewrite Hr'. simpl. apply get_Ok in Hr'.
      assert (L1 : length r = 4) by (apply Hs; eapply nth_error_In; eauto).
      assert (L2 : length r' = 4) by (apply Hs; eapply nth_error_In; eauto).
      destruct (get_lt r i) as [a Ha]; [lia|]. rewrite Ha. simpl. apply get_Ok in Ha.
      destruct (get_lt r' i) as [b Hb]; [lia|]. rewrite Hb. simpl. apply get_Ok in Hb.
      unfold g. simpl. rewrite (nth_error_nth _ _ 0 He'), (nth_error_nth _ _ [] Hr').
      now rewrite (nth_error_nth _ _ 0 Ha), (nth_error_nth _ _ 0 Hb). }
  simpl.
  assert (Hfst : forall k, In k (map fst (map g (enum conn))) -> exists e, at2 conn e i = Some k).
  { intros k Hk. rewrite map_map in Hk. apply in_map_iff in Hk. destruct Hk as [[e r] [E Her]].
    apply enum_In in Her. simpl in E. exists e. unfold at2. rewrite Her.
    assert (L1 : length r = 4) by (apply Hs; eapply nth_error_In; eauto).
    rewrite <- E. apply nth_error_nth'. lia. }
  destruct (write_all_Ok (map g (enum conn)) (repeat N N)) as [t [Et [Hlt [Hout _]]]].
  { intros k v Hkv. rewrite repeat_length. destruct (Hfst k) as [e He].
    - apply in_map_iff. exists (k, v). auto.
    - apply Hn. eapply at2_In; eauto. }
  exists t. split; [exact Et|]. rewrite repeat_length in Hlt. split; [exact Hlt|].
  intros m Hm. split.
  - intros e [He Hlast].
    assert (Hle : e < length conn).
    { unfold at2 in He. destruct (nth_error conn e) eqn:E; [|discriminate]. apply nth_error_Some. congruence. }
    assert (He' : e < length elem_map) by lia.
    destruct (nth_error elem_map e) as [e'|] eqn:Ee; [|apply nth_error_None in Ee; lia].
    exists e'. split; [reflexivity|].
    unfold at2 in He. destruct (nth_error conn e) as [r|] eqn:Er; [|discriminate].
    pose proof Er as Er'. assert (Hin : nth_error (enum conn) e = Some (e, r)) by (rewrite enum_nth, Er; reflexivity).
    destruct (nth_error_split _ _ Hin) as [pre [post [Esp Hpre]]].
    assert (E1 : nth_error t m = Some (snd (g (e, r)))).
    { apply (write_last _ _ _ Et (map g pre) m (snd (g (e, r))) (map g post)).
      - rewrite Esp, map_app. simpl. f_equal. f_equal. unfold g. simpl.
        now rewrite (nth_error_nth _ _ 0 He).
      - intro Hc. rewrite map_map in Hc. apply in_map_iff in Hc. destruct Hc as [[e2 r2] [E2 H2]].
        apply In_nth_error in H2. destruct H2 as [k Hk].
        assert (Hk2 : nth_error (enum conn) (e + S k) = Some (e2, r2)).
        { rewrite Esp, nth_error_app2 by lia. replace (e + S k - length pre) with (S k) by lia. exact Hk. }
        rewrite enum_nth in Hk2. destruct (nth_error conn (e + S k)) as [r3|] eqn:E3; simpl in Hk2; [|discriminate].
        inversion Hk2; subst e2 r3. apply (Hlast (e + S k)); [lia|]. unfold at2. rewrite E3.
        unfold g in E2. simpl in E2. rewrite <- E2. apply nth_error_nth'.
        assert (length r2 = 4) by (apply Hs; eapply nth_error_In; eauto). lia. }
    rewrite E1. unfold g. simpl. rewrite (nth_error_nth _ _ 0 Ee). unfold at2.
    assert (He2 : e' < length conn) by (apply Hem; eapply nth_error_In; eauto).
    destruct (nth_error conn e') as [r'|] eqn:Er2; [|apply nth_error_None in Er2; lia].
    rewrite (nth_error_nth _ _ [] Er2). symmetry. apply nth_error_nth'.
    assert (length r' = 4) by (apply Hs; eapply nth_error_In; eauto). lia.
  - intro Hno. rewrite Hout.
    + now apply nth_error_repeat_lt.
    + intro Hc. destruct (Hfst m Hc) as [e He]. now apply (Hno e).
Qed.

Lemma where_eq_nth N ret t m a b : nth_error ret m = Some a -> nth_error t m = Some b ->
  nth_error (where_eq N ret t) m = Some (if a =? N then b else a).
Proof.
  intros Ha Hb. unfold where_eq. rewrite nth_error_map.
  assert (G : forall (ret t : list nat) m a b, nth_error ret m = Some a -> nth_error t m = Some b ->
     nth_error (combine ret t) m = Some (a, b)).
  { clear. induction ret as [|x ret IH]; intros [|y t] [|m] a b H1 H2; simpl in *; try discriminate.
    - congruence. - now apply IH. }
  rewrite (G _ _ _ _ _ Ha Hb). reflexivity.
Qed.

Lemma length_where_eq N ret t : length ret = length t -> length (where_eq N ret t) = length ret.
Proof. intro H. unfold where_eq. rewrite map_length, combine_length. lia. Qed.

(** value of the node map: corner [i] is the first at which [m] occurs, [e] the last element there *)
Definition nodemap_value (elem_map : list nat) (conn : list (list nat)) (m v : nat) (is : list nat) : Prop :=
  exists i e e', In i is /\ last_with conn m i e /\
    (forall i' e2, In i' is -> i' < i -> at2 conn e2 i' <> Some m) /\
    nth_error elem_map e = Some e' /\ at2 conn e' i = Some v.

Lemma elemmap_fold elem_map N conn : elem_map_ok elem_map N conn ->
  forall n s ret, s + n <= 4 -> length ret = N ->
  (forall m, m < N -> exists v, nth_error ret m = Some v /\
     ((v = N /\ forall i e, i < s -> at2 conn e i <> Some m) \/ nodemap_value elem_map conn m v (seq 0 s))) ->
  exists r, foldM (fun ret i => do t <- column_map N elem_map conn i; Ok (where_eq N ret t)) (seq s n) ret = Ok r /\
   length r = N /\
   (forall m, m < N -> exists v, nth_error r m = Some v /\
     ((v = N /\ forall i e, i < s + n -> at2 conn e i <> Some m) \/ nodemap_value elem_map conn m v (seq 0 (s + n)))).
Proof.
  intros Hok. assert (Hlt : forall e i v, at2 conn e i = Some v -> v < N).
  { intros e i v Hv. apply Hok. eapply at2_In; eauto. }
  induction n as [|n IH]; intros s ret Hs Hl HI; simpl.
  - exists ret. rewrite Nat.add_0_r. auto.
  - destruct (column_map_spec elem_map N conn s Hok ltac:(lia)) as [t [Et [Hlt' Ht]]].
    rewrite Et. simpl. rewrite <- Nat.add_succ_comm.
    apply (IH (S s)); [lia|rewrite length_where_eq; lia|].
    intros m Hm. destruct (HI m Hm) as [v [Hv Hcase]]. destruct (Ht m Hm) as [Ht1 Ht2].
    destruct Hcase as [[Ev Hno]|Hval].
    + destruct (last_with_dec conn m s) as [[e He]|Hnone].
      * destruct (Ht1 e He) as [e' [Ee' Et']].
        assert (He2 : e' < length conn) by (apply (proj1 (proj2 (proj2 Hok))); eapply nth_error_In; eauto).
        destruct (shape2_at conn _ _ e' s (proj1 Hok) He2) as [w Hw]; [lia|].
        exists w. split.
        -- rewrite (where_eq_nth N ret t m v w); [|exact Hv|congruence].
           subst v. now rewrite Nat.eqb_refl.
        -- right. exists s, e, e'. split; [apply in_seq; lia|]. split; [exact He|].
           split; [|split; [exact Ee'|exact Hw]]. intros i' e2 _ Hi'. now apply Hno.
      * exists N. split.
        -- rewrite (where_eq_nth N ret t m v N); [|exact Hv|now apply Ht2].
           subst v. now rewrite Nat.eqb_refl.
        -- left. split; [reflexivity|]. intros i e Hi. destruct (Nat.eq_dec i s); [subst; apply Hnone|].
           apply Hno. lia.
    + assert (Hvl : v <> N).
      { destruct Hval as [i [e [e' [_ [_ [_ [_ Hx]]]]]]]. apply Hlt in Hx. lia. }
      exists v. split.
      -- assert (Hex : exists w, nth_error t m = Some w).
         { destruct (nth_error t m) as [w|] eqn:E; [eauto|]. apply nth_error_None in E. lia. }
         destruct Hex as [w Hw]. rewrite (where_eq_nth N ret t m v w Hv Hw).
         destruct (Nat.eqb_spec v N); [contradiction|reflexivity].
      -- right. destruct Hval as [i [e [e' [Hi [H1 [H2 [H3 H4]]]]]]].
         exists i, e, e'. split; [apply in_seq in Hi; apply in_seq; lia|]. split; [exact H1|].
         split; [|auto]. intros i' e2 _ Hi'. apply H2; [|exact Hi'].
         apply in_seq. apply in_seq in Hi. lia.
Qed.

Theorem elemmap2nodemap_spec : forall elem_map N conn, elem_map_ok elem_map N conn ->
  exists r, elemmap2nodemap elem_map N conn = Ok r /\ length r = N /\
   forall m, m < N -> exists v, nth_error r m = Some v /\
     ((v = N /\ ~ In m (concat conn)) \/
      exists i e e', last_with conn m i e /\
        (forall i' e2, i' < i -> at2 conn e2 i' <> Some m) /\
        nth_error elem_map e = Some e' /\ at2 conn e' i = Some v).
Proof.
  intros elem_map N conn Hok.
  destruct (elemmap_fold elem_map N conn Hok 4 0 (repeat N N)) as [r [Er [Hl Hr]]].
  - lia.
  - apply repeat_length.
  - intros m Hm. exists N. split; [now apply nth_error_repeat_lt|]. left. split; [reflexivity|]. intros; lia.
  - exists r. split; [exact Er|]. split; [exact Hl|]. intros m Hm. destruct (Hr m Hm) as [v [Hv Hc]].
    exists v. split; [exact Hv|]. destruct Hc as [[E Hno]|Hval].
    + left. split; [exact E|]. intro Hin. apply In_concat in Hin. destruct Hin as [row [H1 H2]].
      apply In_nth_error in H1. destruct H1 as [e He]. apply In_nth_error in H2. destruct H2 as [i Hi].
      apply (Hno i e); [|unfold at2; now rewrite He].
      assert (length row = 4) by (apply (proj1 Hok); eapply nth_error_In; eauto).
      assert (i < length row) by (apply nth_error_Some; congruence). simpl. lia.
    + right. destruct Hval as [i [e [e' [Hi [H1 [H2 [H3 H4]]]]]]]. exists i, e, e'.
      split; [exact H1|]. split; [|auto]. intros i' e2 Hi'. apply H2; [|exact Hi'].
      apply in_seq. apply in_seq in Hi. lia.
Qed.

Theorem elemmap2nodemap_consistent : forall elem_map N conn (f : nat -> nat), elem_map_ok elem_map N conn ->
  (forall e e' i n n', nth_error elem_map e = Some e' -> at2 conn e i = Some n -> at2 conn e' i = Some n' -> n' = f n) ->
  exists r, elemmap2nodemap elem_map N conn = Ok r /\ length r = N /\
    (forall m, In m (concat conn) -> nth_error r m = Some (f m)) /\
    (forall m, m < N -> ~ In m (concat conn) -> nth_error r m = Some N).
Proof.
  intros elem_map N conn f Hok Hf. destruct (elemmap2nodemap_spec elem_map N conn Hok) as [r [Er [Hl Hr]]].
  exists r. split; [exact Er|]. split; [exact Hl|]. split.
  - intros m Hin. destruct (Hr m) as [v [Hv [[E Hno]|Hex]]]; [now apply Hok|contradiction|].
    destruct Hex as [i [e [e' [[H1 _] [_ [H3 H4]]]]]]. rewrite Hv. f_equal. eapply Hf; eauto.
  - intros m Hm Hno. destruct (Hr m Hm) as [v [Hv [[E _]|Hex]]]; [now subst|].
    destruct Hex as [i [e [e' [[H1 _] _]]]]. exfalso. apply Hno. eapply at2_In; eauto.
Qed.
