(** Base vocabulary of the model: outcomes, checked arrays, and the handful of
    xtensor routines GooseFEM uses (modelled once, used everywhere). *)
From Coq Require Export List Arith Bool Lia Permutation Sorted.
Export ListNotations.

(** ** Outcomes.
    C++ undefined behaviour is a distinct outcome, never a default value. *)
Inductive res (A : Type) : Type :=
| Ok (a : A)      (* normal return *)
| Oob             (* access out of the bounds of an array *)
| Uninit          (* read of an entry of xt::empty() that was never written *)
| Throw.          (* exception: GOOSEFEM_CHECK / GOOSEFEM_REQUIRE / std::runtime_error *)
Arguments Ok {A} a.
Arguments Oob {A}.
Arguments Uninit {A}.
Arguments Throw {A}.

Definition bind {A B} (x : res A) (f : A -> res B) : res B :=
  match x with Ok a => f a | Oob => Oob | Uninit => Uninit | Throw => Throw end.

Notation "'do' x <- e ; f" := (bind e (fun x => f))
  (at level 200, x name, e at level 100, f at level 200, right associativity).

(** elementwise evaluation; the first failing entry decides the outcome *)
Fixpoint mapM {A B} (f : A -> res B) (l : list A) : res (list B) :=
  match l with
  | [] => Ok []
  | a :: l' => bind (f a) (fun b => bind (mapM f l') (fun bs => Ok (b :: bs)))
  end.

Fixpoint foldM {A S} (f : S -> A -> res S) (l : list A) (s : S) : res S :=
  match l with
  | [] => Ok s
  | a :: l' => bind (f s a) (fun s' => foldM f l' s')
  end.

(** ** Arrays *)
(** read [l(i)] *)
Definition get {A} (l : list A) (i : nat) : res A :=
  match nth_error l i with Some a => Ok a | None => Oob end.

(** write [l(i) = x] *)
Fixpoint set {A} (l : list A) (i : nat) (x : A) : res (list A) :=
  match l, i with
  | [], _ => Oob
  | _ :: l', 0 => Ok (x :: l')
  | a :: l', S i' => bind (set l' i' x) (fun r => Ok (a :: r))
  end.

(** [xt::empty({n})] : every entry uninitialised *)
Definition empty {A} (n : nat) : list (option A) := repeat None n.

(** read an entry of a possibly uninitialised array *)
Definition get_init {A} (l : list (option A)) (i : nat) : res A :=
  match nth_error l i with
  | Some (Some a) => Ok a
  | Some None => Uninit
  | None => Oob
  end.

(** [xt::amax]; 0 for an empty array of unsigned (xtensor's initial value) *)
Definition amax (l : list nat) : nat := fold_right Nat.max 0 l.

(** insertion in a strictly increasing list *)
Fixpoint insert_uniq (x : nat) (l : list nat) : list nat :=
  match l with
  | [] => [x]
  | y :: l' => if x <? y then x :: l
               else if x =? y then l
               else y :: insert_uniq x l'
  end.

(** [xt::unique]: sorted, duplicates removed *)
Definition unique (l : list nat) : list nat := fold_right insert_uniq [] l.

Definition mem (x : nat) (l : list nat) : bool := existsb (Nat.eqb x) l.

(** [xt::setdiff1d(a,b)]: sorted unique values of [a] that are not in [b] *)
Definition setdiff1d (a b : list nat) : list nat :=
  filter (fun x => negb (mem x b)) (unique a).

(** ** Lemmas *)

Lemma mem_In x l : mem x l = true <-> In x l.
Proof.
  unfold mem. rewrite existsb_exists. split.
  - intros [y [Hy E]]. apply Nat.eqb_eq in E. subst. exact Hy.
  - intros H. exists x. split; [exact H | apply Nat.eqb_refl].
Qed.

Lemma mem_false x l : mem x l = false <-> ~ In x l.
Proof.
  rewrite <- mem_In. destruct (mem x l); split; intro H; auto; try discriminate.
  now exfalso; apply H.
Qed.

Lemma amax_ge l x : In x l -> x <= amax l.
Proof.
  induction l as [|y l IH]; simpl; [tauto|].
  intros [->|H]; [lia | specialize (IH H); lia].
Qed.

Lemma amax_in l : l <> [] -> In (amax l) l.
Proof.
  induction l as [|y l IH]; [congruence|]. intros _. simpl.
  destruct l as [|z l]; [left; simpl; lia|].
  assert (H : In (amax (z :: l)) (z :: l)) by (apply IH; discriminate).
  destruct (Nat.max_spec y (amax (z :: l))) as [[_ E]|[_ E]].
  - right. unfold amax in *. simpl fold_right in *. rewrite E. exact H.
  - left. unfold amax in *. simpl fold_right in *. lia.
Qed.

Lemma amax_lub l n : (forall x, In x l -> x <= n) -> amax l <= n.
Proof.
  induction l as [|y l IH]; simpl; intros H; [lia|].
  apply Nat.max_lub; [apply H; auto | apply IH; intros; apply H; auto].
Qed.

Lemma insert_uniq_In x y l : In y (insert_uniq x l) <-> y = x \/ In y l.
Proof.
  induction l as [|z l IH]; simpl; [intuition|].
  destruct (Nat.ltb_spec x z); simpl; [intuition|].
  destruct (Nat.eqb_spec x z); simpl; [subst; intuition|].
  rewrite IH. intuition.
Qed.

Lemma insert_uniq_sorted x l :
  StronglySorted lt l -> StronglySorted lt (insert_uniq x l).
Proof.
  induction l as [|z l IH]; intros H; simpl.
  - constructor; constructor.
  - inversion H as [|? ? Hs Hf]; subst.
    destruct (Nat.ltb_spec x z).
    + constructor; [exact H|]. constructor; [lia|].
      eapply Forall_impl; [|exact Hf]. intros; lia.
    + destruct (Nat.eqb_spec x z); [exact H|].
      constructor; [apply IH; exact Hs|].
      rewrite Forall_forall in *. intros w Hw.
      apply insert_uniq_In in Hw. destruct Hw as [->|Hw]; [lia | auto].
Qed.

Lemma unique_In x l : In x (unique l) <-> In x l.
Proof.
  induction l as [|y l IH]; simpl; [tauto|].
  rewrite insert_uniq_In, IH. intuition.
Qed.

Lemma unique_sorted l : StronglySorted lt (unique l).
Proof.
  induction l as [|y l IH]; simpl; [constructor|]. now apply insert_uniq_sorted.
Qed.

Lemma StronglySorted_lt_NoDup l : StronglySorted lt l -> NoDup l.
Proof.
  induction 1 as [|x l Hs IH Hf]; constructor; [|exact IH].
  intro Hin. rewrite Forall_forall in Hf. specialize (Hf _ Hin). lia.
Qed.

Lemma unique_NoDup l : NoDup (unique l).
Proof. apply StronglySorted_lt_NoDup, unique_sorted. Qed.

(** two strictly increasing lists with the same members are equal *)
Lemma sorted_ext l1 : forall l2,
  StronglySorted lt l1 -> StronglySorted lt l2 ->
  (forall x, In x l1 <-> In x l2) -> l1 = l2.
Proof.
  induction l1 as [|a l1 IH]; intros [|b l2] H1 H2 HE.
  - reflexivity.
  - exfalso. apply (HE b). now left.
  - exfalso. apply (HE a). now left.
  - inversion H1 as [|? ? Hs1 Hf1]; subst. inversion H2 as [|? ? Hs2 Hf2]; subst.
    rewrite Forall_forall in Hf1, Hf2.
    assert (a = b) as ->.
    { destruct (proj1 (HE a) (or_introl eq_refl)) as [E|Ha]; [auto|].
      destruct (proj2 (HE b) (or_introl eq_refl)) as [E|Hb]; [auto|].
      specialize (Hf1 _ Hb). specialize (Hf2 _ Ha). lia. }
    f_equal. apply IH; auto. intros x. split; intro Hx.
    + destruct (proj1 (HE x) (or_intror Hx)) as [E|H]; [|exact H].
      subst. specialize (Hf1 _ Hx). lia.
    + destruct (proj2 (HE x) (or_intror Hx)) as [E|H]; [|exact H].
      subst. specialize (Hf2 _ Hx). lia.
Qed.

Lemma unique_id l : StronglySorted lt l -> unique l = l.
Proof.
  intro H. apply sorted_ext; [apply unique_sorted | exact H | intro x; apply unique_In].
Qed.

Lemma StronglySorted_filter {A} (R : A -> A -> Prop) f l :
  StronglySorted R l -> StronglySorted R (filter f l).
Proof.
  induction 1 as [|x l Hs IH Hf]; simpl; [constructor|].
  destruct (f x); [|exact IH]. constructor; [exact IH|].
  rewrite Forall_forall in *. intros y Hy. apply filter_In in Hy. now apply Hf.
Qed.

Lemma setdiff1d_In x a b : In x (setdiff1d a b) <-> In x a /\ ~ In x b.
Proof.
  unfold setdiff1d. rewrite filter_In, unique_In.
  rewrite negb_true_iff, mem_false. tauto.
Qed.

Lemma setdiff1d_sorted a b : StronglySorted lt (setdiff1d a b).
Proof. apply StronglySorted_filter, unique_sorted. Qed.

Lemma setdiff1d_NoDup a b : NoDup (setdiff1d a b).
Proof. apply StronglySorted_lt_NoDup, setdiff1d_sorted. Qed.

(** *** checked arrays *)
Lemma get_Ok {A} (l : list A) i a : get l i = Ok a <-> nth_error l i = Some a.
Proof. unfold get. destruct (nth_error l i); split; congruence. Qed.

Lemma get_lt {A} (l : list A) i : i < length l -> exists a, get l i = Ok a.
Proof.
  intro H. unfold get. destruct (nth_error l i) eqn:E; [eauto|].
  apply nth_error_None in E. lia.
Qed.

Lemma set_Ok {A} (l : list A) : forall i x, i < length l ->
  exists l', set l i x = Ok l' /\ length l' = length l /\
    (forall j, nth_error l' j = if j =? i then Some x else nth_error l j).
Proof.
  induction l as [|a l IH]; intros i x H; simpl in *; [lia|].
  destruct i as [|i].
  - exists (x :: l). split; [reflexivity|]. split; [reflexivity|].
    intros [|j]; reflexivity.
  - destruct (IH i x) as [l' [E [Hl Hn]]]; [lia|].
    exists (a :: l'). rewrite E. simpl. split; [reflexivity|].
    split; [congruence|]. intros [|j]; simpl; [reflexivity|]. apply Hn.
Qed.

Lemma set_Oob {A} (l : list A) : forall i x, length l <= i -> set l i x = Oob.
Proof.
  induction l as [|a l IH]; intros i x H; simpl in *; [reflexivity|].
  destruct i as [|i]; [lia|]. rewrite IH; [reflexivity|lia].
Qed.

Lemma set_inv {A} (l : list A) i x l' : set l i x = Ok l' ->
  i < length l /\ length l' = length l /\
  (forall j, nth_error l' j = if j =? i then Some x else nth_error l j).
Proof.
  intro H. destruct (lt_dec i (length l)) as [Hi|Hi].
  - destruct (set_Ok l i x Hi) as [l2 [E R]]. rewrite E in H. inversion H; subst. tauto.
  - rewrite set_Oob in H; [discriminate|lia].
Qed.

Lemma mapM_Ok {A B} (f : A -> res B) (l : list A) (g : A -> B) :
  (forall a, In a l -> f a = Ok (g a)) -> mapM f l = Ok (map g l).
Proof.
  induction l as [|a l IH]; intros H; simpl; [reflexivity|].
  rewrite H by (left; reflexivity). simpl. rewrite IH; [reflexivity|].
  intros; apply H; now right.
Qed.

Lemma mapM_Ok_inv {A B} (f : A -> res B) : forall (l : list A) r,
  mapM f l = Ok r -> length r = length l /\
  forall i a, nth_error l i = Some a -> exists b, nth_error r i = Some b /\ f a = Ok b.
Proof.
  induction l as [|a l IH]; simpl; intros r H.
  - inversion H; subst. split; [reflexivity|]. intros [|i] b; discriminate.
  - destruct (f a) eqn:E; simpl in H; try discriminate.
    destruct (mapM f l) eqn:E2; simpl in H; try discriminate.
    inversion H; subst. destruct (IH _ eq_refl) as [Hl Hn].
    split; [simpl; congruence|]. intros [|i] b Hb; simpl in *.
    + inversion Hb; subst. eauto.
    + eauto.
Qed.

Lemma nth_error_ext {A} (l1 : list A) : forall l2,
  (forall i, nth_error l1 i = nth_error l2 i) -> l1 = l2.
Proof.
  induction l1 as [|a l1 IH]; intros [|b l2] H.
  - reflexivity.
  - specialize (H 0). discriminate.
  - specialize (H 0). discriminate.
  - f_equal; [specialize (H 0); simpl in H; congruence|].
    apply IH. intro i. apply (H (S i)).
Qed.

Lemma nth_error_map {A B} (f : A -> B) l : forall i,
  nth_error (map f l) i = option_map f (nth_error l i).
Proof. induction l as [|a l IH]; intros [|i]; simpl; auto. Qed.

Lemma nth_error_seq n : forall s i,
  nth_error (seq s n) i = if i <? n then Some (s + i) else None.
Proof.
  induction n as [|n IH]; intros s i; simpl.
  - destruct i; reflexivity.
  - destruct i as [|i]; simpl; [f_equal; lia|]. rewrite IH.
    change (S i <? S n) with (i <? n). destruct (i <? n); [f_equal; lia | reflexivity].
Qed.

Lemma nth_error_repeat_lt {A} (x : A) n i : i < n -> nth_error (repeat x n) i = Some x.
Proof. revert i; induction n as [|n IH]; intros [|i] H; simpl; try lia; auto. apply IH; lia. Qed.

Lemma seq_sorted s n : StronglySorted lt (seq s n).
Proof.
  revert s; induction n as [|n IH]; intros s; simpl; constructor; [apply IH|].
  rewrite Forall_forall. intros x Hx. apply in_seq in Hx. lia.
Qed.

Lemma NoDup_nth_error_inj {A} (l : list A) i j x :
  NoDup l -> nth_error l i = Some x -> nth_error l j = Some x -> i = j.
Proof.
  intros Hn Hi Hj. rewrite NoDup_nth_error in Hn. apply Hn; [|congruence].
  apply nth_error_Some. congruence.
Qed.

Lemma foldM_app {A S} (f : S -> A -> res S) l1 : forall l2 s,
  foldM f (l1 ++ l2) s = bind (foldM f l1 s) (fun s' => foldM f l2 s').
Proof.
  induction l1 as [|a l1 IH]; intros l2 s; simpl; [reflexivity|].
  destruct (f s a); simpl; auto.
Qed.

(** a sequence of writes [arr(k) = v] at distinct places *)
Definition write_all {A} (arr : list A) (ws : list (nat * A)) : res (list A) :=
  foldM (fun a kv => set a (fst kv) (snd kv)) ws arr.

Lemma write_all_Ok {A} : forall (ws : list (nat * A)) (arr : list A),
  (forall k v, In (k, v) ws -> k < length arr) ->
  exists arr', write_all arr ws = Ok arr' /\ length arr' = length arr /\
   (forall j, ~ In j (map fst ws) -> nth_error arr' j = nth_error arr j) /\
   (NoDup (map fst ws) -> forall k v, In (k, v) ws -> nth_error arr' k = Some v) /\
   (forall j, In j (map fst ws) -> exists v, In (j, v) ws /\ nth_error arr' j = Some v).
Proof.
  induction ws as [|[k v] ws IH]; intros arr H.
  - exists arr. simpl. repeat split; auto; try tauto.
  - destruct (set_Ok arr k v) as [a1 [E [Hl Hn]]]; [apply (H k v); now left|].
    destruct (IH a1) as [a2 [E2 [Hl2 [Hout [Hin Hany]]]]].
    { intros k' v' Hk. rewrite Hl. apply (H k' v'). now right. }
    exists a2. unfold write_all in *. simpl. rewrite E. simpl. rewrite E2.
    split; [reflexivity|]. split; [congruence|]. split; [|split].
    + intros j Hj. rewrite Hout by (intro; apply Hj; now right).
      rewrite Hn. destruct (Nat.eqb_spec j k); [|reflexivity].
      subst. exfalso. apply Hj. now left.
    + intros Hnd k' v' [E'|Hk'].
      * inversion E'; subst. inversion Hnd; subst.
        rewrite Hout by assumption. rewrite Hn, Nat.eqb_refl. reflexivity.
      * inversion Hnd; subst. apply Hin; assumption.
    + intros j Hj. destruct (in_dec Nat.eq_dec j (map fst ws)) as [Hi|Hi].
      * destruct (Hany j Hi) as [w [Hw Hw2]]. exists w. split; [now right|exact Hw2].
      * destruct Hj as [Hj|Hj]; [|contradiction]. simpl in Hj. subst j.
        exists v. split; [now left|]. rewrite Hout by exact Hi.
        rewrite Hn, Nat.eqb_refl. reflexivity.
Qed.

Lemma NoDup_app_intro {A} (a b : list A) :
  NoDup a -> NoDup b -> (forall x, In x a -> ~ In x b) -> NoDup (a ++ b).
Proof.
  induction a as [|x a IH]; intros Ha Hb Hd; simpl; [exact Hb|].
  inversion Ha; subst. constructor.
  - rewrite in_app_iff. intros [H|H]; [contradiction|]. apply (Hd x); [now left|exact H].
  - apply IH; auto. intros y Hy. apply Hd. now right.
Qed.

Lemma NoDup_app_inv {A} (a b : list A) :
  NoDup (a ++ b) -> NoDup a /\ NoDup b /\ (forall x, In x a -> ~ In x b).
Proof.
  induction a as [|x a IH]; simpl; intro H.
  - split; [constructor|]. split; [exact H|]. tauto.
  - inversion H as [|? ? Hx Hn]; subst. destruct (IH Hn) as [Ha [Hb Hd]].
    rewrite in_app_iff in Hx. split; [constructor; tauto|]. split; [exact Hb|].
    intros y [->|Hy] Hin; [tauto|]. apply (Hd y Hy Hin).
Qed.

Lemma NoDup_flat_map {A B} (f : A -> list B) (l : list A) :
  NoDup l -> (forall a, In a l -> NoDup (f a)) ->
  (forall a b x, In a l -> In b l -> In x (f a) -> In x (f b) -> a = b) ->
  NoDup (flat_map f l).
Proof.
  induction l as [|a l IH]; intros Hl Hf Hd; simpl; [constructor|].
  inversion Hl; subst. apply NoDup_app_intro.
  - apply Hf. now left.
  - apply IH; auto. + intros; apply Hf; now right.
    + intros b c x Hb Hc; apply Hd; now right.
  - intros x Hx Hin. apply in_flat_map in Hin. destruct Hin as [b [Hb Hxb]].
    assert (a = b) by (apply (Hd a b x); auto; [now left|now right]). subst. contradiction.
Qed.

Lemma NoDup_map_inj {A B} (f : A -> B) (l : list A) :
  NoDup l -> (forall a b, In a l -> In b l -> f a = f b -> a = b) -> NoDup (map f l).
Proof.
  induction l as [|a l IH]; intros Hl Hf; simpl; [constructor|].
  inversion Hl; subst. constructor.
  - intro Hin. apply in_map_iff in Hin. destruct Hin as [b [E Hb]].
    assert (b = a) by (apply Hf; auto; [now right|now left]). subst. contradiction.
  - apply IH; auto. intros; apply Hf; auto; now right.
Qed.

Lemma length_flat_map_const {A B} (f : A -> list B) n (l : list A) :
  (forall a, In a l -> length (f a) = n) -> length (flat_map f l) = length l * n.
Proof.
  induction l as [|a l IH]; intro H; simpl; [reflexivity|].
  rewrite app_length, IH, H; [reflexivity|now left|intros; apply H; now right].
Qed.

(** the nth entry of a flat_map of blocks of constant length *)
Lemma nth_error_flat_map_const {A B} (f : A -> list B) n (l : list A) :
  (forall a, In a l -> length (f a) = n) -> forall i j, j < n ->
  nth_error (flat_map f l) (i * n + j) =
  match nth_error l i with Some a => nth_error (f a) j | None => None end.
Proof.
  induction l as [|a l IH]; intros H i j Hj; simpl.
  - rewrite !(proj2 (nth_error_None _ _)) by (simpl; lia). reflexivity.
  - assert (Hl : length (f a) = n) by (apply H; now left). destruct i as [|i]; simpl.
    + now rewrite nth_error_app1 by lia.
    + rewrite nth_error_app2 by lia. replace (n + i * n + j - length (f a)) with (i * n + j) by lia.
      apply IH; [intros; apply H; now right|exact Hj].
Qed.
