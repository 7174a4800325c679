From Verif Require Import Base Spec Model_Numbering.

Lemma nth_error_concat_map {A} (l : list (list A)) d n :
  shape2 l n d -> forall i j, j < d -> nth_error (concat l) (i * d + j) = at2 l i j.
Proof.
  intros [Hn Hd]. clear Hn. revert Hd. induction l as [|r l IH]; intros Hd i j Hj; simpl.
  - unfold at2. rewrite !(proj2 (nth_error_None _ _)); simpl; auto; lia.
  - assert (Hr : length r = d) by (apply Hd; now left).
    destruct i as [|i].
    + rewrite nth_error_app1 by (simpl; lia). reflexivity.
    + rewrite nth_error_app2 by (simpl; lia).
      replace (S i * d + j - length r) with (i * d + j) by (simpl; lia).
      rewrite IH by (auto; intros; apply Hd; now right). reflexivity.
Qed.

Lemma shape2_concat_length {A} (l : list (list A)) n d : shape2 l n d -> length (concat l) = n * d.
Proof.
  intros [Hn Hd]. subst n. induction l as [|r l IH]; simpl; [reflexivity|].
  rewrite app_length, IH; [rewrite Hd; [lia|now left] |intros; apply Hd; now right].
Qed.

Lemma at2_lt {A} (l : list (list A)) n d i j : shape2 l n d -> i < n -> j < d ->
  exists v, at2 l i j = Some v.
Proof.
  intros [Hn Hd] Hi Hj. unfold at2. destruct (nth_error l i) as [r|] eqn:E.
  - destruct (nth_error r j) eqn:E2; [eauto|]. apply nth_error_None in E2.
    apply nth_error_In in E. rewrite (Hd _ E) in E2. lia.
  - apply nth_error_None in E. lia.
Qed.

Lemma at2_Some_lt {A} (l : list (list A)) n d i j v : shape2 l n d -> at2 l i j = Some v -> i < n /\ j < d.
Proof.
  intros [Hn Hd] H. unfold at2 in H. destruct (nth_error l i) as [r|] eqn:E; [|discriminate].
  split; [subst n; apply nth_error_Some; congruence|].
  rewrite <- (Hd r) by (eapply nth_error_In; eauto). apply nth_error_Some; congruence.
Qed.

Lemma at2_In_concat {A} (l : list (list A)) i j v : at2 l i j = Some v -> In v (concat l).
Proof.
  unfold at2. destruct (nth_error l i) as [r|] eqn:E; [|discriminate]. intro H.
  apply in_concat. exists r. split; eapply nth_error_In; eauto.
Qed.

Lemma In_concat_at2 {A} (l : list (list A)) v : In v (concat l) -> exists i j, at2 l i j = Some v.
Proof.
  intro H. apply in_concat in H. destruct H as [r [Hr Hv]].
  apply In_nth_error in Hr. apply In_nth_error in Hv. destruct Hr as [i Hi], Hv as [j Hj].
  exists i, j. unfold at2. now rewrite Hi.
Qed.

Lemma at2_ext {A} (l1 l2 : list (list A)) n d :
  shape2 l1 n d -> shape2 l2 n d -> (forall i j, i < n -> j < d -> at2 l1 i j = at2 l2 i j) -> l1 = l2.
Proof.
  intros S1 S2 H. pose proof S1 as [N1 D1]. pose proof S2 as [N2 D2].
  apply nth_error_ext. intro i.
  destruct (lt_dec i n) as [Hi|Hi].
  - destruct (nth_error l1 i) as [r1|] eqn:E1; [|apply nth_error_None in E1; lia].
    destruct (nth_error l2 i) as [r2|] eqn:E2; [|apply nth_error_None in E2; lia].
    f_equal. apply nth_error_ext. intro j.
    pose proof (D1 r1 (nth_error_In _ _ E1)). pose proof (D2 r2 (nth_error_In _ _ E2)).
    destruct (lt_dec j d) as [Hj|Hj].
    + specialize (H i j Hi Hj). unfold at2 in H. now rewrite E1, E2 in H.
    + rewrite !(proj2 (nth_error_None _ _)) by lia. reflexivity.
  - rewrite !(proj2 (nth_error_None _ _)) by lia. reflexivity.
Qed.

(** *** number_from *)
Lemma number_from_Ok : forall js i arr,
  (forall j, In j js -> j < length arr) -> 
  exists arr', number_from i js arr = Ok arr' /\ length arr' = length arr /\
    (forall j, ~ In j js -> nth_error arr' j = nth_error arr j) /\
    (NoDup js -> forall k j, nth_error js k = Some j -> nth_error arr' j = Some (Some (i + k))).
Proof.
  induction js as [|j js IH]; intros i arr H.
  - exists arr. simpl. repeat split; auto. intros _ [|k] j; discriminate.
  - destruct (set_Ok arr j (Some i)) as [a1 [E [Hl Hn]]]; [apply H; now left|].
    destruct (IH (S i) a1) as [a2 [E2 [Hl2 [Hout Hin]]]].
    { intros k Hk. rewrite Hl. apply H. now right. }
    exists a2. simpl. rewrite E. simpl. rewrite E2. split; [reflexivity|].
    split; [congruence|]. split.
    + intros k Hk. rewrite Hout by (intro; apply Hk; now right). rewrite Hn.
      destruct (Nat.eqb_spec k j); [subst; exfalso; apply Hk; now left | reflexivity].
    + intros Hnd k x Hk. inversion Hnd as [|? ? Hnin Hnd']; subst. destruct k as [|k]; simpl in Hk.
      * inversion Hk; subst. rewrite Hout by assumption. rewrite Hn, Nat.eqb_refl.
        f_equal. f_equal. lia.
      * rewrite (Hin Hnd' k x Hk). f_equal. f_equal. lia.
Qed.

Lemma get_init_Some {A} (l : list (option A)) i a :
  nth_error l i = Some (Some a) -> get_init l i = Ok a.
Proof. unfold get_init. now intros ->. Qed.

Lemma sorted_nth_lt u : StronglySorted lt u -> forall i j a b,
  nth_error u i = Some a -> nth_error u j = Some b -> (i < j <-> a < b).
Proof.
  induction 1 as [|x u Hs IH Hf]; intros i j a b Hi Hj; [destruct i; discriminate|].
  rewrite Forall_forall in Hf.
  destruct i as [|i], j as [|j]; simpl in *.
  - inversion Hi; inversion Hj; subst; lia.
  - inversion Hi; subst. pose proof (Hf b (nth_error_In _ _ Hj)). lia.
  - inversion Hj; subst. pose proof (Hf a (nth_error_In _ _ Hi)). lia.
  - rewrite <- (IH i j a b Hi Hj). lia.
Qed.

Lemma distinct_unique l : distinct l = length (unique l).
Proof.
  unfold distinct. apply Permutation_length. apply NoDup_Permutation.
  - apply NoDup_nodup.
  - apply unique_NoDup.
  - intro x. now rewrite nodup_In, unique_In.
Qed.

(** position of a value in the sorted unique list *)
Lemma Renumber_Ok d : d <> [] -> exists m,
  Renumber d = Ok m /\ length m = amax d + 1 /\
  (forall k x, nth_error (unique d) k = Some x -> nth_error m x = Some (Some k)) /\
  (forall x, x <= amax d -> ~ In x d -> nth_error m x = Some None).
Proof.
  intro Hd. unfold Renumber.
  destruct (number_from_Ok (unique d) 0 (empty (amax d + 1))) as [m [E [Hl [Hout Hin]]]].
  { intros j Hj. rewrite unique_In in Hj. apply amax_ge in Hj. unfold empty. rewrite repeat_length. lia. }
  exists m. split; [exact E|]. split; [rewrite Hl; unfold empty; apply repeat_length|]. split.
  - intros k x Hk. apply (Hin (unique_NoDup d)); assumption.
  - intros x Hx Hn. rewrite Hout by (now rewrite unique_In).
    unfold empty. apply nth_error_repeat_lt. lia.
Qed.

(** the semantic content of a renumbering of [d] by the (total) function [f] *)
Definition compact_on (d : list nat) (f : nat -> nat) : Prop :=
  (forall a b, In a d -> In b d -> (a < b <-> f a < f b)) /\
  (forall v, (exists a, In a d /\ f a = v) <-> v < distinct d).

Lemma Renumber_fun d : d <> [] -> exists m f,
  Renumber d = Ok m /\ compact_on d f /\ (forall a, In a d -> get_init m a = Ok (f a)) /\
  (forall a, In a d -> nth_error m a = Some (Some (f a))).
Proof.
  intro Hd. destruct (Renumber_Ok d Hd) as [m [E [Hl [Hk _]]]].
  exists m. exists (fun a => match nth_error m a with Some (Some k) => k | _ => 0 end).
  split; [exact E|].
  assert (Hpos : forall a, In a d -> exists k, nth_error (unique d) k = Some a /\ nth_error m a = Some (Some k)).
  { intros a Ha. apply unique_In in Ha. apply In_nth_error in Ha. destruct Ha as [k Hka]. eauto. }
  split; [split|split].
  - intros a b Ha Hb. destruct (Hpos a Ha) as [i [Hi ->]]. destruct (Hpos b Hb) as [j [Hj ->]].
    symmetry. apply (sorted_nth_lt (unique d)); auto using unique_sorted.
  - intro v. rewrite distinct_unique. split.
    + intros [a [Ha Hv]]. destruct (Hpos a Ha) as [i [Hi Hm]]. rewrite Hm in Hv. subst v.
      apply nth_error_Some. congruence.
    + intro Hv. destruct (nth_error (unique d) v) as [a|] eqn:Ea;
        [|apply nth_error_None in Ea; lia].
      exists a. split; [apply unique_In; eapply nth_error_In; eauto|].
      now rewrite (Hk _ _ Ea).
  - intros a Ha. destruct (Hpos a Ha) as [i [Hi Hm]]. unfold get_init. now rewrite Hm.
  - intros a Ha. destruct (Hpos a Ha) as [i [Hi Hm]]. now rewrite Hm.
Qed.

Lemma renumber_fun d : exists f, renumber d = Ok (map f d) /\ (d <> [] -> compact_on d f).
Proof.
  destruct d as [|x d'].
  - exists (fun x => x). split; [reflexivity|congruence].
  - destruct (Renumber_fun (x :: d')) as [m [f [E [Hc [Hf _]]]]]; [discriminate|].
    exists f. split; [|auto]. unfold renumber. rewrite E. simpl bind.
    apply mapM_Ok. exact Hf.
Qed.

Lemma renumber_spec (d : list nat) : exists r, renumber d = Ok r /\ length r = length d /\
    (forall i j a b a' b', nth_error d i = Some a -> nth_error d j = Some b ->
       nth_error r i = Some a' -> nth_error r j = Some b' ->
       (a < b <-> a' < b') /\ (a = b <-> a' = b')) /\
    (forall v, In v r <-> v < distinct d).
Proof.
  destruct (renumber_fun d) as [f [E Hf]]. exists (map f d).
  split; [exact E|]. split; [apply map_length|]. split.
  - intros i j a b a' b' Hi Hj Hi' Hj'.
    assert (Hd : d <> []) by (intros ->; destruct i; discriminate).
    specialize (Hf Hd). destruct Hf as [Hlt _].
    rewrite nth_error_map, Hi in Hi'. rewrite nth_error_map, Hj in Hj'.
    simpl in *. inversion Hi'; inversion Hj'; subst.
    apply nth_error_In in Hi. apply nth_error_In in Hj.
    pose proof (Hlt a b Hi Hj). pose proof (Hlt b a Hj Hi).
    split; [assumption|]. split; [congruence|]. intro; lia.
  - destruct d as [|x d']; [simpl; unfold distinct; simpl; intuition lia|].
    intro v. rewrite in_map_iff. rewrite <- (proj2 (Hf ltac:(discriminate)) v).
    split; intros [a [H1 H2]]; eauto.
Qed.

Lemma renumber_index (d : list nat) : d <> [] -> exists m r,
   Renumber d = Ok m /\ renumber d = Ok r /\
   (forall i a, nth_error d i = Some a -> exists v,
      nth_error (Renumber_index m) a = Some (Some v) /\ nth_error r i = Some v) /\
   (forall l, (forall a, In a l -> In a d) -> exists l', Renumber_apply m l = Ok l' /\ length l' = length l /\
      forall i a, nth_error l i = Some a -> exists v,
        nth_error (Renumber_index m) a = Some (Some v) /\ nth_error l' i = Some v).
Proof.
  intro Hd. destruct (Renumber_fun d Hd) as [m [f [E [Hc [Hf Hm]]]]].
  assert (Hap : forall l, (forall a, In a l -> In a d) -> Renumber_apply m l = Ok (map f l)).
  { intros l Hl. apply mapM_Ok. auto. }
  exists m, (map f d). split; [exact E|]. split; [unfold renumber; rewrite E; simpl; apply Hap; auto|].
  split.
  - intros i a Ha. exists (f a). split; [apply Hm; eapply nth_error_In; eauto|].
    now rewrite nth_error_map, Ha.
  - intros l Hl. exists (map f l). split; [apply Hap; auto|]. split; [apply map_length|].
    intros i a Ha. exists (f a). split; [apply Hm; apply Hl; eapply nth_error_In; eauto|].
    now rewrite nth_error_map, Ha.
Qed.

Lemma compact_is_seq l : (forall v, In v l <-> v < distinct l) -> unique l = seq 0 (distinct l).
Proof.
  intro H. apply sorted_ext; [apply unique_sorted|apply seq_sorted|].
  intro x. rewrite unique_In, H, in_seq. lia.
Qed.

Lemma distinct_seq n : distinct (seq 0 n) = n.
Proof. unfold distinct. rewrite nodup_fixed_point; [apply seq_length | apply seq_NoDup]. Qed.

Lemma renumber_id l k : (forall v, In v l <-> v < k) -> renumber l = Ok l.
Proof.
  intro H. destruct l as [|x l'] eqn:El; [reflexivity|]. rewrite <- El in *.
  assert (Hne : l <> []) by (subst; discriminate).
  destruct (Renumber_Ok l Hne) as [m [E [_ [Hk _]]]].
  unfold renumber. rewrite E. simpl.
  assert (Hu : unique l = seq 0 k).
  { apply sorted_ext; [apply unique_sorted|apply seq_sorted|].
    intro y. rewrite unique_In, H, in_seq. lia. }
  unfold Renumber_apply, renum. rewrite (mapM_Ok _ _ (fun x => x)); [now rewrite map_id|].
  intros a Ha. apply get_init_Some. apply Hk. rewrite Hu, nth_error_seq.
  apply H in Ha. destruct (Nat.ltb_spec a k); [reflexivity|lia].
Qed.

Lemma renumber_idem d : exists r, renumber d = Ok r /\ renumber r = Ok r.
Proof.
  destruct (renumber_spec d) as [r [E [_ [_ H]]]]. exists r. split; [exact E|].
  eapply renumber_id. exact H.
Qed.

(** rank 2 *)
Lemma mapM_map_concat m f (d : list (list nat)) :
  (forall a, In a (concat d) -> get_init m a = Ok (f a)) ->
  mapM (renum m) d = Ok (map (map f) d).
Proof.
  intro H. apply mapM_Ok. intros r Hr. apply mapM_Ok. intros a Ha. apply H.
  apply in_concat. eauto.
Qed.

Lemma renumber2_fun d : exists f, renumber2 d = Ok (map (map f) d) /\
   renumber (concat d) = Ok (map f (concat d)) /\ (concat d <> [] -> compact_on (concat d) f).
Proof.
  destruct (concat d) as [|x d'] eqn:Ed.
  - exists (fun x => x). split; [|split; [reflexivity|congruence]].
    unfold renumber2. rewrite Ed. simpl.
    unfold renum2. apply mapM_Ok. intros r Hr. apply mapM_Ok. intros a Ha.
    exfalso. assert (Hin : In a (concat d)) by (apply in_concat; eauto). rewrite Ed in Hin. exact Hin.
  - rewrite <- Ed. destruct (Renumber_fun (concat d)) as [m [f [E [Hc [Hf _]]]]]; [rewrite Ed; discriminate|].
    exists f. split; [|split; [|auto]].
    + unfold renumber2. rewrite E. simpl. now apply mapM_map_concat.
    + unfold renumber. rewrite E. simpl. now apply mapM_Ok.
Qed.

Lemma renumber2_concat d : exists r, renumber2 d = Ok r /\ renumber (concat d) = Ok (concat r) /\
   map (@length nat) r = map (@length nat) d.
Proof.
  destruct (renumber2_fun d) as [f [E1 [E2 _]]]. exists (map (map f) d).
  split; [exact E1|]. rewrite concat_map in *. split; [exact E2|].
  rewrite map_map. apply map_ext. intro; apply map_length.
Qed.

(** *** Reorder *)
Lemma Reorder_size_gen args : forall n0,
  let s := fold_left (fun n arg => if length arg =? 0 then n else Nat.max n (amax arg + 1)) args n0 in
  n0 <= s /\ forall a, In a (concat args) -> a < s.
Proof.
  induction args as [|arg args IH]; intros n0; simpl; [split; [lia|tauto]|].
  set (n1 := if length arg =? 0 then n0 else Nat.max n0 (amax arg + 1)).
  destruct (IH n1) as [H1 H2]. split.
  - assert (n0 <= n1) by (unfold n1; destruct (length arg =? 0); lia). lia.
  - intros a Ha. apply in_app_or in Ha. destruct Ha as [Ha|Ha]; [|auto].
    assert (a < n1); [|lia]. unfold n1. pose proof (amax_ge _ _ Ha).
    destruct (Nat.eqb_spec (length arg) 0) as [E|E]; [|lia].
    apply length_zero_iff_nil in E. subst. destruct Ha.
Qed.

Lemma Reorder_Ok args : NoDup (concat args) -> exists m,
  Reorder args = Ok m /\
  (forall k a, nth_error (concat args) k = Some a -> nth_error m a = Some (Some k)) /\
  (forall a, ~ In a (concat args) -> get_init m a <> Ok 0 /\
       (nth_error m a = Some None \/ nth_error m a = None)).
Proof.
  intro Hnd. unfold Reorder.
  destruct (Reorder_size_gen args 0) as [_ Hs].
  destruct (number_from_Ok (concat args) 0 (empty (Reorder_size args))) as [m [E [Hl [Hout Hin]]]].
  { intros j Hj. unfold empty. rewrite repeat_length. apply Hs, Hj. }
  exists m. split; [exact E|]. split.
  - intros k a Ha. apply (Hin Hnd); assumption.
  - intros a Ha. assert (Hn : nth_error m a = Some None \/ nth_error m a = None).
    { rewrite Hout by assumption. unfold empty.
      destruct (lt_dec a (Reorder_size args)).
      - left. now apply nth_error_repeat_lt.
      - right. apply nth_error_None. rewrite repeat_length. lia. }
    split; [|exact Hn]. unfold get_init. destruct Hn as [-> | ->]; discriminate.
Qed.

Lemma reorder_spec (args : list (list nat)) : NoDup (concat args) -> exists m, Reorder args = Ok m /\
  (forall k a, nth_error (concat args) k = Some a -> nth_error (Reorder_index m) a = Some (Some k)) /\
  (forall l, (forall a, In a l -> In a (concat args)) ->
     exists l', Reorder_apply m l = Ok l' /\ length l' = length l /\
       (forall i a, nth_error l i = Some a -> exists k,
           nth_error l' i = Some k /\ nth_error (concat args) k = Some a)) /\
  (forall l, (exists a, In a l /\ ~ In a (concat args)) ->
     Reorder_apply m l = Uninit \/ Reorder_apply m l = Oob).
Proof.
  intro Hnd. destruct (Reorder_Ok args Hnd) as [m [E [Hk Hbad]]]. exists m.
  split; [exact E|]. split; [exact Hk|]. split.
  - intros l Hl. exists (map (fun a => match nth_error m a with Some (Some k) => k | _ => 0 end) l).
    assert (Hp : forall a, In a l -> exists k, nth_error (concat args) k = Some a /\ nth_error m a = Some (Some k)).
    { intros a Ha. apply Hl, In_nth_error in Ha. destruct Ha as [k Ha]. eauto. }
    split; [|split; [apply map_length|]].
    + apply mapM_Ok. intros a Ha. destruct (Hp a Ha) as [k [_ Hm]]. unfold get_init. now rewrite Hm.
    + intros i a Ha. destruct (Hp a (nth_error_In _ _ Ha)) as [k [H1 H2]].
      exists k. rewrite nth_error_map, Ha. simpl. now rewrite H2.
  - intros l. induction l as [|x l IH]; intros [a [Ha Hn]]; [destruct Ha|].
    unfold Reorder_apply in *. simpl.
    destruct (in_dec Nat.eq_dec x (concat args)) as [Hx|Hx].
    + pose proof (In_nth_error _ _ Hx) as [k Hkx]. rewrite (get_init_Some _ _ _ (Hk _ _ Hkx)). simpl.
      destruct Ha as [->|Ha]; [contradiction|].
      destruct IH as [->| ->]; [eauto| |]; simpl; auto.
    + destruct (Hbad x Hx) as [_ [H|H]]; unfold get_init; rewrite H; simpl; auto.
Qed.

(** *** dofs *)
Lemma reshape2_shape {A} n d (l : list A) : length l = n * d -> shape2 (reshape2 n d l) n d.
Proof.
  intro H. unfold reshape2. split; [now rewrite map_length, seq_length|].
  intros r Hr. apply in_map_iff in Hr. destruct Hr as [k [<- Hk]]. apply in_seq in Hk.
  rewrite firstn_length, skipn_length, H. nia.
Qed.

Lemma nth_error_firstn {A} (l : list A) n i : i < n -> nth_error (firstn n l) i = nth_error l i.
Proof.
  revert n i; induction l as [|a l IH]; intros [|n] [|i] H; simpl; auto; try lia.
  apply IH; lia.
Qed.

Lemma nth_error_skipn {A} (l : list A) n i : nth_error (skipn n l) i = nth_error l (n + i).
Proof. revert n; induction l as [|a l IH]; intros [|n]; simpl; auto. destruct i; reflexivity. Qed.

Lemma at2_reshape2 {A} n d (l : list A) i j : i < n -> j < d ->
  at2 (reshape2 n d l) i j = nth_error l (i * d + j).
Proof.
  intros Hi Hj. unfold at2, reshape2. rewrite nth_error_map, nth_error_seq.
  destruct (Nat.ltb_spec i n); [|lia]. simpl.
  now rewrite nth_error_firstn, nth_error_skipn.
Qed.

Lemma dofs_shape n d : shape2 (dofs n d) n d.
Proof. apply reshape2_shape, seq_length. Qed.

Lemma dofs_at n d i j : i < n -> j < d -> at2 (dofs n d) i j = Some (i * d + j).
Proof.
  intros Hi Hj. unfold dofs. rewrite at2_reshape2 by assumption.
  rewrite nth_error_seq. destruct (Nat.ltb_spec (i * d + j) (n * d)); [reflexivity|nia].
Qed.

Lemma concat_dofs n d : concat (dofs n d) = seq 0 (n * d).
Proof.
  apply nth_error_ext. intro k. rewrite nth_error_seq.
  destruct (Nat.ltb_spec k (n * d)) as [H|H].
  - assert (Hd : d <> 0) by lia.
    pose proof (Nat.div_mod k d Hd). pose proof (Nat.mod_upper_bound k d Hd).
    assert (k / d < n) by (apply Nat.div_lt_upper_bound; lia).
    replace k with (k / d * d + k mod d) at 1 by lia.
    rewrite (nth_error_concat_map _ d n (dofs_shape n d)) by assumption.
    rewrite dofs_at by assumption. f_equal. lia.
  - apply nth_error_None. rewrite (shape2_concat_length _ n d (dofs_shape n d)). lia.
Qed.

(** *** rank-2 get/set *)
Lemma get2_Ok {A} (l : list (list A)) i j v : get2 l i j = Ok v <-> at2 l i j = Some v.
Proof.
  unfold get2, at2, get. destruct (nth_error l i) as [r|]; simpl; [|split; congruence].
  destruct (nth_error r j); split; congruence.
Qed.

Lemma set2_Ok {A} (l : list (list A)) n d i j v : shape2 l n d -> i < n -> j < d ->
  exists l', set2 l i j v = Ok l' /\ shape2 l' n d /\
   forall a b, at2 l' a b = if (a =? i) && (b =? j) then Some v else at2 l a b.
Proof.
  intros [Hn Hd] Hi Hj. unfold set2, get.
  destruct (nth_error l i) as [r|] eqn:E; [|apply nth_error_None in E; lia]. simpl.
  pose proof (Hd r (nth_error_In _ _ E)) as Hr.
  destruct (set_Ok r j v) as [r' [E1 [L1 N1]]]; [lia|]. rewrite E1. simpl.
  destruct (set_Ok l i r') as [l' [E2 [L2 N2]]]; [lia|]. rewrite E2.
  exists l'. split; [reflexivity|]. split.
  - split; [congruence|]. intros x Hx. apply In_nth_error in Hx. destruct Hx as [k Hk].
    rewrite N2 in Hk. destruct (k =? i); [inversion Hk; subst; congruence|].
    apply Hd. eapply nth_error_In; eauto.
  - intros a b. unfold at2. rewrite N2. destruct (Nat.eqb_spec a i); simpl; [|reflexivity].
    subst. rewrite N1, E. reflexivity.
Qed.

Lemma set2_fold n d j : forall (ws : list (nat * nat)) (l : list (list nat)), shape2 l n d -> j < d ->
  (forall k v, In (k, v) ws -> k < n) -> NoDup (map fst ws) ->
  exists l', foldM (fun a dv => set2 a (fst dv) j (snd dv)) ws l = Ok l' /\ shape2 l' n d /\
   (forall a b, b <> j -> at2 l' a b = at2 l a b) /\
   (forall a, ~ In a (map fst ws) -> at2 l' a j = at2 l a j) /\
   (forall k v, In (k, v) ws -> at2 l' k j = Some v).
Proof.
  induction ws as [|[k v] ws IH]; intros l S Hj Hr Hnd; simpl.
  - exists l. repeat split; auto; try apply S. intros; contradiction.
  - inversion Hnd as [|? ? Hnin Hnd']; subst.
    destruct (set2_Ok l n d k j v S) as [l1 [E1 [S1 A1]]]; [apply (Hr k v); now left|exact Hj|].
    rewrite E1. simpl.
    destruct (IH l1 S1 Hj) as [l2 [E2 [S2 [B2 [C2 D2]]]]]; [intros; eapply Hr; right; eauto|exact Hnd'|].
    exists l2. split; [exact E2|]. split; [exact S2|]. split; [|split].
    + intros a b Hb. rewrite B2 by assumption. rewrite A1.
      destruct (Nat.eqb_spec b j); [contradiction|]. now rewrite andb_false_r.
    + intros a Ha. rewrite C2 by (intro; apply Ha; now right). rewrite A1.
      destruct (Nat.eqb_spec a k); [exfalso; apply Ha; now left|reflexivity].
    + intros k' v' [E|H].
      * inversion E; subst. rewrite C2 by assumption. rewrite A1, !Nat.eqb_refl. reflexivity.
      * apply D2; assumption.
Qed.

Lemma map_fst_combine {A B} (a : list A) : forall (b : list B), length a = length b -> map fst (combine a b) = a.
Proof. induction a as [|x a IH]; intros [|y b] H; simpl in *; try lia; [reflexivity|]. f_equal. apply IH. lia. Qed.

Lemma tie_column_Ok n d ties j l : wf_ties n ties -> shape2 l n d -> j < d ->
  exists l', tie_column ties j l = Ok l' /\ shape2 l' n d /\
   (forall a b, b <> j -> at2 l' a b = at2 l a b) /\
   (forall a, ~ In a (map snd ties) -> at2 l' a j = at2 l a j) /\
   (forall i dd, In (i, dd) ties -> at2 l' dd j = at2 l i j).
Proof.
  intros [Hr [Hnd Hind]] S Hj. unfold tie_column.
  set (val := fun t : nat * nat => match at2 l (fst t) j with Some v => v | None => 0 end).
  assert (Hv : forall t, In t ties -> at2 l (fst t) j = Some (val t)).
  { intros [a b] Ht. destruct (at2_lt l n d a j S) as [v Hv]; [apply (Hr a b Ht)|exact Hj|].
    unfold val. simpl. now rewrite Hv. }
  rewrite (mapM_Ok _ _ val) by (intros; apply get2_Ok; auto). simpl.
  assert (Hc : combine (map snd ties) (map val ties) = map (fun t => (snd t, val t)) ties).
  { clear. induction ties as [|t ties IH]; simpl; [reflexivity|]. now rewrite IH. }
  rewrite Hc.
  assert (Hf : map fst (map (fun t => (snd t, val t)) ties) = map snd ties)
    by (rewrite map_map; reflexivity).
  destruct (set2_fold n d j (map (fun t => (snd t, val t)) ties) l S Hj)
    as [l' [E [S' [B [C D]]]]].
  - intros k v Hk. apply in_map_iff in Hk. destruct Hk as [[a b] [Ek Ht]]. 
    apply (f_equal fst) in Ek. simpl in Ek. rewrite <- Ek. apply (Hr a b Ht).
  - now rewrite Hf.
  - rewrite Hf in C. exists l'. split; [exact E|]. split; [exact S'|].
    split; [exact B|]. split; [exact C|].
    intros i dd Ht. rewrite (D dd (val (i, dd))).
    + symmetry. apply (Hv _ Ht).
    + apply in_map_iff. exists (i, dd). split; [reflexivity|exact Ht].
Qed.

Lemma tie_all n d ties : wf_ties n ties -> forall js l, (forall j, In j js -> j < d) -> NoDup js -> shape2 l n d ->
  exists l', foldM (fun a j => tie_column ties j a) js l = Ok l' /\ shape2 l' n d /\
   (forall a b, ~ In b js -> at2 l' a b = at2 l a b) /\
   (forall a b, In b js -> ~ In a (map snd ties) -> at2 l' a b = at2 l a b) /\
   (forall i dd b, In b js -> In (i, dd) ties -> at2 l' dd b = at2 l i b).
Proof.
  intro W. induction js as [|j js IH]; intros l Hjs Hnd S; simpl.
  - exists l. repeat split; auto; try apply S; intros; contradiction.
  - inversion Hnd as [|? ? Hnin Hnd']; subst.
    destruct (tie_column_Ok n d ties j l W S) as [l1 [E1 [S1 [B1 [C1 D1]]]]]; [apply Hjs; now left|].
    rewrite E1. simpl.
    destruct (IH l1) as [l2 [E2 [S2 [A2 [B2 C2]]]]]; [intros; apply Hjs; now right|exact Hnd'|exact S1|].
    exists l2. split; [exact E2|]. split; [exact S2|]. split; [|split].
    + intros a b Hb. rewrite A2 by (intro; apply Hb; now right). apply B1.
      intro; apply Hb; left; congruence.
    + intros a b [->|Hb] Ha.
      * rewrite A2 by assumption. now apply C1.
      * rewrite B2 by assumption. apply B1. intro; subst; contradiction.
    + intros i dd b [->|Hb] Ht.
      * rewrite A2 by assumption. now apply D1.
      * rewrite (C2 i dd b Hb Ht). apply B1. intro; subst; contradiction.
Qed.

Lemma represents_lt n ties m r : wf_ties n ties -> m < n -> represents ties m r -> r < n.
Proof. intros [H _] Hm [Hr|[-> _]]; [apply (H _ _ Hr)|exact Hm]. Qed.

Lemma represents_exists ties m : exists r, represents ties m r.
Proof.
  destruct (in_dec Nat.eq_dec m (map snd ties)) as [H|H].
  - apply in_map_iff in H. destruct H as [[a b] [E H]]. simpl in E. subst.
    exists a. now left.
  - exists m. now right.
Qed.

Lemma dofsPeriodic_fun n d ties : wf_ties n ties -> exists D f,
  dofsPeriodic n d ties = Ok D /\ shape2 D n d /\
  (forall m i r, m < n -> i < d -> represents ties m r -> at2 D m i = Some (f (r * d + i))) /\
  (forall x y, (exists m r, m < n /\ represents ties m r /\ x / d = r) ->
               (exists m r, m < n /\ represents ties m r /\ y / d = r) -> d <> 0 -> 
       (x < y <-> f x < f y)) /\
  (forall v, In v (concat D) <-> v < (n - length ties) * d).
Proof.
  intro W. destruct (tie_all n d ties W (seq 0 d) (dofs n d)) as [l [E [S [_ [B C]]]]].
  { intros j Hj. apply in_seq in Hj. lia. }
  { apply seq_NoDup. }
  { apply dofs_shape. }
  assert (Hat : forall m i r, m < n -> i < d -> represents ties m r -> at2 l m i = Some (r * d + i)).
  { intros m i r Hm Hi Hr. pose proof (represents_lt n ties m r W Hm Hr) as Hrn.
    rewrite <- (dofs_at n d r i Hrn Hi). destruct Hr as [Hr|[-> Hr]].
    - apply C; [apply in_seq; lia|exact Hr].
    - apply B; [apply in_seq; lia|exact Hr]. }
  destruct (renumber2_fun l) as [f [E2 [E3 Hf]]].
  exists (map (map f) l), f. unfold dofsPeriodic. rewrite E. simpl. split; [exact E2|].
  split; [|split; [|split]].
  - destruct S as [S1 S2]. split; [now rewrite map_length|].
    intros r Hr. apply in_map_iff in Hr. destruct Hr as [r0 [<- H0]]. rewrite map_length. auto.
  - intros m i r Hm Hi Hr. unfold at2. rewrite nth_error_map.
    specialize (Hat m i r Hm Hi Hr). unfold at2 in Hat.
    destruct (nth_error l m) as [row|]; [|discriminate]. simpl. rewrite nth_error_map, Hat. reflexivity.
  - intros x y [m1 [r1 [Hm1 [Hr1 Hx]]]] [m2 [r2 [Hm2 [Hr2 Hy]]]] Hd.
    assert (HI : forall z m r, m < n -> represents ties m r -> z / d = r -> In z (concat l)).
    { intros z m r Hm Hr Hz. apply (at2_In_concat l m (z mod d)).
      rewrite (Hat m (z mod d) r Hm) by (auto using Nat.mod_upper_bound).
      f_equal. subst r. pose proof (Nat.div_mod z d Hd). lia. }
    assert (Hne : concat l <> []).
    { intro En. specialize (HI x m1 r1 Hm1 Hr1 Hx). rewrite En in HI. destruct HI. }
    apply (proj1 (Hf Hne)); eauto.
  - (* count *)
    set (rs := filter (fun r => negb (mem r (map snd ties))) (seq 0 n)).
    set (xs := flat_map (fun r => map (fun i => r * d + i) (seq 0 d)) rs).
    assert (Hset : forall x, In x (concat l) <-> In x xs).
    { intro x. unfold xs. rewrite in_flat_map. split.
      - intro Hx. apply In_concat_at2 in Hx. destruct Hx as [m [i Hx]].
        destruct (at2_Some_lt _ _ _ _ _ _ S Hx) as [Hm Hi].
        destruct (represents_exists ties m) as [r Hr].
        rewrite (Hat m i r Hm Hi Hr) in Hx. inversion Hx; subst x.
        exists r. split.
        + apply filter_In. split.
          * apply in_seq. pose proof (represents_lt n ties m r W Hm Hr). lia.
          * apply negb_true_iff, mem_false. destruct Hr as [Hr|[-> Hr]]; [|exact Hr].
            destruct W as [_ [_ W]]. apply W. apply in_map_iff. exists (r, m). auto.
        + apply in_map_iff. exists i. split; [reflexivity|apply in_seq; lia].
      - intros [r [Hr Hx]]. apply filter_In in Hr. destruct Hr as [Hr Hn].
        apply negb_true_iff, mem_false in Hn. apply in_seq in Hr.
        apply in_map_iff in Hx. destruct Hx as [i [<- Hi]]. apply in_seq in Hi.
        apply (at2_In_concat l r i). apply Hat; [lia|lia|]. right. auto. }
    assert (Hrs : length rs = n - length ties).
    { assert (HP : Permutation (rs ++ map snd ties) (seq 0 n)).
      { apply NoDup_Permutation.
        - apply NoDup_app_intro; [apply NoDup_filter, seq_NoDup|apply W|].
          intros x Hx. apply filter_In in Hx. destruct Hx as [_ Hx].
          now apply negb_true_iff, mem_false in Hx.
        - apply seq_NoDup.
        - intro x. rewrite in_app_iff. unfold rs. rewrite filter_In, negb_true_iff, mem_false, in_seq.
          split.
          + intros [[H _]|H]; [exact H|]. apply in_map_iff in H. destruct H as [[a b] [<- H]].
            simpl. destruct W as [W _]. destruct (W _ _ H). lia.
          + intro H. destruct (in_dec Nat.eq_dec x (map snd ties)); [now right|left; tauto]. }
      apply Permutation_length in HP. rewrite app_length, map_length, seq_length in HP. lia. }
    assert (Hxs : NoDup xs).
    { apply NoDup_flat_map.
      - apply NoDup_filter, seq_NoDup.
      - intros r _. apply NoDup_map_inj; [apply seq_NoDup|]. intros; lia.
      - intros r1 r2 x _ _ H1 H2. apply in_map_iff in H1. apply in_map_iff in H2.
        destruct H1 as [i1 [E1 I1]], H2 as [i2 [E2' I2]]. apply in_seq in I1. apply in_seq in I2.
        subst x. destruct (lt_eq_lt_dec r1 r2) as [[Hlt|He]|Hgt]; [nia|exact He|nia]. }
    assert (Hlen : distinct (concat l) = (n - length ties) * d).
    { rewrite <- Hrs. unfold distinct.
      assert (HP : Permutation (nodup Nat.eq_dec (concat l)) xs).
      { apply NoDup_Permutation; [apply NoDup_nodup|exact Hxs|].
        intro x. now rewrite nodup_In. }
      apply Permutation_length in HP. rewrite HP. unfold xs.
      rewrite (length_flat_map_const _ d); [reflexivity|]. intros; now rewrite map_length, seq_length. }
    intro v. rewrite <- Hlen. rewrite <- concat_map.
    destruct (concat l) as [|z zs] eqn:Ez.
    + unfold distinct. simpl. intuition lia.
    + rewrite <- Ez in *. rewrite <- (proj2 (Hf ltac:(rewrite Ez; discriminate)) v).
      rewrite in_map_iff. split; intros [a [H1 H2]]; eauto.
Qed.

Lemma dofsPeriodic_spec n d ties : wf_ties n ties -> exists D,
  dofsPeriodic n d ties = Ok D /\ shape2 D n d /\
  (forall m1 i1 r1 v1 m2 i2 r2 v2,
      represents ties m1 r1 -> at2 D m1 i1 = Some v1 ->
      represents ties m2 r2 -> at2 D m2 i2 = Some v2 ->
      (v1 = v2 <-> r1 = r2 /\ i1 = i2) /\
      (v1 < v2 <-> r1 < r2 \/ (r1 = r2 /\ i1 < i2))) /\
  (forall v, In v (concat D) <-> v < (n - length ties) * d).
Proof.
  intro W. destruct (dofsPeriodic_fun n d ties W) as [D [f [E [S [Hat [Hlt Hc]]]]]].
  exists D. split; [exact E|]. split; [exact S|]. split; [|exact Hc].
  intros m1 i1 r1 v1 m2 i2 r2 v2 Hr1 H1 Hr2 H2.
  destruct (at2_Some_lt _ _ _ _ _ _ S H1) as [Hm1 Hi1].
  destruct (at2_Some_lt _ _ _ _ _ _ S H2) as [Hm2 Hi2].
  rewrite (Hat m1 i1 r1 Hm1 Hi1 Hr1) in H1. rewrite (Hat m2 i2 r2 Hm2 Hi2 Hr2) in H2.
  inversion H1; inversion H2; subst v1 v2. clear H1 H2.
  assert (Hd : d <> 0) by lia.
  assert (Q : forall m r i, m < n -> i < d -> represents ties m r ->
     exists m' r', m' < n /\ represents ties m' r' /\ (r * d + i) / d = r').
  { intros m r i Hm Hi Hr. exists m, r. split; [exact Hm|]. split; [exact Hr|].
    rewrite Nat.div_add_l by exact Hd. rewrite Nat.div_small by exact Hi. lia. }
  pose proof (Hlt (r1*d+i1) (r2*d+i2) (Q _ _ _ Hm1 Hi1 Hr1) (Q _ _ _ Hm2 Hi2 Hr2) Hd) as L12.
  pose proof (Hlt (r2*d+i2) (r1*d+i1) (Q _ _ _ Hm2 Hi2 Hr2) (Q _ _ _ Hm1 Hi1 Hr1) Hd) as L21.
  split.
  - split.
    + intro Ef. assert (r1 * d + i1 = r2 * d + i2) by lia.
      destruct (lt_eq_lt_dec r1 r2) as [[H'|H']|H']; [nia|subst; lia|nia].
    + intros [-> ->]. reflexivity.
  - rewrite <- L12. split.
    + intro H. destruct (lt_eq_lt_dec r1 r2) as [[H'|H']|H']; [now left|right; subst; lia|nia].
    + intros [H|[-> H]]; [nia|lia].
Qed.
