(** Proofs about stitching. *)
From Coq Require Import Reals.
From Verif Require Import Base Spec Spec_Topology Spec_Stitch Model_Topology Proof_Topology Model_Stitch.

Lemma nth_error_combine {A B} (l : list A) (l' : list B) : forall i a b,
  nth_error l i = Some a -> nth_error l' i = Some b -> nth_error (combine l l') i = Some (a, b).
Proof.
  revert l'. induction l as [|x l IH]; intros [|y l'] [|i] a b H1 H2; simpl in *; try discriminate.
  - congruence. - now apply IH.
Qed.

Lemma nth_error_combine_inv {A B} (l : list A) (l' : list B) : forall i a b,
  nth_error (combine l l') i = Some (a, b) -> nth_error l i = Some a /\ nth_error l' i = Some b.
Proof.
  revert l'. induction l as [|x l IH]; intros [|y l'] [|i] a b H; simpl in *; try discriminate.
  - inversion H; auto. - now apply IH.
Qed.

Lemma map_fst_combine' {A B} (l : list A) : forall (l' : list B), length l = length l' -> map fst (combine l l') = l.
Proof. induction l as [|x l IH]; intros [|y l'] H; simpl in *; try discriminate; auto. f_equal. apply IH. lia. Qed.

Lemma write_all_inv {A} : forall (ws : list (nat * A)) (arr arr' : list A),
  write_all arr ws = Ok arr' -> length arr' = length arr /\ forall k v, In (k, v) ws -> k < length arr.
Proof.
  unfold write_all. induction ws as [|[k v] ws IH]; intros arr arr' H; simpl in H.
  - inversion H; subst. split; [reflexivity|intros ? ? []].
  - destruct (set arr k v) as [a1| | |] eqn:E; simpl in H; try discriminate.
    apply set_inv in E. destruct E as [Hk [Hl _]]. destruct (IH _ _ H) as [Hl' Hr].
    split; [congruence|]. intros k' v' [E|Hin]; [now inversion E; subst|].
    rewrite <- Hl. eauto.
Qed.

(** ** the nodes of b that are kept *)
Lemma keep_eq n ov : setdiff1d (seq 0 n) ov = filter (fun x => negb (mem x ov)) (seq 0 n).
Proof. unfold setdiff1d. now rewrite unique_id by apply seq_sorted. Qed.

Lemma keep_In n ov x : In x (setdiff1d (seq 0 n) ov) <-> x < n /\ ~ In x ov.
Proof. rewrite setdiff1d_In, in_seq. intuition lia. Qed.

Lemma keep_length n ov : NoDup ov -> (forall x, In x ov -> x < n) ->
  length (setdiff1d (seq 0 n) ov) + length ov = n.
Proof.
  intros Hn Hr. assert (P : Permutation (setdiff1d (seq 0 n) ov ++ ov) (seq 0 n)).
  { apply NoDup_Permutation.
    - apply NoDup_app_intro; [apply setdiff1d_NoDup|exact Hn|]. intros x Hx. now apply keep_In in Hx.
    - apply seq_NoDup.
    - intro x. rewrite in_app_iff, keep_In, in_seq. split.
      + intros [[? _]|?]; [lia|]. split; [lia|]. simpl. auto.
      + intros [_ Hx]. simpl in Hx. destruct (in_dec Nat.eq_dec x ov); auto. }
  apply Permutation_length in P. rewrite app_length, seq_length in P. exact P.
Qed.

Lemma keep_length_NoDup n ov : length (setdiff1d (seq 0 n) ov) + length ov = n -> NoDup ov.
Proof.
  intro H. assert (D : NoDup (setdiff1d (seq 0 n) ov ++ ov)).
  { apply (@NoDup_incl_NoDup _ (seq 0 n)); [apply seq_NoDup|rewrite app_length, seq_length; lia|].
    intros x Hx. apply in_seq in Hx. rewrite in_app_iff, keep_In.
    destruct (in_dec Nat.eq_dec x ov); auto. left. split; [lia|auto]. }
  now apply NoDup_app_inv in D.
Qed.

Lemma sorted_nth_lt l : StronglySorted lt l -> forall i j a b, i < j ->
  nth_error l i = Some a -> nth_error l j = Some b -> a < b.
Proof.
  induction 1 as [|x l Hs IH Hf]; intros i j a b Hij Ha Hb; [destruct i; discriminate|].
  destruct i as [|i], j as [|j]; simpl in *; try lia.
  - inversion Ha; subst. rewrite Forall_forall in Hf. apply Hf. eapply nth_error_In; eauto.
  - apply (IH i j); auto. lia.
Qed.

Lemma sorted_nth_inv l : StronglySorted lt l -> forall i j a b, a < b ->
  nth_error l i = Some a -> nth_error l j = Some b -> i < j.
Proof.
  intros Hs i j a b Hab Ha Hb. destruct (lt_dec i j) as [|Hn]; [assumption|].
  destruct (Nat.eq_dec i j); [subst; rewrite Ha in Hb; inversion Hb; lia|].
  pose proof (sorted_nth_lt l Hs j i b a ltac:(lia) Hb Ha). lia.
Qed.

Section S.
Context {A : Type} (close : A -> A -> bool).

Definition map_b_of (nnda nndb : nat) (ov_a ov_b : list nat) : res (list nat) :=
  let keep_b := setdiff1d (seq 0 nndb) ov_b in
  do map1 <- write_all (empty nndb) (combine ov_b (map Some ov_a));
  do map2 <- write_all map1 (combine keep_b (map (fun k => Some (k + nnda)) (seq 0 (length keep_b))));
  mapM (get_init map2) (seq 0 nndb).

Lemma map_b_spec nnda nndb ov_a ov_b : length ov_a = length ov_b -> NoDup ov_b ->
  (forall b, In b ov_b -> b < nndb) ->
  exists mb, map_b_of nnda nndb ov_a ov_b = Ok mb /\ length mb = nndb /\
    (forall k a b, nth_error ov_a k = Some a -> nth_error ov_b k = Some b -> nth_error mb b = Some a) /\
    (forall k b, nth_error (setdiff1d (seq 0 nndb) ov_b) k = Some b -> nth_error mb b = Some (k + nnda)).
Proof.
  intros Hl Hn Hr. unfold map_b_of. set (keep := setdiff1d (seq 0 nndb) ov_b).
  assert (Hf1 : map fst (combine ov_b (map Some ov_a)) = ov_b) by (apply map_fst_combine'; rewrite map_length; lia).
  assert (Hf2 : map fst (combine keep (map (fun k => Some (k + nnda)) (seq 0 (length keep)))) = keep)
    by (apply map_fst_combine'; rewrite map_length, seq_length; lia).
  assert (Hk : forall b, In b keep <-> b < nndb /\ ~ In b ov_b) by (intro; apply keep_In).
  destruct (write_all_Ok (combine ov_b (map Some ov_a)) (empty nndb)) as [m1 [E1 [L1 [O1 [I1 _]]]]].
  { intros k v Hkv. unfold empty. rewrite repeat_length. apply Hr. rewrite <- Hf1. apply in_map_iff. exists (k, v). auto. }
  unfold empty in L1. rewrite repeat_length in L1.
  destruct (write_all_Ok (combine keep (map (fun k => Some (k + nnda)) (seq 0 (length keep)))) m1) as [m2 [E2 [L2 [O2 [I2 _]]]]].
  { intros k v Hkv. rewrite L1. apply Hk. rewrite <- Hf2. apply in_map_iff. exists (k, v). auto. }
  rewrite E1. simpl. rewrite E2. simpl. rewrite Hf1 in O1, I1. rewrite Hf2 in O2, I2.
  assert (Hov : forall k a b, nth_error ov_a k = Some a -> nth_error ov_b k = Some b -> nth_error m2 b = Some (Some a)).
  { intros k a b Ha Hb. rewrite O2.
    - apply I1; [exact Hn|]. apply (nth_error_In _ k). apply nth_error_combine; [exact Hb|].
      rewrite nth_error_map, Ha. reflexivity.
    - rewrite Hk. intros [_ Hx]. apply Hx. eapply nth_error_In; eauto. }
  assert (Hkp : forall k b, nth_error keep k = Some b -> nth_error m2 b = Some (Some (k + nnda))).
  { intros k b Hb. apply I2; [apply setdiff1d_NoDup|]. apply (nth_error_In _ k).
    apply nth_error_combine; [exact Hb|]. rewrite nth_error_map, nth_error_seq.
    assert (k < length keep) by (apply nth_error_Some; congruence).
    destruct (Nat.ltb_spec k (length keep)); [reflexivity|lia]. }
  assert (Hall : forall b, b < nndb -> exists v, nth_error m2 b = Some (Some v)).
  { intros b Hb. destruct (in_dec Nat.eq_dec b ov_b) as [Hin|Hni].
    - apply In_nth_error in Hin. destruct Hin as [k Hk']. destruct (nth_error ov_a k) as [a|] eqn:Ea.
      + eauto.
      + apply nth_error_None in Ea. assert (k < length ov_b) by (apply nth_error_Some; congruence). lia.
    - assert (Hin : In b keep) by (apply Hk; auto). apply In_nth_error in Hin. destruct Hin as [k Hk']. eauto. }
  rewrite (mapM_Ok _ _ (fun b => match nth_error m2 b with Some (Some v) => v | _ => 0 end)).
  - eexists. split; [reflexivity|]. split; [now rewrite map_length, seq_length|].
    split; intros k.
    + intros a b Ha Hb. rewrite nth_error_map, nth_error_seq.
      assert (b < nndb) by (apply Hr; eapply nth_error_In; eauto).
      destruct (Nat.ltb_spec b nndb); [|lia]. simpl. now rewrite (Hov _ _ _ Ha Hb).
    + intros b Hb. rewrite nth_error_map, nth_error_seq.
      assert (b < nndb) by (apply Hk; eapply nth_error_In; eauto).
      destruct (Nat.ltb_spec b nndb); [|lia]. simpl. now rewrite (Hkp _ _ Hb).
  - intros b Hb. apply in_seq in Hb. destruct (Hall b) as [v Hv]; [lia|].
    unfold get_init. rewrite Hv. reflexivity.
Qed.

Lemma renum_conn mb conn_b : (forall n, In n (concat conn_b) -> n < length mb) ->
  exists c, mapM (renum_map mb) conn_b = Ok c /\ length c = length conn_b /\
    forall e r, nth_error conn_b e = Some r -> exists r', nth_error c e = Some r' /\ length r' = length r /\
      forall i n, nth_error r i = Some n -> exists m, nth_error mb n = Some m /\ nth_error r' i = Some m.
Proof.
  intro H. rewrite (mapM_Ok _ _ (map (fun n => nth n mb 0))).
  - eexists. split; [reflexivity|]. split; [apply map_length|]. intros e r Hr. rewrite nth_error_map, Hr.
    eexists. split; [reflexivity|]. split; [apply map_length|]. intros i n Hi.
    assert (Hlt : n < length mb).
    { apply H. apply In_concat. exists r. split; eapply nth_error_In; eauto. }
    rewrite nth_error_map, Hi. simpl. exists (nth n mb 0). split; [|reflexivity]. now apply nth_error_nth'.
  - intros r Hr. unfold renum_map. apply mapM_Ok. intros n Hn. unfold get.
    rewrite (nth_error_nth' mb 0); [reflexivity|]. apply H. apply In_concat. eauto.
Qed.

Lemma renum_conn_inv mb conn_b c : mapM (renum_map mb) conn_b = Ok c ->
  forall n, In n (concat conn_b) -> n < length mb.
Proof.
  intros H n Hn. apply In_concat in Hn. destruct Hn as [r [Hr Hn]].
  apply mapM_Ok_inv in H. destruct H as [_ H]. apply In_nth_error in Hr. destruct Hr as [e He].
  destruct (H e r He) as [r' [_ Er]]. unfold renum_map in Er. apply mapM_Ok_inv in Er. destruct Er as [_ Er].
  apply In_nth_error in Hn. destruct Hn as [i Hi]. destruct (Er i n Hi) as [m [_ Em]].
  apply get_Ok in Em. apply nth_error_Some. congruence.
Qed.

Lemma get_rows (X : list (list A)) l : (forall n, In n l -> n < length X) ->
  exists rows, mapM (get X) l = Ok rows /\ length rows = length l /\
    forall k n, nth_error l k = Some n -> nth_error rows k = nth_error X n.
Proof.
  intro H. rewrite (mapM_Ok _ _ (fun n => nth n X [])).
  - eexists. split; [reflexivity|]. split; [apply map_length|]. intros k n Hk.
    rewrite nth_error_map, Hk. simpl. symmetry. apply nth_error_nth'. apply H. eapply nth_error_In; eauto.
  - intros n Hn. unfold get. now rewrite (nth_error_nth' X []) by auto.
Qed.

(** the constructor of ManualStitch, for admissible arguments *)
Theorem ManualStitch_ok : forall coor_a conn_a ov_a coor_b conn_b ov_b check,
  wf_overlap (length coor_a) (length coor_b) ov_a ov_b ->
  conn_in_range conn_b (length coor_b) ->
  (check = true -> positions_close close coor_a coor_b ov_a ov_b = Ok true) ->
  exists s, ManualStitch close coor_a conn_a ov_a coor_b conn_b ov_b check = Ok s /\
    stitched coor_a conn_a ov_a coor_b conn_b ov_b (ms_coor s) (ms_conn s) (ms_map_b s) /\
    ms_nnd_a s = length coor_a /\ ms_nel_a s = length conn_a /\ ms_nel_b s = length conn_b.
Proof.
  intros ca na oa cb nb ob check [Hl [Hn [Hra Hrb]]] Hc Hchk.
  set (keep := setdiff1d (seq 0 (length cb)) ob).
  destruct (map_b_spec (length ca) (length cb) oa ob Hl Hn Hrb) as [mb [Emb [Lmb [Hov Hkp]]]].
  destruct (renum_conn mb nb) as [c [Ec [Lc Hcc]]]; [rewrite Lmb; exact Hc|].
  destruct (get_rows cb keep) as [rows [Er [Lr Hrows]]]; [intros n Hin; now apply keep_In in Hin|].
  assert (Hlen : length keep + length ob = length cb) by (apply keep_length; assumption).
  exists (mkManual (ca ++ rows) (na ++ c) mb (length ca) (length na) (length nb)).
  split; [|split; [|auto]].
  - unfold ManualStitch. destruct check; [rewrite Hchk by reflexivity|]; cbn [bind negb];
    rewrite Hl, Nat.eqb_refl; cbn [negb]; unfold map_b_of in Emb; fold keep; fold keep in Emb;
    (destruct (write_all (empty (length cb)) (combine ob (map Some oa))); cbn [bind] in *; try discriminate);
    (destruct (write_all a (combine keep _)); cbn [bind] in *; try discriminate);
    rewrite Emb; cbn [bind]; rewrite Ec; cbn [bind];
    (destruct (Nat.eqb_spec (length ca + length keep + length ob) (length ca + length cb)); [|lia]);
    cbn [negb]; rewrite Er; reflexivity.
  - assert (Hnew : forall n, n < length cb -> ~ In n ob -> exists k, nth_error keep k = Some n).
    { intros n Hlt Hni. apply In_nth_error. apply keep_In. auto. }
    split; simpl.
    + rewrite app_length, Lr. lia.
    + intros n r Hr. rewrite nth_error_app1; [exact Hr|]. apply nth_error_Some. congruence.
    + exact Lmb.
    + exact Hov.
    + intros n r Hr Hni. destruct (Hnew n) as [k Hk]; [apply nth_error_Some; congruence|exact Hni|].
      exists (k + length ca). split; [apply Hkp; exact Hk|]. split; [lia|].
      rewrite nth_error_app2 by lia. replace (k + length ca - length ca) with k by lia.
      now rewrite (Hrows k n Hk).
    + intros n n' m m' Hm Hm' Hni Hni' Hlt.
      assert (n < length cb) by (rewrite <- Lmb; apply nth_error_Some; congruence).
      assert (n' < length cb) by (rewrite <- Lmb; apply nth_error_Some; congruence).
      destruct (Hnew n) as [k Hk]; auto. destruct (Hnew n') as [k' Hk']; auto.
      rewrite (Hkp k n Hk) in Hm. rewrite (Hkp k' n' Hk') in Hm'. inversion Hm; inversion Hm'; subst.
      assert (k < k'); [|lia]. apply (sorted_nth_inv keep (setdiff1d_sorted _ _) k k' n n'); assumption.
    + intros m Hm. rewrite app_length, Lr in Hm. destruct (lt_dec m (length ca)) as [|Hge]; [now left|right].
      destruct (nth_error keep (m - length ca)) as [n|] eqn:En.
      * apply (nth_error_In _ n). rewrite (Hkp _ _ En). f_equal. lia.
      * apply nth_error_None in En. lia.
    + rewrite app_length. lia.
    + intros e r Hr. rewrite nth_error_app1; [exact Hr|]. apply nth_error_Some. congruence.
    + intros e r Hr. destruct (Hcc e r Hr) as [r' [H1 [H2 H3]]]. exists r'. split; [|auto].
      rewrite nth_error_app2 by lia. now replace (length na + e - length na) with e by lia.
Qed.

(** and conversely *)
Theorem ManualStitch_inv : forall coor_a conn_a ov_a coor_b conn_b ov_b check s,
  ManualStitch close coor_a conn_a ov_a coor_b conn_b ov_b check = Ok s ->
  length ov_a = length ov_b /\ NoDup ov_b /\ (forall b, In b ov_b -> b < length coor_b) /\
  conn_in_range conn_b (length coor_b) /\
  (check = true -> positions_close close coor_a coor_b ov_a ov_b = Ok true).
Proof.
  intros ca na oa cb nb ob check s H. unfold ManualStitch in H.
  destruct (if check then positions_close close ca cb oa ob else Ok true) as [ok| | |] eqn:Eok; cbn [bind] in H; try discriminate.
  destruct ok; cbn [negb] in H; [|discriminate].
  destruct (Nat.eqb_spec (length oa) (length ob)) as [Hl|]; cbn [negb] in H; [|discriminate].
  destruct (write_all (empty (length cb)) (combine ob (map Some oa))) as [m1| | |] eqn:E1; cbn [bind] in H; try discriminate.
  destruct (write_all m1 _) as [m2| | |] eqn:E2; cbn [bind] in H; try discriminate.
  destruct (mapM (get_init m2) (seq 0 (length cb))) as [mb| | |] eqn:E3; cbn [bind] in H; try discriminate.
  destruct (mapM (renum_map mb) nb) as [c| | |] eqn:E4; cbn [bind] in H; try discriminate.
  match type of H with context [negb ?b] => destruct b eqn:E5; cbn [negb] in H; [|discriminate] end.
  apply Nat.eqb_eq in E5. split; [exact Hl|].
  assert (Hn : NoDup ob) by (apply (keep_length_NoDup (length cb)); lia). split; [exact Hn|]. split.
  - intros b Hb. apply write_all_inv in E1. destruct E1 as [_ E1]. unfold empty in E1. rewrite repeat_length in E1.
    apply In_nth_error in Hb. destruct Hb as [k Hk].
    destruct (nth_error oa k) as [a|] eqn:Ea.
    + apply (E1 b (Some a)). apply (nth_error_In _ k). apply nth_error_combine; [exact Hk|].
      rewrite nth_error_map, Ea. reflexivity.
    + apply nth_error_None in Ea. assert (k < length ob) by (apply nth_error_Some; congruence). lia.
  - split; [|intro Ht; subst; congruence].
    intros n Hn'. apply mapM_Ok_inv in E3. destruct E3 as [L3 _]. rewrite seq_length in L3.
    rewrite <- L3. eapply renum_conn_inv; eauto.
Qed.

(** ** overlapping *)
Lemma overlapping_In ca cb i j : In (i, j) (overlapping close ca cb) <->
  exists ra rb, nth_error ca i = Some ra /\ nth_error cb j = Some rb /\ row_close close rb ra = true.
Proof.
  unfold overlapping. rewrite in_flat_map. split.
  - intros [[i' ra] [Hi H]]. apply enum_In in Hi. apply in_map_iff in H. destruct H as [[j' rb] [E H]].
    apply filter_In in H. destruct H as [Hj Hcl]. apply enum_In in Hj. simpl in *. inversion E; subst. eauto.
  - intros [ra [rb [Hi [Hj Hcl]]]]. exists (i, ra). split; [now apply enum_In|].
    apply in_map_iff. exists (j, rb). split; [reflexivity|]. apply filter_In. split; [now apply enum_In|exact Hcl].
Qed.

Lemma row_close_spec rb ra : length rb = length ra ->
  (row_close close rb ra = true <-> forall k b a, nth_error rb k = Some b -> nth_error ra k = Some a -> close b a = true).
Proof.
  intro Hl. unfold row_close. rewrite forallb_forall. split.
  - intros H k b a Hb Ha. apply (H (b, a)). apply (nth_error_In _ k). now apply nth_error_combine.
  - intros H [b a] Hin. apply In_nth_error in Hin. destruct Hin as [k Hk].
    apply nth_error_combine_inv in Hk. simpl. apply (H k); tauto.
Qed.

Lemma enum_sorted {B} (l : list B) : StronglySorted (fun p q => fst p < fst q) (enum l).
Proof.
  unfold enum. generalize 0. induction l as [|x l IH]; intro s; simpl; constructor; [apply IH|].
  rewrite Forall_forall. intros [i y] Hin. apply in_combine_l in Hin. apply in_seq in Hin. simpl. lia.
Qed.

Lemma StronglySorted_map {B C} (R : B -> B -> Prop) (R' : C -> C -> Prop) (f : B -> C) l :
  (forall x y, R x y -> R' (f x) (f y)) -> StronglySorted R l -> StronglySorted R' (map f l).
Proof.
  intros H. induction 1 as [|x l Hs IH Hf]; simpl; constructor; [exact IH|].
  rewrite Forall_forall in *. intros y Hy. apply in_map_iff in Hy. destruct Hy as [z [<- Hz]]. auto.
Qed.

Lemma StronglySorted_flat_map {B C} (R : B -> B -> Prop) (R' : C -> C -> Prop) (f : B -> list C) l :
  StronglySorted R l -> (forall x, In x l -> StronglySorted R' (f x)) ->
  (forall x y c d, R x y -> In c (f x) -> In d (f y) -> R' c d) -> StronglySorted R' (flat_map f l).
Proof.
  intros Hs. induction Hs as [|x l Hs IH Hf]; intros H1 H2; simpl; [constructor|].
  apply StronglySorted_app.
  - apply H1. now left.
  - apply IH; [intros; apply H1; now right|exact H2].
  - intros c d Hc Hd. apply in_flat_map in Hd. destruct Hd as [y [Hy Hd]].
    rewrite Forall_forall in Hf. apply (H2 x y); auto.
Qed.

Lemma overlapping_sorted ca cb : StronglySorted lex_lt (overlapping close ca cb).
Proof.
  unfold overlapping. eapply StronglySorted_flat_map; [apply enum_sorted| |].
  - intros [i ra] _. eapply StronglySorted_map; [|apply StronglySorted_filter, enum_sorted].
    intros [j b] [j' b'] H. right. simpl in *. auto.
  - intros [i ra] [i' ra'] [c1 c2] [d1 d2] H Hc Hd. left.
    apply in_map_iff in Hc. destruct Hc as [? [E _]]. apply in_map_iff in Hd. destruct Hd as [? [E' _]].
    inversion E; inversion E'; subst. exact H.
Qed.

Theorem overlapping_spec : forall coor_a coor_b ndim,
  shape2 coor_a (length coor_a) ndim -> shape2 coor_b (length coor_b) ndim ->
  (forall i j, In (i, j) (overlapping close coor_a coor_b) <->
     i < length coor_a /\ j < length coor_b /\
     forall k a b, at2 coor_a i k = Some a -> at2 coor_b j k = Some b -> close b a = true) /\
  StronglySorted lex_lt (overlapping close coor_a coor_b).
Proof.
  intros ca cb ndim [_ Ha] [_ Hb]. split; [|apply overlapping_sorted].
  intros i j. rewrite overlapping_In. unfold at2. split.
  - intros [ra [rb [Hi [Hj Hc]]]]. split; [apply nth_error_Some; congruence|].
    split; [apply nth_error_Some; congruence|]. rewrite Hi, Hj. intros k a b H1 H2.
    eapply (proj1 (row_close_spec rb ra ltac:(rewrite (Ha ra), (Hb rb); [reflexivity|eapply nth_error_In; eauto|eapply nth_error_In; eauto]))); eauto.
  - intros [Hi [Hj H]]. destruct (nth_error ca i) as [ra|] eqn:Ei; [|apply nth_error_None in Ei; lia].
    destruct (nth_error cb j) as [rb|] eqn:Ej; [|apply nth_error_None in Ej; lia].
    exists ra, rb. split; [reflexivity|]. split; [reflexivity|].
    apply row_close_spec; [rewrite (Ha ra), (Hb rb); [reflexivity|eapply nth_error_In; eauto|eapply nth_error_In; eauto]|].
    intros k b a H1 H2. apply (H k); assumption.
Qed.
End S.

(** ** histories *)
Lemma row_close_near {A} (close : A -> A -> bool) p q : row_close close p q = true <-> near close p q.
Proof.
  unfold row_close, near. rewrite forallb_forall. split.
  - intros H k a b Ha Hb. apply (H (a, b)). apply (nth_error_In _ k). now apply nth_error_combine.
  - intros H [a b] Hin. apply In_nth_error in Hin. destruct Hin as [k Hk].
    apply nth_error_combine_inv in Hk. simpl. apply (H k); tauto.
Qed.

Lemma nth_error_snoc {A} (l : list A) x i y : nth_error (l ++ [x]) i = Some y ->
  (i < length l /\ nth_error l i = Some y) \/ (i = length l /\ y = x).
Proof.
  intro H. destruct (lt_dec i (length l)) as [Hi|Hi].
  - left. split; [exact Hi|]. now rewrite nth_error_app1 in H by exact Hi.
  - right. rewrite nth_error_app2 in H by lia. destruct (i - length l) as [|k] eqn:E; simpl in H.
    + inversion H. split; [lia|reflexivity].
    + destruct k; discriminate.
Qed.

Lemma nth_error_snoc_last {A} (l : list A) x : nth_error (l ++ [x]) (length l) = Some x.
Proof. rewrite nth_error_app2 by lia. now rewrite Nat.sub_diag. Qed.

(** one mesh *)
Lemma union_one {A} (moved : list A -> list A -> Prop) X C : conn_in_range C (length X) ->
  union_of moved [(X, C)] X C [seq 0 (length X)] [seq 0 (length C)].
Proof.
  intro Hc. split; simpl; auto.
  - now rewrite app_nil_r.
  - intros [|i] X' C' em H1 H2; simpl in *; inversion H1; inversion H2; subst; [apply seq_length|now destruct i].
  - intros [|i] X' C' em H1 H2; simpl in *; inversion H1; inversion H2; subst; [apply seq_length|now destruct i].
  - intros [|i] X' C' nm n m p H1 H2 H3 H4; simpl in *; [|destruct i; discriminate].
    inversion H1; inversion H2; subst. rewrite nth_error_seq in H3.
    destruct (n <? length X'); inversion H3; subst. exists p. auto.
  - intros m Hm. exists 0. eexists. split; [reflexivity|]. apply in_seq. lia.
  - intros [|i] X' C' nm em e e' nodes H1 H2 H3 H4 H5; simpl in *; [|destruct i; discriminate].
    inversion H1; inversion H2; inversion H3; subst. rewrite nth_error_seq in H4.
    destruct (e <? length C'); inversion H4; subst. exists nodes. split; [exact H5|]. split; [reflexivity|].
    intros k n Hk. exists n. split; [|exact Hk]. rewrite nth_error_seq.
    assert (n < length X').
    { apply Hc. apply In_concat. exists nodes. split; [eapply nth_error_In; eauto|eapply nth_error_In; eauto]. }
    destruct (Nat.ltb_spec n (length X')); [reflexivity|lia].
Qed.

(** adding a mesh *)
Lemma union_add {A} (moved : list A -> list A -> Prop) meshes coor conn nms ems X C oa ob coor' conn' mb :
  union_of moved meshes coor conn nms ems ->
  wf_overlap (length coor) (length X) oa ob ->
  stitched coor conn oa X C ob coor' conn' mb ->
  (forall k a b p q, nth_error oa k = Some a -> nth_error ob k = Some b -> nth_error X b = Some p ->
      nth_error coor a = Some q -> q = p \/ moved p q) ->
  union_of moved (meshes ++ [(X, C)]) coor' conn' (nms ++ [mb]) (ems ++ [seq (length conn) (length C)]).
Proof.
  intros U [Wl [Wn [Wa Wb]]] D Hpos. split.
  - rewrite !app_length, (un_nodemaps _ _ _ _ _ _ U). reflexivity.
  - rewrite !app_length, (un_elemmaps _ _ _ _ _ _ U). reflexivity.
  - rewrite concat_app, (un_elems _ _ _ _ _ _ U). simpl. rewrite app_nil_r, (sd_nelem _ _ _ _ _ _ _ _ _ D).
    now rewrite seq_app.
  - intros i X' C' em H1 H2. apply nth_error_snoc in H1. apply nth_error_snoc in H2.
    rewrite (un_elemmaps _ _ _ _ _ _ U) in H2.
    destruct H1 as [[L1 H1]|[L1 H1]], H2 as [[L2 H2]|[L2 H2]]; try lia.
    + eapply (un_nelem _ _ _ _ _ _ U); eauto.
    + inversion H1; subst. apply seq_length.
  - intros i X' C' em H1 H2. apply nth_error_snoc in H1. apply nth_error_snoc in H2.
    rewrite (un_nodemaps _ _ _ _ _ _ U) in H2.
    destruct H1 as [[L1 H1]|[L1 H1]], H2 as [[L2 H2]|[L2 H2]]; try lia.
    + eapply (un_nnode _ _ _ _ _ _ U); eauto.
    + inversion H1; subst. apply (sd_map _ _ _ _ _ _ _ _ _ D).
  - intros i X' C' nm n m p H1 H2 H3 H4. apply nth_error_snoc in H1. apply nth_error_snoc in H2.
    rewrite (un_nodemaps _ _ _ _ _ _ U) in H2.
    destruct H1 as [[L1 H1]|[L1 H1]], H2 as [[L2 H2]|[L2 H2]]; try lia.
    + destruct (un_position _ _ _ _ _ _ U i X' C' nm n m p H1 H2 H3 H4) as [q [Hq Hor]].
      exists q. split; [apply (sd_coor_a _ _ _ _ _ _ _ _ _ D); exact Hq|exact Hor].
    + inversion H1; subst X' C' nm. destruct (in_dec Nat.eq_dec n ob) as [Hin|Hni].
      * apply In_nth_error in Hin. destruct Hin as [k Hk].
        destruct (nth_error oa k) as [a|] eqn:Ea.
        2:{ apply nth_error_None in Ea. assert (k < length ob) by (apply nth_error_Some; congruence). lia. }
        rewrite (sd_overlap _ _ _ _ _ _ _ _ _ D k a n Ea Hk) in H3. inversion H3; subst m.
        assert (Hlt : a < length coor) by (apply Wa; eapply nth_error_In; eauto).
        destruct (nth_error coor a) as [q|] eqn:Eq; [|apply nth_error_None in Eq; lia].
        exists q. split; [apply (sd_coor_a _ _ _ _ _ _ _ _ _ D); exact Eq|]. eapply Hpos; eauto.
      * destruct (sd_new _ _ _ _ _ _ _ _ _ D n p H4 Hni) as [m' [Em [_ Hc]]].
        rewrite Em in H3. inversion H3; subst. exists p. auto.
  - intros m Hm. destruct (sd_covered _ _ _ _ _ _ _ _ _ D m Hm) as [Hlt|Hin].
    + destruct (un_covered _ _ _ _ _ _ U m Hlt) as [i [nm [Hi Hin]]]. exists i, nm.
      split; [|exact Hin]. rewrite nth_error_app1; [exact Hi|]. apply nth_error_Some. congruence.
    + exists (length nms), mb. split; [apply nth_error_snoc_last|exact Hin].
  - intros i X' C' nm em e e' nodes H1 H2 H3 H4 H5. apply nth_error_snoc in H1. apply nth_error_snoc in H2.
    apply nth_error_snoc in H3.
    rewrite (un_nodemaps _ _ _ _ _ _ U) in H2. rewrite (un_elemmaps _ _ _ _ _ _ U) in H3.
    destruct H1 as [[L1 H1]|[L1 H1]], H2 as [[L2 H2]|[L2 H2]], H3 as [[L3 H3]|[L3 H3]]; try lia.
    + destruct (un_conn _ _ _ _ _ _ U i X' C' nm em e e' nodes H1 H2 H3 H4 H5) as [nodes' [Hn [Hl Hk]]].
      exists nodes'. split; [apply (sd_conn_a _ _ _ _ _ _ _ _ _ D); exact Hn|]. auto.
    + inversion H1; subst X' C' nm em. rewrite nth_error_seq in H4.
      destruct (Nat.ltb_spec e (length C)); [|discriminate]. inversion H4; subst e'.
      destruct (sd_conn_b _ _ _ _ _ _ _ _ _ D e nodes H5) as [r' [Hr [Hl Hk]]]. exists r'. auto.
Qed.

(** bookkeeping of the element offsets *)
Definition offsets (l : list nat) : list nat := map (fun i => list_sum (firstn i l)) (seq 0 (length l)).

Lemma offsets_snoc l x : offsets (l ++ [x]) = offsets l ++ [list_sum l].
Proof.
  unfold offsets. rewrite app_length. simpl. rewrite Nat.add_1_r, seq_S, map_app. simpl. f_equal.
  - apply map_ext_in. intros i Hi. apply in_seq in Hi. now rewrite firstn_app, (proj2 (Nat.sub_0_le i (length l))), app_nil_r by lia.
  - now rewrite firstn_app, Nat.sub_diag, app_nil_r, firstn_all.
Qed.

Lemma offsets_length l : length (offsets l) = length l.
Proof. unfold offsets. now rewrite map_length, seq_length. Qed.

Lemma offsets_last l o n : l <> [] -> nth_error (offsets l) (length l - 1) = Some o ->
  nth_error l (length l - 1) = Some n -> o + n = list_sum l.
Proof.
  intros H Ho Hn. destruct (exists_last H) as [l' [x ->]].
  rewrite offsets_snoc in Ho. rewrite app_length in Ho, Hn. simpl in Ho, Hn.
  replace (length l' + 1 - 1) with (length l') in Ho, Hn by lia.
  rewrite nth_error_snoc_last in Hn. rewrite <- (offsets_length l') in Ho. rewrite nth_error_snoc_last in Ho.
  inversion Ho; inversion Hn; subst. unfold list_sum. rewrite fold_right_app. simpl.
  assert (G : forall l a, fold_right Nat.add a l = fold_right Nat.add 0 l + a).
  { clear. induction l as [|y l IH]; intro a; simpl; [reflexivity|]. rewrite IH. lia. }
  match goal with |- context [fold_right Nat.add (?a) l'] => lazymatch a with 0 => fail | _ => rewrite (G l' a) end end. unfold list_sum in *. lia.
Qed.

Lemma map_add_seq o n : map (fun e => e + o) (seq 0 n) = seq o n.
Proof.
  apply nth_error_ext. intro i. rewrite nth_error_map, !nth_error_seq.
  destruct (i <? n); simpl; [f_equal; lia|reflexivity].
Qed.

Definition ems_of (nels : list nat) : list (list nat) :=
  map (fun on => seq (fst on) (snd on)) (combine (offsets nels) nels).

Lemma ems_of_snoc nels n : ems_of (nels ++ [n]) = ems_of nels ++ [seq (list_sum nels) n].
Proof.
  unfold ems_of. rewrite offsets_snoc.
  assert (G : forall (l l' : list nat) a b, length l = length l' -> combine (l ++ [a]) (l' ++ [b]) = combine l l' ++ [(a, b)]).
  { induction l as [|x l IH]; intros [|y l'] a b H; simpl in *; try discriminate; auto. f_equal. apply IH. lia. }
  rewrite G by apply offsets_length. rewrite map_app. reflexivity.
Qed.

Lemma list_sum_length_concat {B} (l : list (list B)) : list_sum (map (@length B) l) = length (concat l).
Proof. induction l as [|x l IH]; simpl; [reflexivity|]. now rewrite app_length, IH. Qed.

Section H.
Context {A : Type} (close : A -> A -> bool).
Notation mesh := (list (list A) * list (list nat))%type.

(** state of the object after adding [meshes] *)
Record stitch_inv (moved : list A -> list A -> Prop) (meshes : list mesh) (s : Stitch_t A) : Prop := {
  si_union : union_of moved meshes (st_coor s) (st_conn s) (st_map s) (ems_of (st_nel s));
  si_nel : st_nel s = map (fun m : mesh => length (snd m)) meshes;
  si_off : st_off s = offsets (st_nel s) }.

Lemma si_total moved meshes s : stitch_inv moved meshes s -> list_sum (st_nel s) = length (st_conn s).
Proof.
  intros [U E O]. pose proof (un_elems _ _ _ _ _ _ U) as H. apply (f_equal (@length nat)) in H.
  rewrite seq_length in H. rewrite <- H, <- list_sum_length_concat. f_equal.
  unfold ems_of. rewrite map_map. apply nth_error_ext. intro i.
  rewrite nth_error_map. destruct (nth_error (st_nel s) i) as [n|] eqn:En.
  - assert (exists o, nth_error (offsets (st_nel s)) i = Some o) as [o Ho].
    { destruct (nth_error (offsets (st_nel s)) i) eqn:E'; [eauto|]. apply nth_error_None in E'.
      rewrite offsets_length in E'. assert (i < length (st_nel s)) by (apply nth_error_Some; congruence). lia. }
    rewrite (nth_error_combine _ _ _ _ _ Ho En). simpl. now rewrite seq_length.
  - apply nth_error_None in En. rewrite (proj2 (nth_error_None _ _)); [reflexivity|].
    rewrite combine_length, offsets_length. lia.
Qed.

Lemma append_mesh_inv moved meshes s m X C oa ob s' :
  meshes <> [] -> stitch_inv moved meshes s ->
  wf_overlap (length (st_coor s)) (length X) oa ob ->
  stitched (st_coor s) (st_conn s) oa X C ob (ms_coor m) (ms_conn m) (ms_map_b m) ->
  (forall k a b p q, nth_error oa k = Some a -> nth_error ob k = Some b -> nth_error X b = Some p ->
      nth_error (st_coor s) a = Some q -> q = p \/ moved p q) ->
  append_mesh s m (length C) = Ok s' -> stitch_inv moved (meshes ++ [(X, C)]) s'.
Proof.
  intros Hne Hi W D Hpos Happ. pose proof Hi as [U E O].
  pose proof (si_total _ _ _ Hi) as Htot. unfold append_mesh in Happ.
  assert (Hlm : length (st_map s) = length (st_nel s)).
  { rewrite (un_nodemaps _ _ _ _ _ _ U), E, map_length. reflexivity. }
  rewrite Hlm in Happ.
  destruct (get (st_off s) _) as [o| | |] eqn:Eo; cbn [bind] in Happ; try discriminate.
  destruct (get (st_nel s) _) as [n| | |] eqn:En; cbn [bind] in Happ; try discriminate.
  inversion Happ; subst s'. clear Happ. apply get_Ok in Eo, En. rewrite O in Eo.
  assert (Hsum : o + n = list_sum (st_nel s)).
  { apply offsets_last; auto. intro Hx. rewrite Hx in E. destruct meshes; [congruence|discriminate]. }
  split; cbn [st_coor st_conn st_map st_nel st_off].
  - rewrite ems_of_snoc, Htot. unfold ms_nodemap. simpl Nat.eqb. cbv iota.
    eapply union_add; eauto.
  - rewrite E, map_app. reflexivity.
  - rewrite offsets_snoc, O, Hsum. reflexivity.
Qed.

Lemma append_mesh_total moved meshes s m n : meshes <> [] -> stitch_inv moved meshes s ->
  exists s', append_mesh s m n = Ok s'.
Proof.
  intros Hne [U E O]. unfold append_mesh.
  assert (Hlm : length (st_map s) = length (st_nel s)).
  { rewrite (un_nodemaps _ _ _ _ _ _ U), E, map_length. reflexivity. }
  assert (Hp : 0 < length (st_nel s)).
  { rewrite E, map_length. destruct meshes; [congruence|simpl; lia]. }
  destruct (get_lt (st_off s) (length (st_map s) - 1)) as [o Ho]; [rewrite O, offsets_length; lia|].
  destruct (get_lt (st_nel s) (length (st_map s) - 1)) as [k Hk]; [lia|].
  rewrite Ho, Hk. simpl. eauto.
Qed.

Definition moved_close : list A -> list A -> Prop := fun p q => near close p q.

Lemma overlapping_positions coor X k a b p q :
  nth_error (map fst (overlapping close coor X)) k = Some a ->
  nth_error (map snd (overlapping close coor X)) k = Some b ->
  nth_error X b = Some p -> nth_error coor a = Some q -> near close p q.
Proof.
  rewrite !nth_error_map. destruct (nth_error (overlapping close coor X) k) as [[i j]|] eqn:E; simpl; try discriminate.
  intros H1 H2 H3 H4. inversion H1; inversion H2; subst. apply nth_error_In in E.
  apply overlapping_In in E. destruct E as [ra [rb [Ha [Hb Hc]]]]. rewrite Ha in H4. rewrite Hb in H3.
  inversion H3; inversion H4; subst. now apply row_close_near.
Qed.

Lemma overlapping_range_a coor X a : In a (map fst (overlapping close coor X)) -> a < length coor.
Proof.
  intro H. apply in_map_iff in H. destruct H as [[i j] [E H]]. simpl in E. subst. apply overlapping_In in H.
  destruct H as [ra [rb [Ha _]]]. apply nth_error_Some. congruence.
Qed.

Lemma overlapping_range_b coor X b : In b (map snd (overlapping close coor X)) -> b < length X.
Proof.
  intro H. apply in_map_iff in H. destruct H as [[i j] [E H]]. simpl in E. subst. apply overlapping_In in H.
  destruct H as [ra [rb [_ [Hb _]]]]. apply nth_error_Some. congruence.
Qed.

Lemma push_back_inv meshes s X C s' : meshes <> [] -> stitch_inv moved_close meshes s ->
  Stitch_push_back close s X C = Ok s' ->
  stitch_inv moved_close (meshes ++ [(X, C)]) s' /\
  exists oa ob coor conn, overlapping close (st_coor s) X = combine oa ob /\ length oa = length ob /\
     wf_overlap (length (st_coor s)) (length X) oa ob /\
     stitched (st_coor s) (st_conn s) oa X C ob (st_coor s') (st_conn s') (last (st_map s') []) /\
     coor = st_coor s' /\ conn = st_conn s'.
Proof.
  intros Hne Hi H. unfold Stitch_push_back in H.
  assert (Hlm : length (st_map s) <> 0).
  { rewrite (un_nodemaps _ _ _ _ _ _ (si_union _ _ _ Hi)). destruct meshes; [congruence|discriminate]. }
  destruct (Nat.eqb_spec (length (st_map s)) 0); [contradiction|].
  set (ov := overlapping close (st_coor s) X) in *.
  destruct (ManualStitch close (st_coor s) (st_conn s) (map fst ov) X C (map snd ov) false) as [m| | |] eqn:Em;
    cbn [bind] in H; try discriminate.
  destruct (ManualStitch_inv _ _ _ _ _ _ _ _ _ Em) as [Hl [Hn [Hrb [Hcr _]]]].
  assert (W : wf_overlap (length (st_coor s)) (length X) (map fst ov) (map snd ov)).
  { split; [exact Hl|]. split; [exact Hn|]. split; [intros a Ha; now apply (overlapping_range_a _ X)|exact Hrb]. }
  destruct (ManualStitch_ok close (st_coor s) (st_conn s) (map fst ov) X C (map snd ov) false W Hcr) as [m' [Em' [D _]]];
    [discriminate|].
  rewrite Em in Em'. inversion Em'; subst m'. split.
  - eapply append_mesh_inv; eauto. intros k a b p q H1 H2 H3 H4. right.
    eapply overlapping_positions; eauto.
  - unfold append_mesh in H.
    destruct (get (st_off s) _); cbn [bind] in H; try discriminate.
    destruct (get (st_nel s) _); cbn [bind] in H; try discriminate.
    inversion H; subst s'; clear H. cbn [st_coor st_conn st_map].
    exists (map fst ov), (map snd ov), (ms_coor m), (ms_conn m).
    split; [|split; [exact Hl|split; [exact W|split; [|auto]]]].
    + clear. induction ov as [|[i j] l IH]; simpl; congruence.
    + rewrite last_last. exact D.
Qed.

Lemma push_back_first X C : conn_in_range C (length X) ->
  exists s, Stitch_push_back close Stitch_new X C = Ok s /\ stitch_inv moved_close [(X, C)] s /\
    st_coor s = X.
Proof.
  intro Hc. eexists. split; [reflexivity|]. split; [|reflexivity]. split; simpl; auto.
  unfold ems_of. simpl. now apply union_one.
Qed.

Lemma run_snoc ms m : Stitch_run close (ms ++ [m]) =
  bind (Stitch_run close ms) (fun s => Stitch_push_back close s (fst m) (snd m)).
Proof.
  unfold Stitch_run. rewrite foldM_app. destruct (foldM _ ms Stitch_new) as [s| | |]; simpl; auto.
  destruct (Stitch_push_back close s (fst m) (snd m)); reflexivity.
Qed.

Lemma Stitch_run_inv ms : forall s, ms <> [] -> wf_meshes ms -> Stitch_run close ms = Ok s ->
  stitch_inv moved_close ms s.
Proof.
  induction ms as [|[X C] ms IH] using rev_ind; intros s Hne Hwf H; [congruence|].
  rewrite run_snoc in H. destruct (Stitch_run close ms) as [s0| | |] eqn:E; cbn [bind] in H; try discriminate.
  simpl in H. destruct ms as [|m ms].
  - unfold Stitch_run in E. simpl in E. inversion E; subst s0. simpl.
    destruct (push_back_first X C) as [s1 [E1 [I1 _]]]; [apply Hwf; now left|].
    rewrite E1 in H. now inversion H; subst.
  - assert (I0 : stitch_inv moved_close (m :: ms) s0).
    { apply IH; [discriminate| |reflexivity]. intros X' C' Hin. apply Hwf. apply in_or_app. now left. }
    destruct (push_back_inv (m :: ms) s0 X C s ltac:(discriminate) I0 H) as [I1 _]. exact I1.
Qed.

Lemma mapM_get_all {B} (l : list B) : mapM (get l) (seq 0 (length l)) = Ok l.
Proof.
  assert (G : forall (pre l : list B), mapM (get (pre ++ l)) (seq (length pre) (length l)) = Ok l).
  { intros pre l0. revert pre. induction l0 as [|x l0 IH]; intro pre; simpl; [reflexivity|].
    unfold get at 1. rewrite nth_error_app2, Nat.sub_diag by lia. simpl.
    specialize (IH (pre ++ [x])). rewrite <- app_assoc in IH. simpl in IH.
    rewrite app_length, Nat.add_1_r in IH. rewrite IH. reflexivity. }
  apply (G []).
Qed.

Lemma elemmap_ems moved ms s i : stitch_inv moved ms s -> i < length ms ->
  Stitch_elemmap s i = get (ems_of (st_nel s)) i.
Proof.
  intros [U E O] Hi. unfold Stitch_elemmap, ems_of.
  assert (Hl : length (st_nel s) = length ms) by (rewrite E; apply map_length).
  destruct (get_lt (st_nel s) i) as [n Hn]; [lia|]. rewrite Hn. simpl.
  destruct (get_lt (st_off s) i) as [o Ho]; [rewrite O, offsets_length; lia|]. rewrite Ho. simpl.
  rewrite map_add_seq. unfold get. rewrite nth_error_map. apply get_Ok in Hn, Ho. rewrite O in Ho.
  now rewrite (nth_error_combine _ _ _ _ _ Ho Hn).
Qed.

Lemma stitch_maps moved ms s : stitch_inv moved ms s ->
  Stitch_nmesh s = length ms /\
  mapM (Stitch_nodemap s) (seq 0 (Stitch_nmesh s)) = Ok (st_map s) /\
  mapM (Stitch_elemmap s) (seq 0 (Stitch_nmesh s)) = Ok (ems_of (st_nel s)).
Proof.
  intros Hi. pose proof Hi as [U E O]. unfold Stitch_nmesh. rewrite (un_nodemaps _ _ _ _ _ _ U).
  split; [reflexivity|]. split.
  - rewrite <- (un_nodemaps _ _ _ _ _ _ U). apply mapM_get_all.
  - rewrite <- (mapM_get_all (ems_of (st_nel s))), (un_elemmaps _ _ _ _ _ _ U).
    assert (G : forall (f g : nat -> res (list nat)) l, (forall i, In i l -> f i = g i) -> mapM f l = mapM g l).
    { clear. intros f g l. induction l as [|x l IH]; intro H; simpl; [reflexivity|].
      rewrite H by (now left). destruct (g x); simpl; auto. rewrite IH; [reflexivity|]. intros; apply H; now right. }
    apply G. intros i Hin. apply in_seq in Hin. apply (elemmap_ems moved ms); [exact Hi|lia].
Qed.

Theorem Stitch_history : forall meshes s, meshes <> [] -> wf_meshes meshes ->
  Stitch_run close meshes = Ok s ->
  exists nodemaps elemmaps,
    Stitch_nmesh s = length meshes /\
    mapM (Stitch_nodemap s) (seq 0 (length meshes)) = Ok nodemaps /\
    mapM (Stitch_elemmap s) (seq 0 (length meshes)) = Ok elemmaps /\
    union_of (near close) meshes (st_coor s) (st_conn s) nodemaps elemmaps.
Proof.
  intros ms s Hne Hwf H. pose proof (Stitch_run_inv ms s Hne Hwf H) as Hi.
  destruct (stitch_maps _ _ _ Hi) as [H1 [H2 H3]].
  exists (st_map s), (ems_of (st_nel s)). rewrite H1 in H2, H3. repeat (split; [assumption|]). apply Hi.
Qed.

(** nodes of one mesh are not merged *)
Lemma stitched_NoDup ca na oa cb nb ob c n mb : @stitched A ca na oa cb nb ob c n mb ->
  wf_overlap (length ca) (length cb) oa ob -> NoDup oa -> NoDup mb.
Proof.
  intros D [Wl [Wn [Wa Wb]]] Ho. rewrite NoDup_nth_error. intros i j Hi Eij.
  rewrite (sd_map _ _ _ _ _ _ _ _ _ D) in Hi.
  destruct (nth_error mb i) as [m|] eqn:Em.
  2:{ apply nth_error_None in Em. rewrite (sd_map _ _ _ _ _ _ _ _ _ D) in Em. lia. }
  symmetry in Eij. assert (Hj : j < length cb).
  { rewrite <- (sd_map _ _ _ _ _ _ _ _ _ D). apply nth_error_Some. congruence. }
  assert (Hov : forall x m, nth_error mb x = Some m -> In x ob -> exists k, nth_error oa k = Some m /\ nth_error ob k = Some x).
  { intros x m' Hx Hin. apply In_nth_error in Hin. destruct Hin as [k Hk].
    destruct (nth_error oa k) as [a|] eqn:Ea.
    2:{ apply nth_error_None in Ea. assert (k < length ob) by (apply nth_error_Some; congruence). lia. }
    rewrite (sd_overlap _ _ _ _ _ _ _ _ _ D k a x Ea Hk) in Hx. inversion Hx; subst. eauto. }
  assert (Hnew : forall x m, nth_error mb x = Some m -> x < length cb -> ~ In x ob -> length ca <= m).
  { intros x m' Hx Hl Hni. destruct (nth_error cb x) as [r|] eqn:Er; [|apply nth_error_None in Er; lia].
    destruct (sd_new _ _ _ _ _ _ _ _ _ D x r Er Hni) as [m2 [E2 [G _]]]. rewrite Hx in E2. inversion E2; subst. exact G. }
  destruct (in_dec Nat.eq_dec i ob) as [Ii|Ii], (in_dec Nat.eq_dec j ob) as [Ij|Ij].
  - destruct (Hov i m Em Ii) as [k [K1 K2]]. destruct (Hov j m Eij Ij) as [k' [K3 K4]].
    assert (k = k') by (eapply NoDup_nth_error_inj; eauto). subst. congruence.
  - destruct (Hov i m Em Ii) as [k [K1 K2]]. pose proof (Hnew j m Eij Hj Ij).
    apply nth_error_In in K1. apply Wa in K1. lia.
  - destruct (Hov j m Eij Ij) as [k [K1 K2]]. pose proof (Hnew i m Em Hi Ii).
    apply nth_error_In in K1. apply Wa in K1. lia.
  - destruct (lt_eq_lt_dec i j) as [[L|L]|L]; [|exact L|].
    + pose proof (sd_order _ _ _ _ _ _ _ _ _ D i j m m Em Eij Ii Ij L). lia.
    + pose proof (sd_order _ _ _ _ _ _ _ _ _ D j i m m Eij Em Ij Ii L). lia.
Qed.

(** every node of the union is a node of one of the meshes *)
Lemma Stitch_rows : forall meshes s, wf_meshes meshes -> Stitch_run close meshes = Ok s ->
  forall p, In p (st_coor s) -> is_node meshes p.
Proof.
  induction meshes as [|[X C] ms IH] using rev_ind; intros s Hwf H p Hp.
  { unfold Stitch_run in H. simpl in H. inversion H; subst s. inversion Hp. }
  rewrite run_snoc in H. destruct (Stitch_run close ms) as [s0| | |] eqn:E; cbn [bind] in H; try discriminate.
  simpl in H. assert (Hwf0 : wf_meshes ms).
  { intros X' C' Hin. apply Hwf. apply in_or_app. now left. }
  assert (HX : In p X -> is_node (ms ++ [(X, C)]) p).
  { intro Hin. exists X, C. split; [apply in_or_app; right; now left|exact Hin]. }
  assert (Hold : In p (st_coor s0) -> is_node (ms ++ [(X, C)]) p).
  { intro Hin. destruct (IH s0 Hwf0 eq_refl p Hin) as [X' [C' [H1 H2]]]. exists X', C'. split; [apply in_or_app; now left|exact H2]. }
  destruct ms as [|m ms].
  - unfold Stitch_run in E. simpl in E. inversion E; subst s0. simpl in H. inversion H; subst s. apply HX. exact Hp.
  - assert (I0 : stitch_inv moved_close (m :: ms) s0) by (apply Stitch_run_inv; auto; discriminate).
    destruct (push_back_inv (m :: ms) s0 X C s ltac:(discriminate) I0 H) as [I1 [oa [ob [c [n [Eov [Hl [W [D [Ec En]]]]]]]]]].
    subst c. apply In_nth_error in Hp. destruct Hp as [k Hk].
    destruct (lt_dec k (length (st_coor s0))) as [L|L].
    + destruct (nth_error (st_coor s0) k) as [p'|] eqn:E'; [|apply nth_error_None in E'; lia].
      rewrite (sd_coor_a _ _ _ _ _ _ _ _ _ D k p' E') in Hk. inversion Hk; subst. apply Hold. eapply nth_error_In; eauto.
    + destruct (sd_covered _ _ _ _ _ _ _ _ _ D k) as [?|Hin]; [apply nth_error_Some; congruence|lia|].
      apply In_nth_error in Hin. destruct Hin as [b Hb].
      assert (Hlt : b < length X) by (rewrite <- (sd_map _ _ _ _ _ _ _ _ _ D); apply nth_error_Some; congruence).
      assert (Hni : ~ In b ob).
      { intro Hin. apply In_nth_error in Hin. destruct Hin as [j Hj].
        destruct (nth_error oa j) as [a|] eqn:Ea.
        - rewrite (sd_overlap _ _ _ _ _ _ _ _ _ D j a b Ea Hj) in Hb. inversion Hb; subst.
          apply nth_error_In in Ea. apply W in Ea. lia.
        - apply nth_error_None in Ea. assert (j < length ob) by (apply nth_error_Some; congruence). lia. }
      destruct (nth_error X b) as [r|] eqn:Er'; [|apply nth_error_None in Er'; lia].
      destruct (sd_new _ _ _ _ _ _ _ _ _ D b r Er' Hni) as [m2 [E2 [_ E3]]].
      rewrite Hb in E2. inversion E2; subst. rewrite Hk in E3. inversion E3; subst. apply HX. eapply nth_error_In; eauto.
Qed.

Lemma overlap_fst_NoDup meshes coor X : separated close meshes X -> (forall p, In p coor -> is_node meshes p) -> NoDup (map fst (overlapping close coor X)).
Proof.
  intros Hs Hrow. pose proof (overlapping_sorted close coor X) as Hsort.
  assert (Hnd : NoDup (overlapping close coor X)).
  { clear -Hsort. induction Hsort as [|x l Hs IH Hf]; constructor; [|exact IH].
    intro Hin. rewrite Forall_forall in Hf. specialize (Hf x Hin). unfold lex_lt in Hf. lia. }
  apply NoDup_map_inj; [exact Hnd|]. intros [i j] [i' j'] H1 H2 E. simpl in E. subst i'.
  apply overlapping_In in H1, H2. destruct H1 as [ra [rb [A1 [B1 C1]]]], H2 as [ra' [rb' [A2 [B2 C2]]]].
  rewrite A1 in A2. inversion A2; subst ra'. apply row_close_near in C1, C2.
  f_equal. apply (Hs j j' rb rb' ra); auto. apply Hrow. eapply nth_error_In; eauto.
Qed.

Theorem Stitch_injective : forall meshes s i X C nm, wf_meshes meshes ->
  Stitch_run close meshes = Ok s -> nth_error meshes i = Some (X, C) -> separated close meshes X ->
  Stitch_nodemap s i = Ok nm -> NoDup nm.
Proof.
  induction meshes as [|[X0 C0] ms IH] using rev_ind; intros s i X C nm Hwf H Hi Hsep Hnm; [destruct i; discriminate|].
  rewrite run_snoc in H. destruct (Stitch_run close ms) as [s0| | |] eqn:E; cbn [bind] in H; try discriminate.
  simpl in H. assert (Hwf0 : wf_meshes ms).
  { intros X' C' Hin. apply Hwf. apply in_or_app. now left. }
  destruct ms as [|m ms].
  - unfold Stitch_run in E. simpl in E. inversion E; subst s0. simpl in H. inversion H; subst s.
    unfold Stitch_nodemap in Hnm. apply get_Ok in Hnm. simpl in Hnm.
    destruct i as [|i]; [|destruct i; discriminate]. inversion Hnm. apply seq_NoDup.
  - assert (I0 : stitch_inv moved_close (m :: ms) s0) by (apply Stitch_run_inv; auto; discriminate).
    destruct (push_back_inv (m :: ms) s0 X0 C0 s ltac:(discriminate) I0 H) as [I1 [oa [ob [c [n [Eov [Hl [W [D _]]]]]]]]].
    assert (Emap : st_map s = st_map s0 ++ [last (st_map s) []]).
    { unfold Stitch_push_back in H. destruct (length (st_map s0) =? 0).
      - inversion H; subst s. cbn [st_map]. now rewrite last_last.
      - destruct (ManualStitch _ _ _ _ _ _ _ _) as [mm| | |]; cbn [bind] in H; try discriminate.
        unfold append_mesh in H.
        destruct (get (st_off s0) _); cbn [bind] in H; try discriminate.
        destruct (get (st_nel s0) _); cbn [bind] in H; try discriminate.
        inversion H; subst s. cbn [st_map]. now rewrite last_last. }
    unfold Stitch_nodemap in Hnm. rewrite Emap in Hnm. apply get_Ok in Hnm. apply nth_error_snoc in Hnm.
    pose proof (un_nodemaps _ _ _ _ _ _ (si_union _ _ _ I0)) as Hlm.
    apply nth_error_snoc in Hi.
    destruct Hnm as [[L1 Hnm]|[L1 Hnm]], Hi as [[L2 Hi]|[L2 Hi]]; try lia.
    + apply (IH s0 i X C nm Hwf0 eq_refl Hi); [|unfold Stitch_nodemap; now apply get_Ok].
      intros n1 n2 p p' q G1 G2 [X' [C' [G3 G4]]] G5 G6. apply (Hsep n1 n2 p p' q); auto.
      exists X', C'. split; [apply in_or_app; now left|exact G4].
    + inversion Hi; subst X0 C0. subst nm. eapply stitched_NoDup; eauto.
      assert (Eoa : map fst (overlapping close (st_coor s0) X) = oa).
      { rewrite Eov. now apply map_fst_combine'. }
      rewrite <- Eoa. apply (overlap_fst_NoDup ((m :: ms) ++ [(X, C)])); [exact Hsep|].
      intros p Hp. destruct (Stitch_rows (m :: ms) s0 Hwf0 E p Hp) as [X' [C' [G3 G4]]].
      exists X', C'. split; [apply in_or_app; now left|exact G4].
Qed.

(** ** success and exactness when closeness is an equivalence *)
Definition no_close_pair (coor : list (list A)) : Prop :=
  forall n n' p p', nth_error coor n = Some p -> nth_error coor n' = Some p' -> near close p p' -> n = n'.

Theorem Stitch_succeeds : forall meshes, meshes <> [] -> wf_meshes meshes -> close_equivalence close meshes ->
  (forall X C, In (X, C) meshes -> separated close meshes X) ->
  exists s, Stitch_run close meshes = Ok s /\ no_close_pair (st_coor s) /\
    (forall p, In p (st_coor s) -> exists X C, In (X, C) meshes /\ In p X).
Proof.
  induction meshes as [|[X C] ms IH] using rev_ind; intros Hne Hwf [Er [Es Et]] Hsep; [congruence|].
  assert (HX : In (X, C) (ms ++ [(X, C)])) by (apply in_or_app; right; now left).
  assert (Hsub : forall p, (exists X C, In (X, C) ms /\ In p X) -> exists X0 C0, In (X0, C0) (ms ++ [(X, C)]) /\ In p X0).
  { intros p [X' [C' [H1 H2]]]. exists X', C'. split; [apply in_or_app; now left|exact H2]. }
  assert (HnX : forall p, In p X -> exists X0 C0, In (X0, C0) (ms ++ [(X, C)]) /\ In p X0) by eauto.
  rewrite run_snoc. destruct ms as [|m ms].
  - unfold Stitch_run. simpl. eexists. split; [reflexivity|]. cbn [st_coor]. split; [|exact HnX].
    intros n n' p p' H1 H2 H3. assert (Np' : is_node ([] ++ [(X, C)]) p') by (apply HnX; eapply nth_error_In; eauto).
    apply (Hsep X C HX n n' p p' p'); auto.
  - destruct IH as [s0 [E0 [N0 P0]]]; [discriminate| | | |].
    + intros X' C' Hin. apply Hwf. apply in_or_app. now left.
    + split; [|split].
      * intros p Hp. apply Er. now apply Hsub.
      * intros p q Hp Hq. apply Es; now apply Hsub.
      * intros p q r Hp Hq Hr. apply Et; now apply Hsub.
    + intros X' C' Hin n1 n2 p p' q G1 G2 G3 G5 G6. apply (Hsep X' C' ltac:(apply in_or_app; now left) n1 n2 p p' q); auto.
      now apply Hsub.
    + assert (I0 : stitch_inv moved_close (m :: ms) s0).
      { apply Stitch_run_inv; [discriminate| |exact E0]. intros X' C' Hin. apply Hwf. apply in_or_app. now left. }
      rewrite E0. cbn [bind fst snd].
      set (ov := overlapping close (st_coor s0) X).
      assert (Hnd : NoDup (map snd ov)).
      { assert (Hnd : NoDup ov).
        { pose proof (overlapping_sorted close (st_coor s0) X) as Hsort. fold ov in Hsort.
          clear -Hsort. induction Hsort as [|x l Hs IH Hf]; constructor; [|exact IH].
          intro Hin. rewrite Forall_forall in Hf. specialize (Hf x Hin). unfold lex_lt in Hf. lia. }
        apply NoDup_map_inj; [exact Hnd|]. intros [i j] [i' j'] H1 H2 E. simpl in E. subst j'.
        apply overlapping_In in H1, H2. destruct H1 as [ra [rb [A1 [B1 C1]]]], H2 as [ra' [rb' [A2 [B2 C2]]]].
        rewrite B1 in B2. inversion B2; subst rb'. apply row_close_near in C1, C2.
        f_equal. apply (N0 i i' ra ra' A1 A2).
        assert (Na : exists X0 C0, In (X0, C0) ((m :: ms) ++ [(X, C)]) /\ In ra X0) by (apply Hsub, P0; eapply nth_error_In; eauto).
        assert (Na' : exists X0 C0, In (X0, C0) ((m :: ms) ++ [(X, C)]) /\ In ra' X0) by (apply Hsub, P0; eapply nth_error_In; eauto).
        assert (Nb : exists X0 C0, In (X0, C0) ((m :: ms) ++ [(X, C)]) /\ In rb X0) by (apply HnX; eapply nth_error_In; eauto).
        apply (Et ra rb ra'); auto. }
      assert (W : wf_overlap (length (st_coor s0)) (length X) (map fst ov) (map snd ov)).
      { split; [now rewrite !map_length|]. split; [exact Hnd|].
        split; intros x Hx; [eapply overlapping_range_a|eapply overlapping_range_b]; eauto. }
      destruct (ManualStitch_ok close (st_coor s0) (st_conn s0) (map fst ov) X C (map snd ov) false W) as [mm [Em [D _]]];
        [apply Hwf; exact HX|discriminate|].
      destruct (append_mesh_total moved_close (m :: ms) s0 mm (length C) ltac:(discriminate) I0) as [s' Es'].
      exists s'. unfold Stitch_push_back. fold ov.
      destruct (Nat.eqb_spec (length (st_map s0)) 0) as [E|_].
      { rewrite (un_nodemaps _ _ _ _ _ _ (si_union _ _ _ I0)) in E. discriminate. }
      rewrite Em. cbn [bind]. split; [exact Es'|].
      assert (Ecoor : st_coor s' = ms_coor mm).
      { unfold append_mesh in Es'.
        destruct (get (st_off s0) _); cbn [bind] in Es'; try discriminate.
        destruct (get (st_nel s0) _); cbn [bind] in Es'; try discriminate. now inversion Es'. }
      rewrite Ecoor.
      (* every row of the new coordinates is an old one or a new node of X *)
      assert (Hrow : forall n p, nth_error (ms_coor mm) n = Some p ->
         (n < length (st_coor s0) /\ nth_error (st_coor s0) n = Some p) \/
         (exists b, nth_error X b = Some p /\ ~ In b (map snd ov) /\ nth_error (ms_map_b mm) b = Some n)).
      { intros n p Hp. destruct (lt_dec n (length (st_coor s0))) as [L|L].
        - left. split; [exact L|]. destruct (nth_error (st_coor s0) n) as [p'|] eqn:E'; [|apply nth_error_None in E'; lia].
          rewrite (sd_coor_a _ _ _ _ _ _ _ _ _ D n p' E') in Hp. congruence.
        - right. destruct (sd_covered _ _ _ _ _ _ _ _ _ D n) as [?|Hin]; [apply nth_error_Some; congruence|lia|].
          apply In_nth_error in Hin. destruct Hin as [b Hb]. exists b.
          assert (Hlt : b < length X) by (rewrite <- (sd_map _ _ _ _ _ _ _ _ _ D); apply nth_error_Some; congruence).
          assert (Hni : ~ In b (map snd ov)).
          { intro Hin. apply In_nth_error in Hin. destruct Hin as [k Hk].
            destruct (nth_error (map fst ov) k) as [a|] eqn:Ea.
            - rewrite (sd_overlap _ _ _ _ _ _ _ _ _ D k a b Ea Hk) in Hb. inversion Hb; subst.
              apply nth_error_In in Ea. apply W in Ea. lia.
            - apply nth_error_None in Ea. assert (k < length (map snd ov)) by (apply nth_error_Some; congruence).
              rewrite map_length in *. lia. }
          destruct (nth_error X b) as [r|] eqn:Er'; [|apply nth_error_None in Er'; lia].
          destruct (sd_new _ _ _ _ _ _ _ _ _ D b r Er' Hni) as [m2 [E2 [_ E3]]].
          rewrite Hb in E2. inversion E2; subst. split; [congruence|auto]. }
      assert (Hcross : forall n p b q, nth_error (st_coor s0) n = Some p -> nth_error X b = Some q ->
         ~ In b (map snd ov) -> near close q p -> False).
      { intros n p b q H1 H2 H3 H4. apply H3. apply in_map_iff. exists (n, b). split; [reflexivity|].
        apply overlapping_In. exists p, q. split; [exact H1|]. split; [exact H2|]. now apply row_close_near. }
      split.
      * intros n n' p p' H1 H2 H3. destruct (Hrow n p H1) as [[L1 R1]|[b [R1 [R2 R3]]]];
          destruct (Hrow n' p' H2) as [[L2 Q1]|[b' [Q1 [Q2 Q3]]]].
        -- apply (N0 n n' p p'); auto.
        -- exfalso. apply (Hcross n p b' p'); auto. apply Es; auto.
           ++ apply Hsub, P0. eapply nth_error_In; eauto.
           ++ apply HnX. eapply nth_error_In; eauto.
        -- exfalso. apply (Hcross n' p' b p); auto.
        -- assert (b = b').
           { assert (Np' : is_node ((m :: ms) ++ [(X, C)]) p') by (apply HnX; eapply nth_error_In; eauto).
             apply (Hsep X C HX b b' p p' p'); auto. }
           subst. congruence.
      * intros p Hp. apply In_nth_error in Hp. destruct Hp as [n Hn].
        destruct (Hrow n p Hn) as [[L1 R1]|[b [R1 _]]].
        -- apply Hsub, P0. eapply nth_error_In; eauto.
        -- apply HnX. eapply nth_error_In; eauto.
Qed.

Theorem Stitch_exact : forall meshes, meshes <> [] -> wf_meshes meshes -> close_equivalence close meshes ->
  (forall X C, In (X, C) meshes -> separated close meshes X) ->
  exists s, Stitch_run close meshes = Ok s /\
    forall i X C nm n p m i' X' C' nm' n' p' m',
      nth_error meshes i = Some (X, C) -> Stitch_nodemap s i = Ok nm -> nth_error X n = Some p -> nth_error nm n = Some m ->
      nth_error meshes i' = Some (X', C') -> Stitch_nodemap s i' = Ok nm' -> nth_error X' n' = Some p' -> nth_error nm' n' = Some m' ->
      (m = m' <-> near close p p').
Proof.
  intros ms Hne Hwf Heq Hsep. destruct (Stitch_succeeds ms Hne Hwf Heq Hsep) as [s [E [Hn Hp]]].
  exists s. split; [exact E|]. intros i X C nm n p m i' X' C' nm' n' p' m' H1 H2 H3 H4 H1' H2' H3' H4'.
  destruct (Stitch_history ms s Hne Hwf E) as [nms [ems [_ [Enm [_ U]]]]].
  pose proof (Stitch_run_inv ms s Hne Hwf E) as Hi. pose proof (si_union _ _ _ Hi) as U'.
  unfold Stitch_nodemap in H2, H2'. apply get_Ok in H2, H2'.
  destruct (un_position _ _ _ _ _ _ U' i X C nm n m p H1 H2 H4 H3) as [q [Q1 Q2]].
  destruct (un_position _ _ _ _ _ _ U' i' X' C' nm' n' m' p' H1' H2' H4' H3') as [q' [Q1' Q2']].
  destruct Heq as [Er [Es Et]].
  assert (Np : exists X0 C0, In (X0, C0) ms /\ In p X0).
  { exists X, C. split; eapply nth_error_In; eauto. }
  assert (Np' : exists X0 C0, In (X0, C0) ms /\ In p' X0).
  { exists X', C'. split; eapply nth_error_In; eauto. }
  assert (Nq : exists X0 C0, In (X0, C0) ms /\ In q X0) by (apply Hp; eapply nth_error_In; eauto).
  assert (Nq' : exists X0 C0, In (X0, C0) ms /\ In q' X0) by (apply Hp; eapply nth_error_In; eauto).
  assert (Cpq : near close p q) by (destruct Q2 as [->|Q2]; [apply Er|]; auto).
  assert (Cpq' : near close p' q') by (destruct Q2' as [->|Q2']; [apply Er|]; auto).
  split.
  - intro Em. subst m'. rewrite Q1 in Q1'. inversion Q1'; subst q'.
    apply (Et p q p'); auto.
  - intro Hc. apply (Hn m m' q q' Q1 Q1'). apply (Et q p q'); auto. apply (Et p p' q'); auto.
Qed.

(** ** sets *)
Theorem Stitch_sets : forall meshes s sets, meshes <> [] -> wf_meshes meshes ->
  Stitch_run close meshes = Ok s -> length sets = length meshes ->
  (forall i X C set n, nth_error meshes i = Some (X, C) -> nth_error sets i = Some set -> In n set -> n < length X) ->
  exists ns, Stitch_nodeset_all s sets = Ok ns /\ StronglySorted lt ns /\
    (forall m, In m ns <-> exists i set nm n, nth_error sets i = Some set /\ Stitch_nodemap s i = Ok nm /\
        In n set /\ nth_error nm n = Some m) /\
    (forall i set nm, nth_error sets i = Some set -> Stitch_nodemap s i = Ok nm ->
        exists l, Stitch_nodeset s set i = Ok l /\ map (nth_error nm) set = map Some l).
Proof.
  intros ms s sets Hne Hwf H Hl Hr. pose proof (Stitch_run_inv ms s Hne Hwf H) as Hi.
  pose proof (si_union _ _ _ Hi) as U. pose proof (un_nodemaps _ _ _ _ _ _ U) as Lm.
  assert (Hone : forall i set, nth_error sets i = Some set -> exists nm, nth_error (st_map s) i = Some nm /\
     (forall n, In n set -> n < length nm) /\
     Stitch_nodeset s set i = Ok (map (fun n => nth n nm 0) set)).
  { intros i set Hs. assert (Hil : i < length ms) by (rewrite <- Hl; apply nth_error_Some; congruence).
    destruct (nth_error ms i) as [[X C]|] eqn:Em; [|apply nth_error_None in Em; lia].
    destruct (nth_error (st_map s) i) as [nm|] eqn:En; [|apply nth_error_None in En; lia].
    pose proof (un_nnode _ _ _ _ _ _ U i X C nm Em En) as Ln.
    assert (Hlt : forall n, In n set -> n < length nm) by (intros n Hn; rewrite Ln; eapply Hr; eauto).
    exists nm. split; [reflexivity|]. split; [exact Hlt|].
    unfold Stitch_nodeset, get at 1. rewrite En. cbn [bind]. unfold renum_map. apply mapM_Ok.
    intros n Hn. unfold get. now rewrite (nth_error_nth' nm 0) by auto. }
  unfold Stitch_nodeset_all.
  rewrite (mapM_Ok _ (enum sets) (fun is => map (fun n => nth n (nth (fst is) (st_map s) []) 0) (snd is))).
  2:{ intros [i set] Hin. apply enum_In in Hin. destruct (Hone i set Hin) as [nm [En [_ Eq]]]. simpl.
      rewrite Eq. now rewrite (nth_error_nth _ _ [] En). }
  cbn [bind]. eexists. split; [reflexivity|]. split; [apply unique_sorted|]. split.
  - intro m. rewrite unique_In, In_concat. split.
    + intros [r [Hr1 Hr2]]. apply in_map_iff in Hr1. destruct Hr1 as [[i set] [<- Hin]]. apply enum_In in Hin.
      destruct (Hone i set Hin) as [nm [En [Hlt _]]]. simpl in Hr2. rewrite (nth_error_nth _ _ [] En) in Hr2.
      apply in_map_iff in Hr2. destruct Hr2 as [n [En2 Hn]]. exists i, set, nm, n.
      split; [exact Hin|]. split; [now apply get_Ok|]. split; [exact Hn|].
      rewrite <- En2. apply nth_error_nth'. auto.
    + intros [i [set [nm [n [H1 [H2 [H3 H4]]]]]]]. apply get_Ok in H2.
      exists (map (fun n => nth n (nth i (st_map s) []) 0) set). split.
      * apply in_map_iff. exists (i, set). split; [reflexivity|]. now apply enum_In.
      * apply in_map_iff. exists n. split; [|exact H3]. rewrite (nth_error_nth _ _ [] H2). now apply nth_error_nth.
  - intros i set nm Hs Hnm. destruct (Hone i set Hs) as [nm' [En [Hlt Eq]]]. apply get_Ok in Hnm.
    rewrite Hnm in En. inversion En; subst nm'. eexists. split; [exact Eq|]. rewrite map_map.
    apply map_ext_in. intros n Hn. apply nth_error_nth'. auto.
Qed.

Theorem Stitch_elemsets : forall meshes s sets, meshes <> [] -> wf_meshes meshes ->
  Stitch_run close meshes = Ok s -> length sets = length meshes ->
  (forall i X C set e, nth_error meshes i = Some (X, C) -> nth_error sets i = Some set -> In e set -> e < length C) ->
  exists parts, Stitch_elemset_all s sets = Ok (concat parts) /\ length parts = length sets /\
    (forall i set part em, nth_error sets i = Some set -> nth_error parts i = Some part ->
        Stitch_elemmap s i = Ok em ->
        Stitch_elemset s set i = Ok part /\ map (nth_error em) set = map Some part).
Proof.
  intros ms s sets Hne Hwf H Hl Hr. pose proof (Stitch_run_inv ms s Hne Hwf H) as Hi.
  pose proof Hi as [U E O].
  assert (Ln : length (st_nel s) = length ms) by (rewrite E; apply map_length).
  assert (Hone : forall i set, nth_error sets i = Some set -> exists o, nth_error (st_off s) i = Some o /\
      Stitch_elemset s set i = Ok (map (fun e => e + o) set)).
  { intros i set Hs. assert (Hil : i < length ms) by (rewrite <- Hl; apply nth_error_Some; congruence).
    destruct (get_lt (st_off s) i) as [o Ho]; [rewrite O, offsets_length; lia|].
    exists o. unfold Stitch_elemset. rewrite Ho. apply get_Ok in Ho. auto. }
  exists (map (fun is => map (fun e => e + nth (fst is) (st_off s) 0) (snd is)) (enum sets)).
  split; [|split].
  - unfold Stitch_elemset_all. rewrite (mapM_Ok _ (enum sets) (fun is => map (fun e => e + nth (fst is) (st_off s) 0) (snd is))); [reflexivity|].
    intros [i set] Hin. apply enum_In in Hin. destruct (Hone i set Hin) as [o [Ho Eq]]. simpl. rewrite Eq.
    now rewrite (nth_error_nth _ _ 0 Ho).
  - now rewrite map_length, enum_length.
  - intros i set part em Hs Hp Hem. rewrite nth_error_map, enum_nth, Hs in Hp. simpl in Hp. inversion Hp; subst part.
    destruct (Hone i set Hs) as [o [Ho Eq]]. rewrite (nth_error_nth _ _ 0 Ho). split; [exact Eq|].
    assert (Hil : i < length ms) by (rewrite <- Hl; apply nth_error_Some; congruence).
    destruct (nth_error ms i) as [[X C]|] eqn:Em; [|apply nth_error_None in Em; lia].
    unfold Stitch_elemmap in Hem. destruct (get (st_nel s) i) as [n| | |] eqn:En; cbn [bind] in Hem; try discriminate.
    unfold get in Hem. rewrite Ho in Hem. cbn [bind] in Hem. inversion Hem; subst em. apply get_Ok in En.
    rewrite E, nth_error_map, Em in En. simpl in En. inversion En; subst n.
    rewrite map_map. apply map_ext_in. intros e He. rewrite nth_error_map, nth_error_seq.
    assert (e < length C) by (eapply Hr; eauto). destruct (Nat.ltb_spec e (length C)); [reflexivity|lia].
Qed.
End H.
