(** Proofs about periodic tyings. *)
From Coq Require Import Reals Lra.
From Verif Require Import Base Spec Sums Spec_Vector Spec_Tyings Model_Numbering Proof_Numbering Model_Vector Proof_Vector Model_VectorPartitioned Proof_VectorPartitioned Model_Sparse Model_Tyings.

(** ** sums over 0/1 indicators *)
Lemma ind_and a b : ind (a && b) = (ind a * ind b)%R.
Proof. destruct a, b; unfold ind; simpl; lra. Qed.
Lemma ind_true_eq b c : (b = true <-> c = true) -> ind b = ind c.
Proof. destruct b, c; intros [H1 H2]; try reflexivity; [discriminate H1|discriminate H2]; reflexivity. Qed.

(** ** reorder *)
Lemma Reorder_apply2_spec args r l n d : NoDup (concat args) -> Reorder args = Ok r -> shape2 l n d ->
  (forall a, In a (concat l) -> In a (concat args)) ->
  exists m, Reorder_apply2 r l = Ok m /\ shape2 m n d /\
    forall i j, i < n -> j < d -> nth_error (concat args) (idx2 m i j) = Some (idx2 l i j).
Proof.
  intros Hn Er Hs Hin. destruct (Reorder_Ok args Hn) as [r' [Er' [Hr _]]]. rewrite Er in Er'. injection Er' as Er'. rewrite <- Er' in Hr.
  set (f := fun a => match nth_error r a with Some (Some k) => k | _ => 0 end).
  assert (Hf : forall a, In a (concat l) -> get_init r a = Ok (f a) /\ nth_error (concat args) (f a) = Some a).
  { intros a Ha. apply Hin in Ha. apply In_nth_error in Ha. destruct Ha as [k Hk]. pose proof (Hr k a Hk) as E. unfold f. rewrite E.
    split; [now apply get_init_Some|exact Hk]. }
  exists (map (map f) l). split.
  { apply mapM_Ok. intros row Hrow. apply mapM_Ok. intros a Ha. apply Hf. apply in_concat. eauto. }
  split.
  - destruct Hs as [L H]. split; [now rewrite map_length|]. intros row Hrow. apply in_map_iff in Hrow.
    destruct Hrow as [r0 [<- H0]]. rewrite map_length. auto.
  - intros i j Hi Hj. assert (E : idx2 (map (map f) l) i j = f (idx2 l i j)).
    { unfold idx2, nth2. rewrite (nth_error_nth (map (map f) l) i [] (x := map f (nth i l []))).
      - apply nth_error_nth. rewrite nth_error_map. rewrite (nth_error_nth' _ 0); [reflexivity|]. now rewrite (shape2_row l n d).
      - rewrite nth_error_map. rewrite (nth_error_nth' _ []); [reflexivity|]. destruct Hs; lia. }
    rewrite E. apply Hf. apply (In_concat_nth2 _ n d); eauto.
Qed.

Section Per.
Set Default Proof Using "All".
Variables (coor : list (list R)) (dofs control : list (list nat)) (ties : list (nat * nat)) (iip : list nat) (nnode ndim : nat).
Hypothesis H : periodic_input coor dofs control ties iip nnode ndim.
Notation dof := (idx2 dofs).
Let iid := concat (map (fun t => nth (snd t) dofs []) ties).
Let iii := setdiff1d (concat dofs) iid.
Let iiu := setdiff1d iii iip.
Let nties := length ties.

Lemma dep_rows : mapM (fun t => get dofs (snd t)) ties = Ok (map (fun t => nth (snd t) dofs []) ties).
Proof.
  apply mapM_Ok. intros [a b] Ht. apply get_nth. destruct (pi_dofs _ _ _ _ _ _ _ H) as [L _]. rewrite L.
  now apply (pi_ties _ _ _ _ _ _ _ H) in Ht.
Qed.

Lemma iid_shape : shape2 (map (fun t => nth (snd t) dofs []) ties) nties ndim.
Proof.
  split; [apply map_length|]. intros r Hr. apply in_map_iff in Hr. destruct Hr as [[a b] [<- Ht]].
  apply (shape2_row dofs nnode ndim); [apply H|]. now apply (pi_ties _ _ _ _ _ _ _ H) in Ht.
Qed.

Lemma iid_nth s a b j : nth_error ties s = Some (a, b) -> j < ndim -> nth_error iid (s * ndim + j) = Some (dof b j).
Proof.
  intros Hs Hj. unfold iid. rewrite (nth_error_concat_map _ ndim nties iid_shape) by exact Hj.
  unfold at2. rewrite nth_error_map, Hs. simpl. unfold idx2, nth2. apply nth_error_nth'.
  rewrite (shape2_row dofs nnode ndim); [exact Hj|apply H|]. apply nth_error_In in Hs. now apply (pi_ties _ _ _ _ _ _ _ H) in Hs.
Qed.

Lemma iid_length : length iid = nties * ndim.
Proof. apply shape2_concat_length, iid_shape. Qed.

Lemma iid_In d : In d iid <-> dependent dofs ndim ties d.
Proof.
  split.
  - intro Hd. apply In_nth_error in Hd. destruct Hd as [k Hk].
    assert (Hlt : k < nties * ndim) by (rewrite <- iid_length; apply nth_error_Some; congruence).
    assert (Hnd : 0 < ndim) by nia.
    pose proof (Nat.div_mod k ndim) as Hdm. pose proof (Nat.mod_upper_bound k ndim) as Hmu.
    assert (Hs : k / ndim < nties) by (apply Nat.div_lt_upper_bound; lia).
    destruct (nth_error ties (k / ndim)) as [[a b]|] eqn:E; [|apply nth_error_None in E; unfold nties in Hs; lia].
    exists a, b, (k mod ndim). split; [now apply nth_error_In in E|]. split; [lia|].
    pose proof (iid_nth (k / ndim) a b (k mod ndim) E) as Hn. replace (k / ndim * ndim + k mod ndim) with k in Hn by lia.
    assert (Some d = Some (dof b (k mod ndim))) by (rewrite <- Hk; apply Hn; lia). congruence.
  - intros [a [b [i [Ht [Hi E]]]]]. apply In_nth_error in Ht. destruct Ht as [s Hs]. rewrite <- E.
    eapply nth_error_In. now apply (iid_nth s a b i).
Qed.

Lemma iid_NoDup : NoDup iid.
Proof.
  apply NoDup_nth_error. intros k k' Hk E. rewrite iid_length in Hk.
  assert (Hk' : k' < nties * ndim).
  { rewrite <- iid_length. apply nth_error_Some. rewrite <- E. apply nth_error_Some. rewrite iid_length. exact Hk. }
  assert (Hnd : 0 < ndim) by nia.
  pose proof (Nat.div_mod k ndim) as D1. pose proof (Nat.mod_upper_bound k ndim) as M1.
  pose proof (Nat.div_mod k' ndim) as D2. pose proof (Nat.mod_upper_bound k' ndim) as M2.
  assert (S1 : k / ndim < nties) by (apply Nat.div_lt_upper_bound; lia).
  assert (S2 : k' / ndim < nties) by (apply Nat.div_lt_upper_bound; lia).
  destruct (nth_error ties (k / ndim)) as [[a b]|] eqn:E1; [|apply nth_error_None in E1; unfold nties in S1; lia].
  destruct (nth_error ties (k' / ndim)) as [[a' b']|] eqn:E2; [|apply nth_error_None in E2; unfold nties in S2; lia].
  pose proof (iid_nth _ _ _ (k mod ndim) E1) as N1. pose proof (iid_nth _ _ _ (k' mod ndim) E2) as N2.
  replace (k / ndim * ndim + k mod ndim) with k in N1 by lia. replace (k' / ndim * ndim + k' mod ndim) with k' in N2 by lia.
  destruct (pi_dep _ _ _ _ _ _ _ H _ _ _ _ _ _ (k mod ndim) (k' mod ndim) E1 E2) as [Q1 Q2]; try lia.
  { assert (Some (dof b (k mod ndim)) = Some (dof b' (k' mod ndim))); [|congruence]. rewrite <- N1, <- N2 by lia. exact E. }
Qed.

Lemma iiu_In d : In d iiu <-> In d (concat dofs) /\ ~ dependent dofs ndim ties d /\ ~ In d iip.
Proof. unfold iiu, iii. rewrite !setdiff1d_In, iid_In. tauto. Qed.

Lemma per_NoDup : NoDup (concat [iiu; iip; iid]).
Proof.
  simpl. rewrite app_nil_r. apply NoDup_app_intro; [apply setdiff1d_NoDup| |].
  - apply NoDup_app_intro; [apply (pi_iip1 _ _ _ _ _ _ _ H)|apply iid_NoDup|]. intros d Hd. rewrite iid_In.
    now apply (pi_iip2 _ _ _ _ _ _ _ H).
  - intros d Hd Hin. apply iiu_In in Hd. apply in_app_or in Hin. rewrite iid_In in Hin. tauto.
Qed.

Lemma per_nni : length iii = length iiu + length iip.
Proof.
  rewrite <- app_length. apply Permutation_length. apply NoDup_Permutation.
  - apply setdiff1d_NoDup.
  - pose proof per_NoDup as P. simpl in P. rewrite app_nil_r, app_assoc in P. now apply NoDup_app_inv in P.
  - intro d. rewrite in_app_iff, iiu_In. unfold iii. rewrite setdiff1d_In, iid_In.
    destruct (in_dec Nat.eq_dec d iip) as [Hd|Hd]; [|tauto].
    pose proof (pi_iip2 _ _ _ _ _ _ _ H d Hd). tauto.
Qed.

Lemma per_all d : In d (concat dofs) -> In d (concat [iiu; iip; iid]).
Proof.
  intro Hd. simpl. rewrite app_nil_r, !in_app_iff, iiu_In, iid_In.
  destruct (in_dec Nat.eq_dec d iid) as [Hi|Hi]; [apply iid_In in Hi; tauto|rewrite iid_In in Hi].
  destruct (in_dec Nat.eq_dec d iip); tauto.
Qed.

Lemma per_new : exists t, new_Periodic coor ndim dofs control ties iip = Ok t /\
  tp_nnu t = length iiu /\ tp_nnp t = length iip /\ tp_nni t = length iii /\ tp_nnd t = nties * ndim /\ tp_ndim t = ndim /\
  tp_tyings t = ties /\ tp_coor t = coor /\ shape2 (tp_dofs t) nnode ndim /\ shape2 (tp_control t) ndim ndim /\
  (forall m i, m < nnode -> i < ndim -> nth_error (concat [iiu; iip; iid]) (idx2 (tp_dofs t) m i) = Some (dof m i)) /\
  (forall j k, j < ndim -> k < ndim -> nth_error (concat [iiu; iip; iid]) (idx2 (tp_control t) j k) = Some (idx2 control j k)).
Proof.
  destruct (Reorder_Ok [iiu; iip; iid] per_NoDup) as [r [Er _]].
  destruct (Reorder_apply2_spec _ r dofs nnode ndim per_NoDup Er (pi_dofs _ _ _ _ _ _ _ H)) as [d [Ed [Sd Vd]]].
  { intros a. apply per_all. }
  destruct (Reorder_apply2_spec _ r control ndim ndim per_NoDup Er (pi_control _ _ _ _ _ _ _ H)) as [c [Ec [Sc Vc]]].
  { intros a Ha. apply per_all. apply (In_concat_nth2 _ ndim ndim) in Ha; [|apply H].
    destruct Ha as [j [k [Hj [Hk <-]]]]. now apply (pi_ctrl _ _ _ _ _ _ _ H). }
  unfold new_Periodic. rewrite dep_rows. cbn [bind]. fold iid. fold iii. fold iiu. rewrite Er. cbn [bind]. rewrite Ed. cbn [bind]. rewrite Ec. cbn [bind].
  eexists. split; [reflexivity|]. simpl tp_nnd. rewrite iid_length. cbn [tp_nnu tp_nnp tp_nni tp_ndim tp_tyings tp_coor tp_dofs tp_control].
  auto 15.
Qed.

Variable t : Periodic.
Hypothesis Et : new_Periodic coor ndim dofs control ties iip = Ok t.
Notation md := (idx2 (tp_dofs t)).
Notation mc := (idx2 (tp_control t)).

Lemma per_facts : tp_nnu t = length iiu /\ tp_nnp t = length iip /\ tp_nni t = tp_nnu t + tp_nnp t /\ tp_nnd t = nties * ndim /\ tp_ndim t = ndim /\
  tp_tyings t = ties /\ tp_coor t = coor /\ shape2 (tp_dofs t) nnode ndim /\ shape2 (tp_control t) ndim ndim /\
  (forall m i, m < nnode -> i < ndim -> nth_error (concat [iiu; iip; iid]) (md m i) = Some (dof m i)) /\
  (forall j k, j < ndim -> k < ndim -> nth_error (concat [iiu; iip; iid]) (mc j k) = Some (idx2 control j k)).
Proof.
  destruct per_new as [t' [E F]]. rewrite Et in E. injection E as E. rewrite <- E in F.
  pose proof per_nni as N. destruct F as [F1 [F2 [F3 F4]]]. split; [exact F1|]. split; [exact F2|]. split; [lia|exact F4].
Qed.

(** where a number ends up *)
Lemma per_pos k d : nth_error (concat [iiu; iip; iid]) k = Some d ->
  (k < tp_nnu t <-> In d iiu) /\ (tp_nnu t <= k < tp_nni t <-> In d iip) /\
  (tp_nni t <= k < tp_nni t + tp_nnd t <-> In d iid) /\ k < tp_nni t + tp_nnd t.
Proof.
  destruct per_facts as [N1 [N2 [N3 [N4 _]]]]. rewrite <- iid_length in N4. intro Hk.
  pose proof per_NoDup as P. simpl in Hk, P. rewrite app_nil_r in Hk, P.
  assert (X : forall d, ~ (In d iiu /\ In d iip) /\ ~ (In d iiu /\ In d iid) /\ ~ (In d iip /\ In d iid)).
  { intro x. apply NoDup_app_inv in P. destruct P as [_ [P2 P3]]. apply NoDup_app_inv in P2. destruct P2 as [_ [_ P4]].
    split; [|split]; intros [A B]; [apply (P3 x A)|apply (P3 x A)|apply (P4 x A B)]; apply in_or_app; auto. }
  destruct (X d) as [X1 [X2 X3]].
  destruct (Nat.lt_ge_cases k (length iiu)) as [L1|L1].
  - rewrite nth_error_app1 in Hk by exact L1. apply nth_error_In in Hk. repeat split; intros; try lia; tauto.
  - rewrite nth_error_app2 in Hk by exact L1.
    destruct (Nat.lt_ge_cases (k - length iiu) (length iip)) as [L2|L2].
    + rewrite nth_error_app1 in Hk by exact L2. apply nth_error_In in Hk. repeat split; intros; try lia; tauto.
    + rewrite nth_error_app2 in Hk by exact L2.
      assert (L3 : k - length iiu - length iip < length iid) by (apply nth_error_Some; congruence).
      apply nth_error_In in Hk. repeat split; intros; try lia; tauto.
Qed.

(** the renumbering *)
Lemma per_renumber :
  (forall m i n j, m < nnode -> i < ndim -> n < nnode -> j < ndim -> (md m i = md n j <-> dof m i = dof n j)) /\
  (forall m i, m < nnode -> i < ndim -> md m i < tp_nni t + tp_nnd t /\
     (tp_nnu t <= md m i < tp_nni t <-> In (dof m i) iip) /\
     (tp_nni t <= md m i <-> dependent dofs ndim ties (dof m i))) /\
  (forall s a b j, nth_error ties s = Some (a, b) -> j < ndim -> md b j = tp_nni t + (s * ndim + j)) /\
  (forall j k m i, j < ndim -> k < ndim -> m < nnode -> i < ndim -> (mc j k = md m i <-> idx2 control j k = dof m i)) /\
  (forall k, k < tp_nni t + tp_nnd t -> exists m i, m < nnode /\ i < ndim /\ md m i = k).
Proof.
  destruct per_facts as [N1 [N2 [N3 [N4 [_ [_ [_ [_ [_ [Hd Hc]]]]]]]]]].
  pose proof per_NoDup as P.
  assert (Inj : forall k k' d, nth_error (concat [iiu; iip; iid]) k = Some d -> nth_error (concat [iiu; iip; iid]) k' = Some d -> k = k').
  { intros k k' d. apply (NoDup_nth_error_inj _ k k' d P). }
  split; [|split; [|split; [|split]]].
  - intros m i n j Hm Hi Hn Hj. pose proof (Hd m i Hm Hi) as A. pose proof (Hd n j Hn Hj) as B. split; intro E.
    + rewrite E in A. congruence.
    + rewrite <- E in B. eapply Inj; eauto.
  - intros m i Hm Hi. destruct (per_pos _ _ (Hd m i Hm Hi)) as [P1 [P2 [P3 P4]]]. split; [exact P4|]. split; [exact P2|].
    rewrite <- iid_In. rewrite <- P3. lia.
  - intros s a b j Hs Hj. assert (Hb : b < nnode) by (apply nth_error_In in Hs; now apply (pi_ties _ _ _ _ _ _ _ H) in Hs).
    apply (Inj _ _ (dof b j)); [now apply Hd|]. simpl. rewrite app_nil_r.
    rewrite nth_error_app2 by lia. rewrite nth_error_app2 by lia.
    replace (_ - length iiu - length iip) with (s * ndim + j) by lia. now apply (iid_nth s a b j).
  - intros j k m i Hj Hk Hm Hi. pose proof (Hd m i Hm Hi) as A. pose proof (Hc j k Hj Hk) as B. split; intro E.
    + rewrite E in B. congruence.
    + rewrite E in B. eapply Inj; eauto.
  - intros k Hk. destruct (nth_error (concat [iiu; iip; iid]) k) as [d|] eqn:E.
    + assert (Hin : In d (concat dofs)).
      { apply nth_error_In in E. simpl in E. rewrite app_nil_r, !in_app_iff in E. destruct E as [E|[E|E]].
        - now apply iiu_In in E.
        - now apply (pi_iip2 _ _ _ _ _ _ _ H).
        - apply iid_In in E. destruct E as [a [b [i [Ht [Hi <-]]]]]. apply (In_concat_nth2 _ nnode ndim); [apply H|].
          exists b, i. split; [now apply (pi_ties _ _ _ _ _ _ _ H) in Ht|auto]. }
      apply (In_concat_nth2 _ nnode ndim) in Hin; [|apply H]. destruct Hin as [m [i [Hm [Hi Em]]]].
      exists m, i. split; [exact Hm|]. split; [exact Hi|]. apply (Inj _ _ d); [rewrite <- Em; now apply Hd|exact E].
    + apply nth_error_None in E. simpl in E. rewrite app_nil_r, !app_length, iid_length in E. lia.
Qed.

(** ** the tying matrices *)
Lemma get_md m i : m < nnode -> i < ndim -> get2 (tp_dofs t) m i = Ok (md m i).
Proof. intros. apply (get2_nth 0 _ nnode ndim); auto. apply per_facts. Qed.
Lemma get_mc j k : j < ndim -> k < ndim -> get2 (tp_control t) j k = Ok (mc j k).
Proof. intros. apply (get2_nth 0 _ ndim ndim); auto. apply per_facts. Qed.
Lemma get_coor m i : m < nnode -> i < ndim -> get2 coor m i = Ok (val2 coor m i).
Proof. intros. apply (get2_nth 0%R _ nnode ndim); auto. apply H. Qed.

Definition tni (s : nat) : nat := fst (nth s ties (0, 0)).
Definition tnd (s : nat) : nat := snd (nth s ties (0, 0)).
Lemma tie_lt s : s < nties -> tni s < nnode /\ tnd s < nnode.
Proof.
  intro Hs. apply (pi_ties _ _ _ _ _ _ _ H). unfold tni, tnd. rewrite <- surjective_pairing. now apply nth_In.
Qed.

(** the entries pushed for one tie and one direction *)
Definition trip (keep : nat -> bool) (shift s j : nat) : list (nat * nat * R) :=
  (if keep (md (tni s) j) then [(s * ndim + j, md (tni s) j - shift, 1%R)] else []) ++
  concat (map (fun k => if keep (mc j k) then [(s * ndim + j, mc j k - shift, (val2 coor (tnd s) k - val2 coor (tni s) k)%R)] else []) (seq 0 ndim)).

Lemma tie_triplets_Ok keep shift : tie_triplets t keep shift =
  Ok (concat (map (fun ij => trip keep shift (fst ij) (snd ij)) (list_prod (seq 0 nties) (seq 0 ndim)))).
Proof.
  unfold tie_triplets. destruct per_facts as [_ [_ [_ [_ [-> [-> [-> _]]]]]]]. fold nties.
  rewrite (mapM_Ok _ _ (fun ij => trip keep shift (fst ij) (snd ij))); [reflexivity|].
  intros [s j] Hin. apply in_prod_iff in Hin. rewrite !in_seq in Hin. cbn [fst snd].
  destruct (tie_lt s) as [T1 T2]; [lia|]. rewrite (get_nth (0, 0)) by (fold nties; lia). cbn [bind]. fold (tni s). fold (tnd s).
  rewrite get_md by lia. cbn [bind].
  rewrite (mapM_Ok _ _ (fun k => if keep (mc j k) then [(s * ndim + j, mc j k - shift, (val2 coor (tnd s) k - val2 coor (tni s) k)%R)] else [])).
  - reflexivity.
  - intros k Hk. apply in_seq in Hk. rewrite get_mc by lia. cbn [bind]. rewrite !get_coor by lia. reflexivity.
Qed.

(** the columns that occur are those of independent DOFs *)
Lemma cols_lt : (forall s j, s < nties -> j < ndim -> md (tni s) j < tp_nni t) /\ (forall j k, j < ndim -> k < ndim -> mc j k < tp_nni t).
Proof.
  destruct per_facts as [N1 [N2 [N3 [N4 [_ [_ [_ [_ [_ [Hd Hc]]]]]]]]]]. split.
  - intros s j Hs Hj. destruct (tie_lt s Hs) as [T1 T2]. destruct (per_pos _ _ (Hd (tni s) j T1 Hj)) as [_ [_ [P3 P4]]].
    destruct (Nat.lt_ge_cases (md (tni s) j) (tp_nni t)) as [|Hge]; [assumption|exfalso].
    assert (Hin : In (dof (tni s) j) iid) by (apply P3; lia). apply iid_In in Hin.
    revert Hin. apply (pi_indep _ _ _ _ _ _ _ H _ (tnd s)); [|exact Hj]. unfold tni, tnd. rewrite <- surjective_pairing. now apply nth_In.
  - intros j k Hj Hk. destruct (per_pos _ _ (Hc j k Hj Hk)) as [_ [_ [P3 P4]]].
    destruct (Nat.lt_ge_cases (mc j k) (tp_nni t)) as [|Hge]; [assumption|exfalso].
    assert (Hin : In (idx2 control j k) iid) by (apply P3; lia). apply iid_In in Hin.
    revert Hin. now apply (pi_ctrl _ _ _ _ _ _ _ H).
Qed.

Lemma in_trip keep shift s j x : In x (trip keep shift s j) ->
  fst (fst x) = s * ndim + j /\ ((keep (md (tni s) j) = true /\ snd (fst x) = md (tni s) j - shift) \/
     exists k, k < ndim /\ keep (mc j k) = true /\ snd (fst x) = mc j k - shift).
Proof.
  unfold trip. intro Hx. apply in_app_or in Hx. destruct Hx as [Hx|Hx].
  - destruct (keep (md (tni s) j)) eqn:K; [|destruct Hx]. destruct Hx as [<-|[]]. simpl. auto.
  - apply in_concat in Hx. destruct Hx as [l [Hl Hx]]. apply in_map_iff in Hl. destruct Hl as [k [<- Hk]]. apply in_seq in Hk.
    destruct (keep (mc j k)) eqn:K; [|destruct Hx]. destruct Hx as [<-|[]]. simpl. split; [reflexivity|]. right. exists k. split; [lia|auto].
Qed.

Lemma tie_matrix keep shift nc : (forall c, c < tp_nni t -> keep c = true -> c - shift < nc) ->
  exists a, bind (tie_triplets t keep shift) (setFromTriplets (tp_nnd t) nc) = Ok a /\ rows a = tp_nnd t /\ cols a = nc /\
  forall s j c, s < nties -> j < ndim -> ent a (s * ndim + j) c =
    (ind (keep (md (tni s) j) && (md (tni s) j - shift =? c)) +
     sumn ndim (fun k => ind (keep (mc j k) && (mc j k - shift =? c)) * (val2 coor (tnd s) k - val2 coor (tni s) k)))%R.
Proof.
  intro Hc. rewrite tie_triplets_Ok. cbn [bind]. unfold setFromTriplets.
  destruct per_facts as [_ [_ [_ [N4 _]]]]. destruct cols_lt as [C1 C2].
  match goal with |- context [forallb ?f ?l] => assert (F : forallb f l = true) end.
  { apply forallb_forall. intros x Hx. apply in_concat in Hx. destruct Hx as [l [Hl Hx]]. apply in_map_iff in Hl.
    destruct Hl as [[s j] [<- Hsj]]. apply in_prod_iff in Hsj. rewrite !in_seq in Hsj. simpl in Hx.
    destruct (in_trip _ _ _ _ _ Hx) as [R1 R2]. rewrite andb_true_iff, !Nat.ltb_lt. split.
    - rewrite R1, N4. nia.
    - destruct R2 as [[K ->]|[k [Hk [K ->]]]]; apply Hc; auto; [apply C1|apply C2]; lia. }
  rewrite F. eexists. split; [reflexivity|]. split; [reflexivity|]. split; [reflexivity|].
  intros s j c Hs Hj. cbn [ent]. rewrite <- flat_map_concat_map, sumL_flat_map, sumL_list_prod.
  match goal with |- _ = ?rhs => change ((sumn nties (fun s' => sumn ndim (fun j' => sumL (trip keep shift s' j')
     (fun x => ind ((fst (fst x) =? s * ndim + j)%nat && (snd (fst x) =? c)%nat) * snd x)))) = rhs)%R end.
  rewrite (sumn_ext _ _ (fun s' => ind (s' =? s)%nat * sumn ndim (fun j' => ind (j' =? j)%nat * sumL (trip keep shift s' j') (fun x => ind (snd (fst x) =? c)%nat * snd x)))%R).
  2:{ intros s' Hs'. rewrite <- sumn_scal. apply sumn_ext. intros j' Hj'. rewrite <- !sumL_scal. apply sumL_ext. intros x Hx.
      destruct (in_trip _ _ _ _ _ Hx) as [R1 _]. rewrite R1, ind_and.
      replace (s' * ndim + j' =? s * ndim + j) with ((s' =? s) && (j' =? j)).
      - rewrite ind_and. lra.
      - destruct (Nat.eqb_spec s' s), (Nat.eqb_spec j' j), (Nat.eqb_spec (s' * ndim + j') (s * ndim + j)); subst; simpl; try reflexivity; try lia; nia. }
  rewrite (sumn_delta nties s (fun s' => sumn ndim (fun j' => ind (j' =? j)%nat * sumL (trip keep shift s' j') (fun x => ind (snd (fst x) =? c)%nat * snd x))%R) Hs).
  rewrite (sumn_delta ndim j (fun j' => sumL (trip keep shift s j') (fun x => ind (snd (fst x) =? c)%nat * snd x)%R) Hj).
  unfold trip. rewrite sumL_app. f_equal.
  - destruct (keep (md (tni s) j)); simpl; unfold ind; repeat match goal with |- context [if ?b then _ else _] => destruct b end; simpl; lra.
  - rewrite <- flat_map_concat_map, sumL_flat_map. apply sumL_ext. intros k Hk.
    destruct (keep (mc j k)); simpl; unfold ind; repeat match goal with |- context [if ?b then _ else _] => destruct b end; simpl; lra.
Qed.

(** the constraint encoded by the tyings *)
Theorem Cdi_spec : exists C, Cdi t = Ok C /\ rows C = tp_nnd t /\ cols C = tp_nni t /\
  forall xi, length xi = tp_nni t -> exists y, mulvec C xi = Ok y /\ length y = tp_nnd t /\
    forall s a b j, nth_error ties s = Some (a, b) -> j < ndim ->
      val1 y (s * ndim + j) = (val1 xi (md a j) + sumn ndim (fun k => val1 xi (mc j k) * (val2 coor b k - val2 coor a k)))%R.
Proof.
  destruct cols_lt as [C1 C2].
  destruct (tie_matrix (fun _ => true) 0 (tp_nni t)) as [C [EC [RC [CC VC]]]]; [intros; lia|].
  exists C. split; [exact EC|]. split; [exact RC|]. split; [exact CC|]. intros xi L.
  unfold mulvec. rewrite L, CC, Nat.eqb_refl. eexists. split; [reflexivity|]. split; [rewrite map_length, seq_length; exact RC|].
  intros s a b j Hs Hj.
  assert (Hlt : s < nties) by (apply nth_error_Some; congruence).
  assert (Ea : tni s = a /\ tnd s = b) by (unfold tni, tnd; rewrite (nth_error_nth _ _ _ Hs); auto). destruct Ea as [Ea Eb].
  destruct per_facts as [_ [_ [_ [N4 _]]]].
  unfold val1 at 1. rewrite nth_map_seq by (rewrite RC, N4; nia).
  rewrite (sumn_ext _ _ (fun c => ind (md a j =? c)%nat * val1 xi c +
     sumn ndim (fun k => ind (mc j k =? c)%nat * (val1 xi c * (val2 coor b k - val2 coor a k))))%R).
  2:{ intros c Hc. rewrite VC by assumption. rewrite Ea, Eb. rewrite Rmult_plus_distr_r. f_equal.
      - cbn [andb]. now rewrite Nat.sub_0_r.
      - rewrite <- sumn_scal_r. apply sumn_ext. intros k Hk. cbn [andb]. rewrite Nat.sub_0_r. unfold val1. lra. }
  rewrite sumn_plus. f_equal.
  - apply sumn_delta'. rewrite <- Ea. now apply C1.
  - rewrite sumn_swap. apply sumn_ext. intros k Hk.
    apply (sumn_delta' (tp_nni t) (mc j k) (fun c => val1 xi c * (val2 coor b k - val2 coor a k))%R). now apply C2.
Qed.

Theorem Cdu_Cdp_spec : exists C U P, Cdi t = Ok C /\ Cdu t = Ok U /\ Cdp t = Ok P /\
  rows U = tp_nnd t /\ cols U = tp_nnu t /\ rows P = tp_nnd t /\ cols P = tp_nnp t /\
  forall r, r < tp_nnd t -> (forall c, c < tp_nnu t -> ent U r c = ent C r c) /\ (forall c, c < tp_nnp t -> ent P r c = ent C r (tp_nnu t + c)).
Proof.
  destruct per_facts as [N1 [N2 [N3 [N4 _]]]].
  destruct (tie_matrix (fun _ => true) 0 (tp_nni t)) as [C [EC [RC [CC VC]]]]; [intros; lia|].
  destruct (tie_matrix (fun c => c <? tp_nnu t) 0 (tp_nnu t)) as [U [EU [RU [CU VU]]]]; [intros c _ K; apply Nat.ltb_lt in K; lia|].
  destruct (tie_matrix (fun c => tp_nnu t <=? c) (tp_nnu t) (tp_nnp t)) as [P [EP [RP [CP VP]]]]; [intros c Hc K; apply Nat.leb_le in K; lia|].
  exists C, U, P. split; [exact EC|]. split; [exact EU|]. split; [exact EP|]. do 4 (split; [assumption|]).
  intros r Hr. rewrite N4 in Hr. assert (Hnd : 0 < ndim) by nia.
  pose proof (Nat.div_mod r ndim) as D. pose proof (Nat.mod_upper_bound r ndim) as M.
  assert (S1 : r / ndim < nties) by (apply Nat.div_lt_upper_bound; lia).
  replace r with (r / ndim * ndim + r mod ndim) by lia. split; intros c Hc.
  - rewrite VU, VC by lia. f_equal.
    + apply ind_true_eq. rewrite !andb_true_iff, Nat.ltb_lt, !Nat.eqb_eq, !Nat.sub_0_r. intuition lia.
    + apply sumn_ext. intros k Hk. f_equal. apply ind_true_eq. rewrite !andb_true_iff, Nat.ltb_lt, !Nat.eqb_eq, !Nat.sub_0_r. intuition lia.
  - rewrite VP, VC by lia. f_equal.
    + apply ind_true_eq. rewrite !andb_true_iff, Nat.leb_le, !Nat.eqb_eq, !Nat.sub_0_r. intuition lia.
    + apply sumn_ext. intros k Hk. f_equal. apply ind_true_eq. rewrite !andb_true_iff, Nat.leb_le, !Nat.eqb_eq, !Nat.sub_0_r. intuition lia.
Qed.
End Per.
Unset Default Proof Using.

(** ** Control *)
Lemma Control_spec coor dofs nnode ndim : shape2 coor nnode ndim -> shape2 dofs nnode ndim ->
  let c := new_Control coor nnode ndim dofs in
  shape2 (tc_coor c) (nnode + ndim) ndim /\ shape2 (tc_dofs c) (nnode + ndim) ndim /\ shape2 (tc_control_dofs c) ndim ndim /\
  tc_control_nodes c = seq nnode ndim /\
  (forall m i, m < nnode -> i < ndim -> val2 (tc_coor c) m i = val2 coor m i /\ idx2 (tc_dofs c) m i = idx2 dofs m i) /\
  (forall j k, j < ndim -> k < ndim -> val2 (tc_coor c) (nnode + j) k = 0%R /\
     idx2 (tc_dofs c) (nnode + j) k = idx2 (tc_control_dofs c) j k /\
     idx2 (tc_control_dofs c) j k = S (fold_right Nat.max 0 (concat dofs)) + (j * ndim + k)).
Proof.
  intros Hc Hd c.
  assert (Z : shape2 (repeat (repeat 0%R ndim) ndim) ndim ndim).
  { split; [apply repeat_length|]. intros r Hr. apply repeat_spec in Hr. subst. apply repeat_length. }
  assert (D : shape2 (tc_control_dofs c) ndim ndim).
  { simpl. pose proof (dofs_shape ndim ndim) as [L HL]. unfold Model_Numbering.dofs in *. split; [now rewrite map_length|].
    intros r Hr. apply in_map_iff in Hr. destruct Hr as [r0 [<- H0]]. rewrite map_length. auto. }
  assert (App : forall A (dd : A) (u w : list (list A)) n k d, shape2 u n d -> shape2 w k d -> shape2 (u ++ w) (n + k) d /\
     (forall m i, m < n -> nth2 dd (u ++ w) m i = nth2 dd u m i) /\ (forall m i, nth2 dd (u ++ w) (n + m) i = nth2 dd w m i)).
  { intros A dd u w n k d [L1 H1] [L2 H2]. split; [split; [rewrite app_length; lia|]|split].
    - intros r Hr. apply in_app_or in Hr. destruct Hr; auto.
    - intros m i Hm. unfold nth2. now rewrite app_nth1 by lia.
    - intros m i. unfold nth2. rewrite app_nth2 by lia. f_equal. f_equal. lia. }
  destruct (App R 0%R coor _ nnode ndim ndim Hc Z) as [A1 [A2 A3]].
  destruct (App nat 0 dofs _ nnode ndim ndim Hd D) as [B1 [B2 B3]].
  split; [exact A1|]. split; [exact B1|]. split; [exact D|]. split; [|split].
  - unfold c, new_Control, tc_control_nodes. assert (G : forall k s, map (fun i => nnode + i) (seq s k) = seq (nnode + s) k).
    { induction k as [|k IH]; intro s; simpl; [reflexivity|]. rewrite IH. now rewrite <- plus_n_Sm. }
    rewrite G. now rewrite Nat.add_0_r.
  - intros m i Hm Hi. split; [now apply A2|now apply B2].
  - intros j k Hj Hk. split; [|split].
    + unfold val2. simpl tc_coor. rewrite A3. unfold nth2.
      rewrite (nth_error_nth (repeat (repeat 0%R ndim) ndim) j [] (x := repeat 0%R ndim)); [apply val1_repeat|now apply nth_error_repeat_lt].
    + unfold idx2. simpl tc_dofs. apply B3.
    + pose proof (dofs_at ndim ndim j k Hj Hk) as E. unfold at2 in E. unfold idx2, nth2. simpl tc_control_dofs.
      unfold Model_Numbering.dofs in E. destruct (nth_error (reshape2 ndim ndim (seq 0 (ndim * ndim))) j) as [r|] eqn:Er; [|discriminate].
      rewrite (nth_error_nth _ j [] (x := map (fun d => d + (amax (concat dofs) + 1)) r)) by (rewrite nth_error_map, Er; reflexivity).
      apply nth_error_nth. rewrite nth_error_map, E. simpl. f_equal. unfold amax. lia.
Qed.
