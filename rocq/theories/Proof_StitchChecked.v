(** Proofs for the checked and unchecked queries on stitched meshes. *)
From Coq Require Import Reals.
From Verif Require Import Base Spec Spec_Stitch Spec_Vstack Model_Numbering Model_Topology Model_Stitch Model_Checked Model_StitchChecked Spec_StitchChecked.
From Verif Require Import Proof_Numbering Proof_Topology Proof_Stitch Proof_Stitch2 Proof_Vstack Proof_Checked.

Lemma amax_lt n set : (amax set <? n) = true <-> subset_of n set.
Proof.
  unfold subset_of. rewrite Nat.ltb_lt. split.
  - intro H. split; [lia|]. intros k Hk. apply amax_ge in Hk. lia.
  - intros [H0 H]. destruct set as [|k set]; [exact H0|]. apply H. apply amax_in. discriminate.
Qed.
Lemma amax_ge' n set : (amax set <? n) = false <-> ~ subset_of n set.
Proof. rewrite <- amax_lt. destruct (amax set <? n); intuition congruence. Qed.

Lemma mapM_throw {B C} (f : B -> res C) l b : (forall x, In x l -> (exists y, f x = Ok y) \/ f x = Throw) -> In b l -> f b = Throw -> mapM f l = Throw.
Proof.
  intros H Hb E. induction l as [|x l IH]; [contradiction|]. simpl.
  destruct (H x) as [[y Ey]|Ex]; [now left| |rewrite Ex; reflexivity]. rewrite Ey. simpl.
  destruct Hb as [->|Hb]; [congruence|]. rewrite IH; [reflexivity| |exact Hb]. intros; apply H; now right.
Qed.
Lemma mapM_none {B C} (f : B -> res C) l b : In b l -> (forall c, f b <> Ok c) -> forall c, mapM f l <> Ok c.
Proof.
  induction l as [|x l IH]; [contradiction|]. intros [->|Hb] H c; simpl.
  - destruct (f b) eqn:E; simpl; try discriminate. exfalso. now apply (H a).
  - destruct (f x); simpl; try discriminate. destruct (mapM f l) eqn:E; simpl; try discriminate. exfalso. now apply (IH Hb H a0).
Qed.

Lemma list_sum_firstn_S l : forall i n, nth_error l i = Some n -> list_sum (firstn (S i) l) = list_sum (firstn i l) + n.
Proof.
  induction l as [|x l IH]; intros i n E; [destruct i; discriminate|]. destruct i as [|i]; simpl in E.
  - inversion E; subst. simpl. lia.
  - rewrite !firstn_cons. cbn [list_sum fold_right]. change (fold_right Nat.add 0 (firstn (S i) l)) with (list_sum (firstn (S i) l)).
    change (fold_right Nat.add 0 (firstn i l)) with (list_sum (firstn i l)). rewrite (IH i n E). lia.
Qed.
Lemma offsets_nth l j : j < length l -> nth j (offsets l) 0 = list_sum (firstn j l).
Proof.
  intro Hj. unfold offsets. rewrite (nth_indep _ 0 (list_sum (firstn (length l) l))) by (rewrite map_length, seq_length; exact Hj).
  rewrite (map_nth (fun i => list_sum (firstn i l))). now rewrite seq_nth.
Qed.
Lemma offsets_S l i n : nth_error l i = Some n -> S i < length l -> nth (S i) (offsets l) 0 = nth i (offsets l) 0 + n.
Proof. intros E H. rewrite !offsets_nth by lia. now apply list_sum_firstn_S. Qed.
Lemma combine_app_eq {B C} (a a' : list B) (b b' : list C) : length a = length b -> combine (a ++ a') (b ++ b') = combine a b ++ combine a' b'.
Proof. revert b. induction a as [|x a IH]; intros [|y b] H; simpl in *; try discriminate; [reflexivity|]. f_equal. apply IH. lia. Qed.
Lemma enum_app {B} (l l' : list B) : enum (l ++ l') = enum l ++ combine (seq (length l) (length l')) l'.
Proof. unfold enum. rewrite app_length, seq_app. simpl. apply combine_app_eq. apply seq_length. Qed.
Lemma mapM_app {B C} (f : B -> res C) l l' : mapM f (l ++ l') = (do a <- mapM f l; do b <- mapM f l'; Ok (a ++ b)).
Proof.
  induction l as [|x l IH]; simpl; [destruct (mapM f l'); reflexivity|]. destruct (f x); simpl; auto. rewrite IH.
  destruct (mapM f l); simpl; auto. destruct (mapM f l'); reflexivity.
Qed.
Lemma concat_empties {B} k : concat (repeat (@nil B) k) = [].
Proof. induction k; simpl; auto. Qed.
Lemma mapM_empties {B} (f : nat * list B -> res (list nat)) k : forall o, (forall i, o <= i < o + k -> f (i, []) = Ok []) ->
  mapM f (combine (seq o (length (repeat (@nil B) k))) (repeat [] k)) = Ok (repeat [] k).
Proof.
  induction k as [|k IH]; intros o H; simpl; [reflexivity|]. rewrite H by lia. cbn [bind]. rewrite IH; [reflexivity|]. intros; apply H; lia.
Qed.

Section Q.
Context {A : Type}.
Notation mesh := (list (list A) * list (list nat))%type.
Variable moved : list A -> list A -> Prop.
Variable ms : list mesh.
Variable s : Stitch_t A.
Hypothesis Hi : stitch_inv moved ms s.

Lemma q_len : length (st_map s) = length ms.
Proof. exact (un_nodemaps _ _ _ _ _ _ (si_union _ _ _ Hi)). Qed.
Lemma q_nel_len : length (st_nel s) = length ms.
Proof. rewrite (si_nel _ _ _ Hi). apply map_length. Qed.
Lemma q_sizes_len : length (mesh_sizes ms) = length ms.
Proof. apply map_length. Qed.

(** everything the object knows of mesh [i] *)
Lemma q_mesh i : i < length ms -> exists nn ne nm o,
  nth_error (mesh_sizes ms) i = Some (nn, ne) /\ nth_error (st_map s) i = Some nm /\ length nm = nn /\
  nth_error (st_nel s) i = Some ne /\ nth_error (st_off s) i = Some o /\ nth_error (ems_of (st_nel s)) i = Some (seq o ne).
Proof.
  intro H. destruct (nth_error ms i) as [[X C]|] eqn:Em; [|apply nth_error_None in Em; lia].
  destruct (nth_error (st_map s) i) as [nm|] eqn:En; [|apply nth_error_None in En; rewrite q_len in En; lia].
  assert (Ho : i < length (st_off s)). { rewrite (si_off _ _ _ Hi), offsets_length, q_nel_len. exact H. }
  destruct (nth_error (st_off s) i) as [o|] eqn:Eo; [|apply nth_error_None in Eo; lia].
  assert (Ene : nth_error (st_nel s) i = Some (length C)). { rewrite (si_nel _ _ _ Hi), nth_error_map, Em. reflexivity. }
  exists (length X), (length C), nm, o. split; [unfold mesh_sizes; rewrite nth_error_map, Em; reflexivity|].
  split; [reflexivity|]. split; [exact (un_nnode _ _ _ _ _ _ (si_union _ _ _ Hi) i X C nm Em En)|].
  split; [exact Ene|]. split; [reflexivity|].
  unfold ems_of. rewrite nth_error_map. rewrite (si_off _ _ _ Hi) in Eo. now rewrite (nth_error_combine _ _ _ _ _ Eo Ene).
Qed.
Lemma q_ltb i : (i <? length (st_map s)) = true <-> i < length ms.
Proof. rewrite Nat.ltb_lt, q_len. tauto. Qed.
Lemma q_sizes i : ~ i < length ms -> nth_error (mesh_sizes ms) i = None.
Proof. intro H. apply nth_error_None. rewrite q_sizes_len. lia. Qed.

Definition nodes_of (set : list nat) (i : nat) : list nat := map (fun n => nth n (nth i (st_map s) []) 0) set.
Definition elems_of (set : list nat) (i : nat) : list nat := map (fun e => e + nth i (st_off s) 0) set.

Lemma nodeset_ok set i : admitted (mesh_sizes ms) (Nodeset set i) -> (forall ck, c_nodeset ck s set i = Ok (nodes_of set i)) /\
  exists nm, nth_error (st_map s) i = Some nm /\ mapped nm set (nodes_of set i).
Proof.
  intros [nn [ne [Es Hs]]]. assert (H : i < length ms). { rewrite <- q_sizes_len. apply nth_error_Some. congruence. }
  destruct (q_mesh i H) as [nn' [ne' [nm [o [E1 [E2 [E3 _]]]]]]]. assert (nn' = nn) by congruence. subst nn' nn.
  assert (R : renum_map nm set = Ok (map (fun n => nth n nm 0) set)).
  { unfold renum_map. apply mapM_Ok. intros n Hn. unfold get. now rewrite (nth_error_nth' nm 0) by (now apply Hs). }
  split.
  - intro ck. unfold c_nodeset, Stitch_nodeset. rewrite (proj2 (q_ltb i) H), assert_true. unfold get. rewrite E2.
    cbn [bind]. rewrite (proj2 (amax_lt _ _) Hs), assert_true, R. unfold nodes_of. rewrite (nth_error_nth _ _ [] E2).
    destruct ck; reflexivity.
  - exists nm. split; [exact E2|]. unfold mapped, nodes_of. rewrite (nth_error_nth _ _ [] E2), map_map.
    apply map_ext_in. intros n Hn. apply nth_error_nth'. now apply Hs.
Qed.
Lemma elemset_ok set i : admitted (mesh_sizes ms) (Elemset set i) -> (forall ck, c_elemset ck s set i = Ok (elems_of set i)) /\
  exists em, nth_error (ems_of (st_nel s)) i = Some em /\ mapped em set (elems_of set i).
Proof.
  intros [nn [ne [Es Hs]]]. assert (H : i < length ms). { rewrite <- q_sizes_len. apply nth_error_Some. congruence. }
  destruct (q_mesh i H) as [nn' [ne' [nm [o [E1 [_ [_ [E4 [E5 E6]]]]]]]]]. assert (ne' = ne) by congruence. subst ne'.
  split.
  - intro ck. unfold c_elemset, Stitch_elemset. rewrite (proj2 (q_ltb i) H), assert_true. unfold get. rewrite E4, E5.
    cbn [bind]. rewrite (proj2 (amax_lt _ _) Hs), assert_true. unfold elems_of. rewrite (nth_error_nth _ _ 0 E5).
    destruct ck; reflexivity.
  - exists (seq o ne). split; [exact E6|]. unfold mapped, elems_of. rewrite (nth_error_nth _ _ 0 E5), map_map.
    apply map_ext_in. intros e He. rewrite nth_error_seq. apply Hs in He. destruct (Nat.ltb_spec e ne); [f_equal|]; lia.
Qed.
Lemma nodeset_throw set i : ~ admitted (mesh_sizes ms) (Nodeset set i) -> c_nodeset true s set i = Throw.
Proof.
  intro N. unfold c_nodeset. destruct (i <? length (st_map s)) eqn:E; [|reflexivity]. rewrite assert_true.
  apply q_ltb in E. destruct (q_mesh i E) as [nn [ne [nm [o [E1 [E2 [E3 _]]]]]]]. unfold get. rewrite E2. cbn [bind].
  rewrite (proj2 (amax_ge' _ _)); [reflexivity|]. intro Hs. apply N. exists nn, ne. rewrite E3 in Hs. split; assumption.
Qed.
Lemma elemset_throw set i : ~ admitted (mesh_sizes ms) (Elemset set i) -> c_elemset true s set i = Throw.
Proof.
  intro N. unfold c_elemset. destruct (i <? length (st_map s)) eqn:E; [|reflexivity]. rewrite assert_true.
  apply q_ltb in E. destruct (q_mesh i E) as [nn [ne [nm [o [E1 [_ [_ [E4 _]]]]]]]]. unfold get. rewrite E4. cbn [bind].
  rewrite (proj2 (amax_ge' _ _)); [reflexivity|]. intro Hs. apply N. exists nn, ne. split; assumption.
Qed.
Lemma subset_dec n set : subset_of n set \/ ~ subset_of n set.
Proof. destruct (amax set <? n) eqn:E; [left; now apply amax_lt|right; now apply amax_ge']. Qed.
Lemma nodeset_dec set i : admitted (mesh_sizes ms) (Nodeset set i) \/ ~ admitted (mesh_sizes ms) (Nodeset set i).
Proof.
  simpl. destruct (nth_error (mesh_sizes ms) i) as [[nn ne]|] eqn:E.
  - destruct (subset_dec nn set) as [H|H]; [left; exists nn, ne; auto|right; intros [a [b [H1 H2]]]; congruence].
  - right. intros [a [b [H1 H2]]]. congruence.
Qed.
Lemma elemset_dec set i : admitted (mesh_sizes ms) (Elemset set i) \/ ~ admitted (mesh_sizes ms) (Elemset set i).
Proof.
  simpl. destruct (nth_error (mesh_sizes ms) i) as [[nn ne]|] eqn:E.
  - destruct (subset_dec ne set) as [H|H]; [left; exists nn, ne; auto|right; intros [a [b [H1 H2]]]; congruence].
  - right. intros [a [b [H1 H2]]]. congruence.
Qed.

Lemma each_node sets : admitted (mesh_sizes ms) (Nodesets sets) -> forall i set, nth_error sets i = Some set -> admitted (mesh_sizes ms) (Nodeset set i).
Proof.
  intros [H1 H2] i set E. assert (H : i < length sets) by (apply nth_error_Some; congruence).
  destruct (nth_error (mesh_sizes ms) i) as [[nn ne]|] eqn:Es; [|apply nth_error_None in Es; lia].
  exists nn, ne. split; [exact Es|]. eapply H2; eauto.
Qed.
Lemma each_elem sets : admitted (mesh_sizes ms) (Elemsets sets) -> forall i set, nth_error sets i = Some set -> admitted (mesh_sizes ms) (Elemset set i).
Proof.
  intros [H1 H2] i set E. assert (H : i < length sets) by (apply nth_error_Some; congruence).
  destruct (nth_error (mesh_sizes ms) i) as [[nn ne]|] eqn:Es; [|apply nth_error_None in Es; lia].
  exists nn, ne. split; [exact Es|]. eapply H2; eauto.
Qed.

Lemma ask_ok q : admitted (mesh_sizes ms) q -> exists a, (forall ck, ask ck s q = Ok a) /\ answer (st_map s) (ems_of (st_nel s)) q a.
Proof.
  intro H. destruct q as [i|i|set i|set i|sets|sets]; cbn [ask answer].
  - simpl in H. rewrite q_sizes_len in H. destruct (q_mesh i H) as [nn [ne [nm [o [E1 [E2 _]]]]]].
    exists nm. split; [|exact E2]. intro ck. unfold c_nodemap, Stitch_nodemap. rewrite (proj2 (q_ltb i) H), assert_true. unfold get. now rewrite E2.
  - simpl in H. rewrite q_sizes_len in H. destruct (q_mesh i H) as [nn [ne [nm [o [E1 [_ [_ [E4 [E5 E6]]]]]]]]].
    exists (seq o ne). split; [|exact E6]. intro ck. unfold c_elemmap, Stitch_elemmap. rewrite (proj2 (q_ltb i) H), assert_true. unfold get. rewrite E4, E5.
    cbn [bind]. now rewrite map_add_seq.
  - destruct (nodeset_ok set i H) as [H1 H2]. eauto.
  - destruct (elemset_ok set i H) as [H1 H2]. eauto.
  - pose proof (each_node sets H) as Hs. destruct H as [Hl _]. rewrite q_sizes_len in Hl.
    exists (unique (concat (map (fun is => nodes_of (snd is) (fst is)) (enum sets)))). split.
    + intro ck. unfold c_nodesets. rewrite q_len, Hl, Nat.eqb_refl, assert_true.
      rewrite (mapM_Ok _ (enum sets) (fun is => nodes_of (snd is) (fst is))); [reflexivity|].
      intros [i set] Hin. apply enum_In in Hin. apply (nodeset_ok set i (Hs i set Hin)).
    + split; [apply unique_sorted|]. intro m. rewrite unique_In, In_concat. split.
      * intros [r [H1 H2]]. apply in_map_iff in H1. destruct H1 as [[i set] [<- Hin]]. apply enum_In in Hin.
        destruct (nodeset_ok set i (Hs i set Hin)) as [_ [nm [En M]]]. cbn [fst snd] in *.
        apply In_nth_error in H2. destruct H2 as [k Hk].
        assert (Ek : nth_error (map (nth_error nm) set) k = nth_error (map Some (nodes_of set i)) k) by (now rewrite M).
        rewrite !nth_error_map, Hk in Ek. simpl in Ek. destruct (nth_error set k) as [n|] eqn:Esk; simpl in Ek; [|discriminate].
        exists i, set, nm, n. split; [exact Hin|]. split; [exact En|]. split; [eapply nth_error_In; eauto|]. congruence.
      * intros [i [set [nm [n [H1 [H2 [H3 H4]]]]]]]. exists (nodes_of set i). split.
        -- apply in_map_iff. exists (i, set). split; [reflexivity|]. now apply enum_In.
        -- unfold nodes_of. apply in_map_iff. exists n. split; [|exact H3]. rewrite (nth_error_nth _ _ [] H2). now apply nth_error_nth.
  - pose proof (each_elem sets H) as Hs. destruct H as [Hl _]. rewrite q_sizes_len in Hl.
    exists (concat (map (fun is => elems_of (snd is) (fst is)) (enum sets))). split.
    + intro ck. unfold c_elemsets. rewrite q_len, Hl, Nat.eqb_refl, assert_true.
      rewrite (mapM_Ok _ (enum sets) (fun is => elems_of (snd is) (fst is))); [reflexivity|].
      intros [i set] Hin. apply enum_In in Hin. apply (elemset_ok set i (Hs i set Hin)).
    + exists (map (fun is => elems_of (snd is) (fst is)) (enum sets)). split; [reflexivity|]. split; [now rewrite map_length, enum_length|].
      intros i set part em H1 H2 H3. rewrite nth_error_map, enum_nth, H1 in H2. simpl in H2. inversion H2; subst part.
      destruct (elemset_ok set i (Hs i set H1)) as [_ [em' [E M]]]. assert (em' = em) by congruence. subst em'. exact M.
Qed.

Lemma sets_bad (one : list nat -> nat -> query) (sets : list (list nat)) (pick : nat * nat -> nat) :
  length sets = length (mesh_sizes ms) ->
  (forall set i, admitted (mesh_sizes ms) (one set i) \/ ~ admitted (mesh_sizes ms) (one set i)) ->
  (forall set i, admitted (mesh_sizes ms) (one set i) <-> exists nn ne, nth_error (mesh_sizes ms) i = Some (nn, ne) /\ subset_of (pick (nn, ne)) set) ->
  ~ (forall i set nn ne, nth_error sets i = Some set -> nth_error (mesh_sizes ms) i = Some (nn, ne) -> subset_of (pick (nn, ne)) set) ->
  exists i set, nth_error sets i = Some set /\ ~ admitted (mesh_sizes ms) (one set i).
Proof.
  intros Hl Hd Ha N.
  assert (G : forall k, (exists i set, nth_error sets i = Some set /\ ~ admitted (mesh_sizes ms) (one set i)) \/
     (forall i set, i < k -> nth_error sets i = Some set -> admitted (mesh_sizes ms) (one set i))).
  { induction k as [|k IH]; [right; intros; lia|]. destruct IH as [IH|IH]; [now left|].
    destruct (nth_error sets k) as [set|] eqn:E.
    - destruct (Hd set k) as [D|D]; [right; intros i st Hik Est|left; eauto].
      destruct (Nat.eq_dec i k); [subst; congruence|]. apply IH; [lia|exact Est].
    - right. intros i st Hik Est. destruct (Nat.eq_dec i k); [subst; congruence|]. apply IH; [lia|exact Est]. }
  destruct (G (length sets)) as [G1|G1]; [exact G1|]. exfalso. apply N. intros i set nn ne H1 H2.
  assert (i < length sets) by (apply nth_error_Some; congruence).
  destruct (proj1 (Ha set i) (G1 i set H H1)) as [nn' [ne' [H3 H4]]]. congruence.
Qed.

Lemma ask_throw q : ~ admitted (mesh_sizes ms) q -> ask true s q = Throw.
Proof.
  intro N. destruct q as [i|i|set i|set i|sets|sets]; cbn [ask].
  - unfold c_nodemap. destruct (i <? length (st_map s)) eqn:E; [|reflexivity]. exfalso. apply N. simpl. rewrite q_sizes_len. now apply q_ltb.
  - unfold c_elemmap. destruct (i <? length (st_map s)) eqn:E; [|reflexivity]. exfalso. apply N. simpl. rewrite q_sizes_len. now apply q_ltb.
  - now apply nodeset_throw.
  - now apply elemset_throw.
  - unfold c_nodesets. destruct (Nat.eqb_spec (length sets) (length (st_map s))) as [E|E]; [|reflexivity]. rewrite assert_true.
    rewrite q_len, <- q_sizes_len in E.
    destruct (sets_bad Nodeset sets fst E nodeset_dec (fun _ _ => conj (fun H => H) (fun H => H))) as [i [set [H1 H2]]].
    { intro H. apply N. split; [exact E|]. exact H. }
    rewrite (mapM_throw _ _ (i, set)); [reflexivity| | |].
    + intros [j st] _. simpl. destruct (nodeset_dec st j) as [D|D]; [left; eexists; apply (nodeset_ok st j D)|right; now apply nodeset_throw].
    + now apply enum_In.
    + now apply nodeset_throw.
  - unfold c_elemsets. destruct (Nat.eqb_spec (length sets) (length (st_map s))) as [E|E]; [|reflexivity]. rewrite assert_true.
    rewrite q_len, <- q_sizes_len in E.
    destruct (sets_bad Elemset sets snd E elemset_dec (fun _ _ => conj (fun H => H) (fun H => H))) as [i [set [H1 H2]]].
    { intro H. apply N. split; [exact E|]. exact H. }
    rewrite (mapM_throw _ _ (i, set)); [reflexivity| | |].
    + intros [j st] _. simpl. destruct (elemset_dec st j) as [D|D]; [left; eexists; apply (elemset_ok st j D)|right; now apply elemset_throw].
    + now apply enum_In.
    + now apply elemset_throw.
Qed.

(** ** without assertions *)
Lemma rel_index i set : length ms <= i -> ask false s (Nodemap i) = Oob /\ ask false s (Elemmap i) = Oob /\
  ask false s (Nodeset set i) = Oob /\ ask false s (Elemset set i) = Oob.
Proof.
  intro H. assert (E1 : nth_error (st_map s) i = None) by (apply nth_error_None; rewrite q_len; lia).
  assert (E2 : nth_error (st_nel s) i = None) by (apply nth_error_None; rewrite q_nel_len; lia).
  assert (E3 : nth_error (st_off s) i = None). { apply nth_error_None. rewrite (si_off _ _ _ Hi), offsets_length, q_nel_len. lia. }
  cbn [ask]. unfold c_nodemap, c_elemmap, c_nodeset, c_elemset, assert, Stitch_nodemap, Stitch_elemmap, Stitch_nodeset, Stitch_elemset, get.
  cbn [andb bind]. rewrite E1, E2, E3. repeat split.
Qed.
Lemma renum_bad nm set n : In n set -> length nm <= n -> renum_map nm set = Oob.
Proof.
  intros Hin Hn. unfold renum_map. induction set as [|k set IH]; [contradiction|]. simpl. unfold get at 1.
  destruct (nth_error nm k) as [x|] eqn:E; [|reflexivity]. simpl. destruct Hin as [->|Hin].
  - assert (n < length nm) by (apply nth_error_Some; congruence). lia.
  - now rewrite IH.
Qed.
Lemma rel_node i nn ne set n : nth_error (mesh_sizes ms) i = Some (nn, ne) -> In n set -> nn <= n -> ask false s (Nodeset set i) = Oob.
Proof.
  intros E Hin Hn. assert (H : i < length ms). { rewrite <- q_sizes_len. apply nth_error_Some. congruence. }
  destruct (q_mesh i H) as [nn' [ne' [nm [o [E1 [E2 [E3 _]]]]]]]. assert (nn' = nn) by congruence. subst nn' nn.
  cbn [ask]. unfold c_nodeset, assert, Stitch_nodeset, get. cbn [andb bind]. rewrite E2. cbn [bind]. eapply renum_bad; eauto.
Qed.
Lemma rel_elem i set : i < length ms -> ask false s (Elemset set i) = Ok (elems_of set i).
Proof.
  intro H. destruct (q_mesh i H) as [nn' [ne' [nm [o [E1 [_ [_ [E4 [E5 E6]]]]]]]]].
  cbn [ask]. unfold c_elemset, assert, Stitch_elemset, get. cbn [andb bind]. rewrite E5. cbn [bind]. unfold elems_of.
  now rewrite (nth_error_nth _ _ 0 E5).
Qed.
Lemma rel_next i nn ne set : nth_error (mesh_sizes ms) i = Some (nn, ne) -> S i < length ms ->
  ask false s (Elemset (map (fun e => e + ne) set) i) = ask false s (Elemset set (S i)).
Proof.
  intros E H. rewrite !rel_elem by lia. f_equal. unfold elems_of. rewrite map_map. apply map_ext. intro e.
  rewrite (si_off _ _ _ Hi). rewrite (offsets_S (st_nel s) i ne); [lia| |rewrite q_nel_len; exact H].
  destruct (q_mesh i ltac:(lia)) as [nn' [ne' [nm [o [E1 [_ [_ [E4 _]]]]]]]]. congruence.
Qed.

(** sets for too few meshes: the others count as empty *)
Lemma rel_few sets k : length sets + k <= length ms ->
  ask false s (Nodesets sets) = ask false s (Nodesets (sets ++ repeat [] k)) /\
  ask false s (Elemsets sets) = ask false s (Elemsets (sets ++ repeat [] k)).
Proof.
  intro H. cbn [ask]. unfold c_nodesets, c_elemsets, assert. cbn [andb]. rewrite enum_app, !mapM_app.
  rewrite (mapM_empties (fun is => c_nodeset false s (snd is) (fst is)) k (length sets)).
  - rewrite (mapM_empties (fun is => c_elemset false s (snd is) (fst is)) k (length sets)).
    + split; [destruct (mapM (fun is => c_nodeset false s (snd is) (fst is)) (enum sets))|destruct (mapM (fun is => c_elemset false s (snd is) (fst is)) (enum sets))];
        cbn [bind]; auto; now rewrite concat_app, concat_empties, app_nil_r.
    + intros i Hx. simpl. exact (rel_elem i [] ltac:(lia)).
  - intros i Hx. simpl. destruct (q_mesh i ltac:(lia)) as [nn [ne [nm [o [E1 [E2 _]]]]]].
    unfold c_nodeset, assert, Stitch_nodeset, get. cbn [andb bind]. now rewrite E2.
Qed.
Lemma rel_many sets a : length ms < length sets -> ask false s (Nodesets sets) <> Ok a /\ ask false s (Elemsets sets) <> Ok a.
Proof.
  intro H. destruct (nth_error sets (length ms)) as [set|] eqn:E; [|apply nth_error_None in E; lia].
  destruct (rel_index (length ms) set ltac:(lia)) as [_ [_ [H1 H2]]]. cbn [ask] in *. unfold c_nodesets, c_elemsets.
  unfold assert at 1 2. cbn [andb]. split.
  - pose proof (mapM_none (fun is => c_nodeset false s (snd is) (fst is)) (enum sets) (length ms, set)) as M.
    destruct (mapM (fun is => c_nodeset false s (snd is) (fst is)) (enum sets)) as [c| | |]; cbn [bind]; try discriminate.
    exfalso. apply (M (proj2 (enum_In _ _ _) E)) with (c := c); [|reflexivity]. simpl. rewrite H1. discriminate.
  - pose proof (mapM_none (fun is => c_elemset false s (snd is) (fst is)) (enum sets) (length ms, set)) as M.
    destruct (mapM (fun is => c_elemset false s (snd is) (fst is)) (enum sets)) as [c| | |]; cbn [bind]; try discriminate.
    exfalso. apply (M (proj2 (enum_In _ _ _) E)) with (c := c); [|reflexivity]. simpl. rewrite H2. discriminate.
Qed.
End Q.

(** ** histories *)
Section H.
Context {A : Type} (close : A -> A -> bool).

Definition rows_of (m : array A * array nat) : list (list A) * list (list nat) :=
  (rows2 (nth 0 (a_shape (fst m)) 0) (nth 1 (a_shape (fst m)) 0) (fst m), rows2 (nth 0 (a_shape (snd m)) 0) (nth 1 (a_shape (snd m)) 0) (snd m)).

Lemma at2_rows2 {B} n d (a : array B) m i : m < n -> i < d -> at2 (rows2 n d a) m i = Some (a_ent a [m; i]).
Proof.
  intros Hm Hi. unfold at2, rows2. rewrite nth_error_map, nth_error_seq. destruct (Nat.ltb_spec m n); [|lia]. simpl.
  rewrite nth_error_map, nth_error_seq. destruct (Nat.ltb_spec i d); [reflexivity|lia].
Qed.
Lemma rows_of_mesh ndim nne m : tables ndim nne m -> is_mesh m (rows_of m).
Proof.
  intros [n [e [E1 E2]]]. exists n, ndim, e, nne. unfold rows_of. rewrite E1, E2. simpl.
  split; [exact eq_refl|]. split; [exact eq_refl|]. split; [apply rows2_shape|]. split; [apply rows2_shape|].
  split; intros; now apply at2_rows2.
Qed.
Lemma is_mesh_rows m XC : is_mesh m XC -> XC = rows_of m.
Proof.
  intros [n [d [e [k [E1 [E2 [S1 [S2 [H1 H2]]]]]]]]]. destruct XC as [X C]. unfold rows_of. rewrite E1, E2. cbn [fst snd nth] in *. f_equal.
  - apply (at2_ext _ _ n d S1 (rows2_shape _ _ _)). intros i j Hi Hj. rewrite H1 by assumption. symmetry. now apply at2_rows2.
  - apply (at2_ext _ _ e k S2 (rows2_shape _ _ _)). intros i j Hi Hj. rewrite H2 by assumption. symmetry. now apply at2_rows2.
Qed.
Lemma are_meshes ms XCs : Forall2 is_mesh ms XCs -> XCs = map rows_of ms.
Proof. induction 1; simpl; [reflexivity|]. f_equal; [now apply is_mesh_rows|assumption]. Qed.

Lemma push_len s X C s' : Stitch_push_back close s X C = Ok s' -> 0 < length (st_map s').
Proof.
  unfold Stitch_push_back. destruct (length (st_map s) =? 0).
  - intro H. inversion H. simpl. rewrite app_length. simpl. lia.
  - destruct (ManualStitch _ _ _ _ _ _ _ _); cbn [bind]; try discriminate. unfold append_mesh.
    destruct (get (st_off s) _); cbn [bind]; try discriminate. destruct (get (st_nel s) _); cbn [bind]; try discriminate.
    intro H. inversion H. simpl. rewrite app_length. simpl. lia.
Qed.
Lemma foldM_snoc {B S} (f : S -> B -> res S) l x s : foldM f (l ++ [x]) s = (do s' <- foldM f l s; f s' x).
Proof. revert s. induction l as [|y l IH]; intro s; simpl; [destruct (f s x); reflexivity|]. destruct (f s y); simpl; auto. Qed.

Lemma c_push_ok ck s m ndim nne : tables ndim nne m -> (length (st_map (sc s)) = 0 \/ (sc_ndim s = ndim /\ sc_nne s = nne)) ->
  c_push close ck s m = (do t <- Stitch_push_back close (sc s) (fst (rows_of m)) (snd (rows_of m)); Ok (mkSC t ndim nne)).
Proof.
  intros [n [e [E1 E2]]] H. unfold c_push, rows_of. rewrite E1, E2. cbn [fst snd nth length]. rewrite !assert_true.
  destruct H as [H|[H1 H2]]; [now rewrite H|]. destruct (length (st_map (sc s)) =? 0); [reflexivity|].
  rewrite H1, H2, !Nat.eqb_refl, !assert_true. reflexivity.
Qed.
Lemma c_run_ok ck ms ndim nne : ms <> [] -> (forall m, In m ms -> tables ndim nne m) ->
  c_run close ck ms = (do t <- Stitch_run close (map rows_of ms); Ok (mkSC t ndim nne)).
Proof.
  induction ms as [|m ms IH] using rev_ind; intros Hne Ht; [congruence|].
  unfold c_run. rewrite foldM_snoc, map_app. change (map rows_of [m]) with [rows_of m]. rewrite run_snoc.
  assert (Hm : tables ndim nne m) by (apply Ht; apply in_or_app; right; now left).
  destruct ms as [|m0 ms].
  - simpl. rewrite (c_push_ok ck _ m ndim nne Hm); [reflexivity|now left].
  - unfold c_run in IH. rewrite IH; [|discriminate|intros; apply Ht; apply in_or_app; now left].
    destruct (Stitch_run close (map rows_of (m0 :: ms))) as [t| | |]; cbn [bind]; auto.
    rewrite (c_push_ok ck _ m ndim nne Hm); [reflexivity|right; split; reflexivity].
Qed.
Lemma c_push_tables s m s' : c_push close true s m = Ok s' ->
  tables (sc_ndim s') (sc_nne s') m /\ (length (st_map (sc s)) = 0 \/ (sc_ndim s' = sc_ndim s /\ sc_nne s' = sc_nne s)) /\ 0 < length (st_map (sc s')).
Proof.
  unfold c_push. destruct (length (a_shape (fst m)) =? 2); [|discriminate]. destruct (length (a_shape (snd m)) =? 2); [|discriminate].
  rewrite !assert_true. destruct (a_shape (fst m)) as [|n [|d [|]]] eqn:E1; try discriminate.
  destruct (a_shape (snd m)) as [|e [|k [|]]] eqn:E2; try discriminate.
  assert (P : forall s', (do t <- Stitch_push_back close (sc s) (rows2 n d (fst m)) (rows2 e k (snd m)); Ok (mkSC t d k)) = Ok s' ->
     tables (sc_ndim s') (sc_nne s') m /\ sc_ndim s' = d /\ sc_nne s' = k /\ 0 < length (st_map (sc s'))).
  { intros s1 H. destruct (Stitch_push_back _ _ _ _) as [t| | |] eqn:E; cbn [bind] in H; try discriminate. inversion H; subst s1. cbn [sc sc_ndim sc_nne].
    split; [exists n, e; auto|]. split; [reflexivity|]. split; [reflexivity|]. eapply push_len; eauto. }
  destruct (Nat.eqb_spec (length (st_map (sc s))) 0) as [L|L].
  - intro H. destruct (P s' H) as [P1 [_ [_ P2]]]. auto.
  - destruct (Nat.eqb_spec (sc_ndim s) d) as [Ed|]; [|discriminate]. destruct (Nat.eqb_spec (sc_nne s) k) as [Ek|]; [|discriminate].
    rewrite !assert_true. cbn [andb]. intro H. destruct (P s' H) as [P1 [P3 [P4 P2]]]. split; [exact P1|]. split; [right; split; congruence|exact P2].
Qed.
Lemma c_run_tables ms : forall s, ms <> [] -> c_run close true ms = Ok s ->
  (forall m, In m ms -> tables (sc_ndim s) (sc_nne s) m) /\ 0 < length (st_map (sc s)).
Proof.
  induction ms as [|m ms IH] using rev_ind; intros s Hne H; [congruence|].
  unfold c_run in H. rewrite foldM_snoc in H. destruct (foldM _ ms _) as [s0| | |] eqn:E; cbn [bind] in H; try discriminate.
  destruct (c_push_tables s0 m s H) as [P1 [P2 P3]]. split; [|exact P3].
  intros m' Hin. apply in_app_or in Hin. destruct Hin as [Hin|[<-|[]]]; [|exact P1].
  assert (Hn : ms <> []) by (intro Q; subst ms; inversion Hin).
  destruct (IH s0 Hn E) as [Q1 Q2]. destruct P2 as [P2|[P4 P5]]; [lia|]. rewrite P4, P5. now apply Q1.
Qed.
Theorem c_run_iff ms s : ms <> [] -> (c_run close true ms = Ok s <->
  exists XCs t, (forall m, In m ms -> tables (sc_ndim s) (sc_nne s) m) /\ Forall2 is_mesh ms XCs /\ Stitch_run close XCs = Ok t /\ sc s = t).
Proof.
  intro Hne. split.
  - intro H. destruct (c_run_tables ms s Hne H) as [Ht _]. exists (map rows_of ms).
    rewrite (c_run_ok true ms _ _ Hne Ht) in H. destruct (Stitch_run close (map rows_of ms)) as [t| | |] eqn:E; cbn [bind] in H; try discriminate.
    exists t. split; [exact Ht|]. split.
    + clear - Ht. induction ms as [|m ms IH]; simpl; constructor; [eapply rows_of_mesh; apply Ht; now left|]. apply IH. intros; apply Ht; now right.
    + split; [reflexivity|]. inversion H; reflexivity.
  - intros [XCs [t [Ht [Hm [E <-]]]]]. rewrite (c_run_ok true ms _ _ Hne Ht). apply are_meshes in Hm. subst XCs. rewrite E. cbn [bind].
    destruct s; reflexivity.
Qed.
(** the first mesh that does not fit throws *)
Theorem c_run_first pre m post s : pre <> [] -> c_run close true pre = Ok s -> ~ tables (sc_ndim s) (sc_nne s) m ->
  c_run close true (pre ++ m :: post) = Throw.
Proof.
  intros Hne H N. assert (E : c_push close true s m = Throw).
  { destruct (c_run_tables pre s Hne H) as [_ L]. unfold c_push.
    destruct (a_shape (fst m)) as [|n [|d [|]]] eqn:E1; try reflexivity. destruct (a_shape (snd m)) as [|e [|k [|]]] eqn:E2; try reflexivity.
    cbn [length Nat.eqb]. rewrite !assert_true. destruct (Nat.eqb_spec (length (st_map (sc s))) 0); [lia|].
    destruct (Nat.eqb_spec (sc_ndim s) d) as [Ed|]; [|reflexivity]. destruct (Nat.eqb_spec (sc_nne s) k) as [Ek|]; [|reflexivity].
    exfalso. apply N. exists n, e. subst. auto. }
  unfold c_run in *. revert H. generalize (mkSC (@Stitch_new A) 0 0). induction pre as [|x pre IH]; intros s0 H; [congruence|].
  simpl. simpl in H. destruct (c_push close true s0 x) as [s1| | |]; cbn [bind] in *; try discriminate.
  destruct pre as [|y pre].
  - simpl in *. inversion H; subst s1. rewrite E. reflexivity.
  - apply IH; [discriminate|exact H].
Qed.
Theorem c_run_rank m post : (forall ndim nne, ~ tables ndim nne m) -> c_run close true (m :: post) = Throw.
Proof.
  intro N. unfold c_run. simpl.
  assert (E : c_push close true (mkSC Stitch_new 0 0) m = Throw); [|now rewrite E].
  unfold c_push. destruct (a_shape (fst m)) as [|n [|d [|]]] eqn:E1; try reflexivity. destruct (a_shape (snd m)) as [|e [|k [|]]] eqn:E2; try reflexivity.
  exfalso. apply (N d k). exists n, e. auto.
Qed.

(** ** ManualStitch *)
Lemma manual_len ca na oa cb nb ob check s : ManualStitch close ca na oa cb nb ob check = Ok s ->
  length (ms_map_b s) = length cb /\ ms_nnd_a s = length ca /\ ms_nel_a s = length na /\ ms_nel_b s = length nb.
Proof.
  unfold ManualStitch. destruct (if check then _ else _) as [[|]| | |]; cbn [bind negb]; try discriminate.
  destruct (negb _); [discriminate|]. destruct (write_all (empty _) _) as [m1| | |]; cbn [bind]; try discriminate.
  destruct (write_all m1 _) as [m2| | |]; cbn [bind]; try discriminate.
  destruct (mapM (get_init m2) _) as [mb| | |] eqn:Emb; cbn [bind]; try discriminate.
  destruct (mapM (renum_map mb) nb) as [cb'| | |]; cbn [bind]; try discriminate.
  destruct (negb _); [discriminate|]. destruct (mapM (get cb) _) as [rows| | |]; cbn [bind]; try discriminate.
  intro H. inversion H; subst s; simpl. apply mapM_Ok_inv in Emb. destruct Emb as [L _]. rewrite seq_length in L. auto.
Qed.
Definition manual_sizes (ca : list (list A)) (na : list (list nat)) (cb : list (list A)) (nb : list (list nat)) : list (nat * nat) :=
  [(length ca, length na); (length cb, length nb)].
Definition single (q : query) : Prop := match q with Nodesets _ | Elemsets _ => False | _ => True end.

Lemma renum_ok nm set : (forall k, In k set -> k < length nm) -> exists l, renum_map nm set = Ok l /\ mapped nm set l.
Proof. apply renum_map_total. Qed.
Lemma seq_mapped n set : (forall k, In k set -> k < n) -> mapped (seq 0 n) set set.
Proof. intro H. unfold mapped. apply map_ext_in. intros k Hk. rewrite nth_error_seq. apply H in Hk. destruct (Nat.ltb_spec k n); [reflexivity|lia]. Qed.

Theorem manual_ok ca na oa cb nb ob check s : ManualStitch close ca na oa cb nb ob check = Ok s ->
  forall q, single q -> admitted (manual_sizes ca na cb nb) q ->
  exists a, (forall ck, ask_manual ck s q = Ok a) /\ answer [seq 0 (length ca); ms_map_b s] [seq 0 (length na); seq (length na) (length nb)] q a.
Proof.
  intros H q Hq Ha. destruct (manual_len _ _ _ _ _ _ _ _ H) as [L1 [L2 [L3 L4]]].
  assert (Ex : forall i p, nth_error (manual_sizes ca na cb nb) i = Some p -> i = 0 /\ p = (length ca, length na) \/ i = 1 /\ p = (length cb, length nb)).
  { intros [|[|i]] p E; simpl in E; [left|right|destruct i; discriminate]; split; congruence. }
  destruct q as [i|i|set i|set i|sets|sets]; try contradiction; cbn [ask_manual answer].
  - simpl in Ha. exists (ms_nodemap s i). split.
    + intro ck. rewrite (proj2 (Nat.leb_le i 1)) by lia. now rewrite assert_true.
    + destruct i as [|[|i]]; [| |lia]; unfold ms_nodemap; simpl; [now rewrite L2|reflexivity].
  - simpl in Ha. exists (ms_elemmap s i). split.
    + intro ck. rewrite (proj2 (Nat.leb_le i 1)) by lia. now rewrite assert_true.
    + destruct i as [|[|i]]; [| |lia]; unfold ms_elemmap; simpl; [now rewrite L3|]. now rewrite map_add_seq, L3, L4.
  - destruct Ha as [nn [ne [E Hs]]]. destruct (Ex _ _ E) as [[-> Ep]|[-> Ep]]; inversion Ep; subst nn ne.
    + exists set. split; [|eexists; split; [reflexivity|]; now apply seq_mapped, Hs].
      intro ck. rewrite L2, (proj2 (amax_lt _ _) Hs). now rewrite !assert_true.
    + destruct (renum_ok (ms_map_b s) set) as [l [R1 R2]]; [rewrite L1; apply Hs|]. exists l. split; [|eexists; split; [reflexivity|exact R2]].
      intro ck. rewrite L1, (proj2 (amax_lt _ _) Hs). simpl. rewrite !assert_true. exact R1.
  - destruct Ha as [nn [ne [E Hs]]]. destruct (Ex _ _ E) as [[-> Ep]|[-> Ep]]; inversion Ep; subst nn ne.
    + exists set. split; [|eexists; split; [reflexivity|]; now apply seq_mapped, Hs].
      intro ck. rewrite L3, (proj2 (amax_lt _ _) Hs). now rewrite !assert_true.
    + exists (map (fun e => e + ms_nel_a s) set). split.
      * intro ck. rewrite L4, (proj2 (amax_lt _ _) Hs). simpl. now rewrite !assert_true.
      * exists (seq (length na) (length nb)). split; [reflexivity|]. unfold mapped. rewrite map_map. apply map_ext_in. intros e He.
        rewrite nth_error_seq. apply Hs in He. destruct (Nat.ltb_spec e (length nb)); [f_equal|]; lia.
Qed.
Theorem manual_throw ca na oa cb nb ob check s : ManualStitch close ca na oa cb nb ob check = Ok s ->
  forall q, ~ (single q /\ admitted (manual_sizes ca na cb nb) q) -> ask_manual true s q = Throw.
Proof.
  intros H q N. destruct (manual_len _ _ _ _ _ _ _ _ H) as [L1 [L2 [L3 L4]]].
  destruct q as [i|i|set i|set i|sets|sets]; cbn [ask_manual]; try reflexivity.
  - destruct (Nat.leb_spec i 1); [|reflexivity]. exfalso. apply N. split; [exact I|]. simpl. lia.
  - destruct (Nat.leb_spec i 1); [|reflexivity]. exfalso. apply N. split; [exact I|]. simpl. lia.
  - destruct (Nat.leb_spec i 1); [|reflexivity]. rewrite assert_true. destruct i as [|[|i]]; [| |lia]; cbn [Nat.eqb].
    + rewrite L2, (proj2 (amax_ge' _ _)); [reflexivity|]. intro Hs. apply N. split; [exact I|]. exists (length ca), (length na). auto.
    + rewrite L1, (proj2 (amax_ge' _ _)); [reflexivity|]. intro Hs. apply N. split; [exact I|]. exists (length cb), (length nb). auto.
  - destruct (Nat.leb_spec i 1); [|reflexivity]. rewrite assert_true. destruct i as [|[|i]]; [| |lia]; cbn [Nat.eqb].
    + rewrite L3, (proj2 (amax_ge' _ _)); [reflexivity|]. intro Hs. apply N. split; [exact I|]. exists (length ca), (length na). auto.
    + rewrite L4, (proj2 (amax_ge' _ _)); [reflexivity|]. intro Hs. apply N. split; [exact I|]. exists (length cb), (length nb). auto.
Qed.
(** without assertions: every other index counts as mesh b, and numbers of mesh a are never looked at *)
Theorem manual_silent (s : ManualStitch_t A) : (forall i set, ask_manual false s (Nodemap (S i)) = ask_manual false s (Nodemap 1) /\
    ask_manual false s (Elemmap (S i)) = ask_manual false s (Elemmap 1) /\
    ask_manual false s (Nodeset set (S i)) = ask_manual false s (Nodeset set 1) /\
    ask_manual false s (Elemset set (S i)) = ask_manual false s (Elemset set 1)) /\
  (forall set, ask_manual false s (Nodeset set 0) = Ok set /\ ask_manual false s (Elemset set 0) = Ok set).
Proof. split; [intros i set|intro set]; repeat split. Qed.
End H.

(** ** Vstack *)
Section V.
Variable close : R -> R -> bool.
Variable check : bool.
Lemma renum_sub nm set l : renum_map nm set = Ok l -> forall k, In k set -> k < length nm.
Proof.
  intros H k Hk. apply renum_map_spec in H. apply In_nth_error in Hk. destruct Hk as [j Hj].
  assert (E : nth_error (map (nth_error nm) set) j = nth_error (map Some l) j) by (now rewrite H).
  rewrite !nth_error_map, Hj in E. simpl in E. destruct (nth_error l j) as [y|]; simpl in E; [|discriminate].
  apply nth_error_Some. congruence.
Qed.
Lemma set_length' {B} (l : list B) : forall i x l', set l i x = Ok l' -> length l' = length l.
Proof.
  induction l as [|y l IH]; intros i x l' H; [discriminate|]. destruct i; simpl in H; [inversion H; reflexivity|].
  destruct (set l i x) eqn:E; cbn [bind] in H; try discriminate. inversion H; simpl. f_equal. eauto.
Qed.
Theorem cv_push_iff s m s' : v_coor m <> [] -> (cv_push close true check s m = Ok s' <-> Vstack_push_back close check s m = Ok s').
Proof.
  intro Hne. unfold cv_push. destruct (length (st_map (vs s)) =? 0) eqn:E0; [tauto|]. unfold Vstack_push_back. rewrite E0.
  destruct (get (vs_top s) _) as [top| | |]; cbn [bind]; try tauto.
  destruct (column1 _) as [ys| | |]; cbn [bind]. 2,3,4: unfold assert; destruct (true && _)%bool; split; discriminate.
  destruct (amaxR ys) as [d| | |]; cbn [bind]. 2,3,4: unfold assert; destruct (true && _)%bool; split; discriminate.
  destruct (shift_y d (v_coor m)) as [X| | |] eqn:EX; cbn [bind]. 2,3,4: unfold assert; destruct (true && _)%bool; split; discriminate.
  destruct (ManualStitch close _ _ top X _ _ check) as [sm| | |] eqn:Em; cbn [bind]. 2,3,4: unfold assert; destruct (true && _)%bool; split; discriminate.
  destruct (ManualStitch_inv close _ _ _ _ _ _ _ _ Em) as [Hl _]. rewrite Hl, Nat.eqb_refl, assert_true.
  destruct (manual_len close _ _ _ _ _ _ _ _ Em) as [L1 _].
  assert (LX : 0 < length X).
  { unfold shift_y in EX. apply mapM_Ok_inv in EX. destruct EX as [L _]. rewrite L. destruct (v_coor m); [congruence|simpl; lia]. }
  assert (S : forall set, ask_manual true sm (Nodeset set 1) = match ms_nodeset sm set 1 with Ok l => Ok l | _ => Throw end).
  { intro set. cbn [ask_manual Nat.leb Nat.eqb]. rewrite assert_true. destruct (amax set <? length (ms_map_b sm)) eqn:Ea.
    - rewrite assert_true. apply amax_lt in Ea. destruct Ea as [_ Ea]. unfold ms_nodeset. cbn [Nat.eqb].
      destruct (renum_map_total _ _ Ea) as [l [-> _]]. reflexivity.
    - rewrite assert_false. destruct (ms_nodeset sm set 1) as [l| | |] eqn:El; try reflexivity. exfalso. apply amax_ge' in Ea. apply Ea.
      split; [rewrite L1; exact LX|]. eapply renum_sub. exact El. }
  rewrite !S. destruct (ms_nodeset sm (v_bot m) 1) as [b| | |]; cbn [bind]; try (split; discriminate).
  destruct (ms_nodeset sm (v_top m) 1) as [t| | |]; cbn [bind]; try (split; discriminate). tauto.
Qed.
Theorem cv_run_iff ms : (forall m, In m ms -> v_coor m <> []) -> forall s, cv_run close true check ms = Ok s <-> Vstack_run close check ms = Ok s.
Proof.
  induction ms as [|m ms IH] using rev_ind; intros Hne s; [reflexivity|].
  unfold cv_run. rewrite foldM_snoc, Vstack_run_snoc. unfold cv_run in IH.
  assert (IH' : forall s, foldM (cv_push close true check) ms Vstack_new = Ok s <-> Vstack_run close check ms = Ok s) by (apply IH; intros; apply Hne; apply in_or_app; now left).
  assert (Hm : v_coor m <> []) by (apply Hne; apply in_or_app; right; now left).
  split; intro H.
  - destruct (foldM _ ms _) as [s0| | |]; cbn [bind] in H; try discriminate. rewrite (proj1 (IH' s0) eq_refl). cbn [bind]. now apply cv_push_iff.
  - destruct (Vstack_run close check ms) as [s0| | |]; cbn [bind] in H; try discriminate. rewrite (proj2 (IH' s0) eq_refl). cbn [bind]. now apply cv_push_iff.
Qed.
Theorem cv_push_sizes s m top : length (st_map (vs s)) <> 0 -> nth_error (vs_top s) (length (vs_top s) - 1) = Some top ->
  length (v_bot m) <> length top -> cv_push close true check s m = Throw.
Proof.
  intros H0 Ht Hl. unfold cv_push. destruct (Nat.eqb_spec (length (st_map (vs s))) 0); [contradiction|].
  unfold get. rewrite Ht. cbn [bind]. destruct (Nat.eqb_spec (length (v_bot m)) (length top)); [contradiction|]. reflexivity.
Qed.
End V.

Lemma mapM_ext_in {B C} (f g : B -> res C) l : (forall x, In x l -> f x = g x) -> mapM f l = mapM g l.
Proof. induction l as [|x l IH]; intro H; simpl; [reflexivity|]. rewrite H by now left. destruct (g x); simpl; auto. rewrite IH; auto. intros; apply H; now right. Qed.
Lemma all_maps {A} moved ms (s : Stitch_t A) ck : stitch_inv moved ms s -> c_nodemaps ck s = Ok (st_map s) /\ c_elemmaps ck s = Ok (ems_of (st_nel s)).
Proof.
  intro Hi. destruct (stitch_maps moved ms s Hi) as [_ [H1 H2]]. unfold c_nodemaps, c_elemmaps. rewrite <- H1, <- H2.
  split; apply mapM_ext_in; intros i Hin; apply in_seq in Hin; unfold c_nodemap, c_elemmap;
    (rewrite (proj2 (Nat.ltb_lt i (length (st_map s)))); [apply assert_true|]); unfold Stitch_nmesh in Hin; lia.
Qed.
Lemma stitch_of_run {A} (close : A -> A -> bool) ms s XCs : ms <> [] -> c_run close true ms = Ok s -> Forall2 is_mesh ms XCs -> wf_meshes XCs ->
  stitch_inv (moved_close close) XCs (sc s).
Proof.
  intros Hne H Hm W. apply (c_run_iff close ms s Hne) in H. destruct H as [XCs' [t [_ [Hm' [E <-]]]]].
  apply are_meshes in Hm, Hm'. subst. apply Stitch_run_inv; [destruct ms; [congruence|discriminate]|exact W|exact E].
Qed.
