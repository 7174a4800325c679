(** Periodic tyings with assertions. *)
From Coq Require Import Reals Lra Lia.
From Verif Require Import Base Spec Sums Spec_Vector Spec_Tyings Model_Numbering Proof_Numbering Model_Vector Proof_Vector Proof_VectorPartitioned Model_Misc Proof_Misc
  Model_Sparse Model_Tyings Proof_Tyings Model_Checked Spec_Checked Proof_Checked Model_CheckedTyings Spec_CheckedTyings.

(** ** ranges of numbers *)
Lemma amin_some l m : amin l = Some m -> In m l /\ forall x, In x l -> m <= x.
Proof.
  destruct l as [|a l]; [discriminate|]. cbn [amin]. intros E. injection E as <-. induction l as [|b l IH].
  - cbn. split; [now left|]. intros x [->|[]]. lia.
  - cbn [fold_right]. destruct IH as [I1 I2]. split.
    + destruct (Nat.min_spec b (fold_right Nat.min a l)) as [[_ ->]|[_ ->]]; [right; now left|]. destruct I1 as [I1|I1]; [left; exact I1|right; now right].
    + intros x [->|[->|Hx]]; [|lia|].
      * specialize (I2 x (or_introl eq_refl)). lia.
      * specialize (I2 x (or_intror Hx)). lia.
Qed.
Lemma amin_none l : amin l = None -> l = [].
Proof. destruct l; [reflexivity|discriminate]. Qed.

Lemma range_spec l D : (amax l <=? amax D) = true /\ leq (amin D) (amin l) = true <->
  (forall x, In x l -> (exists d, In d D /\ d <= x) /\ (exists d, In d D /\ x <= d)).
Proof.
  split.
  - intros [L G] x Hx. destruct (amin l) as [m|] eqn:E; [|apply amin_none in E; subst l; destruct Hx].
    apply amin_some in E. destruct E as [_ E]. specialize (E x Hx). cbn [leq] in G. destruct (amin D) as [d|] eqn:ED; [|discriminate G].
    apply amin_some in ED. destruct ED as [Hd _]. cbn [leq] in G. apply Nat.leb_le in G, L. split.
    + exists d. split; [exact Hd|lia].
    + exists (amax D). split; [apply amax_in; intros N; subst D; destruct Hd|]. apply amax_ge in Hx. lia.
  - intros H. destruct l as [|x0 l0]; [split; [reflexivity|]; destruct (amin D); reflexivity|]. set (l := x0 :: l0) in *.
    assert (N : l <> []) by discriminate. split.
    + apply Nat.leb_le. destruct (H _ (amax_in l N)) as [_ (d & Hd & Ld)]. apply amax_ge in Hd. lia.
    + destruct (amin l) as [m|] eqn:E; [|apply amin_none in E; contradiction]. apply amin_some in E. destruct E as [E _].
      destruct (H m E) as [(d & Hd & Ld) _]. destruct (amin D) as [e|] eqn:ED; [|apply amin_none in ED; subst D; destruct Hd].
      apply amin_some in ED. destruct ED as [_ ED]. specialize (ED d Hd). cbn. apply Nat.leb_le. lia.
Qed.

(** ** rows of arrays *)
Lemma in_range_rows dofs nnode ndim d : in_range dofs nnode ndim d <->
  (exists e, In e (concat (rows2 nnode ndim dofs)) /\ e <= d) /\ (exists e, In e (concat (rows2 nnode ndim dofs)) /\ d <= e).
Proof.
  unfold in_range. split.
  - intros [(m & i & Hm & Hi & L) (m' & i' & Hm' & Hi' & L')]. split; [exists (a_ent dofs [m; i])|exists (a_ent dofs [m'; i'])]; (split; [apply in_rows2; eauto 6|assumption]).
  - intros [(e & He & L) (e' & He' & L')]. apply in_rows2 in He, He'. destruct He as (m & i & Hm & Hi & <-), He' as (m' & i' & Hm' & Hi' & <-). eauto 12.
Qed.
Lemma is_dof_rows dofs nnode ndim d : is_dof dofs nnode ndim d <-> In d (concat (rows2 nnode ndim dofs)).
Proof. symmetry. apply in_rows2. Qed.

Lemma rows2_at {A} n d (a : array A) s i : s < n -> i < d -> nth_error (concat (rows2 n d a)) (s * d + i) = Some (a_ent a [s; i]).
Proof.
  intros Hs Hi. rewrite (nth_error_concat_map _ d n (rows2_shape n d a)) by exact Hi. unfold at2, rows2.
  rewrite nth_error_map. rewrite (nth_error_nth' _ 0) by (rewrite seq_length; exact Hs). rewrite seq_nth by exact Hs. cbn [option_map].
  rewrite nth_error_map. rewrite (nth_error_nth' _ 0) by (rewrite seq_length; exact Hi). rewrite seq_nth by exact Hi. reflexivity.
Qed.
Lemma NoDup_rows2 {A} n d (a : array A) : NoDup (concat (rows2 n d a)) <->
  (forall s t i j, s < n -> t < n -> i < d -> j < d -> a_ent a [s; i] = a_ent a [t; j] -> s = t /\ i = j).
Proof.
  pose proof (shape2_concat_length _ n d (rows2_shape n d a)) as L. split.
  - intros N s t i j Hs Ht Hi Hj E.
    assert (Q : s * d + i = t * d + j).
    { apply (NoDup_nth_error_inj _ _ _ (a_ent a [s; i]) N); [now apply rows2_at|rewrite E; now apply rows2_at]. }
    destruct (Nat.lt_trichotomy s t) as [T|[T|T]]; [exfalso; nia| |exfalso; nia]. subst t. lia.
  - intros H. apply NoDup_nth_error. intros k k' Hk E. rewrite L in Hk.
    assert (Hk' : k' < n * d). { rewrite <- L. apply nth_error_Some. rewrite <- E. apply nth_error_Some. rewrite L. exact Hk. }
    assert (Hd : 0 < d) by nia.
    pose proof (Nat.div_mod k d) as D1. pose proof (Nat.mod_upper_bound k d) as M1. pose proof (Nat.div_mod k' d) as D2. pose proof (Nat.mod_upper_bound k' d) as M2.
    assert (S1 : k / d < n) by (apply Nat.div_lt_upper_bound; lia). assert (S2 : k' / d < n) by (apply Nat.div_lt_upper_bound; lia).
    replace k with (k / d * d + k mod d) in E by lia. replace k' with (k' / d * d + k' mod d) in E by lia.
    rewrite !rows2_at in E by lia. injection E as E. apply H in E; lia.
Qed.
Lemma NoDup_rows1 {A} n (a : array A) : NoDup (rows1 n a) <-> (forall k l, k < n -> l < n -> a_ent a [k] = a_ent a [l] -> k = l).
Proof.
  assert (At : forall k, k < n -> nth_error (rows1 n a) k = Some (a_ent a [k])).
  { intros k Hk. unfold rows1. rewrite nth_error_map. rewrite (nth_error_nth' _ 0) by (rewrite seq_length; exact Hk). rewrite seq_nth by exact Hk. reflexivity. }
  split.
  - intros N k l Hk Hl E. apply (NoDup_nth_error_inj _ _ _ (a_ent a [k]) N); [now apply At|rewrite E; now apply At].
  - intros H. apply NoDup_nth_error. intros k l Hk E. rewrite rows1_length in Hk.
    assert (Hl : l < n). { rewrite <- (rows1_length n a). apply nth_error_Some. rewrite <- E. apply nth_error_Some. rewrite rows1_length. exact Hk. }
    rewrite !At in E by assumption. injection E as E. auto.
Qed.

(** ** renumbering of lists that may overlap *)
Lemma number_from_def : forall js i arr arr', number_from i js arr = Ok arr' ->
  forall j, (In j js \/ exists v, nth_error arr j = Some (Some v)) -> exists v, nth_error arr' j = Some (Some v).
Proof.
  induction js as [|j0 js IH]; intros i arr arr' E j H; cbn [number_from] in E.
  - injection E as <-. destruct H as [[]|H]. exact H.
  - destruct (set arr j0 (Some i)) as [a1| | |] eqn:E1; try discriminate. cbn [bind] in E.
    assert (L : j0 < length arr). { apply Nat.nle_gt. intros Q. revert E1. rewrite set_Oob by exact Q. discriminate. }
    destruct (set_Ok arr j0 (Some i) L) as [a1' [E1' [Hl Hn]]]. rewrite E1 in E1'. injection E1' as <-.
    apply (IH _ _ _ E j). destruct (Nat.eq_dec j j0) as [->|N].
    + right. exists i. rewrite Hn, Nat.eqb_refl. reflexivity.
    + destruct H as [[H|H]|H]; [congruence|now left|]. right. rewrite Hn. destruct (Nat.eqb_spec j j0); [contradiction|exact H].
Qed.
Lemma Reorder_total args : exists r, Reorder args = Ok r /\ forall a, In a (concat args) -> exists k, get_init r a = Ok k.
Proof.
  unfold Reorder. destruct (Reorder_size_gen args 0) as [_ Hs].
  destruct (number_from_Ok (concat args) 0 (empty (Reorder_size args))) as [m [E _]].
  { intros j Hj. unfold empty. rewrite repeat_length. apply Hs, Hj. }
  exists m. split; [exact E|]. intros a Ha. destruct (number_from_def _ _ _ _ E a (or_introl Ha)) as [v Hv]. exists v. now apply get_init_Some.
Qed.
Lemma apply_total r l : (forall a, In a (concat l) -> exists k, get_init r a = Ok k) -> exists m, Reorder_apply2 r l = Ok m.
Proof.
  intros H. exists (map (map (fun a => match get_init r a with Ok k => k | _ => 0 end)) l). apply mapM_Ok. intros row Hr. apply mapM_Ok. intros a Ha.
  destruct (H a) as [k E]; [apply in_concat; eauto|]. rewrite E. reflexivity.
Qed.

Lemma mapM_map {A B C} (f : B -> res C) (g : A -> B) l : mapM f (map g l) = mapM (fun a => f (g a)) l.
Proof. induction l as [|a l IH]; [reflexivity|]. cbn [map mapM]. now rewrite IH. Qed.
(** ** the constructor *)
Section New.
Variables (coor : array R) (dofs control ties iip : array nat).
Notation new ck := (new_Periodic_checked ck coor dofs control ties iip).
Notation fit known := (tyings_fit known coor dofs control ties iip).

Lemma new_same : new true = Throw \/ new true = new false.
Proof.
  unfold new_Periodic_checked. destruct (a_shape coor) as [|nnode [|ndim [|]]]; auto. destruct (a_shape dofs) as [|nd [|dd [|]]]; auto.
  destruct (a_shape control) as [|nc [|dc [|]]]; auto. destruct (a_shape ties) as [|nt [|k [|]]]; auto. destruct (a_shape iip) as [|n [|]]; auto. cbv zeta.
  unfold assert. cbn [andb].
  repeat match goal with |- (if ?b then Throw else _) = Throw \/ _ => destruct b; [now left|] end.
  destruct (k <? 2); auto. destruct (mapM _ _); auto. cbn [bind].
  repeat match goal with |- (if ?b then Throw else _) = Throw \/ _ => destruct b; [now left|] end. auto.
Qed.

(** the DOFs of the dependent nodes *)
Definition dep_array (ndim nt : nat) : array nat := mkArray [nt; ndim] (fun ix => match ix with [s; i] => a_ent dofs [a_ent ties [s; 1]; i] | _ => 0 end).
Lemma dep_array_rows nnode ndim nt : (forall s, s < nt -> a_ent ties [s; 1] < nnode) ->
  mapM (fun t => get (rows2 nnode ndim dofs) (snd t)) (pairs nt ties) = Ok (rows2 nt ndim (dep_array ndim nt)).
Proof.
  intros H. unfold pairs. rewrite mapM_map.
  rewrite (mapM_Ok _ _ (fun s => map (fun i => a_ent (dep_array ndim nt) [s; i]) (seq 0 ndim))); [reflexivity|].
  intros s Hs. apply in_seq in Hs. cbn [snd]. rewrite (get_nth []) by (destruct (rows2_shape nnode ndim dofs) as [-> _]; apply H; lia).
  f_equal. unfold rows2. rewrite nth_map_seq by (apply H; lia). reflexivity.
Qed.
Lemma depends_rows ndim nt d : depends dofs ties ndim nt d <-> In d (concat (rows2 nt ndim (dep_array ndim nt))).
Proof. symmetry. apply in_rows2. Qed.

Lemma range_all l nnode ndim : (amax l <=? amax (concat (rows2 nnode ndim dofs))) = true /\ leq (amin (concat (rows2 nnode ndim dofs))) (amin l) = true <->
  (forall x, In x l -> in_range dofs nnode ndim x).
Proof. rewrite range_spec. split; intros H x Hx; apply in_range_rows; auto. Qed.

(** what is asserted is that the arrays fit *)
Lemma new_fits nnode ndim nt n : fit in_range nnode ndim nt n -> forall ck,
  new ck = new_Periodic (rows2 nnode ndim coor) ndim (rows2 nnode ndim dofs) (rows2 ndim ndim control) (pairs nt ties) (rows1 n iip).
Proof.
  intros F ck. unfold new_Periodic_checked. rewrite (tf_coor _ _ _ _ _ _ _ _ _ _ F), (tf_dofs _ _ _ _ _ _ _ _ _ _ F), (tf_control _ _ _ _ _ _ _ _ _ _ F), (tf_ties _ _ _ _ _ _ _ _ _ _ F), (tf_iip _ _ _ _ _ _ _ _ _ _ F). cbv zeta.
  rewrite !has_shape_refl, !assert_true.
  destruct (proj2 (range_all (concat (rows2 ndim ndim control)) nnode ndim)) as [A1 A2].
  { intros x Hx. apply in_rows2 in Hx. destruct Hx as (j & k & Hj & Hk & <-). now apply (tf_ctrl _ _ _ _ _ _ _ _ _ _ F). }
  destruct (proj2 (range_all (rows1 n iip) nnode ndim)) as [B1 B2].
  { intros x Hx. apply in_rows1 in Hx. destruct Hx as (k & Hk & <-). now apply (tf_iip2 _ _ _ _ _ _ _ _ _ _ F). }
  rewrite A1, A2, B1, B2, !assert_true.
  assert (T : (amax (concat (rows2 nt 2 ties)) <? nnode) = true).
  { apply Nat.ltb_lt. pose proof (proj2 (amax_concat nt 2 ties nnode (tf_pos _ _ _ _ _ _ _ _ _ _ F)) (tf_node _ _ _ _ _ _ _ _ _ _ F)). lia. }
  rewrite T, assert_true. change (2 <? 2) with false. cbv iota.
  rewrite (dep_array_rows nnode ndim nt) by (intros s Hs; apply (tf_node _ _ _ _ _ _ _ _ _ _ F); lia). cbn [bind].
  rewrite !(proj2 (is_unique_spec _)), !assert_true; [reflexivity| | |apply setdiff1d_NoDup].
  - apply NoDup_rows2. intros s t i j Hs Ht Hi Hj E. cbn [a_ent dep_array] in E. now apply (tf_dep _ _ _ _ _ _ _ _ _ _ F).
  - apply NoDup_rows1, (tf_iip1 _ _ _ _ _ _ _ _ _ _ F).
Qed.

Lemma new_cases : new true = Throw \/ exists nnode ndim nt n, fit in_range nnode ndim nt n.
Proof.
  unfold new_Periodic_checked. destruct (a_shape coor) as [|nnode [|ndim [|]]] eqn:S1; auto. destruct (a_shape dofs) as [|nd [|dd [|]]] eqn:S2; auto.
  destruct (a_shape control) as [|nc [|dc [|]]] eqn:S3; auto. destruct (a_shape ties) as [|nt [|k [|]]] eqn:S4; auto. destruct (a_shape iip) as [|n [|]] eqn:S5; auto. cbv zeta.
  unfold assert. cbn [andb].
  destruct (has_shape [nt; k] [nt; 2]) eqn:E4; [|now left]. destruct (has_shape [nc; dc] [ndim; ndim]) eqn:E3; [|now left]. destruct (has_shape [nd; dd] [nnode; ndim]) eqn:E2; [|now left].
  apply has_shape_eq in E2, E3, E4. injection E2 as -> ->. injection E3 as -> ->. injection E4 as ->. cbn [negb].
  destruct (amax (concat (rows2 ndim ndim control)) <=? amax (concat (rows2 nnode ndim dofs))) eqn:A1; [|now left].
  destruct (leq (amin (concat (rows2 nnode ndim dofs))) (amin (concat (rows2 ndim ndim control)))) eqn:A2; [|now left].
  destruct (amax (rows1 n iip) <=? amax (concat (rows2 nnode ndim dofs))) eqn:B1; [|now left].
  destruct (leq (amin (concat (rows2 nnode ndim dofs))) (amin (rows1 n iip))) eqn:B2; [|now left].
  destruct (amax (concat (rows2 nt 2 ties)) <? nnode) eqn:T; [|now left]. cbn [negb]. apply Nat.ltb_lt in T.
  change (2 <? 2) with false. cbv iota.
  assert (P : 1 <= nnode) by lia.
  pose proof (proj1 (amax_concat nt 2 ties nnode P) ltac:(lia)) as T'.
  rewrite (dep_array_rows nnode ndim nt) by (intros s Hs; apply T'; lia). cbn [bind].
  destruct (is_unique (setdiff1d _ _)); [|now left]. destruct (is_unique (rows1 n iip)) eqn:U1; [|now left]. destruct (is_unique (concat (rows2 nt ndim (dep_array ndim nt)))) eqn:U2; [|now left].
  apply is_unique_spec in U1, U2. right. exists nnode, ndim, nt, n.
  pose proof (proj1 (range_all (concat (rows2 ndim ndim control)) nnode ndim) (conj A1 A2)) as RC. pose proof (proj1 (range_all (rows1 n iip) nnode ndim) (conj B1 B2)) as RI.
  split; auto.
  - intros s t i j Hs Ht Hi Hj E. now apply (proj1 (NoDup_rows2 _ _ _) U2).
  - intros j k Hj Hk. apply RC, in_rows2. eauto.
  - now apply NoDup_rows1.
  - intros k Hk. apply RI, in_rows1. eauto.
Qed.

Lemma new_not_fits : (forall nnode ndim nt n, ~ fit in_range nnode ndim nt n) -> new true = Throw.
Proof. intros N. destruct new_cases as [E|(nnode & ndim & nt & n & F)]; [exact E|]. exfalso. now apply (N nnode ndim nt n). Qed.

(** the result, if all numbers are those of DOFs *)
Lemma is_dof_range nnode ndim d : is_dof dofs nnode ndim d -> in_range dofs nnode ndim d.
Proof. intros (m & i & Hm & Hi & <-). split; exists m, i; auto. Qed.
Lemma fit_weaken nnode ndim nt n : fit is_dof nnode ndim nt n -> fit in_range nnode ndim nt n.
Proof. intros F. destruct F. split; auto using is_dof_range. Qed.
Lemma fit_strengthen nnode ndim nt n : consecutive dofs -> fit in_range nnode ndim nt n -> fit is_dof nnode ndim nt n.
Proof. intros C F. specialize (C nnode ndim (tf_dofs _ _ _ _ _ _ _ _ _ _ F)). destruct F. split; auto. Qed.

Lemma new_total nnode ndim nt n : fit is_dof nnode ndim nt n -> exists t,
  new_Periodic (rows2 nnode ndim coor) ndim (rows2 nnode ndim dofs) (rows2 ndim ndim control) (pairs nt ties) (rows1 n iip) = Ok t.
Proof.
  intros F. unfold new_Periodic. rewrite (dep_array_rows nnode ndim nt) by (intros s Hs; apply (tf_node _ _ _ _ _ _ _ _ _ _ F); lia). cbn [bind].
  set (iid := concat (rows2 nt ndim (dep_array ndim nt))). set (D := rows2 nnode ndim dofs). set (ii := rows1 n iip).
  destruct (Reorder_total [setdiff1d (setdiff1d (concat D) iid) ii; ii; iid]) as (r & Er & Hr). rewrite Er. cbn [bind].
  assert (K : forall a, In a (concat D) -> exists k, get_init r a = Ok k).
  { intros a Ha. apply Hr. cbn [concat]. rewrite app_nil_r, !in_app_iff, !setdiff1d_In.
    destruct (in_dec Nat.eq_dec a iid); [tauto|]. destruct (in_dec Nat.eq_dec a ii); tauto. }
  destruct (apply_total r D K) as [d Ed]. rewrite Ed. cbn [bind].
  destruct (apply_total r (rows2 ndim ndim control)) as [c Ec].
  { intros a Ha. apply K. apply in_rows2 in Ha. destruct Ha as (j & k & Hj & Hk & <-). apply is_dof_rows, (tf_ctrl _ _ _ _ _ _ _ _ _ _ F); assumption. }
  rewrite Ec. cbn [bind]. eauto.
Qed.
End New.
