(** Proofs about VectorPartitioned. *)
From Coq Require Import Reals Lra.
From Verif Require Import Base Spec Sums Spec_Vector Model_Numbering Proof_Numbering Model_Vector Proof_Vector Model_VectorPartitioned.

Lemma concat_if_filter {A B} (q : A -> bool) (g : A -> B) l :
  concat (map (fun a => if q a then [g a] else []) l) = map g (filter q l).
Proof. induction l as [|a l IH]; simpl; [reflexivity|]. destruct (q a); simpl; now rewrite IH. Qed.

Lemma index_writes_Ok ii val : length val = length ii ->
  index_writes ii val = Ok (combine ii val).
Proof.
  intro L. unfold index_writes. rewrite (mapM_Ok _ _ (fun d => (nth d ii 0, nth d val 0%R))).
  - f_equal. apply (list_ext1 (0, 0%R) _ _ (length ii)).
    + now rewrite map_length, seq_length.
    + rewrite combine_length. lia.
    + intros i Hi. rewrite combine_nth by auto. now rewrite nth_map_seq.
  - intros d Hd. apply in_seq in Hd. rewrite (get_nth 0) by lia. cbn [bind]. rewrite (get_nth 0%R) by lia. reflexivity.
Qed.

Lemma In_combine_nth (ii : list nat) (val : list R) k x : length val = length ii ->
  In (k, x) (combine ii val) -> exists d, nth_error ii d = Some k /\ val1 val d = x /\ d < length ii.
Proof.
  intros L Hin. apply (In_nth _ _ (0, 0%R)) in Hin. destruct Hin as [d [Hd E]]. rewrite combine_length in Hd.
  rewrite combine_nth in E by auto. injection E as E1 E2. exists d. split; [|split; [exact E2|lia]].
  rewrite (nth_error_nth' ii 0) by lia. now f_equal.
Qed.

Lemma map_fst_combine' {A B} (l : list A) (l' : list B) : length l' = length l -> map fst (combine l l') = l.
Proof. revert l'; induction l as [|a l IH]; intros [|b l'] H; simpl in *; try lia; [reflexivity|]. f_equal. apply IH. lia. Qed.

Section VP.
Variable v : Vector.
Variables nelem nne nnode ndim ndof : nat.
Hypothesis Hne : m_nne v = nne.
Hypothesis Hnd : m_ndim v = ndim.
Hypothesis Hmd : mesh_dofs (m_conn v) (m_dofs v) nelem nne nnode ndim ndof.
Variable iip : list nat.
Hypothesis Hiip : prescribed ndof iip.

Notation dof := (idx2 (m_dofs v)).
Notation node := (idx2 (m_conn v)).
Let iiu := setdiff1d (concat (m_dofs v)) iip.

Lemma vp_NoDup : NoDup (concat [iiu; iip]).
Proof.
  simpl. rewrite app_nil_r. apply NoDup_app_intro; [apply setdiff1d_NoDup|apply Hiip|].
  intros x Hx. apply setdiff1d_In in Hx. tauto.
Qed.

Lemma vp_in_dofs m i : m < nnode -> i < ndim -> In (dof m i) (concat (m_dofs v)).
Proof. intros. apply (In_concat_nth2 _ nnode ndim); [apply Hmd|]. eauto. Qed.

Lemma vp_new : exists p, new_VectorPartitioned v iip = Ok p /\ vp_v p = v /\ m_iiu p = iiu /\ m_iip p = iip /\
  shape2 (m_part p) nnode ndim /\
  (forall m i, m < nnode -> i < ndim -> nth_error (iiu ++ iip) (idx2 (m_part p) m i) = Some (dof m i)).
Proof.
  destruct (Reorder_Ok [iiu; iip] vp_NoDup) as [r [Er [Hr _]]]. simpl in Hr. rewrite app_nil_r in Hr.
  unfold new_VectorPartitioned. fold iiu. rewrite Er. cbn [bind].
  set (f := fun a => match nth_error r a with Some (Some k) => k | _ => 0 end).
  assert (Hf : forall a, In a (concat (m_dofs v)) -> get_init r a = Ok (f a) /\ nth_error (iiu ++ iip) (f a) = Some a).
  { intros a Ha. assert (Hin : In a (iiu ++ iip)).
    { apply in_or_app. destruct (in_dec Nat.eq_dec a iip); [now right|left]. now apply setdiff1d_In. }
    apply In_nth_error in Hin. destruct Hin as [k Hk]. pose proof (Hr k a Hk) as E. unfold f. rewrite E.
    split; [now apply get_init_Some|exact Hk]. }
  assert (E : Reorder_apply2 r (m_dofs v) = Ok (map (map f) (m_dofs v))).
  { apply mapM_Ok. intros row Hrow. apply mapM_Ok. intros a Ha. apply Hf. apply in_concat. eauto. }
  rewrite E. cbn [bind]. eexists. split; [reflexivity|]. split; [reflexivity|]. split; [reflexivity|]. split; [reflexivity|].
  simpl. split.
  - destruct (md_dofs _ _ _ _ _ _ _ Hmd) as [L Hr2]. split; [now rewrite map_length|].
    intros row Hrow. apply in_map_iff in Hrow. destruct Hrow as [r0 [<- H0]]. rewrite map_length. auto.
  - intros m i Hm Hi. assert (Ei : idx2 (map (map f) (m_dofs v)) m i = f (dof m i)).
    { unfold idx2, nth2. apply nth_error_nth. destruct (md_dofs _ _ _ _ _ _ _ Hmd) as [L Hr2].
      rewrite (nth_error_nth (map (map f) (m_dofs v)) m [] (x := map f (nth m (m_dofs v) []))).
      - rewrite nth_error_map. rewrite (nth_error_nth' _ 0); [reflexivity|].
        rewrite (shape2_row (m_dofs v) nnode ndim); auto. split; auto.
      - rewrite nth_error_map. rewrite (nth_error_nth' _ []); [reflexivity|]. lia. }
    rewrite Ei. apply Hf. now apply vp_in_dofs.
Qed.

Variable p : VectorPartitioned.
Hypothesis Ep : new_VectorPartitioned v iip = Ok p.

Lemma vp_facts : vp_v p = v /\ m_iiu p = iiu /\ m_iip p = iip /\ shape2 (m_part p) nnode ndim /\
  (forall m i, m < nnode -> i < ndim -> nth_error (iiu ++ iip) (idx2 (m_part p) m i) = Some (dof m i)).
Proof. destruct vp_new as [q [E H]]. rewrite Ep in E. injection E as E. rewrite E. exact H. Qed.

Let nnu := length iiu.
Let nnp := length iip.

Lemma vp_nnu : m_nnu p = nnu.
Proof. unfold m_nnu. destruct vp_facts as [_ [-> _]]. reflexivity. Qed.
Lemma vp_nnp : m_nnp p = nnp.
Proof. unfold m_nnp. destruct vp_facts as [_ [_ [-> _]]]. reflexivity. Qed.

Lemma vp_sizes : m_nelem (vp_v p) = nelem /\ m_nnode (vp_v p) = nnode /\ m_ndof (vp_v p) = ndof /\
  m_nne (vp_v p) = nne /\ m_ndim (vp_v p) = ndim.
Proof.
  destruct vp_facts as [-> _]. destruct (V_sizes v nelem nne nnode ndim ndof Hne Hnd Hmd) as [H1 [H2 H3]]. auto.
Qed.

Lemma vp_get_part m i : m < nnode -> i < ndim -> get2 (m_part p) m i = Ok (idx2 (m_part p) m i).
Proof. intros. apply (get2_nth 0 _ nnode ndim); auto. apply vp_facts. Qed.

Lemma vp_part m i : m < nnode -> i < ndim ->
  (idx2 (m_part p) m i < nnu /\ nth_error iiu (idx2 (m_part p) m i) = Some (dof m i) /\ ~ In (dof m i) iip) \/
  (nnu <= idx2 (m_part p) m i /\ nth_error iip (idx2 (m_part p) m i - nnu) = Some (dof m i) /\ In (dof m i) iip).
Proof.
  intros Hm Hi. destruct vp_facts as [_ [_ [_ [_ H]]]]. specialize (H m i Hm Hi).
  destruct (Nat.lt_ge_cases (idx2 (m_part p) m i) nnu) as [Hlt|Hge].
  - left. rewrite nth_error_app1 in H by exact Hlt. split; [exact Hlt|]. split; [exact H|].
    apply nth_error_In in H. apply setdiff1d_In in H. tauto.
  - right. rewrite nth_error_app2 in H by exact Hge. split; [exact Hge|]. split; [exact H|]. now apply nth_error_In in H.
Qed.

Lemma vp_part_u m i k : m < nnode -> i < ndim -> nth_error iiu k = Some (dof m i) -> idx2 (m_part p) m i = k.
Proof.
  intros Hm Hi Hk. destruct (vp_part m i Hm Hi) as [[_ [H _]]|[_ [_ H]]].
  - eapply NoDup_nth_error_inj; [apply setdiff1d_NoDup|exact H|exact Hk].
  - apply nth_error_In in Hk. apply setdiff1d_In in Hk. tauto.
Qed.
Lemma vp_part_p m i k : m < nnode -> i < ndim -> nth_error iip k = Some (dof m i) -> idx2 (m_part p) m i = nnu + k.
Proof.
  intros Hm Hi Hk. destruct (vp_part m i Hm Hi) as [[_ [_ H]]|[Hl [H _]]].
  - apply nth_error_In in Hk. tauto.
  - enough (idx2 (m_part p) m i - nnu = k) by lia.
    eapply NoDup_nth_error_inj; [apply Hiip|exact H|exact Hk].
Qed.

Lemma iiu_spec : StronglySorted lt (m_iiu p) /\ (forall d, In d (m_iiu p) <-> In d (concat (m_dofs v)) /\ ~ In d iip) /\ m_iip p = iip.
Proof.
  destruct vp_facts as [_ [-> [-> _]]]. split; [apply setdiff1d_sorted|]. split; [|reflexivity].
  intro d. apply setdiff1d_In.
Qed.

Lemma is_u_spec : exists U P, dofs_is_u p = Ok U /\ dofs_is_p p = Ok P /\ shape2 U nnode ndim /\ shape2 P nnode ndim /\
  forall m i, m < nnode -> i < ndim ->
    nth2 false P m i = negb (nth2 false U m i) /\ (nth2 false P m i = true <-> In (dof m i) iip).
Proof.
  unfold dofs_is_u, dofs_is_p. destruct vp_sizes as [_ [E1 [_ [_ E2]]]]. rewrite E1, E2.
  rewrite (fill2_Ok _ _ _ (fun m i => idx2 (m_part p) m i <? m_nnu p)).
  2:{ intros m i Hm Hi. now rewrite vp_get_part. }
  rewrite (fill2_Ok _ _ _ (fun m i => m_nnu p <=? idx2 (m_part p) m i)).
  2:{ intros m i Hm Hi. now rewrite vp_get_part. }
  do 2 eexists. split; [reflexivity|]. split; [reflexivity|]. split; [apply tab2_shape|]. split; [apply tab2_shape|].
  intros m i Hm Hi. rewrite !(tab2_nth false) by assumption. rewrite vp_nnu.
  destruct (vp_part m i Hm Hi) as [[H1 [_ H2]]|[H1 [_ H2]]];
    destruct (Nat.leb_spec nnu (idx2 (m_part p) m i)), (Nat.ltb_spec (idx2 (m_part p) m i) nnu); try lia;
    simpl; intuition discriminate.
Qed.

Lemma copy_spec src dest : shape2 src nnode ndim -> shape2 dest nnode ndim ->
  exists U P, Copy_u p src dest = Ok U /\ Copy_p p src dest = Ok P /\ shape2 U nnode ndim /\ shape2 P nnode ndim /\
  forall m i, m < nnode -> i < ndim ->
    (In (dof m i) iip -> val2 U m i = val2 dest m i /\ val2 P m i = val2 src m i) /\
    (~ In (dof m i) iip -> val2 U m i = val2 src m i /\ val2 P m i = val2 dest m i).
Proof.
  intros Ss Sd. unfold Copy_u, Copy_p. destruct vp_sizes as [_ [E1 [_ [_ E2]]]]. rewrite E1, E2.
  rewrite (fill2_Ok _ _ _ (fun m i => if idx2 (m_part p) m i <? m_nnu p then val2 src m i else val2 dest m i)).
  2:{ intros m i Hm Hi. rewrite vp_get_part by assumption. cbn [bind]. destruct (_ <? _); now apply (get2_nth 0%R _ nnode ndim). }
  rewrite (fill2_Ok _ _ _ (fun m i => if m_nnu p <=? idx2 (m_part p) m i then val2 src m i else val2 dest m i)).
  2:{ intros m i Hm Hi. rewrite vp_get_part by assumption. cbn [bind]. destruct (_ <=? _); now apply (get2_nth 0%R _ nnode ndim). }
  do 2 eexists. split; [reflexivity|]. split; [reflexivity|]. split; [apply tab2_shape|]. split; [apply tab2_shape|].
  intros m i Hm Hi. unfold val2 at 1 3 5 7. rewrite !(tab2_nth 0%R) by assumption. rewrite vp_nnu.
  destruct (vp_part m i Hm Hi) as [[H1 [_ H2]]|[H1 [_ H2]]];
    destruct (Nat.leb_spec nnu (idx2 (m_part p) m i)), (Nat.ltb_spec (idx2 (m_part p) m i) nnu); try lia; tauto.
Qed.

(** selection of DOF values *)
Lemma iiu_lt d : In d iiu -> d < ndof.
Proof.
  intro H. apply setdiff1d_In in H. destruct H as [H _]. apply amax_ge in H.
  rewrite (md_ndof _ _ _ _ _ _ _ Hmd). unfold amax in H. lia.
Qed.

Lemma select_spec x : length x = ndof -> exists xu xp, AsDofs_u_dofval p x = Ok xu /\ AsDofs_p_dofval p x = Ok xp /\
  length xu = nnu /\ length xp = nnp /\
  (forall k d, nth_error iiu k = Some d -> val1 xu k = val1 x d) /\
  (forall k d, nth_error iip k = Some d -> val1 xp k = val1 x d).
Proof.
  intro L. unfold AsDofs_u_dofval, AsDofs_p_dofval. rewrite vp_nnu, vp_nnp. destruct vp_facts as [_ [-> [-> _]]].
  rewrite (fill1_Ok _ _ (fun k => val1 x (nth k iiu 0))).
  2:{ intros k Hk. rewrite (get_nth 0) by exact Hk. cbn [bind]. apply get_nth. rewrite L. apply iiu_lt. now apply nth_In. }
  rewrite (fill1_Ok _ _ (fun k => val1 x (nth k iip 0))).
  2:{ intros k Hk. rewrite (get_nth 0) by exact Hk. cbn [bind]. apply get_nth. rewrite L. apply Hiip. now apply nth_In. }
  do 2 eexists. split; [reflexivity|]. split; [reflexivity|]. split; [apply tab1_length|]. split; [apply tab1_length|].
  split; intros k d Hk.
  - assert (k < nnu) by (apply nth_error_Some; congruence). unfold val1 at 1. rewrite tab1_nth by assumption. f_equal. now apply nth_error_nth.
  - assert (k < nnp) by (apply nth_error_Some; congruence). unfold val1 at 1. rewrite tab1_nth by assumption. f_equal. now apply nth_error_nth.
Qed.

(** recombination *)
Lemma from_dofs_spec xu xp : length xu = nnu -> length xp = nnp -> exists x, DofsFromParitioned p xu xp = Ok x /\ length x = ndof /\
  (forall k d, nth_error iiu k = Some d -> val1 x d = val1 xu k) /\
  (forall k d, nth_error iip k = Some d -> val1 x d = val1 xp k) /\
  (forall d, d < ndof -> ~ In d iiu -> ~ In d iip -> val1 x d = 0%R).
Proof.
  intros Lu Lp. unfold DofsFromParitioned. destruct vp_sizes as [_ [_ [-> _]]]. destruct vp_facts as [_ [-> [-> _]]].
  rewrite index_writes_Ok by exact Lu. cbn [bind].
  destruct (write_all_Ok (combine iiu xu) (repeat 0%R ndof)) as [r [E [L [Hout [_ Hany]]]]].
  { intros k x Hin. apply in_combine_l in Hin. rewrite repeat_length. now apply iiu_lt. }
  rewrite E. cbn [bind]. rewrite index_writes_Ok by exact Lp. cbn [bind].
  destruct (write_all_Ok (combine iip xp) r) as [r' [E' [L' [Hout' [_ Hany']]]]].
  { intros k x Hin. apply in_combine_l in Hin. rewrite L, repeat_length. now apply Hiip. }
  exists r'. split; [exact E'|]. rewrite repeat_length in L. split; [congruence|].
  rewrite map_fst_combine' in Hout, Hout', Hany, Hany' by assumption.
  assert (Hex : forall d, ~ (In d iiu /\ In d iip)) by (intros d [H H']; apply setdiff1d_In in H; tauto).
  split; [|split].
  - intros k d Hk. pose proof (nth_error_In _ _ Hk) as Hin. destruct (Hany d Hin) as [x [Hx1 Hx2]].
    apply In_combine_nth in Hx1; [|exact Lu]. destruct Hx1 as [k' [Hk' [Hv _]]].
    assert (k' = k) by (eapply NoDup_nth_error_inj; [apply setdiff1d_NoDup|exact Hk'|exact Hk]). subst k'.
    unfold val1 at 1. apply nth_error_nth. rewrite Hout'; [congruence|]. intro. now apply (Hex d).
  - intros k d Hk. pose proof (nth_error_In _ _ Hk) as Hin. destruct (Hany' d Hin) as [x [Hx1 Hx2]].
    apply In_combine_nth in Hx1; [|exact Lp]. destruct Hx1 as [k' [Hk' [Hv _]]].
    assert (k' = k) by (eapply NoDup_nth_error_inj; [apply Hiip|exact Hk'|exact Hk]). subst k'.
    unfold val1 at 1. apply nth_error_nth. congruence.
  - intros d Hd H1 H2. unfold val1. apply nth_error_nth. rewrite Hout', Hout by assumption. now apply nth_error_repeat_lt.
Qed.

(** what the recombined value of a DOF is *)
Definition combined (xu xp : list R) (d : nat) (y : R) : Prop :=
  (forall k, nth_error iiu k = Some d -> y = val1 xu k) /\ (forall k, nth_error iip k = Some d -> y = val1 xp k).

Lemma from_part_spec xu xp m i : length xu = nnu -> length xp = nnp -> m < nnode -> i < ndim ->
  exists y, from_part p xu xp (idx2 (m_part p) m i) = Ok y /\ combined xu xp (dof m i) y.
Proof.
  intros Lu Lp Hm Hi. unfold from_part. rewrite vp_nnu.
  destruct (vp_part m i Hm Hi) as [[H1 [H3 H2]]|[H1 [H3 H2]]]; destruct (Nat.ltb_spec (idx2 (m_part p) m i) nnu); try lia.
  - exists (val1 xu (idx2 (m_part p) m i)). split; [apply get_nth; lia|]. split; intros k Hk.
    + now rewrite (vp_part_u m i k).
    + apply nth_error_In in Hk. tauto.
  - assert (idx2 (m_part p) m i - nnu < nnp) by (apply nth_error_Some; congruence).
    exists (val1 xp (idx2 (m_part p) m i - nnu)). split; [apply get_nth; lia|]. split; intros k Hk.
    + apply nth_error_In in Hk. apply setdiff1d_In in Hk. tauto.
    + rewrite (vp_part_p m i k) by assumption. f_equal. lia.
Qed.

Lemma from_node_spec xu xp x : length xu = nnu -> length xp = nnp -> DofsFromParitioned p xu xp = Ok x ->
  NodeFromPartitioned p xu xp = AsNode_dofval v x /\ ElementFromPartitioned p xu xp = AsElement_dofval v x.
Proof.
  intros Lu Lp Ex. destruct (from_dofs_spec xu xp Lu Lp) as [x' [Ex' [Lx [Hu [Hp _]]]]].
  rewrite Ex in Ex'. injection Ex' as Ex'. rewrite <- Ex' in *. clear Ex' x'.
  assert (K : forall m i, m < nnode -> i < ndim -> from_part p xu xp (idx2 (m_part p) m i) = Ok (val1 x (dof m i))).
  { intros m i Hm Hi. destruct (from_part_spec xu xp m i Lu Lp Hm Hi) as [y [Ey [C1 C2]]]. rewrite Ey. f_equal.
    destruct (vp_part m i Hm Hi) as [[_ [H _]]|[_ [H _]]].
    - rewrite (C1 _ H). symmetry. now apply Hu.
    - rewrite (C2 _ H). symmetry. now apply Hp. }
  destruct vp_sizes as [S1 [S2 [S3 [S4 S5]]]]. destruct (V_sizes v nelem nne nnode ndim ndof Hne Hnd Hmd) as [V1 [V2 V3]].
  split.
  - unfold NodeFromPartitioned, AsNode_dofval. rewrite S2, S5, V2, Hnd.
    rewrite !(fill2_Ok _ _ _ (fun m i => val1 x (dof m i))); [reflexivity| |].
    + intros m i Hm Hi. rewrite (V_get_dof v nelem nne nnode ndim ndof Hne Hnd Hmd) by assumption. cbn [bind]. apply get_nth.
      rewrite Lx. now apply (V_dof v nelem nne nnode ndim ndof).
    + intros m i Hm Hi. rewrite vp_get_part by assumption. cbn [bind]. now apply K.
  - unfold ElementFromPartitioned, AsElement_dofval. rewrite S1, S4, S5, V1, Hnd, Hne. destruct vp_facts as [-> _].
    rewrite !(fill3_Ok _ _ _ _ (fun e m i => val1 x (dof (node e m) i))); [reflexivity| |].
    + intros e m i He Hm Hi. rewrite (V_elem_dof v nelem nne nnode ndim ndof Hne Hnd Hmd) by assumption. cbn [bind]. apply get_nth.
      rewrite Lx. apply (V_dof v nelem nne nnode ndim ndof); auto. now apply (V_node v nelem nne nnode ndim ndof).
    + intros e m i He Hm Hi. rewrite (V_get_node v nelem nne nnode ndim ndof Hne Hnd Hmd) by assumption. cbn [bind].
      assert (node e m < nnode) by now apply (V_node v nelem nne nnode ndim ndof).
      rewrite vp_get_part by assumption. cbn [bind]. now apply K.
Qed.

(** splitting and recombining *)
Lemma split_recombine x : length x = ndof -> exists xu xp x', AsDofs_u_dofval p x = Ok xu /\ AsDofs_p_dofval p x = Ok xp /\
  DofsFromParitioned p xu xp = Ok x' /\ length x' = ndof /\
  forall d, d < ndof -> val1 x' d = if mem d (concat (m_dofs v)) || mem d iip then val1 x d else 0%R.
Proof.
  intro L. destruct (select_spec x L) as [xu [xp [E1 [E2 [L1 [L2 [H1 H2]]]]]]].
  destruct (from_dofs_spec xu xp L1 L2) as [x' [E3 [L3 [H3 [H4 H5]]]]].
  exists xu, xp, x'. split; [exact E1|]. split; [exact E2|]. split; [exact E3|]. split; [exact L3|]. intros d Hd.
  destruct (mem d iip) eqn:Ei.
  - rewrite orb_true_r. apply mem_In in Ei. apply In_nth_error in Ei. destruct Ei as [k Hk]. rewrite (H4 k d Hk). now apply H2.
  - apply mem_false in Ei. rewrite orb_false_r. destruct (mem d (concat (m_dofs v))) eqn:Ed.
    + apply mem_In in Ed. assert (Hin : In d iiu) by (now apply setdiff1d_In). apply In_nth_error in Hin. destruct Hin as [k Hk].
      rewrite (H3 k d Hk). now apply H1.
    + apply mem_false in Ed. apply H5; auto. intro Hin. apply setdiff1d_In in Hin. tauto.
Qed.

Lemma recombine_split xu xp : length xu = nnu -> length xp = nnp -> exists x, DofsFromParitioned p xu xp = Ok x /\
  AsDofs_u_dofval p x = Ok xu /\ AsDofs_p_dofval p x = Ok xp.
Proof.
  intros Lu Lp. destruct (from_dofs_spec xu xp Lu Lp) as [x [E3 [L3 [H3 [H4 H5]]]]].
  destruct (select_spec x L3) as [yu [yp [E1 [E2 [L1 [L2 [H1 H2]]]]]]].
  exists x. split; [exact E3|]. rewrite E1, E2. split; f_equal.
  - apply (list_ext1 0%R _ _ nnu L1 Lu). intros k Hk. change (val1 yu k = val1 xu k).
    assert (Hn : nth_error iiu k = Some (nth k iiu 0)) by now apply nth_error_nth'.
    rewrite (H1 _ _ Hn). now apply H3.
  - apply (list_ext1 0%R _ _ nnp L2 Lp). intros k Hk. change (val1 yp k = val1 xp k).
    assert (Hn : nth_error iip k = Some (nth k iip 0)) by now apply nth_error_nth'.
    rewrite (H2 _ _ Hn). now apply H4.
Qed.

(** gathering from nodal values *)
Lemma AsDofs_up_nodevec order u : Permutation order (node_iters v) -> shape2 u nnode ndim -> agree2 (m_dofs v) nnode ndim u ->
  exists xu xp, AsDofs_u_nodevec p order u = Ok xu /\ AsDofs_p_nodevec p order u = Ok xp /\ length xu = nnu /\ length xp = nnp /\
  (forall m i, m < nnode -> i < ndim ->
     (forall k, nth_error iiu k = Some (dof m i) -> val1 xu k = val2 u m i) /\
     (forall k, nth_error iip k = Some (dof m i) -> val1 xp k = val2 u m i)) /\
  (forall k d, nth_error iip k = Some d -> ~ In d (concat (m_dofs v)) -> val1 xp k = 0%R).
Proof.
  intros Hp Hs Hag. pose proof (in_node_iters v nelem nne nnode ndim ndof Hne Hnd Hmd) as Hit.
  assert (Hin : forall a, In a order <-> fst a < nnode /\ snd a < ndim).
  { intro a. rewrite <- Hit. split; apply Permutation_in; auto. now apply Permutation_sym. }
  unfold AsDofs_u_nodevec, AsDofs_p_nodevec, write_u, write_p. rewrite vp_nnu, vp_nnp.
  set (P := fun a : nat * nat => idx2 (m_part p) (fst a) (snd a)).
  set (U := fun a : nat * nat => val2 u (fst a) (snd a)).
  rewrite (mapM_Ok _ _ (fun a => if P a <? nnu then [(P a, U a)] else [])).
  2:{ intros a Ha. apply Hin in Ha. destruct Ha as [H1 H2]. rewrite vp_get_part by assumption. cbn [bind].
      unfold P. destruct (_ <? _); [|reflexivity]. now rewrite (get2_nth 0%R _ nnode ndim). }
  rewrite (mapM_Ok _ _ (fun a => if nnu <=? P a then [(P a - nnu, U a)] else [])).
  2:{ intros a Ha. apply Hin in Ha. destruct Ha as [H1 H2]. rewrite vp_get_part by assumption. cbn [bind].
      unfold P. destruct (_ <=? _); [|reflexivity]. now rewrite (get2_nth 0%R _ nnode ndim). }
  cbn [bind]. rewrite (concat_if_filter (fun a => P a <? nnu) (fun a => (P a, U a))).
  rewrite (concat_if_filter (fun a => nnu <=? P a) (fun a => (P a - nnu, U a))).
  destruct (scatter_agree P U (filter (fun a => P a <? nnu) order) nnu) as [xu [E1 [L1 [H1 _]]]].
  { intros a Ha. apply filter_In in Ha. destruct Ha as [_ Ha]. now apply Nat.ltb_lt in Ha. }
  { intros a b Ha Hb E. apply filter_In in Ha, Hb. destruct Ha as [Ha _], Hb as [Hb _]. apply Hin in Ha, Hb.
    destruct vp_facts as [_ [_ [_ [_ F]]]]. apply Hag; try tauto.
    pose proof (F (fst a) (snd a) (proj1 Ha) (proj2 Ha)) as F1. pose proof (F (fst b) (snd b) (proj1 Hb) (proj2 Hb)) as F2.
    unfold P in E. rewrite E in F1. congruence. }
  destruct (scatter_agree (fun a => P a - nnu) U (filter (fun a => nnu <=? P a) order) nnp) as [xp [E2 [L2 [H2 H3]]]].
  { intros a Ha. apply filter_In in Ha. destruct Ha as [Ha Ha2]. apply Nat.leb_le in Ha2. apply Hin in Ha.
    destruct (vp_part (fst a) (snd a)) as [[H _]|[_ [H _]]]; try tauto; [unfold P in Ha2; lia|].
    apply nth_error_Some. unfold P. congruence. }
  { intros a b Ha Hb E. apply filter_In in Ha, Hb. destruct Ha as [Ha Ha2], Hb as [Hb Hb2]. apply Hin in Ha, Hb.
    apply Nat.leb_le in Ha2, Hb2. assert (E' : P a = P b) by lia.
    destruct vp_facts as [_ [_ [_ [_ F]]]]. apply Hag; try tauto.
    pose proof (F (fst a) (snd a) (proj1 Ha) (proj2 Ha)) as F1. pose proof (F (fst b) (snd b) (proj1 Hb) (proj2 Hb)) as F2.
    unfold P in E'. rewrite E' in F1. congruence. }
  exists xu, xp. split; [exact E1|]. split; [exact E2|]. split; [exact L1|]. split; [exact L2|]. split.
  - intros m i Hm Hi. split; intros k Hk.
    + pose proof (vp_part_u m i k Hm Hi Hk) as Ek. pose proof (H1 (m, i)) as H. unfold P, U in H. simpl in H. rewrite Ek in H.
      apply H. apply filter_In. simpl. rewrite Ek. split; [now apply Hin|]. apply Nat.ltb_lt. apply nth_error_Some. congruence.
    + pose proof (vp_part_p m i k Hm Hi Hk) as Ek. pose proof (H2 (m, i)) as H. unfold P, U in H. simpl in H. rewrite Ek in H.
      replace (nnu + k - nnu) with k in H by lia. apply H. apply filter_In. simpl. rewrite Ek. split; [now apply Hin|]. apply Nat.leb_le. lia.
  - intros k d Hk Hd. apply H3; [apply nth_error_Some; congruence|]. intro Hi. apply in_map_iff in Hi. destruct Hi as [a [Ea Ha]].
    apply filter_In in Ha. destruct Ha as [Ha Ha2]. apply Nat.leb_le in Ha2. apply Hin in Ha.
    destruct (vp_part (fst a) (snd a)) as [[H _]|[_ [H _]]]; try tauto; [unfold P in Ha2; lia|].
    unfold P in Ea. rewrite Ea in H. apply Hd. replace d with (dof (fst a) (snd a)) by congruence. now apply vp_in_dofs.
Qed.

Lemma AsDofs_up_elemvec order f : Permutation order (elem_iters v) -> shape3 f nelem nne ndim ->
  agree3 (fun e m i => dof (node e m) i) nelem nne ndim f ->
  exists xu xp, AsDofs_u_elemvec p order f = Ok xu /\ AsDofs_p_elemvec p order f = Ok xp /\ length xu = nnu /\ length xp = nnp /\
  (forall e m i, e < nelem -> m < nne -> i < ndim ->
     (forall k, nth_error iiu k = Some (dof (node e m) i) -> val1 xu k = val3 f e m i) /\
     (forall k, nth_error iip k = Some (dof (node e m) i) -> val1 xp k = val3 f e m i)) /\
  (forall d, (forall e m i, e < nelem -> m < nne -> i < ndim -> dof (node e m) i <> d) ->
     (forall k, nth_error iiu k = Some d -> val1 xu k = 0%R) /\ (forall k, nth_error iip k = Some d -> val1 xp k = 0%R)).
Proof.
  intros Hp Hs Hag. pose proof (in_elem_iters v nelem nne nnode ndim ndof Hne Hnd Hmd) as Hit.
  assert (Hin : forall a, In a order <-> fst (fst a) < nelem /\ snd (fst a) < nne /\ snd a < ndim).
  { intro a. rewrite <- Hit. split; apply Permutation_in; auto. now apply Permutation_sym. }
  assert (Hnode : forall e m, e < nelem -> m < nne -> node e m < nnode) by apply (V_node v nelem nne nnode ndim ndof Hne Hnd Hmd).
  unfold AsDofs_u_elemvec, AsDofs_p_elemvec, write_u, write_p. rewrite vp_nnu, vp_nnp.
  set (N := fun a : nat * nat * nat => node (fst (fst a)) (snd (fst a))).
  set (P := fun a : nat * nat * nat => idx2 (m_part p) (N a) (snd a)).
  set (U := fun a : nat * nat * nat => val3 f (fst (fst a)) (snd (fst a)) (snd a)).
  assert (HN : forall a, In a order -> N a < nnode /\ snd a < ndim).
  { intros a Ha. apply Hin in Ha. split; [apply Hnode|]; tauto. }
  rewrite (mapM_Ok _ _ (fun a => if P a <? nnu then [(P a, U a)] else [])).
  2:{ intros a Ha. destruct (HN a Ha) as [H4 H5]. apply Hin in Ha. destruct Ha as [H1 [H2 H3]].
      destruct vp_facts as [-> _]. rewrite (V_get_node v nelem nne nnode ndim ndof Hne Hnd Hmd) by assumption. cbn [bind].
      rewrite vp_get_part by assumption. cbn [bind].
      unfold P, N. destruct (_ <? _); [|reflexivity]. now rewrite (get3_nth 0%R _ nelem nne ndim). }
  rewrite (mapM_Ok _ _ (fun a => if nnu <=? P a then [(P a - nnu, U a)] else [])).
  2:{ intros a Ha. destruct (HN a Ha) as [H4 H5]. apply Hin in Ha. destruct Ha as [H1 [H2 H3]].
      destruct vp_facts as [-> _]. rewrite (V_get_node v nelem nne nnode ndim ndof Hne Hnd Hmd) by assumption. cbn [bind].
      rewrite vp_get_part by assumption. cbn [bind].
      unfold P, N. destruct (_ <=? _); [|reflexivity]. now rewrite (get3_nth 0%R _ nelem nne ndim). }
  cbn [bind]. rewrite (concat_if_filter (fun a => P a <? nnu) (fun a => (P a, U a))).
  rewrite (concat_if_filter (fun a => nnu <=? P a) (fun a => (P a - nnu, U a))).
  assert (Hdof : forall a b, In a order -> In b order -> P a = P b -> U a = U b).
  { intros a b Ha Hb E. destruct (HN a Ha) as [A1 A2], (HN b Hb) as [B1 B2]. apply Hin in Ha, Hb.
    destruct vp_facts as [_ [_ [_ [_ F]]]]. apply Hag; try tauto.
    pose proof (F (N a) (snd a) A1 A2) as F1. pose proof (F (N b) (snd b) B1 B2) as F2.
    unfold P in E. rewrite E in F1. unfold N in *. congruence. }
  destruct (scatter_agree P U (filter (fun a => P a <? nnu) order) nnu) as [xu [E1 [L1 [H1 H0]]]].
  { intros a Ha. apply filter_In in Ha. destruct Ha as [_ Ha]. now apply Nat.ltb_lt in Ha. }
  { intros a b Ha Hb E. apply filter_In in Ha, Hb. apply Hdof; tauto. }
  destruct (scatter_agree (fun a => P a - nnu) U (filter (fun a => nnu <=? P a) order) nnp) as [xp [E2 [L2 [H2 H3]]]].
  { intros a Ha. apply filter_In in Ha. destruct Ha as [Ha Ha2]. apply Nat.leb_le in Ha2. destruct (HN a Ha) as [A1 A2].
    destruct (vp_part (N a) (snd a) A1 A2) as [[H _]|[_ [H _]]]; [unfold P in Ha2; lia|].
    apply nth_error_Some. unfold P. congruence. }
  { intros a b Ha Hb E. apply filter_In in Ha, Hb. destruct Ha as [Ha Ha2], Hb as [Hb Hb2].
    apply Nat.leb_le in Ha2, Hb2. apply Hdof; auto. lia. }
  exists xu, xp. split; [exact E1|]. split; [exact E2|]. split; [exact L1|]. split; [exact L2|]. split.
  - intros e m i He Hm Hi. pose proof (Hnode e m He Hm) as Hn. split; intros k Hk.
    + pose proof (vp_part_u (node e m) i k Hn Hi Hk) as Ek. pose proof (H1 (e, m, i)) as H. unfold P, U, N in H. simpl in H. rewrite Ek in H.
      apply H. apply filter_In. simpl. rewrite Ek. split; [now apply Hin|]. apply Nat.ltb_lt. apply nth_error_Some. congruence.
    + pose proof (vp_part_p (node e m) i k Hn Hi Hk) as Ek. pose proof (H2 (e, m, i)) as H. unfold P, U, N in H. simpl in H. rewrite Ek in H.
      replace (nnu + k - nnu) with k in H by lia. apply H. apply filter_In. simpl. rewrite Ek. split; [now apply Hin|]. apply Nat.leb_le. lia.
  - intros d Hd. split; intros k Hk.
    + apply H0; [apply nth_error_Some; congruence|]. intro Hi. apply in_map_iff in Hi. destruct Hi as [a [Ea Ha]].
      apply filter_In in Ha. destruct Ha as [Ha Ha2]. apply Nat.ltb_lt in Ha2. destruct (HN a Ha) as [A1 A2]. apply Hin in Ha.
      destruct (vp_part (N a) (snd a) A1 A2) as [[_ [H _]]|[H _]]; [|unfold P in Ha2; lia].
      unfold P in Ea. rewrite Ea in H. apply (Hd (fst (fst a)) (snd (fst a)) (snd a)); try tauto. unfold N in H. congruence.
    + apply H3; [apply nth_error_Some; congruence|]. intro Hi. apply in_map_iff in Hi. destruct Hi as [a [Ea Ha]].
      apply filter_In in Ha. destruct Ha as [Ha Ha2]. apply Nat.leb_le in Ha2. destruct (HN a Ha) as [A1 A2]. apply Hin in Ha.
      destruct (vp_part (N a) (snd a) A1 A2) as [[H _]|[_ [H _]]]; [unfold P in Ha2; lia|].
      unfold P in Ea. rewrite Ea in H. apply (Hd (fst (fst a)) (snd (fst a)) (snd a)); try tauto. unfold N in H. congruence.
Qed.
End VP.
