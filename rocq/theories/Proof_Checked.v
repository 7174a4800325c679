(** The vector classes with assertions. *)
From Coq Require Import Reals Lra Lia.
From Verif Require Import Base Spec Sums Spec_Vector Model_Numbering Model_Vector Proof_Vector Model_VectorPartitioned Proof_Numbering Proof_VectorPartitioned Model_Misc Proof_Misc Model_Checked Spec_Checked.

Lemma has_shape_eq s t : has_shape s t = true <-> s = t.
Proof.
  revert t. induction s as [|a s IH]; intros [|b t]; cbn; try (split; congruence). rewrite andb_true_iff, Nat.eqb_eq, IH. split; [intros [-> ->]; reflexivity|intros E; now inversion E].
Qed.
Lemma has_shape_refl s : has_shape s s = true. Proof. now apply has_shape_eq. Qed.
Lemma has_shape_neq s t : s <> t -> has_shape s t = false.
Proof. intros H. destruct (has_shape s t) eqn:E; [|reflexivity]. apply has_shape_eq in E. contradiction. Qed.
Lemma assert_true {A} ck (k : res A) : assert ck true k = k.
Proof. unfold assert. now rewrite andb_false_r. Qed.
Lemma assert_false {A} (k : res A) : assert true false k = Throw.
Proof. reflexivity. Qed.

Lemma rows1_length {A} n (a : array A) : length (rows1 n a) = n.
Proof. unfold rows1. now rewrite map_length, seq_length. Qed.
Lemma rows2_shape {A} n d (a : array A) : shape2 (rows2 n d a) n d.
Proof. exact (tab2_shape n d (fun m i => a_ent a [m; i])). Qed.
Lemma rows3_shape {A} n k d (a : array A) : shape3 (rows3 n k d a) n k d.
Proof. exact (tab3_shape n k d (fun e m i => a_ent a [e; m; i])). Qed.
Lemma rows2_nth n d (a : array nat) m i : m < n -> i < d -> idx2 (rows2 n d a) m i = a_ent a [m; i].
Proof. intros Hm Hi. exact (tab2_nth 0 n d (fun m i => a_ent a [m; i]) m i Hm Hi). Qed.
Lemma in_rows1 {A} n (a : array A) x : In x (rows1 n a) <-> exists k, k < n /\ a_ent a [k] = x.
Proof. unfold rows1. rewrite in_map_iff. split; intros [k [H1 H2]]; exists k; [apply in_seq in H2|rewrite in_seq]; split; auto; lia. Qed.
Lemma in_rows2 {A} n d (a : array A) x : In x (concat (rows2 n d a)) <-> exists m i, m < n /\ i < d /\ a_ent a [m; i] = x.
Proof.
  unfold rows2. rewrite in_concat. split.
  - intros [r [Hr Hx]]. apply in_map_iff in Hr. destruct Hr as [m [<- Hm]]. apply in_map_iff in Hx. destruct Hx as [i [<- Hi]]. apply in_seq in Hm, Hi. exists m, i. repeat split; auto; lia.
  - intros (m & i & Hm & Hi & <-). exists (map (fun i => a_ent a [m; i]) (seq 0 d)). split; apply in_map_iff; [exists m|exists i]; split; auto; apply in_seq; lia.
Qed.

(** the constructor *)
Definition the_vector (conn dofs : array nat) (z : sizes) : Vector := mkVector (rows2 (z_nelem z) (z_nne z) conn) (z_nne z) (rows2 (z_nnode z) (z_ndim z) dofs) (z_ndim z).
Definition sizes_of (v : Vector) : sizes := mkSizes (m_nelem v) (m_nne v) (m_nnode v) (m_ndim v) (m_ndof v).

Lemma amax_concat n d (a : array nat) b : 1 <= b -> amax (concat (rows2 n d a)) + 1 <= b <-> (forall m i, m < n -> i < d -> a_ent a [m; i] < b).
Proof.
  intros Hb. split.
  - intros H m i Hm Hi. assert (In (a_ent a [m; i]) (concat (rows2 n d a))) as Hin by (apply in_rows2; eauto). apply amax_ge in Hin. lia.
  - intros H. assert (amax (concat (rows2 n d a)) <= b - 1); [|lia]. apply amax_lub. intros x Hx. apply in_rows2 in Hx. destruct Hx as (m & i & Hm & Hi & <-). specialize (H m i Hm Hi). lia.
Qed.

Lemma vector_ndof conn dofs z : valid_mesh conn dofs z -> m_ndof (the_vector conn dofs z) = z_ndof z.
Proof.
  intros V. unfold m_ndof, the_vector. cbn [m_dofs]. destruct (vm_last _ _ _ V) as (n & i & Hn & Hi & E).
  assert (In (a_ent dofs [n; i]) (concat (rows2 (z_nnode z) (z_ndim z) dofs))) as Hin by (apply in_rows2; eauto). apply amax_ge in Hin.
  assert (amax (concat (rows2 (z_nnode z) (z_ndim z) dofs)) + 1 <= z_ndof z); [|lia]. apply amax_concat; [lia|]. apply (vm_below _ _ _ V).
Qed.
Lemma new_ok ck conn dofs z : valid_mesh conn dofs z -> new_Vector ck conn dofs = Ok (the_vector conn dofs z).
Proof.
  intros V. unfold new_Vector. rewrite (vm_conn _ _ _ V), (vm_dofs _ _ _ V). fold (the_vector conn dofs z). cbv zeta.
  assert (P : 1 <= z_nnode z) by (pose proof (vm_pos _ _ _ V); destruct (z_nnode z); cbn in *; lia).
  assert (E1 : (amax (concat (m_conn (the_vector conn dofs z))) + 1 <=? z_nnode z) = true). { apply Nat.leb_le. cbn [m_conn the_vector]. apply amax_concat; [exact P|]. apply (vm_node _ _ _ V). }
  assert (E2 : (m_ndof (the_vector conn dofs z) <=? z_nnode z * z_ndim z) = true). { apply Nat.leb_le. unfold m_ndof. cbn [m_dofs the_vector]. apply amax_concat; [apply (vm_pos _ _ _ V)|]. apply (vm_range _ _ _ V). }
  change (assert ck (amax (concat (m_conn (the_vector conn dofs z))) + 1 <=? z_nnode z) (assert ck (m_ndof (the_vector conn dofs z) <=? z_nnode z * z_ndim z) (Ok (the_vector conn dofs z))) = Ok (the_vector conn dofs z)).
  rewrite E1, E2, !assert_true. reflexivity.
Qed.
Lemma new_inv conn dofs v : new_Vector true conn dofs = Ok v -> valid_mesh conn dofs (sizes_of v) /\ v = the_vector conn dofs (sizes_of v).
Proof.
  unfold new_Vector. destruct (a_shape conn) as [|nelem [|nne [|]]] eqn:Sc; try discriminate. destruct (a_shape dofs) as [|nnode [|ndim [|]]] eqn:Sd; try discriminate.
  cbv zeta. unfold assert. cbn [m_conn]. destruct (Nat.leb_spec (amax (concat (rows2 nelem nne conn)) + 1) nnode) as [L1|L1]; [|cbn; discriminate].
  destruct (Nat.leb_spec (m_ndof (mkVector (rows2 nelem nne conn) nne (rows2 nnode ndim dofs) ndim)) (nnode * ndim)) as [L2|L2]; [|cbn; discriminate]. cbn [andb negb]. intros E. injection E as <-.
  pose proof (rows2_shape nelem nne conn) as Hc. pose proof (rows2_shape nnode ndim dofs) as Hd.
  assert (Z : sizes_of (mkVector (rows2 nelem nne conn) nne (rows2 nnode ndim dofs) ndim) = mkSizes nelem nne nnode ndim (m_ndof (mkVector (rows2 nelem nne conn) nne (rows2 nnode ndim dofs) ndim))).
  { unfold sizes_of, m_nelem, m_nnode. cbn [m_conn m_dofs m_nne m_ndim]. now rewrite (proj1 Hc), (proj1 Hd). }
  rewrite Z. split; [|reflexivity]. unfold m_ndof in *. cbn [m_dofs] in *.
  assert (Q : 1 <= nnode * ndim) by lia.
  split; cbn [z_nelem z_nne z_nnode z_ndim z_ndof]; auto.
  - intros e m He Hm. apply (proj1 (amax_concat nelem nne conn nnode ltac:(lia)) L1); assumption.
  - apply (proj1 (amax_concat nnode ndim dofs _ Q) L2).
  - apply (amax_concat nnode ndim dofs); lia.
  - assert (N : concat (rows2 nnode ndim dofs) <> []).
    { intros E. destruct nnode as [|nnode]; [lia|]. destruct ndim as [|ndim]; [lia|]. discriminate. }
    apply amax_in in N. apply in_rows2 in N. destruct N as (n & i & Hn & Hi & E). exists n, i. rewrite E. auto.
Qed.
Lemma new_throw conn dofs : (forall z, ~ valid_mesh conn dofs z) -> new_Vector true conn dofs = Throw.
Proof.
  intros H. destruct (new_Vector true conn dofs) as [v| | |] eqn:E; [|exfalso|exfalso|reflexivity].
  - apply new_inv in E. exfalso. apply (H (sizes_of v)), E.
  - revert E. unfold new_Vector, assert. destruct (a_shape conn) as [|? [|? [|]]]; try discriminate. destruct (a_shape dofs) as [|? [|? [|]]]; try discriminate. repeat destruct (_ <=? _); cbn; discriminate.
  - revert E. unfold new_Vector, assert. destruct (a_shape conn) as [|? [|? [|]]]; try discriminate. destruct (a_shape dofs) as [|? [|? [|]]]; try discriminate. repeat destruct (_ <=? _); cbn; discriminate.
Qed.

Section M.
Variables conn dofs : array nat.
Variable z : sizes.
Hypothesis V : valid_mesh conn dofs z.
Let v := the_vector conn dofs z.

Lemma c_mesh : mesh_dofs (m_conn v) (m_dofs v) (z_nelem z) (z_nne z) (z_nnode z) (z_ndim z) (z_ndof z).
Proof.
  constructor; [apply rows2_shape|apply rows2_shape| |].
  - intros e m He Hm. cbn [v the_vector m_conn]. rewrite rows2_nth by assumption. now apply (vm_node _ _ _ V).
  - rewrite <- (vector_ndof conn dofs z V). unfold m_ndof, amax. cbn. lia.
Qed.
Lemma c_sizes : m_nelem v = z_nelem z /\ m_nnode v = z_nnode z /\ m_ndof v = z_ndof z.
Proof. split; [apply (proj1 (rows2_shape _ _ conn))|]. split; [apply (proj1 (rows2_shape _ _ dofs))|]. exact (vector_ndof conn dofs z V). Qed.
Lemma c_dofval : shape_dofval v = dofval z.
Proof. unfold shape_dofval, dofval. now rewrite (proj2 (proj2 c_sizes)). Qed.
Lemma c_nodevec : shape_nodevec v = nodevec z.
Proof. unfold shape_nodevec, nodevec. now rewrite (proj1 (proj2 c_sizes)). Qed.
Lemma c_elemvec : shape_elemvec v = elemvec z.
Proof. unfold shape_elemvec, elemvec. now rewrite (proj1 c_sizes). Qed.
Lemma c_gives c : target_shape v c = gives z c.
Proof. destruct c; cbn; auto using c_dofval, c_nodevec, c_elemvec. Qed.

Variable o : schedule.
Hypothesis O : any_order z o.
Lemma c_node : Permutation (s_node o) (node_iters v).
Proof. unfold node_iters. rewrite (proj1 (proj2 c_sizes)). apply O. Qed.
Lemma c_elem : Permutation (s_elem o) (elem_iters v).
Proof. unfold elem_iters. rewrite (proj1 c_sizes). apply O. Qed.

Lemma AsDofs_elemvec_any f : shape3 f (z_nelem z) (z_nne z) (z_ndim z) -> exists x, AsDofs_elemvec v (s_elem o) f = Ok x /\ length x = z_ndof z.
Proof.
  intros Hs. rewrite (AsDofs_elemvec_writes v (z_nelem z) (z_nne z) (z_nnode z) (z_ndim z) (z_ndof z) eq_refl eq_refl c_mesh _ _ c_elem Hs).
  destruct (scatter (fun a => idx2 (m_dofs v) (idx2 (m_conn v) (fst (fst a)) (snd (fst a))) (snd a)) (fun a => val3 f (fst (fst a)) (snd (fst a)) (snd a)) (s_elem o) (z_ndof z)) as [x [E [L _]]]; [|eauto].
  intros a Ha. apply (Permutation_in _ c_elem) in Ha. apply (in_elem_iters v (z_nelem z) (z_nne z) (z_nnode z) (z_ndim z) (z_ndof z) eq_refl eq_refl c_mesh) in Ha. apply (V_dof v (z_nelem z) (z_nne z) (z_nnode z) (z_ndim z) (z_ndof z) eq_refl eq_refl c_mesh); [apply (V_node v (z_nelem z) (z_nne z) (z_nnode z) (z_ndim z) (z_ndof z) eq_refl eq_refl c_mesh)|]; tauto.
Qed.
Lemma AsNode_elemvec_any f : shape3 f (z_nelem z) (z_nne z) (z_ndim z) -> exists x, AsNode_elemvec v (s_elem o) f = Ok x /\ shape2 x (z_nnode z) (z_ndim z).
Proof.
  intros Hs. unfold AsNode_elemvec. rewrite (proj1 (proj2 c_sizes)). change (m_ndim v) with (z_ndim z).
  set (w := fun a : nat * nat * nat => (idx2 (m_conn v) (fst (fst a)) (snd (fst a)), snd a, val3 f (fst (fst a)) (snd (fst a)) (snd a))).
  rewrite (mapM_Ok _ _ w).
  2:{ intros a Ha. apply (Permutation_in _ c_elem) in Ha. apply (in_elem_iters v (z_nelem z) (z_nne z) (z_nnode z) (z_ndim z) (z_ndof z) eq_refl eq_refl c_mesh) in Ha. destruct Ha as [H1 [H2 H3]].
      rewrite (V_get_node v (z_nelem z) (z_nne z) (z_nnode z) (z_ndim z) (z_ndof z) eq_refl eq_refl c_mesh) by assumption. cbn [bind]. now rewrite (get3_nth 0%R _ (z_nelem z) (z_nne z) (z_ndim z)). }
  cbn [bind].
  destruct (write2_all_Ok 0%R (z_nnode z) (z_ndim z) (map w (s_elem o)) (repeat (repeat 0%R (z_ndim z)) (z_nnode z))) as [x [E [S _]]].
  - split; [apply repeat_length|]. intros r Hr. apply repeat_spec in Hr. subst r. apply repeat_length.
  - intros k j y Ha. apply in_map_iff in Ha. destruct Ha as [b [Eb Hb]]. unfold w in Eb. injection Eb as <- <- _. apply (Permutation_in _ c_elem) in Hb. apply (in_elem_iters v (z_nelem z) (z_nne z) (z_nnode z) (z_ndim z) (z_ndof z) eq_refl eq_refl c_mesh) in Hb. split; [apply (V_node v (z_nelem z) (z_nne z) (z_nnode z) (z_ndim z) (z_ndof z) eq_refl eq_refl c_mesh)|]; tauto.
  - eauto.
Qed.

(** all conversions *)
Definition accepted (c : conversion) (arg : array R) (ret : list nat) : Prop := In (a_shape arg) (accepts z c) /\ ret = gives z c.
Lemma convert_accepted ck c arg ret : accepted c arg ret -> exists y, convert_into ck v o c arg ret = Ok y /\ out_shape y (gives z c) /\ convert_into (negb ck) v o c arg ret = Ok y.
Proof.
  intros [Ha ->]. pose proof c_mesh as Hm.
  assert (T : forall ck s x y, s = gives z c -> x = Ok y -> target ck (gives z c) s x = Ok y). { intros k s x y -> ->. unfold target. rewrite has_shape_refl. now rewrite assert_true. }
  destruct c; cbn [accepts gives] in *; unfold convert_into, Vector_asDofs, Vector_asNode, Vector_asElement, Vector_assembleDofs, Vector_assembleNode, Vector_copy;
    rewrite ?c_dofval, ?c_nodevec, ?c_elemvec.
  - destruct Ha as [Ha|[Ha|[]]]; rewrite <- Ha; cbn [nodevec elemvec]; fold (nodevec z) (elemvec z); rewrite has_shape_refl, !assert_true.
    + destruct (AsDofs_nodevec_any v (z_nelem z) (z_nne z) (z_nnode z) (z_ndim z) (z_ndof z) eq_refl eq_refl Hm (s_node o) _ c_node (rows2_shape (z_nnode z) (z_ndim z) arg)) as [x [E [L _]]]. exists (Out1 x). unfold out1. rewrite E. cbn [bind]. split; [now apply T|]. split; [exact L|now apply T].
    + destruct (AsDofs_elemvec_any _ (rows3_shape (z_nelem z) (z_nne z) (z_ndim z) arg)) as [x [E L]]. exists (Out1 x). unfold out1. rewrite E. cbn [bind]. split; [now apply T|]. split; [exact L|now apply T].
  - destruct Ha as [Ha|[Ha|[]]]; rewrite <- Ha; cbn [dofval elemvec]; fold (dofval z) (elemvec z); rewrite has_shape_refl, !assert_true.
    + destruct (AsNode_dofval_spec v (z_nelem z) (z_nne z) (z_nnode z) (z_ndim z) (z_ndof z) eq_refl eq_refl Hm _ (rows1_length _ arg)) as [x [E [L _]]]. exists (Out2 x). unfold out2. rewrite E. cbn [bind]. split; [now apply T|]. split; [exact L|now apply T].
    + destruct (AsNode_elemvec_any _ (rows3_shape (z_nelem z) (z_nne z) (z_ndim z) arg)) as [x [E L]]. exists (Out2 x). unfold out2. rewrite E. cbn [bind]. split; [now apply T|]. split; [exact L|now apply T].
  - destruct Ha as [Ha|[Ha|[]]]; rewrite <- Ha; cbn [dofval nodevec]; fold (nodevec z).
    + rewrite (proj2 (proj2 c_sizes)), Nat.eqb_refl, !assert_true. destruct (AsElement_dofval_spec v (z_nelem z) (z_nne z) (z_nnode z) (z_ndim z) (z_ndof z) eq_refl eq_refl Hm _ (rows1_length _ arg)) as [x [E [L _]]]. exists (Out3 x). unfold out3. rewrite E. cbn [bind]. split; [now apply T|]. split; [exact L|now apply T].
    + rewrite has_shape_refl, !assert_true. destruct (AsElement_nodevec_spec v (z_nelem z) (z_nne z) (z_nnode z) (z_ndim z) (z_ndof z) eq_refl eq_refl Hm _ (rows2_shape (z_nnode z) (z_ndim z) arg)) as [x [E [L _]]]. exists (Out3 x). unfold out3. rewrite E. cbn [bind]. split; [now apply T|]. split; [exact L|now apply T].
  - destruct Ha as [Ha|[Ha|[]]]; rewrite <- Ha; cbn [nodevec elemvec]; fold (nodevec z) (elemvec z); rewrite has_shape_refl, !assert_true.
    + destruct (AssembleDofs_nodevec_spec v (z_nelem z) (z_nne z) (z_nnode z) (z_ndim z) (z_ndof z) eq_refl eq_refl Hm _ (rows2_shape (z_nnode z) (z_ndim z) arg)) as [x [E [L _]]]. exists (Out1 x). unfold out1. rewrite E. cbn [bind]. split; [now apply T|]. split; [exact L|now apply T].
    + destruct (AssembleDofs_elemvec_spec v (z_nelem z) (z_nne z) (z_nnode z) (z_ndim z) (z_ndof z) eq_refl eq_refl Hm _ (rows3_shape (z_nelem z) (z_nne z) (z_ndim z) arg)) as [x [E [L _]]]. exists (Out1 x). unfold out1. rewrite E. cbn [bind]. split; [now apply T|]. split; [exact L|now apply T].
  - destruct Ha as [Ha|[]]; rewrite <- Ha; cbn [elemvec]; fold (elemvec z); rewrite has_shape_refl, !assert_true.
    destruct (AssembleNode_spec v (z_nelem z) (z_nne z) (z_nnode z) (z_ndim z) (z_ndof z) eq_refl eq_refl Hm _ (rows3_shape (z_nelem z) (z_nne z) (z_ndim z) arg)) as [x [E [L _]]]. exists (Out2 x). unfold out2. rewrite E. cbn [bind]. split; [now apply T|]. split; [exact L|now apply T].
  - destruct Ha as [Ha|[]]; rewrite <- Ha; cbn [nodevec]; fold (nodevec z); rewrite has_shape_refl, !assert_true.
    eexists. split; [now apply T|]. split; [apply rows2_shape|now apply T].
Qed.
Lemma convert_rejected c arg ret : ~ accepted c arg ret -> convert_into true v o c arg ret = Throw.
Proof.
  unfold accepted. intros Hn.
  assert (A : forall s x, In (a_shape arg) (accepts z c) -> s = gives z c -> target true ret s x = Throw).
  { intros s x Hi ->. unfold target. rewrite has_shape_neq; [reflexivity|]. intros ->. now apply Hn. }
  assert (B : forall s (x : res output), In s (accepts z c) -> (a_shape arg = s -> x = Throw) -> assert true (has_shape (a_shape arg) s) x = Throw).
  { intros s x Hi Hx. destruct (has_shape (a_shape arg) s) eqn:E; [|reflexivity]. rewrite assert_true. apply Hx. now apply has_shape_eq. }
  destruct c; unfold convert_into, Vector_asDofs, Vector_asNode, Vector_asElement, Vector_assembleDofs, Vector_assembleNode, Vector_copy; rewrite ?c_dofval, ?c_nodevec, ?c_elemvec;
    destruct (a_shape arg) as [|n [|d [|k [|]]]] eqn:Sa; try reflexivity; try (apply B; [cbn; tauto|]; intros Q; apply A; [rewrite Q; cbn; tauto|reflexivity]).
  rewrite (proj2 (proj2 c_sizes)). destruct (Nat.eqb_spec n (z_ndof z)) as [->|]; [|reflexivity]. rewrite assert_true. apply A; [cbn; tauto|reflexivity].
Qed.
(** without assertions: arrays of the wrong rank *)
Lemma convert_rank c arg ret : (forall s, In s (accepts z c) -> length s <> length (a_shape arg)) -> convert_into false v o c arg ret = Throw.
Proof.
  intros H. destruct c; unfold convert_into, Vector_asDofs, Vector_asNode, Vector_asElement, Vector_assembleDofs, Vector_assembleNode, Vector_copy;
    destruct (a_shape arg) as [|n [|d [|k [|]]]]; try reflexivity; exfalso; first [apply (H (nodevec z)); [cbn; tauto|reflexivity] | apply (H (elemvec z)); [cbn; tauto|reflexivity] | apply (H (dofval z)); [cbn; tauto|reflexivity]].
Qed.
Lemma accepted_dec c arg ret : accepted c arg ret \/ ~ accepted c arg ret.
Proof.
  unfold accepted. destruct (in_dec (list_eq_dec Nat.eq_dec) (a_shape arg) (accepts z c)) as [I|I]; [|right; tauto]. destruct (list_eq_dec Nat.eq_dec ret (gives z c)) as [E|E]; [left; tauto|right; tauto].
Qed.
End M.

(** the partitioned vector *)
Lemma new_VP v ii : NoDup ii -> exists p, new_VectorPartitioned v ii = Ok p.
Proof.
  intros Hn. set (iiu := setdiff1d (concat (m_dofs v)) ii).
  assert (HN : NoDup (concat [iiu; ii])). { simpl. rewrite app_nil_r. apply NoDup_app_intro; [apply setdiff1d_NoDup|exact Hn|]. intros x Hx. apply setdiff1d_In in Hx. tauto. }
  destruct (Reorder_Ok [iiu; ii] HN) as [r [Er [Hr _]]]. simpl in Hr. rewrite app_nil_r in Hr. unfold new_VectorPartitioned. fold iiu. rewrite Er. cbn [bind].
  set (f := fun a => match nth_error r a with Some (Some k) => k | _ => 0 end).
  assert (E : Reorder_apply2 r (m_dofs v) = Ok (map (map f) (m_dofs v))).
  { apply mapM_Ok. intros row Hrow. apply mapM_Ok. intros a Ha.
    assert (Hin : In a (iiu ++ ii)). { apply in_or_app. destruct (in_dec Nat.eq_dec a ii); [now right|left]. apply setdiff1d_In. split; [|assumption]. apply in_concat. eauto. }
    apply In_nth_error in Hin. destruct Hin as [k Hk]. pose proof (Hr k a Hk) as E. unfold f. rewrite E. now apply get_init_Some. }
  rewrite E. cbn [bind]. eauto.
Qed.

Section P.
Variables conn dofs iip : array nat.
Variable z : sizes.
Variable n : nat.
Hypothesis V : valid_mesh conn dofs z.
Hypothesis I : valid_iip iip z n.
Let v := the_vector conn dofs z.
Let ii := rows1 n iip.

Lemma p_NoDup : NoDup ii.
Proof.
  unfold ii, rows1. apply NoDup_map_inj; [apply seq_NoDup|]. intros k l Hk Hl E. apply in_seq in Hk, Hl. apply (proj2 (proj2 I)); [lia|lia|exact E].
Qed.
Lemma p_prescribed : prescribed (z_ndof z) ii.
Proof. split; [exact p_NoDup|]. intros d Hd. apply in_rows1 in Hd. destruct Hd as [k [Hk <-]]. now apply I. Qed.
Lemma p_new ck : exists p, new_VectorPartitioned_checked ck conn dofs iip = Ok p /\ new_VectorPartitioned v ii = Ok p.
Proof.
  destruct (new_VP v ii p_NoDup) as [p Ep]. exists p. split; [|exact Ep]. unfold new_VectorPartitioned_checked. rewrite (proj1 I), (new_ok ck _ _ _ V). cbn [bind]. fold ii. fold v.
  rewrite (proj2 (is_unique_spec ii) p_NoDup). rewrite (proj2 (is_unique_spec (setdiff1d (concat (m_dofs v)) ii)) (setdiff1d_NoDup _ _)). rewrite !assert_true, Ep. cbn [bind].
  assert (E : (amax ii <=? amax (concat (m_dofs v))) = true).
  { apply Nat.leb_le. apply amax_lub. intros x Hx. apply p_prescribed in Hx. pose proof (vector_ndof conn dofs z V) as Q. unfold m_ndof in Q. fold v in Q. lia. }
  now rewrite E, assert_true.
Qed.

Variable p : VectorPartitioned.
Hypothesis Ep : new_VectorPartitioned v ii = Ok p.
Variable o : schedule.
Hypothesis O : any_order z o.
Let Hm := c_mesh conn dofs z V.

Lemma p_shapes : shape_nodevec (vp_v p) = nodevec z /\ shape_elemvec (vp_v p) = elemvec z /\ m_ndof (vp_v p) = z_ndof z.
Proof.
  destruct (vp_facts v (z_nelem z) (z_nne z) (z_nnode z) (z_ndim z) (z_ndof z) eq_refl eq_refl Hm ii p_prescribed p Ep) as [-> _]. split; [exact (c_nodevec conn dofs z V)|]. split; [exact (c_elemvec conn dofs z V)|]. exact (vector_ndof conn dofs z V).
Qed.
Lemma p_nnp : m_nnp p = n.
Proof. unfold m_nnp. destruct (vp_facts v (z_nelem z) (z_nne z) (z_nnode z) (z_ndim z) (z_ndof z) eq_refl eq_refl Hm ii p_prescribed p Ep) as [_ [_ [-> _]]]. apply rows1_length. Qed.

Lemma p_nnu : m_nnu p = length (setdiff1d (concat (m_dofs v)) ii).
Proof. exact (vp_nnu v (z_nelem z) (z_nne z) (z_nnode z) (z_ndim z) (z_ndof z) eq_refl eq_refl Hm ii p_prescribed p Ep). Qed.

Lemma p_copy ck unknown src dest : a_shape src = nodevec z -> a_shape dest = nodevec z -> exists y, P_copy ck p unknown src dest = Ok (Out2 y) /\ shape2 y (z_nnode z) (z_ndim z).
Proof.
  intros Es Ed. unfold P_copy. rewrite Es, Ed. cbn [nodevec]. fold (nodevec z). rewrite (proj1 p_shapes), has_shape_refl, !assert_true.
  destruct (copy_spec v (z_nelem z) (z_nne z) (z_nnode z) (z_ndim z) (z_ndof z) eq_refl eq_refl Hm ii p_prescribed p Ep _ _ (rows2_shape (z_nnode z) (z_ndim z) src) (rows2_shape (z_nnode z) (z_ndim z) dest)) as [U [P [E1 [E2 [S1 [S2 _]]]]]].
  unfold out2. destruct unknown; [rewrite E1|rewrite E2]; cbn [bind]; eauto.
Qed.
Lemma p_combine ck c u q : (c = ToDofs \/ c = ToNode \/ c = ToElement) -> a_shape u = [m_nnu p] -> a_shape q = [n] -> exists y, P_combine ck p c u q = Ok y /\ out_shape y (gives z c).
Proof.
  intros Hc Eu Eq. unfold P_combine. rewrite Eu, Eq, p_nnp, !Nat.eqb_refl, !assert_true.
  assert (Lu : length (rows1 (m_nnu p) u) = length (setdiff1d (concat (m_dofs v)) ii)) by (rewrite rows1_length; exact (vp_nnu v (z_nelem z) (z_nne z) (z_nnode z) (z_ndim z) (z_ndof z) eq_refl eq_refl Hm ii p_prescribed p Ep)).
  assert (Lq : length (rows1 n q) = length ii) by (unfold ii; now rewrite !rows1_length).
  destruct (from_dofs_spec v (z_nelem z) (z_nne z) (z_nnode z) (z_ndim z) (z_ndof z) eq_refl eq_refl Hm ii p_prescribed p Ep _ _ Lu Lq) as [x [Ex [Lx _]]].
  destruct (from_node_spec v (z_nelem z) (z_nne z) (z_nnode z) (z_ndim z) (z_ndof z) eq_refl eq_refl Hm ii p_prescribed p Ep _ _ x Lu Lq Ex) as [Q1 Q2].
  destruct Hc as [-> | [-> | ->]]; cbn [gives].
  - unfold out1. rewrite Ex. cbn [bind]. exists (Out1 x). split; [reflexivity|exact Lx].
  - destruct (AsNode_dofval_spec v (z_nelem z) (z_nne z) (z_nnode z) (z_ndim z) (z_ndof z) eq_refl eq_refl Hm x Lx) as [y [Ey [Sy _]]]. unfold out2. rewrite Q1, Ey. cbn [bind]. exists (Out2 y). split; [reflexivity|exact Sy].
  - destruct (AsElement_dofval_spec v (z_nelem z) (z_nne z) (z_nnode z) (z_ndim z) (z_ndof z) eq_refl eq_refl Hm x Lx) as [y [Ey [Sy _]]]. unfold out3. rewrite Q2, Ey. cbn [bind]. exists (Out3 y). split; [reflexivity|exact Sy].
Qed.

(** scattering into one side of the partition, in any order, for any values *)
Lemma side_writes {A} (l : list A) (part : A -> nat) (get : A -> res R) (val : A -> R) (unknown : bool) :
  (forall a, In a l -> get a = Ok (val a)) -> (forall a, In a l -> part a < m_nnu p + m_nnp p) ->
  exists x, (do ws <- mapM (fun a => (if unknown then write_u p else write_p p) (part a) (get a)) l; write_all (repeat 0%R (if unknown then m_nnu p else m_nnp p)) (concat ws)) = Ok x /\ length x = (if unknown then m_nnu p else m_nnp p).
Proof.
  intros Hg Hp. destruct unknown.
  - rewrite (mapM_Ok _ _ (fun a => if part a <? m_nnu p then [(part a, val a)] else [])).
    2:{ intros a Ha. unfold write_u. destruct (_ <? _); [|reflexivity]. now rewrite Hg. }
    cbn [bind]. rewrite (concat_if_filter (fun a => part a <? m_nnu p) (fun a => (part a, val a))).
    destruct (scatter part val (filter (fun a => part a <? m_nnu p) l) (m_nnu p)) as [x [E [L _]]]; [|eauto]. intros a Ha. apply filter_In in Ha. now apply Nat.ltb_lt.
  - rewrite (mapM_Ok _ _ (fun a => if m_nnu p <=? part a then [(part a - m_nnu p, val a)] else [])).
    2:{ intros a Ha. unfold write_p. destruct (_ <=? _); [|reflexivity]. now rewrite Hg. }
    cbn [bind]. rewrite (concat_if_filter (fun a => m_nnu p <=? part a) (fun a => (part a - m_nnu p, val a))).
    destruct (scatter (fun a => part a - m_nnu p) val (filter (fun a => m_nnu p <=? part a) l) (m_nnp p)) as [x [E [L _]]]; [|eauto]. intros a Ha. apply filter_In in Ha. destruct Ha as [Ha Hb]. apply Nat.leb_le in Hb. specialize (Hp a Ha). lia.
Qed.
Lemma p_part m i : m < z_nnode z -> i < z_ndim z -> get2 (m_part p) m i = Ok (idx2 (m_part p) m i) /\ idx2 (m_part p) m i < m_nnu p + m_nnp p.
Proof.
  intros Hm' Hi. split; [exact (vp_get_part v (z_nelem z) (z_nne z) (z_nnode z) (z_ndim z) (z_ndof z) eq_refl eq_refl Hm ii p_prescribed p Ep m i Hm' Hi)|].
  destruct (vp_facts v (z_nelem z) (z_nne z) (z_nnode z) (z_ndim z) (z_ndof z) eq_refl eq_refl Hm ii p_prescribed p Ep) as [_ [E1 [E2 [_ F]]]]. specialize (F m i Hm' Hi). rewrite <- E1, <- E2 in F. unfold m_nnu, m_nnp. rewrite <- app_length. apply nth_error_Some. congruence.
Qed.
Lemma mapM_ext {A B} (f g : A -> res B) l : (forall a, In a l -> f a = g a) -> mapM f l = mapM g l.
Proof. induction l as [|a l IH]; intros H; cbn; [reflexivity|]. rewrite H by now left. destruct (g a); cbn; try reflexivity. rewrite IH; [reflexivity|]. intros b Hb. apply H. now right. Qed.

Lemma p_select ck unknown arg : In (a_shape arg) [dofval z; nodevec z; elemvec z] -> exists y, P_select ck p o unknown arg = Ok (Out1 y) /\ length y = (if unknown then m_nnu p else n).
Proof.
  intros Ha. rewrite <- p_nnp. unfold P_select. destruct p_shapes as [S1 [S2 S3]]. rewrite S1, S2, S3.
  pose proof (in_node_iters v (z_nelem z) (z_nne z) (z_nnode z) (z_ndim z) (z_ndof z) eq_refl eq_refl Hm) as Hin. pose proof (in_elem_iters v (z_nelem z) (z_nne z) (z_nnode z) (z_ndim z) (z_ndof z) eq_refl eq_refl Hm) as Hie.
  destruct Ha as [Ha|[Ha|[Ha|[]]]]; rewrite <- Ha; cbn [dofval nodevec elemvec]; fold (nodevec z) (elemvec z); rewrite ?Nat.eqb_refl, ?has_shape_refl, !assert_true.
  - destruct (select_spec v (z_nelem z) (z_nne z) (z_nnode z) (z_ndim z) (z_ndof z) eq_refl eq_refl Hm ii p_prescribed p Ep _ (rows1_length (z_ndof z) arg)) as [xu [xp [E1 [E2 [L1 [L2 _]]]]]].
    unfold out1. destruct unknown; [rewrite E1|rewrite E2]; cbn [bind]; eexists; (split; [reflexivity|]); [rewrite L1; symmetry; exact (vp_nnu v (z_nelem z) (z_nne z) (z_nnode z) (z_ndim z) (z_ndof z) eq_refl eq_refl Hm ii p_prescribed p Ep)|rewrite L2; symmetry; exact (vp_nnp v (z_nelem z) (z_nne z) (z_nnode z) (z_ndim z) (z_ndof z) eq_refl eq_refl Hm ii p_prescribed p Ep)].
  - assert (Hb : forall a, In a (s_node o) -> fst a < z_nnode z /\ snd a < z_ndim z) by (intros a Hx; apply Hin; exact (Permutation_in _ (c_node conn dofs z V o O) Hx)).
    destruct (side_writes (s_node o) (fun a => idx2 (m_part p) (fst a) (snd a)) (fun a => get2 (rows2 (z_nnode z) (z_ndim z) arg) (fst a) (snd a)) (fun a => val2 (rows2 (z_nnode z) (z_ndim z) arg) (fst a) (snd a)) unknown) as [x [Ex Lx]].
    { intros a Hx. apply (get2_nth 0%R _ (z_nnode z) (z_ndim z)); [apply rows2_shape|apply Hb, Hx|apply Hb, Hx]. } { intros a Hx. now apply p_part; apply Hb. }
    assert (G : forall (g : nat -> res R -> res (list (nat * R))) a, In a (s_node o) -> (do k <- get2 (m_part p) (fst a) (snd a); g k (get2 (rows2 (z_nnode z) (z_ndim z) arg) (fst a) (snd a)))
      = g (idx2 (m_part p) (fst a) (snd a)) (get2 (rows2 (z_nnode z) (z_ndim z) arg) (fst a) (snd a))).
    { intros g a Hx. now rewrite (proj1 (p_part _ _ (proj1 (Hb a Hx)) (proj2 (Hb a Hx)))). }
    exists x. split; [|exact Lx]. unfold out1. destruct unknown; unfold AsDofs_u_nodevec, AsDofs_p_nodevec; [rewrite (mapM_ext _ _ (s_node o) (G (write_u p)))|rewrite (mapM_ext _ _ (s_node o) (G (write_p p)))]; rewrite Ex; reflexivity.
  - assert (Hb : forall a, In a (s_elem o) -> fst (fst a) < z_nelem z /\ snd (fst a) < z_nne z /\ snd a < z_ndim z) by (intros a Hx; apply Hie; exact (Permutation_in _ (c_elem conn dofs z V o O) Hx)).
    assert (Hn : forall a, In a (s_elem o) -> idx2 (m_conn v) (fst (fst a)) (snd (fst a)) < z_nnode z) by (intros a Hx; apply (V_node v (z_nelem z) (z_nne z) (z_nnode z) (z_ndim z) (z_ndof z) eq_refl eq_refl Hm); apply Hb, Hx).
    destruct (side_writes (s_elem o) (fun a => idx2 (m_part p) (idx2 (m_conn v) (fst (fst a)) (snd (fst a))) (snd a)) (fun a => get3 (rows3 (z_nelem z) (z_nne z) (z_ndim z) arg) (fst (fst a)) (snd (fst a)) (snd a)) (fun a => val3 (rows3 (z_nelem z) (z_nne z) (z_ndim z) arg) (fst (fst a)) (snd (fst a)) (snd a)) unknown) as [x [Ex Lx]].
    { intros a Hx. apply (get3_nth 0%R _ (z_nelem z) (z_nne z) (z_ndim z)); [apply rows3_shape|apply Hb, Hx|apply Hb, Hx|apply Hb, Hx]. } { intros a Hx. apply p_part; [now apply Hn|now apply Hb]. }
    assert (G : forall (g : nat -> res R -> res (list (nat * R))) a, In a (s_elem o) -> (do n <- get2 (m_conn (vp_v p)) (fst (fst a)) (snd (fst a)); do k <- get2 (m_part p) n (snd a); g k (get3 (rows3 (z_nelem z) (z_nne z) (z_ndim z) arg) (fst (fst a)) (snd (fst a)) (snd a)))
      = g (idx2 (m_part p) (idx2 (m_conn v) (fst (fst a)) (snd (fst a))) (snd a)) (get3 (rows3 (z_nelem z) (z_nne z) (z_ndim z) arg) (fst (fst a)) (snd (fst a)) (snd a))).
    { intros g a Hx. destruct (vp_facts v (z_nelem z) (z_nne z) (z_nnode z) (z_ndim z) (z_ndof z) eq_refl eq_refl Hm ii p_prescribed p Ep) as [-> _]. rewrite (V_get_node v (z_nelem z) (z_nne z) (z_nnode z) (z_ndim z) (z_ndof z) eq_refl eq_refl Hm) by (apply Hb, Hx). cbn [bind]. rewrite (proj1 (p_part _ _ (Hn a Hx) (proj2 (proj2 (Hb a Hx))))). reflexivity. }
    exists x. split; [|exact Lx]. unfold out1. destruct unknown; unfold AsDofs_u_elemvec, AsDofs_p_elemvec; [rewrite (mapM_ext _ _ (s_elem o) (G (write_u p)))|rewrite (mapM_ext _ _ (s_elem o) (G (write_p p)))]; rewrite Ex; reflexivity.
Qed.
End P.

Lemma assert_ok {A} c (k : res A) y : assert true c k = Ok y -> k = Ok y /\ c = true.
Proof. unfold assert. destruct c; cbn; [tauto|discriminate]. Qed.
Lemma assert_throw {A} c (k : res A) : (c = true -> k = Throw) -> assert true c k = Throw.
Proof. unfold assert. destruct c; cbn; [intros H; now apply H|reflexivity]. Qed.

(** which prescribed DOFs the constructor accepts *)
Lemma is_unique_false l : ~ NoDup l -> is_unique l = false.
Proof. intros H. destruct (is_unique l) eqn:E; [|reflexivity]. apply is_unique_spec in E. contradiction. Qed.
Lemma p_new_inv conn dofs iip p : new_VectorPartitioned_checked true conn dofs iip = Ok p -> exists z n, valid_mesh conn dofs z /\ valid_iip iip z n.
Proof.
  unfold new_VectorPartitioned_checked. destruct (a_shape iip) as [|n [|]] eqn:Si; try discriminate.
  destruct (new_Vector true conn dofs) as [v| | |] eqn:Ev; try discriminate. cbn [bind]. intros H.
  apply assert_ok in H. destruct H as [H Hu]. apply assert_ok in H. destruct H as [H _]. apply assert_ok in H. destruct H as [H _].
  destruct (new_VectorPartitioned v (rows1 n iip)) as [q| | |]; try discriminate. cbn [bind] in H. apply assert_ok in H. destruct H as [_ Hr].
  destruct (new_inv _ _ _ Ev) as [V _]. exists (sizes_of v), n. split; [exact V|]. split; [exact Si|]. split.
  - intros k Hk. apply Nat.leb_le in Hr. cbn [sizes_of z_ndof]. unfold m_ndof. assert (Q : a_ent iip [k] <= amax (rows1 n iip)) by (apply amax_ge, in_rows1; eauto). lia.
  - apply is_unique_spec in Hu. unfold rows1 in Hu. intros k l Hk Hl E. 
    assert (N := proj1 (NoDup_nth (map (fun i => a_ent iip [i]) (seq 0 n)) (a_ent iip [0])) Hu k l).
    rewrite !map_length, !seq_length in N. apply N; [lia|lia|]. rewrite !(map_nth (fun i => a_ent iip [i])), !seq_nth by lia. exact E.
Qed.
Lemma p_new_throw conn dofs iip : (forall z n, valid_mesh conn dofs z -> ~ valid_iip iip z n) -> new_VectorPartitioned_checked true conn dofs iip = Throw.
Proof.
  intros H. destruct (new_VectorPartitioned_checked true conn dofs iip) as [p| | |] eqn:E; try reflexivity.
  { destruct (p_new_inv _ _ _ _ E) as [z [n [V I]]]. destruct (H z n V I). }
  all: exfalso; revert E; unfold new_VectorPartitioned_checked; destruct (a_shape iip) as [|n [|]]; try discriminate.
  all: assert (T : (exists v, new_Vector true conn dofs = Ok v) \/ new_Vector true conn dofs = Throw)
    by (unfold new_Vector; destruct (a_shape conn) as [|? [|? [|]]]; eauto; destruct (a_shape dofs) as [|? [|? [|]]]; eauto; unfold assert; repeat destruct (_ && _)%bool; eauto).
  all: destruct T as [[v ->]| ->]; try discriminate; cbn [bind].
  all: destruct (is_unique (rows1 n iip)) eqn:U; [|rewrite assert_false; discriminate]; rewrite !assert_true; apply is_unique_spec in U; destruct (new_VP v _ U) as [p ->].
  all: rewrite (proj2 (is_unique_spec (setdiff1d (concat (m_dofs v)) (rows1 n iip))) (setdiff1d_NoDup _ _)), assert_true; cbn [bind]; unfold assert; destruct (_ && _)%bool; discriminate.
Qed.

(** what the checked build returns, the other build returns too *)
Lemma p_release_copy p u s d y : P_copy true p u s d = Ok y -> P_copy false p u s d = Ok y.
Proof. unfold P_copy. destruct (a_shape s) as [|? [|? [|]]]; try discriminate. destruct (a_shape d) as [|? [|? [|]]]; try discriminate. intros H. apply assert_ok in H. destruct H as [H _]. apply assert_ok in H. exact (proj1 H). Qed.
Lemma p_release_combine p c u q y : P_combine true p c u q = Ok y -> P_combine false p c u q = Ok y.
Proof. unfold P_combine. destruct (a_shape u) as [|? [|]]; try discriminate. destruct (a_shape q) as [|? [|]]; try discriminate. intros H. apply assert_ok in H. destruct H as [H _]. apply assert_ok in H. exact (proj1 H). Qed.
Lemma p_release_select p o u a y : P_select true p o u a = Ok y -> P_select false p o u a = Ok y.
Proof. unfold P_select. destruct (a_shape a) as [|? [|? [|? [|]]]]; try discriminate; intros H; apply assert_ok in H; exact (proj1 H). Qed.

(** rejected arrays *)
Lemma p_copy_rejected p u s d : ~ (a_shape s = shape_nodevec (vp_v p) /\ a_shape d = shape_nodevec (vp_v p)) -> P_copy true p u s d = Throw.
Proof.
  intros H. unfold P_copy. destruct (a_shape s) as [|n [|e [|]]]; try reflexivity. destruct (a_shape d) as [|n' [|e' [|]]]; try reflexivity.
  apply assert_throw. intros E1. apply assert_throw. intros E2. apply has_shape_eq in E1, E2. destruct H. now split.
Qed.
Lemma p_combine_rejected p c u q : ~ (a_shape u = [m_nnu p] /\ a_shape q = [m_nnp p]) -> P_combine true p c u q = Throw.
Proof.
  intros H. unfold P_combine. destruct (a_shape u) as [|n [|]]; try reflexivity. destruct (a_shape q) as [|n' [|]]; try reflexivity.
  apply assert_throw. intros E1. apply assert_throw. intros E2. apply Nat.eqb_eq in E1, E2. destruct H. now rewrite E1, E2.
Qed.
Lemma p_select_rejected p o u a : ~ In (a_shape a) [[m_ndof (vp_v p)]; shape_nodevec (vp_v p); shape_elemvec (vp_v p)] -> P_select true p o u a = Throw.
Proof.
  intros H. unfold P_select. destruct (a_shape a) as [|n [|k [|l [|]]]]; try reflexivity; apply assert_throw; intros E; [apply Nat.eqb_eq in E|apply has_shape_eq in E..]; destruct H; cbn [In]; rewrite E; tauto.
Qed.
