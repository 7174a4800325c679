(** Proofs about Vector. *)
From Coq Require Import Reals Lra.
From Verif Require Import Base Spec Sums Spec_Vector Model_Numbering Model_Vector.

(** ** arrays given by a function *)
Definition tab1 {A} (n : nat) (g : nat -> A) : list A := map g (seq 0 n).
Definition tab2 {A} (n d : nat) (g : nat -> nat -> A) : list (list A) := map (fun m => map (g m) (seq 0 d)) (seq 0 n).
Definition tab3 {A} (n m d : nat) (g : nat -> nat -> nat -> A) : list (list (list A)) :=
  map (fun e => tab2 m d (g e)) (seq 0 n).

Lemma nth_map_seq {A} (g : nat -> A) n i dflt : i < n -> nth i (map g (seq 0 n)) dflt = g i.
Proof.
  intro H. apply nth_error_nth. rewrite nth_error_map, nth_error_seq.
  destruct (Nat.ltb_spec i n); [reflexivity|lia].
Qed.

Lemma tab1_length {A} n (g : nat -> A) : length (tab1 n g) = n.
Proof. unfold tab1. now rewrite map_length, seq_length. Qed.
Lemma tab2_shape {A} n d (g : nat -> nat -> A) : shape2 (tab2 n d g) n d.
Proof.
  split; [unfold tab2; now rewrite map_length, seq_length|].
  intros r Hr. apply in_map_iff in Hr. destruct Hr as [m [<- _]]. now rewrite map_length, seq_length.
Qed.
Lemma tab3_shape {A} n m d (g : nat -> nat -> nat -> A) : shape3 (tab3 n m d g) n m d.
Proof.
  split; [unfold tab3; now rewrite map_length, seq_length|].
  intros r Hr. apply in_map_iff in Hr. destruct Hr as [e [<- _]]. apply tab2_shape.
Qed.
Lemma tab1_nth {A} (dflt : A) n g i : i < n -> nth i (tab1 n g) dflt = g i.
Proof. apply nth_map_seq. Qed.
Lemma tab2_nth {A} (dflt : A) n d g m i : m < n -> i < d -> nth2 dflt (tab2 n d g) m i = g m i.
Proof. intros Hm Hi. unfold nth2, tab2. rewrite nth_map_seq by exact Hm. now apply nth_map_seq. Qed.
Lemma tab3_nth {A} (dflt : A) n k d g e m i : e < n -> m < k -> i < d -> nth3 dflt (tab3 n k d g) e m i = g e m i.
Proof. intros He Hm Hi. unfold nth3, tab3. rewrite nth_map_seq by exact He. now apply tab2_nth. Qed.

Lemma fill1_Ok {A} n f (g : nat -> A) : (forall i, i < n -> f i = Ok (g i)) -> fill1 n f = Ok (tab1 n g).
Proof. intro H. apply mapM_Ok. intros i Hi. apply in_seq in Hi. apply H. lia. Qed.
Lemma fill2_Ok {A} n d f (g : nat -> nat -> A) : (forall m i, m < n -> i < d -> f m i = Ok (g m i)) ->
  fill2 n d f = Ok (tab2 n d g).
Proof.
  intro H. apply mapM_Ok. intros m Hm. apply in_seq in Hm. apply mapM_Ok. intros i Hi. apply in_seq in Hi.
  apply H; lia.
Qed.
Lemma fill3_Ok {A} n k d f (g : nat -> nat -> nat -> A) :
  (forall e m i, e < n -> m < k -> i < d -> f e m i = Ok (g e m i)) -> fill3 n k d f = Ok (tab3 n k d g).
Proof.
  intro H. apply mapM_Ok. intros e He. apply in_seq in He. apply fill2_Ok. intros m i Hm Hi. apply H; lia.
Qed.

Lemma get_nth {A} (dflt : A) l i : i < length l -> get l i = Ok (nth i l dflt).
Proof. intro H. unfold get. now rewrite (nth_error_nth' _ dflt H). Qed.
Lemma shape2_row {A} (u : list (list A)) n d m : shape2 u n d -> m < n -> length (nth m u []) = d.
Proof. intros [L H] Hm. apply H. apply nth_In. lia. Qed.
Lemma shape3_slab {A} (u : list (list (list A))) n k d m : shape3 u n k d -> m < n -> shape2 (nth m u []) k d.
Proof. intros [L H] Hm. apply H. apply nth_In. lia. Qed.
Lemma get2_nth {A} (dflt : A) u n d m i : shape2 u n d -> m < n -> i < d -> get2 u m i = Ok (nth2 dflt u m i).
Proof.
  intros Hs Hm Hi. unfold get2. rewrite (get_nth []) by (destruct Hs; lia). cbn [bind].
  apply get_nth. now rewrite (shape2_row u n d).
Qed.
Lemma get3_nth {A} (dflt : A) u n k d e m i : shape3 u n k d -> e < n -> m < k -> i < d ->
  get3 u e m i = Ok (nth3 dflt u e m i).
Proof.
  intros Hs He Hm Hi. unfold get3. rewrite (get_nth []) by (destruct Hs; lia). cbn [bind].
  apply (get2_nth dflt _ k d); auto. now apply (shape3_slab u n).
Qed.

(** extensionality *)
Lemma list_ext1 {A} (dflt : A) (l l' : list A) n : length l = n -> length l' = n ->
  (forall i, i < n -> nth i l dflt = nth i l' dflt) -> l = l'.
Proof. intros H H' E. apply (nth_ext _ _ dflt dflt); [lia|]. intros i Hi. apply E. lia. Qed.
Lemma list_ext2 {A} (dflt : A) (u u' : list (list A)) n d : shape2 u n d -> shape2 u' n d ->
  (forall m i, m < n -> i < d -> nth2 dflt u m i = nth2 dflt u' m i) -> u = u'.
Proof.
  intros Hs Hs' E. apply (list_ext1 [] _ _ n); [apply Hs|apply Hs'|]. intros m Hm.
  apply (list_ext1 dflt _ _ d); [now apply (shape2_row u n)|now apply (shape2_row u' n)|].
  intros i Hi. now apply E.
Qed.
Lemma list_ext3 {A} (dflt : A) (u u' : list (list (list A))) n k d : shape3 u n k d -> shape3 u' n k d ->
  (forall e m i, e < n -> m < k -> i < d -> nth3 dflt u e m i = nth3 dflt u' e m i) -> u = u'.
Proof.
  intros Hs Hs' E. apply (list_ext1 [] _ _ n); [apply Hs|apply Hs'|]. intros e He.
  apply (list_ext2 dflt _ _ k d); [now apply (shape3_slab u n)|now apply (shape3_slab u' n)|].
  intros m i Hm Hi. now apply E.
Qed.

Lemma In_concat_nth2 (l : list (list nat)) n d x : shape2 l n d ->
  In x (concat l) <-> exists m i, m < n /\ i < d /\ idx2 l m i = x.
Proof.
  intros Hs. rewrite in_concat. split.
  - intros [r [Hr Hx]]. apply (In_nth _ _ []) in Hr. destruct Hr as [m [Hm Er]].
    apply (In_nth _ _ 0) in Hx. destruct Hx as [i [Hi Ex]]. subst r.
    assert (Hmn : m < n) by (destruct Hs; lia). rewrite (shape2_row l n d m Hs Hmn) in Hi. eauto.
  - intros [m [i [Hm [Hi E]]]]. exists (nth m l []). split; [apply nth_In; destruct Hs; lia|].
    rewrite <- E. unfold idx2, nth2. apply nth_In. now rewrite (shape2_row l n d m Hs Hm).
Qed.

Lemma mesh_dof conn dofs nelem nne nnode ndim ndof : mesh_dofs conn dofs nelem nne nnode ndim ndof ->
  forall m i, m < nnode -> i < ndim -> idx2 dofs m i < ndof.
Proof.
  intros H m i Hm Hi. rewrite (md_ndof _ _ _ _ _ _ _ H).
  assert (In (idx2 dofs m i) (concat dofs)) by (apply (In_concat_nth2 dofs nnode ndim); [apply H|eauto]).
  apply amax_ge in H0. unfold amax in H0. lia.
Qed.

(** ** scatter: writes in any order *)
Section Scatter.
Context {I : Type} (key : I -> nat) (val : I -> R).

Lemma scatter (order : list I) N : (forall a, In a order -> key a < N) ->
  exists x, write_all (repeat 0%R N) (map (fun a => (key a, val a)) order) = Ok x /\ length x = N /\
    (forall a, In a order -> exists b, In b order /\ key b = key a /\ val1 x (key a) = val b) /\
    (forall d, d < N -> ~ In d (map key order) -> val1 x d = 0%R).
Proof.
  intro H. destruct (write_all_Ok (map (fun a => (key a, val a)) order) (repeat 0%R N)) as [x [E [L [Hout [_ Hany]]]]].
  { intros k v Hin. apply in_map_iff in Hin. destruct Hin as [a [Ea Ha]]. inversion Ea; subst. rewrite repeat_length. auto. }
  exists x. split; [exact E|]. rewrite repeat_length in L. split; [exact L|].
  assert (Ek : map fst (map (fun a => (key a, val a)) order) = map key order) by (rewrite map_map; reflexivity).
  rewrite Ek in Hout, Hany. split.
  - intros a Ha. destruct (Hany (key a)) as [v [Hv1 Hv2]]; [now apply in_map|].
    apply in_map_iff in Hv1. destruct Hv1 as [b [Eb Hb]]. inversion Eb; subst. exists b. split; [exact Hb|].
    split; [auto|]. unfold val1. apply nth_error_nth. congruence.
  - intros d Hd Hn. unfold val1. apply nth_error_nth. rewrite Hout by exact Hn. now apply nth_error_repeat_lt.
Qed.

Lemma scatter_agree (order : list I) N : (forall a, In a order -> key a < N) ->
  (forall a b, In a order -> In b order -> key a = key b -> val a = val b) ->
  exists x, write_all (repeat 0%R N) (map (fun a => (key a, val a)) order) = Ok x /\ length x = N /\
    (forall a, In a order -> val1 x (key a) = val a) /\
    (forall d, d < N -> ~ In d (map key order) -> val1 x d = 0%R).
Proof.
  intros H Hag. destruct (scatter order N H) as [x [E [L [H1 H2]]]]. exists x.
  split; [exact E|]. split; [exact L|]. split; [|exact H2].
  intros a Ha. destruct (H1 a Ha) as [b [Hb [Ek Ev]]]. rewrite Ev. now apply Hag.
Qed.

(** ** accumulation *)
Lemma add_at_Ok ret k x : k < length ret -> exists ret', add_at ret k x = Ok ret' /\ length ret' = length ret /\
  forall d, d < length ret -> val1 ret' d = (val1 ret d + ind (k =? d)%nat * x)%R.
Proof.
  intro H. unfold add_at. rewrite (get_nth 0%R) by exact H. cbn [bind].
  destruct (set_Ok ret k (nth k ret 0 + x)%R H) as [r [E [L Hn]]]. exists r. split; [exact E|]. split; [exact L|].
  intros d Hd. unfold val1. rewrite (Nat.eqb_sym k d).
  destruct (Nat.eqb_spec d k) as [->|Hne].
  - rewrite (nth_error_nth r k 0%R (x := (nth k ret 0 + x)%R)); [unfold ind; lra|]. rewrite Hn, Nat.eqb_refl. reflexivity.
  - rewrite (nth_error_nth r d 0%R (x := nth d ret 0%R)); [unfold ind; lra|].
    rewrite Hn. destruct (Nat.eqb_spec d k); [contradiction|]. now apply nth_error_nth'.
Qed.

Lemma accumulate (step : list R -> I -> res (list R)) (order : list I) :
  forall ret, (forall a, In a order -> key a < length ret) ->
  (forall r a, In a order -> step r a = add_at r (key a) (val a)) ->
  exists ret', foldM step order ret = Ok ret' /\ length ret' = length ret /\
    forall d, d < length ret -> val1 ret' d = (val1 ret d + sumL order (fun a => ind (key a =? d)%nat * val a))%R.
Proof.
  induction order as [|a order IH]; intros ret H Hs; simpl.
  - exists ret. split; [reflexivity|]. split; [reflexivity|]. intros; lra.
  - rewrite Hs by now left. destruct (add_at_Ok ret (key a) (val a)) as [r [E [L Hv]]]; [apply H; now left|].
    rewrite E. cbn [bind]. destruct (IH r) as [r' [E' [L' Hv']]].
    { intros b Hb. rewrite L. apply H. now right. }
    { intros r0 b Hb. apply Hs. now right. }
    exists r'. split; [exact E'|]. split; [congruence|]. intros d Hd. rewrite Hv' by lia. rewrite Hv by exact Hd. lra.
Qed.
End Scatter.

Lemma val1_repeat n d : val1 (repeat 0%R n) d = 0%R.
Proof. unfold val1. revert d; induction n as [|n IH]; intros [|d]; simpl; auto. Qed.

Lemma sumL_list_prod {A B} (l : list A) (l' : list B) f :
  sumL (list_prod l l') f = sumL l (fun a => sumL l' (fun b => f (a, b))).
Proof.
  induction l as [|a l IH]; simpl; [reflexivity|]. rewrite sumL_app, IH, sumL_map. reflexivity.
Qed.

(** ** scatter in two dimensions *)
Lemma set2_Ok {A} (dflt : A) u n d m i x : shape2 u n d -> m < n -> i < d ->
  exists u', set2 u m i x = Ok u' /\ shape2 u' n d /\
    forall k j, k < n -> j < d -> nth2 dflt u' k j = if (k =? m) && (j =? i) then x else nth2 dflt u k j.
Proof.
  intros Hs Hm Hi. unfold set2. rewrite (get_nth []) by (destruct Hs; lia). cbn [bind].
  destruct (set_Ok (nth m u []) i x) as [r [E [L Hn]]]; [now rewrite (shape2_row u n d)|]. rewrite E. cbn [bind].
  destruct (set_Ok u m r) as [u' [E' [L' Hn']]]; [destruct Hs; lia|]. exists u'. split; [exact E'|].
  rewrite (shape2_row u n d) in L by assumption.
  split.
  - split; [destruct Hs; lia|]. intros q Hq. apply In_nth_error in Hq. destruct Hq as [k Hk]. rewrite Hn' in Hk.
    destruct (k =? m); [injection Hk as E0; rewrite <- E0; exact L|]. apply nth_error_In in Hk. now apply Hs.
  - intros k j Hk Hj. unfold nth2. destruct (Nat.eqb_spec k m) as [->|Hne]; simpl.
    + rewrite (nth_error_nth u' m [] (x := r)) by (rewrite Hn', Nat.eqb_refl; reflexivity).
      destruct (Nat.eqb_spec j i) as [->|Hne].
      * apply nth_error_nth. rewrite Hn, Nat.eqb_refl. reflexivity.
      * apply nth_error_nth. rewrite Hn. destruct (Nat.eqb_spec j i); [contradiction|].
        apply nth_error_nth'. now rewrite (shape2_row u n d).
    + rewrite (nth_error_nth u' k [] (x := nth k u [])); [reflexivity|].
      rewrite Hn'. destruct (Nat.eqb_spec k m); [contradiction|]. apply nth_error_nth'. destruct Hs; lia.
Qed.

Definition pair_dec (a b : nat * nat) : {a = b} + {a <> b}.
Proof. decide equality; apply Nat.eq_dec. Defined.

Lemma write2_all_Ok {A} (dflt : A) n d : forall (ws : list (nat * nat * A)) u, shape2 u n d ->
  (forall k j x, In (k, j, x) ws -> k < n /\ j < d) ->
  exists u', write2_all u ws = Ok u' /\ shape2 u' n d /\
    (forall k j, k < n -> j < d -> ~ In (k, j) (map fst ws) -> nth2 dflt u' k j = nth2 dflt u k j) /\
    (forall k j, In (k, j) (map fst ws) -> exists x, In (k, j, x) ws /\ nth2 dflt u' k j = x).
Proof.
  induction ws as [|[[k0 j0] x0] ws IH]; intros u Hs H.
  - exists u. split; [reflexivity|]. split; [exact Hs|]. split; [auto|]. simpl. tauto.
  - destruct (H k0 j0 x0) as [Hk Hj]; [now left|].
    destruct (set2_Ok dflt u n d k0 j0 x0 Hs Hk Hj) as [u1 [E1 [S1 V1]]].
    destruct (IH u1 S1) as [u2 [E2 [S2 [V2 W2]]]]; [intros; eapply H; right; eauto|].
    exists u2. unfold write2_all in *. simpl. rewrite E1. cbn [bind]. split; [exact E2|]. split; [exact S2|]. split.
    + intros k j Hk' Hj' Hn. rewrite V2; auto. rewrite V1 by assumption.
      destruct (Nat.eqb_spec k k0), (Nat.eqb_spec j j0); simpl; auto. subst. exfalso. apply Hn. now left.
    + intros k j Hin. destruct (in_dec pair_dec (k, j) (map fst ws)) as [Hi|Hi].
      * destruct (W2 k j Hi) as [x [X1 X2]]. exists x. split; [now right|exact X2].
      * destruct Hin as [E|Hin]; [|contradiction]. simpl in E. inversion E; subst.
        exists x0. split; [now left|]. rewrite V2 by assumption. rewrite V1 by assumption.
        now rewrite !Nat.eqb_refl.
Qed.

Section V.
Set Default Proof Using "All".
Variable v : Vector.
Variables nelem nne nnode ndim ndof : nat.
Hypothesis Hne : m_nne v = nne.
Hypothesis Hnd : m_ndim v = ndim.
Hypothesis Hmd : mesh_dofs (m_conn v) (m_dofs v) nelem nne nnode ndim ndof.

Notation dof := (idx2 (m_dofs v)).
Notation node := (idx2 (m_conn v)).

Lemma V_sizes : m_nelem v = nelem /\ m_nnode v = nnode /\ m_ndof v = ndof.
Proof.
  destruct Hmd as [[E1 _] [E2 _] _ E3]. unfold m_nelem, m_nnode, m_ndof, amax. repeat split; auto. lia.
Qed.

Lemma V_dof m i : m < nnode -> i < ndim -> dof m i < ndof.
Proof. apply (mesh_dof _ _ _ _ _ _ _ Hmd). Qed.
Lemma V_node e m : e < nelem -> m < nne -> node e m < nnode.
Proof. apply Hmd. Qed.
Lemma V_get_dof m i : m < nnode -> i < ndim -> get2 (m_dofs v) m i = Ok (dof m i).
Proof. intros. apply (get2_nth 0 _ nnode ndim); auto. apply Hmd. Qed.
Lemma V_get_node e m : e < nelem -> m < nne -> get2 (m_conn v) e m = Ok (node e m).
Proof. intros. apply (get2_nth 0 _ nelem nne); auto. apply Hmd. Qed.
Lemma V_elem_dof e m i : e < nelem -> m < nne -> i < ndim -> elem_dof v e m i = Ok (dof (node e m) i).
Proof. intros. unfold elem_dof. rewrite V_get_node by assumption. cbn [bind]. apply V_get_dof; auto. now apply V_node. Qed.

Lemma in_node_iters a : In a (node_iters v) <-> fst a < nnode /\ snd a < ndim.
Proof.
  destruct V_sizes as [_ [E _]]. unfold node_iters. rewrite E, Hnd. destruct a as [m i]. rewrite in_prod_iff, !in_seq. simpl. lia.
Qed.
Lemma in_elem_iters a : In a (elem_iters v) <-> fst (fst a) < nelem /\ snd (fst a) < nne /\ snd a < ndim.
Proof.
  destruct V_sizes as [E _]. unfold elem_iters. rewrite E, Hnd, Hne. destruct a as [[e m] i].
  rewrite !in_prod_iff, !in_seq. simpl. lia.
Qed.

Theorem AsNode_dofval_spec x : length x = ndof -> exists u, AsNode_dofval v x = Ok u /\ shape2 u nnode ndim /\
  forall m i, m < nnode -> i < ndim -> val2 u m i = val1 x (dof m i).
Proof.
  intro L. unfold AsNode_dofval. destruct V_sizes as [_ [E _]]. rewrite E, Hnd.
  rewrite (fill2_Ok _ _ _ (fun m i => val1 x (dof m i))).
  - eexists. split; [reflexivity|]. split; [apply tab2_shape|]. intros m i Hm Hi. now apply (tab2_nth 0%R).
  - intros m i Hm Hi. rewrite V_get_dof by assumption. cbn [bind]. apply get_nth. rewrite L. now apply V_dof.
Qed.

Theorem AsElement_dofval_spec x : length x = ndof -> exists f, AsElement_dofval v x = Ok f /\ shape3 f nelem nne ndim /\
  forall e m i, e < nelem -> m < nne -> i < ndim -> val3 f e m i = val1 x (dof (node e m) i).
Proof.
  intro L. unfold AsElement_dofval. destruct V_sizes as [E _]. rewrite E, Hnd, Hne.
  rewrite (fill3_Ok _ _ _ _ (fun e m i => val1 x (dof (node e m) i))).
  - eexists. split; [reflexivity|]. split; [apply tab3_shape|]. intros e m i He Hm Hi. now apply (tab3_nth 0%R).
  - intros e m i He Hm Hi. rewrite V_elem_dof by assumption. cbn [bind]. apply get_nth. rewrite L. apply V_dof; auto. now apply V_node.
Qed.

Theorem AsElement_nodevec_spec u : shape2 u nnode ndim -> exists f, AsElement_nodevec v u = Ok f /\ shape3 f nelem nne ndim /\
  forall e m i, e < nelem -> m < nne -> i < ndim -> val3 f e m i = val2 u (node e m) i.
Proof.
  intro Hs. unfold AsElement_nodevec. destruct V_sizes as [E _]. rewrite E, Hnd, Hne.
  rewrite (fill3_Ok _ _ _ _ (fun e m i => val2 u (node e m) i)).
  - eexists. split; [reflexivity|]. split; [apply tab3_shape|]. intros e m i He Hm Hi. now apply (tab3_nth 0%R).
  - intros e m i He Hm Hi. rewrite V_get_node by assumption. cbn [bind]. apply (get2_nth 0%R _ nnode ndim); auto. now apply V_node.
Qed.

Lemma AsDofs_nodevec_writes order u : Permutation order (node_iters v) -> shape2 u nnode ndim ->
  AsDofs_nodevec v order u = write_all (repeat 0%R ndof) (map (fun a => (dof (fst a) (snd a), val2 u (fst a) (snd a))) order).
Proof.
  intros Hp Hs. unfold AsDofs_nodevec. destruct V_sizes as [_ [_ E]]. rewrite E.
  rewrite (mapM_Ok _ _ (fun a => (dof (fst a) (snd a), val2 u (fst a) (snd a)))); [reflexivity|].
  intros a Ha. apply (Permutation_in _ Hp) in Ha. apply in_node_iters in Ha. destruct Ha as [H1 H2].
  rewrite V_get_dof by assumption. cbn [bind]. now rewrite (get2_nth 0%R _ nnode ndim).
Qed.

Theorem AsDofs_nodevec_any order u : Permutation order (node_iters v) -> shape2 u nnode ndim ->
  exists x, AsDofs_nodevec v order u = Ok x /\ length x = ndof /\
    (forall m i, m < nnode -> i < ndim -> exists n j, n < nnode /\ j < ndim /\ dof n j = dof m i /\ val1 x (dof m i) = val2 u n j) /\
    (forall d, d < ndof -> ~ In d (concat (m_dofs v)) -> val1 x d = 0%R).
Proof.
  intros Hp Hs. rewrite (AsDofs_nodevec_writes order u Hp Hs).
  destruct (scatter (fun a => dof (fst a) (snd a)) (fun a => val2 u (fst a) (snd a)) order ndof) as [x [E [L [H1 H2]]]].
  { intros a Ha. apply (Permutation_in _ Hp) in Ha. apply in_node_iters in Ha. now apply V_dof. }
  exists x. split; [exact E|]. split; [exact L|]. split.
  - intros m i Hm Hi. destruct (H1 (m, i)) as [[n j] [Hb [Ek Ev]]].
    { apply (Permutation_in _ (Permutation_sym Hp)). apply in_node_iters. auto. }
    apply (Permutation_in _ Hp) in Hb. apply in_node_iters in Hb. simpl in *. exists n, j. tauto.
  - intros d Hd Hn. apply H2; [exact Hd|]. intro Hin. apply Hn. apply in_map_iff in Hin. destruct Hin as [a [Ea Ha]].
    apply (Permutation_in _ Hp) in Ha. apply in_node_iters in Ha. apply (In_concat_nth2 _ nnode ndim); [apply Hmd|].
    exists (fst a), (snd a). tauto.
Qed.

Theorem AsDofs_nodevec_spec order u : Permutation order (node_iters v) -> shape2 u nnode ndim ->
  agree2 (m_dofs v) nnode ndim u ->
  exists x, AsDofs_nodevec v order u = Ok x /\ length x = ndof /\
    (forall m i, m < nnode -> i < ndim -> val1 x (dof m i) = val2 u m i) /\
    (forall d, d < ndof -> ~ In d (concat (m_dofs v)) -> val1 x d = 0%R).
Proof.
  intros Hp Hs Ha. destruct (AsDofs_nodevec_any order u Hp Hs) as [x [E [L [H1 H2]]]].
  exists x. split; [exact E|]. split; [exact L|]. split; [|exact H2].
  intros m i Hm Hi. destruct (H1 m i Hm Hi) as [n [j [Hn [Hj [Ed Ev]]]]]. rewrite Ev. now apply Ha.
Qed.

Lemma AsDofs_elemvec_writes order f : Permutation order (elem_iters v) -> shape3 f nelem nne ndim ->
  AsDofs_elemvec v order f = write_all (repeat 0%R ndof)
    (map (fun a => (dof (node (fst (fst a)) (snd (fst a))) (snd a), val3 f (fst (fst a)) (snd (fst a)) (snd a))) order).
Proof.
  intros Hp Hs. unfold AsDofs_elemvec. destruct V_sizes as [_ [_ E]]. rewrite E.
  rewrite (mapM_Ok _ _ (fun a => (dof (node (fst (fst a)) (snd (fst a))) (snd a), val3 f (fst (fst a)) (snd (fst a)) (snd a)))); [reflexivity|].
  intros a Ha. apply (Permutation_in _ Hp) in Ha. apply in_elem_iters in Ha. destruct Ha as [H1 [H2 H3]].
  rewrite V_elem_dof by assumption. cbn [bind]. now rewrite (get3_nth 0%R _ nelem nne ndim).
Qed.

Theorem AsDofs_elemvec_spec order f : Permutation order (elem_iters v) -> shape3 f nelem nne ndim ->
  agree3 (fun e m i => dof (node e m) i) nelem nne ndim f ->
  exists x, AsDofs_elemvec v order f = Ok x /\ length x = ndof /\
    (forall e m i, e < nelem -> m < nne -> i < ndim -> val1 x (dof (node e m) i) = val3 f e m i) /\
    (forall d, d < ndof -> (forall e m i, e < nelem -> m < nne -> i < ndim -> dof (node e m) i <> d) -> val1 x d = 0%R).
Proof.
  intros Hp Hs Hag. rewrite (AsDofs_elemvec_writes order f Hp Hs).
  destruct (scatter_agree (fun a => dof (node (fst (fst a)) (snd (fst a))) (snd a))
      (fun a => val3 f (fst (fst a)) (snd (fst a)) (snd a)) order ndof) as [x [E [L [H1 H2]]]].
  { intros a Ha. apply (Permutation_in _ Hp) in Ha. apply in_elem_iters in Ha. apply V_dof; [apply V_node|]; tauto. }
  { intros a b Ha Hb. apply (Permutation_in _ Hp) in Ha, Hb. apply in_elem_iters in Ha, Hb. apply Hag; tauto. }
  exists x. split; [exact E|]. split; [exact L|]. split.
  - intros e m i He Hm Hi. apply (H1 (e, m, i)). apply (Permutation_in _ (Permutation_sym Hp)). apply in_elem_iters. auto.
  - intros d Hd Hn. apply H2; [exact Hd|]. intro Hin. apply in_map_iff in Hin. destruct Hin as [a [Ea Ha]].
    apply (Permutation_in _ Hp) in Ha. apply in_elem_iters in Ha. revert Ea. apply Hn; tauto.
Qed.

Theorem AsNode_elemvec_spec order f : Permutation order (elem_iters v) -> shape3 f nelem nne ndim ->
  agree3 (fun e m i => (node e m, i)) nelem nne ndim f ->
  exists u, AsNode_elemvec v order f = Ok u /\ shape2 u nnode ndim /\
    (forall e m i, e < nelem -> m < nne -> i < ndim -> val2 u (node e m) i = val3 f e m i) /\
    (forall n i, n < nnode -> i < ndim -> ~ In n (concat (m_conn v)) -> val2 u n i = 0%R).
Proof.
  intros Hp Hs Hag. unfold AsNode_elemvec. destruct V_sizes as [_ [E _]]. rewrite E, Hnd.
  set (w := fun a : nat * nat * nat => (node (fst (fst a)) (snd (fst a)), snd a, val3 f (fst (fst a)) (snd (fst a)) (snd a))).
  rewrite (mapM_Ok _ _ w).
  2:{ intros a Ha. apply (Permutation_in _ Hp) in Ha. apply in_elem_iters in Ha. destruct Ha as [H1 [H2 H3]].
      rewrite V_get_node by assumption. cbn [bind]. now rewrite (get3_nth 0%R _ nelem nne ndim). }
  cbn [bind].
  assert (Sz : shape2 (repeat (repeat 0%R ndim) nnode) nnode ndim).
  { split; [apply repeat_length|]. intros r Hr. apply repeat_spec in Hr. subst. apply repeat_length. }
  assert (Hz : forall n i, nth2 0%R (repeat (repeat 0%R ndim) nnode) n i = 0%R).
  { intros n i. unfold nth2. assert (Hrow : forall k, nth n (repeat (repeat 0%R ndim) k) [] = repeat 0%R ndim \/ nth n (repeat (repeat 0%R ndim) k) [] = []).
    { intro k. revert n. induction k as [|k IH]; intros [|n]; simpl; auto. }
    destruct (Hrow nnode) as [-> | ->]; [apply val1_repeat|destruct i; reflexivity]. }
  destruct (write2_all_Ok 0%R nnode ndim (map w order) _ Sz) as [u [Eu [Su [V1 V2]]]].
  { intros k j x Hin. apply in_map_iff in Hin. destruct Hin as [a [Ea Ha]]. injection Ea as Ek Ej Ex. rewrite <- Ek, <- Ej.
    apply (Permutation_in _ Hp) in Ha. apply in_elem_iters in Ha. split; [apply V_node|]; tauto. }
  exists u. split; [exact Eu|]. split; [exact Su|].
  assert (Hk : forall n i, In (n, i) (map fst (map w order)) <-> exists e m, e < nelem /\ m < nne /\ i < ndim /\ n = node e m).
  { intros n i. rewrite map_map, in_map_iff. split.
    - intros [a [Ea Ha]]. simpl in Ea. injection Ea as Ek Ej. rewrite <- Ek, <- Ej. apply (Permutation_in _ Hp) in Ha. apply in_elem_iters in Ha.
      exists (fst (fst a)), (snd (fst a)). tauto.
    - intros [e [m [He [Hm [Hi ->]]]]]. exists (e, m, i). split; [reflexivity|].
      apply (Permutation_in _ (Permutation_sym Hp)). apply in_elem_iters. auto. }
  split.
  - intros e m i He Hm Hi. destruct (V2 (node e m) i) as [x [Hx1 Hx2]]; [apply Hk; exists e, m; auto|].
    unfold val2 at 1. rewrite Hx2. apply in_map_iff in Hx1. destruct Hx1 as [a [Ea Ha]].
    apply (Permutation_in _ Hp) in Ha. apply in_elem_iters in Ha. unfold w in Ea. injection Ea as Ek Ej Ex. rewrite <- Ex.
    apply Hag; try tauto. congruence.
  - intros n i Hn Hi Hni. unfold val2. rewrite V1; auto. rewrite Hk. intros [e [m [He [Hm [_ ->]]]]]. apply Hni.
    apply (In_concat_nth2 _ nelem nne); [apply Hmd|]. eauto.
Qed.

(** ** assembly *)
Theorem AssembleDofs_nodevec_spec u : shape2 u nnode ndim -> exists f, AssembleDofs_nodevec v u = Ok f /\ length f = ndof /\
  forall d, d < ndof -> val1 f d = sum_node nnode ndim (fun m i => ind (dof m i =? d)%nat * val2 u m i)%R.
Proof.
  intro Hs. unfold AssembleDofs_nodevec. destruct V_sizes as [_ [E1 E2]]. rewrite E2.
  destruct (accumulate (fun a => dof (fst a) (snd a)) (fun a => val2 u (fst a) (snd a))
     (fun ret mi => do d <- get2 (m_dofs v) (fst mi) (snd mi); do x <- get2 u (fst mi) (snd mi); add_at ret d x)
     (node_iters v) (repeat 0%R ndof)) as [f [Ef [Lf Hf]]].
  { intros a Ha. apply in_node_iters in Ha. rewrite repeat_length. now apply V_dof. }
  { intros r a Ha. apply in_node_iters in Ha. destruct Ha as [H1 H2]. rewrite V_get_dof by assumption. cbn [bind].
    now rewrite (get2_nth 0%R _ nnode ndim). }
  rewrite repeat_length in *. exists f. split; [exact Ef|]. split; [exact Lf|]. intros d Hd. rewrite Hf by exact Hd.
  rewrite val1_repeat, Rplus_0_l. unfold node_iters. rewrite E1, Hnd, sumL_list_prod. reflexivity.
Qed.

Theorem AssembleDofs_elemvec_spec f : shape3 f nelem nne ndim -> exists x, AssembleDofs_elemvec v f = Ok x /\ length x = ndof /\
  forall d, d < ndof -> val1 x d = sum_elem nelem nne ndim (fun e m i => ind (dof (node e m) i =? d)%nat * val3 f e m i)%R.
Proof.
  intro Hs. unfold AssembleDofs_elemvec. destruct V_sizes as [E0 [E1 E2]]. rewrite E2.
  destruct (accumulate (fun a => dof (node (fst (fst a)) (snd (fst a))) (snd a)) (fun a => val3 f (fst (fst a)) (snd (fst a)) (snd a))
     (fun ret emi => do d <- elem_dof v (fst (fst emi)) (snd (fst emi)) (snd emi);
                        do x <- get3 f (fst (fst emi)) (snd (fst emi)) (snd emi); add_at ret d x)
     (elem_iters v) (repeat 0%R ndof)) as [x [Ex [Lx Hx]]].
  { intros a Ha. apply in_elem_iters in Ha. rewrite repeat_length. apply V_dof; [apply V_node|]; tauto. }
  { intros r a Ha. apply in_elem_iters in Ha. destruct Ha as [H1 [H2 H3]]. rewrite V_elem_dof by assumption. cbn [bind].
    now rewrite (get3_nth 0%R _ nelem nne ndim). }
  rewrite repeat_length in *. exists x. split; [exact Ex|]. split; [exact Lx|]. intros d Hd. rewrite Hx by exact Hd.
  rewrite val1_repeat, Rplus_0_l. unfold elem_iters. rewrite E0, Hnd, Hne, !sumL_list_prod. reflexivity.
Qed.

Theorem AssembleNode_spec f : shape3 f nelem nne ndim -> exists u, AssembleNode v f = Ok u /\ shape2 u nnode ndim /\
  forall n j, n < nnode -> j < ndim ->
    val2 u n j = sum_elem nelem nne ndim (fun e m i => ind (dof (node e m) i =? dof n j)%nat * val3 f e m i)%R.
Proof.
  intro Hs. destruct (AssembleDofs_elemvec_spec f Hs) as [x [E [L Hx]]].
  destruct (AsNode_dofval_spec x L) as [u [Eu [Su Hu]]]. exists u. unfold AssembleNode. rewrite E. cbn [bind].
  split; [exact Eu|]. split; [exact Su|]. intros n j Hn Hj. rewrite Hu by assumption. apply Hx. now apply V_dof.
Qed.

(** adjointness of gather and assembly *)
Theorem assemble_adjoint x f X F : length x = ndof -> shape3 f nelem nne ndim ->
  AsElement_dofval v x = Ok X -> AssembleDofs_elemvec v f = Ok F ->
  sumn ndof (fun d => val1 x d * val1 F d)%R = sum_elem nelem nne ndim (fun e m i => val3 X e m i * val3 f e m i)%R.
Proof.
  intros L Hs EX EF.
  destruct (AsElement_dofval_spec x L) as [X' [EX' [_ HX]]]. rewrite EX in EX'. inversion EX'; subst X'.
  destruct (AssembleDofs_elemvec_spec f Hs) as [F' [EF' [LF HF]]]. rewrite EF in EF'. inversion EF'; subst F'.
  rewrite (sumn_ext _ _ (fun d => val1 x d * sumL (elem_iters v) (fun a => ind (dof (node (fst (fst a)) (snd (fst a))) (snd a) =? d)%nat *
      val3 f (fst (fst a)) (snd (fst a)) (snd a)))%R).
  2:{ intros d Hd. rewrite HF by exact Hd. f_equal. destruct V_sizes as [E0 [E1 E2]].
      unfold elem_iters. rewrite E0, Hnd, Hne, !sumL_list_prod. reflexivity. }
  rewrite (sumL_group (elem_iters v) (fun a => dof (node (fst (fst a)) (snd (fst a))) (snd a)) ndof
      (fun a => val3 f (fst (fst a)) (snd (fst a)) (snd a)) (val1 x)).
  - rewrite (sumL_ext _ _ (fun a => val3 X (fst (fst a)) (snd (fst a)) (snd a) * val3 f (fst (fst a)) (snd (fst a)) (snd a))%R).
    + destruct V_sizes as [E0 [E1 E2]]. unfold elem_iters. rewrite E0, Hnd, Hne, !sumL_list_prod. reflexivity.
    + intros a Ha. apply in_elem_iters in Ha. rewrite HX by tauto. reflexivity.
  - intros a Ha. apply in_elem_iters in Ha. apply V_dof; [apply V_node|]; tauto.
Qed.

Theorem assemble_total f F : shape3 f nelem nne ndim -> AssembleDofs_elemvec v f = Ok F ->
  sumn ndof (val1 F) = sum_elem nelem nne ndim (val3 f).
Proof.
  intros Hs EF. set (x := repeat 1%R ndof).
  assert (Lx : length x = ndof) by apply repeat_length.
  destruct (AsElement_dofval_spec x Lx) as [X [EX [_ HX]]].
  pose proof (assemble_adjoint x f X F Lx Hs EX EF) as H.
  assert (H1 : forall d, d < ndof -> val1 x d = 1%R).
  { intros d Hd. unfold val1, x. apply nth_error_nth. now apply nth_error_repeat_lt. }
  rewrite (sumn_ext _ _ (fun d => val1 F d)) in H by (intros d Hd; rewrite H1 by exact Hd; lra).
  change (sumn ndof (val1 F)) with (sumn ndof (fun d => val1 F d)). etransitivity; [exact H|].
  unfold sum_elem. apply sumn_ext. intros e He. apply sumn_ext. intros m Hm. apply sumn_ext. intros i Hi.
  rewrite HX by assumption. rewrite H1 by (apply V_dof; auto; now apply V_node). lra.
Qed.

(** ** round trips *)
Theorem AsDofs_AsNode order x u : Permutation order (node_iters v) -> length x = ndof -> no_holes (m_dofs v) ndof ->
  AsNode_dofval v x = Ok u -> AsDofs_nodevec v order u = Ok x.
Proof.
  intros Hp L Hh Eu. destruct (AsNode_dofval_spec x L) as [u' [Eu' [Su Hu]]]. rewrite Eu in Eu'. inversion Eu'; subst u'.
  assert (Hag : agree2 (m_dofs v) nnode ndim u).
  { intros m i n j Hm Hi Hn Hj E. rewrite !Hu by assumption. now rewrite E. }
  destruct (AsDofs_nodevec_spec order u Hp Su Hag) as [y [Ey [Ly [Hy _]]]]. rewrite Ey. f_equal.
  apply (list_ext1 0%R _ _ ndof Ly L). intros d Hd. specialize (Hh d Hd).
  apply (In_concat_nth2 _ nnode ndim) in Hh; [|apply Hmd]. destruct Hh as [m [i [Hm [Hi E]]]].
  change (val1 y d = val1 x d). rewrite <- E. rewrite Hy by assumption. now apply Hu.
Qed.

Theorem AsNode_AsDofs order u x : Permutation order (node_iters v) -> shape2 u nnode ndim -> agree2 (m_dofs v) nnode ndim u ->
  AsDofs_nodevec v order u = Ok x -> AsNode_dofval v x = Ok u.
Proof.
  intros Hp Su Hag Ex. destruct (AsDofs_nodevec_spec order u Hp Su Hag) as [y [Ey [Ly [Hy _]]]].
  rewrite Ex in Ey. inversion Ey; subst y. destruct (AsNode_dofval_spec x Ly) as [w [Ew [Sw Hw]]]. rewrite Ew. f_equal.
  apply (list_ext2 0%R _ _ nnode ndim Sw Su). intros m i Hm Hi. change (val2 w m i = val2 u m i).
  rewrite Hw by assumption. now apply Hy.
Qed.

Theorem AsDofs_AsElement order x f : Permutation order (elem_iters v) -> length x = ndof ->
  (forall d, d < ndof -> exists e m i, e < nelem /\ m < nne /\ i < ndim /\ dof (node e m) i = d) ->
  AsElement_dofval v x = Ok f -> AsDofs_elemvec v order f = Ok x.
Proof.
  intros Hp L Hh Ef. destruct (AsElement_dofval_spec x L) as [f' [Ef' [Sf Hf]]]. rewrite Ef in Ef'. inversion Ef'; subst f'.
  assert (Hag : agree3 (fun e m i => dof (node e m) i) nelem nne ndim f).
  { intros e m i e' m' i' H1 H2 H3 H4 H5 H6 E. rewrite !Hf by assumption. simpl in E. now rewrite E. }
  destruct (AsDofs_elemvec_spec order f Hp Sf Hag) as [y [Ey [Ly [Hy _]]]]. rewrite Ey. f_equal.
  apply (list_ext1 0%R _ _ ndof Ly L). intros d Hd. destruct (Hh d Hd) as [e [m [i [He [Hm [Hi E]]]]]].
  change (val1 y d = val1 x d). rewrite <- E. rewrite Hy by assumption. now apply Hf.
Qed.

Theorem AsNode_AsElement order u f : Permutation order (elem_iters v) -> shape2 u nnode ndim ->
  (forall n, n < nnode -> In n (concat (m_conn v))) ->
  AsElement_nodevec v u = Ok f -> AsNode_elemvec v order f = Ok u.
Proof.
  intros Hp Su Hh Ef. destruct (AsElement_nodevec_spec u Su) as [f' [Ef' [Sf Hf]]]. rewrite Ef in Ef'. inversion Ef'; subst f'.
  assert (Hag : agree3 (fun e m i => (node e m, i)) nelem nne ndim f).
  { intros e m i e' m' i' H1 H2 H3 H4 H5 H6 E. rewrite !Hf by assumption. inversion E as [[E1 E2]]. now rewrite E1. }
  destruct (AsNode_elemvec_spec order f Hp Sf Hag) as [y [Ey [Sy [Hy _]]]]. rewrite Ey. f_equal.
  apply (list_ext2 0%R _ _ nnode ndim Sy Su). intros n i Hn Hi. specialize (Hh n Hn).
  apply (In_concat_nth2 _ nelem nne) in Hh; [|apply Hmd]. destruct Hh as [e [m [He [Hm E]]]].
  change (val2 y n i = val2 u n i). rewrite <- E. rewrite Hy by assumption. now apply Hf.
Qed.
End V.
Unset Default Proof Using.
