(** Proofs about asElementVector, assembleNodeVector. *)
From Coq Require Import Reals Lra.
From Verif Require Import Base Spec Sums Spec_Vector Model_Numbering Model_Vector Proof_Vector.

Lemma add2_Ok u n d m i x : shape2 u n d -> m < n -> i < d ->
  exists u', bind (get2 u m i) (fun y => set2 u m i (y + x)%R) = Ok u' /\ shape2 u' n d /\
    forall k j, k < n -> j < d -> val2 u' k j = (val2 u k j + ind ((m =? k) && (i =? j))%nat * x)%R.
Proof.
  intros Hs Hm Hi. rewrite (get2_nth 0%R _ n d) by assumption. cbn [bind].
  destruct (set2_Ok 0%R u n d m i (nth2 0%R u m i + x)%R Hs Hm Hi) as [u' [E [S' V']]]. exists u'.
  split; [exact E|]. split; [exact S'|]. intros k j Hk Hj. unfold val2. rewrite V' by assumption.
  rewrite (Nat.eqb_sym m k), (Nat.eqb_sym i j).
  destruct (Nat.eqb_spec k m) as [->|], (Nat.eqb_spec j i) as [->|]; simpl; unfold ind; lra.
Qed.

Lemma accumulate2 {I} (key : I -> nat) (dir : I -> nat) (val : I -> R) (step : list (list R) -> I -> res (list (list R))) n d (order : list I) :
  forall ret, shape2 ret n d -> (forall a, In a order -> key a < n /\ dir a < d) ->
  (forall r a, In a order -> step r a = bind (get2 r (key a) (dir a)) (fun y => set2 r (key a) (dir a) (y + val a)%R)) ->
  exists ret', foldM step order ret = Ok ret' /\ shape2 ret' n d /\
    forall k j, k < n -> j < d -> val2 ret' k j = (val2 ret k j + sumL order (fun a => ind ((key a =? k) && (dir a =? j))%nat * val a))%R.
Proof.
  induction order as [|a order IH]; intros ret Hs H Hst; simpl.
  - exists ret. split; [reflexivity|]. split; [exact Hs|]. intros; lra.
  - rewrite Hst by now left. destruct (H a) as [Hk Hd]; [now left|].
    destruct (add2_Ok ret n d (key a) (dir a) (val a) Hs Hk Hd) as [r [E [Sr Vr]]]. rewrite E. cbn [bind].
    destruct (IH r Sr) as [r' [E' [S' V']]]; [intros; apply H; now right|intros; apply Hst; now right|].
    exists r'. split; [exact E'|]. split; [exact S'|]. intros k j Hk' Hj'. rewrite V', Vr by assumption. lra.
Qed.

Section E.
Variable conn : list (list nat).
Variables nelem nne ndim : nat.
Hypothesis Hc : shape2 conn nelem nne.
Notation node := (idx2 conn).
Let nnode := S (fold_right Nat.max 0 (concat conn)).

Lemma node_lt e m : e < nelem -> m < nne -> node e m < nnode.
Proof.
  intros He Hm. assert (Hin : In (node e m) (concat conn)) by (apply (In_concat_nth2 _ nelem nne); eauto).
  apply amax_ge in Hin. unfold amax in Hin. unfold nnode. lia.
Qed.

Lemma asElementVector_spec u n : shape2 u n ndim -> nnode <= n -> exists f, asElementVector conn nne u ndim = Ok f /\
  shape3 f nelem nne ndim /\ forall e m i, e < nelem -> m < nne -> i < ndim -> val3 f e m i = val2 u (node e m) i.
Proof.
  intros Hs Hn. unfold asElementVector. replace (length conn) with nelem by (destruct Hc; auto).
  rewrite (fill3_Ok _ _ _ _ (fun e m i => val2 u (node e m) i)).
  - eexists. split; [reflexivity|]. split; [apply tab3_shape|]. intros e m i He Hm Hi. now apply (tab3_nth 0%R).
  - intros e m i He Hm Hi. rewrite (get2_nth 0 _ nelem nne) by assumption. cbn [bind].
    apply (get2_nth 0%R _ n ndim); auto. pose proof (node_lt e m He Hm). unfold idx2 in *. lia.
Qed.

Lemma in_iters a : In a (list_prod (list_prod (seq 0 (length conn)) (seq 0 nne)) (seq 0 ndim)) <->
  fst (fst a) < nelem /\ snd (fst a) < nne /\ snd a < ndim.
Proof.
  replace (length conn) with nelem by (destruct Hc; auto). destruct a as [[e m] i].
  rewrite !in_prod_iff, !in_seq. simpl. lia.
Qed.

Lemma assembleNodeVector_spec f : shape3 f nelem nne ndim -> exists u, assembleNodeVector conn nne f ndim = Ok u /\
  shape2 u nnode ndim /\
  forall n j, n < nnode -> j < ndim ->
    val2 u n j = sumn nelem (fun e => sumn nne (fun m => ind (node e m =? n)%nat * val3 f e m j))%R.
Proof.
  intro Hs. unfold assembleNodeVector. replace (amax (concat conn) + 1) with nnode by (unfold nnode, amax; lia).
  assert (Sz : shape2 (repeat (repeat 0%R ndim) nnode) nnode ndim).
  { split; [apply repeat_length|]. intros r Hr. apply repeat_spec in Hr. subst. apply repeat_length. }
  assert (Hz : forall n i, n < nnode -> val2 (repeat (repeat 0%R ndim) nnode) n i = 0%R).
  { intros n i Hn. unfold val2, nth2.
    rewrite (nth_error_nth (repeat (repeat 0%R ndim) nnode) n [] (x := repeat 0%R ndim)).
    - apply val1_repeat.
    - now apply nth_error_repeat_lt. }
  destruct (accumulate2 (fun a : nat * nat * nat => node (fst (fst a)) (snd (fst a))) (fun a => snd a) (fun a => val3 f (fst (fst a)) (snd (fst a)) (snd a))
    (fun ret emi => do n <- get2 conn (fst (fst emi)) (snd (fst emi));
                        do x <- get3 f (fst (fst emi)) (snd (fst emi)) (snd emi);
                        do y <- get2 ret n (snd emi);
                        set2 ret n (snd emi) (y + x)%R) nnode ndim
     (list_prod (list_prod (seq 0 (length conn)) (seq 0 nne)) (seq 0 ndim)) (repeat (repeat 0%R ndim) nnode) Sz) as [u [E [Su Vu]]].
  { intros a Ha. apply in_iters in Ha. split; [apply node_lt|]; tauto. }
  { intros r a Ha. apply in_iters in Ha. destruct Ha as [H1 [H2 H3]]. rewrite (get2_nth 0 _ nelem nne) by assumption. cbn [bind].
    rewrite (get3_nth 0%R _ nelem nne ndim) by assumption. reflexivity. }
  exists u. split; [exact E|]. split; [exact Su|]. intros n j Hn Hj. rewrite Vu, Hz by assumption. rewrite Rplus_0_l.
  replace (length conn) with nelem by (destruct Hc; auto). rewrite !sumL_list_prod.
  apply sumn_ext. intros e He. apply sumn_ext. intros m Hm. simpl.
  fold (sumn ndim (fun b => ind ((node e m =? n) && (b =? j))%nat * val3 f e m b)%R).
  rewrite (sumn_ext _ _ (fun b => ind (b =? j)%nat * (ind (node e m =? n)%nat * val3 f e m b))%R).
  - now apply (sumn_delta ndim j (fun b => ind (node e m =? n)%nat * val3 f e m b)%R).
  - intros b Hb. destruct (node e m =? n), (b =? j); simpl; unfold ind; lra.
Qed.

Lemma elem_node_adjoint u f X F : shape2 u nnode ndim -> shape3 f nelem nne ndim ->
  asElementVector conn nne u ndim = Ok X -> assembleNodeVector conn nne f ndim = Ok F ->
  sum_node nnode ndim (fun n j => val2 u n j * val2 F n j)%R = sum_elem nelem nne ndim (fun e m i => val3 X e m i * val3 f e m i)%R.
Proof.
  intros Hu Hf EX EF.
  destruct (asElementVector_spec u nnode Hu (le_n _)) as [X' [EX' [_ HX]]]. rewrite EX in EX'. injection EX' as EX'. rewrite <- EX' in HX.
  destruct (assembleNodeVector_spec f Hf) as [F' [EF' [_ HF]]]. rewrite EF in EF'. injection EF' as EF'. rewrite <- EF' in HF.
  unfold sum_node, sum_elem.
  rewrite (sumn_ext nnode _ (fun n => sumn ndim (fun j => sumn nelem (fun e => sumn nne (fun m => ind (node e m =? n)%nat * (val2 u n j * val3 f e m j)))))%R).
  2:{ intros n Hn. apply sumn_ext. intros j Hj. rewrite HF by assumption. rewrite <- sumn_scal. apply sumn_ext. intros e He.
      rewrite <- sumn_scal. apply sumn_ext. intros m Hm. lra. }
  rewrite sumn_swap. 
  rewrite (sumn_ext ndim _ (fun j => sumn nelem (fun e => sumn nne (fun m => val3 X e m j * val3 f e m j)))%R).
  2:{ intros j Hj. rewrite sumn_swap. apply sumn_ext. intros e He. rewrite sumn_swap. apply sumn_ext. intros m Hm.
      rewrite (sumn_delta' nnode (node e m) (fun n => val2 u n j * val3 f e m j)%R); [now rewrite HX|now apply node_lt]. }
  rewrite sumn_swap. apply sumn_ext. intros e He. rewrite sumn_swap. reflexivity.
Qed.
End E.

(** two orders of the parallel loop that give different results *)
Lemma schedule_refuted : exists v order1 order2 u, mesh_dofs (m_conn v) (m_dofs v) 1 2 2 1 1 /\
  Permutation order1 (node_iters v) /\ Permutation order2 (node_iters v) /\ shape2 u 2 1 /\
  AsDofs_nodevec v order1 u <> AsDofs_nodevec v order2 u.
Proof.
  exists (mkVector [[0; 1]] 2 [[0]; [0]] 1), [(0, 0); (1, 0)], [(1, 0); (0, 0)], [[0%R]; [1%R]].
  split.
  { split; try (split; [reflexivity|intros r [<-|H]; [reflexivity|]; try destruct H as [<-|[]]; try reflexivity; destruct H]).
    - intros [|e] [|[|m]] He Hm; cbn; lia.
    - reflexivity. }
  split; [apply Permutation_refl|]. split; [apply perm_swap|].
  split; [split; [reflexivity|simpl; intuition (subst; reflexivity)]|].
  cbn. intro E. injection E as E. lra.
Qed.
