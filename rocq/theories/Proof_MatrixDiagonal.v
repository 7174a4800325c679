From Coq Require Import Reals Lra.
From Verif Require Import Base Spec Sums Spec_Vector Spec_Matrix Model_Numbering Proof_Numbering Model_Vector Proof_Vector
  Model_VectorPartitioned Proof_VectorPartitioned Model_Sparse Model_Matrix Spec_MatrixOps Proof_Matrix Model_MatrixDiagonal Spec_MatrixDiagonal.

(** ** arrays that are written *)
Definition holds (n : nat) (l : list (option R)) (A : nat -> R) : Prop :=
  length l = n /\ forall d, d < n -> get_init l d = Ok (A d).

Lemma holds_map (l : list R) n A : length l = n -> (forall d, d < n -> val1 l d = A d) -> holds n (map Some l) A.
Proof.
  intros L H. split; [now rewrite map_length|]. intros d Hd. unfold get_init. rewrite nth_error_map.
  rewrite (nth_error_nth' l 0%R) by lia. simpl. f_equal. now apply H.
Qed.

Lemma holds_tab n (A : nat -> R) : holds n (tab1 n (fun d => Some (A d))) A.
Proof.
  split; [apply tab1_length|]. intros d Hd. unfold get_init, tab1.
  rewrite nth_error_map, nth_error_seq. destruct (Nat.ltb_spec d n); [reflexivity|lia].
Qed.

Lemma holds_ext n l A B : holds n l A -> (forall d, d < n -> A d = B d) -> holds n l B.
Proof. intros [L H] E. split; [exact L|]. intros d Hd. rewrite H by exact Hd. f_equal. now apply E. Qed.

Lemma Ok_of {A} (x : res A) (P : A -> Prop) : (exists a, x = Ok a /\ P a) -> forall a, x = Ok a -> P a.
Proof. intros [a [E H]] b E'. rewrite E in E'. injection E' as E'. now rewrite <- E'. Qed.

Section D.
Set Default Proof Using "All".
Variable v : Vector.
Variables nelem nne nnode ndim ndof : nat.
Hypothesis Hne : m_nne v = nne.
Hypothesis Hnd : m_ndim v = ndim.
Hypothesis Hmd : mesh_dofs (m_conn v) (m_dofs v) nelem nne nnode ndim ndof.
Notation dof := (idx2 (m_dofs v)).
Notation node := (idx2 (m_conn v)).
Let sizes := V_sizes v nelem nne nnode ndim ndof Hne Hnd Hmd.

Definition md_is (a : MatrixDiagonal) (A : nat -> R) : Prop :=
  MD_v a = v /\ holds ndof (MD_A a) A /\ (MD_changed a = false -> holds ndof (MD_inv a) (fun d => 1 / A d)%R).

Lemma row_lt m i : m < nne -> i < ndim -> m * ndim + i < nne * ndim.
Proof. intros. nia. Qed.

Lemma MD_assemble_spec a K : MD_v a = v -> length (MD_A a) = ndof -> shape3 K nelem (nne * ndim) (nne * ndim) ->
  exists a', MD_assemble a K = Ok a' /\ md_is a' (assembled_diag (m_conn v) (m_dofs v) nelem nne ndim K).
Proof.
  intros Ev L Hs. destruct sizes as [S1 [S2 S3]]. unfold MD_assemble. rewrite Ev, L.
  destruct (accumulate (fun a => dof (node (fst (fst a)) (snd (fst a))) (snd a))
      (fun a => val3 K (fst (fst a)) (snd (fst a) * ndim + snd a) (snd (fst a) * ndim + snd a))
      (fun (A : list R) (emi : nat * nat * nat) =>
      do d <- elem_dof v (fst (fst emi)) (snd (fst emi)) (snd emi);
      do x <- get3 K (fst (fst emi)) (snd (fst emi) * m_ndim v + snd emi) (snd (fst emi) * m_ndim v + snd emi);
      add_at A d x) (elem_iters v) (repeat 0%R ndof)) as [r [E [Lr Hr]]].
  - intros e He. rewrite repeat_length. apply (in_elem_iters v nelem nne nnode ndim ndof Hne Hnd Hmd) in He.
    apply (V_dof v nelem nne nnode ndim ndof Hne Hnd Hmd); [|tauto]. apply (V_node v nelem nne nnode ndim ndof Hne Hnd Hmd); tauto.
  - intros A e He. apply (in_elem_iters v nelem nne nnode ndim ndof Hne Hnd Hmd) in He. destruct He as [H1 [H2 H3]].
    rewrite (V_elem_dof v nelem nne nnode ndim ndof Hne Hnd Hmd) by assumption. cbn [bind]. rewrite Hnd.
    rewrite (get3_nth 0%R K nelem (nne * ndim) (nne * ndim)) by (auto; now apply row_lt). reflexivity.
  - rewrite E. cbn [bind]. eexists. split; [reflexivity|]. split; [reflexivity|]. split; [|discriminate].
    rewrite repeat_length in Lr, Hr. cbn [MD_A]. apply holds_map; [exact Lr|]. intros d Hd. rewrite Hr by exact Hd.
    rewrite val1_repeat, Rplus_0_l. unfold assembled_diag, sum_elem, elem_iters. rewrite S1, Hne, Hnd.
    rewrite !sumL_list_prod. reflexivity.
Qed.

Lemma MD_set_spec a A : MD_v a = v -> length (MD_A a) = ndof -> length A = ndof ->
  exists a', MD_set a A = Ok a' /\ md_is a' (val1 A).
Proof.
  intros Ev L LA. unfold MD_set, copy_to. rewrite map_length, LA, L, Nat.leb_refl. cbn [bind].
  eexists. split; [reflexivity|]. split; [exact Ev|]. split; [|discriminate]. cbn [MD_A].
  rewrite skipn_all2 by lia. rewrite app_nil_r. now apply holds_map.
Qed.

Lemma MD_factorize_spec a A : md_is a A -> exists a', MD_factorize a = Ok a' /\ md_is a' A /\ MD_changed a' = false.
Proof.
  intros [Ev [HA Hinv]]. unfold MD_factorize. destruct (MD_changed a) eqn:Ec; cbn [negb].
  - destruct sizes as [_ [_ S3]]. rewrite Ev, S3. rewrite (fill1_Ok _ _ (fun d => Some (1 / A d)%R)).
    + cbn [bind]. eexists. split; [reflexivity|]. split; [|reflexivity]. split; [reflexivity|]. split; [exact HA|].
      intros _. apply holds_tab.
    + intros d Hd. now rewrite (proj2 HA d Hd).
  - exists a. split; [reflexivity|]. split; [|exact Ec]. split; [exact Ev|]. split; [exact HA|]. auto.
Qed.

Lemma MD_solve_dofval_spec a A b : md_is a A -> length b = ndof ->
  exists x a', MD_solve_dofval a b = Ok (x, a') /\ md_is a' A /\ length x = ndof /\ forall d, d < ndof -> val1 x d = (1 / A d * val1 b d)%R.
Proof.
  intros H L. destruct (MD_factorize_spec a A H) as [a' [E [H' Hc]]]. unfold MD_solve_dofval. rewrite E. cbn [bind].
  destruct H' as [Ev [HA Hinv]]. specialize (Hinv Hc). destruct sizes as [_ [_ S3]]. rewrite Ev, S3.
  rewrite (fill1_Ok _ _ (fun d => 1 / A d * val1 b d)%R).
  - cbn [bind]. do 2 eexists. split; [reflexivity|]. split; [split; [exact Ev|split; [exact HA|auto]]|].
    split; [apply tab1_length|]. intros d Hd. now apply (tab1_nth 0%R).
  - intros d Hd. rewrite (proj2 Hinv d Hd). cbn [bind]. rewrite (get_nth 0%R) by lia. reflexivity.
Qed.

Lemma MD_solve_nodevec_spec a A b : md_is a A -> shape2 b nnode ndim ->
  exists x a', MD_solve_nodevec a b = Ok (x, a') /\ md_is a' A /\ shape2 x nnode ndim /\
    forall m i, m < nnode -> i < ndim -> val2 x m i = (1 / A (dof m i) * val2 b m i)%R.
Proof.
  intros H Hs. destruct (MD_factorize_spec a A H) as [a' [E [H' Hc]]]. unfold MD_solve_nodevec. rewrite E. cbn [bind].
  destruct H' as [Ev [HA Hinv]]. specialize (Hinv Hc). destruct sizes as [_ [S2 S3]]. rewrite Ev, S2, Hnd.
  rewrite (fill2_Ok _ _ _ (fun m i => 1 / A (dof m i) * val2 b m i)%R).
  - cbn [bind]. do 2 eexists. split; [reflexivity|]. split; [split; [exact Ev|split; [exact HA|auto]]|].
    split; [apply tab2_shape|]. intros m i Hm Hi. now apply (tab2_nth 0%R).
  - intros m i Hm Hi. rewrite (V_get_dof v nelem nne nnode ndim ndof Hne Hnd Hmd) by assumption. cbn [bind].
    rewrite (proj2 Hinv); [|now apply (V_dof v nelem nne nnode ndim ndof Hne Hnd Hmd)]. cbn [bind].
    rewrite (get2_nth 0%R b nnode ndim) by assumption. reflexivity.
Qed.

Lemma run_dop_spec a A o : md_is a A -> valid_dop nelem nne nnode ndim ndof o ->
  exists a', run_dop a o = Ok a' /\ md_is a' (diag_after (m_conn v) (m_dofs v) nelem nne ndim A o).
Proof.
  intros H Ho. pose proof H as [Ev [[L _] _]]. destruct o as [K|B|b|b]; cbn [run_dop diag_after].
  - now apply MD_assemble_spec.
  - now apply MD_set_spec.
  - destruct (MD_solve_dofval_spec a A b H Ho) as [x [a' [E [H' _]]]]. rewrite E. cbn [bind snd]. eauto.
  - destruct (MD_solve_nodevec_spec a A b H Ho) as [x [a' [E [H' _]]]]. rewrite E. cbn [bind snd]. eauto.
Qed.

Lemma run_dops_spec ops : forall a A, md_is a A -> Forall (valid_dop nelem nne nnode ndim ndof) ops ->
  exists a', foldM run_dop ops a = Ok a' /\ md_is a' (fold_left (diag_after (m_conn v) (m_dofs v) nelem nne ndim) ops A).
Proof.
  induction ops as [|o ops IH]; intros a A H Ho; cbn [foldM fold_left]; [eauto|].
  destruct (run_dop_spec a A o H (Forall_inv Ho)) as [a' [E H']]. rewrite E. cbn [bind].
  apply IH; [exact H'|]. exact (Forall_inv_tail Ho).
Qed.

Lemma run_first o ops : changes o = true -> Forall (valid_dop nelem nne nnode ndim ndof) (o :: ops) ->
  exists a', foldM run_dop (o :: ops) (new_MatrixDiagonal v) = Ok a' /\
    md_is a' (fold_left (diag_after (m_conn v) (m_dofs v) nelem nne ndim) (o :: ops) (fun _ => 0%R)).
Proof.
  intros Hc Ho. cbn [foldM fold_left].
  assert (L : length (MD_A (new_MatrixDiagonal v)) = ndof).
  { unfold new_MatrixDiagonal, empty. cbn [MD_A]. rewrite repeat_length. apply sizes. }
  pose proof (Forall_inv Ho) as H1. pose proof (Forall_inv_tail Ho) as H2.
  destruct o as [K|B|b|b]; try discriminate; cbn [run_dop diag_after].
  - destruct (MD_assemble_spec (new_MatrixDiagonal v) K eq_refl L H1) as [a' [E H']]. rewrite E. cbn [bind]. now apply run_dops_spec.
  - destruct (MD_set_spec (new_MatrixDiagonal v) B eq_refl L H1) as [a' [E H']]. rewrite E. cbn [bind]. now apply run_dops_spec.
Qed.

Lemma solve_first o ops : changes o = false -> foldM run_dop (o :: ops) (new_MatrixDiagonal v) = Uninit.
Proof.
  intro Hc. assert (F : MD_factorize (new_MatrixDiagonal v) = Uninit).
  { unfold MD_factorize, new_MatrixDiagonal. cbn [MD_changed negb MD_v MD_A]. destruct sizes as [_ [_ S3]].
    rewrite S3. rewrite (md_ndof _ _ _ _ _ _ _ Hmd). unfold fill1. cbn [seq mapM]. reflexivity. }
  destruct o as [K|B|b|b]; try discriminate; cbn [foldM run_dop]; unfold MD_solve_dofval, MD_solve_nodevec; rewrite F; reflexivity.
Qed.

Lemma MD_data_spec a A : md_is a A -> exists l, MD_data a = Ok l /\ length l = ndof /\ forall d, d < ndof -> val1 l d = A d.
Proof.
  intros [Ev [HA _]]. destruct sizes as [_ [_ S3]]. unfold MD_data. rewrite Ev, S3. rewrite (fill1_Ok _ _ A).
  - eexists. split; [reflexivity|]. split; [apply tab1_length|]. intros d Hd. now apply (tab1_nth 0%R).
  - intros d Hd. apply HA. exact Hd.
Qed.

Lemma diag_writes n (A : nat -> R) : exists M, write2_all (repeat (repeat 0%R n) n) (map (fun d => (d, d, A d)) (seq 0 n)) = Ok M /\
  is_dense n M (fun r c => if r =? c then A r else 0%R).
Proof.
  assert (Z : shape2 (repeat (repeat 0%R n) n) n n).
  { split; [apply repeat_length|]. intros r Hr. apply repeat_spec in Hr. subst. apply repeat_length. }
  destruct (write2_all_Ok 0%R n n (map (fun d => (d, d, A d)) (seq 0 n)) _ Z) as [M [E [Hs [Hout Hin]]]].
  - intros k j x Hx. apply in_map_iff in Hx. destruct Hx as [d [Ed Hd]]. apply in_seq in Hd. injection Ed as E1 E2 _. lia.
  - exists M. split; [exact E|]. split; [exact Hs|]. intros r c Hr Hc. unfold val2.
    rewrite map_map in Hout, Hin. cbn [fst] in Hout, Hin. destruct (Nat.eqb_spec r c) as [<-|Hne'].
    + destruct (Hin r r) as [x [Hx1 Hx2]]; [apply in_map_iff; exists r; split; [reflexivity|apply in_seq; lia]|].
      rewrite Hx2. apply in_map_iff in Hx1. destruct Hx1 as [d [Ed _]]. injection Ed as E1 _ E3. now rewrite <- E3, E1.
    + rewrite Hout; [|exact Hr|exact Hc|].
      * unfold nth2. rewrite (nth_indep _ [] (repeat 0%R n)) by (rewrite repeat_length; lia). rewrite nth_repeat.
        now rewrite nth_repeat.
      * intro Hi. apply in_map_iff in Hi. destruct Hi as [d [Ed _]]. injection Ed as E1 E2. lia.
Qed.

Lemma MD_todense_spec a A : md_is a A -> exists M, MD_todense a = Ok M /\ is_dense ndof M (fun r c => if r =? c then A r else 0%R).
Proof.
  intros [Ev [HA _]]. destruct sizes as [_ [_ S3]]. unfold MD_todense. rewrite Ev, S3.
  rewrite (mapM_Ok _ _ (fun d => (d, d, A d))).
  - cbn [bind]. apply diag_writes.
  - intros d Hd. apply in_seq in Hd. now rewrite (proj2 HA) by lia.
Qed.

Lemma MD_dot_dofval_spec a A x : md_is a A -> length x = ndof ->
  exists b, MD_dot_dofval a x = Ok b /\ length b = ndof /\ forall d, d < ndof -> val1 b d = (A d * val1 x d)%R.
Proof.
  intros [Ev [HA _]] L. destruct sizes as [_ [_ S3]]. unfold MD_dot_dofval. rewrite Ev, S3. rewrite (fill1_Ok _ _ (fun d => A d * val1 x d)%R).
  - eexists. split; [reflexivity|]. split; [apply tab1_length|]. intros d Hd. now apply (tab1_nth 0%R).
  - intros d Hd. rewrite (proj2 HA d Hd). cbn [bind]. rewrite (get_nth 0%R) by lia. reflexivity.
Qed.

Lemma MD_dot_nodevec_spec a A x : md_is a A -> shape2 x nnode ndim ->
  exists b, MD_dot_nodevec a x = Ok b /\ shape2 b nnode ndim /\ forall m i, m < nnode -> i < ndim -> val2 b m i = (A (dof m i) * val2 x m i)%R.
Proof.
  intros [Ev [HA _]] Hs. destruct sizes as [_ [S2 S3]]. unfold MD_dot_nodevec. rewrite Ev, S2, Hnd.
  rewrite (fill2_Ok _ _ _ (fun m i => A (dof m i) * val2 x m i)%R).
  - eexists. split; [reflexivity|]. split; [apply tab2_shape|]. intros m i Hm Hi. now apply (tab2_nth 0%R).
  - intros m i Hm Hi. rewrite (V_get_dof v nelem nne nnode ndim ndof Hne Hnd Hmd) by assumption. cbn [bind].
    rewrite (proj2 HA); [|now apply (V_dof v nelem nne nnode ndim ndof Hne Hnd Hmd)]. cbn [bind].
    rewrite (get2_nth 0%R x nnode ndim) by assumption. reflexivity.
Qed.

(** the statements *)
Theorem diag_history o ops : changes o = true -> Forall (valid_dop nelem nne nnode ndim ndof) (o :: ops) ->
  let A := fold_left (diag_after (m_conn v) (m_dofs v) nelem nne ndim) (o :: ops) (fun _ => 0%R) in
  exists a, foldM run_dop (o :: ops) (new_MatrixDiagonal v) = Ok a /\
    (exists l, MD_data a = Ok l /\ length l = ndof /\ forall d, d < ndof -> val1 l d = A d) /\
    (exists M, MD_todense a = Ok M /\ is_dense ndof M (fun r c => if r =? c then A r else 0%R)) /\
    (forall x, length x = ndof -> exists b, MD_dot_dofval a x = Ok b /\ length b = ndof /\ forall d, d < ndof -> val1 b d = (A d * val1 x d)%R) /\
    (forall x, shape2 x nnode ndim -> exists b, MD_dot_nodevec a x = Ok b /\ shape2 b nnode ndim /\
       forall m i, m < nnode -> i < ndim -> val2 b m i = (A (dof m i) * val2 x m i)%R).
Proof.
  intros Hc Ho A. destruct (run_first o ops Hc Ho) as [a [E H]]. fold A in H. exists a. split; [exact E|].
  split; [now apply MD_data_spec|]. split; [now apply MD_todense_spec|]. split; intros x Hx.
  - now apply MD_dot_dofval_spec.
  - now apply MD_dot_nodevec_spec.
Qed.

Theorem diag_inverse o ops : changes o = true -> Forall (valid_dop nelem nne nnode ndim ndof) (o :: ops) ->
  let A := fold_left (diag_after (m_conn v) (m_dofs v) nelem nne ndim) (o :: ops) (fun _ => 0%R) in
  (forall d, d < ndof -> A d <> 0%R) ->
  exists a, foldM run_dop (o :: ops) (new_MatrixDiagonal v) = Ok a /\
    (forall b, length b = ndof -> exists x a', MD_solve_dofval a b = Ok (x, a') /\ MD_dot_dofval a x = Ok b) /\
    (forall b, shape2 b nnode ndim -> exists x a', MD_solve_nodevec a b = Ok (x, a') /\ MD_dot_nodevec a x = Ok b) /\
    (forall x, length x = ndof -> exists b a', MD_dot_dofval a x = Ok b /\ MD_solve_dofval a b = Ok (x, a')) /\
    (forall x, shape2 x nnode ndim -> exists b a', MD_dot_nodevec a x = Ok b /\ MD_solve_nodevec a b = Ok (x, a')).
Proof.
  intros Hc Ho A Hz. destruct (run_first o ops Hc Ho) as [a [E H]]. fold A in H. exists a. split; [exact E|].
  split; [|split; [|split]].
  - intros b Hb. destruct (MD_solve_dofval_spec a A b H Hb) as [x [a' [E1 [_ [L1 V1]]]]]. exists x, a'. split; [exact E1|].
    destruct (MD_dot_dofval_spec a A x H L1) as [b' [E2 [L2 V2]]]. rewrite E2. f_equal.
    apply (list_ext1 0%R _ _ ndof); auto. intros d Hd. change (val1 b' d = val1 b d). rewrite V2, V1 by exact Hd.
    field. now apply Hz.
  - intros b Hb. destruct (MD_solve_nodevec_spec a A b H Hb) as [x [a' [E1 [_ [L1 V1]]]]]. exists x, a'. split; [exact E1|].
    destruct (MD_dot_nodevec_spec a A x H L1) as [b' [E2 [L2 V2]]]. rewrite E2. f_equal.
    apply (list_ext2 0%R _ _ nnode ndim); auto. intros m i Hm Hi. change (val2 b' m i = val2 b m i). rewrite V2, V1 by assumption.
    field. apply Hz. now apply (V_dof v nelem nne nnode ndim ndof Hne Hnd Hmd).
  - intros x Hx. destruct (MD_dot_dofval_spec a A x H Hx) as [b [E2 [L2 V2]]].
    destruct (MD_solve_dofval_spec a A b H L2) as [x' [a' [E1 [_ [L1 V1]]]]]. exists b, a'. split; [exact E2|]. rewrite E1. f_equal. f_equal.
    apply (list_ext1 0%R _ _ ndof); auto. intros d Hd. change (val1 x' d = val1 x d). rewrite V1, V2 by exact Hd.
    field. now apply Hz.
  - intros x Hx. destruct (MD_dot_nodevec_spec a A x H Hx) as [b [E2 [L2 V2]]].
    destruct (MD_solve_nodevec_spec a A b H L2) as [x' [a' [E1 [_ [L1 V1]]]]]. exists b, a'. split; [exact E2|]. rewrite E1. f_equal. f_equal.
    apply (list_ext2 0%R _ _ nnode ndim); auto. intros m i Hm Hi. change (val2 x' m i = val2 x m i). rewrite V1, V2 by assumption.
    field. apply Hz. now apply (V_dof v nelem nne nnode ndim ndof Hne Hnd Hmd).
Qed.

(** dofval and nodevec *)
Theorem diag_variants o ops : changes o = true -> Forall (valid_dop nelem nne nnode ndim ndof) (o :: ops) ->
  exists a, foldM run_dop (o :: ops) (new_MatrixDiagonal v) = Ok a /\
    forall x, length x = ndof -> exists u b s ma sn mn, AsNode_dofval v x = Ok u /\
      MD_dot_dofval a x = Ok b /\ MD_dot_nodevec a u = AsNode_dofval v b /\
      MD_solve_dofval a x = Ok (s, ma) /\ MD_solve_nodevec a u = Ok (sn, mn) /\ AsNode_dofval v s = Ok sn.
Proof.
  intros Hc Ho. destruct (run_first o ops Hc Ho) as [a [E H]].
  set (A := fold_left (diag_after (m_conn v) (m_dofs v) nelem nne ndim) (o :: ops) (fun _ => 0%R)) in *.
  exists a. split; [exact E|]. intros x Hx.
  destruct (AsNode_dofval_spec v nelem nne nnode ndim ndof Hne Hnd Hmd x Hx) as [u [Eu [Su Vu]]].
  destruct (MD_dot_dofval_spec a A x H Hx) as [b [Eb [Lb Vb]]].
  destruct (MD_dot_nodevec_spec a A u H Su) as [bn [Ebn [Sbn Vbn]]].
  destruct (MD_solve_dofval_spec a A x H Hx) as [s [ma [Es [_ [Ls Vs]]]]].
  destruct (MD_solve_nodevec_spec a A u H Su) as [sn [mn [Esn [_ [Ssn Vsn]]]]].
  destruct (AsNode_dofval_spec v nelem nne nnode ndim ndof Hne Hnd Hmd b Lb) as [ub [Eub [Sub Vub]]].
  destruct (AsNode_dofval_spec v nelem nne nnode ndim ndof Hne Hnd Hmd s Ls) as [us [Eus [Sus Vus]]].
  exists u, b, s, ma, sn, mn. split; [exact Eu|]. split; [exact Eb|].
  assert (K : forall m i, m < nnode -> i < ndim -> dof m i < ndof) by (apply (V_dof v nelem nne nnode ndim ndof Hne Hnd Hmd)).
  split; [|split; [exact Es|split; [exact Esn|]]].
  - rewrite Ebn, Eub. f_equal. apply (list_ext2 0%R _ _ nnode ndim); auto. intros m i Hm Hi.
    change (val2 bn m i = val2 ub m i). rewrite Vbn, Vub, Vb, Vu by auto. reflexivity.
  - rewrite Eus. f_equal. apply (list_ext2 0%R _ _ nnode ndim); auto. intros m i Hm Hi.
    change (val2 us m i = val2 sn m i). rewrite Vsn, Vus, Vs, Vu by auto. reflexivity.
Qed.

(** diagonal element matrices: the same as Matrix *)
Lemma assembled_diagonal K : diagonal3 K nelem (nne * ndim) ->
  forall r c, r < ndof -> c < ndof -> assembled (m_conn v) (m_dofs v) nelem nne ndim K r c =
    if r =? c then assembled_diag (m_conn v) (m_dofs v) nelem nne ndim K r else 0%R.
Proof.
  intros Hd r c Hr Hc.
  assert (E : forall e m i, e < nelem -> m < nne -> i < ndim ->
    sum_node nne ndim (fun n j => ind (dof (node e m) i =? r)%nat * (ind (dof (node e n) j =? c)%nat * val3 K e (m * ndim + i) (n * ndim + j)))%R =
    (ind (dof (node e m) i =? r)%nat * (ind (dof (node e m) i =? c)%nat * val3 K e (m * ndim + i) (m * ndim + i)))%R).
  { intros e m i He Hm Hi. unfold sum_node.
    rewrite (sumn_ext nne _ (fun n => ind (m =? n)%nat * (ind (dof (node e m) i =? r)%nat * (ind (dof (node e n) i =? c)%nat * val3 K e (m * ndim + i) (n * ndim + i))))%R).
    - now rewrite sumn_delta' by exact Hm.
    - intros n Hn. rewrite (sumn_ext ndim _ (fun j => ind (i =? j)%nat * (ind (m =? n)%nat * (ind (dof (node e m) i =? r)%nat * (ind (dof (node e n) j =? c)%nat * val3 K e (m * ndim + i) (n * ndim + j)))))%R).
      + now rewrite sumn_delta' by exact Hi.
      + intros j Hj. destruct (Nat.eqb_spec i j) as [<-|Hij]; [destruct (Nat.eqb_spec m n) as [<-|Hmn]|].
        * unfold ind. lra.
        * rewrite (Hd e (m * ndim + i) (n * ndim + i)); [lra|exact He|now apply row_lt|now apply row_lt|nia].
        * rewrite (Hd e (m * ndim + i) (n * ndim + j)); [lra|exact He|now apply row_lt|now apply row_lt|].
          intro Eq. apply Hij.
          assert (Em : m = n) by nia. rewrite Em in Eq. lia. }
  unfold assembled, assembled_diag, sum_elem.
  rewrite (sumn_ext nelem _ (fun e => sumn nne (fun m => sumn ndim (fun i =>
     ind (dof (node e m) i =? r)%nat * (ind (dof (node e m) i =? c)%nat * val3 K e (m * ndim + i) (m * ndim + i))))))%R.
  - destruct (Nat.eqb_spec r c) as [<-|Hrc].
    + apply sumn_ext; intros e He; apply sumn_ext; intros m Hm; apply sumn_ext; intros i Hi.
      destruct (dof (node e m) i =? r); unfold ind; lra.
    + apply sumn_zero; intros e He; apply sumn_zero; intros m Hm; apply sumn_zero; intros i Hi.
      destruct (Nat.eqb_spec (dof (node e m) i) r) as [E1|]; [|unfold ind; lra].
      destruct (Nat.eqb_spec (dof (node e m) i) c) as [E2|]; [|unfold ind; lra]. exfalso. apply Hrc. now rewrite <- E1.
  - intros e He. apply sumn_ext; intros m Hm; apply sumn_ext; intros i Hi. now apply E.
Qed.

Theorem diag_matrix K : shape3 K nelem (nne * ndim) (nne * ndim) -> diagonal3 K nelem (nne * ndim) ->
  exists a m M, MD_assemble (new_MatrixDiagonal v) K = Ok a /\ M_assemble (new_Matrix v) K = Ok m /\ MD_todense a = Ok M /\ M_todense m = Ok M /\
    forall x, length x = ndof -> MD_dot_dofval a x = M_dot_dofval m x.
Proof.
  intros Hs Hd.
  assert (L : length (MD_A (new_MatrixDiagonal v)) = ndof).
  { unfold new_MatrixDiagonal, empty. cbn [MD_A]. rewrite repeat_length. apply sizes. }
  destruct (MD_assemble_spec (new_MatrixDiagonal v) K eq_refl L Hs) as [a [Ea Ha]].
  destruct (MD_todense_spec _ _ Ha) as [M [EM DM]].
  destruct (run_mops_spec v nelem nne nnode ndim ndof Hne Hnd Hmd [OpAssemble K] (new_Matrix v)) as [m [Em [V1 [R1 [C1 HM]]]]].
  { reflexivity. } { apply sizes. } { apply sizes. } { constructor; [exact Hs|constructor]. }
  cbn [foldM run_mop] in Em. destruct (M_assemble (new_Matrix v) K) as [m'| | |] eqn:Em'; try discriminate. cbn [bind] in Em. injection Em as Em.
  rewrite Em in *. clear m' Em.
  assert (HM' : forall r c, ent (M_A m) r c = assembled (m_conn v) (m_dofs v) nelem nne ndim K r c) by (intros; now rewrite HM).
  destruct (todense_spec v nelem nne nnode ndim ndof Hne Hnd Hmd m V1 R1 C1) as [M' [EM' DM']].
  exists a, m, M. split; [exact Ea|]. split; [reflexivity|]. split; [exact EM|]. split.
  - rewrite EM'. f_equal. apply (list_ext2 0%R _ _ ndof ndof); [apply DM'|apply DM|]. intros r c Hr Hc.
    change (val2 M' r c = val2 M r c). rewrite (proj2 DM r c Hr Hc), (proj2 DM' r c Hr Hc), HM'. now apply assembled_diagonal.
  - intros x Hx. destruct (MD_dot_dofval_spec _ _ x Ha Hx) as [b [Eb [Lb Vb]]].
    destruct (dot_dofval_spec v nelem nne nnode ndim ndof Hne Hnd Hmd m x V1 R1 C1 Hx) as [b' [Eb' [Lb' Vb']]].
    rewrite Eb, Eb'. f_equal. apply (list_ext1 0%R _ _ ndof); auto. intros d Hd1. change (val1 b d = val1 b' d).
    rewrite Vb, Vb' by exact Hd1. unfold mv.
    rewrite (sumn_ext ndof _ (fun c => ind (d =? c)%nat * (assembled_diag (m_conn v) (m_dofs v) nelem nne ndim K d * val1 x c))%R).
    + now rewrite sumn_delta' by exact Hd1.
    + intros c Hc. rewrite HM', assembled_diagonal by assumption. destruct (d =? c); unfold ind; lra.
Qed.
End D.
