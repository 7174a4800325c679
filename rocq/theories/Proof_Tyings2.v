(** Proofs about VectorPartitionedTyings. *)
From Coq Require Import Reals Lra.
From Verif Require Import Base Spec Sums Spec_Vector Spec_Tyings Model_Numbering Proof_Numbering Model_Vector Proof_Vector
  Model_VectorPartitioned Proof_VectorPartitioned Model_Sparse Model_Tyings Proof_Tyings.

(** copying a range of entries *)
Lemma copy_range (src : list R) : forall n a dest, a + n <= length src -> length src <= length dest ->
  exists r, foldM (fun r i => do x <- get src i; set r i x) (seq a n) dest = Ok r /\ length r = length dest /\
    forall i, val1 r i = if (a <=? i) && (i <? a + n) then val1 src i else val1 dest i.
Proof.
  induction n as [|n IH]; intros a dest Hs Hd; simpl.
  - exists dest. split; [reflexivity|]. split; [reflexivity|]. intro i.
    destruct (Nat.leb_spec a i), (Nat.ltb_spec i (a + 0)); simpl; auto; lia.
  - rewrite (get_nth 0%R) by lia. cbn [bind]. destruct (set_Ok dest a (nth a src 0%R)) as [d [E [L Hn]]]; [lia|].
    rewrite E. cbn [bind]. destruct (IH (S a) d) as [r [Er [Lr Hr]]]; [lia|lia|].
    exists r. split; [exact Er|]. split; [congruence|]. intro i. rewrite Hr.
    assert (V : val1 d i = if i =? a then val1 src a else val1 dest i).
    { unfold val1. destruct (Nat.eqb_spec i a) as [->|Hne].
      - apply nth_error_nth. rewrite Hn, Nat.eqb_refl. reflexivity.
      - assert (X : nth_error d i = nth_error dest i) by (rewrite Hn; destruct (Nat.eqb_spec i a); [contradiction|reflexivity]).
        destruct (Nat.lt_ge_cases i (length dest)) as [Hi|Hi].
        + apply nth_error_nth. rewrite X. now apply nth_error_nth'.
        + rewrite !nth_overflow by lia. reflexivity. }
    rewrite V. destruct (Nat.eqb_spec i a) as [Heq|Hne], (Nat.leb_spec (S a) i), (Nat.leb_spec a i), (Nat.ltb_spec i (S a + n)), (Nat.ltb_spec i (a + S n));
      cbn [andb]; try (rewrite Heq); auto; lia.
Qed.

(** writes of options *)
Lemma mulvec_Ok a x : length x = cols a -> mulvec a x = Ok (map (fun i => sumn (cols a) (fun j => ent a i j * nth j x 0)%R) (seq 0 (rows a))).
Proof. intro L. unfold mulvec. now rewrite L, Nat.eqb_refl. Qed.

Lemma mapM_get_init_Some {A} (l : list (option A)) (g : nat -> A) n : (forall i, i < n -> nth_error l i = Some (Some (g i))) ->
  mapM (get_init l) (seq 0 n) = Ok (map g (seq 0 n)).
Proof. intro H. apply mapM_Ok. intros i Hi. apply in_seq in Hi. unfold get_init. rewrite H by lia. reflexivity. Qed.

Lemma mapM_get_init_None {A} (l : list (option A)) n i : length l = n -> i < n -> nth_error l i = Some None ->
  mapM (get_init l) (seq 0 n) = Uninit.
Proof.
  intros L Hi E. assert (G : forall ks, (forall k, In k ks -> k < n) -> In i ks -> mapM (get_init l) ks = Uninit).
  { induction ks as [|k ks IH]; intros Hk Hin; [destruct Hin|]. simpl. destruct (Nat.eq_dec k i) as [->|Hne].
    - unfold get_init at 1. rewrite E. reflexivity.
    - destruct (nth_error l k) as [[a|]|] eqn:Ek.
      + unfold get_init at 1. rewrite Ek. cbn [bind]. rewrite IH; [reflexivity|intros; apply Hk; now right|]. destruct Hin; [contradiction|assumption].
      + unfold get_init at 1. rewrite Ek. reflexivity.
      + apply nth_error_None in Ek. specialize (Hk k (or_introl eq_refl)). lia. }
  apply G; [|apply in_seq; lia]. intros k Hk. apply in_seq in Hk. lia.
Qed.

Section VT.
Set Default Proof Using "All".
Variable t : VectorTyings.
Variables nelem nne nnode ndim ndof : nat.
Hypothesis Hne : m_nne (vt_v t) = nne.
Hypothesis Hnd : m_ndim (vt_v t) = ndim.
Hypothesis Hmd : mesh_dofs (m_conn (vt_v t)) (m_dofs (vt_v t)) nelem nne nnode ndim ndof.
Hypothesis Hdof : vt_nni t + vt_nnd t = ndof.
Hypothesis Hr : rows (vt_Cdi t) = vt_nnd t.
Hypothesis Hc : cols (vt_Cdi t) = vt_nni t.
Notation dof := (idx2 (m_dofs (vt_v t))).
Variables (order order' : list (nat * nat)) (u : list (list R)).
Hypothesis Ho : Permutation order (node_iters (vt_v t)).
Hypothesis Ho' : Permutation order' (node_iters (vt_v t)).
Hypothesis Hu : shape2 u nnode ndim.

Lemma vt_in o a : Permutation o (node_iters (vt_v t)) -> In a o <-> fst a < nnode /\ snd a < ndim.
Proof.
  intro P. rewrite <- (in_node_iters (vt_v t) nelem nne nnode ndim ndof Hne Hnd Hmd). split; apply Permutation_in; [exact P|now symmetry].
Qed.

Let key_i (a : nat * nat) := dof (fst a) (snd a).
Let uv (a : nat * nat) := val2 u (fst a) (snd a).

Lemma ws_i : mapM (fun mi => do d <- get2 (m_dofs (vt_v t)) (fst mi) (snd mi);
      if d <? vt_nni t then do x <- get2 u (fst mi) (snd mi); Ok [(d, x)] else Ok []) order =
  Ok (map (fun a => if key_i a <? vt_nni t then [(key_i a, uv a)] else []) order).
Proof.
  apply mapM_Ok. intros a Ha. apply (vt_in order a Ho) in Ha.
  rewrite (V_get_dof (vt_v t) nelem nne nnode ndim ndof Hne Hnd Hmd) by apply Ha. cbn [bind]. unfold key_i.
  destruct (_ <? _); [|reflexivity]. rewrite (get2_nth 0%R u nnode ndim) by (tauto || exact Hu). reflexivity.
Qed.

Lemma ws_d : mapM (fun mi => do d <- get2 (m_dofs (vt_v t)) (fst mi) (snd mi);
      if vt_nni t <=? d then do x <- get2 u (fst mi) (snd mi); Ok [(d - vt_nni t, Some x)] else Ok []) order' =
  Ok (map (fun a => if vt_nni t <=? key_i a then [(key_i a - vt_nni t, Some (uv a))] else []) order').
Proof.
  apply mapM_Ok. intros a Ha. apply (vt_in order' a Ho') in Ha.
  rewrite (V_get_dof (vt_v t) nelem nne nnode ndim ndof Hne Hnd Hmd) by apply Ha. cbn [bind]. unfold key_i.
  destruct (_ <=? _); [|reflexivity]. rewrite (get2_nth 0%R u nnode ndim) by (tauto || exact Hu). reflexivity.
Qed.

(** the dependent entries *)
Lemma asDofs_d_spec : exists dd, Eigen_asDofs_d t order' u = Ok dd /\ length dd = vt_nnd t /\
  (forall k, k < vt_nnd t -> ~ In (vt_nni t + k) (concat (m_dofs (vt_v t))) -> nth_error dd k = Some None) /\
  (forall y, dof_values (m_dofs (vt_v t)) nnode ndim ndof u y -> forall k, k < vt_nnd t -> In (vt_nni t + k) (concat (m_dofs (vt_v t))) ->
     nth_error dd k = Some (Some (val1 y (vt_nni t + k)))).
Proof.
  unfold Eigen_asDofs_d. rewrite ws_d. cbn [bind]. rewrite concat_if_filter.
  set (l := filter (fun a => vt_nni t <=? key_i a) order').
  assert (Hl : forall a, In a l <-> (fst a < nnode /\ snd a < ndim) /\ vt_nni t <= key_i a).
  { intro a. unfold l. rewrite filter_In, (vt_in order' a Ho'), Nat.leb_le. reflexivity. }
  destruct (write_all_Ok (map (fun a => (key_i a - vt_nni t, Some (uv a))) l) (empty (A := R) (vt_nnd t))) as [dd [E [L [Hout [_ Hany]]]]].
  { intros k x Hin. apply in_map_iff in Hin. destruct Hin as [a [Ea Ha]]. apply Hl in Ha. inversion Ea. unfold empty. rewrite repeat_length.
    pose proof (V_dof (vt_v t) nelem nne nnode ndim ndof Hne Hnd Hmd (fst a) (snd a)) as D. unfold key_i in *. destruct Ha as [[A1 A2] A3]. specialize (D A1 A2). lia. }
  exists dd. split; [exact E|]. unfold empty in L. rewrite repeat_length in L. split; [exact L|].
  rewrite map_map in Hout, Hany. cbn [fst] in Hout, Hany. split.
  - intros k Hk Hn. rewrite Hout.
    + now apply nth_error_repeat_lt.
    + intro Hin. apply in_map_iff in Hin. destruct Hin as [a [Ea Ha]]. apply Hl in Ha. apply Hn.
      apply (In_concat_nth2 _ nnode ndim); [apply Hmd|]. exists (fst a), (snd a). unfold key_i in *. intuition lia.
  - intros y [Ly Hy] k Hk Hin. apply (In_concat_nth2 _ nnode ndim) in Hin; [|apply Hmd]. destruct Hin as [m [i [Hm [Hi Ed]]]].
    destruct (Hany k) as [x [Hx1 Hx2]].
    { apply in_map_iff. exists (m, i). split; [unfold key_i; simpl; lia|]. apply Hl. unfold key_i. simpl. lia. }
    apply in_map_iff in Hx1. destruct Hx1 as [a [Ea Ha]]. apply Hl in Ha. injection Ea as E1 E2.
    rewrite Hx2, <- E2. f_equal. f_equal. destruct Ha as [[A1 A2] A3]. unfold uv. rewrite <- Hy by assumption. f_equal. unfold key_i in *. lia.
Qed.

Theorem asDofs_i_spec y : dof_values (m_dofs (vt_v t)) nnode ndim ndof u y ->
  (forall d, d < ndof -> In d (concat (m_dofs (vt_v t)))) ->
  (exists x, asDofs_i t order order' u false = Ok x /\ length x = vt_nni t /\ forall d, d < vt_nni t -> val1 x d = val1 y d) /\
  (exists x, asDofs_i t order order' u true = Ok x /\ length x = vt_nni t /\ forall d, d < vt_nni t ->
     val1 x d = (val1 y d + sumn (vt_nnd t) (fun k => ent (vt_Cdi t) k d * val1 y (vt_nni t + k)))%R).
Proof.
  intros Hy Hall. destruct asDofs_d_spec as [dd [Ed [Ld [_ Hdd]]]]. specialize (Hdd y Hy). destruct Hy as [Ly Hy].
  unfold asDofs_i. rewrite ws_i. cbn [bind]. rewrite concat_if_filter.
  set (l := filter (fun a => key_i a <? vt_nni t) order).
  assert (Hl : forall a, In a l <-> (fst a < nnode /\ snd a < ndim) /\ key_i a < vt_nni t).
  { intro a. unfold l. rewrite filter_In, (vt_in order a Ho), Nat.ltb_lt. reflexivity. }
  destruct (scatter_agree key_i uv l (vt_nni t)) as [x0 [E0 [L0 [H0 _]]]].
  { intros a Ha. now apply Hl in Ha. }
  { intros a b Ha Hb Eab. apply Hl in Ha, Hb. unfold uv. rewrite <- !Hy by tauto. now unfold key_i in Eab; rewrite Eab. }
  rewrite E0. cbn [bind negb].
  assert (V0 : forall d, d < vt_nni t -> val1 x0 d = val1 y d).
  { intros d Hd. assert (Hin : In d (concat (m_dofs (vt_v t)))) by (apply Hall; lia).
    apply (In_concat_nth2 _ nnode ndim) in Hin; [|apply Hmd]. destruct Hin as [m [i [Hm [Hi Em]]]].
    pose proof (H0 (m, i)) as Q. unfold key_i, uv in Q. cbn [fst snd] in Q. rewrite Em in Q. rewrite Q.
    - rewrite <- Hy by assumption. now rewrite Em.
    - apply Hl. unfold key_i. simpl. lia. }
  split; [exists x0; auto|]. rewrite Ed. cbn [bind].
  rewrite (mapM_get_init_Some dd (fun k => val1 y (vt_nni t + k)) (vt_nnd t)).
  2:{ intros k Hk. apply Hdd; [exact Hk|]. apply Hall. lia. }
  cbn [bind]. rewrite mulvec_Ok by (rewrite map_length, seq_length; simpl; congruence). cbn [bind].
  match goal with |- context [get ?w _] => set (z := w) end.
  assert (Lz : length z = vt_nni t) by (unfold z; rewrite map_length, seq_length; simpl; congruence).
  destruct (accumulate (fun i => i) (fun i => val1 z i) (fun r i => do x <- get z i; add_at r i x) (seq 0 (vt_nni t)) x0) as [x [Ex [Lx Vx]]].
  { intros a Ha. apply in_seq in Ha. lia. }
  { intros r a Ha. apply in_seq in Ha. rewrite (get_nth 0%R) by lia. reflexivity. }
  exists x. split; [exact Ex|]. split; [lia|]. intros d Hd. rewrite Vx by lia. rewrite V0 by exact Hd. f_equal.
  change (sumL (seq 0 (vt_nni t)) (fun a => ind (a =? d) * val1 z a)%R) with (sumn (vt_nni t) (fun a => ind (a =? d)%nat * val1 z a)%R).
  rewrite (sumn_delta (vt_nni t) d (fun i => val1 z i) Hd). unfold z, val1 at 1. rewrite nth_map_seq by (simpl; lia).
  simpl cols. rewrite Hr. apply sumn_ext. intros k Hk. simpl ent. f_equal. now rewrite nth_map_seq.
Qed.

(** a dependent DOF that no node has is read uninitialised *)
Theorem asDofs_i_uninit k : agree2 (m_dofs (vt_v t)) nnode ndim u -> k < vt_nnd t -> ~ In (vt_nni t + k) (concat (m_dofs (vt_v t))) ->
  asDofs_i t order order' u true = Uninit.
Proof.
  intros Ha Hk Hn. destruct asDofs_d_spec as [dd [Ed [Ld [Hnone _]]]].
  unfold asDofs_i. rewrite ws_i. cbn [bind]. rewrite concat_if_filter.
  set (l := filter (fun a => key_i a <? vt_nni t) order).
  destruct (scatter key_i uv l (vt_nni t)) as [x0 [E0 _]].
  { intros a Hin. unfold l in Hin. apply filter_In in Hin. apply Nat.ltb_lt. tauto. }
  rewrite E0. cbn [bind negb]. rewrite Ed. cbn [bind]. rewrite (mapM_get_init_None dd (vt_nnd t) k Ld Hk); [reflexivity|]. now apply Hnone.
Qed.
End VT.
Unset Default Proof Using.

(** AsDofs_i is the adjoint of extending independent values to all DOFs *)
Lemma adjoint (C : nat -> nat -> R) ni nd y x w : length x = ni -> length y = ni + nd ->
  (forall d, d < ni -> val1 x d = (val1 y d + sumn nd (fun k => C k d * val1 y (ni + k)))%R) ->
  sumn ni (fun d => val1 x d * w d)%R =
  (sumn ni (fun d => val1 y d * w d) + sumn nd (fun k => val1 y (ni + k)%nat * sumn ni (fun d => C k d * w d)))%R.
Proof.
  intros Lx Ly H. rewrite (sumn_ext _ _ (fun d => val1 y d * w d + sumn nd (fun k => val1 y (ni + k)%nat * (C k d * w d)))%R).
  - rewrite sumn_plus. f_equal. rewrite sumn_swap. apply sumn_ext. intros k Hk. apply sumn_scal.
  - intros d Hd. rewrite H by exact Hd. rewrite Rmult_plus_distr_r. f_equal. rewrite <- sumn_scal_r. apply sumn_ext. intros; lra.
Qed.

(** the tying matrix encodes the affine periodicity *)
Section Affine.
Variables (coor : list (list R)) (dofs control : list (list nat)) (ties : list (nat * nat)) (iip : list nat) (nnode ndim : nat).
Hypothesis H : periodic_input coor dofs control ties iip nnode ndim.
Variable t : Periodic.
Hypothesis Et : new_Periodic coor ndim dofs control ties iip = Ok t.

Theorem Cdi_affine : exists C, Cdi t = Ok C /\ rows C = tp_nnd t /\ cols C = tp_nni t /\
  forall u y, dof_values (tp_dofs t) nnode ndim (tp_nni t + tp_nnd t) u y -> exists z, mulvec C (firstn (tp_nni t) y) = Ok z /\
    (z = skipn (tp_nni t) y <->
     forall a b j, In (a, b) ties -> j < ndim -> val2 u b j =
       (val2 u a j + sumn ndim (fun k => val1 y (idx2 (tp_control t) j k) * (val2 coor b k - val2 coor a k)))%R).
Proof.
  destruct (Cdi_spec coor dofs control ties iip nnode ndim H t Et) as [C [EC [RC [CC VC]]]].
  destruct (per_facts coor dofs control ties iip nnode ndim H t Et) as [_ [_ [_ [N4 _]]]].
  destruct (cols_lt coor dofs control ties iip nnode ndim H t Et) as [C1 C2].
  destruct (per_renumber coor dofs control ties iip nnode ndim H t Et) as [_ [_ [B3 _]]].
  exists C. split; [exact EC|]. split; [exact RC|]. split; [exact CC|]. intros u y [Ly Hy].
  destruct (VC (firstn (tp_nni t) y)) as [z [Ez [Lz Vz]]]; [rewrite firstn_length; lia|].
  exists z. split; [exact Ez|].
  assert (Fn : forall d, d < tp_nni t -> val1 (firstn (tp_nni t) y) d = val1 y d).
  { intros d Hd. unfold val1. rewrite <- (firstn_skipn (tp_nni t) y) at 2. rewrite app_nth1; [reflexivity|rewrite firstn_length; lia]. }
  assert (Sn : forall d, val1 (skipn (tp_nni t) y) d = val1 y (tp_nni t + d)).
  { intro d. unfold val1. rewrite <- (firstn_skipn (tp_nni t) y) at 2. rewrite app_nth2; rewrite firstn_length; [|lia]. f_equal. lia. }
  assert (Key : forall s a b j, nth_error ties s = Some (a, b) -> j < ndim ->
     val1 (skipn (tp_nni t) y) (s * ndim + j) = val2 u b j /\
     val1 z (s * ndim + j) = (val2 u a j + sumn ndim (fun k => val1 y (idx2 (tp_control t) j k) * (val2 coor b k - val2 coor a k)))%R).
  { intros s a b j Hs Hj. pose proof (nth_error_In _ _ Hs) as Hin. destruct (pi_ties _ _ _ _ _ _ _ H a b Hin) as [Ha Hb]. split.
    - rewrite Sn, <- (B3 s a b j Hs Hj). now apply Hy.
    - rewrite (Vz s a b j Hs Hj). f_equal.
      + rewrite Fn; [now apply Hy|].
        specialize (C1 s j). unfold tni in C1. rewrite (nth_error_nth _ _ _ Hs) in C1. apply C1; [|exact Hj]. apply nth_error_Some. congruence.
      + apply sumn_ext. intros k Hk. rewrite Fn; [reflexivity|]. now apply C2. }
  split.
  - intros E a b j Hin Hj. apply In_nth_error in Hin. destruct Hin as [s Hs]. destruct (Key s a b j Hs Hj) as [K1 K2].
    rewrite <- K1, <- K2. now rewrite E.
  - intro Hall. apply (list_ext1 0%R _ _ (tp_nnd t)); [exact Lz|rewrite skipn_length; lia|].
    intros r Hr. rewrite N4 in Hr. assert (Hnd : 0 < ndim) by nia.
    pose proof (Nat.div_mod r ndim) as D. pose proof (Nat.mod_upper_bound r ndim) as M.
    assert (S1 : r / ndim < length ties) by (apply Nat.div_lt_upper_bound; lia).
    replace r with (r / ndim * ndim + r mod ndim) by lia.
    destruct (nth_error ties (r / ndim)) as [[a b]|] eqn:E; [|apply nth_error_None in E; lia].
    destruct (Key _ a b (r mod ndim) E) as [K1 K2]; [lia|]. unfold val1 in K1, K2. rewrite K1, K2. symmetry. apply Hall; [now apply nth_error_In in E|lia].
Qed.
End Affine.

(** fresh numbers *)
Lemma Control_fresh coor dofs nnode ndim : shape2 coor nnode ndim -> shape2 dofs nnode ndim ->
  let c := new_Control coor nnode ndim dofs in
  (forall j k m i, j < ndim -> k < ndim -> m < nnode -> i < ndim -> idx2 (tc_control_dofs c) j k <> idx2 dofs m i) /\
  (forall j k j' k', j < ndim -> k < ndim -> j' < ndim -> k' < ndim ->
     idx2 (tc_control_dofs c) j k = idx2 (tc_control_dofs c) j' k' -> j = j' /\ k = k').
Proof.
  intros Hc Hd c. destruct (Control_spec coor dofs nnode ndim Hc Hd) as [_ [_ [_ [_ [_ H]]]]]. fold c in H. split.
  - intros j k m i Hj Hk Hm Hi. destruct (H j k Hj Hk) as [_ [_ ->]].
    assert (Hin : In (idx2 dofs m i) (concat dofs)) by (apply (In_concat_nth2 _ nnode ndim); eauto).
    apply amax_ge in Hin. unfold amax in Hin. lia.
  - intros j k j' k' Hj Hk Hj' Hk'. destruct (H j k Hj Hk) as [_ [_ ->]]. destruct (H j' k' Hj' Hk') as [_ [_ ->]]. intro E.
    assert (E' : j * ndim + k = j' * ndim + k') by lia. assert (j = j') by nia. subst. lia.
Qed.

Lemma copy_p_spec t src dest : vt_nni t <= length src -> length src <= length dest ->
  exists r, vt_copy_p t src dest = Ok r /\ length r = length dest /\
    forall i, val1 r i = if (cols (vt_Cdu t) <=? i) && (i <? cols (vt_Cdu t) + cols (vt_Cdp t)) then val1 src i else val1 dest i.
Proof.
  intros H1 H2. unfold vt_copy_p. unfold vt_nni in *. replace (_ + _ - vt_nnu t) with (vt_nnp t) by lia.
  destruct (copy_range src (vt_nnp t) (vt_nnu t) dest) as [r [E [L V]]]; [lia|lia|]. exists r. auto.
Qed.

Lemma work_split C ndof y w wd : length w = cols C -> mulvec C w = Ok wd -> cols C + rows C = ndof ->
  (sumn (cols C) (fun d => val1 y d * val1 w d) + sumn (rows C) (fun k => val1 y (cols C + k)%nat * sumn (cols C) (fun d => ent C k d * val1 w d)))%R =
  sumn ndof (fun d => val1 y d * val1 (w ++ wd) d)%R.
Proof.
  intros L E <-. rewrite mulvec_Ok in E by exact L. injection E as E. rewrite sumn_app. f_equal.
  - apply sumn_ext. intros d Hd. unfold val1. now rewrite app_nth1 by lia.
  - apply sumn_ext. intros k Hk. f_equal. rewrite <- E. unfold val1 at 2. rewrite app_nth2 by lia.
    replace (cols C + k - length w) with k by lia. now rewrite nth_map_seq.
Qed.
