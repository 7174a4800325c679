From Coq Require Import Reals Lra.
From Verif Require Import Base Spec Sums Spec_Vector Spec_Matrix Model_Numbering Proof_Numbering Model_Vector Proof_Vector
  Model_VectorPartitioned Proof_VectorPartitioned Model_MatrixDiagonal Spec_MatrixDiagonal Proof_MatrixDiagonal.

Lemma NoDup_nth_error_inj' {A} (l : list A) i j x : NoDup l -> nth_error l i = Some x -> nth_error l j = Some x -> i = j.
Proof. intros Hn Hi Hj. rewrite NoDup_nth_error in Hn. apply Hn; [apply nth_error_Some; congruence|congruence]. Qed.

(** the loop over [ii] *)
Lemma loop_Ok {A} ii (f : nat -> nat -> res A) g : (forall d k, nth_error ii d = Some k -> f d k = Ok (g d k)) ->
  loop_writes ii f = Ok (map (fun d => (nth d ii 0, g d (nth d ii 0))) (seq 0 (length ii))).
Proof.
  intro H. apply mapM_Ok. intros d Hd. apply in_seq in Hd. rewrite (get_nth 0) by lia. cbn [bind].
  rewrite (H d (nth d ii 0)); [reflexivity|]. apply nth_error_nth'. lia.
Qed.

Lemma map_nth_seq {A} (l : list A) d : map (fun i => nth i l d) (seq 0 (length l)) = l.
Proof.
  apply (nth_ext _ _ d d); [now rewrite map_length, seq_length|]. rewrite map_length, seq_length. intros i Hi.
  now rewrite nth_map_seq.
Qed.

Lemma loop_write {A} ii (f : nat -> nat -> res A) g (arr : list A) : NoDup ii -> (forall k, In k ii -> k < length arr) ->
  (forall d k, nth_error ii d = Some k -> f d k = Ok (g d k)) ->
  exists ws arr', loop_writes ii f = Ok ws /\ write_all arr ws = Ok arr' /\ length arr' = length arr /\
    (forall d k, nth_error ii d = Some k -> nth_error arr' k = Some (g d k)) /\
    (forall k, ~ In k ii -> nth_error arr' k = nth_error arr k).
Proof.
  intros Hn Hlt Hf. rewrite (loop_Ok ii f g Hf). eexists.
  assert (Hfst : map fst (map (fun d => (nth d ii 0, g d (nth d ii 0))) (seq 0 (length ii))) = ii).
  { rewrite map_map. cbn [fst]. apply map_nth_seq. }
  destruct (write_all_Ok (map (fun d => (nth d ii 0, g d (nth d ii 0))) (seq 0 (length ii))) arr) as [arr' [E [L [Hout [Hin _]]]]].
  { intros k x Hx. apply Hlt. rewrite <- Hfst. apply in_map_iff. exists (k, x). auto. }
  rewrite Hfst in *. exists arr'. split; [reflexivity|]. split; [exact E|]. split; [exact L|]. split; [|exact Hout].
  intros d k Hk. apply (Hin Hn). apply in_map_iff. exists d.
  assert (d < length ii) by (apply nth_error_Some; congruence).
  rewrite (nth_error_nth' _ 0) in Hk by assumption. injection Hk as ->. split; [reflexivity|]. apply in_seq. lia.
Qed.

Lemma val1_nth_error l d x : nth_error l d = Some x -> val1 l d = x.
Proof. intro H. now apply nth_error_nth. Qed.

Section DP.
Set Default Proof Using "All".
Variable v : Vector.
Variables nelem nne nnode ndim ndof : nat.
Hypothesis Hne : m_nne v = nne.
Hypothesis Hnd : m_ndim v = ndim.
Hypothesis Hmd : mesh_dofs (m_conn v) (m_dofs v) nelem nne nnode ndim ndof.
Variable iip : list nat.
Hypothesis Hiip : prescribed ndof iip.
Hypothesis Hh : no_holes (m_dofs v) ndof.
Variable p : VectorPartitioned.
Hypothesis Ep : new_VectorPartitioned v iip = Ok p.
Notation dof := (idx2 (m_dofs v)).
Notation node := (idx2 (m_conn v)).
Notation part := (idx2 (m_part p)).
Let iiu := setdiff1d (concat (m_dofs v)) iip.
Let nnu := length iiu.
Let nnp := length iip.

Definition mdp_is (a : MatrixDiagonalPartitioned) (A : nat -> R) : Prop :=
  MDP_p a = p /\ holds nnu (Auu a) (fun k => A (nth k iiu 0)) /\ holds nnp (App a) (fun k => A (nth k iip 0)) /\
  (MDP_changed a = false -> holds nnu (inv_uu a) (fun k => 1 / A (nth k iiu 0%nat))%R).

Lemma F : vp_v p = v /\ m_iiu p = iiu /\ m_iip p = iip /\ m_nnu p = nnu /\ m_nnp p = nnp /\
  m_nelem v = nelem /\ m_nnode v = nnode /\ m_ndof v = ndof.
Proof.
  destruct (vp_facts v nelem nne nnode ndim ndof Hne Hnd Hmd iip Hiip p Ep) as [E1 [E2 [E3 _]]].
  pose proof (vp_nnu v nelem nne nnode ndim ndof Hne Hnd Hmd iip Hiip p Ep).
  pose proof (vp_nnp v nelem nne nnode ndim ndof Hne Hnd Hmd iip Hiip p Ep).
  pose proof (V_sizes v nelem nne nnode ndim ndof Hne Hnd Hmd). tauto.
Qed.
Let Part := vp_part v nelem nne nnode ndim ndof Hne Hnd Hmd iip Hiip p Ep.
Let GetPart := vp_get_part v nelem nne nnode ndim ndof Hne Hnd Hmd iip Hiip p Ep.
Let GetNode := V_get_node v nelem nne nnode ndim ndof Hne Hnd Hmd.
Let Node := V_node v nelem nne nnode ndim ndof Hne Hnd Hmd.
Let Dof := V_dof v nelem nne nnode ndim ndof Hne Hnd Hmd.

Lemma iiu_NoDup : NoDup iiu. Proof. apply setdiff1d_NoDup. Qed.
Lemma iip_NoDup : NoDup iip. Proof. apply Hiip. Qed.
Lemma iiu_ndof k : In k iiu -> k < ndof.
Proof. apply (iiu_lt v nelem nne nnode ndim ndof Hne Hnd Hmd iip). Qed.
Lemma iip_ndof k : In k iip -> k < ndof.
Proof. apply Hiip. Qed.
Lemma iiu_iff k : k < ndof -> In k iiu <-> ~ In k iip.
Proof. intro Hk. unfold iiu. rewrite setdiff1d_In. pose proof (Hh k Hk). tauto. Qed.
Lemma split_dof k : k < ndof -> (exists d, nth_error iiu d = Some k /\ d < nnu /\ ~ In k iip) \/ (exists d, nth_error iip d = Some k /\ d < nnp /\ ~ In k iiu).
Proof.
  intro Hk. destruct (in_dec Nat.eq_dec k iip) as [H|H].
  - right. destruct (In_nth_error _ _ H) as [d Hd]. exists d. split; [exact Hd|]. split; [apply nth_error_Some; congruence|].
    now rewrite iiu_iff; auto.
  - left. assert (Hu : In k iiu) by now apply iiu_iff. destruct (In_nth_error _ _ Hu) as [d Hd]. exists d. split; [exact Hd|].
    split; [apply nth_error_Some; congruence|exact H].
Qed.

Lemma part_u m i : m < nnode -> i < ndim -> part m i < nnu -> nth (part m i) iiu 0 = dof m i /\ ~ In (dof m i) iip.
Proof.
  intros Hm Hi H. destruct (Part m i Hm Hi) as [[_ [E N]]|[H' _]]; [|unfold nnu, iiu in *; lia].
  split; [now apply nth_error_nth|exact N].
Qed.
Lemma part_p m i : m < nnode -> i < ndim -> nnu <= part m i -> part m i - nnu < nnp /\ nth (part m i - nnu) iip 0 = dof m i /\ In (dof m i) iip.
Proof.
  intros Hm Hi H. destruct (Part m i Hm Hi) as [[H' _]|[_ [E N]]]; [unfold nnu, iiu in *; lia|].
  split; [|split; [now apply nth_error_nth|exact N]]. apply nth_error_Some. unfold nnu, iiu. rewrite E. discriminate.
Qed.

Lemma row_lt' m i : m < nne -> i < ndim -> m * ndim + i < nne * ndim.
Proof. intros. nia. Qed.

(** the two accumulations *)
Definition pstep (K : list (list (list R))) (up : list R * list R) (emi : nat * nat * nat) : res (list R * list R) :=
  do n <- get2 (m_conn v) (fst (fst emi)) (snd (fst emi));
  do d <- get2 (m_part p) n (snd emi);
  do x <- get3 K (fst (fst emi)) (snd (fst emi) * m_ndim v + snd emi) (snd (fst emi) * m_ndim v + snd emi);
  if d <? nnu then do u <- add_at (fst up) d x; Ok (u, snd up)
  else do q <- add_at (snd up) (d - nnu) x; Ok (fst up, q).

Lemma two_acc K : shape3 K nelem (nne * ndim) (nne * ndim) -> forall l u q, (forall a, In a l -> In a (elem_iters v)) -> length u = nnu -> length q = nnp ->
  let g := fun d => sumL l (fun a => ind (dof (node (fst (fst a)) (snd (fst a))) (snd a) =? d)%nat *
                         val3 K (fst (fst a)) (snd (fst a) * ndim + snd a) (snd (fst a) * ndim + snd a))%R in
  exists u' q', foldM (pstep K) l (u, q) = Ok (u', q') /\ length u' = nnu /\ length q' = nnp /\
    (forall k, k < nnu -> val1 u' k = (val1 u k + g (nth k iiu 0%nat))%R) /\ (forall k, k < nnp -> val1 q' k = (val1 q k + g (nth k iip 0%nat))%R).
Proof.
  intro Hs. induction l as [|a l IH]; intros u q Hl Lu Lq; cbn [foldM].
  - exists u, q. split; [reflexivity|]. split; [exact Lu|]. split; [exact Lq|]. cbn. split; intros; lra.
  - assert (Ha := Hl a (or_introl eq_refl)). apply (in_elem_iters v nelem nne nnode ndim ndof Hne Hnd Hmd) in Ha. destruct Ha as [He [Hm Hi]].
    destruct a as [[e m] i]. cbn [fst snd] in *. unfold pstep at 1. cbn [fst snd]. rewrite GetNode by assumption. cbn [bind].
    rewrite GetPart by (auto; now apply Node). cbn [bind]. rewrite Hnd.
    rewrite (get3_nth 0%R K nelem (nne * ndim) (nne * ndim)) by (auto; now apply row_lt'). cbn [bind].
    change (nth3 0%R K e (m * ndim + i) (m * ndim + i)) with (val3 K e (m * ndim + i) (m * ndim + i)).
    pose proof (Node e m He Hm) as Hn. pose proof (fun H => part_u (node e m) i Hn Hi H) as PU. pose proof (fun H => part_p (node e m) i Hn Hi H) as PP.
    pose proof (Dof (node e m) i Hn Hi) as HD.
    destruct (Nat.ltb_spec (part (node e m) i) nnu) as [Hlt|Hge].
    + destruct (PU Hlt) as [E N]. destruct (add_at_Ok u (part (node e m) i) (val3 K e (m * ndim + i) (m * ndim + i))) as [u1 [E1 [L1 V1]]]; [lia|].
      rewrite E1. cbn [bind]. destruct (IH u1 q) as [u' [q' [E2 [Lu' [Lq' [Vu Vq]]]]]]; [intros; apply Hl; now right|lia|lia|].
      exists u', q'. split; [exact E2|]. split; [exact Lu'|]. split; [exact Lq'|]. split; intros k Hk.
      * rewrite Vu by exact Hk. rewrite V1 by lia. cbn [sumL fold_right fst snd]. fold (sumL l).
        replace (dof (node e m) i =? nth k iiu 0) with (part (node e m) i =? k).
        { unfold sumL. lra. }
        rewrite <- E. destruct (Nat.eqb_spec (part (node e m) i) k) as [->|Hk']; [now rewrite Nat.eqb_refl|].
        symmetry. apply Nat.eqb_neq. intro Eq. apply Hk'. apply (NoDup_nth iiu 0); auto. apply iiu_NoDup.
      * rewrite Vq by exact Hk. cbn [sumL fold_right fst snd]. fold (sumL l).
        destruct (Nat.eqb_spec (dof (node e m) i) (nth k iip 0)) as [Eq|_]; [|unfold ind, sumL; lra].
        exfalso. apply N. rewrite Eq. now apply nth_In.
    + destruct (PP Hge) as [Hp [E N]]. destruct (add_at_Ok q (part (node e m) i - nnu) (val3 K e (m * ndim + i) (m * ndim + i))) as [q1 [E1 [L1 V1]]]; [lia|].
      rewrite E1. cbn [bind]. destruct (IH u q1) as [u' [q' [E2 [Lu' [Lq' [Vu Vq]]]]]]; [intros; apply Hl; now right|lia|lia|].
      exists u', q'. split; [exact E2|]. split; [exact Lu'|]. split; [exact Lq'|]. split; intros k Hk.
      * rewrite Vu by exact Hk. cbn [sumL fold_right fst snd]. fold (sumL l).
        destruct (Nat.eqb_spec (dof (node e m) i) (nth k iiu 0)) as [Eq|_]; [|unfold ind, sumL; lra].
        exfalso. assert (Hin : In (nth k iiu 0) iiu) by now apply nth_In. rewrite <- Eq in Hin. apply iiu_iff in Hin; auto.
      * rewrite Vq by exact Hk. rewrite V1 by lia. cbn [sumL fold_right fst snd]. fold (sumL l).
        replace (dof (node e m) i =? nth k iip 0) with (part (node e m) i - nnu =? k).
        { unfold sumL. lra. }
        rewrite <- E. destruct (Nat.eqb_spec (part (node e m) i - nnu) k) as [->|Hk']; [now rewrite Nat.eqb_refl|].
        symmetry. apply Nat.eqb_neq. intro Eq. apply Hk'. apply (NoDup_nth iip 0); auto. apply iip_NoDup.
Qed.

Lemma MDP_assemble_spec a K : MDP_p a = p -> length (Auu a) = nnu -> length (App a) = nnp -> shape3 K nelem (nne * ndim) (nne * ndim) ->
  exists a', MDP_assemble a K = Ok a' /\ mdp_is a' (assembled_diag (m_conn v) (m_dofs v) nelem nne ndim K).
Proof.
  intros Epa Lu Lq Hs. destruct F as [F1 [F2 [F3 [F4 [F5 [F6 [F7 F8]]]]]]].
  destruct (two_acc K Hs (elem_iters v) (repeat 0%R nnu) (repeat 0%R nnp)) as [u [q [E [L1 [L2 [V1 V2]]]]]]; auto using repeat_length.
  unfold MDP_assemble. rewrite Epa, Lu, Lq, F1, F4. unfold pstep in E. rewrite E. cbn [bind fst snd].
  eexists. split; [reflexivity|]. split; [reflexivity|]. split; [|split; [|discriminate]]; cbn [Auu App]; apply holds_map; auto; intros d Hd;
    rewrite ?V1, ?V2 by exact Hd; rewrite val1_repeat, Rplus_0_l; unfold assembled_diag, sum_elem, elem_iters;
    rewrite F6, Hne, Hnd, !sumL_list_prod; reflexivity.
Qed.

Lemma MDP_set_spec a A : MDP_p a = p -> length A = ndof -> exists a', MDP_set a A = Ok a' /\ mdp_is a' (val1 A).
Proof.
  intros Epa LA. destruct F as [F1 [F2 [F3 [F4 [F5 _]]]]]. unfold MDP_set. rewrite Epa, F2, F3, F4, F5.
  rewrite (fill1_Ok nnu _ (fun d => Some (val1 A (nth d iiu 0)))).
  2:{ intros d Hd. rewrite (get_nth 0) by exact Hd. cbn [bind]. rewrite (get_nth 0%R); [reflexivity|].
      rewrite LA. apply iiu_ndof. now apply nth_In. }
  cbn [bind]. rewrite (fill1_Ok nnp _ (fun d => Some (val1 A (nth d iip 0)))).
  2:{ intros d Hd. rewrite (get_nth 0) by exact Hd. cbn [bind]. rewrite (get_nth 0%R); [reflexivity|].
      rewrite LA. apply iip_ndof. now apply nth_In. }
  cbn [bind]. eexists. split; [reflexivity|]. split; [reflexivity|]. cbn [Auu App MDP_changed inv_uu].
  split; [apply (holds_tab nnu (fun d => val1 A (nth d iiu 0)))|]. split; [apply (holds_tab nnp (fun d => val1 A (nth d iip 0)))|discriminate].
Qed.

Lemma MDP_factorize_spec a A : mdp_is a A -> exists a', MDP_factorize a = Ok a' /\ mdp_is a' A /\ MDP_changed a' = false.
Proof.
  intros [Epa [HU [HP Hinv]]]. unfold MDP_factorize. destruct (MDP_changed a) eqn:Ec; cbn [negb].
  - destruct F as [F1 [F2 [F3 [F4 [F5 _]]]]]. rewrite Epa, F4. rewrite (fill1_Ok nnu _ (fun d => Some (1 / A (nth d iiu 0%nat))%R)).
    + cbn [bind]. eexists. split; [reflexivity|]. split; [|reflexivity]. split; [reflexivity|]. split; [exact HU|]. split; [exact HP|].
      intros _. apply (holds_tab nnu (fun d => 1 / A (nth d iiu 0%nat))%R).
    + intros d Hd. now rewrite (proj2 HU d Hd).
  - exists a. split; [reflexivity|]. split; [|exact Ec]. repeat (split; auto).
Qed.

Lemma MDP_solve_dofval_spec a A b x : mdp_is a A -> length b = ndof -> length x = ndof ->
  exists y a', MDP_solve_dofval a b x = Ok (y, a') /\ mdp_is a' A /\ length y = ndof /\
    forall d, d < ndof -> (In d iip -> nth_error y d = nth_error x d) /\ (~ In d iip -> nth_error y d = Some (Some (1 / A d * val1 b d)%R)).
Proof.
  intros H Lb Lx. destruct (MDP_factorize_spec a A H) as [a' [E [H' Hc]]]. unfold MDP_solve_dofval. rewrite E. cbn [bind].
  pose proof H' as [Epa [HU [HP Hinv]]]. specialize (Hinv Hc). destruct F as [F1 [F2 _]]. rewrite Epa, F2.
  destruct (loop_write iiu (fun d i => do k <- get_init (inv_uu a') d; do z <- get b i; Ok (Some (k * z)%R)) (fun _ k => Some (1 / A k * val1 b k)%R) x) as [ws [y [E1 [E2 [Ly [Vin Vout]]]]]].
  { apply iiu_NoDup. } { intros k Hk. rewrite Lx. now apply iiu_ndof. }
  { intros d k Hk. assert (Hd : d < nnu) by (apply nth_error_Some; congruence). rewrite (proj2 Hinv d Hd). cbn [bind].
    rewrite (nth_error_nth _ _ 0 Hk). rewrite (get_nth 0%R); [reflexivity|]. rewrite Lb. apply iiu_ndof. now apply nth_error_In in Hk. }
  rewrite E1. cbn [bind]. rewrite E2. cbn [bind]. exists y, a'. split; [reflexivity|]. split; [exact H'|]. split; [lia|].
  intros d Hd. split; intro Hin.
  - apply Vout. now rewrite iiu_iff; auto.
  - destruct (split_dof d Hd) as [[k [Hk _]]|[k [Hk _]]]; [now apply (Vin k)|]. apply nth_error_In in Hk. tauto.
Qed.

Lemma MDP_solve_nodevec_spec a A b x : mdp_is a A -> shape2 b nnode ndim -> shape2 x nnode ndim ->
  exists y a', MDP_solve_nodevec a b x = Ok (y, a') /\ mdp_is a' A /\ shape2 y nnode ndim /\
    forall m i, m < nnode -> i < ndim -> (In (dof m i) iip -> nth2 None y m i = nth2 None x m i) /\
       (~ In (dof m i) iip -> nth2 None y m i = Some (1 / A (dof m i) * val2 b m i)%R).
Proof.
  intros H Sb Sx. destruct (MDP_factorize_spec a A H) as [a' [E [H' Hc]]]. unfold MDP_solve_nodevec. rewrite E. cbn [bind].
  pose proof H' as [Epa [HU [HP Hinv]]]. specialize (Hinv Hc). destruct F as [F1 [F2 [F3 [F4 [F5 [F6 [F7 F8]]]]]]]. rewrite Epa, F1, F4, F7, Hnd.
  rewrite (fill2_Ok nnode ndim _ (fun m i => if part m i <? nnu then Some (1 / A (dof m i) * val2 b m i)%R else nth2 None x m i)).
  - cbn [bind]. do 2 eexists. split; [reflexivity|]. split; [exact H'|]. split; [apply tab2_shape|]. intros m i Hm Hi.
    rewrite (tab2_nth None) by assumption. pose proof (part_u m i Hm Hi) as PU. pose proof (part_p m i Hm Hi) as PP.
    destruct (Nat.ltb_spec (part m i) nnu) as [Hlt|Hge]; [destruct (PU Hlt)|destruct (PP Hge) as [_ [_ ?]]]; split; intro; try tauto; reflexivity.
  - intros m i Hm Hi. rewrite GetPart by assumption. cbn [bind]. pose proof (part_u m i Hm Hi) as PU.
    destruct (Nat.ltb_spec (part m i) nnu) as [Hlt|Hge].
    + rewrite (proj2 Hinv _ Hlt). cbn [bind]. rewrite (get2_nth 0%R b nnode ndim) by assumption. cbn [bind].
      destruct (PU Hlt) as [-> _]. reflexivity.
    + now apply (get2_nth None x nnode ndim).
Qed.

Lemma run_dpop_spec x0 x1 a A o : length x0 = ndof -> shape2 x1 nnode ndim -> mdp_is a A -> valid_dop nelem nne nnode ndim ndof o ->
  exists a', run_dpop x0 x1 a o = Ok a' /\ mdp_is a' (diag_after (m_conn v) (m_dofs v) nelem nne ndim A o).
Proof.
  intros L0 L1 H Ho. pose proof H as [Epa [[LU _] [[LP _] _]]]. destruct o as [K|B|b|b]; cbn [run_dpop diag_after].
  - now apply MDP_assemble_spec.
  - now apply MDP_set_spec.
  - destruct (MDP_solve_dofval_spec a A b x0 H Ho L0) as [x [a' [E [H' _]]]]. rewrite E. cbn [bind snd]. eauto.
  - destruct (MDP_solve_nodevec_spec a A b x1 H Ho L1) as [x [a' [E [H' _]]]]. rewrite E. cbn [bind snd]. eauto.
Qed.

Lemma run_dpops_spec x0 x1 ops : length x0 = ndof -> shape2 x1 nnode ndim -> forall a A, mdp_is a A -> Forall (valid_dop nelem nne nnode ndim ndof) ops ->
  exists a', foldM (run_dpop x0 x1) ops a = Ok a' /\ mdp_is a' (fold_left (diag_after (m_conn v) (m_dofs v) nelem nne ndim) ops A).
Proof.
  intros L0 L1. induction ops as [|o ops IH]; intros a A H Ho; cbn [foldM fold_left]; [eauto|].
  destruct (run_dpop_spec x0 x1 a A o L0 L1 H (Forall_inv Ho)) as [a' [E H']]. rewrite E. cbn [bind].
  apply IH; [exact H'|]. exact (Forall_inv_tail Ho).
Qed.

Lemma run_pfirst x0 x1 o ops : length x0 = ndof -> shape2 x1 nnode ndim -> changes o = true -> Forall (valid_dop nelem nne nnode ndim ndof) (o :: ops) ->
  exists a0 a', new_MatrixDiagonalPartitioned v iip = Ok a0 /\ foldM (run_dpop x0 x1) (o :: ops) a0 = Ok a' /\
    mdp_is a' (fold_left (diag_after (m_conn v) (m_dofs v) nelem nne ndim) (o :: ops) (fun _ => 0%R)).
Proof.
  intros L0 L1 Hc Ho. unfold new_MatrixDiagonalPartitioned. rewrite Ep. cbn [bind]. destruct F as [F1 [F2 [F3 [F4 [F5 _]]]]]. rewrite F4, F5.
  set (a0 := mkMDP p (empty nnu) (empty nnp) (empty nnu) true). exists a0.
  assert (LU : length (Auu a0) = nnu) by (apply repeat_length). assert (LP : length (App a0) = nnp) by (apply repeat_length).
  cbn [foldM fold_left]. pose proof (Forall_inv Ho) as H1. pose proof (Forall_inv_tail Ho) as H2.
  destruct o as [K|B|b|b]; try discriminate; cbn [run_dpop diag_after].
  - destruct (MDP_assemble_spec a0 K eq_refl LU LP H1) as [a' [E H']]. rewrite E. cbn [bind].
    destruct (run_dpops_spec x0 x1 ops L0 L1 a' _ H' H2) as [a2 [E2 H3]]. exists a2. auto.
  - destruct (MDP_set_spec a0 B eq_refl H1) as [a' [E H']]. rewrite E. cbn [bind].
    destruct (run_dpops_spec x0 x1 ops L0 L1 a' _ H' H2) as [a2 [E2 H3]]. exists a2. auto.
Qed.

(** ** results *)
Lemma MDP_dot_dofval_spec a A x b : mdp_is a A -> length x = ndof -> length b = ndof ->
  exists y, MDP_dot_dofval a x b = Ok y /\ length y = ndof /\ forall d, d < ndof -> val1 y d = (A d * val1 x d)%R.
Proof.
  intros [Epa [HU [HP _]]] Lx Lb. destruct F as [F1 [F2 [F3 _]]]. unfold MDP_dot_dofval. rewrite Epa, F2, F3.
  destruct (loop_write iiu (fun d i => do k <- get_init (Auu a) d; do z <- get x i; Ok (k * z)%R) (fun _ k => A k * val1 x k)%R b) as [ws [y [E1 [E2 [Ly [Vin Vout]]]]]].
  { apply iiu_NoDup. } { intros k Hk. rewrite Lb. now apply iiu_ndof. }
  { intros d k Hk. assert (Hd : d < nnu) by (apply nth_error_Some; congruence). rewrite (proj2 HU d Hd). cbn [bind].
    rewrite (nth_error_nth _ _ 0 Hk). rewrite (get_nth 0%R); [reflexivity|]. rewrite Lx. apply iiu_ndof. now apply nth_error_In in Hk. }
  rewrite E1. cbn [bind]. rewrite E2. cbn [bind].
  destruct (loop_write iip (fun d i => do k <- get_init (App a) d; do z <- get x i; Ok (k * z)%R) (fun _ k => A k * val1 x k)%R y) as [ws' [y' [E1' [E2' [Ly' [Vin' Vout']]]]]].
  { apply iip_NoDup. } { intros k Hk. rewrite Ly, Lb. now apply iip_ndof. }
  { intros d k Hk. assert (Hd : d < nnp) by (apply nth_error_Some; congruence). rewrite (proj2 HP d Hd). cbn [bind].
    rewrite (nth_error_nth _ _ 0 Hk). rewrite (get_nth 0%R); [reflexivity|]. rewrite Lx. apply iip_ndof. now apply nth_error_In in Hk. }
  rewrite E1'. cbn [bind]. rewrite E2'. exists y'. split; [reflexivity|]. split; [lia|]. intros d Hd.
  apply val1_nth_error. destruct (split_dof d Hd) as [[k [Hk [_ N]]]|[k [Hk [_ N]]]].
  - rewrite Vout' by exact N. now apply (Vin k).
  - now apply (Vin' k).
Qed.

Lemma MDP_dot_nodevec_spec a A x : mdp_is a A -> shape2 x nnode ndim ->
  exists b, MDP_dot_nodevec a x = Ok b /\ shape2 b nnode ndim /\ forall m i, m < nnode -> i < ndim -> val2 b m i = (A (dof m i) * val2 x m i)%R.
Proof.
  intros [Epa [HU [HP _]]] Sx. destruct F as [F1 [F2 [F3 [F4 [F5 [F6 [F7 F8]]]]]]]. unfold MDP_dot_nodevec. rewrite Epa, F1, F4, F7, Hnd.
  rewrite (fill2_Ok nnode ndim _ (fun m i => A (dof m i) * val2 x m i)%R).
  - eexists. split; [reflexivity|]. split; [apply tab2_shape|]. intros m i Hm Hi. now apply (tab2_nth 0%R).
  - intros m i Hm Hi. rewrite GetPart by assumption. cbn [bind]. pose proof (part_u m i Hm Hi) as PU. pose proof (part_p m i Hm Hi) as PP.
    destruct (Nat.ltb_spec (part m i) nnu) as [Hlt|Hge].
    + rewrite (proj2 HU _ Hlt). cbn [bind]. rewrite (get2_nth 0%R x nnode ndim) by assumption. cbn [bind]. destruct (PU Hlt) as [-> _]. reflexivity.
    + destruct (PP Hge) as [Hp [E _]]. rewrite (proj2 HP _ Hp). cbn [bind]. rewrite (get2_nth 0%R x nnode ndim) by assumption. cbn [bind]. now rewrite E.
Qed.

Lemma MDP_data_spec a A : mdp_is a A -> exists l, MDP_data a = Ok l /\ length l = ndof /\ forall d, d < ndof -> val1 l d = A d.
Proof.
  intros [Epa [HU [HP _]]]. destruct F as [F1 [F2 [F3 [F4 [F5 [F6 [F7 F8]]]]]]]. unfold MDP_data. rewrite Epa, F1, F2, F3, F8.
  destruct (loop_write iiu (fun d _ => get_init (Auu a) d) (fun _ k => A k) (repeat 0%R ndof)) as [ws [y [E1 [E2 [Ly [Vin Vout]]]]]].
  { apply iiu_NoDup. } { intros k Hk. rewrite repeat_length. now apply iiu_ndof. }
  { intros d k Hk. assert (Hd : d < nnu) by (apply nth_error_Some; congruence). rewrite (proj2 HU d Hd). now rewrite (nth_error_nth _ _ 0 Hk). }
  rewrite E1. cbn [bind]. rewrite E2. cbn [bind]. rewrite repeat_length in Ly.
  destruct (loop_write iip (fun d _ => get_init (App a) d) (fun _ k => A k) y) as [ws' [y' [E1' [E2' [Ly' [Vin' Vout']]]]]].
  { apply iip_NoDup. } { intros k Hk. rewrite Ly. now apply iip_ndof. }
  { intros d k Hk. assert (Hd : d < nnp) by (apply nth_error_Some; congruence). rewrite (proj2 HP d Hd). now rewrite (nth_error_nth _ _ 0 Hk). }
  rewrite E1'. cbn [bind]. rewrite E2'. exists y'. split; [reflexivity|]. split; [lia|]. intros d Hd.
  apply val1_nth_error. destruct (split_dof d Hd) as [[k [Hk [_ N]]]|[k [Hk [_ N]]]].
  - rewrite Vout' by exact N. now apply (Vin k).
  - now apply (Vin' k).
Qed.

Lemma dense_step ii (A : nat -> R) M : (forall k, In k ii -> k < ndof) ->
  shape2 M ndof ndof -> exists M', write2_all M (map (fun w => (fst w, fst w, snd w)) (map (fun d => (nth d ii 0, A (nth d ii 0))) (seq 0 (length ii)))) = Ok M' /\
   shape2 M' ndof ndof /\ forall r c, r < ndof -> c < ndof -> val2 M' r c = if (r =? c) && mem r ii then A r else val2 M r c.
Proof.
  intros Hlt Hs. rewrite map_map. cbn [fst snd].
  destruct (write2_all_Ok 0%R ndof ndof (map (fun d => (nth d ii 0, nth d ii 0, A (nth d ii 0))) (seq 0 (length ii))) M Hs) as [M' [E [Hs' [Hout Hin]]]].
  { intros k j x Hx. apply in_map_iff in Hx. destruct Hx as [d [Ed Hd]]. apply in_seq in Hd. injection Ed as E1 E2 _.
    assert (In (nth d ii 0) ii) by (apply nth_In; lia). rewrite <- E1, <- E2. split; now apply Hlt. }
  exists M'. split; [exact E|]. split; [exact Hs'|]. intros r c Hr Hc. rewrite map_map in Hout, Hin. cbn [fst] in Hout, Hin.
  destruct ((r =? c) && mem r ii) eqn:Eb.
  - apply andb_prop in Eb. destruct Eb as [E1 E2]. apply Nat.eqb_eq in E1. rewrite <- E1 in *. apply mem_In in E2.
    apply (In_nth _ _ 0) in E2. destruct E2 as [d [Hd Ed]].
    destruct (Hin r r) as [x [Hx1 Hx2]]; [apply in_map_iff; exists d; split; [now rewrite Ed|apply in_seq; lia]|].
    unfold val2. rewrite Hx2. apply in_map_iff in Hx1. destruct Hx1 as [d' [Ed' _]]. injection Ed' as E1' _ E3. now rewrite <- E3, E1'.
  - unfold val2. apply Hout; auto. intro Hi. apply in_map_iff in Hi. destruct Hi as [d [Ed Hd]]. apply in_seq in Hd. injection Ed as E1 E2.
    assert (In (nth d ii 0) ii) by (apply nth_In; lia). rewrite E1 in *. rewrite (proj2 (mem_In r ii)) in Eb by assumption.
    rewrite (proj2 (Nat.eqb_eq r c)) in Eb by congruence. discriminate.
Qed.

Lemma MDP_todense_spec a A : mdp_is a A -> exists M, MDP_todense a = Ok M /\ is_dense ndof M (fun r c => if r =? c then A r else 0%R).
Proof.
  intros [Epa [HU [HP _]]]. destruct F as [F1 [F2 [F3 [F4 [F5 [F6 [F7 F8]]]]]]]. unfold MDP_todense. rewrite Epa, F1, F2, F3, F8.
  assert (Z : shape2 (repeat (repeat 0%R ndof) ndof) ndof ndof).
  { split; [apply repeat_length|]. intros r Hr. apply repeat_spec in Hr. rewrite Hr. apply repeat_length. }
  assert (Z0 : forall r c, r < ndof -> val2 (repeat (repeat 0%R ndof) ndof) r c = 0%R).
  { intros r c Hr. unfold val2, nth2. rewrite (nth_indep _ [] (repeat 0%R ndof)) by (rewrite repeat_length; lia). rewrite nth_repeat. apply nth_repeat. }
  rewrite (loop_Ok iiu _ (fun _ k => A k)).
  2:{ intros d k Hk. assert (Hd : d < nnu) by (apply nth_error_Some; congruence). rewrite (proj2 HU d Hd). now rewrite (nth_error_nth _ _ 0 Hk). }
  cbn [bind]. destruct (dense_step iiu A (repeat (repeat 0%R ndof) ndof) iiu_ndof Z) as [M1 [E1 [S1 V1]]].
  rewrite E1. cbn [bind]. rewrite (loop_Ok iip _ (fun _ k => A k)).
  2:{ intros d k Hk. assert (Hd : d < nnp) by (apply nth_error_Some; congruence). rewrite (proj2 HP d Hd). now rewrite (nth_error_nth _ _ 0 Hk). }
  cbn [bind]. destruct (dense_step iip A M1 iip_ndof S1) as [M2 [E2 [S2 V2]]].
  exists M2. split; [exact E2|]. split; [exact S2|]. intros r c Hr Hc. rewrite V2, V1, Z0 by assumption.
  destruct (Nat.eqb_spec r c) as [<-|]; cbn [andb]; [|reflexivity]. destruct (mem r iip) eqn:Em; [reflexivity|].
  apply mem_false in Em. apply iiu_iff in Em; [|exact Hr]. apply mem_In in Em. now rewrite Em.
Qed.

Lemma MDP_reaction_dofval_spec a A x b : mdp_is a A -> length x = ndof -> length b = ndof ->
  exists y, MDP_reaction_dofval a x b = Ok y /\ length y = ndof /\
    forall d, d < ndof -> (In d iip -> val1 y d = (A d * val1 x d)%R) /\ (~ In d iip -> val1 y d = val1 b d).
Proof.
  intros [Epa [HU [HP _]]] Lx Lb. destruct F as [F1 [F2 [F3 _]]]. unfold MDP_reaction_dofval. rewrite Epa, F3.
  destruct (loop_write iip (fun d i => do k <- get_init (App a) d; do z <- get x i; Ok (k * z)%R) (fun _ k => A k * val1 x k)%R b) as [ws' [y' [E1' [E2' [Ly' [Vin' Vout']]]]]].
  { apply iip_NoDup. } { intros k Hk. rewrite Lb. now apply iip_ndof. }
  { intros d k Hk. assert (Hd : d < nnp) by (apply nth_error_Some; congruence). rewrite (proj2 HP d Hd). cbn [bind].
    rewrite (nth_error_nth _ _ 0 Hk). rewrite (get_nth 0%R); [reflexivity|]. rewrite Lx. apply iip_ndof. now apply nth_error_In in Hk. }
  rewrite E1'. cbn [bind]. rewrite E2'. exists y'. split; [reflexivity|]. split; [lia|]. intros d Hd. split; intro Hin.
  - apply val1_nth_error. destruct (In_nth_error _ _ Hin) as [k Hk]. now apply (Vin' k).
  - apply val1_nth_error. rewrite Vout' by exact Hin. apply nth_error_nth'. lia.
Qed.

Lemma MDP_reaction_nodevec_spec a A x b : mdp_is a A -> shape2 x nnode ndim -> shape2 b nnode ndim ->
  exists y, MDP_reaction_nodevec a x b = Ok y /\ shape2 y nnode ndim /\
    forall m i, m < nnode -> i < ndim -> (In (dof m i) iip -> val2 y m i = (A (dof m i) * val2 x m i)%R) /\ (~ In (dof m i) iip -> val2 y m i = val2 b m i).
Proof.
  intros [Epa [HU [HP _]]] Sx Sb. destruct F as [F1 [F2 [F3 [F4 [F5 [F6 [F7 F8]]]]]]]. unfold MDP_reaction_nodevec. rewrite Epa, F1, F4, F7, Hnd.
  rewrite (fill2_Ok nnode ndim _ (fun m i => if nnu <=? part m i then A (dof m i) * val2 x m i else val2 b m i)%R).
  - eexists. split; [reflexivity|]. split; [apply tab2_shape|]. intros m i Hm Hi.
    assert (Ev : forall g, val2 (tab2 nnode ndim g) m i = g m i) by (intro g; now apply (tab2_nth 0%R)). rewrite !Ev. cbv beta.
    pose proof (part_u m i Hm Hi) as PU. pose proof (part_p m i Hm Hi) as PP.
    destruct (Nat.leb_spec nnu (part m i)) as [Hge|Hlt]; [destruct (PP Hge) as [_ [_ ?]]|destruct (PU Hlt)]; split; intro; try tauto; reflexivity.
  - intros m i Hm Hi. rewrite GetPart by assumption. cbn [bind]. pose proof (part_p m i Hm Hi) as PP.
    destruct (Nat.leb_spec nnu (part m i)) as [Hge|Hlt].
    + destruct (PP Hge) as [Hp [E _]]. rewrite (proj2 HP _ Hp). cbn [bind]. rewrite (get2_nth 0%R x nnode ndim) by assumption. cbn [bind]. now rewrite E.
    + now apply (get2_nth 0%R b nnode ndim).
Qed.

Lemma MDP_dot_u_spec a A xu xp : mdp_is a A -> length xu = nnu ->
  exists y, MDP_dot_u a xu xp = Ok y /\ length y = nnu /\ forall k, k < nnu -> val1 y k = (A (nth k iiu 0%nat) * val1 xu k)%R.
Proof.
  intros [Epa [HU [HP _]]] L. destruct F as [F1 [F2 [F3 [F4 _]]]]. unfold MDP_dot_u. rewrite Epa, F4.
  rewrite (fill1_Ok nnu _ (fun k => A (nth k iiu 0%nat) * val1 xu k)%R).
  - eexists. split; [reflexivity|]. split; [apply tab1_length|]. intros k Hk. now apply (tab1_nth 0%R).
  - intros k Hk. rewrite (proj2 HU _ Hk). cbn [bind]. rewrite (get_nth 0%R) by lia. reflexivity.
Qed.
Lemma MDP_dot_p_spec a A xu xp : mdp_is a A -> length xp = nnp ->
  exists y, MDP_dot_p a xu xp = Ok y /\ length y = nnp /\ forall k, k < nnp -> val1 y k = (A (nth k iip 0%nat) * val1 xp k)%R.
Proof.
  intros [Epa [HU [HP _]]] L. destruct F as [F1 [F2 [F3 [F4 [F5 _]]]]]. unfold MDP_dot_p. rewrite Epa, F5.
  rewrite (fill1_Ok nnp _ (fun k => A (nth k iip 0%nat) * val1 xp k)%R).
  - eexists. split; [reflexivity|]. split; [apply tab1_length|]. intros k Hk. now apply (tab1_nth 0%R).
  - intros k Hk. rewrite (proj2 HP _ Hk). cbn [bind]. rewrite (get_nth 0%R) by lia. reflexivity.
Qed.

Lemma MDP_solve_u_spec a A bu xp : mdp_is a A -> length bu = nnu ->
  exists y a', MDP_solve_u a bu xp = Ok (y, a') /\ mdp_is a' A /\ length y = nnu /\ forall k, k < nnu -> val1 y k = (1 / A (nth k iiu 0%nat) * val1 bu k)%R.
Proof.
  intros H L. destruct (MDP_factorize_spec a A H) as [a' [E [H' Hc]]]. unfold MDP_solve_u. rewrite E. cbn [bind].
  pose proof H' as [Epa [HU [HP Hinv]]]. specialize (Hinv Hc). destruct F as [F1 [F2 [F3 [F4 _]]]]. rewrite Epa, F4.
  rewrite (fill1_Ok nnu _ (fun k => 1 / A (nth k iiu 0%nat) * val1 bu k)%R).
  - cbn [bind]. do 2 eexists. split; [reflexivity|]. split; [exact H'|]. split; [apply tab1_length|]. intros k Hk. now apply (tab1_nth 0%R).
  - intros k Hk. rewrite (proj2 Hinv _ Hk). cbn [bind]. rewrite (get_nth 0%R) by lia. reflexivity.
Qed.

Lemma MDP_reaction_p_spec a A xu xp b : mdp_is a A -> length xp = nnp ->
  (length b < nnp -> MDP_reaction_p a xu xp b = Oob) /\
  (nnp <= length b -> exists y, MDP_reaction_p a xu xp b = Ok y /\ length y = length b /\
     (forall k, k < nnp -> nth_error y k = Some (Some (A (nth k iip 0%nat) * val1 xp k)%R)) /\
     (forall k, nnp <= k -> nth_error y k = nth_error b k)).
Proof.
  intros [Epa [HU [HP _]]] L. destruct F as [F1 [F2 [F3 [F4 [F5 _]]]]]. unfold MDP_reaction_p. rewrite Epa, F5.
  rewrite (mapM_Ok _ _ (fun d => (d, Some (A (nth d iip 0%nat) * val1 xp d)%R))).
  2:{ intros d Hd. apply in_seq in Hd. rewrite (proj2 HP) by lia. cbn [bind]. rewrite (get_nth 0%R) by lia. reflexivity. }
  cbn [bind]. split; intro Hb.
  - assert (G : forall n s l, length l < s + n -> s <= length l -> write_all l (map (fun d => (d, Some (A (nth d iip 0%nat) * val1 xp d)%R)) (seq s n)) = Oob).
    { clear - v. induction n as [|n IH]; intros s l Hl Hs; [lia|]. unfold write_all. cbn [seq map foldM fst snd].
      destruct (Nat.eq_dec s (length l)) as [->|Hne'].
      - rewrite set_Oob by lia. reflexivity.
      - destruct (set_Ok l s (Some (A (nth s iip 0%nat) * val1 xp s)%R)) as [l' [E [L' _]]]; [lia|]. rewrite E. cbn [bind].
        apply (IH (S s) l'); lia. }
    apply G; lia.
  - destruct (write_all_Ok (map (fun d => (d, Some (A (nth d iip 0%nat) * val1 xp d)%R)) (seq 0 nnp)) b) as [y [E [Ly [Hout [Hin _]]]]].
    { intros k x Hx. apply in_map_iff in Hx. destruct Hx as [d [Ed Hd]]. apply in_seq in Hd. injection Ed as E1 _. lia. }
    rewrite map_map in Hout, Hin. cbn [fst] in Hout, Hin. rewrite map_id in Hout, Hin. exists y. split; [exact E|]. split; [exact Ly|]. split.
    + intros k Hk. apply (Hin (seq_NoDup _ _)). apply in_map_iff. exists k. split; [reflexivity|apply in_seq; lia].
    + intros k Hk. apply Hout. rewrite in_seq. lia.
Qed.
End DP.

(** [Some] of all entries *)
Lemma some_entries (y : list (option R)) n : length y = n -> (forall d, d < n -> exists r, nth_error y d = Some (Some r)) -> exists z, y = map Some z.
Proof.
  revert n; induction y as [|a y IH]; intros n L H; [now exists []|]. cbn in L. destruct (H 0) as [r Hr]; [lia|]. cbn in Hr. injection Hr as Hr.
  destruct (IH (length y) eq_refl) as [z Hz]; [intros d Hd; apply (H (S d)); lia|]. exists (r :: z). cbn. now rewrite Hr, <- Hz.
Qed.

(** ** the theorems *)
Section T.
Set Default Proof Using "All".
Variable v : Vector.
Variables nelem nne nnode ndim ndof : nat.
Hypothesis Hne : m_nne v = nne.
Hypothesis Hnd : m_ndim v = ndim.
Hypothesis Hmd : mesh_dofs (m_conn v) (m_dofs v) nelem nne nnode ndim ndof.
Variable iip : list nat.
Hypothesis Hiip : prescribed ndof iip.
Hypothesis Hh : no_holes (m_dofs v) ndof.
Notation dof := (idx2 (m_dofs v)).
Variables (o : dop) (ops : list dop) (x0 : list (option R)) (x1 : list (list (option R))).
Hypothesis Hc : changes o = true.
Hypothesis Ho : Forall (valid_dop nelem nne nnode ndim ndof) (o :: ops).
Hypothesis H0 : length x0 = ndof.
Hypothesis H1 : shape2 x1 nnode ndim.
Let A := fold_left (diag_after (m_conn v) (m_dofs v) nelem nne ndim) (o :: ops) (fun _ => 0%R).
Let iiu := setdiff1d (concat (m_dofs v)) iip.

Lemma setup : exists p a0 a, new_VectorPartitioned v iip = Ok p /\ new_MatrixDiagonalPartitioned v iip = Ok a0 /\
  foldM (run_dpop x0 x1) (o :: ops) a0 = Ok a /\ mdp_is v iip p a A.
Proof.
  destruct (vp_new v nelem nne nnode ndim ndof Hne Hnd Hmd iip Hiip) as [p [Ep _]].
  destruct (run_pfirst v nelem nne nnode ndim ndof Hne Hnd Hmd iip Hiip Hh p Ep x0 x1 o ops H0 H1 Hc Ho) as [a0 [a [E1 [E2 H]]]].
  exists p, a0, a. auto.
Qed.

Theorem dp_equals : exists a0 a d, new_MatrixDiagonalPartitioned v iip = Ok a0 /\ foldM (run_dpop x0 x1) (o :: ops) a0 = Ok a /\
  foldM run_dop (o :: ops) (new_MatrixDiagonal v) = Ok d /\
  MDP_data a = MD_data d /\ MDP_todense a = MD_todense d /\
  (forall x b, length x = ndof -> length b = ndof -> MDP_dot_dofval a x b = MD_dot_dofval d x) /\
  (forall x, shape2 x nnode ndim -> MDP_dot_nodevec a x = MD_dot_nodevec d x).
Proof.
  destruct setup as [p [a0 [a [Ep [E0 [E H]]]]]].
  destruct (run_first v nelem nne nnode ndim ndof Hne Hnd Hmd o ops Hc Ho) as [d [Ed Hd]].
  exists a0, a, d. split; [exact E0|]. split; [exact E|]. split; [exact Ed|]. split; [|split; [|split]].
  - destruct (MDP_data_spec v nelem nne nnode ndim ndof Hne Hnd Hmd iip Hiip Hh p Ep a A H) as [l [El [Ll Vl]]].
    destruct (MD_data_spec v nelem nne nnode ndim ndof Hne Hnd Hmd d A Hd) as [l' [El' [Ll' Vl']]].
    rewrite El, El'. f_equal. apply (list_ext1 0%R _ _ ndof); auto. intros k Hk. change (val1 l k = val1 l' k). now rewrite Vl, Vl'.
  - destruct (MDP_todense_spec v nelem nne nnode ndim ndof Hne Hnd Hmd iip Hiip Hh p Ep a A H) as [l [El [Ll Vl]]].
    destruct (MD_todense_spec v nelem nne nnode ndim ndof Hne Hnd Hmd d A Hd) as [l' [El' [Ll' Vl']]].
    rewrite El, El'. f_equal. apply (list_ext2 0%R _ _ ndof ndof); auto. intros r c Hr Hc'. change (val2 l r c = val2 l' r c). now rewrite Vl, Vl'.
  - intros x b Lx Lb. destruct (MDP_dot_dofval_spec v nelem nne nnode ndim ndof Hne Hnd Hmd iip Hiip Hh p Ep a A x b H Lx Lb) as [l [El [Ll Vl]]].
    destruct (MD_dot_dofval_spec v nelem nne nnode ndim ndof Hne Hnd Hmd d A x Hd Lx) as [l' [El' [Ll' Vl']]].
    rewrite El, El'. f_equal. apply (list_ext1 0%R _ _ ndof); auto. intros k Hk. change (val1 l k = val1 l' k). now rewrite Vl, Vl'.
  - intros x Sx. destruct (MDP_dot_nodevec_spec v nelem nne nnode ndim ndof Hne Hnd Hmd iip Hiip Hh p Ep a A x H Sx) as [l [El [Ll Vl]]].
    destruct (MD_dot_nodevec_spec v nelem nne nnode ndim ndof Hne Hnd Hmd d A x Hd Sx) as [l' [El' [Ll' Vl']]].
    rewrite El, El'. f_equal. apply (list_ext2 0%R _ _ nnode ndim); auto. intros r c Hr Hc'. change (val2 l r c = val2 l' r c). now rewrite Vl, Vl'.
Qed.

Lemma set_Some_dof x y b : length x = ndof -> length y = ndof ->
  (forall d, d < ndof -> (In d iip -> nth_error y d = nth_error (map Some x) d) /\ (~ In d iip -> nth_error y d = Some (Some (1 / A d * val1 b d)%R))) ->
  exists z, y = map Some z /\ length z = ndof /\ forall d, d < ndof -> (In d iip -> val1 z d = val1 x d) /\ (~ In d iip -> val1 z d = (1 / A d * val1 b d)%R).
Proof.
  intros Lx Ly H. destruct (some_entries y ndof Ly) as [z Hz].
  - intros d Hd. destruct (H d Hd) as [G1 G2]. destruct (in_dec Nat.eq_dec d iip) as [i|i].
    + rewrite G1 by exact i. rewrite nth_error_map, (nth_error_nth' x 0%R) by lia. cbn. eauto.
    + rewrite G2 by exact i. eauto.
  - exists z. split; [exact Hz|]. rewrite Hz in Ly, H. rewrite map_length in Ly. split; [exact Ly|]. intros d Hd. destruct (H d Hd) as [G1 G2].
    rewrite !nth_error_map, (nth_error_nth' z 0%R), ?(nth_error_nth' x 0%R) in G1 by lia. rewrite nth_error_map, (nth_error_nth' z 0%R) in G2 by lia.
    cbn in G1, G2. split; intro i.
    + specialize (G1 i). now injection G1 as G1.
    + specialize (G2 i). now injection G2 as G2.
Qed.

Theorem dp_solve : (forall d, d < ndof -> ~ In d iip -> A d <> 0%R) ->
  exists a0 a, new_MatrixDiagonalPartitioned v iip = Ok a0 /\ foldM (run_dpop x0 x1) (o :: ops) a0 = Ok a /\
  (forall b x, length b = ndof -> length x = ndof -> exists y a' r, MDP_solve_dofval a b (map Some x) = Ok (map Some y, a') /\ length y = ndof /\
     (forall d, In d iip -> val1 y d = val1 x d) /\ MDP_dot_dofval a y b = Ok r /\ forall d, d < ndof -> ~ In d iip -> val1 r d = val1 b d) /\
  (forall b x, shape2 b nnode ndim -> shape2 x nnode ndim -> exists y a' r, MDP_solve_nodevec a b (map (map Some) x) = Ok (map (map Some) y, a') /\ shape2 y nnode ndim /\
     (forall m i, m < nnode -> i < ndim -> In (dof m i) iip -> val2 y m i = val2 x m i) /\
     MDP_dot_nodevec a y = Ok r /\ forall m i, m < nnode -> i < ndim -> ~ In (dof m i) iip -> val2 r m i = val2 b m i) /\
  (forall b_u x_p, length b_u = length (m_iiu (MDP_p a)) -> exists x_u a', MDP_solve_u a b_u x_p = Ok (x_u, a') /\ MDP_dot_u a x_u x_p = Ok b_u).
Proof.
  intro Hz. destruct setup as [p [a0 [a [Ep [E0 [E H]]]]]]. exists a0, a. split; [exact E0|]. split; [exact E|]. split; [|split].
  - intros b x Lb Lx. destruct (MDP_solve_dofval_spec v nelem nne nnode ndim ndof Hne Hnd Hmd iip Hiip Hh p Ep a A b (map Some x) H Lb) as [y [a' [Ey [_ [Ly Vy]]]]].
    { now rewrite map_length. }
    destruct (set_Some_dof x y b Lx Ly Vy) as [z [Ez [Lz Vz]]]. rewrite Ez in Ey.
    destruct (MDP_dot_dofval_spec v nelem nne nnode ndim ndof Hne Hnd Hmd iip Hiip Hh p Ep a A z b H Lz Lb) as [r [Er [Lr Vr]]].
    exists z, a', r. split; [exact Ey|]. split; [exact Lz|]. split; [|split; [exact Er|]].
    + intros d Hd. apply Vz; [now apply Hiip|exact Hd].
    + intros d Hd Hn. rewrite Vr by exact Hd. destruct (Vz d Hd) as [_ G]. rewrite (G Hn). field. now apply Hz.
  - intros b x Sb Sx.
    assert (Sx' : shape2 (map (map Some) x) nnode ndim).
    { destruct Sx as [L Hx]. split; [now rewrite map_length|]. intros r Hr. apply in_map_iff in Hr. destruct Hr as [r' [<- Hr']]. rewrite map_length. auto. }
    destruct (MDP_solve_nodevec_spec v nelem nne nnode ndim ndof Hne Hnd Hmd iip Hiip Hh p Ep a A b (map (map Some) x) H Sb Sx') as [y [a' [Ey [_ [Sy Vy]]]]].
    set (z := tab2 nnode ndim (fun m i => if in_dec Nat.eq_dec (dof m i) iip then val2 x m i else (1 / A (dof m i) * val2 b m i)%R)).
    assert (Sz : shape2 z nnode ndim) by apply tab2_shape.
    assert (Vz : forall m i, m < nnode -> i < ndim -> val2 z m i = if in_dec Nat.eq_dec (dof m i) iip then val2 x m i else (1 / A (dof m i) * val2 b m i)%R).
    { intros m i Hm Hi. now apply (tab2_nth 0%R). }
    assert (SS : forall (w : list (list R)) m i, shape2 w nnode ndim -> m < nnode -> i < ndim -> nth2 None (map (map Some) w) m i = Some (val2 w m i)).
    { intros w m i Sw Hm Hi. unfold val2, nth2. change (@nil (option R)) with (map Some (@nil R)). rewrite map_nth.
      rewrite (nth_indep _ None (Some 0%R)) by (rewrite map_length, (shape2_row w nnode ndim m Sw Hm); exact Hi). now rewrite map_nth. }
    assert (Ez : y = map (map Some) z).
    { apply (list_ext2 None _ _ nnode ndim); [exact Sy| |].
      - split; [rewrite map_length; apply Sz|]. intros r Hr. apply in_map_iff in Hr. destruct Hr as [r' [<- Hr']]. rewrite map_length. now apply Sz.
      - intros m i Hm Hi. rewrite SS by assumption. rewrite Vz by assumption. destruct (Vy m i Hm Hi) as [G1 G2].
        destruct (in_dec Nat.eq_dec (dof m i) iip) as [i0|i0]; [rewrite G1 by exact i0; now apply SS|now apply G2]. }
    rewrite Ez in Ey. destruct (MDP_dot_nodevec_spec v nelem nne nnode ndim ndof Hne Hnd Hmd iip Hiip Hh p Ep a A z H Sz) as [r [Er [Sr Vr]]].
    exists z, a', r. split; [exact Ey|]. split; [exact Sz|]. split; [|split; [exact Er|]].
    + intros m i Hm Hi Hin. rewrite Vz by assumption. destruct (in_dec Nat.eq_dec (dof m i) iip); [reflexivity|tauto].
    + intros m i Hm Hi Hn. rewrite Vr, Vz by assumption. destruct (in_dec Nat.eq_dec (dof m i) iip); [tauto|]. field.
      apply Hz; [|exact Hn]. now apply (V_dof v nelem nne nnode ndim ndof Hne Hnd Hmd).
  - intros bu xp Lb. pose proof H as [Epa _]. rewrite Epa in Lb.
    destruct (vp_facts v nelem nne nnode ndim ndof Hne Hnd Hmd iip Hiip p Ep) as [_ [Eu _]]. rewrite Eu in Lb.
    destruct (MDP_solve_u_spec v nelem nne nnode ndim ndof Hne Hnd Hmd iip Hiip Hh p Ep a A bu xp H Lb) as [y [a' [Ey [_ [Ly Vy]]]]].
    destruct (MDP_dot_u_spec v nelem nne nnode ndim ndof Hne Hnd Hmd iip Hiip Hh p Ep a A y xp H Ly) as [r [Er [Lr Vr]]].
    exists y, a'. split; [exact Ey|]. rewrite Er. f_equal. apply (list_ext1 0%R _ _ (length iiu)); auto. intros k Hk. change (val1 r k = val1 bu k).
    rewrite Vr, Vy by exact Hk. fold iiu. assert (Hin : In (nth k iiu 0) iiu) by now apply nth_In.
    assert (Hlt := iiu_lt v nelem nne nnode ndim ndof Hne Hnd Hmd iip _ Hin). apply setdiff1d_In in Hin. field. apply Hz; tauto.
Qed.

Theorem dp_reaction : exists a0 a, new_MatrixDiagonalPartitioned v iip = Ok a0 /\ foldM (run_dpop x0 x1) (o :: ops) a0 = Ok a /\
  (forall x b, length x = ndof -> length b = ndof -> exists y r, MDP_dot_dofval a x b = Ok y /\ MDP_reaction_dofval a x b = Ok r /\ length r = ndof /\
     forall d, d < ndof -> (In d iip -> val1 r d = val1 y d) /\ (~ In d iip -> val1 r d = val1 b d)) /\
  (forall x b, shape2 x nnode ndim -> shape2 b nnode ndim -> exists y r, MDP_dot_nodevec a x = Ok y /\ MDP_reaction_nodevec a x b = Ok r /\ shape2 r nnode ndim /\
     forall m i, m < nnode -> i < ndim -> (In (dof m i) iip -> val2 r m i = val2 y m i) /\ (~ In (dof m i) iip -> val2 r m i = val2 b m i)) /\
  (forall x_u x_p b_p, length x_p = length iip -> length b_p = length iip -> exists y, MDP_dot_p a x_u x_p = Ok y /\ MDP_reaction_p a x_u x_p b_p = Ok (map Some y)) /\
  (forall x b, length x = ndof -> length b = ndof -> exists x_u x_p y y_u y_p, AsDofs_u_dofval (MDP_p a) x = Ok x_u /\ AsDofs_p_dofval (MDP_p a) x = Ok x_p /\
     MDP_dot_dofval a x b = Ok y /\ AsDofs_u_dofval (MDP_p a) y = Ok y_u /\ AsDofs_p_dofval (MDP_p a) y = Ok y_p /\
     MDP_dot_u a x_u x_p = Ok y_u /\ MDP_dot_p a x_u x_p = Ok y_p).
Proof.
  destruct setup as [p [a0 [a [Ep [E0 [E H]]]]]]. exists a0, a. split; [exact E0|]. split; [exact E|]. split; [|split; [|split]].
  - intros x b Lx Lb. destruct (MDP_dot_dofval_spec v nelem nne nnode ndim ndof Hne Hnd Hmd iip Hiip Hh p Ep a A x b H Lx Lb) as [y [Ey [Ly Vy]]].
    destruct (MDP_reaction_dofval_spec v nelem nne nnode ndim ndof Hne Hnd Hmd iip Hiip Hh p Ep a A x b H Lx Lb) as [r [Er [Lr Vr]]].
    exists y, r. split; [exact Ey|]. split; [exact Er|]. split; [exact Lr|]. intros d Hd. rewrite Vy by exact Hd. now apply Vr.
  - intros x b Sx Sb. destruct (MDP_dot_nodevec_spec v nelem nne nnode ndim ndof Hne Hnd Hmd iip Hiip Hh p Ep a A x H Sx) as [y [Ey [Ly Vy]]].
    destruct (MDP_reaction_nodevec_spec v nelem nne nnode ndim ndof Hne Hnd Hmd iip Hiip Hh p Ep a A x b H Sx Sb) as [r [Er [Lr Vr]]].
    exists y, r. split; [exact Ey|]. split; [exact Er|]. split; [exact Lr|]. intros m i Hm Hi. rewrite Vy by assumption. now apply Vr.
  - intros xu xp bp Lp Lb. destruct (MDP_dot_p_spec v nelem nne nnode ndim ndof Hne Hnd Hmd iip Hiip Hh p Ep a A xu xp H Lp) as [y [Ey [Ly Vy]]].
    destruct (MDP_reaction_p_spec v nelem nne nnode ndim ndof Hne Hnd Hmd iip Hiip Hh p Ep a A xu xp bp H Lp) as [_ G].
    destruct G as [r [Er [Lr [Vr _]]]]; [lia|]. exists y. split; [exact Ey|]. rewrite Er. f_equal.
    apply (list_ext1 None _ _ (length iip)); [lia|rewrite map_length; exact Ly|]. intros k Hk. rewrite (nth_error_nth _ _ None (Vr k Hk)).
    rewrite (nth_indep _ None (Some 0%R)) by (rewrite map_length; lia). rewrite map_nth. f_equal. symmetry. now apply Vy.
  - intros x b Lx Lb. destruct (MDP_dot_dofval_spec v nelem nne nnode ndim ndof Hne Hnd Hmd iip Hiip Hh p Ep a A x b H Lx Lb) as [y [Ey [Ly Vy]]].
    destruct (select_spec v nelem nne nnode ndim ndof Hne Hnd Hmd iip Hiip p Ep x Lx) as [xu [xp [Eu [Epp [Lu [Lp [Vu Vp]]]]]]].
    destruct (select_spec v nelem nne nnode ndim ndof Hne Hnd Hmd iip Hiip p Ep y Ly) as [yu [yp [Eyu [Eyp [Lyu [Lyp [Vyu Vyp]]]]]]].
    destruct (MDP_dot_u_spec v nelem nne nnode ndim ndof Hne Hnd Hmd iip Hiip Hh p Ep a A xu xp H Lu) as [ru [Eru [Lru Vru]]].
    destruct (MDP_dot_p_spec v nelem nne nnode ndim ndof Hne Hnd Hmd iip Hiip Hh p Ep a A xu xp H Lp) as [rp [Erp [Lrp Vrp]]].
    pose proof H as [Epa _]. rewrite Epa. exists xu, xp, y, yu, yp. repeat (split; [assumption|]). split.
    + rewrite Eru. f_equal. apply (list_ext1 0%R _ _ (length iiu)); auto. intros k Hk. change (val1 ru k = val1 yu k). rewrite Vru by exact Hk.
      pose proof (nth_error_nth' iiu 0 Hk) as Hk'. rewrite (Vyu _ _ Hk'), (Vu _ _ Hk'). symmetry. apply Vy.
      apply (iiu_lt v nelem nne nnode ndim ndof Hne Hnd Hmd iip). now apply nth_In.
    + rewrite Erp. f_equal. apply (list_ext1 0%R _ _ (length iip)); auto. intros k Hk. change (val1 rp k = val1 yp k). rewrite Vrp by exact Hk.
      pose proof (nth_error_nth' iip 0 Hk) as Hk'. rewrite (Vyp _ _ Hk'), (Vp _ _ Hk'). symmetry. apply Vy. apply Hiip. now apply nth_In.
Qed.

(** the findings *)
Theorem dp_Solve_uninit : exists a0 a, new_MatrixDiagonalPartitioned v iip = Ok a0 /\ foldM (run_dpop x0 x1) (o :: ops) a0 = Ok a /\
  (forall b, length b = ndof -> exists y a', MDP_Solve_dofval a b = Ok (y, a') /\ length y = ndof /\
     forall d, d < ndof -> nth_error y d = Some None <-> In d iip) /\
  (forall b, shape2 b nnode ndim -> exists y a', MDP_Solve_nodevec a b = Ok (y, a') /\ shape2 y nnode ndim /\
     forall m i, m < nnode -> i < ndim -> at2 y m i = Some None <-> In (dof m i) iip).
Proof.
  destruct setup as [p [a0 [a [Ep [E0 [E H]]]]]]. exists a0, a. split; [exact E0|]. split; [exact E|]. split.
  - intros b Lb. unfold MDP_Solve_dofval.
    destruct (MDP_solve_dofval_spec v nelem nne nnode ndim ndof Hne Hnd Hmd iip Hiip Hh p Ep a A b (empty (length b)) H Lb) as [y [a' [Ey [_ [Ly Vy]]]]].
    { unfold empty. now rewrite repeat_length. }
    exists y, a'. split; [exact Ey|]. split; [exact Ly|]. intros d Hd. destruct (Vy d Hd) as [G1 G2]. split; intro G.
    + destruct (in_dec Nat.eq_dec d iip) as [i|i]; [exact i|]. rewrite (G2 i) in G. discriminate.
    + rewrite (G1 G). unfold empty. rewrite (nth_error_nth' _ None) by (rewrite repeat_length; lia). now rewrite nth_repeat.
  - intros b Sb. unfold MDP_Solve_nodevec.
    assert (Se : shape2 (map (fun r : list R => @empty R (length r)) b) nnode ndim).
    { destruct Sb as [L Hb]. split; [now rewrite map_length|]. intros r Hr. apply in_map_iff in Hr. destruct Hr as [r' [<- Hr']].
      unfold empty. rewrite repeat_length. auto. }
    destruct (MDP_solve_nodevec_spec v nelem nne nnode ndim ndof Hne Hnd Hmd iip Hiip Hh p Ep a A b _ H Sb Se) as [y [a' [Ey [_ [Sy Vy]]]]].
    exists y, a'. split; [exact Ey|]. split; [exact Sy|]. intros m i Hm Hi.
    assert (Eat : at2 y m i = Some (nth2 None y m i)).
    { unfold at2, nth2. rewrite (nth_error_nth' y []) by (destruct Sy; lia). apply nth_error_nth'. now rewrite (shape2_row y nnode ndim m Sy Hm). }
    rewrite Eat. destruct (Vy m i Hm Hi) as [G1 G2]. split; intro G.
    + destruct (in_dec Nat.eq_dec (dof m i) iip) as [i0|i0]; [exact i0|]. rewrite (G2 i0) in G. discriminate.
    + rewrite (G1 G). unfold nth2. f_equal. change (@nil (option R)) with ((fun r : list R => @empty R (length r)) []).
      rewrite map_nth. unfold empty. apply nth_repeat.
Qed.

Theorem dp_Reaction_p base : exists a0 a, new_MatrixDiagonalPartitioned v iip = Ok a0 /\ foldM (run_dpop x0 x1) (o :: ops) a0 = Ok a /\
  forall x_u x_p, length x_p = length iip ->
    (base < length iip -> MDP_Reaction_p base a x_u x_p = Oob) /\
    (base = length iip -> exists y, MDP_dot_p a x_u x_p = Ok y /\ MDP_Reaction_p base a x_u x_p = Ok (map Some y)) /\
    (length iip < base -> exists y, MDP_Reaction_p base a x_u x_p = Ok y /\ length y = base /\ nth_error y (length iip) = Some None).
Proof.
  destruct setup as [p [a0 [a [Ep [E0 [E H]]]]]]. exists a0, a. split; [exact E0|]. split; [exact E|].
  intros xu xp Lp. unfold MDP_Reaction_p.
  destruct (MDP_reaction_p_spec v nelem nne nnode ndim ndof Hne Hnd Hmd iip Hiip Hh p Ep a A xu xp (empty base) H Lp) as [G1 G2].
  assert (Le : length (@empty R base) = base) by apply repeat_length. rewrite Le in *.
  split; [exact G1|]. split; intro Hb.
  - destruct (MDP_dot_p_spec v nelem nne nnode ndim ndof Hne Hnd Hmd iip Hiip Hh p Ep a A xu xp H Lp) as [y [Ey [Ly Vy]]].
    destruct G2 as [r [Er [Lr [Vr _]]]]; [lia|]. exists y. split; [exact Ey|]. rewrite Er. f_equal.
    apply (list_ext1 None _ _ (length iip)); [lia|rewrite map_length; exact Ly|]. intros k Hk. rewrite (nth_error_nth _ _ None (Vr k Hk)).
    rewrite (nth_indep _ None (Some 0%R)) by (rewrite map_length; lia). rewrite map_nth. f_equal. symmetry. now apply Vy.
  - destruct G2 as [r [Er [Lr [_ Vr]]]]; [lia|]. exists r. split; [exact Er|]. split; [exact Lr|]. rewrite Vr by lia.
    rewrite (nth_error_nth' _ None) by lia. unfold empty. now rewrite nth_repeat.
Qed.
End T.
