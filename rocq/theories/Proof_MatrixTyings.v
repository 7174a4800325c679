(** Proofs about MatrixPartitionedTyings and its solver. *)
From Coq Require Import Reals Lra.
From Verif Require Import Base Spec Sums Spec_Vector Spec_Matrix Spec_Tyings Model_Numbering Proof_Numbering Model_Vector Proof_Vector Proof_Vector2 Model_Sparse
  Model_VectorPartitioned Proof_VectorPartitioned Model_Tyings Proof_Tyings Proof_Tyings2 Model_Matrix Spec_MatrixOps Model_MatrixPartitioned Proof_Matrix
  Proof_MatrixPartitioned Model_MatrixTyings Spec_MatrixTyings.

Lemma mulmat_spec a b n : cols a = n -> rows b = n -> exists c, mulmat a b = Ok c /\ rows c = rows a /\ cols c = cols b /\
  forall i j, ent c i j = sumn n (fun k => ent a i k * ent b k j)%R.
Proof. intros H1 H2. unfold mulmat. rewrite H1, H2, Nat.eqb_refl. eexists. split; [reflexivity|]. auto. Qed.

Lemma addmat_spec a b r c : rows a = r -> cols a = c -> rows b = r -> cols b = c -> exists s, addmat a b = Ok s /\ rows s = r /\ cols s = c /\
  forall i j, ent s i j = (ent a i j + ent b i j)%R.
Proof. intros H1 H2 H3 H4. unfold addmat. rewrite H1, H2, H3, H4, !Nat.eqb_refl. eexists. split; [reflexivity|]. auto. Qed.

Lemma mapM_app {A B} (f : A -> res B) l l' : mapM f (l ++ l') = do x <- mapM f l; do y <- mapM f l'; Ok (x ++ y).
Proof.
  induction l as [|a l IH]; cbn [app mapM].
  - cbn [bind]. destruct (mapM f l'); reflexivity.
  - rewrite IH. destruct (f a); cbn [bind]; try reflexivity. destruct (mapM f l); cbn [bind]; try reflexivity. destruct (mapM f l'); reflexivity.
Qed.

Section T.
Set Default Proof Using "All".
Variable v : Vector.
Variables nelem nne nnode ndim ndof : nat.
Hypothesis Hne : m_nne v = nne.
Hypothesis Hnd : m_ndim v = ndim.
Hypothesis Hmd : mesh_dofs (m_conn v) (m_dofs v) nelem nne nnode ndim ndof.
Hypothesis Hh : no_holes (m_dofs v) ndof.
Variables Cu Cp : mat.
Variables nnu nnp nnd : nat.
Hypothesis Hts : tying_sizes Cu Cp nnu nnp nnd.
Hypothesis Hn : nnu + nnp + nnd = ndof.
Notation dof := (idx2 (m_dofs v)).
Notation node := (idx2 (m_conn v)).
Notation asm := (assembled (m_conn v) (m_dofs v) nelem nne ndim).
Notation nni := (nnu + nnp).
Notation T := (tie nnu nni Cu Cp).

Definition sz (q : part) : nat := match q with U => nnu | P => nnp | D => nnd end.
Definition off (q : part) : nat := match q with U => 0 | P => nnu | D => nni end.

Record pt_is (a : MatrixTyings) (A : nat -> nat -> R) : Prop := {
  pt_v : PT_v a = v; pt_u : PT_Cdu a = Cu; pt_p : PT_Cdp a = Cp;
  pt_r : forall p q, rows (PT_A a p q) = sz p; pt_c : forall p q, cols (PT_A a p q) = sz q;
  pt_e : forall p q i j, i < sz p -> j < sz q -> ent (PT_A a p q) i j = A (off p + i) (off q + j) }.

Lemma pt_sizes a A : pt_is a A -> PT_nnu a = nnu /\ PT_nnp a = nnp /\ PT_nnd a = nnd /\ PT_nni a = nni /\ PT_ndof a = ndof.
Proof.
  intro H. unfold PT_ndof, PT_nni, PT_nnu, PT_nnp, PT_nnd. rewrite (pt_u a A H), (pt_p a A H).
  rewrite (ts_nnu _ _ _ _ _ Hts), (ts_nnp _ _ _ _ _ Hts), (ts_nnd' _ _ _ _ _ Hts). auto.
Qed.
Lemma pt_sz a A q : pt_is a A -> PT_size a q = sz q.
Proof. intro H. destruct (pt_sizes a A H) as [H1 [H2 [H3 _]]]. destruct q; cbn; assumption. Qed.
Lemma pt_off a A q : pt_is a A -> PT_off a q = off q.
Proof. intro H. destruct (pt_sizes a A H) as [H1 [_ [_ [H4 _]]]]. destruct q; cbn; try assumption; reflexivity. Qed.
Lemma pt_ii a A q : pt_is a A -> PT_ii a q = seq (off q) (sz q).
Proof. intro H. unfold PT_ii. now rewrite (pt_off a A q H), (pt_sz a A q H). Qed.
Lemma off_lt q i : i < sz q -> off q + i < ndof.
Proof. destruct q; cbn; lia. Qed.

Theorem pt_new : pt_is (new_MatrixTyings v Cu Cp) (fun _ _ => 0%R).
Proof.
  pose proof (ts_nnu _ _ _ _ _ Hts). pose proof (ts_nnp _ _ _ _ _ Hts). pose proof (ts_nnd' _ _ _ _ _ Hts).
  split; try reflexivity; intros p q; destruct p, q; cbn; assumption.
Qed.

(** ** assemble *)
Lemma branch_spec a A di dj p q : pt_is a A ->
  (same (fst (branch a di dj)) p && same (snd (branch a di dj)) q = true -> di < ndof -> dj < ndof -> off p <= di < off p + sz p /\ off q <= dj < off q + sz q) /\
  (forall i j, i < sz p -> j < sz q -> di = off p + i -> dj = off q + j -> same (fst (branch a di dj)) p && same (snd (branch a di dj)) q = true).
Proof.
  intro H. destruct (pt_sizes a A H) as [H1 [_ [_ [H4 _]]]]. unfold branch. rewrite H1, H4.
  destruct (Nat.ltb_spec di nnu), (Nat.ltb_spec dj nnu), (Nat.ltb_spec di nni), (Nat.ltb_spec dj nni); try lia; cbn [andb fst snd];
    destruct p, q; cbn [same andb sz off]; split; intros; try discriminate; try lia; reflexivity.
Qed.

Lemma tblock_spec a A p q ts : pt_is a A -> (forall t, In t ts -> trow t < ndof /\ tcol t < ndof) ->
  exists m, tblock a p q ts = Ok m /\ rows m = sz p /\ cols m = sz q /\ forall i j, i < sz p -> j < sz q -> ent m i j = entT ts (off p + i) (off q + j).
Proof.
  intros H Hb. unfold tblock. rewrite (pt_sz a A p H), (pt_sz a A q H), (pt_off a A p H), (pt_off a A q H). apply sel_Ok.
  - intros t Ht Hs. destruct (Hb t Ht). now apply (proj1 (branch_spec a A (trow t) (tcol t) p q H)).
  - intros i j Hi Hj. now apply (proj2 (branch_spec a A (off p + i) (off q + j) p q H) i j).
Qed.

Theorem pt_assemble a A K : pt_is a A -> shape3 K nelem (nne * ndim) (nne * ndim) ->
  exists a', PT_assemble a K = Ok a' /\ pt_is a' (asm K) /\ PT_changed a' = true.
Proof.
  intros H HK. unfold PT_assemble. rewrite (pt_v a A H).
  destruct (elemmat_triplets_spec v nelem nne nnode ndim ndof (elem_dof v) (fun e m i => dof (node e m) i) ndof K Hne Hnd Hmd) as [ts [E [Hb Hs]]].
  - intros e m i He Hm Hi. split; [now apply (V_elem_dof v nelem nne nnode ndim ndof Hne Hnd Hmd)|].
    apply (V_dof v nelem nne nnode ndim ndof Hne Hnd Hmd); [now apply (V_node v nelem nne nnode ndim ndof Hne Hnd Hmd)|exact Hi].
  - exact HK.
  - rewrite E. cbn [bind].
    assert (Es : forall r c, entT ts r c = asm K r c).
    { intros r c. unfold entT. rewrite (Hs (fun x y => ind ((x =? r) && (y =? c))%nat)). unfold assembled, sum_elem.
      apply sumn_ext. intros e He. apply sumn_ext. intros m Hm. apply sumn_ext. intros i Hi. apply sumn_ext. intros n Hn'. apply sumn_ext. intros j Hj.
      rewrite ind_and. lra. }
    destruct (tblock_spec a A U U ts H Hb) as [uu [-> U1]]. cbn [bind].
    destruct (tblock_spec a A U P ts H Hb) as [up [-> U2]]. cbn [bind].
    destruct (tblock_spec a A P U ts H Hb) as [pu [-> U3]]. cbn [bind].
    destruct (tblock_spec a A P P ts H Hb) as [pp [-> U4]]. cbn [bind].
    destruct (tblock_spec a A U D ts H Hb) as [ud [-> U5]]. cbn [bind].
    destruct (tblock_spec a A P D ts H Hb) as [pd [-> U6]]. cbn [bind].
    destruct (tblock_spec a A D U ts H Hb) as [du [-> U7]]. cbn [bind].
    destruct (tblock_spec a A D P ts H Hb) as [dp [-> U8]]. cbn [bind].
    destruct (tblock_spec a A D D ts H Hb) as [dd [-> U9]]. cbn [bind].
    eexists. split; [reflexivity|]. split; [|reflexivity]. split; cbn [PT_v PT_Cdu PT_Cdp PT_A].
    + reflexivity. + exact (pt_u a A H). + exact (pt_p a A H).
    + intros [] []; tauto.
    + intros [] []; tauto.
    + intros p q i j Hi Hj. rewrite <- Es. destruct p, q; firstorder.
Qed.

(** ** dense *)
Lemma seq_nth_error o n k d : nth_error (seq o n) k = Some d <-> k < n /\ d = o + k.
Proof.
  split.
  - intro H. pose proof (In_nth_error_lt _ _ _ H) as L. rewrite seq_length in L. split; [exact L|]. apply (nth_error_nth _ _ 0) in H. rewrite seq_nth in H by exact L. lia.
  - intros [H ->]. rewrite (nth_error_nth' _ 0) by (now rewrite seq_length). now rewrite seq_nth.
Qed.

Lemma part_of d : d < ndof -> exists q i, i < sz q /\ d = off q + i.
Proof.
  intro H. destruct (le_lt_dec nni d); [exists D, (d - nni); cbn; lia|]. destruct (le_lt_dec nnu d); [exists P, (d - nnu)|exists U, d]; cbn; lia.
Qed.
Lemma part_inj p q i j : i < sz p -> j < sz q -> off p + i = off q + j -> p = q /\ i = j.
Proof. destruct p, q; cbn; intros; split; try reflexivity; lia. Qed.

Lemma dense_loop a A : pt_is a A -> forall l z, shape2 z ndof ndof ->
  exists z', foldM (fun z pq => do w <- dense_writes (get (PT_ii a (fst pq))) (get (PT_ii a (snd pq))) (PT_A a (fst pq) (snd pq)); write2_all z w) l z = Ok z' /\
    shape2 z' ndof ndof /\ forall p q i j, i < sz p -> j < sz q -> val2 z' (off p + i) (off q + j) =
      if existsb (fun pq => same (fst pq) p && same (snd pq) q) l then A (off p + i) (off q + j) else val2 z (off p + i) (off q + j).
Proof.
  intros H. induction l as [|[p0 q0] l IH]; intros z Sz; cbn [foldM].
  - exists z. split; [reflexivity|]. split; [exact Sz|]. reflexivity.
  - cbn [fst snd]. rewrite (pt_ii a A p0 H), (pt_ii a A q0 H).
    destruct (dense_block (seq (off p0) (sz p0)) (seq (off q0) (sz q0)) (PT_A a p0 q0) z ndof) as [z1 [E1 [S1 [I1 O1]]]].
    + rewrite seq_length. apply H. + rewrite seq_length. apply H. + apply seq_NoDup. + apply seq_NoDup.
    + intros d Hd. apply in_seq in Hd. destruct p0; cbn in *; lia.
    + intros d Hd. apply in_seq in Hd. destruct q0; cbn in *; lia.
    + exact Sz.
    + destruct (dense_writes _ _ _) as [w1| | |]; try discriminate. cbn [bind] in *. rewrite E1. cbn [bind]. destruct (IH z1 S1) as [z' [E [S' V]]]. exists z'. split; [exact E|]. split; [exact S'|].
      intros p q i j Hi Hj. rewrite V by assumption. cbn [existsb fst snd].
      assert (X : (exists i' j', i' < sz p0 /\ j' < sz q0 /\ off p + i = off p0 + i' /\ off q + j = off q0 + j') <-> same p0 p && same q0 q = true).
      { split.
        - intros [i' [j' [Hi' [Hj' [E3 E4]]]]]. destruct (part_inj p p0 i i' Hi Hi' E3) as [-> _]. destruct (part_inj q q0 j j' Hj Hj' E4) as [-> _]. now destruct p0, q0.
        - intro E3. assert (p0 = p /\ q0 = q) as [-> ->] by (destruct p0, p, q0, q; try discriminate; auto). eauto 10. }
      destruct (same p0 p && same q0 q) eqn:Es.
      * cbn [orb]. destruct (proj2 X eq_refl) as [i' [j' [Hi' [Hj' [E3 E4]]]]].
        rewrite (I1 i' j'); [|apply seq_nth_error; auto|apply seq_nth_error; auto]. rewrite (pt_e a A H) by assumption. rewrite E3, E4. now destruct (existsb _ l).
      * cbn [orb]. destruct (existsb _ l); [reflexivity|]. apply O1; [now apply off_lt|now apply off_lt|]. intros [Y1 Y2].
        rewrite in_seq in Y1, Y2. assert (F : false = true); [|discriminate]. apply X. exists (off p + i - off p0), (off q + j - off q0). lia.
Qed.

Theorem pt_todense a A : pt_is a A -> exists dn, PT_todense a = Ok dn /\ is_dense ndof dn A.
Proof.
  intro H. unfold PT_todense. destruct (pt_sizes a A H) as [_ [_ [_ [_ ->]]]].
  set (z := repeat (repeat 0%R ndof) ndof).
  assert (S0 : shape2 z ndof ndof).
  { split; [apply repeat_length|]. intros r Hx. apply repeat_spec in Hx. rewrite Hx. apply repeat_length. }
  destruct (dense_loop a A H [(U, U); (U, P); (P, U); (P, P); (D, U); (D, P); (U, D); (P, D); (D, D)] z S0) as [z' [E [S' V]]].
  exists z'. split; [exact E|]. split; [exact S'|]. intros r c Hr Hc.
  destruct (part_of r Hr) as [p [i [Hi ->]]]. destruct (part_of c Hc) as [q [j [Hj ->]]]. rewrite V by assumption. now destruct p, q.
Qed.

(** ** conversions *)
Lemma keep_spec a A q keep order u x : pt_is a A -> (forall d, d < ndof -> keep d = true <-> off q <= d < off q + sz q) ->
  Permutation order (node_iters v) -> shape2 u nnode ndim -> dof_values (m_dofs v) nnode ndim ndof u x ->
  exists y, keep_nodevec a keep (off q) (sz q) order u = Ok y /\ length y = sz q /\ forall k, k < sz q -> val1 y k = val1 x (off q + k).
Proof.
  intros H Hk Ho Su [Lx Vx]. unfold keep_nodevec. rewrite (pt_v a A H).
  assert (Hin : forall a, In a order <-> fst a < nnode /\ snd a < ndim).
  { intro c. rewrite <- (in_node_iters v nelem nne nnode ndim ndof Hne Hnd Hmd). split; apply Permutation_in; [exact Ho|now symmetry]. }
  set (key := fun c : nat * nat => dof (fst c) (snd c)). set (uv := fun c : nat * nat => val2 u (fst c) (snd c)).
  rewrite (mapM_Ok _ _ (fun c => if keep (key c) then [(key c - off q, uv c)] else [])).
  2:{ intros c Hc. apply Hin in Hc. rewrite (V_get_dof v nelem nne nnode ndim ndof Hne Hnd Hmd) by apply Hc. cbn [bind]. fold (key c).
      destruct (keep (key c)); [|reflexivity]. rewrite (get2_nth 0%R u nnode ndim) by (tauto || exact Su). reflexivity. }
  cbn [bind]. rewrite concat_if_filter.
  set (l := filter (fun c => keep (key c)) order).
  assert (Hl : forall c, In c l <-> (fst c < nnode /\ snd c < ndim) /\ off q <= key c < off q + sz q).
  { intro c. unfold l. rewrite filter_In, Hin. split; intros [Q1 Q2]; (split; [exact Q1|]); apply Hk; try assumption; now apply (V_dof v nelem nne nnode ndim ndof Hne Hnd Hmd). }
  destruct (scatter_agree (fun c => key c - off q) uv l (sz q)) as [y [E0 [L0 [H0 _]]]].
  { intros c Hc. apply Hl in Hc. lia. }
  { intros c c' Hc Hc' E. apply Hl in Hc, Hc'. unfold uv. rewrite <- !Vx by tauto. fold (key c) (key c'). f_equal. lia. }
  exists y. split; [exact E0|]. split; [exact L0|]. intros k Hlt.
  assert (I1 : In (off q + k) (concat (m_dofs v))) by (apply Hh; now apply off_lt).
  destruct (proj1 (In_concat_nth2 (m_dofs v) nnode ndim _ (md_dofs _ _ _ _ _ _ _ Hmd)) I1) as [m [i [Hm [Hi Em]]]].
  pose proof (H0 (m, i)) as Q. unfold key, uv in Q. cbn [fst snd] in Q. rewrite Em in Q. replace (off q + k - off q) with k in Q by lia. rewrite Q.
  - rewrite <- Vx by assumption. now rewrite Em.
  - apply Hl. unfold key. cbn [fst snd]. lia.
Qed.

Lemma nodevec_spec a A order u x : pt_is a A -> Permutation order (node_iters v) -> shape2 u nnode ndim -> dof_values (m_dofs v) nnode ndim ndof u x ->
  (exists y, PT_u_nodevec a order u = Ok y /\ length y = nnu /\ forall k, k < nnu -> val1 y k = val1 x k) /\
  (exists y, PT_p_nodevec a order u = Ok y /\ length y = nnp /\ forall k, k < nnp -> val1 y k = val1 x (nnu + k)) /\
  (exists y, PT_d_nodevec a order u = Ok y /\ length y = nnd /\ forall k, k < nnd -> val1 y k = val1 x (nni + k)).
Proof.
  intros H Ho Su Hx. unfold PT_u_nodevec, PT_p_nodevec, PT_d_nodevec. destruct (pt_sizes a A H) as [-> [-> [-> [-> _]]]].
  split; [|split].
  - apply (keep_spec a A U _ order u x H); auto. intros d Hd. rewrite Nat.ltb_lt. cbn. lia.
  - apply (keep_spec a A P _ order u x H); auto. intros d Hd. rewrite andb_true_iff, Nat.ltb_lt, Nat.leb_le. cbn. lia.
  - apply (keep_spec a A D _ order u x H); auto. intros d Hd. rewrite Nat.leb_le. cbn. lia.
Qed.

Lemma range_dofval o n x : o + n <= length x ->
  exists y, fill1 n (fun d => do k <- get (seq o n) d; get x k) = Ok y /\ length y = n /\ forall k, k < n -> val1 y k = val1 x (o + k).
Proof.
  intro L. rewrite (fill1_Ok _ _ (fun d => val1 x (o + d))).
  - eexists. split; [reflexivity|]. split; [apply tab1_length|]. intros k Hk. unfold val1 at 1. now rewrite tab1_nth.
  - intros d Hd. rewrite (get_nth 0) by now rewrite seq_length. cbn [bind]. rewrite seq_nth by exact Hd. now apply get_nth; lia.
Qed.

(** ** the condensed system *)
Lemma tie_sum f i : i < nni -> sumn ndof (fun a => T a i * f a)%R = (f i + sumn nnd (fun k => T (nni + k) i * f (nni + k)%nat))%R.
Proof.
  intro Hi. rewrite <- Hn. rewrite sumn_app. f_equal.
  rewrite (sumn_ext _ _ (fun a => ind (a =? i)%nat * f a)%R); [now apply sumn_delta|].
  intros a Ha. unfold tie. now destruct (Nat.ltb_spec a nni); [|lia].
Qed.

Lemma tie_u k i : i < nnu -> T (nni + k) i = ent Cu k i.
Proof. intro H. unfold tie. destruct (Nat.ltb_spec (nni + k) nni); [lia|]. destruct (Nat.ltb_spec i nnu); [|lia]. f_equal. lia. Qed.
Lemma tie_p k i : T (nni + k) (nnu + i) = ent Cp k i.
Proof. unfold tie. destruct (Nat.ltb_spec (nni + k) nni); [lia|]. destruct (Nat.ltb_spec (nnu + i) nnu); [lia|]. f_equal; lia. Qed.

(** x_a = sum_j T a j x_j: nothing to show for independent DOFs *)
Lemma tie_indep a x : a < nni -> sumn nni (fun j => T a j * x j)%R = x a.
Proof.
  intro Ha. rewrite (sumn_ext _ _ (fun j => ind (a =? j)%nat * x j)%R); [now apply sumn_delta'|].
  intros j Hj. unfold tie. now destruct (Nat.ltb_spec a nni); [|lia].
Qed.
Lemma tie_dep k x : sumn nni (fun j => T (nni + k) j * x j)%R = (sumn nnu (fun j => ent Cu k j * x j) + sumn nnp (fun j => ent Cp k j * x (nnu + j)%nat))%R.
Proof.
  rewrite sumn_app. f_equal; apply sumn_ext; intros j Hj; [now rewrite tie_u|now rewrite tie_p].
Qed.

Lemma condensed_eq A i j : i < nni -> j < nni -> condensed ndof T A i j =
  (A i j + sumn nnd (fun l => A i (nni + l)%nat * T (nni + l) j) + sumn nnd (fun k => T (nni + k) i * A (nni + k)%nat j)
   + sumn nnd (fun l => sumn nnd (fun k => T (nni + k) i * A (nni + k)%nat (nni + l)%nat) * T (nni + l) j))%R.
Proof.
  intros Hi Hj. unfold condensed.
  rewrite (sumn_ext _ _ (fun a => T a i * (A a j + sumn nnd (fun l => A a (nni + l)%nat * T (nni + l) j)))%R).
  2:{ intros a Ha. rewrite sumn_scal. f_equal. rewrite (sumn_ext _ _ (fun b => T b j * A a b)%R) by (intros; lra).
      rewrite (tie_sum (A a) j Hj). f_equal. apply sumn_ext. intros. lra. }
  rewrite (tie_sum (fun a => A a j + sumn nnd (fun l => A a (nni + l)%nat * T (nni + l) j))%R i Hi).
  assert (E : sumn nnd (fun k => T (nni + k) i * (A (nni + k)%nat j + sumn nnd (fun l => A (nni + k)%nat (nni + l)%nat * T (nni + l) j)))%R =
    (sumn nnd (fun k => T (nni + k) i * A (nni + k)%nat j) + sumn nnd (fun l => sumn nnd (fun k => T (nni + k) i * A (nni + k)%nat (nni + l)%nat) * T (nni + l) j))%R).
  { rewrite (sumn_ext nnd _ (fun k => T (nni + k) i * A (nni + k)%nat j + sumn nnd (fun l => T (nni + k) i * A (nni + k)%nat (nni + l)%nat * T (nni + l) j))%R).
    2:{ intros k Hk. rewrite Rmult_plus_distr_l, <- sumn_scal. f_equal. apply sumn_ext. intros. lra. }
    rewrite sumn_plus. f_equal. rewrite sumn_swap. apply sumn_ext. intros l Hl. now rewrite sumn_scal_r. }
  rewrite E.
  lra.
Qed.

Lemma condense_spec a A q C : pt_is a A -> (q = U /\ C = Cu \/ q = P /\ C = Cp) ->
  exists m, condense a q C = Ok m /\ rows m = nnu /\ cols m = sz q /\
    forall i j, i < nnu -> j < sz q -> ent m i j = condensed ndof T A i (off q + j).
Proof.
  intros H Hq. unfold condense. rewrite (pt_u a A H).
  assert (SC : rows C = nnd /\ cols C = sz q /\ off q + sz q <= nni /\ forall k j, k < nnd -> j < sz q -> ent C k j = T (nni + k) (off q + j)).
  { destruct Hts as [X1 X2 X3 X4]. destruct Hq as [[-> ->]|[-> ->]]; cbn [sz off]; (split; [assumption|]; split; [assumption|]; split; [lia|]); intros k j Hk Hj; symmetry; [now apply tie_u|apply tie_p]. }
  destruct SC as [SC1 [SC2 [SC3 SC4]]].
  assert (ST : rows (transpose Cu) = nnu /\ cols (transpose Cu) = nnd /\ forall i k, i < nnu -> ent (transpose Cu) i k = T (nni + k) i).
  { destruct Hts as [X1 X2 X3 X4]. cbn. split; [assumption|]. split; [assumption|]. intros. symmetry. now apply tie_u. }
  destruct ST as [ST1 [ST2 ST3]].
  destruct (mulmat_spec (PT_A a U D) C nnd) as [t1 [-> [R1 [C1 V1]]]]; [apply H|exact SC1|]. rewrite (pt_r a A H) in R1. cbn [bind].
  destruct (addmat_spec (PT_A a U q) t1 nnu (sz q)) as [s1 [-> [R2 [C2 V2]]]]; [apply H|apply H|exact R1|congruence|]. cbn [bind].
  destruct (mulmat_spec (transpose Cu) (PT_A a D q) nnd) as [t2 [-> [R3 [C3 V3]]]]; [exact ST2|apply H|]. rewrite (pt_c a A H) in C3. cbn [bind].
  destruct (addmat_spec s1 t2 nnu (sz q)) as [s2 [-> [R4 [C4 V4]]]]; [exact R2|exact C2|congruence|exact C3|]. cbn [bind].
  destruct (mulmat_spec (transpose Cu) (PT_A a D D) nnd) as [t3 [-> [R5 [C5 V5]]]]; [exact ST2|apply H|]. rewrite (pt_c a A H) in C5. cbn [bind].
  destruct (mulmat_spec t3 C nnd) as [t4 [-> [R6 [C6 V6]]]]; [exact C5|exact SC1|]. cbn [bind].
  destruct (addmat_spec s2 t4 nnu (sz q)) as [s3 [-> [R7 [C7 V7]]]]; [exact R4|exact C4|congruence|congruence|].
  exists s3. split; [reflexivity|]. split; [exact R7|]. split; [exact C7|]. intros i j Hi Hj.
  rewrite V7, V4, V2, V1, V3, V6. rewrite condensed_eq by lia. rewrite (pt_e a A H U q i j Hi Hj). cbn [off Nat.add]. f_equal; [f_equal; [f_equal|]|].
  - apply sumn_ext. intros k Hk. rewrite (pt_e a A H U D i k Hi Hk), SC4 by assumption. reflexivity.
  - apply sumn_ext. intros k Hk. rewrite ST3, (pt_e a A H D q k j Hk Hj) by assumption. reflexivity.
  - apply sumn_ext. intros l Hl. rewrite V5, SC4 by assumption. f_equal. apply sumn_ext. intros k Hk. rewrite ST3, (pt_e a A H D D k l Hk Hl) by assumption. reflexivity.
Qed.

(** the residual of the condensed system *)
Lemma condensed_residual A y i : (forall a, a < ndof -> y a = sumn nni (fun j => T a j * y j)%R) ->
  sumn ndof (fun a => T a i * mv ndof A y a)%R = sumn nni (fun j => condensed ndof T A i j * y j)%R.
Proof.
  intro Hy. unfold mv, condensed.
  rewrite (sumn_ext _ _ (fun a => sumn nni (fun j => sumn ndof (fun b => T a i * (A a b * T b j) * y j)))%R).
  - rewrite sumn_swap. apply sumn_ext. intros j Hj. rewrite <- sumn_scal_r. apply sumn_ext. intros a Ha. now rewrite sumn_scal_r.
  - intros a Ha. rewrite <- sumn_scal. rewrite sumn_swap. apply sumn_ext. intros b Hb. rewrite (Hy b Hb) at 1. rewrite <- !sumn_scal. apply sumn_ext. intros. lra.
Qed.

(** ** the solver *)
Variable linsolve : mat -> list R -> list R.
Definition condensed_of (A : nat -> nat -> R) (w : MatrixTyings * Solver) : Prop :=
  rows (PT_ACup (fst w)) = nnu /\ cols (PT_ACup (fst w)) = nnp /\
  (forall i j, i < nnu -> j < nnp -> ent (PT_ACup (fst w)) i j = condensed ndof T A i (nnu + j)) /\
  exists m, S_data (snd w) = Some m /\ rows m = nnu /\ cols m = nnu /\ forall i j, i < nnu -> j < nnu -> ent m i j = condensed ndof T A i j.
Definition t_fresh (A : nat -> nat -> R) (a : MatrixTyings) (s : Solver) : Prop :=
  S_factor s = true \/ PT_changed a = true \/ condensed_of A (a, s).

Lemma pt_factorize a A s : pt_is a A -> t_fresh A a s -> exists w, PT_factorize a s = Ok w /\ pt_is (fst w) A /\ condensed_of A w.
Proof.
  intros H F. unfold PT_factorize. destruct (negb (PT_changed a) && negb (S_factor s)) eqn:E.
  - exists (a, s). split; [reflexivity|]. split; [exact H|]. apply andb_prop in E. destruct E as [E1 E2].
    destruct F as [F|[F|F]]; [rewrite F in E2; discriminate|rewrite F in E1; discriminate|exact F].
  - destruct (condense_spec a A U Cu H) as [uu [Euu [R1 [C1 V1]]]]; [now left|]. destruct (condense_spec a A P Cp H) as [up [Eup [R2 [C2 V2]]]]; [now right|].
    rewrite (pt_u a A H), (pt_p a A H), Euu. cbn [bind]. rewrite Eup. cbn [bind]. eexists. split; [reflexivity|]. cbn [fst snd]. split.
    + destruct H; split; cbn; assumption || reflexivity.
    + unfold condensed_of. cbn [fst snd PT_ACup S_data]. split; [exact R2|]. split; [exact C2|]. split; [exact V2|]. exists uu. split; [reflexivity|]. auto.
Qed.

Lemma pt_core A w bu xp : condensed_of A w -> solves_matrix linsolve nnu (condensed ndof T A) -> length bu = nnu -> length xp = nnp ->
  exists X, PT_core linsolve w bu xp = Ok X /\ length X = nnu /\
    forall y, (forall k, k < nnu -> y k = val1 X k) -> (forall k, k < nnp -> y (nnu + k) = val1 xp k) ->
      forall i, i < nnu -> sumn nni (fun j => condensed ndof T A i j * y j)%R = val1 bu i.
Proof.
  intros [R1 [C1 [V1 [m [Em [Rm [Cm Vm]]]]]]] Hs Lb Lx. unfold PT_core.
  destruct (mulvec_spec (PT_ACup (fst w)) xp) as [t [-> [Lt Vt]]]; [congruence|]. cbn [bind].
  destruct (vec2_spec Rminus bu t nnu) as [r [Er [Lr Vr]]]; [exact Lb|congruence|]. unfold subvec. rewrite Er. cbn [bind].
  unfold S_solve. rewrite Em, Lr, Rm, Nat.eqb_refl. destruct (Hs m Rm Cm Vm r Lr) as [LX HX].
  eexists. split; [reflexivity|]. split; [exact LX|]. intros y Hu Hp i Hi. rewrite sumn_app. specialize (HX i Hi). unfold mv in HX.
  rewrite (sumn_ext nnu _ (fun j => condensed ndof T A i j * val1 (linsolve m r) j)%R) by (intros j Hj; now rewrite Hu).
  rewrite HX. rewrite Vr by exact Hi. rewrite Vt by congruence. unfold mv. rewrite C1.
  rewrite (sumn_ext nnp (fun j => ent (PT_ACup (fst w)) i j * val1 xp j)%R (fun j => condensed ndof T A i (nnu + j) * y (nnu + j)%nat)%R) by (intros j Hj; now rewrite Hp, V1). lra.
Qed.

Lemma pt_xd a A X xp : pt_is a A -> length X = nnu -> length xp = nnp ->
  exists Z, PT_X_d a X xp = Ok Z /\ length Z = nnd /\ forall k, k < nnd -> val1 Z k = (sumn nnu (fun j => ent Cu k j * val1 X j) + sumn nnp (fun j => ent Cp k j * val1 xp j))%R.
Proof.
  intros H LX Lx. unfold PT_X_d. rewrite (pt_u a A H), (pt_p a A H). destruct Hts as [X1 X2 X3 X4].
  destruct (mulvec_spec Cu X) as [t [-> [Lt Vt]]]; [congruence|]. destruct (mulvec_spec Cp xp) as [t' [-> [Lt' Vt']]]; [congruence|]. cbn [bind].
  destruct (vec2_spec Rplus t t' nnd) as [z [Ez [Lz Vz]]]; [congruence|congruence|]. exists z. split; [exact Ez|]. split; [exact Lz|].
  intros k Hk. rewrite Vz by exact Hk. rewrite Vt, Vt' by congruence. unfold mv. now rewrite X1, X2.
Qed.

(** values of all DOFs *)
Definition all_dofs (X xp Z : list R) (d : nat) : R := if d <? nnu then val1 X d else if nni <=? d then val1 Z (d - nni) else val1 xp (d - nnu).
Lemma all_u X xp Z k : k < nnu -> all_dofs X xp Z k = val1 X k.
Proof. intro H. unfold all_dofs. now destruct (Nat.ltb_spec k nnu); [|lia]. Qed.
Lemma all_p X xp Z k : k < nnp -> all_dofs X xp Z (nnu + k) = val1 xp k.
Proof. intro H. unfold all_dofs. destruct (Nat.ltb_spec (nnu + k) nnu); [lia|]. destruct (Nat.leb_spec nni (nnu + k)); [lia|]. f_equal. lia. Qed.
Lemma all_d X xp Z k : all_dofs X xp Z (nni + k) = val1 Z k.
Proof. unfold all_dofs. destruct (Nat.ltb_spec (nni + k) nnu); [lia|]. destruct (Nat.leb_spec nni (nni + k)); [|lia]. f_equal. lia. Qed.

Lemma all_tied X xp Z : (forall k, k < nnd -> val1 Z k = (sumn nnu (fun j => ent Cu k j * val1 X j) + sumn nnp (fun j => ent Cp k j * val1 xp j))%R) ->
  forall d, d < ndof -> all_dofs X xp Z d = sumn nni (fun j => T d j * all_dofs X xp Z j)%R.
Proof.
  intros HZ d Hd. destruct (le_lt_dec nni d) as [L|L].
  - replace d with (nni + (d - nni)) by lia. rewrite tie_dep, all_d, HZ by lia.
    f_equal; apply sumn_ext; intros j Hj; [now rewrite all_u|now rewrite all_p].
  - now rewrite tie_indep.
Qed.

Theorem pt_solve_nodevec a A s order b x B X0 : pt_is a A -> t_fresh A a s -> solves_matrix linsolve nnu (condensed ndof T A) ->
  Permutation order (node_iters v) -> shape2 b nnode ndim -> dof_values (m_dofs v) nnode ndim ndof b B ->
  shape2 x nnode ndim -> dof_values (m_dofs v) nnode ndim ndof x X0 ->
  exists y s' a' Y, PT_solve_nodevec a linsolve s order b x = Ok (y, s', a') /\ pt_is a' A /\ condensed_of A (a', s') /\
    shape2 y nnode ndim /\ dof_values (m_dofs v) nnode ndim ndof y Y /\
    (forall d, nnu <= d < nni -> val1 Y d = val1 X0 d) /\
    (forall d, d < ndof -> val1 Y d = sumn nni (fun j => T d j * val1 Y j)%R) /\
    (forall i, i < nnu -> sumn ndof (fun c => T c i * (mv ndof A (val1 Y) c - val1 B c))%R = 0%R).
Proof.
  intros H F Hs Ho Sb Hb Sx Hx. unfold PT_solve_nodevec. destruct (pt_factorize a A s H F) as [w [-> [Hw Cw]]]. cbn [bind].
  destruct (nodevec_spec a A order b B H Ho Sb Hb) as [[bu [-> [Lbu Vbu]]] [_ [bd [-> [Lbd Vbd]]]]].
  destruct (nodevec_spec a A order x X0 H Ho Sx Hx) as [_ [[xp [-> [Lxp Vxp]]] _]]. cbn [bind]. rewrite (pt_u a A H).
  destruct Hts as [Z1 Z2 Z3 Z4].
  destruct (mulvec_spec (transpose Cu) bd) as [t [-> [Lt Vt]]]; [cbn; congruence|]. cbn [bind]. cbn [rows cols transpose] in Lt, Vt. rewrite Z1 in Lt, Vt. rewrite Z3 in Vt.
  destruct (vec2_spec Rplus bu t nnu) as [bb [Ebb [Lbb Vbb]]]; [exact Lbu|exact Lt|]. unfold addvec. rewrite Ebb. cbn [bind].
  destruct (pt_core A w bb xp Cw Hs Lbb Lxp) as [X [-> [LX HX]]]. cbn [bind].
  destruct (pt_xd a A X xp H LX Lxp) as [Z [-> [LZ VZ]]]. cbn [bind].
  rewrite (pt_v a A H). destruct (pt_sizes a A H) as [-> [_ [_ [-> _]]]].
  destruct (V_sizes v nelem nne nnode ndim ndof Hne Hnd Hmd) as [_ [-> _]]. rewrite Hnd.
  set (f := all_dofs X xp Z).
  rewrite (fill2_Ok _ _ _ (fun m i => f (dof m i))).
  2:{ intros m i Hm Hi. rewrite (V_get_dof v nelem nne nnode ndim ndof Hne Hnd Hmd) by assumption. cbn [bind]. unfold f, all_dofs.
      pose proof (V_dof v nelem nne nnode ndim ndof Hne Hnd Hmd m i Hm Hi) as Hd.
      destruct (Nat.ltb_spec (dof m i) nnu); [apply get_nth; lia|]. destruct (Nat.leb_spec nni (dof m i)); [apply get_nth; lia|].
      rewrite (get2_nth 0%R x nnode ndim) by assumption. f_equal. rewrite Vxp by lia. destruct Hx as [_ Vx]. fold (val2 x m i). rewrite <- Vx by assumption. f_equal. lia. }
  cbn [bind]. exists (tab2 nnode ndim (fun m i => f (dof m i))), (snd w), (fst w), (tab1 ndof f). split; [reflexivity|]. split; [exact Hw|]. split; [now destruct w|]. split; [apply tab2_shape|].
  assert (Vf : forall d, d < ndof -> val1 (tab1 ndof f) d = f d) by (intros d Hd; unfold val1; now rewrite tab1_nth).
  split; [split; [apply tab1_length|]|split; [|split]].
  - intros m i Hm Hi. unfold val2. rewrite tab2_nth by assumption. apply Vf. now apply (V_dof v nelem nne nnode ndim ndof Hne Hnd Hmd).
  - intros d Hd. rewrite Vf by lia. replace d with (nnu + (d - nnu)) by lia. unfold f. rewrite all_p by lia. apply Vxp. lia.
  - intros d Hd. rewrite Vf by exact Hd. unfold f. rewrite (all_tied X xp Z VZ d Hd) at 1. apply sumn_ext. intros j Hj. rewrite Vf by lia. reflexivity.
  - intros i Hi. rewrite (sumn_ext _ _ (fun c => T c i * mv ndof A f c + - (1) * (T c i * val1 B c))%R).
    2:{ intros c Hc. rewrite (mv_ext ndof A A (val1 (tab1 ndof f)) f) by (auto using Vf). lra. }
    rewrite sumn_plus, sumn_scal. rewrite (condensed_residual A f i (all_tied X xp Z VZ)).
    rewrite (HX f (fun k Hk => all_u X xp Z k Hk) (fun k Hk => all_p X xp Z k Hk) i Hi).
    rewrite (tie_sum (val1 B) i) by lia. rewrite Vbb by exact Hi. rewrite Vbu by exact Hi. rewrite Vt by exact Hi. unfold mv. cbn [ent transpose].
    rewrite (sumn_ext nnd (fun b0 => ent Cu b0 i * val1 bd b0)%R (fun k => T (nni + k) i * val1 B (nni + k))%R) by (intros k Hk; rewrite tie_u, Vbd by assumption; reflexivity).
    lra.
Qed.

(** ** DOF values *)
Lemma pt_d_oob a A x : pt_is a A -> nnp < nnd -> nni <= length x -> PT_d_dofval a x = Oob.
Proof.
  intros H L Lx. unfold PT_d_dofval. destruct (pt_sizes a A H) as [_ [_ [-> _]]]. rewrite (pt_ii a A P H). cbn [off sz].
  unfold fill1. replace nnd with (nnp + S (nnd - nnp - 1)) by lia. rewrite seq_app, mapM_app. cbn [Nat.add].
  rewrite (mapM_Ok _ _ (fun d => val1 x (nnu + d))).
  2:{ intros d Hd. apply in_seq in Hd. rewrite (get_nth 0) by (rewrite seq_length; lia). cbn [bind]. rewrite seq_nth by lia. now apply get_nth; lia. }
  cbn [bind seq mapM]. unfold get at 1. rewrite (proj2 (nth_error_None (seq nnu nnp) nnp)) by (rewrite seq_length; lia). reflexivity.
Qed.

Lemma dofval_parts a A x : pt_is a A -> length x = ndof ->
  (exists y, PT_u_dofval a x = Ok y /\ length y = nnu /\ forall k, k < nnu -> val1 y k = val1 x k) /\
  (exists y, PT_p_dofval a x = Ok y /\ length y = nnp /\ forall k, k < nnp -> val1 y k = val1 x (nnu + k)) /\
  (nnd <= nnp -> exists y, PT_d_dofval a x = Ok y).
Proof.
  intros H L. unfold PT_u_dofval, PT_p_dofval, PT_d_dofval. destruct (pt_sizes a A H) as [-> [-> [-> _]]]. rewrite (pt_ii a A U H), (pt_ii a A P H). cbn [off sz].
  split; [apply (range_dofval 0 nnu x); lia|]. split; [apply (range_dofval nnu nnp x); lia|]. intro Ld.
  rewrite (fill1_Ok _ _ (fun d => val1 x (nnu + d))); [eauto|]. intros d Hd. rewrite (get_nth 0) by (rewrite seq_length; lia). cbn [bind]. rewrite seq_nth by lia. now apply get_nth; lia.
Qed.

Lemma NoDup_range o n : NoDup (seq o n).
Proof. apply seq_NoDup. Qed.

Lemma pt_writes a A X Z x : pt_is a A -> length X = nnu -> length Z = nnd -> length x = ndof ->
  exists y, (do wu <- index_writes (PT_ii a U) X; do y <- write_all x wu; do wd <- index_writes (PT_ii a D) Z; write_all y wd) = Ok y /\ length y = ndof /\
    forall d, d < ndof -> val1 y d = if d <? nnu then val1 X d else if nni <=? d then val1 Z (d - nni) else val1 x d.
Proof.
  intros H LX LZ Lx. rewrite (pt_ii a A U H), (pt_ii a A D H). cbn [off sz].
  destruct (write_index (seq 0 nnu) X x ndof) as [y1 [W1 [L1 [I1 O1]]]]; [exact Lx|apply seq_NoDup|intros d Hd; apply in_seq in Hd; lia|now rewrite seq_length|].
  destruct (index_writes (seq 0 nnu) X) as [w| | |]; try discriminate. cbn [bind] in *. rewrite W1. cbn [bind].
  destruct (write_index (seq nni nnd) Z y1 ndof) as [y2 [W2 [L2 [I2 O2]]]]; [exact L1|apply seq_NoDup|intros d Hd; apply in_seq in Hd; lia|now rewrite seq_length|].
  exists y2. split; [exact W2|]. split; [exact L2|]. intros d Hd.
  destruct (Nat.leb_spec nni d) as [L|L].
  - destruct (Nat.ltb_spec d nnu); [lia|]. rewrite (I2 (d - nni) d); [reflexivity|]. apply seq_nth_error. lia.
  - rewrite O2; [|exact Hd|rewrite in_seq; lia]. destruct (Nat.ltb_spec d nnu).
    + apply I1. apply seq_nth_error. lia.
    + apply O1; [exact Hd|rewrite in_seq; lia].
Qed.

Lemma pt_solve_dofval_eq a s b x : PT_solve_dofval a linsolve s b x =
  do w <- PT_factorize a s; do B_u <- PT_u_dofval a b; do B_d <- PT_d_dofval a b; do X_p <- PT_p_dofval a x;
  do X_u <- PT_core linsolve w B_u X_p; do X_d <- PT_X_d a X_u X_p;
  do y <- (do wu <- index_writes (PT_ii a U) X_u; do y <- write_all x wu; do wd <- index_writes (PT_ii a D) X_d; write_all y wd);
  Ok (y, snd w, fst w).
Proof.
  unfold PT_solve_dofval. destruct (PT_factorize a s); cbn [bind]; try reflexivity. destruct (PT_u_dofval a b); cbn [bind]; try reflexivity.
  destruct (PT_d_dofval a b); cbn [bind]; try reflexivity. destruct (PT_p_dofval a x); cbn [bind]; try reflexivity.
  destruct (PT_core _ _ _ _) as [X| | |]; cbn [bind]; try reflexivity. destruct (PT_X_d a X _) as [Z| | |]; cbn [bind]; try reflexivity.
  destruct (index_writes (PT_ii a U) X); cbn [bind]; try reflexivity. destruct (write_all x _); cbn [bind]; try reflexivity.
  destruct (index_writes (PT_ii a D) Z); cbn [bind]; reflexivity.
Qed.

Theorem pt_solve_dofval a A s b x : pt_is a A -> t_fresh A a s -> solves_matrix linsolve nnu (condensed ndof T A) -> nnd <= nnp ->
  length b = ndof -> length x = ndof ->
  exists y s' a', PT_solve_dofval a linsolve s b x = Ok (y, s', a') /\ pt_is a' A /\ condensed_of A (a', s') /\ length y = ndof /\
    (forall d, nnu <= d < nni -> val1 y d = val1 x d) /\
    (forall d, d < ndof -> val1 y d = sumn nni (fun j => T d j * val1 y j)%R) /\
    (forall i, i < nnu -> sumn ndof (fun c => T c i * mv ndof A (val1 y) c)%R = val1 b i).
Proof.
  intros H F Hs Ld Lb Lx. rewrite pt_solve_dofval_eq. destruct (pt_factorize a A s H F) as [w [-> [Hw Cw]]]. cbn [bind].
  destruct (dofval_parts a A b H Lb) as [[bu [-> [Lbu Vbu]]] [_ Hd]]. destruct (Hd Ld) as [bd ->]. cbn [bind].
  destruct (dofval_parts a A x H Lx) as [_ [[xp [-> [Lxp Vxp]]] _]]. cbn [bind].
  destruct (pt_core A w bu xp Cw Hs Lbu Lxp) as [X [-> [LX HX]]]. cbn [bind].
  destruct (pt_xd a A X xp H LX Lxp) as [Z [-> [LZ VZ]]]. cbn [bind].
  destruct (pt_writes a A X Z x H LX LZ Lx) as [y [-> [Ly Vy]]]. cbn [bind].
  exists y, (snd w), (fst w). split; [reflexivity|]. split; [exact Hw|]. split; [now destruct w|]. split; [exact Ly|].
  assert (Vf : forall d, d < ndof -> val1 y d = all_dofs X xp Z d).
  { intros d Hd'. rewrite Vy by exact Hd'. unfold all_dofs. destruct (Nat.ltb_spec d nnu); [reflexivity|]. destruct (Nat.leb_spec nni d); [reflexivity|].
    rewrite Vxp by lia. f_equal. lia. }
  split; [|split].
  - intros d Hd'. rewrite Vy by lia. destruct (Nat.ltb_spec d nnu); [lia|]. now destruct (Nat.leb_spec nni d); [lia|].
  - intros d Hd'. rewrite Vf by exact Hd'. rewrite (all_tied X xp Z VZ d Hd') at 1. apply sumn_ext. intros j Hj. rewrite Vf by lia. reflexivity.
  - intros i Hi. rewrite (sumn_ext _ _ (fun c => T c i * mv ndof A (all_dofs X xp Z) c)%R).
    2:{ intros c Hc. rewrite (mv_ext ndof A A (val1 y) (all_dofs X xp Z)) by (auto using Vf). reflexivity. }
    rewrite (condensed_residual A _ i (all_tied X xp Z VZ)).
    rewrite (HX (all_dofs X xp Z) (fun k Hk => all_u X xp Z k Hk) (fun k Hk => all_p X xp Z k Hk) i Hi). now apply Vbu.
Qed.

Theorem pt_solve_dofval_oob a A s b x : pt_is a A -> t_fresh A a s -> nnp < nnd -> length b = ndof -> PT_solve_dofval a linsolve s b x = Oob.
Proof.
  intros H F L Lb. unfold PT_solve_dofval. destruct (pt_factorize a A s H F) as [w [-> _]]. cbn [bind].
  destruct (dofval_parts a A b H Lb) as [[bu [-> _]] _]. cbn [bind]. rewrite (pt_d_oob a A b H L) by lia. reflexivity.
Qed.

Theorem pt_solve_u a A s bu bd xp : pt_is a A -> t_fresh A a s -> solves_matrix linsolve nnu (condensed ndof T A) -> length bu = nnu -> length xp = nnp ->
  exists X s' a', PT_solve_u a linsolve s bu bd xp = Ok (X, s', a') /\ pt_is a' A /\ condensed_of A (a', s') /\ length X = nnu /\
    forall y, (forall k, k < nnu -> y k = val1 X k) -> (forall k, k < nnp -> y (nnu + k) = val1 xp k) ->
      (forall d, d < ndof -> y d = sumn nni (fun j => T d j * y j)%R) ->
      forall i, i < nnu -> sumn ndof (fun c => T c i * mv ndof A y c)%R = val1 bu i.
Proof.
  intros H F Hs Lb Lx. unfold PT_solve_u. destruct (pt_factorize a A s H F) as [w [-> [Hw Cw]]]. cbn [bind].
  destruct (pt_core A w bu xp Cw Hs Lb Lx) as [X [-> [LX HX]]]. cbn [bind].
  exists X, (snd w), (fst w). split; [reflexivity|]. split; [exact Hw|]. split; [now destruct w|]. split; [exact LX|].
  intros y Hu Hp Ht i Hi. rewrite (condensed_residual A y i Ht). now apply (HX y Hu Hp).
Qed.

(** the two variants agree if and only if the dependent part of b has no effect *)
Theorem pt_agree a A s order b x bn xn : pt_is a A -> t_fresh A a s -> solves_matrix linsolve nnu (condensed ndof T A) -> nnd <= nnp ->
  Permutation order (node_iters v) -> length b = ndof -> length x = ndof -> AsNode_dofval v b = Ok bn -> AsNode_dofval v x = Ok xn ->
  exists y s' a' yn z, PT_solve_dofval a linsolve s b x = Ok (y, s', a') /\ PT_solve_nodevec a linsolve s order bn xn = Ok (yn, s', a') /\
    AsNode_dofval v y = Ok z /\ (z = yn <-> forall i, i < nnu -> sumn nnd (fun k => ent Cu k i * val1 b (nni + k))%R = 0%R).
Proof.
  intros H F Hs Ld Ho Lb Lx Eb Ex.
  destruct (AsNode_dofval_spec v nelem nne nnode ndim ndof Hne Hnd Hmd b Lb) as [bn' [Eb' [Sb Vb]]]. rewrite Eb in Eb'. injection Eb' as Eb'. rewrite <- Eb' in *.
  destruct (AsNode_dofval_spec v nelem nne nnode ndim ndof Hne Hnd Hmd x Lx) as [xn' [Ex' [Sx Vx]]]. rewrite Ex in Ex'. injection Ex' as Ex'. rewrite <- Ex' in *.
  assert (Db : dof_values (m_dofs v) nnode ndim ndof bn b) by (split; [exact Lb|intros; symmetry; now apply Vb]).
  assert (Dx : dof_values (m_dofs v) nnode ndim ndof xn x) by (split; [exact Lx|intros; symmetry; now apply Vx]).
  destruct (pt_solve_dofval a A s b x H F Hs Ld Lb Lx) as [y [s1 [a1 [E1 [_ [_ [Ly [P1 [T1 Q1]]]]]]]]].
  destruct (pt_solve_nodevec a A s order bn xn b x H F Hs Ho Sb Db Sx Dx) as [yn [s2 [a2 [Y [E2 [_ [_ [Sy [[LY DY] [P2 [T2 Q2]]]]]]]]]]].
  destruct (AsNode_dofval_spec v nelem nne nnode ndim ndof Hne Hnd Hmd y Ly) as [z [Ez [Sz Vz]]].
  assert (Eq : s2 = s1 /\ a2 = a1).
  { revert E1 E2. rewrite pt_solve_dofval_eq. unfold PT_solve_nodevec. destruct (PT_factorize a s) as [w| | |]; cbn [bind]; try discriminate.
    intros E1 E2. split.
    - assert (s1 = snd w); [|assert (s2 = snd w); [|congruence]].
      + revert E1. repeat match goal with |- context [bind ?e _] => destruct e; cbn [bind]; try discriminate end. congruence.
      + revert E2. repeat match goal with |- context [bind ?e _] => destruct e; cbn [bind]; try discriminate end. congruence.
    - assert (a1 = fst w); [|assert (a2 = fst w); [|congruence]].
      + revert E1. repeat match goal with |- context [bind ?e _] => destruct e; cbn [bind]; try discriminate end. congruence.
      + revert E2. repeat match goal with |- context [bind ?e _] => destruct e; cbn [bind]; try discriminate end. congruence. }
  destruct Eq as [-> ->]. exists y, s1, a1, yn, z. split; [exact E1|]. split; [exact E2|]. split; [exact Ez|].
  assert (QB : forall i, i < nnu -> sumn ndof (fun c => T c i * mv ndof A (val1 Y) c)%R = (val1 b i + sumn nnd (fun k => ent Cu k i * val1 b (nni + k)))%R).
  { intros i Hi. specialize (Q2 i Hi). rewrite (sumn_ext _ _ (fun c => T c i * mv ndof A (val1 Y) c + - (1) * (T c i * val1 b c))%R) in Q2 by (intros; lra).
    rewrite sumn_plus, sumn_scal in Q2. rewrite (tie_sum (val1 b) i) in Q2 by lia.
    rewrite (sumn_ext nnd _ (fun k => ent Cu k i * val1 b (nni + k))%R) in Q2 by (intros k Hk; now rewrite tie_u). lra. }
  split.
  - intros Ezn i Hi. assert (YY : forall d, d < ndof -> val1 Y d = val1 y d).
    { intros d Hd. destruct (proj1 (In_concat_nth2 (m_dofs v) nnode ndim d (md_dofs _ _ _ _ _ _ _ Hmd)) (Hh d Hd)) as [m [j [Hm [Hj Em]]]].
      rewrite <- Em. rewrite DY by assumption. rewrite <- Ezn. now apply Vz. }
    specialize (QB i Hi). specialize (Q1 i Hi).
    rewrite (sumn_ext _ _ (fun c => T c i * mv ndof A (val1 y) c)%R) in QB.
    + lra.
    + intros c Hc. rewrite (mv_ext ndof A A (val1 Y) (val1 y)) by auto. reflexivity.
  - intro Hz. revert E1 E2. rewrite pt_solve_dofval_eq. unfold PT_solve_nodevec.
    destruct (pt_factorize a A s H F) as [w [-> [Hw Cw]]]. cbn [bind].
    destruct (dofval_parts a A b H Lb) as [[bu [-> [Lbu Vbu]]] [_ Hd]]. destruct (Hd Ld) as [bd' ->]. cbn [bind].
    destruct (dofval_parts a A x H Lx) as [_ [[xp [-> [Lxp Vxp]]] _]]. cbn [bind].
    destruct (nodevec_spec a A order bn b H Ho Sb Db) as [[bu2 [-> [Lbu2 Vbu2]]] [_ [bd [-> [Lbd Vbd]]]]].
    destruct (nodevec_spec a A order xn x H Ho Sx Dx) as [_ [[xp2 [-> [Lxp2 Vxp2]]] _]]. cbn [bind]. rewrite (pt_u a A H).
    destruct Hts as [Z1 Z2 Z3 Z4].
    destruct (mulvec_spec (transpose Cu) bd) as [t [-> [Lt Vt]]]; [cbn; congruence|]. cbn [bind]. cbn [rows cols transpose] in Lt, Vt. rewrite Z1 in Lt, Vt. rewrite Z3 in Vt.
    destruct (vec2_spec Rplus bu2 t nnu) as [bb [Ebb [Lbb Vbb]]]; [exact Lbu2|exact Lt|]. unfold addvec. rewrite Ebb. cbn [bind].
    assert (B1 : bb = bu).
    { apply (list_ext1 0%R _ _ nnu Lbb Lbu). intros i Hi. change (val1 bb i = val1 bu i). rewrite Vbb, Vbu2, Vbu, Vt by exact Hi.
      unfold mv. rewrite <- (Rplus_0_r (val1 b i)) at 2. f_equal. rewrite <- (Hz i Hi). apply sumn_ext. intros k Hk. now rewrite Vbd. }
    assert (B2 : xp2 = xp).
    { apply (list_ext1 0%R _ _ nnp Lxp2 Lxp). intros i Hi. change (val1 xp2 i = val1 xp i). now rewrite Vxp, Vxp2. }
    rewrite B1, B2. destruct (pt_core A w bu xp Cw Hs Lbu Lxp) as [X [-> [LX HX]]]. cbn [bind].
    destruct (pt_xd a A X xp H LX Lxp) as [Z [-> [LZ VZ]]]. cbn [bind].
    destruct (pt_writes a A X Z x H LX LZ Lx) as [y' [-> [_ Vy']]]. cbn [bind]. intro E. injection E as E _ _. rewrite E in Vy'.
    rewrite (pt_v a A H). destruct (pt_sizes a A H) as [-> [_ [_ [-> _]]]].
    destruct (V_sizes v nelem nne nnode ndim ndof Hne Hnd Hmd) as [_ [-> _]]. rewrite Hnd.
    rewrite (fill2_Ok _ _ _ (fun m i => val1 y (dof m i))).
    2:{ intros m i Hm Hi. rewrite (V_get_dof v nelem nne nnode ndim ndof Hne Hnd Hmd) by assumption. cbn [bind].
        pose proof (V_dof v nelem nne nnode ndim ndof Hne Hnd Hmd m i Hm Hi) as Hdl. rewrite Vy' by exact Hdl.
        destruct (Nat.ltb_spec (dof m i) nnu); [apply get_nth; lia|]. destruct (Nat.leb_spec nni (dof m i)); [apply get_nth; lia|].
        rewrite (get2_nth 0%R xn nnode ndim) by assumption. f_equal. now apply Vx. }
    cbn [bind]. intro E'. injection E' as E' _ _. rewrite <- E'. apply (list_ext2 0%R _ _ nnode ndim Sz (tab2_shape _ _ _)).
    intros m i Hm Hi. rewrite tab2_nth by assumption. now apply Vz.
Qed.

(** ** histories *)
Notation lastA := (last_assembled (m_conn v) (m_dofs v) nelem nne ndim).
Definition entry_top (A : nat -> nat -> R) (o : top) : nat -> nat -> R := match o with TAssemble K => asm K | _ => A end.

Ltac unchain := repeat match goal with |- context [bind ?e _] => destruct e; cbn [bind]; try discriminate end; let E := fresh in intro E; injection E as E; rewrite <- E; auto.
Lemma w_dofval a s w b x r : PT_factorize a s = Ok w -> PT_solve_dofval a linsolve s b x = Ok r -> snd r = fst w /\ snd (fst r) = snd w.
Proof. intro E0. unfold PT_solve_dofval. rewrite E0. cbn [bind]. unchain. Qed.
Lemma w_nodevec a s w order b x r : PT_factorize a s = Ok w -> PT_solve_nodevec a linsolve s order b x = Ok r -> snd r = fst w /\ snd (fst r) = snd w.
Proof. intro E0. unfold PT_solve_nodevec. rewrite E0. cbn [bind]. unchain. Qed.
Lemma w_u a s w b c x r : PT_factorize a s = Ok w -> PT_solve_u a linsolve s b c x = Ok r -> snd r = fst w /\ snd (fst r) = snd w.
Proof. intro E0. unfold PT_solve_u. rewrite E0. cbn [bind]. unchain. Qed.

Lemma run_top_step a s A o w : pt_is a A -> t_fresh A a s -> valid_top nelem nne ndim o -> run_top linsolve (a, s) o = Ok w ->
  pt_is (fst w) (entry_top A o) /\ t_fresh (entry_top A o) (fst w) (snd w).
Proof.
  intros H F Ho. destruct o as [K|b x|order b x|b c x]; cbn [run_top fst snd entry_top].
  - destruct (pt_assemble a A K H Ho) as [a1 [-> [H1 C1]]]. cbn [bind]. intro E. injection E as E. rewrite <- E. cbn [fst snd]. split; [exact H1|]. right. now left.
  - destruct (PT_solve_dofval a linsolve s b x) as [r| | |] eqn:Er; cbn [bind]; try discriminate. intro E. injection E as E. rewrite <- E. cbn [fst snd].
    destruct (pt_factorize a A s H F) as [w' [Ew [Hw Cw]]]. destruct (w_dofval a s w' b x r Ew Er) as [-> ->]. split; [exact Hw|]. right. right. now destruct w'.
  - destruct (PT_solve_nodevec a linsolve s order b x) as [r| | |] eqn:Er; cbn [bind]; try discriminate. intro E. injection E as E. rewrite <- E. cbn [fst snd].
    destruct (pt_factorize a A s H F) as [w' [Ew [Hw Cw]]]. destruct (w_nodevec a s w' order b x r Ew Er) as [-> ->]. split; [exact Hw|]. right. right. now destruct w'.
  - destruct (PT_solve_u a linsolve s b c x) as [r| | |] eqn:Er; cbn [bind]; try discriminate. intro E. injection E as E. rewrite <- E. cbn [fst snd].
    destruct (pt_factorize a A s H F) as [w' [Ew [Hw Cw]]]. destruct (w_u a s w' b c x r Ew Er) as [-> ->]. split; [exact Hw|]. right. right. now destruct w'.
Qed.

Lemma run_tops : forall ops a s A w, pt_is a A -> t_fresh A a s -> Forall (valid_top nelem nne ndim) ops -> foldM (run_top linsolve) ops (a, s) = Ok w ->
  pt_is (fst w) (fold_left entry_top ops A) /\ t_fresh (fold_left entry_top ops A) (fst w) (snd w).
Proof.
  induction ops as [|o ops IH]; intros a s A w H F Hok; cbn [foldM].
  - intro E. injection E as E. rewrite <- E. auto.
  - destruct (run_top linsolve (a, s) o) as [[a1 s1]| | |] eqn:E1; cbn [bind]; try discriminate. intro E2.
    destruct (run_top_step a s A o (a1, s1) H F (Forall_inv Hok) E1) as [H1 F1].
    exact (IH a1 s1 _ w H1 F1 (Forall_inv_tail Hok) E2).
Qed.

Theorem run_history ops a s : Forall (valid_top nelem nne ndim) ops -> foldM (run_top linsolve) ops (new_MatrixTyings v Cu Cp, new_Solver) = Ok (a, s) ->
  pt_is a (lastA ops) /\ t_fresh (lastA ops) a s.
Proof. intros Hok E. exact (run_tops ops (new_MatrixTyings v Cu Cp) new_Solver (fun _ _ => 0%R) (a, s) pt_new (or_introl eq_refl) Hok E). Qed.

Theorem history_solve ops a s order b x : Forall (valid_top nelem nne ndim) ops -> foldM (run_top linsolve) ops (new_MatrixTyings v Cu Cp, new_Solver) = Ok (a, s) ->
  solves_matrix linsolve nnu (condensed ndof T (lastA ops)) ->
  Permutation order (node_iters v) -> shape2 b nnode ndim -> agree2 (m_dofs v) nnode ndim b -> shape2 x nnode ndim -> agree2 (m_dofs v) nnode ndim x ->
  exists y s' a' Y B, PT_solve_nodevec a linsolve s order b x = Ok (y, s', a') /\ shape2 y nnode ndim /\
    dof_values (m_dofs v) nnode ndim ndof y Y /\ dof_values (m_dofs v) nnode ndim ndof b B /\
    (forall m i, m < nnode -> i < ndim -> nnu <= dof m i < nni -> val2 y m i = val2 x m i) /\
    (forall d, d < ndof -> val1 Y d = sumn nni (fun j => T d j * val1 Y j)%R) /\
    (forall i, i < nnu -> sumn ndof (fun c => T c i * (mv ndof (lastA ops) (val1 Y) c - val1 B c))%R = 0%R).
Proof.
  intros Hok E Hs Ho Sb Ab Sx Ax. destruct (run_history ops a s Hok E) as [H F].
  destruct (AsDofs_nodevec_spec v nelem nne nnode ndim ndof Hne Hnd Hmd order b Ho Sb Ab) as [B [_ [LB [VB _]]]].
  destruct (AsDofs_nodevec_spec v nelem nne nnode ndim ndof Hne Hnd Hmd order x Ho Sx Ax) as [X [_ [LX [VX _]]]].
  destruct (pt_solve_nodevec a (lastA ops) s order b x B X H F Hs Ho Sb (conj LB VB) Sx (conj LX VX)) as [y [s' [a' [Y [Ey [_ [_ [Sy [[LY DY] [HP [HT HR]]]]]]]]]]].
  exists y, s', a', Y, B. split; [exact Ey|]. split; [exact Sy|]. split; [split; assumption|]. split; [split; assumption|]. split; [|split; assumption].
  intros m i Hm Hi Hd. rewrite <- DY, <- VX by assumption. now apply HP.
Qed.
End T.
Unset Default Proof Using.
