(** Proofs about Matrix and MatrixSolver. *)
From Coq Require Import Reals Lra.
From Verif Require Import Base Spec Sums Spec_Vector Spec_Matrix Model_Numbering Model_Vector Proof_Vector Proof_Vector2 Model_Sparse Model_MatrixPartitioned
  Model_VectorPartitioned Proof_VectorPartitioned Model_Tyings Proof_Tyings Proof_Tyings2 Model_Matrix Spec_MatrixOps.

(** ** triplets *)
Notation trow := (fun t : nat * nat * R => fst (fst t)).
Notation tcol := (fun t : nat * nat * R => snd (fst t)).
Notation tval := (fun t : nat * nat * R => snd t).

(** the entry of a list of triplets *)
Definition entT (ts : list (nat * nat * R)) (a b : nat) : R :=
  sumL ts (fun t => ind ((fst (fst t) =? a) && (snd (fst t) =? b))%nat * snd t)%R.

Lemma setFromTriplets_Ok r c ts : (forall t, In t ts -> trow t < r /\ tcol t < c) ->
  setFromTriplets r c ts = Ok (mkMat r c (entT ts)).
Proof.
  intro H. unfold setFromTriplets.
  replace (forallb _ ts) with true; [reflexivity|]. symmetry. apply forallb_forall. intros t Ht.
  apply H in Ht. rewrite andb_true_iff, !Nat.ltb_lt. exact Ht.
Qed.

Lemma setFromTriplets_inv r c ts m : setFromTriplets r c ts = Ok m -> m = mkMat r c (entT ts).
Proof. unfold setFromTriplets. destruct (forallb _ ts); [|discriminate]. intro E. injection E as E. now rewrite <- E. Qed.

Lemma sel_Ok p sr sc r c ts :
  (forall t, In t ts -> p (trow t) (tcol t) = true -> sr <= trow t < sr + r /\ sc <= tcol t < sc + c) ->
  (forall i j, i < r -> j < c -> p (sr + i) (sc + j) = true) ->
  exists m, setFromTriplets r c (sel p sr sc ts) = Ok m /\ rows m = r /\ cols m = c /\
    forall i j, i < r -> j < c -> ent m i j = entT ts (sr + i) (sc + j).
Proof.
  intros H1 H2. rewrite setFromTriplets_Ok.
  - eexists. split; [reflexivity|]. split; [reflexivity|]. split; [reflexivity|]. intros i j Hi Hj. cbn [ent].
    unfold entT, sel. rewrite sumL_map, sumL_filter. apply sumL_ext. intros t Ht. cbn [fst snd].
    destruct (p (fst (fst t)) (snd (fst t))) eqn:P.
    + destruct (H1 t Ht P) as [[A1 A2] [B1 B2]].
      replace (fst (fst t) - sr =? i) with (fst (fst t) =? sr + i) by (destruct (Nat.eqb_spec (fst (fst t)) (sr + i)), (Nat.eqb_spec (fst (fst t) - sr) i); auto; lia).
      replace (snd (fst t) - sc =? j) with (snd (fst t) =? sc + j) by (destruct (Nat.eqb_spec (snd (fst t)) (sc + j)), (Nat.eqb_spec (snd (fst t) - sc) j); auto; lia).
      change (ind true) with 1%R. lra.
    + change (ind false) with 0%R. destruct (Nat.eqb_spec (fst (fst t)) (sr + i)) as [E1|], (Nat.eqb_spec (snd (fst t)) (sc + j)) as [E2|]; cbn [andb]; try (change (ind false) with 0%R; lra).
      rewrite E1, E2, H2 in P by assumption. discriminate.
  - intros t Ht. unfold sel in Ht. apply in_map_iff in Ht. destruct Ht as [t0 [<- H0]]. apply filter_In in H0. cbn [fst snd].
    destruct (H1 t0 (proj1 H0) (proj2 H0)). lia.
Qed.

(** the triplets of element matrices *)
Lemma elemmat_triplets_spec v nelem nne nnode ndim ndof d (D : nat -> nat -> nat -> nat) N K :
  m_nne v = nne -> m_ndim v = ndim -> mesh_dofs (m_conn v) (m_dofs v) nelem nne nnode ndim ndof ->
  (forall e m i, e < nelem -> m < nne -> i < ndim -> d e m i = Ok (D e m i) /\ D e m i < N) ->
  shape3 K nelem (nne * ndim) (nne * ndim) ->
  exists ts, elemmat_triplets v d K = Ok ts /\ (forall t, In t ts -> trow t < N /\ tcol t < N) /\
   forall g, sumL ts (fun t => g (trow t) (tcol t) * tval t)%R =
     sum_elem nelem nne ndim (fun e m i => sum_node nne ndim (fun n j => g (D e m i) (D e n j) * val3 K e (m * ndim + i) (n * ndim + j)))%R.
Proof.
  intros Hne Hnd Hmd HD HK. unfold elemmat_triplets.
  pose proof (in_elem_iters v nelem nne nnode ndim ndof Hne Hnd Hmd) as Hin.
  destruct (V_sizes v nelem nne nnode ndim ndof Hne Hnd Hmd) as [E1 _]. rewrite Hne, Hnd.
  rewrite (mapM_Ok _ _ (fun emi => map (fun nj => (D (fst (fst emi)) (snd (fst emi)) (snd emi), D (fst (fst emi)) (fst nj) (snd nj),
      val3 K (fst (fst emi)) (snd (fst emi) * ndim + snd emi) (fst nj * ndim + snd nj))) (list_prod (seq 0 nne) (seq 0 ndim)))).
  2:{ intros a Ha. apply Hin in Ha. destruct Ha as [A1 [A2 A3]]. destruct (HD _ _ _ A1 A2 A3) as [-> _]. cbn [bind].
      apply mapM_Ok. intros [n j] Hb. apply in_prod_iff in Hb. rewrite !in_seq in Hb. cbn [fst snd].
      destruct (HD (fst (fst a)) n j) as [-> _]; [exact A1|lia|lia|]. cbn [bind].
      rewrite (get3_nth 0%R K nelem (nne * ndim) (nne * ndim)); [reflexivity|exact HK|exact A1|nia|nia]. }
  cbn [bind]. eexists. split; [reflexivity|]. split.
  - intros t Ht. apply in_concat in Ht. destruct Ht as [l [Hl Ht]]. apply in_map_iff in Hl. destruct Hl as [a [<- Ha]].
    apply Hin in Ha. apply in_map_iff in Ht. destruct Ht as [[n j] [<- Hb]]. apply in_prod_iff in Hb. rewrite !in_seq in Hb. cbn [fst snd].
    split; apply HD; lia.
  - intro g. rewrite <- flat_map_concat_map, sumL_flat_map. unfold elem_iters. rewrite E1, Hne, Hnd, !sumL_list_prod.
    unfold sum_elem, sum_node. apply sumn_ext. intros e He. apply sumn_ext. intros m Hm. apply sumn_ext. intros i Hi.
    rewrite sumL_map, sumL_list_prod. reflexivity.
Qed.

Lemma block_triplets_spec d (D : nat -> nat) N rs cs M :
  (forall r, In r rs \/ In r cs -> d r = Ok (D r) /\ D r < N) -> shape2 M (length rs) (length cs) ->
  exists ts, block_triplets d rs cs M = Ok ts /\ (forall t, In t ts -> trow t < N /\ tcol t < N) /\
   forall g, sumL ts (fun t => g (trow t) (tcol t) * tval t)%R =
     sumn (length rs) (fun i => sumn (length cs) (fun j => g (D (nth i rs 0%nat)) (D (nth j cs 0%nat)) * val2 M i j))%R.
Proof.
  intros HD HM. unfold block_triplets.
  rewrite (mapM_Ok _ _ (fun ij => (D (nth (fst ij) rs 0), D (nth (snd ij) cs 0), val2 M (fst ij) (snd ij)))).
  2:{ intros [i j] H. apply in_prod_iff in H. rewrite !in_seq in H. cbn [fst snd].
      rewrite (get_nth 0 rs) by lia. cbn [bind]. rewrite (get_nth 0 cs) by lia. cbn [bind].
      destruct (HD (nth i rs 0)) as [-> _]; [left; apply nth_In; lia|]. cbn [bind].
      destruct (HD (nth j cs 0)) as [-> _]; [right; apply nth_In; lia|]. cbn [bind].
      rewrite (get2_nth 0%R M (length rs) (length cs)); [reflexivity|exact HM|lia|lia]. }
  eexists. split; [reflexivity|]. split.
  - intros t Ht. apply in_map_iff in Ht. destruct Ht as [[i j] [<- H]]. apply in_prod_iff in H. rewrite !in_seq in H. cbn [fst snd].
    split; apply HD; [left|right]; apply nth_In; lia.
  - intro g. rewrite sumL_map, sumL_list_prod. reflexivity.
Qed.

(** ** matrix times vector *)
Lemma mulvec_spec a x : length x = cols a -> exists y, mulvec a x = Ok y /\ length y = rows a /\
  forall i, i < rows a -> val1 y i = mv (cols a) (ent a) (val1 x) i.
Proof.
  intro L. rewrite mulvec_Ok by exact L. eexists. split; [reflexivity|]. split; [now rewrite map_length, seq_length|].
  intros i Hi. unfold val1 at 1. rewrite nth_map_seq by exact Hi. reflexivity.
Qed.

Lemma vec2_spec f x y n : length x = n -> length y = n -> exists z, vec2 f x y = Ok z /\ length z = n /\
  forall i, i < n -> val1 z i = f (val1 x i) (val1 y i).
Proof.
  intros Lx Ly. unfold vec2. rewrite Lx, Ly, Nat.eqb_refl. eexists. split; [reflexivity|].
  split; [rewrite map_length, combine_length; lia|]. intros i Hi. unfold val1.
  rewrite (nth_error_nth _ i 0%R (x := f (nth i x 0%R) (nth i y 0%R))); [reflexivity|].
  rewrite nth_error_map. rewrite (nth_error_nth' _ (0%R, 0%R)) by (rewrite combine_length; lia). simpl.
  rewrite combine_nth by lia. reflexivity.
Qed.

Lemma mv_ext n A B x y a : (forall b, b < n -> A a b = B a b) -> (forall b, b < n -> x b = y b) -> mv n A x a = mv n B y a.
Proof. intros H1 H2. apply sumn_ext. intros b Hb. now rewrite H1, H2. Qed.

(** ** dense *)
Lemma dense_id a n : rows a = n -> cols a = n -> exists dn,
  bind (dense_writes (@Ok nat) (@Ok nat) a) (fun ws => write2_all (repeat (repeat 0%R n) n) ws) = Ok dn /\ is_dense n dn (ent a).
Proof.
  intros Hr Hc. unfold dense_writes. rewrite Hr, Hc. rewrite (mapM_Ok _ _ (fun rc => (fst rc, snd rc, ent a (fst rc) (snd rc)))) by reflexivity.
  cbn [bind].
  assert (S0 : shape2 (repeat (repeat 0%R n) n) n n).
  { split; [apply repeat_length|]. intros r Hx. apply repeat_spec in Hx. subst. apply repeat_length. }
  destruct (write2_all_Ok 0%R n n (map (fun rc => (fst rc, snd rc, ent a (fst rc) (snd rc))) (list_prod (seq 0 n) (seq 0 n))) _ S0) as [u [E [Su [_ Hany]]]].
  { intros k j x H. apply in_map_iff in H. destruct H as [[k' j'] [E H]]. apply in_prod_iff in H. rewrite !in_seq in H. cbn [fst snd] in E. inversion E; subst. lia. }
  exists u. split; [exact E|]. split; [exact Su|]. intros k j Hk Hj. destruct (Hany k j) as [x [Hx1 Hx2]].
  - rewrite map_map. apply in_map_iff. exists (k, j). split; [reflexivity|]. apply in_prod_iff. rewrite !in_seq. lia.
  - unfold val2. rewrite Hx2. apply in_map_iff in Hx1. destruct Hx1 as [[k' j'] [Ex _]]. cbn [fst snd] in Ex. inversion Ex; subst. reflexivity.
Qed.

(** ** Matrix *)
Section M.
Set Default Proof Using "All".
Variable v : Vector.
Variables nelem nne nnode ndim ndof : nat.
Hypothesis Hne : m_nne v = nne.
Hypothesis Hnd : m_ndim v = ndim.
Hypothesis Hmd : mesh_dofs (m_conn v) (m_dofs v) nelem nne nnode ndim ndof.
Notation dof := (idx2 (m_dofs v)).
Notation node := (idx2 (m_conn v)).
Notation asm := (assembled (m_conn v) (m_dofs v) nelem nne ndim).

Lemma M_triplets K : shape3 K nelem (nne * ndim) (nne * ndim) ->
  exists ts, elemmat_triplets v (elem_dof v) K = Ok ts /\ (forall t, In t ts -> trow t < ndof /\ tcol t < ndof) /\
    forall a b, entT ts a b = asm K a b.
Proof.
  intro HK. destruct (elemmat_triplets_spec v nelem nne nnode ndim ndof (elem_dof v) (fun e m i => dof (node e m) i) ndof K Hne Hnd Hmd) as [ts [E [Hb Hs]]].
  - intros e m i He Hm Hi. split; [now apply (V_elem_dof v nelem nne nnode ndim ndof Hne Hnd Hmd)|].
    apply (V_dof v nelem nne nnode ndim ndof Hne Hnd Hmd); auto. now apply (V_node v nelem nne nnode ndim ndof Hne Hnd Hmd).
  - exact HK.
  - exists ts. split; [exact E|]. split; [exact Hb|]. intros a b. unfold entT.
    rewrite (Hs (fun x y => ind ((x =? a) && (y =? b))%nat)). unfold assembled. apply sumn_ext. intros e He. apply sumn_ext. intros m Hm.
    apply sumn_ext. intros i Hi. apply sumn_ext. intros n Hn. apply sumn_ext. intros j Hj. rewrite ind_and. lra.
Qed.

Theorem assemble_spec a K : M_v a = v -> shape3 K nelem (nne * ndim) (nne * ndim) ->
  exists a', M_assemble a K = Ok a' /\ M_v a' = v /\ M_changed a' = true /\ rows (M_A a') = ndof /\ cols (M_A a') = ndof /\
    forall r c, ent (M_A a') r c = asm K r c.
Proof.
  intros Hv HK. unfold M_assemble. rewrite Hv. destruct (M_triplets K HK) as [ts [E [Hb Hs]]]. rewrite E. cbn [bind].
  destruct (V_sizes v nelem nne nnode ndim ndof Hne Hnd Hmd) as [_ [_ ->]]. rewrite (setFromTriplets_Ok _ _ _ Hb). cbn [bind].
  eexists. split; [reflexivity|]. cbn. auto 10.
Qed.

Lemma M_block rs cs M : (forall r, In r rs \/ In r cs -> r < ndof) -> shape2 M (length rs) (length cs) ->
  exists ts, block_triplets (@Ok nat) rs cs M = Ok ts /\ (forall t, In t ts -> trow t < ndof /\ tcol t < ndof) /\
    forall a b, entT ts a b = block rs cs M a b.
Proof.
  intros Hr HM. destruct (block_triplets_spec (@Ok nat) (fun r => r) ndof rs cs M) as [ts [E [Hb Hs]]]; auto.
  exists ts. split; [exact E|]. split; [exact Hb|]. intros a b. unfold entT. rewrite (Hs (fun x y => ind ((x =? a) && (y =? b))%nat)).
  unfold block. apply sumn_ext. intros i Hi. apply sumn_ext. intros j Hj. rewrite ind_and. lra.
Qed.

Theorem set_spec a rs cs M : M_v a = v -> (forall r, In r rs \/ In r cs -> r < ndof) -> shape2 M (length rs) (length cs) ->
  exists a', M_set a rs cs M = Ok a' /\ M_v a' = v /\ M_changed a' = true /\ rows (M_A a') = ndof /\ cols (M_A a') = ndof /\
    forall r c, ent (M_A a') r c = block rs cs M r c.
Proof.
  intros Hv Hr HM. unfold M_set. destruct (M_block rs cs M Hr HM) as [ts [E [Hb Hs]]]. rewrite E. cbn [bind]. rewrite Hv.
  destruct (V_sizes v nelem nne nnode ndim ndof Hne Hnd Hmd) as [_ [_ ->]]. rewrite (setFromTriplets_Ok _ _ _ Hb). cbn [bind].
  eexists. split; [reflexivity|]. cbn. auto 10.
Qed.

Theorem add_spec a rs cs M : M_v a = v -> rows (M_A a) = ndof -> cols (M_A a) = ndof ->
  (forall r, In r rs \/ In r cs -> r < ndof) -> shape2 M (length rs) (length cs) ->
  exists a', M_add a rs cs M = Ok a' /\ M_v a' = v /\ M_changed a' = true /\ rows (M_A a') = ndof /\ cols (M_A a') = ndof /\
    forall r c, ent (M_A a') r c = (ent (M_A a) r c + block rs cs M r c)%R.
Proof.
  intros Hv Hrow Hcol Hr HM. unfold M_add. destruct (M_block rs cs M Hr HM) as [ts [E [Hb Hs]]]. rewrite E. cbn [bind]. rewrite Hv.
  destruct (V_sizes v nelem nne nnode ndim ndof Hne Hnd Hmd) as [_ [_ ->]]. rewrite (setFromTriplets_Ok _ _ _ Hb). cbn [bind].
  unfold addmat. cbn [rows cols]. rewrite Hrow, Hcol, !Nat.eqb_refl. cbn [andb bind].
  eexists. split; [reflexivity|]. cbn. repeat (split; auto). intros r c. now rewrite Hs.
Qed.

(** the product of the assembled matrix is the assembly of the products of the element matrices *)
Lemma mv_assembled K x d : mv ndof (asm K) x d =
  sum_elem nelem nne ndim (fun e m i => ind (dof (node e m) i =? d)%nat *
    sum_node nne ndim (fun n j => val3 K e (m * ndim + i) (n * ndim + j) * x (dof (node e n) j)))%R.
Proof.
  assert (Hlt : forall e n j, e < nelem -> n < nne -> j < ndim -> dof (node e n) j < ndof).
  { intros e n j He Hn Hj. apply (V_dof v nelem nne nnode ndim ndof Hne Hnd Hmd); auto. now apply (V_node v nelem nne nnode ndim ndof Hne Hnd Hmd). }
  unfold mv, assembled, sum_elem, sum_node.
  rewrite (sumn_ext ndof _ (fun b => sumn nelem (fun e => sumn nne (fun m => sumn ndim (fun i => sumn nne (fun n => sumn ndim (fun j =>
     ind (dof (node e m) i =? d) * (ind (dof (node e n) j =? b)%nat * (val3 K e (m * ndim + i) (n * ndim + j) * x b)))))))))%R.
  2:{ intros b Hb. rewrite <- sumn_scal_r. apply sumn_ext. intros e He. rewrite <- sumn_scal_r. apply sumn_ext. intros m Hm.
      rewrite <- sumn_scal_r. apply sumn_ext. intros i Hi. rewrite <- sumn_scal_r. apply sumn_ext. intros n Hn. rewrite <- sumn_scal_r.
      apply sumn_ext. intros j Hj. lra. }
  rewrite sumn_swap. apply sumn_ext. intros e He. rewrite sumn_swap. apply sumn_ext. intros m Hm. rewrite sumn_swap. apply sumn_ext. intros i Hi.
  rewrite sumn_swap. rewrite <- sumn_scal. apply sumn_ext. intros n Hn. rewrite sumn_swap. rewrite <- sumn_scal. apply sumn_ext. intros j Hj.
  rewrite sumn_scal. f_equal.
  apply (sumn_delta' ndof (dof (node e n) j) (fun b => val3 K e (m * ndim + i) (n * ndim + j) * x b)%R). now apply Hlt.
Qed.

Theorem dot_dofval_spec a x : M_v a = v -> rows (M_A a) = ndof -> cols (M_A a) = ndof -> length x = ndof ->
  exists b, M_dot_dofval a x = Ok b /\ length b = ndof /\ forall d, d < ndof -> val1 b d = mv ndof (ent (M_A a)) (val1 x) d.
Proof.
  intros Hv Hr Hc L. unfold M_dot_dofval. destruct (mulvec_spec (M_A a) x) as [b [E [Lb Vb]]]; [congruence|].
  exists b. split; [exact E|]. split; [congruence|]. rewrite Hr, Hc in Vb. exact Vb.
Qed.

(** AsDofs of consistent nodal values *)
Lemma AsDofs_values order u : Permutation order (node_iters v) -> shape2 u nnode ndim -> agree2 (m_dofs v) nnode ndim u ->
  exists x, AsDofs_nodevec v order u = Ok x /\ length x = ndof /\ (forall m i, m < nnode -> i < ndim -> val1 x (dof m i) = val2 u m i) /\
   (forall d, d < ndof -> ~ In d (concat (m_dofs v)) -> val1 x d = 0%R).
Proof. apply (AsDofs_nodevec_spec v nelem nne nnode ndim ndof Hne Hnd Hmd). Qed.

Theorem dot_nodevec_spec a order u x : M_v a = v -> rows (M_A a) = ndof -> cols (M_A a) = ndof ->
  Permutation order (node_iters v) -> shape2 u nnode ndim -> agree2 (m_dofs v) nnode ndim u ->
  AsDofs_nodevec v order u = Ok x ->
  exists b w, M_dot_nodevec a order u = Ok w /\ M_dot_dofval a x = Ok b /\ AsNode_dofval v b = Ok w.
Proof.
  intros Hv Hr Hc Ho Hu Ha Ex. destruct (AsDofs_values order u Ho Hu Ha) as [x' [Ex' [Lx _]]].
  rewrite Ex in Ex'. injection Ex' as Ex'. rewrite <- Ex' in Lx.
  destruct (dot_dofval_spec a x Hv Hr Hc Lx) as [b [Eb [Lb _]]].
  destruct (AsNode_dofval_spec v nelem nne nnode ndim ndof Hne Hnd Hmd b Lb) as [w [Ew _]].
  exists b, w. unfold M_dot_nodevec. rewrite Hv, Ex. cbn [bind]. unfold M_dot_dofval in Eb. rewrite Eb. cbn [bind]. auto.
Qed.

Theorem todense_spec a : M_v a = v -> rows (M_A a) = ndof -> cols (M_A a) = ndof ->
  exists dn, M_todense a = Ok dn /\ is_dense ndof dn (ent (M_A a)).
Proof.
  intros Hv Hr Hc. unfold M_todense. rewrite Hv. destruct (V_sizes v nelem nne nnode ndim ndof Hne Hnd Hmd) as [_ [_ ->]].
  now apply dense_id.
Qed.

Lemma assembled_sym K : (forall e r c, e < nelem -> r < nne * ndim -> c < nne * ndim -> val3 K e r c = val3 K e c r) ->
  forall a b, asm K a b = asm K b a.
Proof.
  intros Hs a b. unfold assembled, sum_elem, sum_node. apply sumn_ext. intros e He.
  set (P := fun m i n j a b => (ind (dof (node e m) i =? a)%nat * (ind (dof (node e n) j =? b)%nat * val3 K e (m * ndim + i) (n * ndim + j)))%R).
  change (sumn nne (fun m => sumn ndim (fun i => sumn nne (fun n => sumn ndim (fun j => P m i n j a b)))) =
          sumn nne (fun m => sumn ndim (fun i => sumn nne (fun n => sumn ndim (fun j => P m i n j b a))))).
  transitivity (sumn nne (fun m => sumn nne (fun n => sumn ndim (fun i => sumn ndim (fun j => P m i n j a b))))).
  { apply sumn_ext. intros m Hm. apply sumn_swap. }
  rewrite sumn_swap. apply sumn_ext. intros n Hn.
  transitivity (sumn nne (fun m => sumn ndim (fun j => sumn ndim (fun i => P m i n j a b)))).
  { apply sumn_ext. intros m Hm. apply sumn_swap. }
  rewrite sumn_swap. apply sumn_ext. intros j Hj. apply sumn_ext. intros m Hm. apply sumn_ext. intros i Hi.
  unfold P. rewrite (Hs e (m * ndim + i)) by nia. lra.
Qed.
End M.
Unset Default Proof Using.

(** ** histories of one matrix *)
Section History.
Set Default Proof Using "All".
Variable v : Vector.
Variables nelem nne nnode ndim ndof : nat.
Hypothesis Hne : m_nne v = nne.
Hypothesis Hnd : m_ndim v = ndim.
Hypothesis Hmd : mesh_dofs (m_conn v) (m_dofs v) nelem nne nnode ndim ndof.
Notation mop_ok := (valid_op nelem nne ndim ndof).
Notation mop_entry := (entry_after (m_conn v) (m_dofs v) nelem nne ndim).

Lemma run_mops_spec : forall ops a, M_v a = v -> rows (M_A a) = ndof -> cols (M_A a) = ndof -> Forall mop_ok ops ->
  exists a', foldM (fun a o => run_mop o a) ops a = Ok a' /\ M_v a' = v /\ rows (M_A a') = ndof /\ cols (M_A a') = ndof /\
    forall r c, ent (M_A a') r c = fold_left (mop_entry r c) ops (ent (M_A a) r c).
Proof.
  induction ops as [|o ops IH]; intros a Hv Hr Hc Hok; simpl.
  - exists a. auto 10.
  - pose proof (Forall_inv Hok) as Ho. pose proof (Forall_inv_tail Hok) as Hos.
    assert (S : exists a1, run_mop o a = Ok a1 /\ M_v a1 = v /\ rows (M_A a1) = ndof /\ cols (M_A a1) = ndof /\
                 forall r c, ent (M_A a1) r c = mop_entry r c (ent (M_A a) r c) o).
    { destruct o as [K|rs cs M|rs cs M]; simpl in *.
      - destruct (assemble_spec v nelem nne nnode ndim ndof Hne Hnd Hmd a K Hv Ho) as [a1 [E [V [_ [R1 [C1 H1]]]]]]. eauto 10.
      - destruct Ho as [O1 O2]. destruct (set_spec v nelem nne nnode ndim ndof Hne Hnd Hmd a rs cs M Hv O1 O2) as [a1 [E [V [_ [R1 [C1 H1]]]]]]. eauto 10.
      - destruct Ho as [O1 O2]. destruct (add_spec v nelem nne nnode ndim ndof Hne Hnd Hmd a rs cs M Hv Hr Hc O1 O2) as [a1 [E [V [_ [R1 [C1 H1]]]]]]. eauto 10. }
    destruct S as [a1 [E1 [V1 [R1 [C1 H1]]]]]. rewrite E1. cbn [bind].
    destruct (IH a1 V1 R1 C1 Hos) as [a2 [E2 [V2 [R2 [C2 H2]]]]]. exists a2. split; [exact E2|]. split; [exact V2|]. split; [exact R2|].
    split; [exact C2|]. intros r c. rewrite H2, H1. reflexivity.
Qed.
End History.
Unset Default Proof Using.

(** ** solver histories *)
Section Cache.
Variable linsolve : mat -> list R -> list R.
Variable pair : nat -> nat.
Hypothesis Hinj : forall s t, pair s = pair t -> s = t.
Notation op_paired := (paired pair).

(** the cached factorisation is that of the paired matrix, unless it will be recomputed *)
Definition fresh (w : world) : Prop := forall s, S_factor (w_solver w s) = true \/ M_changed (w_mat w (pair s)) = true \/
  S_data (w_solver w s) = Some (M_A (w_mat w (pair s))).

Lemma run_mop_changed o a a' : run_mop o a = Ok a' -> M_changed a' = true.
Proof.
  destruct o as [K|rs cs M|rs cs M]; simpl; unfold M_assemble, M_set, M_add, bind;
    repeat match goal with |- context [match ?x with _ => _ end] => destruct x; try discriminate end; intro E; injection E as E; now rewrite <- E.
Qed.

Lemma solve_step (w : world) s : fresh w ->
  let s' := factorize (M_changed (w_mat w (pair s))) (M_A (w_mat w (pair s))) (w_solver w s) in
  S_data s' = Some (M_A (w_mat w (pair s))).
Proof.
  intros F. unfold factorize. destruct (M_changed (w_mat w (pair s))) eqn:C; [reflexivity|].
  destruct (S_factor (w_solver w s)) eqn:D; [reflexivity|]. simpl. destruct (F s) as [H|[H|H]]; congruence.
Qed.

Lemma fresh_solve (w : world) s ch : fresh w -> fresh (mkWorld (upd (w_mat w) (pair s) (mkMatrix (M_v (w_mat w (pair s))) (M_A (w_mat w (pair s))) ch))
   (upd (w_solver w) s (factorize (M_changed (w_mat w (pair s))) (M_A (w_mat w (pair s))) (w_solver w s)))).
Proof using Hinj.
  intros F t. cbn [w_solver w_mat]. unfold upd. destruct (Nat.eqb_spec t s) as [->|Hne].
  - rewrite Nat.eqb_refl. cbn [M_A]. right. right. now apply solve_step.
  - destruct (Nat.eqb_spec (pair t) (pair s)) as [E|_]; [apply Hinj in E; contradiction|]. apply F.
Qed.

Lemma fresh_step w o w' : fresh w -> op_paired o -> run_op linsolve w o = Ok w' -> fresh w'.
Proof using Hinj.
  intros F P. destruct o as [k o|s k b|s k order b]; simpl in P |- *.
  - destruct (run_mop o (w_mat w k)) as [a| | |] eqn:E; simpl; try discriminate. intro Ew. injection Ew as Ew. rewrite <- Ew.
    apply run_mop_changed in E. intro s. cbn [w_solver w_mat]. unfold upd. destruct (Nat.eqb_spec (pair s) k) as [_|_]; [auto|apply F].
  - subst k. unfold MS_solve_dofval. destruct (S_solve _ _ b) as [x| | |]; simpl; try discriminate. intro Ew. injection Ew as Ew. rewrite <- Ew.
    now apply fresh_solve.
  - subst k. unfold MS_solve_nodevec. destruct (AsDofs_nodevec _ order b) as [B| | |]; simpl; try discriminate.
    destruct (S_solve _ _ B) as [x| | |]; simpl; try discriminate. destruct (AsNode_dofval _ x); simpl; try discriminate.
    intro Ew. injection Ew as Ew. rewrite <- Ew. now apply fresh_solve.
Qed.

Lemma fresh_run ops : forall w w', fresh w -> Forall op_paired ops -> run_ops linsolve w ops = Ok w' -> fresh w'.
Proof using Hinj.
  induction ops as [|o ops IH]; intros w w' F P; simpl.
  - intro E. injection E as E. now rewrite <- E.
  - pose proof (Forall_inv P) as P1. pose proof (Forall_inv_tail P) as P2.
    unfold run_ops. cbn [foldM]. destruct (run_op linsolve w o) as [w1| | |] eqn:E; cbn [bind]; try discriminate. intro E2. exact (IH w1 w' (fresh_step _ _ _ F P1 E) P2 E2).
Qed.

Theorem cache_spec ops w w' s : (forall s, S_factor (w_solver w s) = true) -> Forall op_paired ops -> run_ops linsolve w ops = Ok w' ->
  (forall b, length b = rows (M_A (w_mat w' (pair s))) -> exists s' a',
    MS_solve_dofval linsolve (w_solver w' s) (w_mat w' (pair s)) b = Ok (linsolve (M_A (w_mat w' (pair s))) b, s', a') /\
    M_v a' = M_v (w_mat w' (pair s)) /\ M_A a' = M_A (w_mat w' (pair s))) /\
  (forall order b B x, AsDofs_nodevec (M_v (w_mat w' (pair s))) order b = Ok B -> length B = rows (M_A (w_mat w' (pair s))) ->
    AsNode_dofval (M_v (w_mat w' (pair s))) (linsolve (M_A (w_mat w' (pair s))) B) = Ok x -> exists s' a',
    MS_solve_nodevec linsolve order (w_solver w' s) (w_mat w' (pair s)) b = Ok (x, s', a') /\
    M_v a' = M_v (w_mat w' (pair s)) /\ M_A a' = M_A (w_mat w' (pair s))).
Proof using Hinj.
  intros F0 P E. assert (F : fresh w') by (eapply fresh_run; eauto; intro t; left; apply F0).
  pose proof (solve_step w' s F) as D. split.
  - intros b L. unfold MS_solve_dofval, S_solve. rewrite D, L, Nat.eqb_refl. cbn [bind]. do 2 eexists. split; [reflexivity|]. auto.
  - intros order b B x EB L Ex. unfold MS_solve_nodevec. rewrite EB. cbn [bind]. unfold S_solve. rewrite D, L, Nat.eqb_refl. cbn [bind].
    rewrite Ex. cbn [bind]. do 2 eexists. split; [reflexivity|]. auto.
Qed.
End Cache.

(** ** the matrices along a history of solvers and matrices *)
Definition wf_mat (a : Matrix) : Prop := rows (M_A a) = m_ndof (M_v a) /\ cols (M_A a) = m_ndof (M_v a).

Lemma run_mop_wf o a a' : run_mop o a = Ok a' -> M_v a' = M_v a /\ (wf_mat a -> wf_mat a').
Proof.
  unfold wf_mat. destruct o as [K|rs cs M|rs cs M]; simpl; unfold M_assemble, M_set, M_add, bind;
    repeat match goal with |- context [match ?x with _ => _ end] => destruct x eqn:?; try discriminate end; intro E; injection E as E; rewrite <- E; cbn;
    repeat match goal with H : setFromTriplets _ _ _ = Ok _ |- _ => apply setFromTriplets_inv in H; rewrite H in * end; cbn; auto.
  match goal with H : addmat _ _ = Ok _ |- _ => unfold addmat in H; destruct (_ && _); [|discriminate]; injection H as H; rewrite <- H end. cbn. auto.
Qed.

Lemma run_mop_same o a b a' : M_v a = M_v b -> M_A a = M_A b -> run_mop o a = Ok a' -> run_mop o b = Ok a'.
Proof.
  intros H1 H2. destruct o as [K|rs cs M|rs cs M]; simpl; unfold M_assemble, M_set, M_add; rewrite H1, ?H2; auto.
Qed.

Lemma run_mops_same l : forall a b a', M_v a = M_v b -> M_A a = M_A b -> foldM (fun a o => run_mop o a) l a = Ok a' ->
  exists b', foldM (fun a o => run_mop o a) l b = Ok b' /\ M_v b' = M_v a' /\ M_A b' = M_A a'.
Proof.
  destruct l as [|o l]; simpl; intros a b a' H1 H2.
  - intro E. injection E as E. rewrite <- E. exists b. auto.
  - destruct (run_mop o a) as [a1| | |] eqn:E1; cbn [bind]; try discriminate. rewrite (run_mop_same _ _ _ _ H1 H2 E1). cbn [bind].
    intros ->. exists a'. auto.
Qed.

Lemma run_op_mat linsolve w o w' k : run_op linsolve w o = Ok w' ->
  exists a, foldM (fun a o => run_mop o a) (ops_of k [o]) (w_mat w k) = Ok a /\ M_v (w_mat w' k) = M_v a /\ M_A (w_mat w' k) = M_A a.
Proof.
  destruct o as [k' o|s k' b|s k' order b]; cbn.
  - destruct (run_mop o (w_mat w k')) as [a| | |] eqn:E; cbn; try discriminate. intro Ew. injection Ew as Ew. rewrite <- Ew. cbn. unfold upd.
    rewrite (Nat.eqb_sym k k'). destruct (Nat.eqb_spec k' k) as [->|]; cbn.
    + rewrite E. cbn. eauto.
    + eauto.
  - unfold MS_solve_dofval. destruct (S_solve _ _ b) as [x| | |]; cbn; try discriminate. intro Ew. injection Ew as Ew. rewrite <- Ew. cbn. unfold upd.
    exists (w_mat w k). split; [reflexivity|]. destruct (Nat.eqb_spec k k') as [->|]; cbn; auto.
  - unfold MS_solve_nodevec. destruct (AsDofs_nodevec _ order b) as [B| | |]; cbn; try discriminate.
    destruct (S_solve _ _ B) as [x| | |]; cbn; try discriminate. destruct (AsNode_dofval _ x); cbn; try discriminate.
    intro Ew. injection Ew as Ew. rewrite <- Ew. cbn. unfold upd.
    exists (w_mat w k). split; [reflexivity|]. destruct (Nat.eqb_spec k k') as [->|]; cbn; auto.
Qed.

Theorem run_ops_mat linsolve k ops : forall w w', run_ops linsolve w ops = Ok w' ->
  exists a, foldM (fun a o => run_mop o a) (ops_of k ops) (w_mat w k) = Ok a /\ M_v (w_mat w' k) = M_v a /\ M_A (w_mat w' k) = M_A a.
Proof.
  induction ops as [|o ops IH]; intros w w'.
  - cbn. intro E. injection E as E. rewrite <- E. eauto.
  - unfold run_ops. cbn [foldM]. destruct (run_op linsolve w o) as [w1| | |] eqn:E1; cbn [bind]; try discriminate. intro E2.
    destruct (run_op_mat linsolve w o w1 k E1) as [a1 [A1 [A2 A3]]]. destruct (IH w1 w' E2) as [a2 [B1 [B2 B3]]].
    destruct (run_mops_same _ _ _ _ A2 A3 B1) as [a3 [C1 [C2 C3]]].
    exists a3. change (ops_of k (o :: ops)) with ((match o with OpMat k' o => if k' =? k then [o] else [] | _ => [] end) ++ ops_of k ops).
    unfold ops_of in A1 at 1. cbn [flat_map] in A1. rewrite app_nil_r in A1. rewrite foldM_app, A1. cbn [bind].
    rewrite C1, C2, C3. auto.
Qed.

Lemma run_mops_wf l : forall a a', foldM (fun a o => run_mop o a) l a = Ok a' -> M_v a' = M_v a /\ (wf_mat a -> wf_mat a').
Proof.
  induction l as [|o l IH]; intros a a'; cbn [foldM].
  - intro E. injection E as E. rewrite <- E. auto.
  - destruct (run_mop o a) as [a1| | |] eqn:E1; cbn [bind]; try discriminate. intro E2. destruct (run_mop_wf _ _ _ E1) as [V1 W1].
    destruct (IH _ _ E2) as [V2 W2]. split; [congruence|auto].
Qed.

Lemma run_ops_wf linsolve vs ops w' k : run_ops linsolve (start vs) ops = Ok w' -> M_v (w_mat w' k) = vs k /\ wf_mat (w_mat w' k).
Proof.
  intro E. destruct (run_ops_mat linsolve k ops _ _ E) as [a [A1 [A2 A3]]]. destruct (run_mops_wf _ _ _ A1) as [B1 B2].
  unfold wf_mat in *. rewrite A2, A3. cbn in B1, B2. split; [exact B1|]. apply B2. auto.
Qed.

(** [A * Solve(A, b) = b] *)
Lemma solves_dot linsolve (a : Matrix) b : wf_mat a -> solves linsolve (M_A a) -> length b = m_ndof (M_v a) ->
  M_dot_dofval a (linsolve (M_A a) b) = Ok b.
Proof.
  intros [W1 W2] Hs L. destruct (Hs b) as [L1 H1]; [congruence|]. unfold M_dot_dofval.
  destruct (mulvec_spec (M_A a) (linsolve (M_A a) b) L1) as [y [E [Ly Vy]]]. rewrite E. f_equal.
  apply (nth_ext _ _ 0%R 0%R); [congruence|]. intros i Hi. rewrite Ly in Hi. specialize (Vy i Hi). unfold val1 in Vy at 1. rewrite Vy.
  now apply H1.
Qed.

Theorem cache_solve linsolve pair vs ops w' s : (forall s t, pair s = pair t -> s = t) -> Forall (paired pair) ops ->
  run_ops linsolve (start vs) ops = Ok w' -> solves linsolve (M_A (w_mat w' (pair s))) ->
  forall b, length b = m_ndof (vs (pair s)) -> exists x s' a',
    MS_solve_dofval linsolve (w_solver w' s) (w_mat w' (pair s)) b = Ok (x, s', a') /\ M_A a' = M_A (w_mat w' (pair s)) /\
    length x = m_ndof (vs (pair s)) /\ M_dot_dofval (w_mat w' (pair s)) x = Ok b.
Proof.
  intros Hinj P E Hs b L. destruct (run_ops_wf _ _ _ _ (pair s) E) as [V [W1 W2]].
  destruct (cache_spec linsolve pair Hinj ops (start vs) w' s (fun _ => eq_refl) P E) as [C _].
  destruct (C b) as [s' [a' [E1 [E2 E3]]]]; [congruence|]. exists (linsolve (M_A (w_mat w' (pair s))) b), s', a'.
  split; [exact E1|]. split; [exact E3|]. split.
  - destruct (Hs b) as [L1 _]; [congruence|]. congruence.
  - apply solves_dot; [split; assumption|exact Hs|congruence].
Qed.

Theorem cache_solve_nodevec linsolve pair vs ops w' s nelem nne nnode ndim ndof :
  (forall s t, pair s = pair t -> s = t) -> Forall (paired pair) ops ->
  run_ops linsolve (start vs) ops = Ok w' -> solves linsolve (M_A (w_mat w' (pair s))) ->
  mesh_dofs (m_conn (vs (pair s))) (m_dofs (vs (pair s))) nelem nne nnode ndim ndof ->
  m_nne (vs (pair s)) = nne -> m_ndim (vs (pair s)) = ndim -> no_holes (m_dofs (vs (pair s))) ndof ->
  forall order b, Permutation order (list_prod (seq 0 nnode) (seq 0 ndim)) -> shape2 b nnode ndim -> agree2 (m_dofs (vs (pair s))) nnode ndim b ->
  exists x s' a',
    MS_solve_nodevec linsolve order (w_solver w' s) (w_mat w' (pair s)) b = Ok (x, s', a') /\ M_A a' = M_A (w_mat w' (pair s)) /\
    shape2 x nnode ndim /\ agree2 (m_dofs (vs (pair s))) nnode ndim x /\ M_dot_nodevec (w_mat w' (pair s)) order x = Ok b.
Proof.
  intros Hinj P E Hs Hmd Hne Hnd Hh order b Ho Hb Ha. destruct (run_ops_wf _ _ _ _ (pair s) E) as [V [W1 W2]].
  set (a := w_mat w' (pair s)) in *. set (v := vs (pair s)) in *. rewrite V in W1, W2.
  destruct (V_sizes v nelem nne nnode ndim ndof Hne Hnd Hmd) as [_ [Z1 Z2]].
  assert (Ho' : Permutation order (node_iters v)) by (unfold node_iters; now rewrite Z1, Hnd).
  destruct (AsDofs_nodevec_spec v nelem nne nnode ndim ndof Hne Hnd Hmd order b Ho' Hb Ha) as [B [EB [LB [HB _]]]].
  destruct (Hs B) as [LX HX]; [congruence|]. set (X := linsolve (M_A a) B) in *.
  destruct (AsNode_dofval_spec v nelem nne nnode ndim ndof Hne Hnd Hmd X) as [x [Ex [Sx Hx]]]; [congruence|].
  destruct (cache_spec linsolve pair Hinj ops (start vs) w' s (fun _ => eq_refl) P E) as [_ C]. fold a in C. rewrite V in C.
  destruct (C order b B x) as [s' [a' [E1 [E2 E3]]]]; [exact EB|congruence|exact Ex|].
  assert (Ax : agree2 (m_dofs v) nnode ndim x).
  { intros m i n j Hm Hi Hn Hj Eq. rewrite !Hx by assumption. now rewrite Eq. }
  exists x, s', a'. split; [exact E1|]. split; [exact E3|]. split; [exact Sx|]. split; [exact Ax|].
  unfold M_dot_nodevec. rewrite V.
  destruct (AsDofs_nodevec_spec v nelem nne nnode ndim ndof Hne Hnd Hmd order x Ho' Sx Ax) as [X' [EX' [LX' [HX' _]]]].
  assert (X' = X).
  { apply (nth_ext _ _ 0%R 0%R); [congruence|]. intros d Hd. rewrite LX' in Hd. destruct (proj1 (In_concat_nth2 (m_dofs v) nnode ndim d (md_dofs _ _ _ _ _ _ _ Hmd)) (Hh d Hd)) as [m [i [Hm [Hi Ed]]]].
    specialize (HX' m i Hm Hi). rewrite Hx in HX' by assumption. rewrite Ed in HX'. exact HX'. }
  rewrite EX'. cbn [bind]. rewrite H. unfold X.
  pose proof (solves_dot linsolve a B) as SD. unfold M_dot_dofval in SD. rewrite SD.
  - cbn [bind]. destruct (AsNode_dofval_spec v nelem nne nnode ndim ndof Hne Hnd Hmd B LB) as [b' [Eb' [Sb' Hb']]]. rewrite Eb'. f_equal.
    apply (list_ext2 0%R _ _ nnode ndim); auto. intros m i Hm Hi. change (val2 b' m i = val2 b m i). rewrite Hb' by assumption. now apply HB.
  - split; rewrite V; assumption.
  - exact Hs.
  - rewrite V. congruence.
Qed.

(** the product in terms of the element products, and the energy *)
Section Energy.
Set Default Proof Using "All".
Variable v : Vector.
Variables nelem nne nnode ndim ndof : nat.
Hypothesis Hne : m_nne v = nne.
Hypothesis Hnd : m_ndim v = ndim.
Hypothesis Hmd : mesh_dofs (m_conn v) (m_dofs v) nelem nne nnode ndim ndof.

Theorem assemble_dot a a' K x X f : M_v a = v -> shape3 K nelem (nne * ndim) (nne * ndim) -> length x = ndof ->
  M_assemble a K = Ok a' -> AsElement_dofval v x = Ok X -> shape3 f nelem nne ndim ->
  (forall e m i, e < nelem -> m < nne -> i < ndim ->
     val3 f e m i = sum_node nne ndim (fun n j => val3 K e (m * ndim + i) (n * ndim + j) * val3 X e n j)%R) ->
  exists b, M_dot_dofval a' x = Ok b /\ AssembleDofs_elemvec v f = Ok b /\
    sumn ndof (fun d => val1 x d * val1 b d)%R = sum_elem nelem nne ndim (fun e m i => val3 X e m i * val3 f e m i)%R.
Proof.
  intros Hv HK L Ea EX Sf Hf. destruct (assemble_spec v nelem nne nnode ndim ndof Hne Hnd Hmd a K Hv HK) as [a1 [E1 [V1 [_ [R1 [C1 H1]]]]]].
  rewrite Ea in E1. injection E1 as E1. rewrite <- E1 in *.
  destruct (dot_dofval_spec v nelem nne nnode ndim ndof Hne Hnd Hmd a' x V1 R1 C1 L) as [b [Eb [Lb Hb]]].
  destruct (AssembleDofs_elemvec_spec v nelem nne nnode ndim ndof Hne Hnd Hmd f Sf) as [F [EF [LF HF]]].
  destruct (AsElement_dofval_spec v nelem nne nnode ndim ndof Hne Hnd Hmd x L) as [X' [EX' [SX HX]]].
  rewrite EX in EX'. injection EX' as EX'. rewrite <- EX' in *.
  assert (b = F).
  { apply (nth_ext _ _ 0%R 0%R); [congruence|]. intros d Hd. rewrite Lb in Hd. change (val1 b d = val1 F d). rewrite Hb, HF by assumption.
    rewrite (mv_ext ndof _ (assembled (m_conn v) (m_dofs v) nelem nne ndim K) (val1 x) (val1 x) d); [|intros; apply H1|reflexivity].
    rewrite (mv_assembled v nelem nne nnode ndim ndof Hne Hnd Hmd). unfold sum_elem. apply sumn_ext. intros e He. apply sumn_ext. intros m Hm. apply sumn_ext. intros i Hi.
    rewrite Hf by assumption. f_equal. unfold sum_node. apply sumn_ext. intros n Hn. apply sumn_ext. intros j Hj. now rewrite HX. }
  exists b. split; [exact Eb|]. rewrite H at 1. split; [exact EF|]. rewrite H.
  exact (assemble_adjoint v nelem nne nnode ndim ndof Hne Hnd Hmd x f X F L Sf EX EF).
Qed.
End Energy.
Unset Default Proof Using.

Lemma block_zero rs cs M r c : ~ In r rs \/ ~ In c cs -> block rs cs M r c = 0%R.
Proof.
  intro H. unfold block. apply sumn_zero. intros i Hi. apply sumn_zero. intros j Hj.
  destruct (Nat.eqb_spec (nth i rs 0%nat) r) as [E|_]; [|change (ind false) with 0%R; lra].
  destruct (Nat.eqb_spec (nth j cs 0%nat) c) as [E'|_]; [|change (ind false) with 0%R; lra].
  exfalso. destruct H as [H|H]; apply H; [rewrite <- E|rewrite <- E']; now apply nth_In.
Qed.

Lemma ind_nth_eqb rs i k r : NoDup rs -> nth_error rs k = Some r -> i < length rs -> ind (nth i rs 0 =? r)%nat = ind (k =? i)%nat.
Proof.
  intros Hn Hk Hi. destruct (Nat.eqb_spec k i) as [<-|Hne].
  - rewrite (nth_error_nth _ _ _ Hk), Nat.eqb_refl. reflexivity.
  - destruct (Nat.eqb_spec (nth i rs 0) r) as [E|]; [|reflexivity]. exfalso. apply Hne. rewrite NoDup_nth_error in Hn. symmetry.
    apply Hn; [exact Hi|]. rewrite Hk. rewrite <- E. now apply nth_error_nth'.
Qed.

Lemma block_at rs cs M : NoDup rs -> NoDup cs -> forall r c i j,
  nth_error rs i = Some r -> nth_error cs j = Some c -> block rs cs M r c = val2 M i j.
Proof.
  intros Hr Hc r c i j Hi Hj. unfold block.
  rewrite (sumn_ext _ _ (fun i' => ind (i =? i')%nat * sumn (length cs) (fun j' => ind (j =? j')%nat * val2 M i' j'))%R).
  2:{ intros i' Hi'. rewrite <- sumn_scal. apply sumn_ext. intros j' Hj'.
      now rewrite (ind_nth_eqb rs i' i r Hr Hi Hi'), (ind_nth_eqb cs j' j c Hc Hj Hj'). }
  assert (i < length rs) by (apply nth_error_Some; congruence). assert (j < length cs) by (apply nth_error_Some; congruence).
  rewrite (sumn_delta' (length rs) i (fun i' => sumn (length cs) (fun j' => ind (j =? j')%nat * val2 M i' j')%R)) by assumption.
  now apply (sumn_delta' (length cs) j (fun j' => val2 M i j')).
Qed.

(** ** histories with matrices with one DOF *)
Definition v1 : Vector := mkVector [[0]] 1 [[0]] 1.
Definition div1 (a : mat) (b : list R) : list R := [(val1 b 0 / ent a 0 0)%R].

Lemma set1 A c r : exists B, run_mop (OpSet [0] [0] [[r]]) (mkMatrix v1 A c) = Ok (mkMatrix v1 B true) /\ rows B = 1 /\ cols B = 1 /\ ent B 0 0 = r.
Proof.
  eexists. split; [reflexivity|]. split; [reflexivity|]. split; [reflexivity|]. cbn. unfold sumL, ind. cbn. lra.
Qed.

Lemma solves1 B : rows B = 1 -> cols B = 1 -> ent B 0 0 <> 0%R -> solves div1 B.
Proof.
  intros HR HC He b L. rewrite HR, HC. split; [reflexivity|]. intros i Hi. assert (E : i = 0) by lia. rewrite E.
  unfold mv, div1, val1. cbn. field. exact He.
Qed.

Lemma solve1 B ch b : rows B = 1 -> S_solve div1 (mkSolver (Some B) ch) [b] = Ok [(b / ent B 0 0)%R].
Proof. intro HR. unfold S_solve. cbn [S_data length]. rewrite HR. reflexivity. Qed.

Lemma dot1 B c x : cols B = 1 -> rows B = 1 -> M_dot_dofval (mkMatrix v1 B c) [x] = Ok [(ent B 0 0 * x)%R].
Proof. intros HC HR. unfold M_dot_dofval, mulvec. cbn [M_A length]. rewrite HC, HR. cbn. do 2 f_equal. unfold sumn. cbn. lra. Qed.

Ltac st0 := cbn [bind fst snd w_mat w_solver run_op start Nat.eqb M_changed M_A M_v S_factor S_data negb andb].
Ltac step := st0; unfold MS_solve_dofval, upd, new_Matrix, factorize, changed_after, new_Solver; st0.

Lemma ex48 : exists w, run_ops div1 (start (fun _ => v1)) [OpMat 0 (OpSet [0] [0] [[2%R]]); OpSolve 0 0 [4%R]; OpMat 0 (OpSet [0] [0] [[3%R]])] = Ok w /\
    solves div1 (M_A (w_mat w 0)) /\ M_changed (w_mat w 0) = true /\ m_ndof v1 = 1.
Proof.
  unfold run_ops. cbn [foldM]. step.
  destruct (set1 (zero_mat (m_ndof v1) (m_ndof v1)) true 2) as [B1 [E1 [R1 [C1 H1]]]]. rewrite E1. step.
  step. rewrite solve1 by exact R1. step.
  step. destruct (set1 B1 false 3) as [B2 [E2 [R2 [C2 H2]]]]. rewrite E2. step.
  eexists. split; [reflexivity|]. step. split; [|split; reflexivity]. apply solves1; auto. rewrite H2. lra.
Qed.

Theorem shared_refuted : exists linsolve vs ops w b x s' a', run_ops linsolve (start vs) ops = Ok w /\
  solves linsolve (M_A (w_mat w 0)) /\ length b = m_ndof (vs 0) /\
  MS_solve_dofval linsolve (w_solver w 1) (w_mat w 0) b = Ok (x, s', a') /\ M_dot_dofval (w_mat w 0) x <> Ok b.
Proof.
  exists div1, (fun _ => v1), [OpMat 0 (OpSet [0] [0] [[1%R]]); OpSolve 0 0 [1%R]; OpSolve 1 0 [1%R]; OpMat 0 (OpSet [0] [0] [[2%R]]); OpSolve 0 0 [1%R]].
  unfold run_ops. cbn [foldM].
  destruct (set1 (zero_mat (m_ndof v1) (m_ndof v1)) true 1) as [B1 [E1 [R1 [C1 H1]]]].
  destruct (set1 B1 false 2) as [B2 [E2 [R2 [C2 H2]]]].
  step. rewrite E1. step.
  do 2 (step; rewrite solve1 by exact R1; step).
  step. rewrite E2. step.
  step; rewrite solve1 by exact R2; step.
  do 2 eexists. exists [(1 / ent B1 0 0)%R]. do 2 eexists. split; [reflexivity|]. step. split; [apply solves1; auto; rewrite H2; lra|].
  split; [instantiate (1 := [1%R]); reflexivity|]. split.
  - unfold MS_solve_dofval. step. rewrite solve1 by exact R1. reflexivity.
  - rewrite dot1 by assumption. rewrite H1, H2. intro E. injection E as E. lra.
Qed.

Theorem two_matrices_refuted : exists linsolve vs ops w b x s' a', run_ops linsolve (start vs) ops = Ok w /\
  solves linsolve (M_A (w_mat w 0)) /\ length b = m_ndof (vs 0) /\
  MS_solve_dofval linsolve (w_solver w 0) (w_mat w 0) b = Ok (x, s', a') /\ M_dot_dofval (w_mat w 0) x <> Ok b.
Proof.
  exists div1, (fun _ => v1), [OpMat 0 (OpSet [0] [0] [[2%R]]); OpMat 1 (OpSet [0] [0] [[1%R]]); OpSolve 0 0 [1%R]; OpSolve 0 1 [1%R]].
  unfold run_ops. cbn [foldM].
  destruct (set1 (zero_mat (m_ndof v1) (m_ndof v1)) true 2) as [B1 [E1 [R1 [C1 H1]]]].
  destruct (set1 (zero_mat (m_ndof v1) (m_ndof v1)) true 1) as [B2 [E2 [R2 [C2 H2]]]].
  step. rewrite E1. step.
  step. rewrite E2. step.
  step; rewrite solve1 by exact R1; step.
  step; rewrite solve1 by exact R2; step.
  do 2 eexists. exists [(1 / ent B2 0 0)%R]. do 2 eexists. split; [reflexivity|]. step. split; [apply solves1; auto; rewrite H1; lra|].
  split; [instantiate (1 := [1%R]); reflexivity|]. split.
  - unfold MS_solve_dofval. step. rewrite solve1 by exact R2. reflexivity.
  - rewrite dot1 by assumption. rewrite H1, H2. intro E. injection E as E. lra.
Qed.
