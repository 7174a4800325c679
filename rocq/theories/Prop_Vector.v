(** Properties C40-C42, C65: vectors of DOF values, nodal values and element values. *)
From Coq Require Import Reals Lra.
From Verif Require Import Base Spec Sums Spec_Vector Model_Numbering Model_Vector Model_VectorPartitioned
  Proof_Vector Proof_Vector2 Proof_VectorPartitioned.

(** C40: the values of DOFs per node and per element, and the nodal values per element. *)
Theorem C40_gather : forall conn dofs nelem nne nnode ndim ndof,
  mesh_dofs conn dofs nelem nne nnode ndim ndof ->
  let v := mkVector conn nne dofs ndim in
  (forall x, length x = ndof -> exists u f,
     AsNode_dofval v x = Ok u /\ AsElement_dofval v x = Ok f /\ shape2 u nnode ndim /\ shape3 f nelem nne ndim /\
     (forall m i, m < nnode -> i < ndim -> val2 u m i = val1 x (idx2 dofs m i)) /\
     (forall e m i, e < nelem -> m < nne -> i < ndim -> val3 f e m i = val1 x (idx2 dofs (idx2 conn e m) i))) /\
  (forall u, shape2 u nnode ndim -> exists f,
     AsElement_nodevec v u = Ok f /\ shape3 f nelem nne ndim /\
     (forall e m i, e < nelem -> m < nne -> i < ndim -> val3 f e m i = val2 u (idx2 conn e m) i)).
Proof.
  intros conn dofs nelem nne nnode ndim ndof H v. split.
  - intros x L.
    destruct (AsNode_dofval_spec v nelem nne nnode ndim ndof eq_refl eq_refl H x L) as [u [E1 [S1 V1]]].
    destruct (AsElement_dofval_spec v nelem nne nnode ndim ndof eq_refl eq_refl H x L) as [f [E2 [S2 V2]]].
    exists u, f. auto 10.
  - exact (AsElement_nodevec_spec v nelem nne nnode ndim ndof eq_refl eq_refl H).
Qed.
Print Assumptions C40_gather.

(** a mesh of two elements of two nodes, periodic in two dimensions *)
Example C40_ex_mesh : mesh_dofs [[0; 1]; [1; 2]] [[0; 1]; [2; 3]; [0; 1]] 2 2 3 2 4.
Proof.
  split.
  - split; [reflexivity|]. simpl. intuition (subst; reflexivity).
  - split; [reflexivity|]. simpl. intuition (subst; reflexivity).
  - intros [|[|e]] [|[|m]] He Hm; cbn; lia.
  - reflexivity.
Qed.
Example C40_ex_gather : AsElement_dofval (mkVector [[0; 1]; [1; 2]] 2 [[0; 1]; [2; 3]; [0; 1]] 2) [1%R; 2%R; 3%R; 4%R] =
  Ok [[[1%R; 2%R]; [3%R; 4%R]]; [[3%R; 4%R]; [1%R; 2%R]]].
Proof. reflexivity. Qed.

(** C40: the value per DOF of nodal / element values, for every order of the iterations of the
    parallel loop, if all values of a DOF (or node) are the same. *)
Theorem C40_scatter : forall conn dofs nelem nne nnode ndim ndof,
  mesh_dofs conn dofs nelem nne nnode ndim ndof ->
  let v := mkVector conn nne dofs ndim in
  (forall order u, Permutation order (list_prod (seq 0 nnode) (seq 0 ndim)) ->
     shape2 u nnode ndim -> agree2 dofs nnode ndim u -> exists x,
     AsDofs_nodevec v order u = Ok x /\ length x = ndof /\
     (forall m i, m < nnode -> i < ndim -> val1 x (idx2 dofs m i) = val2 u m i) /\
     (forall d, d < ndof -> ~ In d (concat dofs) -> val1 x d = 0%R)) /\
  (forall order f, Permutation order (list_prod (list_prod (seq 0 nelem) (seq 0 nne)) (seq 0 ndim)) ->
     shape3 f nelem nne ndim -> agree3 (fun e m i => idx2 dofs (idx2 conn e m) i) nelem nne ndim f -> exists x,
     AsDofs_elemvec v order f = Ok x /\ length x = ndof /\
     (forall e m i, e < nelem -> m < nne -> i < ndim -> val1 x (idx2 dofs (idx2 conn e m) i) = val3 f e m i) /\
     (forall d, d < ndof -> (forall e m i, e < nelem -> m < nne -> i < ndim -> idx2 dofs (idx2 conn e m) i <> d) -> val1 x d = 0%R)) /\
  (forall order f, Permutation order (list_prod (list_prod (seq 0 nelem) (seq 0 nne)) (seq 0 ndim)) ->
     shape3 f nelem nne ndim -> agree3 (fun e m i => (idx2 conn e m, i)) nelem nne ndim f -> exists u,
     AsNode_elemvec v order f = Ok u /\ shape2 u nnode ndim /\
     (forall e m i, e < nelem -> m < nne -> i < ndim -> val2 u (idx2 conn e m) i = val3 f e m i) /\
     (forall n i, n < nnode -> i < ndim -> ~ In n (concat conn) -> val2 u n i = 0%R)).
Proof.
  intros conn dofs nelem nne nnode ndim ndof H v.
  destruct (V_sizes v nelem nne nnode ndim ndof eq_refl eq_refl H) as [E1 [E2 _]].
  assert (I1 : node_iters v = list_prod (seq 0 nnode) (seq 0 ndim)) by (unfold node_iters; now rewrite E2).
  assert (I2 : elem_iters v = list_prod (list_prod (seq 0 nelem) (seq 0 nne)) (seq 0 ndim)) by (unfold elem_iters; now rewrite E1).
  rewrite <- I1, <- I2.
  exact (conj (AsDofs_nodevec_spec v nelem nne nnode ndim ndof eq_refl eq_refl H)
        (conj (AsDofs_elemvec_spec v nelem nne nnode ndim ndof eq_refl eq_refl H)
              (AsNode_elemvec_spec v nelem nne nnode ndim ndof eq_refl eq_refl H))).
Qed.
Print Assumptions C40_scatter.
Example C40_ex_agree : agree2 [[0; 1]; [2; 3]; [0; 1]] 3 2 [[5%R; 6%R]; [7%R; 8%R]; [5%R; 6%R]] /\
  AsDofs_nodevec (mkVector [[0; 1]; [1; 2]] 2 [[0; 1]; [2; 3]; [0; 1]] 2) (rev (list_prod (seq 0 3) (seq 0 2)))
    [[5%R; 6%R]; [7%R; 8%R]; [5%R; 6%R]] = Ok [5%R; 6%R; 7%R; 8%R].
Proof.
  split; [|reflexivity]. intros m i n j Hm Hi Hn Hj.
  destruct m as [|[|[|m]]], i as [|[|i]], n as [|[|[|n]]], j as [|[|j]]; try lia; cbn; intro E; try discriminate; reflexivity.
Qed.

(** C40: without agreement every order gives the value of one of the nodes of the DOF ... *)
Theorem C40_scatter_any : forall conn dofs nelem nne nnode ndim ndof,
  mesh_dofs conn dofs nelem nne nnode ndim ndof ->
  forall order u, Permutation order (list_prod (seq 0 nnode) (seq 0 ndim)) -> shape2 u nnode ndim -> exists x,
     AsDofs_nodevec (mkVector conn nne dofs ndim) order u = Ok x /\ length x = ndof /\
     (forall m i, m < nnode -> i < ndim -> exists n j, n < nnode /\ j < ndim /\
        idx2 dofs n j = idx2 dofs m i /\ val1 x (idx2 dofs m i) = val2 u n j) /\
     (forall d, d < ndof -> ~ In d (concat dofs) -> val1 x d = 0%R).
Proof.
  intros conn dofs nelem nne nnode ndim ndof H.
  destruct (V_sizes (mkVector conn nne dofs ndim) nelem nne nnode ndim ndof eq_refl eq_refl H) as [E1 [E2 _]].
  assert (I1 : node_iters (mkVector conn nne dofs ndim) = list_prod (seq 0 nnode) (seq 0 ndim)) by (unfold node_iters; now rewrite E2).
  rewrite <- I1. exact (AsDofs_nodevec_any (mkVector conn nne dofs ndim) nelem nne nnode ndim ndof eq_refl eq_refl H).
Qed.
Print Assumptions C40_scatter_any.

(** ... and which one depends on the order: the result of the parallel loop is then not determined. *)
Theorem C40_schedule_dependence : exists v order1 order2 u, mesh_dofs (m_conn v) (m_dofs v) 1 2 2 1 1 /\
  Permutation order1 (node_iters v) /\ Permutation order2 (node_iters v) /\ shape2 u 2 1 /\
  AsDofs_nodevec v order1 u <> AsDofs_nodevec v order2 u.
Proof. exact schedule_refuted. Qed.
Print Assumptions C40_schedule_dependence.

(** C40: round trips. *)
Theorem C40_round_trips : forall conn dofs nelem nne nnode ndim ndof,
  mesh_dofs conn dofs nelem nne nnode ndim ndof ->
  let v := mkVector conn nne dofs ndim in
  (forall order x u, Permutation order (list_prod (seq 0 nnode) (seq 0 ndim)) -> length x = ndof -> no_holes dofs ndof ->
     AsNode_dofval v x = Ok u -> AsDofs_nodevec v order u = Ok x) /\
  (forall order u x, Permutation order (list_prod (seq 0 nnode) (seq 0 ndim)) -> shape2 u nnode ndim -> agree2 dofs nnode ndim u ->
     AsDofs_nodevec v order u = Ok x -> AsNode_dofval v x = Ok u) /\
  (forall order x f, Permutation order (list_prod (list_prod (seq 0 nelem) (seq 0 nne)) (seq 0 ndim)) -> length x = ndof ->
     (forall d, d < ndof -> exists e m i, e < nelem /\ m < nne /\ i < ndim /\ idx2 dofs (idx2 conn e m) i = d) ->
     AsElement_dofval v x = Ok f -> AsDofs_elemvec v order f = Ok x) /\
  (forall order u f, Permutation order (list_prod (list_prod (seq 0 nelem) (seq 0 nne)) (seq 0 ndim)) -> shape2 u nnode ndim ->
     (forall n, n < nnode -> In n (concat conn)) ->
     AsElement_nodevec v u = Ok f -> AsNode_elemvec v order f = Ok u).
Proof.
  intros conn dofs nelem nne nnode ndim ndof H v.
  destruct (V_sizes v nelem nne nnode ndim ndof eq_refl eq_refl H) as [E1 [E2 _]].
  assert (I1 : node_iters v = list_prod (seq 0 nnode) (seq 0 ndim)) by (unfold node_iters; now rewrite E2).
  assert (I2 : elem_iters v = list_prod (list_prod (seq 0 nelem) (seq 0 nne)) (seq 0 ndim)) by (unfold elem_iters; now rewrite E1).
  rewrite <- I1, <- I2.
  exact (conj (AsDofs_AsNode v nelem nne nnode ndim ndof eq_refl eq_refl H)
        (conj (AsNode_AsDofs v nelem nne nnode ndim ndof eq_refl eq_refl H)
        (conj (AsDofs_AsElement v nelem nne nnode ndim ndof eq_refl eq_refl H)
              (AsNode_AsElement v nelem nne nnode ndim ndof eq_refl eq_refl H)))).
Qed.
Print Assumptions C40_round_trips.
Example C40_ex_round : no_holes [[0; 1]; [2; 3]; [0; 1]] 4 /\ (forall n, n < 3 -> In n (concat [[0; 1]; [1; 2]])) /\
  (forall d, d < 4 -> exists e m i, e < 2 /\ m < 2 /\ i < 2 /\ idx2 [[0; 1]; [2; 3]; [0; 1]] (idx2 [[0; 1]; [1; 2]] e m) i = d).
Proof.
  split; [|split].
  - intros d Hd. simpl. lia.
  - intros n Hn. simpl. lia.
  - intros [|[|[|[|d]]]] Hd; try lia; [exists 0, 0, 0|exists 0, 0, 1|exists 0, 1, 0|exists 0, 1, 1]; cbn; lia.
Qed.

(** C41: assembly sums all contributions to a DOF. *)
Theorem C41_assemble : forall conn dofs nelem nne nnode ndim ndof,
  mesh_dofs conn dofs nelem nne nnode ndim ndof ->
  let v := mkVector conn nne dofs ndim in
  (forall u, shape2 u nnode ndim -> exists F, AssembleDofs_nodevec v u = Ok F /\ length F = ndof /\
     forall d, d < ndof -> val1 F d = sum_node nnode ndim (fun m i => ind (idx2 dofs m i =? d)%nat * val2 u m i)%R) /\
  (forall f, shape3 f nelem nne ndim -> exists F, AssembleDofs_elemvec v f = Ok F /\ length F = ndof /\
     forall d, d < ndof -> val1 F d = sum_elem nelem nne ndim (fun e m i => ind (idx2 dofs (idx2 conn e m) i =? d)%nat * val3 f e m i)%R) /\
  (forall f, shape3 f nelem nne ndim -> exists u, AssembleNode v f = Ok u /\ shape2 u nnode ndim /\
     forall n j, n < nnode -> j < ndim -> val2 u n j =
       sum_elem nelem nne ndim (fun e m i => ind (idx2 dofs (idx2 conn e m) i =? idx2 dofs n j)%nat * val3 f e m i)%R).
Proof.
  intros conn dofs nelem nne nnode ndim ndof H v.
  exact (conj (AssembleDofs_nodevec_spec v nelem nne nnode ndim ndof eq_refl eq_refl H)
        (conj (AssembleDofs_elemvec_spec v nelem nne nnode ndim ndof eq_refl eq_refl H)
              (AssembleNode_spec v nelem nne nnode ndim ndof eq_refl eq_refl H))).
Qed.
Print Assumptions C41_assemble.

(** C41: assembly is the adjoint of the gather, and conserves the total. *)
Theorem C41_adjoint : forall conn dofs nelem nne nnode ndim ndof,
  mesh_dofs conn dofs nelem nne nnode ndim ndof ->
  let v := mkVector conn nne dofs ndim in
  (forall x f X F, length x = ndof -> shape3 f nelem nne ndim ->
     AsElement_dofval v x = Ok X -> AssembleDofs_elemvec v f = Ok F ->
     sumn ndof (fun d => val1 x d * val1 F d)%R = sum_elem nelem nne ndim (fun e m i => val3 X e m i * val3 f e m i)%R) /\
  (forall f F, shape3 f nelem nne ndim -> AssembleDofs_elemvec v f = Ok F ->
     sumn ndof (fun d => val1 F d) = sum_elem nelem nne ndim (fun e m i => val3 f e m i)).
Proof.
  intros conn dofs nelem nne nnode ndim ndof H v.
  exact (conj (assemble_adjoint v nelem nne nnode ndim ndof eq_refl eq_refl H)
              (assemble_total v nelem nne nnode ndim ndof eq_refl eq_refl H)).
Qed.
Print Assumptions C41_adjoint.
Example C41_ex : exists F, AssembleDofs_elemvec (mkVector [[0; 1]; [1; 2]] 2 [[0; 1]; [2; 3]; [0; 1]] 2)
    [[[1%R; 2%R]; [3%R; 4%R]]; [[5%R; 6%R]; [7%R; 8%R]]] = Ok F /\ F = [8%R; 10%R; 8%R; 10%R].
Proof. eexists. split; [reflexivity|]. repeat f_equal; lra. Qed.

(** C42: VectorPartitioned can always be constructed; the unknown DOFs are all DOFs that are not
    prescribed, in increasing order, and the masks tell them apart. *)
Theorem C42_partition : forall conn dofs nelem nne nnode ndim ndof iip,
  mesh_dofs conn dofs nelem nne nnode ndim ndof -> prescribed ndof iip ->
  exists p U P, new_VectorPartitioned (mkVector conn nne dofs ndim) iip = Ok p /\
    m_iip p = iip /\ StronglySorted lt (m_iiu p) /\
    (forall d, In d (m_iiu p) <-> In d (concat dofs) /\ ~ In d iip) /\
    dofs_is_u p = Ok U /\ dofs_is_p p = Ok P /\ shape2 U nnode ndim /\ shape2 P nnode ndim /\
    forall m i, m < nnode -> i < ndim ->
      nth2 false P m i = negb (nth2 false U m i) /\ (nth2 false P m i = true <-> In (idx2 dofs m i) iip).
Proof.
  intros conn dofs nelem nne nnode ndim ndof iip H Hi.
  destruct (vp_new (mkVector conn nne dofs ndim) nelem nne nnode ndim ndof eq_refl eq_refl H iip Hi) as [p [E _]].
  destruct (is_u_spec (mkVector conn nne dofs ndim) nelem nne nnode ndim ndof eq_refl eq_refl H iip Hi p E) as [U [P HUP]].
  destruct (iiu_spec (mkVector conn nne dofs ndim) nelem nne nnode ndim ndof eq_refl eq_refl H iip Hi p E) as [A [B C]].
  exists p, U, P. auto.
Qed.
Print Assumptions C42_partition.
Example C42_ex : prescribed 4 [3; 0] /\
  new_VectorPartitioned (mkVector [[0; 1]; [1; 2]] 2 [[0; 1]; [2; 3]; [0; 1]] 2) [3; 0] =
  Ok (mkVP (mkVector [[0; 1]; [1; 2]] 2 [[0; 1]; [2; 3]; [0; 1]] 2) [1; 2] [3; 0] [[3; 0]; [1; 2]; [3; 0]]).
Proof.
  split; [|reflexivity]. split; [repeat constructor; simpl; intuition discriminate|]. simpl. intros d Hd. lia.
Qed.

(** C42: copying only the unknown / prescribed entries. *)
Theorem C42_copy : forall conn dofs nelem nne nnode ndim ndof iip p,
  mesh_dofs conn dofs nelem nne nnode ndim ndof -> prescribed ndof iip ->
  new_VectorPartitioned (mkVector conn nne dofs ndim) iip = Ok p ->
  forall src dest, shape2 src nnode ndim -> shape2 dest nnode ndim ->
  exists U P, Copy_u p src dest = Ok U /\ Copy_p p src dest = Ok P /\ shape2 U nnode ndim /\ shape2 P nnode ndim /\
  forall m i, m < nnode -> i < ndim ->
    (In (idx2 dofs m i) iip -> val2 U m i = val2 dest m i /\ val2 P m i = val2 src m i) /\
    (~ In (idx2 dofs m i) iip -> val2 U m i = val2 src m i /\ val2 P m i = val2 dest m i).
Proof.
  intros conn dofs nelem nne nnode ndim ndof iip p H Hi.
  exact (copy_spec (mkVector conn nne dofs ndim) nelem nne nnode ndim ndof eq_refl eq_refl H iip Hi p).
Qed.
Print Assumptions C42_copy.

(** C42: selecting the unknown / prescribed DOF values, in the order of [iiu] / [iip]. *)
Theorem C42_select : forall conn dofs nelem nne nnode ndim ndof iip p,
  mesh_dofs conn dofs nelem nne nnode ndim ndof -> prescribed ndof iip ->
  new_VectorPartitioned (mkVector conn nne dofs ndim) iip = Ok p ->
  (forall x, length x = ndof -> exists xu xp, AsDofs_u_dofval p x = Ok xu /\ AsDofs_p_dofval p x = Ok xp /\
     length xu = length (m_iiu p) /\ length xp = length iip /\
     (forall k d, nth_error (m_iiu p) k = Some d -> val1 xu k = val1 x d) /\
     (forall k d, nth_error iip k = Some d -> val1 xp k = val1 x d)) /\
  (forall order u, Permutation order (list_prod (seq 0 nnode) (seq 0 ndim)) -> shape2 u nnode ndim -> agree2 dofs nnode ndim u ->
     exists xu xp, AsDofs_u_nodevec p order u = Ok xu /\ AsDofs_p_nodevec p order u = Ok xp /\
     length xu = length (m_iiu p) /\ length xp = length iip /\
     (forall m i, m < nnode -> i < ndim ->
        (forall k, nth_error (m_iiu p) k = Some (idx2 dofs m i) -> val1 xu k = val2 u m i) /\
        (forall k, nth_error iip k = Some (idx2 dofs m i) -> val1 xp k = val2 u m i)) /\
     (forall k d, nth_error iip k = Some d -> ~ In d (concat dofs) -> val1 xp k = 0%R)) /\
  (forall order f, Permutation order (list_prod (list_prod (seq 0 nelem) (seq 0 nne)) (seq 0 ndim)) -> shape3 f nelem nne ndim ->
     agree3 (fun e m i => idx2 dofs (idx2 conn e m) i) nelem nne ndim f ->
     exists xu xp, AsDofs_u_elemvec p order f = Ok xu /\ AsDofs_p_elemvec p order f = Ok xp /\
     length xu = length (m_iiu p) /\ length xp = length iip /\
     (forall e m i, e < nelem -> m < nne -> i < ndim ->
        (forall k, nth_error (m_iiu p) k = Some (idx2 dofs (idx2 conn e m) i) -> val1 xu k = val3 f e m i) /\
        (forall k, nth_error iip k = Some (idx2 dofs (idx2 conn e m) i) -> val1 xp k = val3 f e m i)) /\
     (forall d, (forall e m i, e < nelem -> m < nne -> i < ndim -> idx2 dofs (idx2 conn e m) i <> d) ->
        (forall k, nth_error (m_iiu p) k = Some d -> val1 xu k = 0%R) /\
        (forall k, nth_error iip k = Some d -> val1 xp k = 0%R))).
Proof.
  intros conn dofs nelem nne nnode ndim ndof iip p H Hi E. set (v := mkVector conn nne dofs ndim) in *.
  destruct (V_sizes v nelem nne nnode ndim ndof eq_refl eq_refl H) as [E1 [E2 _]].
  assert (I1 : node_iters v = list_prod (seq 0 nnode) (seq 0 ndim)) by (unfold node_iters; now rewrite E2).
  assert (I2 : elem_iters v = list_prod (list_prod (seq 0 nelem) (seq 0 nne)) (seq 0 ndim)) by (unfold elem_iters; now rewrite E1).
  rewrite <- I1, <- I2.
  destruct (vp_facts v nelem nne nnode ndim ndof eq_refl eq_refl H iip Hi p E) as [_ [-> _]].
  exact (conj (select_spec v nelem nne nnode ndim ndof eq_refl eq_refl H iip Hi p E)
        (conj (AsDofs_up_nodevec v nelem nne nnode ndim ndof eq_refl eq_refl H iip Hi p E)
              (AsDofs_up_elemvec v nelem nne nnode ndim ndof eq_refl eq_refl H iip Hi p E))).
Qed.
Print Assumptions C42_select.

(** C42: recombining inverts the split, and is the same for DOFs, nodes and elements. *)
Theorem C42_recombine : forall conn dofs nelem nne nnode ndim ndof iip p,
  mesh_dofs conn dofs nelem nne nnode ndim ndof -> prescribed ndof iip ->
  new_VectorPartitioned (mkVector conn nne dofs ndim) iip = Ok p ->
  (forall x, length x = ndof -> exists xu xp x', AsDofs_u_dofval p x = Ok xu /\ AsDofs_p_dofval p x = Ok xp /\
     DofsFromParitioned p xu xp = Ok x' /\ length x' = ndof /\
     forall d, d < ndof -> val1 x' d = if mem d (concat dofs) || mem d iip then val1 x d else 0%R) /\
  (forall xu xp, length xu = length (m_iiu p) -> length xp = length iip -> exists x, DofsFromParitioned p xu xp = Ok x /\
     AsDofs_u_dofval p x = Ok xu /\ AsDofs_p_dofval p x = Ok xp /\
     NodeFromPartitioned p xu xp = AsNode_dofval (mkVector conn nne dofs ndim) x /\
     ElementFromPartitioned p xu xp = AsElement_dofval (mkVector conn nne dofs ndim) x).
Proof.
  intros conn dofs nelem nne nnode ndim ndof iip p H Hi E. set (v := mkVector conn nne dofs ndim) in *.
  destruct (vp_facts v nelem nne nnode ndim ndof eq_refl eq_refl H iip Hi p E) as [_ [Eu _]]. rewrite Eu. split.
  - exact (split_recombine v nelem nne nnode ndim ndof eq_refl eq_refl H iip Hi p E).
  - intros xu xp Lu Lp. destruct (recombine_split v nelem nne nnode ndim ndof eq_refl eq_refl H iip Hi p E xu xp Lu Lp) as [x [A [B C]]].
    destruct (from_node_spec v nelem nne nnode ndim ndof eq_refl eq_refl H iip Hi p E xu xp x Lu Lp A) as [D F].
    exists x. auto.
Qed.
Print Assumptions C42_recombine.
Example C42_recombine_ex : exists p, new_VectorPartitioned (mkVector [[0; 1]; [1; 2]] 2 [[0; 1]; [2; 3]; [0; 1]] 2) [3; 0] = Ok p /\
  NodeFromPartitioned p [10%R; 20%R] [30%R; 40%R] = Ok [[40%R; 10%R]; [20%R; 30%R]; [40%R; 10%R]] /\
  DofsFromParitioned p [10%R; 20%R] [30%R; 40%R] = Ok [40%R; 10%R; 20%R; 30%R].
Proof. eexists. split; [reflexivity|]. split; reflexivity. Qed.

(** C40: [Copy] returns the source, whatever the destination contained. *)
Theorem C40_copy : forall src dest nnode ndim, shape2 src nnode ndim -> shape2 dest nnode ndim ->
  let r := Vector_Copy src dest in
  shape2 r nnode ndim /\ forall m i, val2 r m i = val2 src m i.
Proof. intros src dest nnode ndim Hs _. exact (conj Hs (fun m i => eq_refl)). Qed.
Print Assumptions C40_copy.
Example C40_copy_ex : Vector_Copy [[1%R; 2%R]; [3%R; 4%R]] [[5%R; 6%R]; [7%R; 8%R]] = [[1%R; 2%R]; [3%R; 4%R]].
Proof. reflexivity. Qed.

(** C65: asElementVector gathers, assembleNodeVector sums, and they are each other's adjoint. *)
Theorem C65_element_vectors : forall conn nelem nne ndim, shape2 conn nelem nne ->
  let nnode := S (fold_right Nat.max 0 (concat conn)) in
  (forall u n, shape2 u n ndim -> nnode <= n -> exists f, asElementVector conn nne u ndim = Ok f /\ shape3 f nelem nne ndim /\
     forall e m i, e < nelem -> m < nne -> i < ndim -> val3 f e m i = val2 u (idx2 conn e m) i) /\
  (forall f, shape3 f nelem nne ndim -> exists u, assembleNodeVector conn nne f ndim = Ok u /\ shape2 u nnode ndim /\
     forall n j, n < nnode -> j < ndim ->
       val2 u n j = sumn nelem (fun e => sumn nne (fun m => ind (idx2 conn e m =? n)%nat * val3 f e m j))%R) /\
  (forall u f X F, shape2 u nnode ndim -> shape3 f nelem nne ndim ->
     asElementVector conn nne u ndim = Ok X -> assembleNodeVector conn nne f ndim = Ok F ->
     sum_node nnode ndim (fun n j => val2 u n j * val2 F n j)%R =
     sum_elem nelem nne ndim (fun e m i => val3 X e m i * val3 f e m i)%R).
Proof.
  intros conn nelem nne ndim H nnode.
  exact (conj (asElementVector_spec conn nelem nne ndim H)
        (conj (assembleNodeVector_spec conn nelem nne ndim H) (elem_node_adjoint conn nelem nne ndim H))).
Qed.
Print Assumptions C65_element_vectors.
Example C65_ex : shape2 [[0; 1]; [1; 2]] 2 2 /\
  asElementVector [[0; 1]; [1; 2]] 2 [[1%R]; [2%R]; [3%R]] 1 = Ok [[[1%R]; [2%R]]; [[2%R]; [3%R]]] /\
  exists u, assembleNodeVector [[0; 1]; [1; 2]] 2 [[[1%R]; [2%R]]; [[3%R]; [4%R]]] 1 = Ok u /\ u = [[1%R]; [5%R]; [4%R]].
Proof.
  split; [split; [reflexivity|simpl; intuition (subst; reflexivity)]|]. split; [reflexivity|].
  eexists. split; [reflexivity|]. repeat f_equal; lra.
Qed.
