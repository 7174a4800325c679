(** Properties C46-C48: matrices and their solver. *)
From Coq Require Import Reals Lra.
From Verif Require Import Base Spec Sums Spec_Vector Spec_Matrix Model_Numbering Model_Vector Proof_Vector Model_Sparse Model_Matrix Spec_MatrixOps Proof_Matrix.

(** C46: whatever the matrix was, [assemble] makes its entry (a, b) the sum of the entries of the
    element matrices with row DOF a and column DOF b; [Todense] shows it; symmetric element
    matrices give a symmetric matrix. *)
Theorem C46_assemble : forall conn dofs nelem nne nnode ndim ndof, mesh_dofs conn dofs nelem nne nnode ndim ndof ->
  forall a K, M_v a = mkVector conn nne dofs ndim -> shape3 K nelem (nne * ndim) (nne * ndim) ->
  exists a' dense, M_assemble a K = Ok a' /\ M_todense a' = Ok dense /\ is_dense ndof dense (assembled conn dofs nelem nne ndim K) /\
    ((forall e r c, e < nelem -> r < nne * ndim -> c < nne * ndim -> val3 K e r c = val3 K e c r) ->
     forall i j, i < ndof -> j < ndof -> val2 dense i j = val2 dense j i).
Proof.
  intros conn dofs nelem nne nnode ndim ndof H a K Hv HK.
  destruct (assemble_spec (mkVector conn nne dofs ndim) nelem nne nnode ndim ndof eq_refl eq_refl H a K Hv HK) as [a' [E [V [_ [R1 [C1 H1]]]]]].
  destruct (todense_spec (mkVector conn nne dofs ndim) nelem nne nnode ndim ndof eq_refl eq_refl H a' V R1 C1) as [dn [Ed [Sd Hd]]].
  assert (Hd' : forall i j, i < ndof -> j < ndof -> val2 dn i j = assembled conn dofs nelem nne ndim K i j) by (intros i j Hi Hj; rewrite Hd by assumption; apply H1).
  exists a', dn. split; [exact E|]. split; [exact Ed|]. split; [split; assumption|].
  intros Hs i j Hi Hj. rewrite !Hd' by assumption. exact (assembled_sym (mkVector conn nne dofs ndim) nelem nne nnode ndim ndof eq_refl eq_refl H K Hs i j).
Qed.
Print Assumptions C46_assemble.

(** C46: the product of a matrix of ndof x ndof with a vector, from its dense form *)
Theorem C46_dot : forall conn dofs nelem nne nnode ndim ndof, mesh_dofs conn dofs nelem nne nnode ndim ndof ->
  forall a, M_v a = mkVector conn nne dofs ndim -> rows (M_A a) = ndof -> cols (M_A a) = ndof -> exists dense, M_todense a = Ok dense /\
  forall x, length x = ndof -> exists b, M_dot_dofval a x = Ok b /\ length b = ndof /\
    forall i, i < ndof -> val1 b i = sumn ndof (fun j => val2 dense i j * val1 x j)%R.
Proof.
  intros conn dofs nelem nne nnode ndim ndof H a Hv Hr Hc.
  destruct (todense_spec (mkVector conn nne dofs ndim) nelem nne nnode ndim ndof eq_refl eq_refl H a Hv Hr Hc) as [dn [Ed [Sd Hd]]].
  exists dn. split; [exact Ed|]. intros x L.
  destruct (dot_dofval_spec (mkVector conn nne dofs ndim) nelem nne nnode ndim ndof eq_refl eq_refl H a x Hv Hr Hc L) as [b [Eb [Lb Hb]]].
  exists b. split; [exact Eb|]. split; [exact Lb|]. intros i Hi. rewrite Hb by exact Hi. unfold mv. apply sumn_ext. intros j Hj. now rewrite Hd.
Qed.
Print Assumptions C46_dot.

(** C46: the product of an assembled matrix with x is the assembly of the products of the element
    matrices with the element values X of x; and x^T A x is the sum of the element energies. *)
Theorem C46_elements : forall conn dofs nelem nne nnode ndim ndof, mesh_dofs conn dofs nelem nne nnode ndim ndof ->
  let v := mkVector conn nne dofs ndim in
  forall a a' K x X f, M_v a = v -> shape3 K nelem (nne * ndim) (nne * ndim) -> length x = ndof ->
  M_assemble a K = Ok a' -> AsElement_dofval v x = Ok X -> shape3 f nelem nne ndim ->
  (forall e m i, e < nelem -> m < nne -> i < ndim ->
     val3 f e m i = sum_node nne ndim (fun n j => val3 K e (m * ndim + i) (n * ndim + j) * val3 X e n j)%R) ->
  exists b, M_dot_dofval a' x = Ok b /\ AssembleDofs_elemvec v f = Ok b /\
    sumn ndof (fun d => val1 x d * val1 b d)%R = sum_elem nelem nne ndim (fun e m i => val3 X e m i * val3 f e m i)%R.
Proof.
  intros conn dofs nelem nne nnode ndim ndof H v.
  exact (assemble_dot v nelem nne nnode ndim ndof eq_refl eq_refl H).
Qed.
Print Assumptions C46_elements.

(** C46: the product with nodal values is the product with their DOF values, for every order of
    the iterations of the parallel loop. *)
Theorem C46_nodevec : forall conn dofs nelem nne nnode ndim ndof, mesh_dofs conn dofs nelem nne nnode ndim ndof ->
  let v := mkVector conn nne dofs ndim in
  forall a order u x, M_v a = v -> rows (M_A a) = ndof -> cols (M_A a) = ndof ->
  Permutation order (list_prod (seq 0 nnode) (seq 0 ndim)) -> shape2 u nnode ndim -> agree2 dofs nnode ndim u ->
  AsDofs_nodevec v order u = Ok x ->
  exists b w, M_dot_nodevec a order u = Ok w /\ M_dot_dofval a x = Ok b /\ AsNode_dofval v b = Ok w.
Proof.
  intros conn dofs nelem nne nnode ndim ndof H v a order u x Hv Hr Hc Ho.
  apply (dot_nodevec_spec v nelem nne nnode ndim ndof eq_refl eq_refl H a order u x Hv Hr Hc).
  unfold node_iters. destruct (V_sizes v nelem nne nnode ndim ndof eq_refl eq_refl H) as [_ [-> _]]. exact Ho.
Qed.
Print Assumptions C46_nodevec.

(** two springs in series, with the outer nodes tied *)
Example C46_ex_mesh : mesh_dofs [[0; 1]; [1; 2]] [[0]; [1]; [0]] 2 2 3 1 2.
Proof.
  split.
  - split; [reflexivity|]. simpl. intuition (subst; reflexivity).
  - split; [reflexivity|]. simpl. intuition (subst; reflexivity).
  - intros [|[|e]] [|[|m]] He Hm; cbn; lia.
  - reflexivity.
Qed.
Example C46_ex : exists a dense, M_assemble (new_Matrix (mkVector [[0; 1]; [1; 2]] 2 [[0]; [1]; [0]] 1))
    [[[2%R; (-2)%R]; [(-2)%R; 2%R]]; [[3%R; (-3)%R]; [(-3)%R; 3%R]]] = Ok a /\ M_todense a = Ok dense /\
  dense = [[5%R; (-5)%R]; [(-5)%R; 5%R]].
Proof.
  do 2 eexists. split; [reflexivity|]. split; [reflexivity|]. unfold sumL, ind. simpl.
  repeat (f_equal; try lra).
Qed.

(** C47: after any sequence of [assemble], [set] and [add], from a new matrix (which is zero), every
    entry is what the operations make of it one after the other: [assemble] and [set] replace the
    whole matrix, [add] adds to it. *)
Theorem C47_history : forall conn dofs nelem nne nnode ndim ndof, mesh_dofs conn dofs nelem nne nnode ndim ndof ->
  forall ops, Forall (valid_op nelem nne ndim ndof) ops ->
  exists a dense, foldM (fun a o => run_mop o a) ops (new_Matrix (mkVector conn nne dofs ndim)) = Ok a /\ M_todense a = Ok dense /\
    is_dense ndof dense (fun r c => fold_left (entry_after conn dofs nelem nne ndim r c) ops 0%R).
Proof.
  intros conn dofs nelem nne nnode ndim ndof H ops Hok.
  destruct (V_sizes (mkVector conn nne dofs ndim) nelem nne nnode ndim ndof eq_refl eq_refl H) as [_ [_ E0]].
  destruct (run_mops_spec (mkVector conn nne dofs ndim) nelem nne nnode ndim ndof eq_refl eq_refl H ops (new_Matrix (mkVector conn nne dofs ndim)) eq_refl E0 E0 Hok)
    as [a [Ea [Va [Ra [Ca Ha]]]]].
  destruct (todense_spec (mkVector conn nne dofs ndim) nelem nne nnode ndim ndof eq_refl eq_refl H a Va Ra Ca) as [dn [Ed [Sd Hd]]].
  exists a, dn. split; [exact Ea|]. split; [exact Ed|]. split; [exact Sd|]. intros r c Hr Hc. rewrite Hd by assumption. apply Ha.
Qed.
Print Assumptions C47_history.

(** C47: a block at distinct rows and columns, read back *)
Theorem C47_block : forall rs cs M, NoDup rs -> NoDup cs -> forall r c i j,
  nth_error rs i = Some r -> nth_error cs j = Some c -> block rs cs M r c = val2 M i j.
Proof. exact block_at. Qed.
Print Assumptions C47_block.

(** C47: ... and zero elsewhere *)
Theorem C47_block_zero : forall rs cs M r c, ~ In r rs \/ ~ In c cs -> block rs cs M r c = 0%R.
Proof. exact block_zero. Qed.
Print Assumptions C47_block_zero.

Example C47_ex : Forall (valid_op 2 2 1 2)
  [OpAssemble [[[2%R; (-2)%R]; [(-2)%R; 2%R]]; [[3%R; (-3)%R]; [(-3)%R; 3%R]]]; OpAdd [1] [0; 1] [[7%R; 9%R]]].
Proof.
  constructor; [|constructor; [|constructor]].
  - split; [reflexivity|]. intros r [<-|[<-|[]]]; (split; [reflexivity|]); intros x [<-|[<-|[]]]; reflexivity.
  - split.
    + intros r. simpl. lia.
    + split; [reflexivity|]. intros x [<-|[]]. reflexivity.
Qed.

(** C48: any number of matrices and solvers, with every solver only used with its own matrix, in any
    order of operations: a solver that solves systems with its current matrix gives x with A x = b
    for the current matrix A, however the matrix was changed before. *)
Theorem C48_current : forall linsolve pair vs ops w s, (forall s t, pair s = pair t -> s = t) -> Forall (paired pair) ops ->
  run_ops linsolve (start vs) ops = Ok w -> solves linsolve (M_A (w_mat w (pair s))) ->
  forall b, length b = m_ndof (vs (pair s)) -> exists x s' a',
    MS_solve_dofval linsolve (w_solver w s) (w_mat w (pair s)) b = Ok (x, s', a') /\ M_A a' = M_A (w_mat w (pair s)) /\
    length x = m_ndof (vs (pair s)) /\ M_dot_dofval (w_mat w (pair s)) x = Ok b.
Proof. exact cache_solve. Qed.
Print Assumptions C48_current.

(** C48: the same for nodal values, of which those of tied nodes agree *)
Theorem C48_current_nodevec : forall linsolve pair vs ops w s nelem nne nnode ndim ndof,
  (forall s t, pair s = pair t -> s = t) -> Forall (paired pair) ops ->
  run_ops linsolve (start vs) ops = Ok w -> solves linsolve (M_A (w_mat w (pair s))) ->
  mesh_dofs (m_conn (vs (pair s))) (m_dofs (vs (pair s))) nelem nne nnode ndim ndof ->
  m_nne (vs (pair s)) = nne -> m_ndim (vs (pair s)) = ndim -> no_holes (m_dofs (vs (pair s))) ndof ->
  forall order b, Permutation order (list_prod (seq 0 nnode) (seq 0 ndim)) -> shape2 b nnode ndim -> agree2 (m_dofs (vs (pair s))) nnode ndim b ->
  exists x s' a',
    MS_solve_nodevec linsolve order (w_solver w s) (w_mat w (pair s)) b = Ok (x, s', a') /\ M_A a' = M_A (w_mat w (pair s)) /\
    shape2 x nnode ndim /\ agree2 (m_dofs (vs (pair s))) nnode ndim x /\ M_dot_nodevec (w_mat w (pair s)) order x = Ok b.
Proof. exact cache_solve_nodevec. Qed.
Print Assumptions C48_current_nodevec.

(** C48: the current matrix is the result of the operations on it, without the solves *)
Theorem C48_matrix : forall linsolve k ops w w', run_ops linsolve w ops = Ok w' ->
  exists a, foldM (fun a o => run_mop o a) (ops_of k ops) (w_mat w k) = Ok a /\ M_v (w_mat w' k) = M_v a /\ M_A (w_mat w' k) = M_A a.
Proof. exact run_ops_mat. Qed.
Print Assumptions C48_matrix.

(** a history with one matrix with one DOF *)
Example C48_ex : let ops := [OpMat 0 (OpSet [0] [0] [[2%R]]); OpSolve 0 0 [4%R]; OpMat 0 (OpSet [0] [0] [[3%R]])] in
  Forall (paired (fun s => s)) ops /\ exists w, run_ops div1 (start (fun _ => v1)) ops = Ok w /\
    solves div1 (M_A (w_mat w 0)) /\ M_changed (w_mat w 0) = true /\ m_ndof v1 = 1.
Proof. split; [repeat constructor|exact ex48]. Qed.

(** C48: false if two solvers share a matrix: the second does not see that the matrix changed *)
Theorem C48_shared_refuted : exists linsolve vs ops w b x s' a', run_ops linsolve (start vs) ops = Ok w /\
  solves linsolve (M_A (w_mat w 0)) /\ length b = m_ndof (vs 0) /\
  MS_solve_dofval linsolve (w_solver w 1) (w_mat w 0) b = Ok (x, s', a') /\ M_dot_dofval (w_mat w 0) x <> Ok b.
Proof. exact shared_refuted. Qed.
Print Assumptions C48_shared_refuted.

(** C48: ... or if one solver serves two matrices *)
Theorem C48_two_matrices_refuted : exists linsolve vs ops w b x s' a', run_ops linsolve (start vs) ops = Ok w /\
  solves linsolve (M_A (w_mat w 0)) /\ length b = m_ndof (vs 0) /\
  MS_solve_dofval linsolve (w_solver w 0) (w_mat w 0) b = Ok (x, s', a') /\ M_dot_dofval (w_mat w 0) x <> Ok b.
Proof. exact two_matrices_refuted. Qed.
Print Assumptions C48_two_matrices_refuted.
