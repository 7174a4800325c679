(** Properties C49-C50: partitioned matrices and their solver. *)
From Coq Require Import Reals Lra.
From Verif Require Import Base Spec Sums Spec_Vector Spec_Matrix Model_Numbering Model_Vector Proof_Vector Model_VectorPartitioned Model_Sparse Model_Matrix
  Model_MatrixPartitioned Spec_MatrixOps Proof_Matrix Proof_MatrixPartitioned.

Lemma node_iters_eq : forall conn dofs nelem nne nnode ndim ndof, mesh_dofs conn dofs nelem nne nnode ndim ndof ->
  node_iters (mkVector conn nne dofs ndim) = list_prod (seq 0 nnode) (seq 0 ndim).
Proof.
  intros conn dofs nelem nne nnode ndim ndof H. unfold node_iters.
  now destruct (V_sizes (mkVector conn nne dofs ndim) nelem nne nnode ndim ndof eq_refl eq_refl H) as [_ [-> _]].
Qed.

(** C49: after any sequence of [assemble], [set] and [add], the dense form and the products of a
    partitioned matrix are those of the matrix that is not partitioned.  ([b] is the array that the
    result is written to.) *)
Theorem C49_equals : forall conn dofs nelem nne nnode ndim ndof iip, mesh_dofs conn dofs nelem nne nnode ndim ndof ->
  prescribed ndof iip -> no_holes dofs ndof ->
  let v := mkVector conn nne dofs ndim in
  forall ops, Forall (valid_op nelem nne ndim ndof) ops ->
  exists a0 a m, new_MatrixPartitioned v iip = Ok a0 /\ foldM (fun a o => run_mp o a) ops a0 = Ok a /\
    foldM (fun a o => run_mop o a) ops (new_Matrix v) = Ok m /\
    MP_todense a = M_todense m /\
    (forall x b, length x = ndof -> length b = ndof -> MP_dot_dofval a x b = M_dot_dofval m x) /\
    (forall order u, Permutation order (list_prod (seq 0 nnode) (seq 0 ndim)) -> shape2 u nnode ndim -> agree2 dofs nnode ndim u ->
       MP_dot_nodevec a order u = M_dot_nodevec m order u).
Proof.
  intros conn dofs nelem nne nnode ndim ndof iip H Hp Hh v ops. rewrite <- (node_iters_eq conn dofs nelem nne nnode ndim ndof H).
  exact (partitioned_equals v nelem nne nnode ndim ndof eq_refl eq_refl H iip Hp Hh ops).
Qed.
Print Assumptions C49_equals.

(** C49: [Reaction] replaces the prescribed entries of b by those of the product, and leaves the
    others; [Reaction_p] gives the prescribed entries. *)
Theorem C49_reaction : forall conn dofs nelem nne nnode ndim ndof iip, mesh_dofs conn dofs nelem nne nnode ndim ndof ->
  prescribed ndof iip -> no_holes dofs ndof ->
  let v := mkVector conn nne dofs ndim in
  forall ops a0 a, Forall (valid_op nelem nne ndim ndof) ops ->
  new_MatrixPartitioned v iip = Ok a0 -> foldM (fun a o => run_mp o a) ops a0 = Ok a ->
  (forall x b, length x = ndof -> length b = ndof -> exists y r, MP_dot_dofval a x b = Ok y /\ MP_reaction_dofval a x b = Ok r /\ length r = ndof /\
     forall d, d < ndof -> (In d iip -> val1 r d = val1 y d) /\ (~ In d iip -> val1 r d = val1 b d)) /\
  (forall order x b, Permutation order (list_prod (seq 0 nnode) (seq 0 ndim)) -> shape2 x nnode ndim -> agree2 dofs nnode ndim x -> shape2 b nnode ndim ->
     exists y r, MP_dot_nodevec a order x = Ok y /\ MP_reaction_nodevec a order x b = Ok r /\ shape2 r nnode ndim /\
     forall m i, m < nnode -> i < ndim -> (In (idx2 dofs m i) iip -> val2 r m i = val2 y m i) /\ (~ In (idx2 dofs m i) iip -> val2 r m i = val2 b m i)) /\
  (forall x b xu xp, length x = ndof -> length b = ndof -> AsDofs_u_dofval (MP_p a) x = Ok xu -> AsDofs_p_dofval (MP_p a) x = Ok xp ->
     exists y bp, MP_dot_dofval a x b = Ok y /\ MP_reaction_p a xu xp = Ok bp /\ AsDofs_p_dofval (MP_p a) y = Ok bp).
Proof.
  intros conn dofs nelem nne nnode ndim ndof iip H Hp Hh v ops a0 a. rewrite <- (node_iters_eq conn dofs nelem nne nnode ndim ndof H).
  exact (reaction_history v nelem nne nnode ndim ndof eq_refl eq_refl H iip Hp Hh ops a0 a).
Qed.
Print Assumptions C49_reaction.

(** C50: one matrix and its solver, after any sequence of changes of the matrix and of solves: the
    solution keeps the prescribed entries of x, and the product of the current matrix with it is b on
    the unknown DOFs; for DOF values, nodal values and separate unknown and prescribed values. *)
Theorem C50_solve : forall conn dofs nelem nne nnode ndim ndof iip, mesh_dofs conn dofs nelem nne nnode ndim ndof ->
  prescribed ndof iip -> no_holes dofs ndof ->
  let v := mkVector conn nne dofs ndim in
  forall linsolve ops a0 a s, Forall (fun o => match o with PMat o => valid_op nelem nne ndim ndof o | _ => True end) ops ->
  new_MatrixPartitioned v iip = Ok a0 -> foldM (run_pop linsolve) ops (a0, new_Solver) = Ok (a, s) -> solves linsolve (A_uu a) ->
  (forall b x, length b = ndof -> length x = ndof -> exists y s' a' r, MPS_solve_dofval a linsolve s b x = Ok (y, s', a') /\ length y = ndof /\
     (forall d, In d iip -> val1 y d = val1 x d) /\ MP_dot_dofval a y b = Ok r /\ forall d, d < ndof -> ~ In d iip -> val1 r d = val1 b d) /\
  (forall order b x, Permutation order (list_prod (seq 0 nnode) (seq 0 ndim)) -> shape2 b nnode ndim -> agree2 dofs nnode ndim b -> shape2 x nnode ndim -> agree2 dofs nnode ndim x ->
     exists y s' a' r, MPS_solve_nodevec a linsolve s order b x = Ok (y, s', a') /\ shape2 y nnode ndim /\ agree2 dofs nnode ndim y /\
     (forall m i, m < nnode -> i < ndim -> In (idx2 dofs m i) iip -> val2 y m i = val2 x m i) /\ MP_dot_nodevec a order y = Ok r /\
     forall m i, m < nnode -> i < ndim -> ~ In (idx2 dofs m i) iip -> val2 r m i = val2 b m i) /\
  (forall bu xp, length bu = length (m_iiu (MP_p a)) -> length xp = length (m_iip (MP_p a)) -> exists X s' a' y r,
     MPS_solve_u a linsolve s bu xp = Ok (X, s', a') /\ DofsFromParitioned (MP_p a) X xp = Ok y /\
     (forall z, length z = ndof -> MP_dot_dofval a y z = Ok r) /\ AsDofs_u_dofval (MP_p a) r = Ok bu).
Proof.
  intros conn dofs nelem nne nnode ndim ndof iip H Hp Hh v linsolve ops a0 a s. rewrite <- (node_iters_eq conn dofs nelem nne nnode ndim ndof H).
  exact (solve_history v nelem nne nnode ndim ndof eq_refl eq_refl H iip Hp Hh linsolve ops a0 a s).
Qed.
Print Assumptions C50_solve.

(** C50: solving does not change the matrix *)
Theorem C50_matrix : forall conn dofs nelem nne nnode ndim ndof iip, mesh_dofs conn dofs nelem nne nnode ndim ndof ->
  prescribed ndof iip -> no_holes dofs ndof ->
  let v := mkVector conn nne dofs ndim in
  forall linsolve ops a0 a s, Forall (fun o => match o with PMat o => valid_op nelem nne ndim ndof o | _ => True end) ops ->
  new_MatrixPartitioned v iip = Ok a0 -> foldM (run_pop linsolve) ops (a0, new_Solver) = Ok (a, s) ->
  exists m, foldM (fun a o => run_mop o a) (pmat_ops ops) (new_Matrix v) = Ok m /\ MP_todense a = M_todense m.
Proof.
  intros conn dofs nelem nne nnode ndim ndof iip H Hp Hh v.
  exact (solve_matrix v nelem nne nnode ndim ndof eq_refl eq_refl H iip Hp Hh).
Qed.
Print Assumptions C50_matrix.

(** a spring between a prescribed DOF 0 and an unknown DOF 1 *)
Definition spring : Vector := mkVector [[0; 1]] 2 [[0]; [1]] 1.
Definition spring_K : list (list (list R)) := [[[2%R; (-2)%R]; [(-2)%R; 2%R]]].
Example C49_ex : mesh_dofs [[0; 1]] [[0]; [1]] 1 2 2 1 2 /\ prescribed 2 [0] /\ no_holes [[0]; [1]] 2 /\ valid_op 1 2 1 2 (OpAssemble spring_K).
Proof.
  split; [|split; [|split]].
  - split.
    + split; [reflexivity|]. simpl. intuition (subst; reflexivity).
    + split; [reflexivity|]. simpl. intuition (subst; reflexivity).
    + intros [|[|e]] [|[|m]] He Hm; cbn; lia.
    + reflexivity.
  - split; [repeat constructor; simpl; tauto|]. simpl. intuition lia.
  - intros d Hd. simpl. lia.
  - split; [reflexivity|]. intros r [<-|[]]. split; [reflexivity|]. intros x [<-|[<-|[]]]; reflexivity.
Qed.
(** the solver of the 1 x 1 matrix A_uu = [2] *)
Example C50_ex : exists a0 a s, new_MatrixPartitioned spring [0] = Ok a0 /\
  foldM (run_pop div1) [PMat (OpAssemble spring_K)] (a0, new_Solver) = Ok (a, s) /\ solves div1 (A_uu a).
Proof.
  do 3 eexists. split; [reflexivity|]. split; [reflexivity|]. apply solves1; [reflexivity|reflexivity|].
  cbn [A_uu ent with_blocks fst snd]. unfold sumL, ind. simpl. lra.
Qed.
