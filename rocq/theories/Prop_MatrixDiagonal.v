(** Properties C53-C54: diagonal matrices. *)
From Coq Require Import Reals Lra.
From Verif Require Import Base Spec Sums Spec_Vector Spec_Matrix Model_Numbering Model_Vector Model_VectorPartitioned Model_Matrix
  Model_MatrixDiagonal Spec_MatrixDiagonal Proof_Vector Proof_MatrixDiagonal Proof_MatrixDiagonalPartitioned.

(** C53: after any sequence of [assemble], [set] and solves that starts by giving the matrix a value,
    [data], [Todense] and [Dot] are those of the diagonal of the last [assemble] or [set]. *)
Theorem C53_history : forall conn dofs nelem nne nnode ndim ndof, mesh_dofs conn dofs nelem nne nnode ndim ndof ->
  let v := mkVector conn nne dofs ndim in
  forall o ops, changes o = true -> Forall (valid_dop nelem nne nnode ndim ndof) (o :: ops) ->
  let A := fold_left (diag_after conn dofs nelem nne ndim) (o :: ops) (fun _ => 0%R) in
  exists a, foldM run_dop (o :: ops) (new_MatrixDiagonal v) = Ok a /\
    (exists l, MD_data a = Ok l /\ length l = ndof /\ forall d, d < ndof -> val1 l d = A d) /\
    (exists M, MD_todense a = Ok M /\ is_dense ndof M (fun r c => if r =? c then A r else 0%R)) /\
    (forall x, length x = ndof -> exists b, MD_dot_dofval a x = Ok b /\ length b = ndof /\ forall d, d < ndof -> val1 b d = (A d * val1 x d)%R) /\
    (forall x, shape2 x nnode ndim -> exists b, MD_dot_nodevec a x = Ok b /\ shape2 b nnode ndim /\
       forall m i, m < nnode -> i < ndim -> val2 b m i = (A (idx2 dofs m i) * val2 x m i)%R).
Proof.
  intros conn dofs nelem nne nnode ndim ndof H v.
  exact (diag_history v nelem nne nnode ndim ndof eq_refl eq_refl H).
Qed.
Print Assumptions C53_history.

(** C53: [Dot] and [Solve] are inverse to each other after every such history (the cached inverse is
    never stale), if the diagonal has no zero *)
Theorem C53_inverse : forall conn dofs nelem nne nnode ndim ndof, mesh_dofs conn dofs nelem nne nnode ndim ndof ->
  let v := mkVector conn nne dofs ndim in
  forall o ops, changes o = true -> Forall (valid_dop nelem nne nnode ndim ndof) (o :: ops) ->
  let A := fold_left (diag_after conn dofs nelem nne ndim) (o :: ops) (fun _ => 0%R) in
  (forall d, d < ndof -> A d <> 0%R) ->
  exists a, foldM run_dop (o :: ops) (new_MatrixDiagonal v) = Ok a /\
    (forall b, length b = ndof -> exists x a', MD_solve_dofval a b = Ok (x, a') /\ MD_dot_dofval a x = Ok b) /\
    (forall b, shape2 b nnode ndim -> exists x a', MD_solve_nodevec a b = Ok (x, a') /\ MD_dot_nodevec a x = Ok b) /\
    (forall x, length x = ndof -> exists b a', MD_dot_dofval a x = Ok b /\ MD_solve_dofval a b = Ok (x, a')) /\
    (forall x, shape2 x nnode ndim -> exists b a', MD_dot_nodevec a x = Ok b /\ MD_solve_nodevec a b = Ok (x, a')).
Proof.
  intros conn dofs nelem nne nnode ndim ndof H v.
  exact (diag_inverse v nelem nne nnode ndim ndof eq_refl eq_refl H).
Qed.
Print Assumptions C53_inverse.

(** C53: solving before the matrix has a value reads uninitialised memory *)
Theorem C53_uninitialised : forall conn dofs nelem nne nnode ndim ndof, mesh_dofs conn dofs nelem nne nnode ndim ndof ->
  forall o ops, changes o = false -> foldM run_dop (o :: ops) (new_MatrixDiagonal (mkVector conn nne dofs ndim)) = Uninit.
Proof.
  intros conn dofs nelem nne nnode ndim ndof H.
  exact (solve_first (mkVector conn nne dofs ndim) nelem nne nnode ndim ndof eq_refl eq_refl H).
Qed.
Print Assumptions C53_uninitialised.

(** C53: the variants for nodal values agree with those for DOF values *)
Theorem C53_variants : forall conn dofs nelem nne nnode ndim ndof, mesh_dofs conn dofs nelem nne nnode ndim ndof ->
  let v := mkVector conn nne dofs ndim in
  forall o ops, changes o = true -> Forall (valid_dop nelem nne nnode ndim ndof) (o :: ops) ->
  exists a, foldM run_dop (o :: ops) (new_MatrixDiagonal v) = Ok a /\
    forall x, length x = ndof -> exists u b s ma sn mn, AsNode_dofval v x = Ok u /\
      MD_dot_dofval a x = Ok b /\ MD_dot_nodevec a u = AsNode_dofval v b /\
      MD_solve_dofval a x = Ok (s, ma) /\ MD_solve_nodevec a u = Ok (sn, mn) /\ AsNode_dofval v s = Ok sn.
Proof.
  intros conn dofs nelem nne nnode ndim ndof H v.
  exact (diag_variants v nelem nne nnode ndim ndof eq_refl eq_refl H).
Qed.
Print Assumptions C53_variants.

(** C53: for element matrices without entries off the diagonal, MatrixDiagonal is Matrix *)
Theorem C53_matrix : forall conn dofs nelem nne nnode ndim ndof, mesh_dofs conn dofs nelem nne nnode ndim ndof ->
  let v := mkVector conn nne dofs ndim in
  forall K, shape3 K nelem (nne * ndim) (nne * ndim) -> diagonal3 K nelem (nne * ndim) ->
  exists a m M, MD_assemble (new_MatrixDiagonal v) K = Ok a /\ M_assemble (new_Matrix v) K = Ok m /\ MD_todense a = Ok M /\ M_todense m = Ok M /\
    forall x, length x = ndof -> MD_dot_dofval a x = M_dot_dofval m x.
Proof.
  intros conn dofs nelem nne nnode ndim ndof H v.
  exact (diag_matrix v nelem nne nnode ndim ndof eq_refl eq_refl H).
Qed.
Print Assumptions C53_matrix.

(** C54: a partitioned diagonal matrix is the same matrix after the same history; [x0], [x1] are the
    arrays that solutions are written to, [b] the one that products are written to *)
Theorem C54_equals : forall conn dofs nelem nne nnode ndim ndof, mesh_dofs conn dofs nelem nne nnode ndim ndof ->
  let v := mkVector conn nne dofs ndim in
  forall iip, prescribed ndof iip -> no_holes dofs ndof ->
  forall o ops x0 x1, changes o = true -> Forall (valid_dop nelem nne nnode ndim ndof) (o :: ops) -> length x0 = ndof -> shape2 x1 nnode ndim ->
  exists a0 a d, new_MatrixDiagonalPartitioned v iip = Ok a0 /\ foldM (run_dpop x0 x1) (o :: ops) a0 = Ok a /\
  foldM run_dop (o :: ops) (new_MatrixDiagonal v) = Ok d /\
  MDP_data a = MD_data d /\ MDP_todense a = MD_todense d /\
  (forall x b, length x = ndof -> length b = ndof -> MDP_dot_dofval a x b = MD_dot_dofval d x) /\
  (forall x, shape2 x nnode ndim -> MDP_dot_nodevec a x = MD_dot_nodevec d x).
Proof.
  intros conn dofs nelem nne nnode ndim ndof H v.
  exact (dp_equals v nelem nne nnode ndim ndof eq_refl eq_refl H).
Qed.
Print Assumptions C54_equals.

(** C54: after every history, [solve] keeps the prescribed entries of x, and the product with the
    solution is b on the unknown DOFs *)
Theorem C54_solve : forall conn dofs nelem nne nnode ndim ndof, mesh_dofs conn dofs nelem nne nnode ndim ndof ->
  let v := mkVector conn nne dofs ndim in
  forall iip, prescribed ndof iip -> no_holes dofs ndof ->
  forall o ops x0 x1, changes o = true -> Forall (valid_dop nelem nne nnode ndim ndof) (o :: ops) -> length x0 = ndof -> shape2 x1 nnode ndim ->
  (forall d, d < ndof -> ~ In d iip -> fold_left (diag_after conn dofs nelem nne ndim) (o :: ops) (fun _ => 0%R) d <> 0%R) ->
  exists a0 a, new_MatrixDiagonalPartitioned v iip = Ok a0 /\ foldM (run_dpop x0 x1) (o :: ops) a0 = Ok a /\
  (forall b x, length b = ndof -> length x = ndof -> exists y a' r, MDP_solve_dofval a b (map Some x) = Ok (map Some y, a') /\ length y = ndof /\
     (forall d, In d iip -> val1 y d = val1 x d) /\ MDP_dot_dofval a y b = Ok r /\ forall d, d < ndof -> ~ In d iip -> val1 r d = val1 b d) /\
  (forall b x, shape2 b nnode ndim -> shape2 x nnode ndim -> exists y a' r, MDP_solve_nodevec a b (map (map Some) x) = Ok (map (map Some) y, a') /\ shape2 y nnode ndim /\
     (forall m i, m < nnode -> i < ndim -> In (idx2 dofs m i) iip -> val2 y m i = val2 x m i) /\
     MDP_dot_nodevec a y = Ok r /\ forall m i, m < nnode -> i < ndim -> ~ In (idx2 dofs m i) iip -> val2 r m i = val2 b m i) /\
  (forall b_u x_p, length b_u = length (m_iiu (MDP_p a)) -> exists x_u a', MDP_solve_u a b_u x_p = Ok (x_u, a') /\ MDP_dot_u a x_u x_p = Ok b_u).
Proof.
  intros conn dofs nelem nne nnode ndim ndof H v.
  exact (dp_solve v nelem nne nnode ndim ndof eq_refl eq_refl H).
Qed.
Print Assumptions C54_solve.

(** C54: [reaction] replaces the prescribed entries of b by those of the product and keeps the others;
    [Dot_u], [Dot_p] and [reaction_p] are the parts of the product *)
Theorem C54_reaction : forall conn dofs nelem nne nnode ndim ndof, mesh_dofs conn dofs nelem nne nnode ndim ndof ->
  let v := mkVector conn nne dofs ndim in
  forall iip, prescribed ndof iip -> no_holes dofs ndof ->
  forall o ops x0 x1, changes o = true -> Forall (valid_dop nelem nne nnode ndim ndof) (o :: ops) -> length x0 = ndof -> shape2 x1 nnode ndim ->
  exists a0 a, new_MatrixDiagonalPartitioned v iip = Ok a0 /\ foldM (run_dpop x0 x1) (o :: ops) a0 = Ok a /\
  (forall x b, length x = ndof -> length b = ndof -> exists y r, MDP_dot_dofval a x b = Ok y /\ MDP_reaction_dofval a x b = Ok r /\ length r = ndof /\
     forall d, d < ndof -> (In d iip -> val1 r d = val1 y d) /\ (~ In d iip -> val1 r d = val1 b d)) /\
  (forall x b, shape2 x nnode ndim -> shape2 b nnode ndim -> exists y r, MDP_dot_nodevec a x = Ok y /\ MDP_reaction_nodevec a x b = Ok r /\ shape2 r nnode ndim /\
     forall m i, m < nnode -> i < ndim -> (In (idx2 dofs m i) iip -> val2 r m i = val2 y m i) /\ (~ In (idx2 dofs m i) iip -> val2 r m i = val2 b m i)) /\
  (forall x_u x_p b_p, length x_p = length iip -> length b_p = length iip -> exists y, MDP_dot_p a x_u x_p = Ok y /\ MDP_reaction_p a x_u x_p b_p = Ok (map Some y)) /\
  (forall x b, length x = ndof -> length b = ndof -> exists x_u x_p y y_u y_p, AsDofs_u_dofval (MDP_p a) x = Ok x_u /\ AsDofs_p_dofval (MDP_p a) x = Ok x_p /\
     MDP_dot_dofval a x b = Ok y /\ AsDofs_u_dofval (MDP_p a) y = Ok y_u /\ AsDofs_p_dofval (MDP_p a) y = Ok y_p /\
     MDP_dot_u a x_u x_p = Ok y_u /\ MDP_dot_p a x_u x_p = Ok y_p).
Proof.
  intros conn dofs nelem nne nnode ndim ndof H v.
  exact (dp_reaction v nelem nne nnode ndim ndof eq_refl eq_refl H).
Qed.
Print Assumptions C54_reaction.

(** C54: [Solve] without an array of prescribed values leaves exactly the prescribed entries
    uninitialised *)
Theorem C54_Solve_partial : forall conn dofs nelem nne nnode ndim ndof, mesh_dofs conn dofs nelem nne nnode ndim ndof ->
  let v := mkVector conn nne dofs ndim in
  forall iip, prescribed ndof iip -> no_holes dofs ndof ->
  forall o ops x0 x1, changes o = true -> Forall (valid_dop nelem nne nnode ndim ndof) (o :: ops) -> length x0 = ndof -> shape2 x1 nnode ndim ->
  exists a0 a, new_MatrixDiagonalPartitioned v iip = Ok a0 /\ foldM (run_dpop x0 x1) (o :: ops) a0 = Ok a /\
  (forall b, length b = ndof -> exists y a', MDP_Solve_dofval a b = Ok (y, a') /\ length y = ndof /\
     forall d, d < ndof -> nth_error y d = Some None <-> In d iip) /\
  (forall b, shape2 b nnode ndim -> exists y a', MDP_Solve_nodevec a b = Ok (y, a') /\ shape2 y nnode ndim /\
     forall m i, m < nnode -> i < ndim -> at2 y m i = Some None <-> In (idx2 dofs m i) iip).
Proof.
  intros conn dofs nelem nne nnode ndim ndof H v.
  exact (dp_Solve_uninit v nelem nne nnode ndim ndof eq_refl eq_refl H).
Qed.
Print Assumptions C54_Solve_partial.

(** C54: [Reaction_p] gives the prescribed part of the product if the uninitialised member of the base
    class that sizes its result happens to be the number of prescribed DOFs; otherwise it writes out of
    bounds or returns uninitialised entries *)
Theorem C54_Reaction_p_partial : forall conn dofs nelem nne nnode ndim ndof, mesh_dofs conn dofs nelem nne nnode ndim ndof ->
  let v := mkVector conn nne dofs ndim in
  forall iip, prescribed ndof iip -> no_holes dofs ndof ->
  forall o ops x0 x1, changes o = true -> Forall (valid_dop nelem nne nnode ndim ndof) (o :: ops) -> length x0 = ndof -> shape2 x1 nnode ndim ->
  forall base, exists a0 a, new_MatrixDiagonalPartitioned v iip = Ok a0 /\ foldM (run_dpop x0 x1) (o :: ops) a0 = Ok a /\
  forall x_u x_p, length x_p = length iip ->
    (base < length iip -> MDP_Reaction_p base a x_u x_p = Oob) /\
    (base = length iip -> exists y, MDP_dot_p a x_u x_p = Ok y /\ MDP_Reaction_p base a x_u x_p = Ok (map Some y)) /\
    (length iip < base -> exists y, MDP_Reaction_p base a x_u x_p = Ok y /\ length y = base /\ nth_error y (length iip) = Some None).
Proof.
  intros conn dofs nelem nne nnode ndim ndof H v.
  exact (dp_Reaction_p v nelem nne nnode ndim ndof eq_refl eq_refl H).
Qed.
Print Assumptions C54_Reaction_p_partial.

(** two DOFs, the first prescribed; the diagonal is set to (2, 4) after a change and a solve *)
Definition two : Vector := mkVector [[0; 1]] 2 [[0]; [1]] 1.
Definition two_ops : list dop := [DAssemble [[[1%R; 0%R]; [0%R; 3%R]]]; DSolve [1%R; 1%R]; DSet [2%R; 4%R]].
Example C53_ex : mesh_dofs [[0; 1]] [[0]; [1]] 1 2 2 1 2 /\ Forall (valid_dop 1 2 2 1 2) two_ops /\
  (forall d, d < 2 -> fold_left (diag_after [[0; 1]] [[0]; [1]] 1 2 1) two_ops (fun _ => 0%R) d <> 0%R) /\
  diagonal3 [[[1%R; 0%R]; [0%R; 3%R]]] 1 2.
Proof.
  split; [|split; [|split]].
  - split.
    + split; [reflexivity|]. simpl. intuition (subst; reflexivity).
    + split; [reflexivity|]. simpl. intuition (subst; reflexivity).
    + intros [|[|e]] [|[|m]] He Hm; cbn; lia.
    + reflexivity.
  - unfold two_ops. constructor; [|constructor; [reflexivity|constructor; [reflexivity|constructor]]].
    split; [reflexivity|]. intros r [<-|[]]. split; [reflexivity|]. intros x [<-|[<-|[]]]; reflexivity.
  - intros [|[|d]] Hd; [| |lia]; cbn; unfold val1; cbn; lra.
  - intros [|e] [|[|r]] [|[|c]] He Hr Hc Hrc; try lia; reflexivity.
Qed.
Example C54_ex : prescribed 2 [0] /\ no_holes [[0]; [1]] 2.
Proof.
  split; [split; [repeat constructor; simpl; tauto|simpl; intuition lia]|]. intros d Hd. simpl. lia.
Qed.

(** the full statement of C54 also asks for defined prescribed entries of [Solve], and for [Reaction_p]
    to be the prescribed part of the product: neither holds *)
Theorem C54_Solve_refuted : exists a0 a y a', new_MatrixDiagonalPartitioned two [0] = Ok a0 /\ MDP_set a0 [2%R; 4%R] = Ok a /\
  MDP_Solve_dofval a [1%R; 1%R] = Ok (y, a') /\ nth_error y 0 = Some None.
Proof. do 4 eexists. repeat split. Qed.
Print Assumptions C54_Solve_refuted.

Theorem C54_Reaction_p_refuted : exists base a0 a, new_MatrixDiagonalPartitioned two [0] = Ok a0 /\ MDP_set a0 [2%R; 4%R] = Ok a /\
  MDP_Reaction_p base a [1%R] [1%R] = Oob.
Proof. exists 0. do 2 eexists. repeat split. Qed.
Print Assumptions C54_Reaction_p_refuted.
