(** Model of Matrix.h: Matrix and MatrixSolver. *)
From Coq Require Import Reals.
From Verif Require Import Base Sums Model_Numbering Model_Vector Model_Sparse.

(** Matrix.h:656-662: the members; the bookkeeping is that of Vector.h *)
Record Matrix := mkMatrix { M_v : Vector; M_A : mat; M_changed : bool }.

(** Matrix.h:679-697: the constructor; a sparse matrix without entries is zero *)
Definition zero_mat (r c : nat) : mat := mkMat r c (fun _ _ => 0%R).
Definition new_Matrix (v : Vector) : Matrix := mkMatrix v (zero_mat (m_ndof v) (m_ndof v)) true.

(** the entries pushed by the loops over (e, m, i, n, j) of Matrix.h:709-723, with [d e m i] the DOF
    of node m of element e in direction i *)
Definition elemmat_triplets (v : Vector) (d : nat -> nat -> nat -> res nat) (elemmat : list (list (list R))) : res (list (nat * nat * R)) :=
  do l <- mapM (fun emi =>
      do di <- d (fst (fst emi)) (snd (fst emi)) (snd emi);
      mapM (fun nj =>
        do dj <- d (fst (fst emi)) (fst nj) (snd nj);
        do x <- get3 elemmat (fst (fst emi)) (snd (fst emi) * m_ndim v + snd emi) (fst nj * m_ndim v + snd nj);
        Ok (di, dj, x)) (list_prod (seq 0 (m_nne v)) (seq 0 (m_ndim v)))) (elem_iters v);
  Ok (concat l).

(** Matrix.h:704-727 [assemble_impl] *)
Definition M_assemble (a : Matrix) (elemmat : list (list (list R))) : res Matrix :=
  do ts <- elemmat_triplets (M_v a) (elem_dof (M_v a)) elemmat;
  do m <- setFromTriplets (m_ndof (M_v a)) (m_ndof (M_v a)) ts;
  Ok (mkMatrix (M_v a) m true).

(** the entries pushed by the loops of Matrix.h:749-753 and 781-785; [d] maps the given numbers *)
Definition block_triplets (d : nat -> res nat) (rs cs : list nat) (matrix : list (list R)) : res (list (nat * nat * R)) :=
  mapM (fun ij => do r <- get rs (fst ij); do c <- get cs (snd ij);
                  do di <- d r; do dj <- d c;
                  do x <- get2 matrix (fst ij) (snd ij); Ok (di, dj, x))
       (list_prod (seq 0 (length rs)) (seq 0 (length cs))).

(** Matrix.h:738-757 [set] *)
Definition M_set (a : Matrix) (rs cs : list nat) (matrix : list (list R)) : res Matrix :=
  do ts <- block_triplets (@Ok nat) rs cs matrix;
  do m <- setFromTriplets (m_ndof (M_v a)) (m_ndof (M_v a)) ts;
  Ok (mkMatrix (M_v a) m true).

(** Matrix.h:767-789 [add] *)
Definition M_add (a : Matrix) (rs cs : list nat) (matrix : list (list R)) : res Matrix :=
  do ts <- block_triplets (@Ok nat) rs cs matrix;
  do m <- setFromTriplets (m_ndof (M_v a)) (m_ndof (M_v a)) ts;
  do s <- addmat (M_A a) m;
  Ok (mkMatrix (M_v a) s true).

(** [ret(ir(r), ic(c)) = it.value()] for all entries of a sparse matrix.  The code visits only the
    stored entries; the others are zero, and so is [ret] where no entry is stored. *)
Definition dense_writes (ir ic : nat -> res nat) (a : mat) : res (list (nat * nat * R)) :=
  mapM (fun rc => do r <- ir (fst rc); do c <- ic (snd rc); Ok (r, c, ent a (fst rc) (snd rc)))
       (list_prod (seq 0 (rows a)) (seq 0 (cols a))).

(** Matrix.h:792-802 [todense_impl], 335-344 [Todense] *)
Definition M_todense (a : Matrix) : res (list (list R)) :=
  do ws <- dense_writes (@Ok nat) (@Ok nat) (M_A a);
  write2_all (repeat (repeat 0%R (m_ndof (M_v a))) (m_ndof (M_v a))) ws.

(** Matrix.h:810-815 [dot_dofval_impl]; 804-808 [dot_nodevec_impl] with 825-861, the same loops as
    Vector.h:569-630 *)
Definition M_dot_dofval (a : Matrix) (x : list R) : res (list R) := mulvec (M_A a) x.
Definition M_dot_nodevec (a : Matrix) (order : list (nat * nat)) (x : list (list R)) : res (list (list R)) :=
  do d <- AsDofs_nodevec (M_v a) order x; do b <- mulvec (M_A a) d; AsNode_dofval (M_v a) b.

(** ** MatrixSolver *)
Section Solver.
(** Eigen's sparse solver: what [solve] returns for the matrix of the last [compute] *)
Variable linsolve : mat -> list R -> list R.

(** Matrix.h:893-895: the members; no matrix before the first [compute] *)
Record Solver := mkSolver { S_data : option mat; S_factor : bool }.
Definition new_Solver : Solver := mkSolver None true.

(** Matrix.h:897-909 [factorize] (MatrixPartitioned.h:633-641 is the same with A_uu) *)
Definition factorize (changed : bool) (a : mat) (s : Solver) : Solver :=
  if negb changed && negb (S_factor s) then s else mkSolver (Some a) false.
Definition changed_after (changed : bool) (s : Solver) : bool :=
  if negb changed && negb (S_factor s) then changed else false.

(** [m_solver.solve(b)] *)
Definition S_solve (s : Solver) (b : list R) : res (list R) :=
  match S_data s with
  | None => Uninit
  | Some a => if length b =? rows a then Ok (linsolve a b) else Oob
  end.

(** Matrix.h:885-891 [solve_dofval_impl]: the result, and the solver and matrix after the call *)
Definition MS_solve_dofval (s : Solver) (a : Matrix) (b : list R) : res (list R * Solver * Matrix) :=
  let s' := factorize (M_changed a) (M_A a) s in
  let a' := mkMatrix (M_v a) (M_A a) (changed_after (M_changed a) s) in
  do x <- S_solve s' b; Ok (x, s', a').

(** Matrix.h:877-883 [solve_nodevec_impl] *)
Definition MS_solve_nodevec (order : list (nat * nat)) (s : Solver) (a : Matrix) (b : list (list R)) : res (list (list R) * Solver * Matrix) :=
  let s' := factorize (M_changed a) (M_A a) s in
  let a' := mkMatrix (M_v a) (M_A a) (changed_after (M_changed a) s) in
  do B <- AsDofs_nodevec (M_v a) order b; do X <- S_solve s' B; do x <- AsNode_dofval (M_v a) X; Ok (x, s', a').

(** ** histories: any number of matrices and solvers, used in any order *)
Inductive mop :=
| OpAssemble (elemmat : list (list (list R)))
| OpSet (rs cs : list nat) (matrix : list (list R))
| OpAdd (rs cs : list nat) (matrix : list (list R)).
Definition run_mop (o : mop) (a : Matrix) : res Matrix :=
  match o with OpAssemble K => M_assemble a K | OpSet r c m => M_set a r c m | OpAdd r c m => M_add a r c m end.

Inductive op :=
| OpMat (k : nat) (o : mop)              (* change matrix k *)
| OpSolve (s k : nat) (b : list R)       (* solver s solves with matrix k *)
| OpSolveN (s k : nat) (order : list (nat * nat)) (b : list (list R)).
Record world := mkWorld { w_mat : nat -> Matrix; w_solver : nat -> Solver }.
Definition upd {A} (f : nat -> A) (k : nat) (x : A) : nat -> A := fun i => if i =? k then x else f i.
Definition run_op (w : world) (o : op) : res world :=
  match o with
  | OpMat k o => do a <- run_mop o (w_mat w k); Ok (mkWorld (upd (w_mat w) k a) (w_solver w))
  | OpSolve s k b => do r <- MS_solve_dofval (w_solver w s) (w_mat w k) b;
      Ok (mkWorld (upd (w_mat w) k (snd r)) (upd (w_solver w) s (snd (fst r))))
  | OpSolveN s k order b => do r <- MS_solve_nodevec order (w_solver w s) (w_mat w k) b;
      Ok (mkWorld (upd (w_mat w) k (snd r)) (upd (w_solver w) s (snd (fst r))))
  end.
Definition run_ops (w : world) (l : list op) : res world := foldM run_op l w.
End Solver.
