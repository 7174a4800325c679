(** Specification of histories of matrix operations. *)
From Coq Require Import List Arith Reals.
From Verif Require Import Spec Sums Spec_Vector Spec_Matrix Model_Matrix Model_Sparse Model_MatrixPartitioned.
Import ListNotations.

(** arguments of the right shape, with existing rows and columns *)
Definition valid_op (nelem nne ndim ndof : nat) (o : mop) : Prop :=
  match o with
  | OpAssemble K => shape3 K nelem (nne * ndim) (nne * ndim)
  | OpSet rs cs M | OpAdd rs cs M => (forall r, In r rs \/ In r cs -> r < ndof) /\ shape2 M (length rs) (length cs)
  end.

(** the value of entry (a, b) after an operation, if it was [before] *)
Definition entry_after (conn dofs : list (list nat)) (nelem nne ndim a b : nat) (before : R) (o : mop) : R :=
  match o with
  | OpAssemble K => assembled conn dofs nelem nne ndim K a b
  | OpSet rs cs M => block rs cs M a b
  | OpAdd rs cs M => (before + block rs cs M a b)%R
  end.

(** solver s is only used with matrix [pair s] *)
Definition paired (pair : nat -> nat) (o : op) : Prop :=
  match o with OpMat _ _ => True | OpSolve s k _ => k = pair s | OpSolveN s k _ _ => k = pair s end.

(** the linear solver solves systems with this matrix *)
Definition solves (linsolve : mat -> list R -> list R) (a : mat) : Prop :=
  forall b, length b = rows a -> length (linsolve a b) = cols a /\
    forall i, i < rows a -> mv (cols a) (ent a) (val1 (linsolve a b)) i = val1 b i.

(** the operations that change matrix k *)
Definition ops_of (k : nat) (l : list op) : list mop :=
  flat_map (fun o => match o with OpMat k' o => if k' =? k then [o] else [] | _ => [] end) l.

(** new matrices and new solvers *)
Definition start (vs : nat -> Model_Vector.Vector) : world := mkWorld (fun k => new_Matrix (vs k)) (fun _ => new_Solver).

(** the operations of a history of a partitioned matrix and its solver that change the matrix *)
Definition pmat_ops (l : list pop) : list mop := flat_map (fun o => match o with PMat o => [o] | _ => [] end) l.
