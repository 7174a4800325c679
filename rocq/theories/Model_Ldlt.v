(** The default linear solver of the solver classes (the template argument [Solver = Eigen::SimplicialLDLT<...>], Matrix.h:866,
    MatrixPartitioned.h:525, MatrixPartitionedTyings.h:527) belongs to Eigen, not to this code.  It is a parameter everywhere else; here is
    one instance: elimination without pivoting, in exact arithmetic, as an LDL^T factorisation does it (without the fill-reducing
    permutation that Eigen applies first). *)
From Coq Require Import Reals List.
From Verif Require Import Sums Spec_Vector Model_Sparse.
Import ListNotations.
Local Open Scope R_scope.

(** pivot (0, 0), the Schur complement of it, and back substitution *)
Fixpoint ldlt_rec (n : nat) (A : nat -> nat -> R) (b : nat -> R) : list R :=
  match n with
  | O => []
  | S n =>
      let d := A O O in
      let x := ldlt_rec n (fun i j => A (S i) (S j) - A (S i) O * A O (S j) / d) (fun i => b (S i) - A (S i) O * b O / d) in
      (b O - sumn n (fun j => A O (S j) * val1 x j)) / d :: x
  end.
Definition ldlt (a : mat) (b : list R) : list R := ldlt_rec (rows a) (ent a) (val1 b).
