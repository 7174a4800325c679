(** Specification of histories of diagonal matrices. *)
From Coq Require Import List Arith Reals.
From Verif Require Import Spec Sums Spec_Vector Spec_Matrix Model_MatrixDiagonal.
Import ListNotations.

(** arguments of the right shape *)
Definition valid_dop (nelem nne nnode ndim ndof : nat) (o : dop) : Prop :=
  match o with
  | DAssemble K => shape3 K nelem (nne * ndim) (nne * ndim)
  | DSet A => length A = ndof
  | DSolve b => length b = ndof
  | DSolveN b => shape2 b nnode ndim
  end.

(** an operation that gives the matrix a value *)
Definition changes (o : dop) : bool := match o with DAssemble _ | DSet _ => true | _ => false end.

(** the diagonal entry of DOF a that is assembled from the diagonals of element matrices *)
Definition assembled_diag (conn dofs : list (list nat)) (nelem nne ndim : nat) (K : list (list (list R))) (a : nat) : R :=
  sum_elem nelem nne ndim (fun e m i => ind (idx2 dofs (idx2 conn e m) i =? a)%nat * val3 K e (m * ndim + i) (m * ndim + i))%R.

(** the diagonal after an operation; solving changes nothing *)
Definition diag_after (conn dofs : list (list nat)) (nelem nne ndim : nat) (before : nat -> R) (o : dop) : nat -> R :=
  match o with
  | DAssemble K => assembled_diag conn dofs nelem nne ndim K
  | DSet A => val1 A
  | _ => before
  end.

(** element matrices without entries off the diagonal *)
Definition diagonal3 (K : list (list (list R))) (nelem n : nat) : Prop :=
  forall e r c, e < nelem -> r < n -> c < n -> r <> c -> val3 K e r c = 0%R.
