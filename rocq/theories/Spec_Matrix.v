(** Specification vocabulary for matrices. *)
From Coq Require Import List Arith Reals.
From Verif Require Import Spec Sums Spec_Vector.
Import ListNotations.

(** the entry (a, b) of the matrix assembled from element matrices [K(e, m * ndim + i, n * ndim + j)]:
    the sum of the entries whose row is DOF a and whose column is DOF b *)
Definition assembled (conn dofs : list (list nat)) (nelem nne ndim : nat) (K : list (list (list R))) (a b : nat) : R :=
  sum_elem nelem nne ndim (fun e m i => sum_node nne ndim (fun n j =>
    ind (idx2 dofs (idx2 conn e m) i =? a)%nat * (ind (idx2 dofs (idx2 conn e n) j =? b)%nat *
    val3 K e (m * ndim + i) (n * ndim + j))))%R.

(** the entry (a, b) of a list of entries at given rows and columns; duplicates are summed *)
Definition block (rs cs : list nat) (M : list (list R)) (a b : nat) : R :=
  sumn (length rs) (fun i => sumn (length cs) (fun j =>
    ind (nth i rs 0 =? a)%nat * (ind (nth j cs 0 =? b)%nat * val2 M i j)))%R.

(** matrix-vector product *)
Definition mv (n : nat) (A : nat -> nat -> R) (x : nat -> R) (a : nat) : R := sumn n (fun b => A a b * x b)%R.

(** [dense] is an n x n array with the given entries *)
Definition is_dense (n : nat) (dense : list (list R)) (A : nat -> nat -> R) : Prop :=
  shape2 dense n n /\ forall a b, a < n -> b < n -> val2 dense a b = A a b.
