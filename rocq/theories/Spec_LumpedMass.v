(** Specification of the mass matrix of a program for explicit dynamics. *)
From Coq Require Import Reals List.
From Verif Require Import Base Spec Sums Spec_Vector Spec_MatrixDiagonal Model_Vector Model_MatrixDiagonal.
Import ListNotations.

(** [K] the element matrices: they are diagonal; the matrix can be assembled; every DOF gets a positive mass; the masses add up to [total];
    and accelerations can be computed from forces *)
Definition good_mass (conn dofs : list (list nat)) (nelem nne nnode ndim ndof : nat) (K : list (list (list R))) (total : R) : Prop :=
  Spec_MatrixDiagonal.diagonal3 K nelem (nne * ndim) /\
  exists M mass, MD_assemble (new_MatrixDiagonal (mkVector conn nne dofs ndim)) K = Ok M /\ MD_data M = Ok mass /\ length mass = ndof /\
    (forall d, d < ndof -> (0 < val1 mass d)%R) /\ sumn ndof (val1 mass) = total /\
    (forall f, Spec.shape2 f nnode ndim -> exists a M', MD_solve_nodevec M f = Ok (a, M') /\ MD_dot_nodevec M a = Ok f /\
       Spec.shape2 a nnode ndim /\ forall n i, n < nnode -> i < ndim -> (val1 mass (idx2 dofs n i) * val2 a n i = val2 f n i)%R).
