(** Specification: which arrays the methods of the diagonal matrices take.  Standard library, the sizes of Spec_Checked, and the names of
    the calls only. *)
From Coq Require Import List Arith Reals.
From Verif Require Import Spec Spec_Vector Spec_Checked Spec_CheckedMatrix Model_Checked Model_CheckedDiagonal.
Import ListNotations.

(** one square matrix per element, whose off-diagonal entries are at most 2^-52 in magnitude *)
Definition diagonal_elemmat (z : sizes) (K : array R) : Prop :=
  a_shape K = elemmat z /\ forall e r c, e < z_nelem z -> r < z_nne z * z_ndim z -> c < z_nne z * z_ndim z -> r <> c -> (Rabs (a_ent K [e; r; c]) <= / 2 ^ 52)%R.
Definition fits_d (z : sizes) (c : dcall) : Prop :=
  match c with
  | DiagAssemble K => diagonal_elemmat z K
  | DiagSet A => a_shape A = dofval z
  | DiagData => True
  | DiagToDense ret => ret = [z_ndof z; z_ndof z]
  | DiagDot x b => fits_two z x b
  | DiagSolve b x => fits_two z b x
  end.
(** [nu], [np]: the numbers of unknown and prescribed DOFs *)
Definition fits_dp (z : sizes) (nu np : nat) (c : dpcall) : Prop :=
  match c with
  | DCommon c => fits_d z c
  | DReaction x b => fits_two z x b
  | DDot_u xu xp bu => a_shape xu = [nu] /\ a_shape xp = [np] /\ a_shape bu = [nu]
  | DDot_p xu xp bp | DReaction_p xu xp bp => a_shape xu = [nu] /\ a_shape xp = [np] /\ a_shape bp = [np]
  | DSolve_u bu xp xu => a_shape bu = [nu] /\ a_shape xp = [np] /\ a_shape xu = [nu]
  end.
(** the calls that give the matrix its value *)
Definition gives (c : dcall) : bool := match c with DiagAssemble _ | DiagSet _ => true | _ => false end.
Definition gives_p (c : dpcall) : bool := match c with DCommon c => gives c | _ => false end.
(** the shape of what a call returns *)
Definition returned_d (z : sizes) (c : dcall) : option (list nat) :=
  match c with
  | DiagAssemble _ | DiagSet _ => None
  | DiagData => Some (dofval z)
  | DiagToDense _ => Some [z_ndof z; z_ndof z]
  | DiagDot x _ | DiagSolve x _ => Some (a_shape x)
  end.
Definition returned_dp (z : sizes) (nu np : nat) (c : dpcall) : option (list nat) :=
  match c with
  | DCommon c => returned_d z c
  | DDot_u _ _ _ | DSolve_u _ _ _ => Some [nu]
  | DDot_p _ _ _ | DReaction_p _ _ _ => Some [np]
  | DReaction x _ => Some (a_shape x)
  end.
