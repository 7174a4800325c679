(** Specification: which arrays the methods of a matrix and its solver take.  Standard library, the sizes of Spec_Checked, and the names of
    the calls only. *)
From Coq Require Import List Arith Reals.
From Verif Require Import Spec Spec_Vector Spec_Checked Model_Checked Model_CheckedMatrix.
Import ListNotations.

Definition elemmat (z : sizes) : list nat := [z_nelem z; z_nne z * z_ndim z; z_nne z * z_ndim z].
(** the rows and columns of a block of a matrix, and its entries *)
Definition fits_block (z : sizes) (rs cs : array nat) (m : array R) : Prop :=
  exists nr nc, a_shape rs = [nr] /\ a_shape cs = [nc] /\ a_shape m = [nr; nc] /\
    (forall i, i < nr -> a_ent rs [i] < z_ndof z) /\ (forall j, j < nc -> a_ent cs [j] < z_ndof z).
(** two values per DOF, or two nodal vectors *)
Definition fits_two (z : sizes) (x y : array R) : Prop :=
  (a_shape x = dofval z /\ a_shape y = dofval z) \/ (a_shape x = nodevec z /\ a_shape y = nodevec z).

Definition fits (z : sizes) (c : mcall) : Prop :=
  match c with
  | Assemble K => a_shape K = elemmat z
  | SetBlock rs cs m | AddBlock rs cs m => fits_block z rs cs m
  | ToDense ret => ret = [z_ndof z; z_ndof z]
  | Dot x b => fits_two z x b
  | Solve b x => fits_two z b x
  end.
(** [nu], [np]: the numbers of unknown and prescribed DOFs *)
Definition fits_p (z : sizes) (nu np : nat) (c : pcall) : Prop :=
  match c with
  | Common c => fits z c
  | Reaction x b => fits_two z x b
  | Reaction_p xu xp bp => a_shape xu = [nu] /\ a_shape xp = [np] /\ a_shape bp = [np]
  | Solve_u bu xp xu => a_shape bu = [nu] /\ a_shape xp = [np] /\ a_shape xu = [nu]
  end.
(** the shape of what a call returns *)
Definition returned (z : sizes) (c : mcall) : option (list nat) :=
  match c with
  | Assemble _ | SetBlock _ _ _ | AddBlock _ _ _ => None
  | ToDense _ => Some [z_ndof z; z_ndof z]
  | Dot x _ | Solve x _ => Some (a_shape x)
  end.
Definition returned_p (z : sizes) (nu np : nat) (c : pcall) : option (list nat) :=
  match c with
  | Common c => returned z c
  | Reaction x _ => Some (a_shape x)
  | Reaction_p _ _ _ => Some [np]
  | Solve_u _ _ _ => Some [nu]
  end.
Definition has_returned (r : option output) (s : option (list nat)) : Prop :=
  match r, s with None, None => True | Some y, Some s => out_shape y s | _, _ => False end.

(** every DOF number below the number of DOFs is the number of some DOF *)
Definition without_holes (dofs : array nat) (z : sizes) : Prop :=
  forall d, d < z_ndof z -> exists m i, m < z_nnode z /\ i < z_ndim z /\ a_ent dofs [m; i] = d.
