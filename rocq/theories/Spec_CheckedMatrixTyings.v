(** Specification: which arrays describe a matrix with tyings, and which its methods take.  Standard library, the sizes of Spec_Checked and the
    names of the calls only. *)
From Coq Require Import List Arith Reals.
From Verif Require Import Spec Spec_Vector Spec_Matrix Spec_Checked Spec_CheckedMatrix Model_Checked Model_Sparse Model_MatrixTyings Model_CheckedMatrix Model_CheckedMatrixTyings.
Import ListNotations.

(** tying matrices of matching sizes, for the DOFs of the mesh; nothing about the nodes in the connectivity *)
Record tied_mesh (conn dofs : array nat) (Cdu Cdp : mat) (z : sizes) : Prop := {
  tm_conn : a_shape conn = [z_nelem z; z_nne z];
  tm_dofs : a_shape dofs = [z_nnode z; z_ndim z];
  tm_rows : rows Cdu = rows Cdp;
  tm_ndof : cols Cdu + cols Cdp + rows Cdp = z_ndof z;
  tm_range : z_ndof z <= z_nnode z * z_ndim z;
  tm_below : forall n i, n < z_nnode z -> i < z_ndim z -> a_ent dofs [n; i] < z_ndof z;
  tm_last : exists n i, n < z_nnode z /\ i < z_ndim z /\ a_ent dofs [n; i] + 1 = z_ndof z }.
Definition nodes_exist (conn : array nat) (z : sizes) : Prop := forall e m, e < z_nelem z -> m < z_nne z -> a_ent conn [e; m] < z_nnode z.

(** [nu], [np], [nd]: the numbers of unknown, prescribed and dependent DOFs.  Dot and reaction are not implemented. *)
Definition fits_t (z : sizes) (nu np nd : nat) (c : tcall) : Prop :=
  match c with
  | TAssem K => a_shape K = elemmat z
  | TDense ret => ret = [z_ndof z; z_ndof z]
  | TDot _ _ | TReaction _ _ | TReaction_p _ _ _ => False
  | TSolve' b x => fits_two z b x
  | TSolve_u bu bd xp xu => a_shape bu = [nu] /\ a_shape bd = [nd] /\ a_shape xp = [np] /\ a_shape xu = [nu]
  end.
Definition returned_t (z : sizes) (nu : nat) (c : tcall) : option (list nat) :=
  match c with
  | TAssem _ => None
  | TDense _ => Some [z_ndof z; z_ndof z]
  | TDot x _ | TReaction x _ | TReaction_p x _ _ | TSolve' x _ => Some (a_shape x)
  | TSolve_u _ _ _ _ => Some [nu]
  end.
(** a solve with one value per DOF *)
Definition by_dofval (c : tcall) : Prop := match c with TSolve' b _ => exists n, a_shape b = [n] | _ => False end.
Definition safe (np nd : nat) (c : tcall) : Prop := nd <= np \/ ~ by_dofval c.
(** the matrix after a program: that of the last [assemble] with an array of the right shape (the others throw) *)
Fixpoint last_fitting (conn dofs : array nat) (z : sizes) (program : list (schedule * tcall)) (A : nat -> nat -> R) : nat -> nat -> R :=
  match program with
  | [] => A
  | (_, TAssem K) :: program => last_fitting conn dofs z program
      (if list_eq_dec Nat.eq_dec (a_shape K) (elemmat z)
       then assembled (rows2 (z_nelem z) (z_nne z) conn) (rows2 (z_nnode z) (z_ndim z) dofs) (z_nelem z) (z_nne z) (z_ndim z) (rows3 (z_nelem z) (z_nne z * z_ndim z) (z_nne z * z_ndim z) K)
       else A)
  | _ :: program => last_fitting conn dofs z program A
  end.
