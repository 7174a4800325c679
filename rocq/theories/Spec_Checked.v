(** Specification: which arrays the conversions of a vector class accept.  Standard library and the names of the conversions only. *)
From Coq Require Import List Arith Reals Permutation.
From Verif Require Import Spec Spec_Vector Model_Checked.
Import ListNotations.

(** the sizes of a mesh: numbers of elements, of nodes per element, of nodes, of dimensions, of DOFs *)
Record sizes := mkSizes { z_nelem : nat; z_nne : nat; z_nnode : nat; z_ndim : nat; z_ndof : nat }.
Definition dofval (z : sizes) : list nat := [z_ndof z].
Definition nodevec (z : sizes) : list nat := [z_nnode z; z_ndim z].
Definition elemvec (z : sizes) : list nat := [z_nelem z; z_nne z; z_ndim z].

(** the shapes that a conversion accepts, and the shape of what it gives *)
Definition accepts (z : sizes) (c : conversion) : list (list nat) :=
  match c with
  | ToDofs | SumDofs => [nodevec z; elemvec z]
  | ToNode => [dofval z; elemvec z]
  | ToElement => [dofval z; nodevec z]
  | SumNode => [elemvec z]
  | CopyNode => [nodevec z]
  end.
Definition gives (z : sizes) (c : conversion) : list nat :=
  match c with ToDofs | SumDofs => dofval z | ToNode | SumNode | CopyNode => nodevec z | ToElement => elemvec z end.

(** the shape of an output *)
Definition out_shape (x : output) (s : list nat) : Prop :=
  match x, s with
  | Out1 x, [n] => length x = n
  | Out2 x, [n; d] => shape2 x n d
  | Out3 x, [n; k; d] => shape3 x n k d
  | _, _ => False
  end.
(** all entries of an output are one value *)
Definition constant (x : output) (val : R) : Prop :=
  match x with
  | Out1 x => forall y, In y x -> y = val
  | Out2 x => forall r y, In r x -> In y r -> y = val
  | Out3 x => forall s r y, In s x -> In r s -> In y r -> y = val
  end.

(** a connectivity and DOF numbers that belong together: arrays of rank 2 with node numbers of existing nodes, and not more DOFs than
    nodes times dimensions *)
Record valid_mesh (conn dofs : array nat) (z : sizes) : Prop := {
  vm_conn : a_shape conn = [z_nelem z; z_nne z];
  vm_dofs : a_shape dofs = [z_nnode z; z_ndim z];
  vm_node : forall e m, e < z_nelem z -> m < z_nne z -> a_ent conn [e; m] < z_nnode z;
  vm_pos : 1 <= z_nnode z * z_ndim z;
  vm_range : forall n i, n < z_nnode z -> i < z_ndim z -> a_ent dofs [n; i] < z_nnode z * z_ndim z;
  vm_below : forall n i, n < z_nnode z -> i < z_ndim z -> a_ent dofs [n; i] < z_ndof z;
  vm_last : exists n i, n < z_nnode z /\ i < z_ndim z /\ a_ent dofs [n; i] + 1 = z_ndof z }.

(** every order of the iterations of the loops over the nodes and the elements *)
Definition any_order (z : sizes) (o : schedule) : Prop :=
  Permutation (s_node o) (list_prod (seq 0 (z_nnode z)) (seq 0 (z_ndim z))) /\
  Permutation (s_elem o) (list_prod (list_prod (seq 0 (z_nelem z)) (seq 0 (z_nne z))) (seq 0 (z_ndim z))).

(** prescribed DOFs of a mesh: an array of rank 1 with different, existing DOF numbers (at most the largest one) *)
Definition valid_iip (iip : array nat) (z : sizes) (n : nat) : Prop :=
  a_shape iip = [n] /\ (forall k, k < n -> a_ent iip [k] < z_ndof z) /\ (forall k l, k < n -> l < n -> a_ent iip [k] = a_ent iip [l] -> k = l).
