(** Specification: which arrays describe periodic tyings.  Standard library and arrays only. *)
From Coq Require Import List Arith Reals.
From Verif Require Import Spec Model_Checked.
Import ListNotations.

(** the numbers that occur in an array of DOF numbers *)
Definition is_dof (dofs : array nat) (nnode ndim d : nat) : Prop := exists m i, m < nnode /\ i < ndim /\ a_ent dofs [m; i] = d.
(** at least the smallest and at most the largest one *)
Definition in_range (dofs : array nat) (nnode ndim d : nat) : Prop :=
  (exists m i, m < nnode /\ i < ndim /\ a_ent dofs [m; i] <= d) /\ (exists m i, m < nnode /\ i < ndim /\ d <= a_ent dofs [m; i]).
(** without holes between the smallest and the largest one *)
Definition consecutive (dofs : array nat) : Prop :=
  forall nnode ndim, a_shape dofs = [nnode; ndim] -> forall d, in_range dofs nnode ndim d -> is_dof dofs nnode ndim d.

(** arrays that belong together: [nt] ties (independent node, dependent node), [n] prescribed DOFs.  [known] says which numbers are accepted
    as those of DOFs. *)
Record tyings_fit (known : array nat -> nat -> nat -> nat -> Prop) (coor : array R) (dofs control ties iip : array nat) (nnode ndim nt n : nat) : Prop := {
  tf_coor : a_shape coor = [nnode; ndim];
  tf_dofs : a_shape dofs = [nnode; ndim];
  tf_control : a_shape control = [ndim; ndim];
  tf_ties : a_shape ties = [nt; 2];
  tf_iip : a_shape iip = [n];
  tf_pos : 1 <= nnode;
  (* the nodes exist *)
  tf_node : forall s a, s < nt -> a < 2 -> a_ent ties [s; a] < nnode;
  (* no DOF depends on two ties *)
  tf_dep : forall s t i j, s < nt -> t < nt -> i < ndim -> j < ndim ->
           a_ent dofs [a_ent ties [s; 1]; i] = a_ent dofs [a_ent ties [t; 1]; j] -> s = t /\ i = j;
  (* the control DOFs and the prescribed DOFs are known, and none is prescribed twice *)
  tf_ctrl : forall j k, j < ndim -> k < ndim -> known dofs nnode ndim (a_ent control [j; k]);
  tf_iip1 : forall k l, k < n -> l < n -> a_ent iip [k] = a_ent iip [l] -> k = l;
  tf_iip2 : forall k, k < n -> known dofs nnode ndim (a_ent iip [k]) }.

(** a DOF of the dependent node of a tie *)
Definition depends (dofs ties : array nat) (ndim nt d : nat) : Prop := exists s i, s < nt /\ i < ndim /\ a_ent dofs [a_ent ties [s; 1]; i] = d.
(** nothing depends on a DOF that is itself dependent, and no such DOF is prescribed *)
Record not_chained (dofs control ties iip : array nat) (ndim nt n : nat) : Prop := {
  nc_indep : forall s i, s < nt -> i < ndim -> ~ depends dofs ties ndim nt (a_ent dofs [a_ent ties [s; 0]; i]);
  nc_ctrl : forall j k, j < ndim -> k < ndim -> ~ depends dofs ties ndim nt (a_ent control [j; k]);
  nc_iip : forall k, k < n -> ~ depends dofs ties ndim nt (a_ent iip [k]) }.
