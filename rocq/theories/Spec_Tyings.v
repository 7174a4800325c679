(** Specification vocabulary for periodic tyings. *)
From Coq Require Import List Arith Reals.
From Verif Require Import Spec Spec_Vector.
Import ListNotations.

(** d is a DOF of the dependent node of some tie *)
Definition dependent (dofs : list (list nat)) (ndim : nat) (ties : list (nat * nat)) (d : nat) : Prop :=
  exists a b i, In (a, b) ties /\ i < ndim /\ idx2 dofs b i = d.

(** valid input: a tie is (independent, dependent) *)
Record periodic_input (coor : list (list R)) (dofs control : list (list nat)) (ties : list (nat * nat))
    (iip : list nat) (nnode ndim : nat) : Prop := {
  pi_coor : shape2 coor nnode ndim;
  pi_dofs : shape2 dofs nnode ndim;
  pi_control : shape2 control ndim ndim;
  pi_ties : forall a b, In (a, b) ties -> a < nnode /\ b < nnode;
  (* all dependent DOFs are different *)
  pi_dep : forall s t a b a' b' i j, nth_error ties s = Some (a, b) -> nth_error ties t = Some (a', b') ->
           i < ndim -> j < ndim -> idx2 dofs b i = idx2 dofs b' j -> s = t /\ i = j;
  (* independent nodes and control nodes do not depend on others *)
  pi_indep : forall a b i, In (a, b) ties -> i < ndim -> ~ dependent dofs ndim ties (idx2 dofs a i);
  pi_ctrl : forall j k, j < ndim -> k < ndim ->
           In (idx2 control j k) (concat dofs) /\ ~ dependent dofs ndim ties (idx2 control j k);
  (* prescribed DOFs are different, existing, and not dependent *)
  pi_iip1 : NoDup iip;
  pi_iip2 : forall d, In d iip -> In d (concat dofs) /\ ~ dependent dofs ndim ties d }.

(** y are the values of the DOFs of nodal values u *)
Definition dof_values (dofs : list (list nat)) (nnode ndim ndof : nat) (u : list (list R)) (y : list R) : Prop :=
  length y = ndof /\ forall m i, m < nnode -> i < ndim -> val1 y (idx2 dofs m i) = val2 u m i.
