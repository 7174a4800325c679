(** Specification vocabulary for C111: what the eight properties of a partition of the DOFs must say. *)
From Coq Require Import List Arith Reals.
From Verif Require Import Spec Spec_Vector Spec_Tyings Model_PartitionReport.
Import ListNotations.

(** [old] are the DOFs given to the tyings, [dofs] their new numbers; [iip] are the (old) prescribed DOFs *)
Record right_report (old dofs : list (list nat)) (nnode ndim : nat) (ties : list (nat * nat)) (iip : list nat) (r : report) : Prop := {
  (* the numbers are the lengths of the lists *)
  rr_sizes : r_nnu r = length (r_iiu r) /\ r_nnp r = length (r_iip r) /\ r_nni r = length (r_iii r) /\ r_nnd r = length (r_iid r);
  (* the lists have no duplicates and contain DOFs of nodes only *)
  rr_nodup : NoDup (r_iiu r) /\ NoDup (r_iip r) /\ NoDup (r_iii r) /\ NoDup (r_iid r);
  rr_dofs : forall d, In d (r_iii r) \/ In d (r_iid r) -> exists m i, m < nnode /\ i < ndim /\ idx2 dofs m i = d;
  (* a DOF is dependent if a tie says so; of the others, those in [iip] are prescribed and the rest is unknown *)
  rr_iid : forall m i, m < nnode -> i < ndim -> (In (idx2 dofs m i) (r_iid r) <-> dependent old ndim ties (idx2 old m i));
  rr_iii : forall m i, m < nnode -> i < ndim -> (In (idx2 dofs m i) (r_iii r) <-> ~ dependent old ndim ties (idx2 old m i));
  rr_iip : forall m i, m < nnode -> i < ndim -> (In (idx2 dofs m i) (r_iip r) <-> In (idx2 old m i) iip);
  rr_iiu : forall m i, m < nnode -> i < ndim ->
    (In (idx2 dofs m i) (r_iiu r) <-> ~ dependent old ndim ties (idx2 old m i) /\ ~ In (idx2 old m i) iip) }.
