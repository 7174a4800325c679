(** Specification: which arrays the remaining functions take.  Standard library and the names of the arrays only. *)
From Coq Require Import List Arith Reals.
From Verif Require Import Model_Checked Model_Misc.
Import ListNotations.

(** the extents of [t] start with those of [s] *)
Definition extends (s t : list nat) : Prop := exists extra, t = s ++ extra.
(** a mesh of quadrilaterals as it is given to the constructor of FineLayer: at least one element, at least four nodes, all nodes exist *)
Definition fine_input (coor : array R) (conn : array nat) (nnode nelem : nat) : Prop :=
  a_shape coor = [nnode; 2] /\ a_shape conn = [nelem; 4] /\ 0 < nelem /\ 4 <= nnode /\ forall e m, e < nelem -> m < 4 -> a_ent conn [e; m] < nnode.
(** all elements before the middle one, or all elements after it, continue the same row: each one starts at the node where the previous one ends *)
Definition row_from_start (conn : array nat) (nelem : nat) : Prop := forall e, 0 < e -> e <= nelem / 2 -> a_ent conn [e; 0] = a_ent conn [e - 1; 1].
Definition row_to_end (conn : array nat) (nelem : nat) : Prop := forall e, nelem / 2 <= e -> e + 1 < nelem -> a_ent conn [e; 1] = a_ent conn [e + 1; 0].
(** an array with given rows *)
Definition has_rows {A} (a : array A) (rows : list (list A)) (n d : nat) : Prop :=
  a_shape a = [n; d] /\ forall i j, i < n -> j < d -> exists row, nth_error rows i = Some row /\ nth_error row j = Some (a_ent a [i; j]).
