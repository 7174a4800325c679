(** Specification vocabulary for connectivity properties. *)
From Coq Require Import List Arith Sorted.
From Verif Require Import Spec.
Import ListNotations.

(** how often value [x] occurs in list [l] *)
Definition occurs (x : nat) (l : list nat) : nat := count_occ Nat.eq_dec l x.

(** how often node [m] occurs in element [e] of [conn] *)
Definition occurrences (conn : list (list nat)) (e m : nat) : nat :=
  match nth_error conn e with Some nodes => occurs m nodes | None => 0 end.

(** largest number in an array of numbers is [N - 1] *)
Definition numbers_up_to (conn : list (list nat)) (N : nat) : Prop :=
  (forall m, In m (concat conn) -> m < N) /\ In (N - 1) (concat conn).

(** [dofs] assigns numbers to (node, direction) such that directions never share a number, and
    nodes that share the number of one direction share all of them (GOOSEFEM_ASSERT Mesh.h:2857) *)
Definition nodal_dofs (dofs : list (list nat)) (ndim : nat) : Prop :=
  shape2 dofs (length dofs) ndim /\
  (forall m i n j d, at2 dofs m i = Some d -> at2 dofs n j = Some d -> i = j).

(** nodes [m] and [n] are tied: same first DOF *)
Definition tied (dofs : list (list nat)) (m n : nat) : Prop :=
  exists d, at2 dofs m 0 = Some d /\ at2 dofs n 0 = Some d.

(** element [e] is the last one with node [m] at corner [i] *)
Definition last_with (conn : list (list nat)) (m i e : nat) : Prop :=
  at2 conn e i = Some m /\ forall e', e < e' -> at2 conn e' i <> Some m.

(** a mesh of [N] nodes with elements of 4 nodes, and a list of one existing element per element *)
Definition elem_map_ok (elem_map : list nat) (N : nat) (conn : list (list nat)) : Prop :=
  shape2 conn (length conn) 4 /\ length elem_map = length conn /\
  (forall e, In e elem_map -> e < length conn) /\ (forall n, In n (concat conn) -> n < N).

