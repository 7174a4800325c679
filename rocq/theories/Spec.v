(** Specification vocabulary, independent of the model: what an array entry is, what
    "distinct" means, etc.  Only the standard library is used. *)
From Coq Require Import List Arith.
Import ListNotations.

(** entry (i,j) of an array of rank 2 given as its list of rows *)
Definition at2 {A} (l : list (list A)) (i j : nat) : option A :=
  match nth_error l i with Some r => nth_error r j | None => None end.

(** entry (i,j,k) of an array of rank 3 *)
Definition at3 {A} (l : list (list (list A))) (i j k : nat) : option A :=
  match nth_error l i with Some r => at2 r j k | None => None end.

(** the array has n rows of d columns *)
Definition shape2 {A} (l : list (list A)) (n d : nat) : Prop :=
  length l = n /\ forall r, In r l -> length r = d.

(** number of distinct values *)
Definition distinct (l : list nat) : nat := length (nodup Nat.eq_dec l).

(** [l] is a duplicate-free enumeration of the set [P] *)
Definition enumerates {A} (l : list A) (P : A -> Prop) : Prop :=
  NoDup l /\ forall x, In x l <-> P x.

(** the node [r] that represents node [m] under a list of ties (independent, dependent) *)
Definition represents (ties : list (nat * nat)) (m r : nat) : Prop :=
  In (r, m) ties \/ (r = m /\ ~ In m (map snd ties)).

(** a list of ties (independent, dependent) of existing nodes: every dependent node is tied once,
    and independent nodes are not themselves dependent *)
Definition wf_ties (nnode : nat) (ties : list (nat * nat)) : Prop :=
  (forall a b, In (a, b) ties -> a < nnode /\ b < nnode) /\
  NoDup (map snd ties) /\
  (forall a, In a (map fst ties) -> ~ In a (map snd ties)).

