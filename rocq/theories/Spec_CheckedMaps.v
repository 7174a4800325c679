(** Specification vocabulary for data on elements of any rank.  Standard library only. *)
From Coq Require Import List Arith Reals.
From Verif Require Import Model_Checked.
Import ListNotations.

(** the number of entries per element of data of shape [n :: rest], and the index of the [k]-th one (the last axis runs fastest) *)
Definition per_element (rest : list nat) : nat := fold_right Nat.mul 1 rest.
Fixpoint index_of (rest : list nat) (k : nat) : list nat :=
  match rest with [] => [] | _ :: rest' => k / per_element rest' :: index_of rest' (k mod per_element rest') end.
(** the [k]-th entry of element [e] *)
Definition entry (data : array R) (rest : list nat) (e k : nat) : R := a_ent data (e :: index_of rest k).
(** a range of rows or columns: nothing or two bounds; whether it is in a mesh with [n] rows and not reversed *)
Definition range_size (l : list nat) : Prop := l = [] \/ exists a b, l = [a; b].
Definition range_in (n : nat) (l : list nat) : Prop := forall a b, l = [a; b] -> a <= n /\ b <= n.
