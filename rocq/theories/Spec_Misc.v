(** Specification vocabulary for the stop criterion and for arrays of arbitrary rank. *)
From Coq Require Import List Arith Reals.
Import ListNotations.

(** a residual: a real number, +infinity, or NaN (every comparison with NaN is false) *)
Inductive ext := Fin (r : R) | Inf | NaN.
Definition ext_lt (a b : ext) : Prop :=
  match a, b with
  | Fin x, Fin y => (x < y)%R
  | Fin _, Inf => True
  | Inf, _ => False
  | NaN, _ | _, NaN => False
  end.
(** the residuals are numbers (or infinite) *)
Definition no_nan (l : list ext) : Prop := forall r, In r l -> r <> NaN.

(** the calls that change a stop list *)
Inductive stop_op := Reset | Reset_n (n : nat) | Insert (r : ext).

(** the length set by a history, starting from length n *)
Fixpoint hist_length (n : nat) (h : list stop_op) : nat :=
  match h with
  | [] => n
  | Reset_n k :: h' => hist_length k h'
  | _ :: h' => hist_length n h'
  end.
(** the residuals inserted since the last reset, in order *)
Fixpoint hist_inserts (acc : list ext) (h : list stop_op) : list ext :=
  match h with
  | [] => acc
  | Insert r :: h' => hist_inserts (acc ++ [r]) h'
  | _ :: h' => hist_inserts [] h'
  end.
(** the last n entries of a list *)
Definition lastn {A} (n : nat) (l : list A) : list A := skipn (length l - n) l.

(** arrays of arbitrary rank, data in row-major order *)
Definition numel (shape : list nat) : nat := fold_right Nat.mul 1 shape.
Fixpoint entry {A} (shape : list nat) (data : list A) (ix : list nat) : option A :=
  match shape, ix with
  | [], [] => nth_error data 0
  | n :: shape', i :: ix' => entry shape' (firstn (numel shape') (skipn (i * numel shape') data)) ix'
  | _, _ => None
  end.
Definition in_range (shape ix : list nat) : Prop := Forall2 (fun n i => i < n) shape ix.
