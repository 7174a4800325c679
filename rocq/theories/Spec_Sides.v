(** Specification: the sides of a box [0,Lx] x [0,Ly] x [0,Lz].  Standard library only. *)
From Coq Require Import Reals.
From Verif Require Import Spec3d.
Local Open Scope R_scope.

Inductive wall := Left | Right | Bottom | Top | Front | Back.
Definition axis (s : wall) : nat := match s with Left | Right => 0 | Bottom | Top => 1 | Front | Back => 2 end.
(** (x, y, z) is on wall [s] *)
Definition on_wall (Lx Ly Lz : R) (s : wall) (x y z : R) : Prop :=
  match s with Left => x = 0 | Right => x = Lx | Bottom => y = 0 | Top => y = Ly | Front => z = 0 | Back => z = Lz end.
(** strictly inside along axis [k] *)
Definition inside_along (Lx Ly Lz : R) (k : nat) (x y z : R) : Prop :=
  match k with 0%nat => inside Lx x | 1%nat => inside Ly y | _ => inside Lz z end.
