(** Specification: the sides of the elements of a planar mesh, and how they are shared.
    Independent of the model; standard library only. *)
From Coq Require Import List Arith.
Import ListNotations.

(** the sides of a polygon with corners [e], in the order of the corners; each side is a pair (from, to) *)
Definition sides (e : list nat) : list (nat * nat) := combine e (tl e ++ [hd 0 e]).
(** the steps of a path along the nodes [l] *)
Definition steps (l : list nat) : list (nat * nat) := combine l (tl l).
(** a step in the other direction *)
Definition back (s : nat * nat) : nat * nat := (snd s, fst s).
(** the outline of a rectangle, counter-clockwise: bottom from left to right, right side upwards, top from right to left, left side
    downwards.  The arguments are the lists of the nodes of the sides, from left to right and from bottom to top *)
Definition outline (bot rgt top lft : list nat) : list (nat * nat) := steps bot ++ steps rgt ++ map back (steps top) ++ map back (steps lft).

(** a conforming mesh, in which two elements meet in a common side and in which the outline consists of sides of elements:
    - no two elements (and no two sides of an element) have a side in common in the same direction;
    - a side is either a side of one other element, in the other direction, or a step of the outline, but not both;
    - the steps of the outline are sides *)
Record conforming_mesh (conn : list (list nat)) (bot rgt top lft : list nat) : Prop := {
  cf_once : NoDup (flat_map sides conn);
  cf_shared : forall s, In s (flat_map sides conn) -> In (back s) (flat_map sides conn) <-> ~ In s (outline bot rgt top lft);
  cf_outline : forall s, In s (outline bot rgt top lft) -> In s (flat_map sides conn);
  cf_outline_once : NoDup (outline bot rgt top lft) }.

(** [joined conn e f]: one can go from element [e] to element [f] by going from an element to another that has a side in common *)
Inductive joined (conn : list (list nat)) (e : nat) : nat -> Prop :=
| joined_refl : joined conn e e
| joined_step f g s : joined conn e f -> g < length conn -> In s (sides (nth f conn [])) -> In (back s) (sides (nth g conn [])) -> joined conn e g.
