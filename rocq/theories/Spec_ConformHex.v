(** Specification: the sides of the elements of a mesh of hexahedra, and how they are shared.
    Independent of the model; standard library only. *)
From Coq Require Import List Arith.
Import ListNotations.

(** the six sides of a hexahedron with corners 0-3 (counter-clockwise, z = -1) and 4-7 (the same, z = 1): front (z = -1), back, left (x = -1), right,
    bottom (y = -1), top; each one counter-clockwise seen from outside *)
Definition hex_sides : list (list nat) := [[0;3;2;1]; [4;5;6;7]; [0;4;7;3]; [1;2;6;5]; [0;1;5;4]; [3;7;6;2]].
(** the nodes of side [s] of element [e] *)
Definition side (conn : list (list nat)) (e s : nat) : list nat := map (fun k => nth k (nth e conn []) 0) (nth s hex_sides []).
(** the same cycle, begun at another corner *)
Definition rotated (l l' : list nat) : Prop := exists k, l' = skipn k l ++ firstn k l.
(** side [s] of element [e] is side [t] of element [f], seen from the other side *)
Definition common_side (conn : list (list nat)) (e s f t : nat) : Prop := rotated (rev (side conn f t)) (side conn e s).

(** a conforming mesh of hexahedra, with the nodes of its front, back, left, right, bottom and top:
    - the corners of an element are different nodes;
    - side [s] of an element lies in the boundary set [s], and then no other element has these four nodes; or it lies in no boundary set, and then
      exactly one other element has these four nodes: they are one of its sides, seen from the other side;
    - the boundary sets consist of sides of elements *)
Record conforming_hex (conn bnd : list (list nat)) : Prop := {
  ch_corners : forall e, e < length conn -> length (nth e conn []) = 8 /\ NoDup (nth e conn []);
  ch_shared : forall e s, e < length conn -> s < 6 ->
    (incl (side conn e s) (nth s bnd []) /\ forall f, f < length conn -> incl (side conn e s) (nth f conn []) -> f = e) \/
    ((forall b, In b bnd -> ~ incl (side conn e s) b) /\ exists f t, f < length conn /\ f <> e /\ t < 6 /\ common_side conn e s f t /\
       forall g, g < length conn -> incl (side conn e s) (nth g conn []) -> g = e \/ g = f);
  ch_boundary : forall s n, s < 6 -> In n (nth s bnd []) -> exists e, e < length conn /\ In n (side conn e s) /\ incl (side conn e s) (nth s bnd []) }.

(** one can go from element [e] to element [f] by going from an element to another that has a side in common *)
Inductive joined_hex (conn : list (list nat)) (e : nat) : nat -> Prop :=
| jh_refl : joined_hex conn e e
| jh_step f g s t : joined_hex conn e f -> g < length conn -> s < 6 -> t < 6 -> common_side conn f s g t -> joined_hex conn e g.
