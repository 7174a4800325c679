(** Specification: a mesh of quadrilaterals that tiles a rectangle without hanging nodes.
    Independent of the model; standard library only. *)
From Coq Require Import List Arith Reals.
From Verif Require Import Spec Spec2d.
Import ListNotations.
Local Open Scope R_scope.

(** the element with nodes [e] has its corners at (x0,y0), ..., (x3,y3) *)
Definition quad (X : list (list R)) (e : list nat) (x0 y0 x1 y1 x2 y2 x3 y3 : R) : Prop :=
  exists n0 n1 n2 n3, e = [n0; n1; n2; n3] /\ node_at X n0 x0 y0 /\ node_at X n1 x1 y1 /\ node_at X n2 x2 y2 /\ node_at X n3 x3 y3.

(** (x,y) is on the left of, or on, all edges of a convex quadrilateral *)
Definition inside (x0 y0 x1 y1 x2 y2 x3 y3 x y : R) : Prop :=
  0 <= area2 x0 y0 x1 y1 x y /\ 0 <= area2 x1 y1 x2 y2 x y /\ 0 <= area2 x2 y2 x3 y3 x y /\ 0 <= area2 x3 y3 x0 y0 x y.
Definition strictly_inside (x0 y0 x1 y1 x2 y2 x3 y3 x y : R) : Prop :=
  0 < area2 x0 y0 x1 y1 x y /\ 0 < area2 x1 y1 x2 y2 x y /\ 0 < area2 x2 y2 x3 y3 x y /\ 0 < area2 x3 y3 x0 y0 x y.

(** (x,y) is in element [e] / in its interior *)
Definition in_element (X : list (list R)) (e : list nat) (x y : R) : Prop :=
  exists x0 y0 x1 y1 x2 y2 x3 y3, quad X e x0 y0 x1 y1 x2 y2 x3 y3 /\ inside x0 y0 x1 y1 x2 y2 x3 y3 x y.
Definition in_interior (X : list (list R)) (e : list nat) (x y : R) : Prop :=
  exists x0 y0 x1 y1 x2 y2 x3 y3, quad X e x0 y0 x1 y1 x2 y2 x3 y3 /\ strictly_inside x0 y0 x1 y1 x2 y2 x3 y3 x y.

(** the elements [C] tile the rectangle [0,Lx] x [0,Ly]:
    - every element is a strictly convex, counter-clockwise quadrilateral;
    - every point of the rectangle is in an element, and every element is in the rectangle;
    - a point in the interior of an element is in no other element;
    - a node that is in an element is one of its corners (there are no hanging nodes);
    - every node is a corner of an element *)
Record tiles (X : list (list R)) (C : list (list nat)) (Lx Ly : R) : Prop := {
  t_convex : forall e, In e C -> exists x0 y0 x1 y1 x2 y2 x3 y3,
    quad X e x0 y0 x1 y1 x2 y2 x3 y3 /\ convex_ccw x0 y0 x1 y1 x2 y2 x3 y3;
  t_cover : forall x y, 0 <= x <= Lx -> 0 <= y <= Ly -> exists e, In e C /\ in_element X e x y;
  t_domain : forall e x y, In e C -> in_element X e x y -> 0 <= x <= Lx /\ 0 <= y <= Ly;
  t_disjoint : forall k k' e e' x y, nth_error C k = Some e -> nth_error C k' = Some e' -> k <> k' ->
    in_interior X e x y -> ~ in_element X e' x y;
  t_conforming : forall e p x y, In e C -> node_at X p x y -> in_element X e x y -> In p e;
  t_used : forall p, (p < length X)%nat -> exists e, In e C /\ In p e }.

(** the same for a mesh of triangles *)
Definition in_triangle (X : list (list R)) (e : list nat) (x y : R) : Prop :=
  exists x0 y0 x1 y1 x2 y2, triangle X e x0 y0 x1 y1 x2 y2 /\
    0 <= area2 x0 y0 x1 y1 x y /\ 0 <= area2 x1 y1 x2 y2 x y /\ 0 <= area2 x2 y2 x0 y0 x y.
Definition in_triangle_interior (X : list (list R)) (e : list nat) (x y : R) : Prop :=
  exists x0 y0 x1 y1 x2 y2, triangle X e x0 y0 x1 y1 x2 y2 /\
    0 < area2 x0 y0 x1 y1 x y /\ 0 < area2 x1 y1 x2 y2 x y /\ 0 < area2 x2 y2 x0 y0 x y.
Record tri_tiles (X : list (list R)) (C : list (list nat)) (Lx Ly : R) : Prop := {
  tt_ccw : forall e, In e C -> exists x0 y0 x1 y1 x2 y2,
    triangle X e x0 y0 x1 y1 x2 y2 /\ 0 < area2 x0 y0 x1 y1 x2 y2;
  tt_cover : forall x y, 0 <= x <= Lx -> 0 <= y <= Ly -> exists e, In e C /\ in_triangle X e x y;
  tt_domain : forall e x y, In e C -> in_triangle X e x y -> 0 <= x <= Lx /\ 0 <= y <= Ly;
  tt_disjoint : forall k k' e e' x y, nth_error C k = Some e -> nth_error C k' = Some e' -> k <> k' ->
    in_triangle_interior X e x y -> ~ in_triangle X e' x y;
  tt_conforming : forall e p x y, In e C -> node_at X p x y -> in_triangle X e x y -> In p e;
  tt_used : forall p, (p < length X)%nat -> exists e, In e C /\ In p e }.
