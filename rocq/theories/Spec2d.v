(** Specification vocabulary for planar meshes: positions of nodes, edges of a rectangular domain,
    periodicity, signed areas.  Independent of the model; standard library only. *)
From Coq Require Import List Arith Reals ZArith.
From Verif Require Import Spec.
Import ListNotations.
Local Open Scope R_scope.

(** row [n] of the nodal coordinates [X] is the point (x, y) *)
Definition node_at (X : list (list R)) (n : nat) (x y : R) : Prop := nth_error X n = Some [x; y].

(** [l] lists exactly the nodes whose position satisfies [P], each once *)
Definition lists_nodes (X : list (list R)) (l : list nat) (P : R -> R -> Prop) : Prop :=
  enumerates l (fun n => exists x y, node_at X n x y /\ P x y).

(** the nodes of [l] are ordered by increasing [c x y] *)
Definition increasing_along (X : list (list R)) (l : list nat) (c : R -> R -> R) : Prop :=
  forall i j n n' x y x' y', (i < j)%nat -> nth_error l i = Some n -> nth_error l j = Some n' ->
    node_at X n x y -> node_at X n' x' y' -> c x y < c x' y'.

(** all boundary sets of a mesh of the domain [0,Lx] x [0,Ly] *)
Record boundary_sets (X : list (list R)) (Lx Ly : R)
  (bot top lft rgt obot otop olft orgt : list nat) (bl br tl tr : nat) : Prop := {
  bs_bot : lists_nodes X bot (fun x y => y = 0) /\ increasing_along X bot (fun x y => x);
  bs_top : lists_nodes X top (fun x y => y = Ly) /\ increasing_along X top (fun x y => x);
  bs_lft : lists_nodes X lft (fun x y => x = 0) /\ increasing_along X lft (fun x y => y);
  bs_rgt : lists_nodes X rgt (fun x y => x = Lx) /\ increasing_along X rgt (fun x y => y);
  bs_obot : bot = bl :: obot ++ [br];
  bs_otop : top = tl :: otop ++ [tr];
  bs_olft : lft = bl :: olft ++ [tl];
  bs_orgt : rgt = br :: orgt ++ [tr];
  bs_bl : node_at X bl 0 0;
  bs_br : node_at X br Lx 0;
  bs_tl : node_at X tl 0 Ly;
  bs_tr : node_at X tr Lx Ly }.

(** two positions agree modulo the size of the domain *)
Definition congruent (Lx Ly x y x' y' : R) : Prop :=
  exists p q : Z, x' = x + IZR p * Lx /\ y' = y + IZR q * Ly.

(** [ties] = (independent, dependent) pairs of the domain [0,Lx] x [0,Ly]: every node on the right
    or top edge is tied once, to a node that is not on these edges, at the same position modulo
    the size of the domain *)
Definition periodic_ties (X : list (list R)) (Lx Ly : R) (ties : list (nat * nat)) : Prop :=
  wf_ties (length X) ties /\
  (forall a b x y x' y', In (a, b) ties -> node_at X a x y -> node_at X b x' y' ->
      congruent Lx Ly x y x' y') /\
  lists_nodes X (map snd ties) (fun x y => x = Lx \/ y = Ly).

(** [D] gives two (node, direction) pairs the same number iff the directions are the same and the
    nodes are at the same position modulo the size of the domain; the numbers are 0..n-1 *)
Definition periodic_dofs (X : list (list R)) (Lx Ly : R) (ndim : nat) (D : list (list nat)) (n : nat) : Prop :=
  shape2 D (length X) ndim /\
  (forall m i v x y m' i' v' x' y', at2 D m i = Some v -> at2 D m' i' = Some v' ->
      node_at X m x y -> node_at X m' x' y' ->
      (v = v' <-> i = i' /\ congruent Lx Ly x y x' y')) /\
  (forall v, In v (concat D) <-> (v < n)%nat).

(** twice the signed area of a triangle; positive iff counter-clockwise *)
Definition area2 (x0 y0 x1 y1 x2 y2 : R) : R :=
  (x1 - x0) * (y2 - y0) - (x2 - x0) * (y1 - y0).

(** signed area of a quadrilateral (shoelace formula) *)
Definition quad_area (x0 y0 x1 y1 x2 y2 x3 y3 : R) : R :=
  ((x0 * y1 - x1 * y0) + (x1 * y2 - x2 * y1) + (x2 * y3 - x3 * y2) + (x3 * y0 - x0 * y3)) / 2.

(** strictly convex and counter-clockwise: left turn at each corner *)
Definition convex_ccw (x0 y0 x1 y1 x2 y2 x3 y3 : R) : Prop :=
  0 < area2 x0 y0 x1 y1 x2 y2 /\ 0 < area2 x1 y1 x2 y2 x3 y3 /\
  0 < area2 x2 y2 x3 y3 x0 y0 /\ 0 < area2 x3 y3 x0 y0 x1 y1.

Definition sumR (l : list R) : R := fold_right Rplus 0 l.

(** positions of the nodes: all in the domain, no two nodes at the same place *)
Definition in_domain (X : list (list R)) (Lx Ly : R) : Prop :=
  (forall n, (n < length X)%nat -> exists x y, node_at X n x y) /\
  (forall n x y, node_at X n x y -> 0 <= x <= Lx /\ 0 <= y <= Ly) /\
  (forall n n' x y, node_at X n x y -> node_at X n' x y -> n = n').

(** area of the quadrilateral element with nodes [e] *)
Definition element_area (X : list (list R)) (e : list nat) : R :=
  match map (fun n => nth n X []) e with
  | [[x0; y0]; [x1; y1]; [x2; y2]; [x3; y3]] => quad_area x0 y0 x1 y1 x2 y2 x3 y3
  | _ => 0
  end.

(** a triangle [e] with its corners at (x0,y0), (x1,y1), (x2,y2) *)
Definition triangle (X : list (list R)) (e : list nat) (x0 y0 x1 y1 x2 y2 : R) : Prop :=
  exists n0 n1 n2, e = [n0; n1; n2] /\ node_at X n0 x0 y0 /\ node_at X n1 x1 y1 /\ node_at X n2 x2 y2.
