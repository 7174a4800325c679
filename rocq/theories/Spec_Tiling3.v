(** Specification: a mesh of eight-node hexahedra that tiles a box without hanging nodes.
    The element is the image of the reference cube [-1,1]^3 under the (isoparametric) interpolation of its nodes
    ([interp3], [jac3] of Spec_Element).  Independent of the model of the meshes. *)
From Coq Require Import List Arith Reals.
From Verif Require Import Spec Spec3d Spec_Element.
Import ListNotations.
Local Open Scope R_scope.

(** the nodes of [e] are at x 0, ..., x 7 *)
Definition hex (X : list (list R)) (e : list nat) (x : nat -> nat -> R) : Prop :=
  length e = 8%nat /\ forall m p, nth_error e m = Some p -> node_at3 X p (x m 0%nat) (x m 1%nat) (x m 2%nat).

(** the reference cube and its interior *)
Definition cube (p : nat -> R) : Prop := forall i, (i < 3)%nat -> -1 <= p i <= 1.
Definition open_cube (p : nat -> R) : Prop := forall i, (i < 3)%nat -> -1 < p i < 1.

(** (a,b,c) is the image of the local point [p] *)
Definition maps_to (x : nat -> nat -> R) (p : nat -> R) (a b c : R) : Prop :=
  interp3 (fun m => x m 0%nat) p = a /\ interp3 (fun m => x m 1%nat) p = b /\ interp3 (fun m => x m 2%nat) p = c.

(** (a,b,c) is in element [e] / in its interior *)
Definition in_element3 (X : list (list R)) (e : list nat) (a b c : R) : Prop :=
  exists x p, hex X e x /\ cube p /\ maps_to x p a b c.
Definition in_interior3 (X : list (list R)) (e : list nat) (a b c : R) : Prop :=
  exists x p, hex X e x /\ open_cube p /\ maps_to x p a b c.

(** the elements [C] tile the box [0,Lx] x [0,Ly] x [0,Lz]:
    - the Jacobian of every element is positive, at every point of the reference cube;
    - every point of the box is in an element, and every element is in the box;
    - a point in the interior of an element is in no other element;
    - a node that is in an element is one of its corners (there are no hanging nodes);
    - every node is a corner of an element *)
Record tiles3 (X : list (list R)) (C : list (list nat)) (Lx Ly Lz : R) : Prop := {
  t3_jacobian : forall e, In e C -> exists x, hex X e x /\ forall p, cube p -> 0 < jac3 x p;
  t3_cover : forall a b c, 0 <= a <= Lx -> 0 <= b <= Ly -> 0 <= c <= Lz -> exists e, In e C /\ in_element3 X e a b c;
  t3_domain : forall e a b c, In e C -> in_element3 X e a b c -> 0 <= a <= Lx /\ 0 <= b <= Ly /\ 0 <= c <= Lz;
  t3_disjoint : forall k k' e e' a b c, nth_error C k = Some e -> nth_error C k' = Some e' -> k <> k' ->
    in_interior3 X e a b c -> ~ in_element3 X e' a b c;
  t3_conforming : forall e p a b c, In e C -> node_at3 X p a b c -> in_element3 X e a b c -> In p e;
  t3_used : forall p, (p < length X)%nat -> exists e, In e C /\ In p e }.
