(** Specification of the geometry of meshes of quadrilaterals. *)
From Coq Require Import List Arith Reals.
From Verif Require Import Sums Spec_Element Spec Spec_Vector.
Import ListNotations.
Local Open Scope R_scope.

(** nodes of element [e]: coordinate [i] of its node [m] *)
Definition corners (coor : list (list R)) (conn : list (list nat)) (e : nat) : nat -> nat -> R :=
  fun m i => val2 coor (idx2 conn e m) i.

(** twice the area of the triangle spanned by corner [m] and its two neighbours (positive if the corner turns left) *)
Definition turn (x : nat -> nat -> R) (m : nat) : R :=
  let n := ((m + 1) mod 4)%nat in let p := ((m + 3) mod 4)%nat in
  (x n 0%nat - x m 0%nat) * (x p 1%nat - x m 1%nat) - (x n 1%nat - x m 1%nat) * (x p 0%nat - x m 0%nat).

(** a convex quadrilateral with its nodes counter-clockwise: every corner turns left *)
Definition convex (x : nat -> nat -> R) : Prop := forall m, (m < 4)%nat -> 0 < turn x m.

(** the opposite sides are the same vector *)
Definition parallelogram (x : nat -> nat -> R) : Prop :=
  forall i, (i < 2)%nat -> x 1%nat i - x 0%nat i = x 2%nat i - x 3%nat i.

(** a mesh of quadrilaterals with [nnode] nodes in two dimensions *)
Record quad_mesh (coor : list (list R)) (conn : list (list nat)) (nelem nnode : nat) : Prop := {
  qm_coor : Spec.shape2 coor nnode 2;
  qm_conn : Spec.shape2 conn nelem 4;
  qm_node : forall e m, (e < nelem)%nat -> (m < 4)%nat -> (idx2 conn e m < nnode)%nat }.

(** the share of the elements in the mass of node [n]: each corner of an element has half the triangle
    that it spans (the nodal quadrature rule) *)
Definition node_mass (coor : list (list R)) (conn : list (list nat)) (nelem n : nat) : R :=
  sumn nelem (fun e => sumn 4 (fun m => if (idx2 conn e m =? n)%nat then turn (corners coor conn e) m / 4 else 0)).
Definition total_area (coor : list (list R)) (conn : list (list nat)) (nelem : nat) : R :=
  sumn nelem (fun e => quad_area (corners coor conn e)).
