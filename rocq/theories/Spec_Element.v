(** Specification of the finite element interpolation and quadrature (textbook definitions,
    independent of the loops of the model), and the set of objects a user can build. *)
From Coq Require Import List Arith Reals Permutation.
From Coquelicot Require Import Hierarchy RInt.
From Verif Require Import Sums Model_Element.
Import ListNotations.
Local Open Scope R_scope.

(** ** Reference elements *)

(** local coordinate [i] of corner [m] of the reference square [-1,1]^2 (counter-clockwise) *)
Definition corner2 (m i : nat) : R :=
  match m, i with
  | 0%nat, 0%nat => -1 | 0%nat, 1%nat => -1
  | 1%nat, 0%nat => 1  | 1%nat, 1%nat => -1
  | 2%nat, 0%nat => 1  | 2%nat, 1%nat => 1
  | 3%nat, 0%nat => -1 | 3%nat, 1%nat => 1
  | _, _ => 0
  end.

(** local coordinate [i] of corner [m] of the reference cube [-1,1]^3: bottom face, then top face *)
Definition corner3 (m i : nat) : R :=
  match i with
  | 2%nat => if (m <? 4)%nat then -1 else 1
  | _ => corner2 (m mod 4) i
  end.

(** (multi-)linear shape functions: product of the one-dimensional hat functions *)
Definition shape2 (m : nat) (p : nat -> R) : R :=
  ((1 + corner2 m 0 * p 0%nat) / 2) * ((1 + corner2 m 1 * p 1%nat) / 2).
Definition shape3 (m : nat) (p : nat -> R) : R :=
  ((1 + corner3 m 0 * p 0%nat) / 2) * ((1 + corner3 m 1 * p 1%nat) / 2) * ((1 + corner3 m 2 * p 2%nat) / 2).

(** [l] is the partial derivative of [f] in direction [i] at the point [p] *)
Definition partial (f : (nat -> R) -> R) (i : nat) (p : nat -> R) (l : R) : Prop :=
  derivable_pt_lim (fun t => f (fun k => if (k =? i)%nat then t else p k)) (p i) l.

(** interpolation of nodal values in the reference element *)
Definition interp2 (u : nat -> R) (p : nat -> R) : R := sumn 4 (fun m => shape2 m p * u m).
Definition interp3 (u : nat -> R) (p : nat -> R) : R := sumn 8 (fun m => shape3 m p * u m).

(** the partial derivatives of the interpolation (that they are is [interp2_partial]
    and [interp3_partial] in Prop_Element.v) *)
Definition dshape2 (m i : nat) (p : nat -> R) : R :=
  match i with
  | 0%nat => (corner2 m 0 / 2) * ((1 + corner2 m 1 * p 1%nat) / 2)
  | _ => ((1 + corner2 m 0 * p 0%nat) / 2) * (corner2 m 1 / 2)
  end.
Definition dshape3 (m i : nat) (p : nat -> R) : R :=
  match i with
  | 0%nat => (corner3 m 0 / 2) * ((1 + corner3 m 1 * p 1%nat) / 2) * ((1 + corner3 m 2 * p 2%nat) / 2)
  | 1%nat => ((1 + corner3 m 0 * p 0%nat) / 2) * (corner3 m 1 / 2) * ((1 + corner3 m 2 * p 2%nat) / 2)
  | _ => ((1 + corner3 m 0 * p 0%nat) / 2) * ((1 + corner3 m 1 * p 1%nat) / 2) * (corner3 m 2 / 2)
  end.
Definition dinterp2 (u : nat -> R) (i : nat) (p : nat -> R) : R := sumn 4 (fun m => dshape2 m i p * u m).
Definition dinterp3 (u : nat -> R) (i : nat) (p : nat -> R) : R := sumn 8 (fun m => dshape3 m i p * u m).

(** Jacobian determinant of the map from the reference element to the element with nodes [x m] *)
Definition jac2 (x : nat -> nat -> R) (p : nat -> R) : R :=
  let d := fun j i => dinterp2 (fun m => x m j) i p in
  d 0%nat 0%nat * d 1%nat 1%nat - d 0%nat 1%nat * d 1%nat 0%nat.
Definition jac3 (x : nat -> nat -> R) (p : nat -> R) : R :=
  let d := fun j i => dinterp3 (fun m => x m j) i p in
  d 0%nat 0%nat * (d 1%nat 1%nat * d 2%nat 2%nat - d 1%nat 2%nat * d 2%nat 1%nat)
  - d 0%nat 1%nat * (d 1%nat 0%nat * d 2%nat 2%nat - d 1%nat 2%nat * d 2%nat 0%nat)
  + d 0%nat 2%nat * (d 1%nat 0%nat * d 2%nat 1%nat - d 1%nat 1%nat * d 2%nat 0%nat).

(** signed area of a quadrilateral, nodes counter-clockwise (shoelace formula) *)
Definition quad_area (x : nat -> nat -> R) : R :=
  / 2 * sumn 4 (fun m => let n := ((m + 1) mod 4)%nat in x m 0%nat * x n 1%nat - x n 0%nat * x m 1%nat).

(** nodal coordinates of element [e], local coordinates of integration point [q],
    component [j] of the nodal vectors of element [e] *)
Definition nodes (x : arr) (e : nat) : nat -> nat -> R := fun m i => x [e;m;i].
Definition point (xi : arr) (q : nat) : nat -> R := fun i => xi [q;i].
Definition comp (u : arr) (e j : nat) : nat -> R := fun m => u [e;m;j].

(** radius of integration point [q] of element [e] in the axisymmetric setting: the second
    coordinate (the first is along the axis) *)
Definition radius (xi x : arr) (e q : nat) : R := interp2 (comp x e 1) (point xi q).

(** the contents of the nodal vectors of element [e] is the affine field a + B . x *)
Definition affine (d nne : nat) (a : nat -> R) (B : nat -> nat -> R) (x u : arr) (e : nat) : Prop :=
  forall m j, (m < nne)%nat -> (j < d)%nat ->
    u [e;m;j] = a j + sumn d (fun k => B j k * x [e;m;k]).

(** double contraction of a fourth and a second order tensor: (C : A)_ij = C_ijkl A_lk *)
Definition ddot42 (d : nat) (C A : arr) : arr := fun k =>
  match k with
  | [e;q;i;j] => sumn d (fun k => sumn d (fun l => C [e;q;i;j;k;l] * A [e;q;l;k]))
  | _ => 0
  end.

(** repeated (Riemann) integral over the reference square and cube; [pt2], [pt3]: a local point *)
Definition pt2 (s t : R) : nat -> R := fun i => match i with 0%nat => s | _ => t end.
Definition pt3 (r s t : R) : nat -> R := fun i => match i with 0%nat => r | 1%nat => s | _ => t end.
Definition is_integral2 (f : R -> R -> R) (v : R) : Prop :=
  exists g, (forall t, is_RInt (V := R_NormedModule) (fun s => f s t) (-1) 1 (g t)) /\ is_RInt (V := R_NormedModule) g (-1) 1 v.
Definition is_integral3 (f : R -> R -> R -> R) (v : R) : Prop :=
  exists g, (forall t, is_integral2 (fun r s => f r s t) (g t)) /\ is_RInt (V := R_NormedModule) g (-1) 1 v.

(** polynomials: at most cubic in one variable; trilinear *)
Definition cubic (f : R -> R) : Prop := exists a b c d, forall t, f t = a + b * t + c * (t * t) + d * (t * t * t).
Definition trilinear (c : nat -> R) (r s t : R) : R :=
  c 0%nat + c 1%nat * r + c 2%nat * s + c 3%nat * t + c 4%nat * r * s + c 5%nat * s * t + c 6%nat * r * t + c 7%nat * r * s * t.

(** element with a diagonal Jacobian matrix at the local point [p] *)
Definition diagonal3 (x : nat -> nat -> R) (p : nat -> R) : Prop :=
  forall i j, (i < 3)%nat -> (j < 3)%nat -> i <> j -> dinterp3 (fun m => x m j) i p = 0.

(** a cube sheared in its first direction: x_0 = xi_0 + xi_1, x_1 = xi_1, x_2 = xi_2 *)
Definition sheared : arr := fun k =>
  match k with
  | [_;m;i] => match i with O => corner3 m 0 + corner3 m 1 | _ => corner3 m i end
  | _ => 0
  end.

(** ** Objects a user can obtain: the constructor, followed by any number of calls of update_x;
    [x] are the current nodal coordinates.  Uninitialised memory and the order in which the
    elements are visited (OpenMP schedule) are arbitrary. *)
Inductive Quad4_obj (nelem nip : nat) (xi w : arr) : arr -> Quadrature -> Prop :=
| Quad4_obj_new es x j1 j2 j3 j4 j5 : Permutation es (seq 0 nelem) ->
    Quad4_obj nelem nip xi w x (Quad4_new es nelem x nip xi w j1 j2 j3 j4 j5)
| Quad4_obj_update es x0 Q x j5 : Permutation es (seq 0 nelem) ->
    Quad4_obj nelem nip xi w x0 Q -> Quad4_obj nelem nip xi w x (Quad4_update_x es j5 x Q).

Inductive Planar_obj (nelem nip : nat) (xi w : arr) (thick : R) : arr -> Planar -> Prop :=
| Planar_obj_new es x j1 j2 j3 j4 j5 : Permutation es (seq 0 nelem) ->
    Planar_obj nelem nip xi w thick x (Planar_new es nelem x nip xi w thick j1 j2 j3 j4 j5)
| Planar_obj_update es x0 P x j5 : Permutation es (seq 0 nelem) ->
    Planar_obj nelem nip xi w thick x0 P -> Planar_obj nelem nip xi w thick x (Planar_update_x es j5 x P).

Inductive Axisym_obj (nelem nip : nat) (xi w : arr) : arr -> Axisym -> Prop :=
| Axisym_obj_new es x j1 j2 j3 j4 j5 : Permutation es (seq 0 nelem) ->
    Axisym_obj nelem nip xi w x (Axisym_new es nelem x nip xi w j1 j2 j3 j4 j5)
| Axisym_obj_update es x0 A x j5 : Permutation es (seq 0 nelem) ->
    Axisym_obj nelem nip xi w x0 A -> Axisym_obj nelem nip xi w x (Axisym_update_x es j5 x A).

Inductive Hex8_obj (nelem nip : nat) (xi w : arr) : arr -> Quadrature -> Prop :=
| Hex8_obj_new es x j1 j2 j3 j4 j5 : Permutation es (seq 0 nelem) ->
    Hex8_obj nelem nip xi w x (Hex8_new es nelem x nip xi w j1 j2 j3 j4 j5)
| Hex8_obj_update es x0 Q x j5 : Permutation es (seq 0 nelem) ->
    Hex8_obj nelem nip xi w x0 Q -> Hex8_obj nelem nip xi w x (Hex8_update_x es j5 x Q).

(** the order in which the elements are visited by one call *)
Definition schedule (nelem : nat) (es : list nat) : Prop := Permutation es (seq 0 nelem).
