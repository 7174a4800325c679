(** Specification vocabulary for data on elements and its transfer between meshes. Standard library only. *)
From Coq Require Import List Arith Reals.
From Verif Require Import Spec Spec2d Spec_Tiling.
Import ListNotations.
Local Open Scope R_scope.

(** component [c] of element [e] *)
Definition comp (D : list (list R)) (e c : nat) : R := nth c (nth e D []) 0.

(** sum of component [c] over the elements in [l] *)
Definition total_over (l : list nat) (D : list (list R)) (c : nat) : R := sumR (map (fun e => comp D e c) l).
(** sum of component [c] over all elements *)
Definition total_all (D : list (list R)) (c : nat) : R := total_over (seq 0 (length D)) D c.

(** (px,py) and (qx,qy) are opposite corners of the rectangle [x0,x1] x [y0,y1] *)
Definition diagonal (x0 x1 y0 y1 px py qx qy : R) : Prop :=
  (px = x0 /\ qx = x1 \/ px = x1 /\ qx = x0) /\ (py = y0 /\ qy = y1 \/ py = y1 /\ qy = y0).

(** how much of the (rectangular) element [K] of the mesh with nodes [Xr] is in element [E] of the mesh with nodes [X]:
    all of it; exactly the part on one side of a diagonal; or nothing but (part of) its boundary *)
Definition covered_fully (X : list (list R)) (E : list nat) (Xr : list (list R)) (K : list nat) : Prop :=
  forall x y, in_element Xr K x y -> in_element X E x y.
Definition covered_half (X : list (list R)) (E : list nat) (Xr : list (list R)) (K : list nat) : Prop :=
  exists x0 x1 y0 y1 px py qx qy, quad Xr K x0 y0 x1 y0 x1 y1 x0 y1 /\ x0 < x1 /\ y0 < y1 /\ diagonal x0 x1 y0 y1 px py qx qy /\
  forall x y, in_element Xr K x y -> (in_element X E x y <-> 0 <= area2 px py qx qy x y).
Definition covered_not (X : list (list R)) (E : list nat) (Xr : list (list R)) (K : list nat) : Prop :=
  forall x y, in_interior Xr K x y -> ~ in_element X E x y.

(** the fraction listed for cell [c], given the listed cells and their fractions *)
Definition share (ids : list nat) (fs : list R) (c : nat) : R :=
  sumR (map (fun q => if Nat.eqb (fst q) c then snd q else 0) (combine ids fs)).
