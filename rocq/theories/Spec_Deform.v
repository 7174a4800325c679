(** Specification: a body that deforms.  Two objects of the same class and with the same integration points, one on the reference
    geometry [x] and one on the deformed geometry [x + u] (that is how [update_x] is used). *)
From Coq Require Import Reals.
From Verif Require Import Model_Element Spec_Element Base Spec Sums Model_Pipeline Spec_Pipeline.
Local Open Scope R_scope.

(** coordinates after the displacement [u] *)
Definition displaced (x u : arr) : arr := fun k => x k + u k.

(** [E] has nodal coordinates [x], [E'] has nodal coordinates [x + u]; the reference geometry is not degenerate at the integration
    points (Jacobian not zero; off the axis for the axisymmetric class; for Hex8: a diagonal Jacobian matrix, such as a brick) *)
Inductive deformed (nelem : nat) (x u : arr) : Elem -> Elem -> Prop :=
| def_Quad4 nip xi w Q Q' : Quad4_obj nelem nip xi w x Q -> Quad4_obj nelem nip xi w (displaced x u) Q' ->
    (forall e q, (e < nelem)%nat -> (q < nip)%nat -> jac2 (nodes x e) (point xi q) <> 0) ->
    deformed nelem x u (Quad4_elem Q) (Quad4_elem Q')
| def_Planar nip xi w thick P P' : Planar_obj nelem nip xi w thick x P -> Planar_obj nelem nip xi w thick (displaced x u) P' ->
    (forall e q, (e < nelem)%nat -> (q < nip)%nat -> jac2 (nodes x e) (point xi q) <> 0) ->
    deformed nelem x u (Planar_elem P) (Planar_elem P')
| def_Axisym nip xi w A A' : Axisym_obj nelem nip xi w x A -> Axisym_obj nelem nip xi w (displaced x u) A' ->
    (forall e q, (e < nelem)%nat -> (q < nip)%nat -> jac2 (nodes x e) (point xi q) <> 0 /\ radius xi x e q <> 0) ->
    deformed nelem x u (Axisym_elem A) (Axisym_elem A')
| def_Hex8 nip xi w Q Q' : Hex8_obj nelem nip xi w x Q -> Hex8_obj nelem nip xi w (displaced x u) Q' ->
    (forall e q, (e < nelem)%nat -> (q < nip)%nat -> jac3 (nodes x e) (point xi q) <> 0 /\ diagonal3 (nodes x e) (point xi q)) ->
    deformed nelem x u (Hex8_elem Q) (Hex8_elem Q').

(** the deformation gradient F_ij = delta_ij + d u_i / d X_j, from the displacement gradient (g_ij = d u_j / d X_i) *)
Definition defgrad (g : arr) (e q i j : nat) : R := (if (i =? j)%nat then 1 else 0) + g [e;q;j;i].

(** determinant of a matrix with [n] = 2 or 3 rows *)
Definition det_of (n : nat) (F : nat -> nat -> R) : R :=
  match n with
  | 2%nat => F 0%nat 0%nat * F 1%nat 1%nat - F 0%nat 1%nat * F 1%nat 0%nat
  | _ => F 0%nat 0%nat * (F 1%nat 1%nat * F 2%nat 2%nat - F 1%nat 2%nat * F 2%nat 1%nat)
         - F 0%nat 1%nat * (F 1%nat 0%nat * F 2%nat 2%nat - F 1%nat 2%nat * F 2%nat 0%nat)
         + F 0%nat 2%nat * (F 1%nat 0%nat * F 2%nat 1%nat - F 1%nat 1%nat * F 2%nat 0%nat)
  end.

(** [P] is the nominal stress (the transpose of the first Piola-Kirchhoff stress) that belongs to the Cauchy stress [sig]: F . P = det(F) sig *)
Definition nominal (nelem : nat) (E : Elem) (F : nat -> nat -> nat -> nat -> R) (sig P : arr) : Prop :=
  all_points nelem E (fun e q i j => sumn (el_tdim E) (fun k => F e q i k * P [e;q;k;j]) = det_of (el_tdim E) (F e q) * sig [e;q;i;j]).
