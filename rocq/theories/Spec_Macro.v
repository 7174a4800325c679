(** Specification vocabulary for averages over a body. *)
From Coq Require Import Reals List.
From Verif Require Import Model_Element Spec_Element Base Spec Sums Spec_Vector Model_Vector Model_Pipeline Spec_Pipeline.
Local Open Scope R_scope.

(** the coordinates of the element object are those of the mesh *)
Definition coordinates (conn : list (list nat)) (nelem nne ndim : nat) (X : list (list R)) (x : arr) : Prop :=
  forall e m i, (e < nelem)%nat -> (m < nne)%nat -> (i < ndim)%nat -> x [e;m;i] = val2 X (idx2 conn e m) i.

(** element objects whose gradient of an affine displacement is exact (see C56, C61 and C64): Quad4 and Quad4Planar elements with a
    non-zero Jacobian, and Hex8 elements with a Jacobian that moreover is diagonal (edges along the axes) *)
Inductive affine_obj (nelem : nat) : arr -> Elem -> Prop :=
| aff_Quad4 nip xi w x Q : Quad4_obj nelem nip xi w x Q -> (forall e q, (e < nelem)%nat -> (q < nip)%nat -> jac2 (nodes x e) (point xi q) <> 0) -> affine_obj nelem x (Quad4_elem Q)
| aff_Planar nip xi w thick x P : Planar_obj nelem nip xi w thick x P -> (forall e q, (e < nelem)%nat -> (q < nip)%nat -> jac2 (nodes x e) (point xi q) <> 0) ->
    affine_obj nelem x (Planar_elem P)
| aff_Hex8 nip xi w x Q : Hex8_obj nelem nip xi w x Q ->
    (forall e q, (e < nelem)%nat -> (q < nip)%nat -> jac3 (nodes x e) (point xi q) <> 0 /\ diagonal3 (nodes x e) (point xi q)) -> affine_obj nelem x (Hex8_elem Q).

(** the integral over the body of component (i, j) of a tensor, and the volume *)
Definition total (nelem : nat) (E : Elem) (A : arr) (i j : nat) : R := sumn nelem (fun e => sumn (el_nip E) (fun q => A [e;q;i;j] * el_dV E [e;q])).
Definition volume (nelem : nat) (E : Elem) : R := sumn nelem (fun e => sumn (el_nip E) (fun q => el_dV E [e;q])).
