(** Specification vocabulary for bodies of revolution (QuadratureAxisymmetric).  Component 0 of the coordinates and of the displacements is
    along the axis (z), component 1 is the radius (r); components 0, 1 and 2 of the tensors are r, theta and z. *)
From Coq Require Import Reals List Permutation.
From Verif Require Import Model_Element Spec_Element Base Spec Sums Spec_Vector Model_Vector Model_Pipeline Spec_Pipeline Spec_Patch Spec_Conform.
Local Open Scope R_scope.

(** integration points that are not on one curve a + b xi + c eta + d xi eta = 0 *)
Definition not_on_a_curve (nip : nat) (xi : arr) : Prop :=
  forall a b c d, (forall q, (q < nip)%nat -> a + b * xi [q;0]%nat + c * xi [q;1]%nat + d * (xi [q;0]%nat * xi [q;1]%nat) = 0) -> a = 0 /\ b = 0 /\ c = 0 /\ d = 0.
(** the integral of t^k over [-1, 1], for k < 3 *)
Definition moment (k : nat) : R := match k with O => 2 | 1%nat => 0 | _ => 2 / 3 end.
(** a rule that integrates polynomials of degree two in each of the local coordinates *)
Definition biquadratic_rule (nip : nat) (xi w : arr) : Prop :=
  forall a b, (a < 3)%nat -> (b < 3)%nat -> sumn nip (fun q => w [q] * (xi [q;0]%nat ^ a * xi [q;1]%nat ^ b)) = moment a * moment b.

(** axisymmetric objects with positive integration volumes, with points that are not on a curve *)
Inductive ring_obj (nelem : nat) : arr -> Elem -> Prop :=
| ring_new nip xi w x A : Axisym_obj nelem nip xi w x A -> not_on_a_curve nip xi -> (forall e q, (e < nelem)%nat -> (q < nip)%nat -> 0 < a_vol A [e;q]) ->
    ring_obj nelem x (Axisym_elem A).
(** the same, with a rule that integrates polynomials *)
Inductive exact_ring (nelem : nat) : arr -> Elem -> Prop :=
| exact_new nip xi w x A : Axisym_obj nelem nip xi w x A -> biquadratic_rule nip xi w -> (forall e q, (e < nelem)%nat -> (q < nip)%nat -> 0 < a_vol A [e;q]) ->
    exact_ring nelem x (Axisym_elem A).

(** all corners of element [e] have the same axial displacement, and no radial displacement *)
Definition slides (u : arr) (e : nat) : Prop := exists s : R, forall m, (m < 4)%nat -> u [e;m;0]%nat = s /\ u [e;m;1]%nat = 0.
(** the nodes that are held along the axis: a prescribed one, and those that have an element in common with one that is held *)
Inductive held_axially (conn dofs : list (list nat)) (iip : list nat) (nelem : nat) : nat -> Prop :=
| axially_prescribed n : In (idx2 dofs n 0) iip -> held_axially conn dofs iip nelem n
| axially_element e m k : (e < nelem)%nat -> (m < 4)%nat -> (k < 4)%nat -> held_axially conn dofs iip nelem (idx2 conn e m) -> held_axially conn dofs iip nelem (idx2 conn e k).

(** the contribution of the step (p, q) of a counter-clockwise path to the integral of r over the enclosed area: the integral of - r^2 / 2 dz *)
Definition ring_step (X : list (list R)) (s : nat * nat) : R :=
  let z k := val2 X k 0 in let r k := val2 X k 1 in
  - (z (snd s) - z (fst s)) * (r (fst s) * r (fst s) + r (fst s) * r (snd s) + r (snd s) * r (snd s)) / 6.
(** the positions of the nodes of a mesh, moved away from the axis by [R0] *)
Definition moved_out (R0 : R) (X Y : list (list R)) : Prop :=
  length Y = length X /\ forall n, (n < length X)%nat -> val2 Y n 0 = val2 X n 0 /\ val2 Y n 1 = R0 + val2 X n 1.

(** the nodes that are not on the axis *)
Definition off_axis (X : list (list R)) (n : nat) : bool := if Req_EM_T (val2 X n 1) 0 then false else true.
(** a node on the axis around which the elements close up, with the axis *)
Definition closed_at_axis (conn : list (list nat)) (nelem : nat) (X : list (list R)) (n : nat) : Prop :=
  val2 X n 1 = 0 /\ Permutation (filter (off_axis X) (map (next_node conn) (corners_at conn nelem n))) (filter (off_axis X) (map (prev_node conn) (corners_at conn nelem n))).
(** the elements close up around the node; or, for the axial component, with the axis *)
Definition closed_or_axis (conn : list (list nat)) (nelem : nat) (X : list (list R)) (n i : nat) : Prop :=
  closed_around conn nelem n \/ (i = 0%nat /\ closed_at_axis conn nelem X n).

(** the tensor that is [a] in the radial and circumferential directions, [b] in the axial direction *)
Definition stretched (a b : R) (i j : nat) : R := if (i =? j)%nat then (if (i =? 2)%nat then b else a) else 0.
(** a homogeneous body whose material responds to these strains by a stress without shear, equal in the radial and circumferential directions *)
Definition axially_symmetric (nelem : nat) (E : Elem) (law : arr -> arr) : Prop :=
  forall A a b, uniform nelem E A (stretched a b) -> exists S, uniform nelem E (law A) S /\ S 0%nat 0%nat = S 1%nat 1%nat /\ S 0%nat 2%nat = 0.
(** the displacement c + b z along the axis and a r in radial direction *)
Definition stretch_field (nnode : nat) (X : list (list R)) (a b c : R) (u : list (list R)) : Prop :=
  Spec.shape2 u nnode 2 /\ forall n, (n < nnode)%nat -> val2 u n 0 = c + b * val2 X n 0 /\ val2 u n 1 = a * val2 X n 1.
