(** Specification vocabulary for the patch test: the elements around a node, uniform fields. *)
From Coq Require Import Reals List Permutation.
From Verif Require Import Model_Element Spec_Element Base Spec Sums Spec_Vector Model_Vector Model_MeshGeometry Model_Pipeline Spec_Pipeline.
Local Open Scope R_scope.

(** the corners (element, local number) of the quadrilaterals that are at node [n] *)
Definition corners_at (conn : list (list nat)) (nelem n : nat) : list (nat * nat) :=
  filter (fun c => Nat.eqb (idx2 conn (fst c) (snd c)) n) (list_prod (seq 0 nelem) (seq 0 4)).
(** the node that follows a corner of a quadrilateral, and the one before *)
Definition next_node (conn : list (list nat)) (c : nat * nat) : nat := idx2 conn (fst c) ((snd c + 1) mod 4).
Definition prev_node (conn : list (list nat)) (c : nat * nat) : nat := idx2 conn (fst c) ((snd c + 3) mod 4).
(** the elements close up around the node: the nodes that follow it are the nodes that come before it (each as many times) *)
Definition closed_around (conn : list (list nat)) (nelem n : nat) : Prop :=
  Permutation (map (next_node conn) (corners_at conn nelem n)) (map (prev_node conn) (corners_at conn nelem n)).

(** the DOFs of node [n] are of this node only *)
Definition own_dofs (dofs : list (list nat)) (nnode ndim n : nat) : Prop :=
  forall i n' j, (i < ndim)%nat -> (n' < nnode)%nat -> (j < ndim)%nat -> idx2 dofs n' j = idx2 dofs n i -> n' = n /\ j = i.

(** a quadrature rule that integrates the local coordinates: the weighted points are around the centre *)
Definition centred (nip : nat) (xi w : arr) : Prop :=
  sumn nip (fun q => w [q] * xi [q;0]%nat) = 0 /\ sumn nip (fun q => w [q] * xi [q;1]%nat) = 0.

(** Quad4 and Quad4Planar objects with such a rule, and integration points where the Jacobian is not zero *)
Inductive patch_obj (nelem : nat) : arr -> Elem -> Prop :=
| patch_Quad4 nip xi w x Q : Quad4_obj nelem nip xi w x Q -> centred nip xi w ->
    (forall e q, (e < nelem)%nat -> (q < nip)%nat -> jac2 (nodes x e) (point xi q) <> 0) -> patch_obj nelem x (Quad4_elem Q)
| patch_Planar nip xi w thick x P : Planar_obj nelem nip xi w thick x P -> centred nip xi w ->
    (forall e q, (e < nelem)%nat -> (q < nip)%nat -> jac2 (nodes x e) (point xi q) <> 0) -> patch_obj nelem x (Planar_elem P).

(** the coordinates of the element object are those of the mesh *)
Definition on_mesh (conn : list (list nat)) (nelem : nat) (X : list (list R)) (x : arr) : Prop :=
  forall e m i, (e < nelem)%nat -> (m < 4)%nat -> (i < 2)%nat -> x [e;m;i] = val2 X (idx2 conn e m) i.

(** the same tensor at all integration points *)
Definition uniform (nelem : nat) (E : Elem) (A : arr) (T : nat -> nat -> R) : Prop := all_points nelem E (fun e q i j => A [e;q;i;j] = T i j).
(** a homogeneous body: a uniform strain gives a uniform stress *)
Definition homogeneous (nelem : nat) (E : Elem) (law : arr -> arr) : Prop :=
  forall A T, uniform nelem E A T -> exists S, uniform nelem E (law A) S.

(** the nodal displacement a + G . X *)
Definition affine_field (nnode : nat) (X : list (list R)) (a : nat -> R) (G : nat -> nat -> R) (u : list (list R)) : Prop :=
  Spec.shape2 u nnode 2 /\ forall n i, (n < nnode)%nat -> (i < 2)%nat -> val2 u n i = a i + sumn 2 (fun j => G i j * val2 X n j).

(** no mechanism: a displacement of the DOFs that vanishes on the prescribed DOFs and has no energy is zero *)
Definition no_mechanism (v : Vector) (nelem ndof : nat) (E : Elem) (C : arr) (iip : list nat) : Prop :=
  forall c y Y, valid_call nelem c -> length y = ndof -> (forall d, In d iip -> val1 y d = 0) -> AsElement_dofval v y = Ok Y ->
    integral nelem E (ddot42 (el_tdim E) C (el_GradN_vector E c (of_rows Y))) (el_GradN_vector E c (of_rows Y)) = 0 ->
    forall d, (d < ndof)%nat -> val1 y d = 0.

(** a material without zero-energy strains: A : C : A is positive unless the symmetric part of A is zero *)
Definition strictly_elastic (nelem : nat) (E : Elem) (C : arr) : Prop :=
  forall A e q, (e < nelem)%nat -> (q < el_nip E)%nat ->
    let energy := sumn (el_tdim E) (fun i => sumn (el_tdim E) (fun j => ddot42 (el_tdim E) C A [e;q;i;j] * A [e;q;i;j])) in
    0 <= energy /\ (energy = 0 -> forall i j, (i < el_tdim E)%nat -> (j < el_tdim E)%nat -> A [e;q;i;j] + A [e;q;j;i] = 0).

(** integration points that are not on one line *)
Definition not_on_a_line (nip : nat) (xi : arr) : Prop :=
  forall a b c, (forall q, (q < nip)%nat -> a + b * xi [q;0]%nat + c * xi [q;1]%nat = 0) -> a = 0 /\ b = 0 /\ c = 0.
(** Quad4 and Quad4Planar objects with such points, and positive integration volumes at points where the Jacobian is not zero *)
Inductive full_obj (nelem : nat) : arr -> Elem -> Prop :=
| full_Quad4 nip xi w x Q : Quad4_obj nelem nip xi w x Q -> not_on_a_line nip xi ->
    (forall e q, (e < nelem)%nat -> (q < nip)%nat -> jac2 (nodes x e) (point xi q) <> 0 /\ 0 < q_vol Q [e;q]) -> full_obj nelem x (Quad4_elem Q)
| full_Planar nip xi w thick x P : Planar_obj nelem nip xi w thick x P -> not_on_a_line nip xi ->
    (forall e q, (e < nelem)%nat -> (q < nip)%nat -> jac2 (nodes x e) (point xi q) <> 0 /\ 0 < q_vol (p_base P) [e;q]) -> full_obj nelem x (Planar_elem P).

(** the nodal displacements of element [e] are a (linearised) rigid motion *)
Definition rigid (x u : arr) (e : nat) : Prop :=
  exists s t r : R, forall m, (m < 4)%nat -> u [e;m;0]%nat = s - r * x [e;m;1]%nat /\ u [e;m;1]%nat = t + r * x [e;m;0]%nat.

(** the displacements (node, direction) that are held by the prescribed DOFs: the prescribed ones, and those of the nodes of an element
    which cannot translate because one of its nodes is held in both directions, and cannot rotate because another one is held in
    direction [i], perpendicular to a direction in which the two are at different positions *)
Inductive held (conn dofs : list (list nat)) (iip : list nat) (nelem : nat) (x : arr) : nat -> nat -> Prop :=
| held_prescribed n i : In (idx2 dofs n i) iip -> held conn dofs iip nelem x n i
| held_element e m1 m2 i m j : (e < nelem)%nat -> (m1 < 4)%nat -> (m2 < 4)%nat -> (m < 4)%nat -> (i < 2)%nat -> (j < 2)%nat ->
    held conn dofs iip nelem x (idx2 conn e m1) 0 -> held conn dofs iip nelem x (idx2 conn e m1) 1 -> held conn dofs iip nelem x (idx2 conn e m2) i ->
    x [e; m1; 1 - i]%nat <> x [e; m2; 1 - i]%nat -> held conn dofs iip nelem x (idx2 conn e m) j.
(** the same stiffness at all integration points *)
Definition uniform_stiffness (nelem : nat) (E : Elem) (C : arr) : Prop :=
  exists C0 : nat -> nat -> nat -> nat -> R, all_points nelem E (fun e q i j => forall k l, (k < el_tdim E)%nat -> (l < el_tdim E)%nat -> C [e;q;i;j;k;l] = C0 i j k l).
