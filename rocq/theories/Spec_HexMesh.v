(** Specification vocabulary for bodies in three dimensions: boxes, rigid motions. *)
From Coq Require Import Reals List.
From Verif Require Import Model_Element Spec_Element Base Spec Spec3d Sums Spec_Vector Spec_Matrix Model_Vector Model_Hex8Regular Model_Pipeline Spec_Pipeline Spec_Macro.
Import ListNotations.
Local Open Scope R_scope.

(** the rules of Hex8 *)
Inductive full_rule3 : nat -> arr -> arr -> Prop :=
| rule_Gauss8 j j' : full_rule3 8 (Gauss8_xi j) (Gauss8_w j')
| rule_Nodal8 j j' : full_rule3 8 (Nodal8_xi j) (Gauss8_w j').

(** Hex8 objects with such a rule, of which the elements are boxes with edges along the axes: centre c, half of the edges s *)
Inductive box_obj (nelem : nat) : arr -> Elem -> Prop :=
| box_Hex8 nip xi w x Q : full_rule3 nip xi w -> Hex8_obj nelem nip xi w x Q ->
    (forall e, (e < nelem)%nat -> exists c s, (forall i, (i < 3)%nat -> 0 < s i) /\ forall m i, (m < 8)%nat -> (i < 3)%nat -> x [e;m;i] = c i + s i * corner3 m i) ->
    box_obj nelem x (Hex8_elem Q).

(** component [i] of the (linearised) rigid motion t + r x p of the point [p]: translation [t], rotation [r] *)
Definition rigid_motion (t r p : nat -> R) (i : nat) : R :=
  match i with
  | 0%nat => t 0%nat + (r 1%nat * p 2%nat - r 2%nat * p 1%nat)
  | 1%nat => t 1%nat + (r 2%nat * p 0%nat - r 0%nat * p 2%nat)
  | _ => t 2%nat + (r 0%nat * p 1%nat - r 1%nat * p 0%nat)
  end.

(** the nodes of element [e] move as a rigid body *)
Definition rigid3 (x u : arr) (e : nat) : Prop :=
  exists t r, forall m i, (m < 8)%nat -> (i < 3)%nat -> u [e;m;i] = rigid_motion t r (fun k => x [e;m;k]) i.

(** the rigid motion of the nodes that the DOFs allow: nodes that share a DOF move together, and prescribed DOFs do not move *)
Definition allowed_motion (X : list (list R)) (dofs : list (list nat)) (iip : list nat) (nnode : nat) (t r : nat -> R) : Prop :=
  (forall n i n' i', (n < nnode)%nat -> (i < 3)%nat -> (n' < nnode)%nat -> (i' < 3)%nat -> idx2 dofs n i = idx2 dofs n' i' ->
     rigid_motion t r (val2 X n) i = rigid_motion t r (val2 X n') i') /\
  (forall n i, (n < nnode)%nat -> (i < 3)%nat -> In (idx2 dofs n i) iip -> rigid_motion t r (val2 X n) i = 0).
(** a body that is held: it can only stay where it is *)
Definition restrained (X : list (list R)) (dofs : list (list nat)) (iip : list nat) (nnode : nat) : Prop :=
  forall t r, allowed_motion X dofs iip nnode t r -> forall n i, (n < nnode)%nat -> (i < 3)%nat -> rigid_motion t r (val2 X n) i = 0.

(** a body on a Mesh::Hex8::Regular: a Hex8 object with the coordinates of the mesh *)
Inductive hex_body (m : HexRegular) : arr -> Elem -> Prop :=
| body_Hex8 nip xi w x Q : full_rule3 nip xi w -> coordinates (hex_conn m) (hex_nelem m) 8 3 (hex_coor m) x -> Hex8_obj (hex_nelem m) nip xi w x Q ->
    hex_body m x (Hex8_elem Q).

(** the nodes of the six faces *)
Definition face_node (m : HexRegular) (n : nat) : Prop :=
  In n (nodesFront m) \/ In n (nodesBack m) \/ In n (nodesLeft m) \/ In n (nodesRight m) \/ In n (nodesBottom m) \/ In n (nodesTop m).

(** the nodal displacement a + G . X, in three dimensions *)
Definition affine_field3 (nnode : nat) (X : list (list R)) (a : nat -> R) (G : nat -> nat -> R) (u : list (list R)) : Prop :=
  Spec.shape2 u nnode 3 /\ forall n i, (n < nnode)%nat -> (i < 3)%nat -> val2 u n i = a i + sumn 3 (fun j => G i j * val2 X n j).

(** a mesh with at least one element, of positive size *)
Definition hex_mesh (m : HexRegular) : Prop := 0 < hx_h m /\ (1 <= hx_nelx m)%nat /\ (1 <= hx_nely m)%nat /\ (1 <= hx_nelz m)%nat.
