(** Specification: which arrays the functions on meshes take.  Standard library and the types of elements only. *)
From Coq Require Import List Arith Reals.
From Verif Require Import Model_Checked Model_Misc.
Import ListNotations.

(** the type that is given, or the one that the numbers of coordinates and of nodes per element say *)
Definition is_quad4 (ndim nne : nat) (type : option ElementType) : Prop := type = Some Quad4 \/ (type = None /\ ndim = 2 /\ nne = 4).
(** quadrilaterals in two dimensions whose nodes exist (and at least one node) *)
Definition quad_input (coor : array R) (conn : array nat) (type : option ElementType) (nnode nelem : nat) : Prop :=
  a_shape coor = [nnode; 2] /\ a_shape conn = [nelem; 4] /\ is_quad4 2 4 type /\ 0 < nnode /\
  forall e m, e < nelem -> m < 4 -> a_ent conn [e; m] < nnode.
(** one DOF per node and direction, directions never share a DOF *)
Definition dofs_by_direction (dofs : array nat) (nnode ndim : nat) : Prop :=
  a_shape dofs = [nnode; ndim] /\ 0 < ndim /\
  forall m i n j, m < nnode -> n < nnode -> i < ndim -> j < ndim -> a_ent dofs [m; i] = a_ent dofs [n; j] -> i = j.
(** nodes that share a DOF share all of them *)
Definition ties_agree (dofs : array nat) (nnode ndim : nat) : Prop :=
  forall m n i, m < nnode -> n < nnode -> i < ndim -> (a_ent dofs [m; 0] = a_ent dofs [n; 0] <-> a_ent dofs [m; i] = a_ent dofs [n; i]).
(** triangles in two dimensions; whether the nodes exist *)
Definition tri_input (coor : array R) (conn : array nat) (nnode nelem : nat) : Prop := a_shape coor = [nnode; 2] /\ a_shape conn = [nelem; 3].
Definition tri_nodes (conn : array nat) (nnode nelem : nat) : Prop := forall e m, e < nelem -> m < 3 -> a_ent conn [e; m] < nnode.
(** what to compare with: the positions of the nodes of an element *)
Definition corner (coor : array R) (conn : array nat) (e m i : nat) : R := a_ent coor [a_ent conn [e; m]; i].
(** twice the signed area of a triangle (positive: counter-clockwise) *)
Definition area_of (coor : array R) (conn : array nat) (e : nat) : R :=
  ((corner coor conn e 1 0 - corner coor conn e 0 0) * (corner coor conn e 2 1 - corner coor conn e 0 1) -
   (corner coor conn e 2 0 - corner coor conn e 0 0) * (corner coor conn e 1 1 - corner coor conn e 0 1))%R.
(** the largest node in a connectivity is [N - 1] *)
Definition largest_node (conn : array nat) (nelem nne N : nat) : Prop :=
  (forall e m, e < nelem -> m < nne -> a_ent conn [e; m] < N) /\ exists e m, e < nelem /\ m < nne /\ S (a_ent conn [e; m]) = N.
