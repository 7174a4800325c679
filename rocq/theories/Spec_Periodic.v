(** Specification vocabulary for programs with periodic tyings, in the numbering of the DOFs before it is changed by the tyings. *)
From Coq Require Import Reals.
From Verif Require Import Model_Element Spec_Element Base Spec Sums Spec_Vector Spec_Tyings Model_Vector Model_Pipeline Spec_Pipeline.
Local Open Scope R_scope.

(** a mesh with its own DOFs for every node, pairs (independent node, dependent node), and nodes to be kept in place *)
Record cell (coor : list (list R)) (dofs : list (list nat)) (ties : list (nat * nat)) (fixed : list nat) (nnode ndim : nat) : Prop := {
  cell_coor : Spec.shape2 coor nnode ndim;
  cell_dofs : Spec.shape2 dofs nnode ndim;
  cell_distinct : forall m i n j, (m < nnode)%nat -> (i < ndim)%nat -> (n < nnode)%nat -> (j < ndim)%nat -> idx2 dofs m i = idx2 dofs n j -> m = n /\ i = j;
  cell_ties : wf_ties nnode ties;
  cell_fixed1 : NoDup fixed;
  cell_fixed2 : forall n, In n fixed -> (n < nnode)%nat /\ ~ In n (map snd ties) }.

(** Nodal values of all nodes: those of the mesh, followed by the [ndim] control nodes.  The displacement of control node j is the row
    F_j of a displacement gradient.  Every tied pair (a, b) is displaced as u_b = u_a + F (x_b - x_a). *)
Definition periodic_disp (coor : list (list R)) (ties : list (nat * nat)) (nnode ndim : nat) (u : list (list R)) : Prop :=
  Spec.shape2 u (nnode + ndim) ndim /\
  forall a b j, In (a, b) ties -> (j < ndim)%nat ->
    val2 u b j = val2 u a j + sumn ndim (fun k => val2 u (nnode + j) k * (val2 coor b k - val2 coor a k)).

(** the nodes with prescribed displacement: the fixed nodes and the control nodes *)
Definition prescribed_node (fixed : list nat) (nnode n : nat) : Prop := In n fixed \/ (nnode <= n)%nat.

(** a virtual displacement: periodic, and zero where the displacement is prescribed *)
Definition virtual_disp (coor : list (list R)) (ties : list (nat * nat)) (fixed : list nat) (nnode ndim : nat) (w : list (list R)) : Prop :=
  periodic_disp coor ties nnode ndim w /\
  forall m i, (m < nnode + ndim)%nat -> (i < ndim)%nat -> prescribed_node fixed nnode m -> val2 w m i = 0.

(** work of nodal forces *)
Definition work (n ndim : nat) (f u : list (list R)) : R := sumn n (fun m => sumn ndim (fun i => val2 f m i * val2 u m i)).

(** a connectivity of nelem elements with nne of the nodes each *)
Definition connects (conn : list (list nat)) (nelem nne nnode : nat) : Prop :=
  Spec.shape2 conn nelem nne /\ forall e m, (e < nelem)%nat -> (m < nne)%nat -> (idx2 conn e m < nnode)%nat.

(** a material law that is linear, with stiffness C *)
Definition linear_law (nelem : nat) (E : Elem) (law : arr -> arr) (C : arr) : Prop :=
  forall A, all_points nelem E (fun e q i j => law A [e;q;i;j] = ddot42 (el_tdim E) C A [e;q;i;j]).
