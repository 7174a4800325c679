(** The planar meshes of quadrilaterals of the library, with what their methods return. *)
From Coq Require Import Reals List.
From Verif Require Import Model_Element Spec_Element Base Spec Spec2d Sums Spec_Vector Model_Numbering Model_Regular2d Model_FineLayer Model_Pipeline Spec_Pipeline Spec_Patch Spec_Divergence.

(** [quad_mesh X C ties bot rgt top lft Lx Ly]: coor(), conn(), nodesPeriodic(), nodesBottomEdge(), nodesRightEdge(), nodesTopEdge() and
    nodesLeftEdge() of a Quad4::Regular or Quad4::FineLayer object, and the size of the rectangle *)
Inductive quad_mesh : list (list R) -> list (list nat) -> list (nat * nat) -> list nat -> list nat -> list nat -> list nat -> R -> R -> Prop :=
| mesh_Regular m : (0 < hh m)%R -> 1 <= nelx m -> 1 <= nely m ->
    quad_mesh (coor m) (conn m) (nodesPeriodic m) (nodesBottomEdge m) (nodesRightEdge m) (nodesTopEdge m) (nodesLeftEdge m) (hh m * INR (nelx m)) (hh m * INR (nely m))
| mesh_FineLayer nelx nely h nfine m X C ties bot rgt top lft : (0 < h)%R -> 1 <= nelx -> 1 <= nely -> FineLayer_init nelx nely h nfine = Some (Ok m) ->
    f_coor m = Ok X -> f_conn m = Ok C -> f_nodesPeriodic m = Ok ties ->
    f_nodesBottomEdge m = Ok bot -> f_nodesRightEdge m = Ok rgt -> f_nodesTopEdge m = Ok top -> f_nodesLeftEdge m = Ok lft ->
    quad_mesh X C ties bot rgt top lft (h * INR nelx) (h * INR (f_nely m)).

(** a body on a mesh: a Quad4 object (thickness 1) or a Quad4Planar object, with a rule of four points, with the coordinates of the mesh *)
Inductive mesh_body (X : list (list R)) (C : list (list nat)) : R -> arr -> Elem -> Prop :=
| body_Quad4 nip xi w x Q : full_rule nip xi w -> on_mesh C (length C) X x -> Quad4_obj (length C) nip xi w x Q -> mesh_body X C 1 x (Quad4_elem Q)
| body_Planar nip xi w thick x P : (0 < thick)%R -> full_rule nip xi w -> on_mesh C (length C) X x -> Planar_obj (length C) nip xi w thick x P -> mesh_body X C thick x (Planar_elem P).
