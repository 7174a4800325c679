(** Specification vocabulary for a strip that is periodic in the horizontal direction. *)
From Coq Require Import Reals List.
From Verif Require Import Base Spec Spec2d Sums Spec_Vector Model_Regular2d Model_FineLayer.
Local Open Scope R_scope.

(** [strip_mesh X C lft rgt bot top Lx Ly]: coor(), conn(), nodesLeftOpenEdge(), nodesRightOpenEdge(), nodesBottomEdge() and nodesTopEdge()
    of a Quad4::Regular or Quad4::FineLayer object, and the size of the rectangle *)
Inductive strip_mesh : list (list R) -> list (list nat) -> list nat -> list nat -> list nat -> list nat -> R -> R -> Prop :=
| strip_Regular m : 0 < hh m -> (1 <= nelx m)%nat -> (1 <= nely m)%nat ->
    strip_mesh (coor m) (conn m) (nodesLeftOpenEdge m) (nodesRightOpenEdge m) (nodesBottomEdge m) (nodesTopEdge m) (hh m * INR (nelx m)) (hh m * INR (nely m))
| strip_FineLayer nelx nely h nfine m X C lft rgt bot top : 0 < h -> (1 <= nelx)%nat -> (1 <= nely)%nat -> FineLayer_init nelx nely h nfine = Some (Ok m) ->
    f_coor m = Ok X -> f_conn m = Ok C -> f_nodesLeftOpenEdge m = Ok lft -> f_nodesRightOpenEdge m = Ok rgt -> f_nodesBottomEdge m = Ok bot -> f_nodesTopEdge m = Ok top ->
    strip_mesh X C lft rgt bot top (h * INR nelx) (h * INR (f_nely m)).

(** [a] is on the left side and [b] is on the right side, at the same height, not at the bottom or the top *)
Definition across (X : list (list R)) (Lx Ly : R) (a b : nat) : Prop := exists y, 0 < y < Ly /\ node_at X a 0 y /\ node_at X b Lx y.
(** the same node, or opposite nodes *)
Definition same_node (X : list (list R)) (Lx Ly : R) (a b : nat) : Prop := a = b \/ across X Lx Ly a b \/ across X Lx Ly b a.
(** at the bottom or at the top *)
Definition at_bottom (X : list (list R)) (n : nat) : Prop := exists x, node_at X n x 0.
Definition at_top (X : list (list R)) (Ly : R) (n : nat) : Prop := exists x, node_at X n x Ly.
