(** Properties C06-C11 and C15 (2-d): Quad4::Regular and Tri3::Regular. *)
From Coq Require Import Reals ZArith Lra.
From Verif Require Import Base Spec Spec2d Model_Numbering Model_Regular2d Proof_Regular2d.

(** a mesh that meets all hypotheses below *)
Example Regular_ex : exists m, nelx m = 3 /\ 1 <= nelx m /\ 1 <= nely m /\ (0 < hh m)%R.
Proof. exists (mkRegular 3 2 (1/2)). simpl. repeat split; try lia; lra. Qed.

(** C06: shapes, and positions of the nodes *)
Theorem C06_coor : forall m,
  shape2 (coor m) (nnode m) 2 /\ nnode m = (nelx m + 1) * (nely m + 1) /\
  forall ix iy, ix <= nelx m -> iy <= nely m ->
    node_at (coor m) (iy * (nelx m + 1) + ix) (hh m * INR ix) (hh m * INR iy).
Proof. exact (fun m => conj (coor_shape m) (conj eq_refl (coor_at m))). Qed.
Print Assumptions C06_coor.

(** C06: element (ix, iy) has the corners of its cell as nodes, counter-clockwise from the bottom-left *)
Theorem C06_conn : forall m,
  shape2 (conn m) (nelem m) 4 /\ nelem m = nelx m * nely m /\
  (forall ix iy, ix < nelx m -> iy < nely m -> exists n0 n1 n2 n3,
    nth_error (conn m) (iy * nelx m + ix) = Some [n0; n1; n2; n3] /\
    node_at (coor m) n0 (hh m * INR ix) (hh m * INR iy) /\
    node_at (coor m) n1 (hh m * INR (ix + 1)) (hh m * INR iy) /\
    node_at (coor m) n2 (hh m * INR (ix + 1)) (hh m * INR (iy + 1)) /\
    node_at (coor m) n3 (hh m * INR ix) (hh m * INR (iy + 1))) /\
  (forall e n, In e (conn m) -> In n e -> n < nnode m) /\
  (1 <= nelx m -> 1 <= nely m -> forall n, n < nnode m -> exists e, In e (conn m) /\ In n e).
Proof. exact conn_spec. Qed.
Print Assumptions C06_conn.
Example C06_conn_ex : conn (mkRegular 2 2 1) = [[0;1;4;3]; [1;2;5;4]; [3;4;7;6]; [4;5;8;7]].
Proof. reflexivity. Qed.

(** C06: no two nodes coincide and all lie in the domain *)
Theorem C06_domain : forall m, (0 < hh m)%R ->
  in_domain (coor m) (hh m * INR (nelx m)) (hh m * INR (nely m)).
Proof. exact Regular_in_domain. Qed.
Print Assumptions C06_domain.

(** C07: boundary node sets *)
Theorem C07_boundary_quad4 : forall m, 1 <= nelx m -> 1 <= nely m -> (0 < hh m)%R ->
  boundary_sets (coor m) (hh m * INR (nelx m)) (hh m * INR (nely m))
    (nodesBottomEdge m) (nodesTopEdge m) (nodesLeftEdge m) (nodesRightEdge m)
    (nodesBottomOpenEdge m) (nodesTopOpenEdge m) (nodesLeftOpenEdge m) (nodesRightOpenEdge m)
    (nodesBottomLeftCorner m) (nodesBottomRightCorner m) (nodesTopLeftCorner m) (nodesTopRightCorner m).
Proof. exact Regular_boundary_sets. Qed.
Print Assumptions C07_boundary_quad4.

Theorem C07_boundary_tri3 : forall m, 1 <= nelx m -> 1 <= nely m -> (0 < hh m)%R ->
  boundary_sets (tri_coor m) (hh m * INR (nelx m)) (hh m * INR (nely m))
    (tri_nodesBottomEdge m) (tri_nodesTopEdge m) (tri_nodesLeftEdge m) (tri_nodesRightEdge m)
    (tri_nodesBottomOpenEdge m) (tri_nodesTopOpenEdge m) (tri_nodesLeftOpenEdge m) (tri_nodesRightOpenEdge m)
    (tri_nodesBottomLeftCorner m) (tri_nodesBottomRightCorner m) (tri_nodesTopLeftCorner m) (tri_nodesTopRightCorner m).
Proof. exact tri_boundary_sets. Qed.
Print Assumptions C07_boundary_tri3.
Example C07_ex : nodesTopEdge (mkRegular 3 1 1) = [4; 5; 6; 7] /\ nodesTopOpenEdge (mkRegular 3 1 1) = [5; 6].
Proof. split; reflexivity. Qed.

(** C08: periodic node pairs *)
Theorem C08_periodic_quad4 : forall m, 1 <= nelx m -> 1 <= nely m -> (0 < hh m)%R ->
  periodic_ties (coor m) (hh m * INR (nelx m)) (hh m * INR (nely m)) (nodesPeriodic m).
Proof. exact Regular_periodic_ties. Qed.
Print Assumptions C08_periodic_quad4.

Theorem C08_periodic_tri3 : forall m, 1 <= nelx m -> 1 <= nely m -> (0 < hh m)%R ->
  periodic_ties (tri_coor m) (hh m * INR (nelx m)) (hh m * INR (nely m)) (tri_nodesPeriodic m).
Proof. exact tri_periodic_ties. Qed.
Print Assumptions C08_periodic_tri3.
Example C08_ex : nodesPeriodic (mkRegular 2 2 1) = [(0, 2); (0, 8); (0, 6); (1, 7); (3, 5)].
Proof. reflexivity. Qed.

(** C09: [elementgrid] *)
Theorem C09_elementgrid : forall m,
  shape2 (elementgrid m) (nely m) (nelx m) /\
  (forall ix iy, ix < nelx m -> iy < nely m -> exists e n0 n1 n2 n3,
      at2 (elementgrid m) iy ix = Some e /\ nth_error (conn m) e = Some [n0; n1; n2; n3] /\
      node_at (coor m) n0 (hh m * INR ix) (hh m * INR iy) /\
      node_at (coor m) n2 (hh m * INR (ix + 1)) (hh m * INR (iy + 1))) /\
  concat (elementgrid m) = seq 0 (nelem m).
Proof. exact elementgrid_spec. Qed.
Print Assumptions C09_elementgrid.
Example C09_ex : elementgrid (mkRegular 3 2 1) = [[0; 1; 2]; [3; 4; 5]].
Proof. reflexivity. Qed.

(** C09: every point of the domain is in exactly one (half-open) element *)
Theorem C09_tiling : forall m x y, (0 < hh m)%R ->
  (0 <= x < hh m * INR (nelx m))%R -> (0 <= y < hh m * INR (nely m))%R ->
  exists! k, exists n0 n1 n2 n3 x0 y0 x1 y1, nth_error (conn m) k = Some [n0; n1; n2; n3] /\
    node_at (coor m) n0 x0 y0 /\ node_at (coor m) n1 x1 y0 /\
    node_at (coor m) n2 x1 y1 /\ node_at (coor m) n3 x0 y1 /\
    (x0 <= x < x1)%R /\ (y0 <= y < y1)%R.
Proof. exact Regular_tiling. Qed.
Print Assumptions C09_tiling.

(** C09: areas *)
Theorem C09_area : forall m,
  (forall e, In e (conn m) -> element_area (coor m) e = (hh m * hh m)%R) /\
  sumR (map (element_area (coor m)) (conn m)) = ((hh m * INR (nelx m)) * (hh m * INR (nely m)))%R.
Proof. exact (fun m => conj (conn_area m) (total_area m)). Qed.
Print Assumptions C09_area.

(** C10: Tri3 *)
Theorem C10_tri3 : forall m,
  shape2 (tri_coor m) (tri_nnode m) 2 /\ tri_nnode m = (nelx m + 1) * (nely m + 1) /\
  shape2 (tri_conn m) (tri_nelem m) 3 /\ tri_nelem m = nelx m * nely m * 2 /\
  (forall ix iy, ix < nelx m -> iy < nely m -> exists n0 n1 n2 n3,
    nth_error (tri_conn m) ((iy * nelx m + ix) * 2) = Some [n0; n1; n3] /\
    nth_error (tri_conn m) ((iy * nelx m + ix) * 2 + 1) = Some [n1; n2; n3] /\
    node_at (tri_coor m) n0 (hh m * INR ix) (hh m * INR iy) /\
    node_at (tri_coor m) n1 (hh m * INR (ix + 1)) (hh m * INR iy) /\
    node_at (tri_coor m) n2 (hh m * INR (ix + 1)) (hh m * INR (iy + 1)) /\
    node_at (tri_coor m) n3 (hh m * INR ix) (hh m * INR (iy + 1))) /\
  (forall e, In e (tri_conn m) -> exists x0 y0 x1 y1 x2 y2,
     triangle (tri_coor m) e x0 y0 x1 y1 x2 y2 /\ (area2 x0 y0 x1 y1 x2 y2 / 2 = hh m * hh m / 2)%R) /\
  (forall e n, In e (tri_conn m) -> In n e -> n < tri_nnode m) /\
  (1 <= nelx m -> 1 <= nely m -> forall n, n < tri_nnode m -> exists e, In e (tri_conn m) /\ In n e).
Proof. exact tri_spec. Qed.
Print Assumptions C10_tri3.
Example C10_ex : tri_conn (mkRegular 2 1 1) = [[0;1;3]; [1;4;3]; [1;2;4]; [2;5;4]].
Proof. reflexivity. Qed.

(** C11: [getOrientation] is -1 exactly for counter-clockwise triangles *)
Theorem C11_getOrientation : forall X C,
  (forall e, In e C -> exists x0 y0 x1 y1 x2 y2, triangle X e x0 y0 x1 y1 x2 y2) ->
  exists val, getOrientation X C = Ok val /\ length val = length C /\
   forall k e v x0 y0 x1 y1 x2 y2,
     nth_error C k = Some e -> nth_error val k = Some v -> triangle X e x0 y0 x1 y1 x2 y2 ->
     (v = -1 \/ v = 1)%Z /\ (v = (-1)%Z <-> (0 < area2 x0 y0 x1 y1 x2 y2)%R).
Proof. exact getOrientation_thm. Qed.
Print Assumptions C11_getOrientation.

(** C11: [setOrientation] keeps the nodes of each triangle, gives every non-degenerate triangle the
    requested orientation and leaves those that have it unchanged *)
Theorem C11_setOrientation : forall X C o, (o = 1 \/ o = -1)%Z ->
  (forall e, In e C -> exists x0 y0 x1 y1 x2 y2, triangle X e x0 y0 x1 y1 x2 y2) ->
  exists C', setOrientation X C o = Ok C' /\ length C' = length C /\
   (forall k e e', nth_error C k = Some e -> nth_error C' k = Some e' -> Permutation e e') /\
   (forall k e e' x0 y0 x1 y1 x2 y2 x0' y0' x1' y1' x2' y2',
     nth_error C k = Some e -> nth_error C' k = Some e' ->
     triangle X e x0 y0 x1 y1 x2 y2 -> triangle X e' x0' y0' x1' y1' x2' y2' ->
     area2 x0 y0 x1 y1 x2 y2 <> 0%R ->
     (o = (-1)%Z <-> (0 < area2 x0' y0' x1' y1' x2' y2')%R) /\
     ((o = (-1)%Z <-> (0 < area2 x0 y0 x1 y1 x2 y2)%R) -> e' = e)).
Proof. exact setOrientation_thm. Qed.
Print Assumptions C11_setOrientation.
Example C11_ex : exists X C, In [0; 1; 2] C /\
  (forall e, In e C -> exists x0 y0 x1 y1 x2 y2, triangle X e x0 y0 x1 y1 x2 y2 /\
                                                 area2 x0 y0 x1 y1 x2 y2 <> 0%R).
Proof.
  exists [[0; 0]; [1; 0]; [0; 1]]%R, [[0; 1; 2]; [0; 2; 1]]. split; [now left|].
  intros e [<-|[<-|[]]].
  - exists 0%R, 0%R, 1%R, 0%R, 0%R, 1%R. split; [|unfold area2; lra]. exists 0, 1, 2. repeat split.
  - exists 0%R, 0%R, 0%R, 1%R, 1%R, 0%R. split; [|unfold area2; lra]. exists 0, 2, 1. repeat split.
Qed.

(** C15 (2-d): periodic DOFs *)
Theorem C15_dofsPeriodic_quad4 : forall m, 1 <= nelx m -> 1 <= nely m -> (0 < hh m)%R -> exists D,
  Regular_dofsPeriodic m = Ok D /\
  periodic_dofs (coor m) (hh m * INR (nelx m)) (hh m * INR (nely m)) 2 D (nelx m * nely m * 2).
Proof. exact Regular_periodic_dofs. Qed.
Print Assumptions C15_dofsPeriodic_quad4.

Theorem C15_dofsPeriodic_tri3 : forall m, 1 <= nelx m -> 1 <= nely m -> (0 < hh m)%R -> exists D,
  tri_dofsPeriodic m = Ok D /\
  periodic_dofs (tri_coor m) (hh m * INR (nelx m)) (hh m * INR (nely m)) 2 D (nelx m * nely m * 2).
Proof. exact tri_periodic_dofs. Qed.
Print Assumptions C15_dofsPeriodic_tri3.
Example C15_ex : Regular_dofsPeriodic (mkRegular 2 1 1) =
  Ok [[0;1]; [2;3]; [0;1]; [0;1]; [2;3]; [0;1]].
Proof. reflexivity. Qed.
