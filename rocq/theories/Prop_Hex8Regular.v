(** Properties C12-C15: Hex8::Regular. *)
From Coq Require Import Reals Lra.
From Verif Require Import Base Spec Spec3d Spec_Tiling3 Model_Hex8Regular Proof_Hex8Regular Proof_Hex8RegularTiling.

(** a mesh that meets all hypotheses below *)
Example HexRegular_ex : exists m, 1 <= hx_nelx m /\ 1 <= hx_nely m /\ 1 <= hx_nelz m /\ (0 < hx_h m)%R.
Proof. exists (mkHexRegular 3 2 4 (1/2)). simpl. repeat split; try lia; lra. Qed.

(** C12: positions of the nodes *)
Theorem C12_coor : forall m,
  shape2 (hex_coor m) (hex_nnode m) 3 /\
  hex_nnode m = (hx_nelx m + 1) * (hx_nely m + 1) * (hx_nelz m + 1) /\
  (forall ix iy iz, ix <= hx_nelx m -> iy <= hx_nely m -> iz <= hx_nelz m ->
    node_at3 (hex_coor m) (iz * ((hx_nely m + 1) * (hx_nelx m + 1)) + (iy * (hx_nelx m + 1) + ix))
      (hx_h m * INR ix) (hx_h m * INR iy) (hx_h m * INR iz)) /\
  ((0 < hx_h m)%R ->
    in_domain3 (hex_coor m) (hx_h m * INR (hx_nelx m)) (hx_h m * INR (hx_nely m)) (hx_h m * INR (hx_nelz m))).
Proof.
  exact (fun m => conj (hex_coor_shape m) (conj eq_refl (conj (hex_coor_at m) (hex_in_domain m)))).
Qed.
Print Assumptions C12_coor.

(** C12: connectivity *)
Theorem C12_conn : forall m,
  shape2 (hex_conn m) (hex_nelem m) 8 /\ hex_nelem m = hx_nelx m * hx_nely m * hx_nelz m /\
  (forall ix iy iz, ix < hx_nelx m -> iy < hx_nely m -> iz < hx_nelz m -> exists n0 n1 n2 n3 n4 n5 n6 n7,
    nth_error (hex_conn m) (iz * (hx_nely m * hx_nelx m) + (iy * hx_nelx m + ix)) =
      Some [n0; n1; n2; n3; n4; n5; n6; n7] /\
    node_at3 (hex_coor m) n0 (hx_h m * INR ix) (hx_h m * INR iy) (hx_h m * INR iz) /\
    node_at3 (hex_coor m) n1 (hx_h m * INR (ix + 1)) (hx_h m * INR iy) (hx_h m * INR iz) /\
    node_at3 (hex_coor m) n2 (hx_h m * INR (ix + 1)) (hx_h m * INR (iy + 1)) (hx_h m * INR iz) /\
    node_at3 (hex_coor m) n3 (hx_h m * INR ix) (hx_h m * INR (iy + 1)) (hx_h m * INR iz) /\
    node_at3 (hex_coor m) n4 (hx_h m * INR ix) (hx_h m * INR iy) (hx_h m * INR (iz + 1)) /\
    node_at3 (hex_coor m) n5 (hx_h m * INR (ix + 1)) (hx_h m * INR iy) (hx_h m * INR (iz + 1)) /\
    node_at3 (hex_coor m) n6 (hx_h m * INR (ix + 1)) (hx_h m * INR (iy + 1)) (hx_h m * INR (iz + 1)) /\
    node_at3 (hex_coor m) n7 (hx_h m * INR ix) (hx_h m * INR (iy + 1)) (hx_h m * INR (iz + 1))) /\
  (forall e n, In e (hex_conn m) -> In n e -> n < hex_nnode m) /\
  (1 <= hx_nelx m -> 1 <= hx_nely m -> 1 <= hx_nelz m ->
     forall n, n < hex_nnode m -> exists e, In e (hex_conn m) /\ In n e).
Proof. exact hex_conn_spec. Qed.
Print Assumptions C12_conn.
Example C12_ex : hex_conn (mkHexRegular 1 1 2 1) = [[0;1;3;2;4;5;7;6]; [4;5;7;6;8;9;11;10]].
Proof. reflexivity. Qed.

(** C12: the elements tile the box, without hanging nodes *)
Theorem C12_tiles : forall m, (0 < hx_h m)%R -> 1 <= hx_nelx m -> 1 <= hx_nely m -> 1 <= hx_nelz m ->
  tiles3 (hex_coor m) (hex_conn m) (hx_h m * INR (hx_nelx m)) (hx_h m * INR (hx_nely m)) (hx_h m * INR (hx_nelz m)).
Proof. exact HexRegular_tiles. Qed.
Print Assumptions C12_tiles.

(** C13: boundary sets; each list holds exactly the nodes whose position satisfies the predicate,
    each once *)
Theorem C13_faces : forall m, (0 < hx_h m)%R ->
  let Lx := (hx_h m * INR (hx_nelx m))%R in
  let Ly := (hx_h m * INR (hx_nely m))%R in
  let Lz := (hx_h m * INR (hx_nelz m))%R in
  Forall (fun lP => lists_nodes3 (hex_coor m) (fst lP) (snd lP))
   [ (nodesFront m, fun x y z => z = 0%R); (nodesBack m, fun x y z => z = Lz);
     (nodesLeft m, fun x y z => x = 0%R); (nodesRight m, fun x y z => x = Lx);
     (nodesBottom m, fun x y z => y = 0%R); (nodesTop m, fun x y z => y = Ly) ].
Proof. exact hex_faces. Qed.
Print Assumptions C13_faces.

Theorem C13_open_faces : forall m, (0 < hx_h m)%R ->
  let Lx := (hx_h m * INR (hx_nelx m))%R in
  let Ly := (hx_h m * INR (hx_nely m))%R in
  let Lz := (hx_h m * INR (hx_nelz m))%R in
  Forall (fun lP => lists_nodes3 (hex_coor m) (fst lP) (snd lP))
   [ (nodesFrontFace m, fun x y z => z = 0%R /\ inside Lx x /\ inside Ly y);
     (nodesBackFace m, fun x y z => z = Lz /\ inside Lx x /\ inside Ly y);
     (nodesLeftFace m, fun x y z => x = 0%R /\ inside Ly y /\ inside Lz z);
     (nodesRightFace m, fun x y z => x = Lx /\ inside Ly y /\ inside Lz z);
     (nodesBottomFace m, fun x y z => y = 0%R /\ inside Lx x /\ inside Lz z);
     (nodesTopFace m, fun x y z => y = Ly /\ inside Lx x /\ inside Lz z) ].
Proof. exact hex_open_faces. Qed.
Print Assumptions C13_open_faces.

Theorem C13_edges : forall m, (0 < hx_h m)%R ->
  let Lx := (hx_h m * INR (hx_nelx m))%R in
  let Ly := (hx_h m * INR (hx_nely m))%R in
  let Lz := (hx_h m * INR (hx_nelz m))%R in
  Forall (fun lP => lists_nodes3 (hex_coor m) (fst lP) (snd lP))
   [ (nodesFrontBottomEdge m, fun x y z => z = 0%R /\ y = 0%R); (nodesFrontTopEdge m, fun x y z => z = 0%R /\ y = Ly);
     (nodesFrontLeftEdge m, fun x y z => z = 0%R /\ x = 0%R); (nodesFrontRightEdge m, fun x y z => z = 0%R /\ x = Lx);
     (nodesBackBottomEdge m, fun x y z => z = Lz /\ y = 0%R); (nodesBackTopEdge m, fun x y z => z = Lz /\ y = Ly);
     (nodesBackLeftEdge m, fun x y z => z = Lz /\ x = 0%R); (nodesBackRightEdge m, fun x y z => z = Lz /\ x = Lx);
     (nodesBottomLeftEdge m, fun x y z => y = 0%R /\ x = 0%R); (nodesBottomRightEdge m, fun x y z => y = 0%R /\ x = Lx);
     (nodesTopLeftEdge m, fun x y z => y = Ly /\ x = 0%R); (nodesTopRightEdge m, fun x y z => y = Ly /\ x = Lx) ].
Proof. exact hex_edges. Qed.
Print Assumptions C13_edges.

Theorem C13_open_edges : forall m, (0 < hx_h m)%R ->
  let Lx := (hx_h m * INR (hx_nelx m))%R in
  let Ly := (hx_h m * INR (hx_nely m))%R in
  let Lz := (hx_h m * INR (hx_nelz m))%R in
  Forall (fun lP => lists_nodes3 (hex_coor m) (fst lP) (snd lP))
   [ (nodesFrontBottomOpenEdge m, fun x y z => z = 0%R /\ y = 0%R /\ inside Lx x);
     (nodesFrontTopOpenEdge m, fun x y z => z = 0%R /\ y = Ly /\ inside Lx x);
     (nodesFrontLeftOpenEdge m, fun x y z => z = 0%R /\ x = 0%R /\ inside Ly y);
     (nodesFrontRightOpenEdge m, fun x y z => z = 0%R /\ x = Lx /\ inside Ly y);
     (nodesBackBottomOpenEdge m, fun x y z => z = Lz /\ y = 0%R /\ inside Lx x);
     (nodesBackTopOpenEdge m, fun x y z => z = Lz /\ y = Ly /\ inside Lx x);
     (nodesBackLeftOpenEdge m, fun x y z => z = Lz /\ x = 0%R /\ inside Ly y);
     (nodesBackRightOpenEdge m, fun x y z => z = Lz /\ x = Lx /\ inside Ly y);
     (nodesBottomLeftOpenEdge m, fun x y z => y = 0%R /\ x = 0%R /\ inside Lz z);
     (nodesBottomRightOpenEdge m, fun x y z => y = 0%R /\ x = Lx /\ inside Lz z);
     (nodesTopLeftOpenEdge m, fun x y z => y = Ly /\ x = 0%R /\ inside Lz z);
     (nodesTopRightOpenEdge m, fun x y z => y = Ly /\ x = Lx /\ inside Lz z) ].
Proof. exact hex_open_edges. Qed.
Print Assumptions C13_open_edges.

Theorem C13_corners : forall m,
  let Lx := (hx_h m * INR (hx_nelx m))%R in
  let Ly := (hx_h m * INR (hx_nely m))%R in
  let Lz := (hx_h m * INR (hx_nelz m))%R in
  node_at3 (hex_coor m) nodesFrontBottomLeftCorner 0 0 0 /\ node_at3 (hex_coor m) (nodesFrontBottomRightCorner m) Lx 0 0 /\
  node_at3 (hex_coor m) (nodesFrontTopLeftCorner m) 0 Ly 0 /\ node_at3 (hex_coor m) (nodesFrontTopRightCorner m) Lx Ly 0 /\
  node_at3 (hex_coor m) (nodesBackBottomLeftCorner m) 0 0 Lz /\ node_at3 (hex_coor m) (nodesBackBottomRightCorner m) Lx 0 Lz /\
  node_at3 (hex_coor m) (nodesBackTopLeftCorner m) 0 Ly Lz /\ node_at3 (hex_coor m) (nodesBackTopRightCorner m) Lx Ly Lz.
Proof. exact hex_corners. Qed.
Print Assumptions C13_corners.
Example C13_ex : nodesLeft (mkHexRegular 1 1 1 1) = [0; 2; 4; 6] /\ nodesTopFace (mkHexRegular 3 1 2 1) = [13; 14].
Proof. split; reflexivity. Qed.

(** C14: periodic node pairs *)
Theorem C14_periodic : forall m, 1 <= hx_nelx m -> 1 <= hx_nely m -> 1 <= hx_nelz m -> (0 < hx_h m)%R ->
  periodic_ties3 (hex_coor m) (hx_h m * INR (hx_nelx m)) (hx_h m * INR (hx_nely m)) (hx_h m * INR (hx_nelz m))
    (hex_nodesPeriodic m).
Proof. exact hex_periodic_ties. Qed.
Print Assumptions C14_periodic.
Example C14_ex : hex_nodesPeriodic (mkHexRegular 1 1 1 1) =
  [(0,1); (0,5); (0,4); (0,2); (0,3); (0,7); (0,6)].
Proof. reflexivity. Qed.

(** C15 (3-d): periodic DOFs *)
Theorem C15_dofsPeriodic_hex8 : forall m, 1 <= hx_nelx m -> 1 <= hx_nely m -> 1 <= hx_nelz m -> (0 < hx_h m)%R ->
  exists D, hex_dofsPeriodic m = Ok D /\
    periodic_dofs3 (hex_coor m) (hx_h m * INR (hx_nelx m)) (hx_h m * INR (hx_nely m)) (hx_h m * INR (hx_nelz m))
      3 D (hx_nelx m * hx_nely m * hx_nelz m * 3).
Proof. exact hex_periodic_dofs. Qed.
Print Assumptions C15_dofsPeriodic_hex8.
