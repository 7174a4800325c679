(** Properties C25-C27 and C78: Hex8::FineLayer. *)
From Coq Require Import Reals ZArith Lra.
From Verif Require Import Base Spec Spec3d Spec_FineLayer Spec_FineLayer3 Spec_Tiling3 Model_Numbering Model_Regular2d Model_FineLayer Model_Hex8Regular Model_Hex8FineLayer Proof_Hex8FineLayerThm Proof_Hex8FineLayerWitness.

(** a mesh with refinement layers in both directions that meets all hypotheses below *)
Example HexFineLayer_ex : forall h, match HexFineLayer_init 3 17 3 h 1 with Some (Ok m) =>
  g_refine m = [-1; 2; 0; -1; -1; -1; -1; -1; 0; 2; -1]%Z /\ g_nhx m = [3; 3; 3; 1; 1; 1; 1; 1; 3; 3; 3] /\
  g_nhy m = [3; 2; 2; 1; 1; 1; 1; 1; 2; 2; 3] /\ g_nhz m = [3; 3; 1; 1; 1; 1; 1; 1; 1; 3; 3] /\
  g_nnode m = 152 /\ g_nelem m = 79 | _ => False end.
Proof. intros h. vm_compute. repeat split. Qed.

(** C25: the constructor terminates, and reads and writes no entry outside its arrays *)
Theorem C25_terminates : forall nelx nely nelz h nfine, 1 <= nelx -> 1 <= nely -> 1 <= nelz ->
  exists m, HexFineLayer_init nelx nely nelz h nfine = Some (Ok m).
Proof. exact T3_terminates. Qed.
Print Assumptions C25_terminates.

(** C25: the layers *)
Theorem C25_layers : forall nelx nely nelz nfine h m, 1 <= nelx -> 1 <= nely -> 1 <= nelz ->
  HexFineLayer_init nelx nely nelz h nfine = Some (Ok m) ->
  g_h m = h /\ g_nelx m = nelx /\ g_nelz m = nelz /\
  (exists c, layer_structure3 nelx nely nelz nfine c (g_nhx m) (g_nhy m) (g_nhz m) (g_layer_nelx m) (g_layer_nelz m) (g_refine m)) /\
  g_nely m = total (g_nhy m) /\ nely <= g_nely m + 1 /\ (Nat.Odd nely -> nely <= g_nely m) /\
  ((forall t, In t (g_refine m) -> t = (-1)%Z) -> g_nely m = (nely + 1) / 2 * 2 - 1).
Proof. exact T3_structure. Qed.
Print Assumptions C25_layers.
(** refinement in one direction only, and without room *)
Example C25_ex : forall h, match HexFineLayer_init 2 17 9 h 1, HexFineLayer_init 2 4 2 h 1 with Some (Ok m), Some (Ok m') =>
  g_refine m = [-1; -1; 2; -1; -1; -1; -1; -1; 2; -1; -1]%Z /\ g_nhy m = [3; 3; 2; 1; 1; 1; 1; 1; 2; 3; 3] /\ g_nely m' = 3 | _, _ => False end.
Proof. intros h. vm_compute. repeat split. Qed.

(** C25: [coor] and [conn] fill their arrays, [conn] is in range, and every node is used *)
Theorem C25_mesh : forall nelx nely nelz nfine h m, 1 <= nelx -> 1 <= nely -> 1 <= nelz ->
  HexFineLayer_init nelx nely nelz h nfine = Some (Ok m) ->
  exists X C, g_coor m = Ok X /\ g_conn m = Ok C /\ shape2 X (g_nnode m) 3 /\ shape2 C (g_nelem m) 8 /\
    (forall e p, In e C -> In p e -> p < g_nnode m) /\ (forall p, p < g_nnode m -> exists e, In e C /\ In p e).
Proof. exact T3_mesh. Qed.
Print Assumptions C25_mesh.
Example C25_ex_conn : forall h, match HexFineLayer_init 3 9 2 h 1 with Some (Ok m) => match g_conn m with
  | Ok C => firstn 5 C = [[0; 1; 7; 6; 2; 3; 9; 8]; [1; 15; 14; 7; 3; 19; 18; 9]; [6; 7; 14; 13; 8; 9; 18; 17]; [0; 6; 13; 12; 2; 8; 17; 16]; [2; 3; 9; 8; 4; 5; 11; 10]]
  | _ => False end | _ => False end.
Proof. intros h. vm_compute. repeat split. Qed.

(** C26: the elements tile the domain, without hanging nodes *)
Theorem C26_tiles : forall nelx nely nelz nfine h m, 1 <= nelx -> 1 <= nely -> 1 <= nelz ->
  HexFineLayer_init nelx nely nelz h nfine = Some (Ok m) -> (0 < h)%R ->
  exists X C, g_coor m = Ok X /\ g_conn m = Ok C /\
    tiles3 X C (h * INR nelx) (h * INR (g_nely m)) (h * INR nelz) /\ in_domain3 X (h * INR nelx) (h * INR (g_nely m)) (h * INR nelz).
Proof. exact T3_geometry. Qed.
Print Assumptions C26_tiles.

(** C26: the elements of the middle layer: fine cubes, in the order of their position, at the middle height *)
Theorem C26_middle : forall nelx nely nelz nfine h m, 1 <= nelx -> 1 <= nely -> 1 <= nelz ->
  HexFineLayer_init nelx nely nelz h nfine = Some (Ok m) ->
  exists X C l, g_coor m = Ok X /\ g_conn m = Ok C /\ g_elementsMiddleLayer m = Ok l /\ length l = nelx * nelz /\
    (forall i e, nth_error l i = Some e -> exists E, nth_error C e = Some E /\
       cube_at X E (h * INR (i mod nelx)) (h * INR ((g_nely m - 1) / 2)) (h * INR (i / nelx)) h).
Proof. exact T3_middle. Qed.
Print Assumptions C26_middle.
Example C26_ex : forall h, match HexFineLayer_init 3 9 2 h 1 with Some (Ok m) => g_elementsMiddleLayer m = Ok [20; 21; 22; 23; 24; 25] | _ => False end.
Proof. intros h. vm_compute. repeat split. Qed.

(** C27: the boundary node sets: exactly the nodes whose position satisfies the predicate, each once *)
Theorem C27_faces : forall nelx nely nelz nfine h m, 1 <= nelx -> 1 <= nely -> 1 <= nelz ->
  HexFineLayer_init nelx nely nelz h nfine = Some (Ok m) -> (0 < h)%R ->
  exists X, g_coor m = Ok X /\ Forall (fun lP => exists l, fst lP = Ok l /\ lists_nodes3 X l (snd lP))
    [ (g_nodesFront m, fun x y z => z = 0%R); (g_nodesBack m, fun x y z => z = (h * INR nelz)%R);
      (g_nodesLeft m, fun x y z => x = 0%R); (g_nodesRight m, fun x y z => x = (h * INR nelx)%R);
      (g_nodesBottom m, fun x y z => y = 0%R); (g_nodesTop m, fun x y z => y = (h * INR (g_nely m))%R) ].
Proof. exact T3_faces. Qed.
Print Assumptions C27_faces.
Example C27_ex : forall h, match HexFineLayer_init 3 9 2 h 1 with Some (Ok m) =>
  g_nodesFront m = Ok [0; 1; 6; 7; 12; 13; 14; 15; 24; 25; 26; 27; 36; 37; 38; 39; 48; 49; 50; 51; 60; 61; 62; 63; 72; 73; 74; 75; 84; 85; 90; 91] /\
  g_nodesBottom m = Ok [0; 2; 4; 1; 3; 5] /\ g_nodesBackLeftEdge m = Ok [4; 20; 32; 44; 56; 68; 80; 94] | _ => False end.
Proof. intros h. vm_compute. repeat split. Qed.

Theorem C27_edges : forall nelx nely nelz nfine h m, 1 <= nelx -> 1 <= nely -> 1 <= nelz ->
  HexFineLayer_init nelx nely nelz h nfine = Some (Ok m) -> (0 < h)%R ->
  exists X, g_coor m = Ok X /\
  let Lx := (h * INR nelx)%R in let Ly := (h * INR (g_nely m))%R in let Lz := (h * INR nelz)%R in
  Forall (fun lP => exists l, fst lP = Ok l /\ lists_nodes3 X l (snd lP))
   [ (g_nodesFrontBottomEdge m, fun x y z => z = 0%R /\ y = 0%R); (g_nodesFrontTopEdge m, fun x y z => z = 0%R /\ y = Ly);
     (g_nodesFrontLeftEdge m, fun x y z => z = 0%R /\ x = 0%R); (g_nodesFrontRightEdge m, fun x y z => z = 0%R /\ x = Lx);
     (g_nodesBackBottomEdge m, fun x y z => z = Lz /\ y = 0%R); (g_nodesBackTopEdge m, fun x y z => z = Lz /\ y = Ly);
     (g_nodesBackLeftEdge m, fun x y z => z = Lz /\ x = 0%R); (g_nodesBackRightEdge m, fun x y z => z = Lz /\ x = Lx);
     (g_nodesBottomLeftEdge m, fun x y z => y = 0%R /\ x = 0%R); (g_nodesBottomRightEdge m, fun x y z => y = 0%R /\ x = Lx);
     (g_nodesTopLeftEdge m, fun x y z => y = Ly /\ x = 0%R); (g_nodesTopRightEdge m, fun x y z => y = Ly /\ x = Lx) ].
Proof. exact T3_edges. Qed.
Print Assumptions C27_edges.

Theorem C27_open_edges : forall nelx nely nelz nfine h m, 1 <= nelx -> 1 <= nely -> 1 <= nelz ->
  HexFineLayer_init nelx nely nelz h nfine = Some (Ok m) -> (0 < h)%R ->
  exists X, g_coor m = Ok X /\
  let Lx := (h * INR nelx)%R in let Ly := (h * INR (g_nely m))%R in let Lz := (h * INR nelz)%R in
  Forall (fun lP => exists l, fst lP = Ok l /\ lists_nodes3 X l (snd lP))
   [ (g_nodesFrontBottomOpenEdge m, fun x y z => z = 0%R /\ y = 0%R /\ inside Lx x);
     (g_nodesFrontTopOpenEdge m, fun x y z => z = 0%R /\ y = Ly /\ inside Lx x);
     (g_nodesFrontLeftOpenEdge m, fun x y z => z = 0%R /\ x = 0%R /\ inside Ly y);
     (g_nodesFrontRightOpenEdge m, fun x y z => z = 0%R /\ x = Lx /\ inside Ly y);
     (g_nodesBackBottomOpenEdge m, fun x y z => z = Lz /\ y = 0%R /\ inside Lx x);
     (g_nodesBackTopOpenEdge m, fun x y z => z = Lz /\ y = Ly /\ inside Lx x);
     (g_nodesBackLeftOpenEdge m, fun x y z => z = Lz /\ x = 0%R /\ inside Ly y);
     (g_nodesBackRightOpenEdge m, fun x y z => z = Lz /\ x = Lx /\ inside Ly y);
     (g_nodesBottomLeftOpenEdge m, fun x y z => y = 0%R /\ x = 0%R /\ inside Lz z);
     (g_nodesBottomRightOpenEdge m, fun x y z => y = 0%R /\ x = Lx /\ inside Lz z);
     (g_nodesTopLeftOpenEdge m, fun x y z => y = Ly /\ x = 0%R /\ inside Lz z);
     (g_nodesTopRightOpenEdge m, fun x y z => y = Ly /\ x = Lx /\ inside Lz z) ].
Proof. exact T3_open_edges. Qed.
Print Assumptions C27_open_edges.

Theorem C27_corners : forall nelx nely nelz nfine h m, 1 <= nelx -> 1 <= nely -> 1 <= nelz ->
  HexFineLayer_init nelx nely nelz h nfine = Some (Ok m) ->
  exists X, g_coor m = Ok X /\
  let Lx := (h * INR nelx)%R in let Ly := (h * INR (g_nely m))%R in let Lz := (h * INR nelz)%R in
  Forall (fun cP => exists p, fst cP = Ok p /\ match snd cP with (x, y, z) => node_at3 X p x y z end)
   [ (g_nodesFrontBottomLeftCorner m, (0, 0, 0)%R); (g_nodesFrontBottomRightCorner m, (Lx, 0, 0)%R);
     (g_nodesFrontTopLeftCorner m, (0, Ly, 0)%R); (g_nodesFrontTopRightCorner m, (Lx, Ly, 0)%R);
     (g_nodesBackBottomLeftCorner m, (0, 0, Lz)%R); (g_nodesBackBottomRightCorner m, (Lx, 0, Lz)%R);
     (g_nodesBackTopLeftCorner m, (0, Ly, Lz)%R); (g_nodesBackTopRightCorner m, (Lx, Ly, Lz)%R) ].
Proof. exact T3_corners. Qed.
Print Assumptions C27_corners.

(** C27: the faces without their edges.  What the code guarantees: the faces at the front and back are complete if the outermost
    layers are not refined in x-direction, those left and right if these are not refined in z-direction ... *)
Theorem C27_open_faces_frontback : forall nelx nely nelz nfine h m, 1 <= nelx -> 1 <= nely -> 1 <= nelz ->
  HexFineLayer_init nelx nely nelz h nfine = Some (Ok m) -> (0 < h)%R -> nth_error (g_refine m) 0 <> Some 0%Z ->
  exists X, g_coor m = Ok X /\
  let Lx := (h * INR nelx)%R in let Ly := (h * INR (g_nely m))%R in let Lz := (h * INR nelz)%R in
  Forall (fun lP => exists l, fst lP = Ok l /\ lists_nodes3 X l (snd lP))
   [ (g_nodesFrontFace m, fun x y z => z = 0%R /\ inside Lx x /\ inside Ly y);
     (g_nodesBackFace m, fun x y z => z = Lz /\ inside Lx x /\ inside Ly y) ].
Proof. exact T3_open_faces_x. Qed.
Print Assumptions C27_open_faces_frontback.
Theorem C27_open_faces_leftright : forall nelx nely nelz nfine h m, 1 <= nelx -> 1 <= nely -> 1 <= nelz ->
  HexFineLayer_init nelx nely nelz h nfine = Some (Ok m) -> (0 < h)%R -> nth_error (g_refine m) 0 <> Some 2%Z ->
  exists X, g_coor m = Ok X /\
  let Lx := (h * INR nelx)%R in let Ly := (h * INR (g_nely m))%R in let Lz := (h * INR nelz)%R in
  Forall (fun lP => exists l, fst lP = Ok l /\ lists_nodes3 X l (snd lP))
   [ (g_nodesLeftFace m, fun x y z => x = 0%R /\ inside Ly y /\ inside Lz z);
     (g_nodesRightFace m, fun x y z => x = Lx /\ inside Ly y /\ inside Lz z) ].
Proof. exact T3_open_faces_z. Qed.
Print Assumptions C27_open_faces_leftright.
Example C27_ex_open : forall h, match HexFineLayer_init 3 17 3 h 1 with Some (Ok m) => nth_error (g_refine m) 0 = Some (-1)%Z /\
  g_nodesFrontFace m = Ok [20; 21; 29; 30; 45; 46; 61; 62; 77; 78; 93; 94; 109; 110; 124; 125] | _ => False end.
Proof. intros h. vm_compute. repeat split. Qed.

(** ... in general they hold what is between the outermost layers; the bottom and top are always complete.
    Missing for the full property: the nodes inside refined outermost layers. *)
Theorem C27_open_faces_partial : forall nelx nely nelz nfine h m, 1 <= nelx -> 1 <= nely -> 1 <= nelz ->
  HexFineLayer_init nelx nely nelz h nfine = Some (Ok m) -> (0 < h)%R ->
  exists X b, g_coor m = Ok X /\ nth_error (g_nhy m) 0 = Some b /\
  let Lx := (h * INR nelx)%R in let Ly := (h * INR (g_nely m))%R in let Lz := (h * INR nelz)%R in
  let between y := (h * INR b <= y <= Ly - h * INR b)%R in
  Forall (fun lP => exists l, fst lP = Ok l /\ lists_nodes3 X l (snd lP))
   [ (g_nodesFrontFace m, fun x y z => z = 0%R /\ inside Lx x /\ between y);
     (g_nodesBackFace m, fun x y z => z = Lz /\ inside Lx x /\ between y);
     (g_nodesLeftFace m, fun x y z => x = 0%R /\ between y /\ inside Lz z);
     (g_nodesRightFace m, fun x y z => x = Lx /\ between y /\ inside Lz z);
     (g_nodesBottomFace m, fun x y z => y = 0%R /\ inside Lx x /\ inside Lz z);
     (g_nodesTopFace m, fun x y z => y = Ly /\ inside Lx x /\ inside Lz z) ].
Proof. exact T3_win_faces. Qed.
Print Assumptions C27_open_faces_partial.

(** the full property is false: node 6 of this mesh is at (1, 1, 0), strictly inside the front face, and is not listed *)
Theorem C27_open_faces_refuted :
  ~ (forall nelx nely nelz nfine h m, 1 <= nelx -> 1 <= nely -> 1 <= nelz ->
     HexFineLayer_init nelx nely nelz h nfine = Some (Ok m) -> (0 < h)%R ->
     exists X l, g_coor m = Ok X /\ g_nodesFrontFace m = Ok l /\
       lists_nodes3 X l (fun x y z => z = 0%R /\ inside (h * INR nelx) x /\ inside (h * INR (g_nely m)) y)).
Proof. exact T3_open_faces_refuted. Qed.
Print Assumptions C27_open_faces_refuted.

(** C78: periodic node pairs and degrees of freedom, if the outermost layers are not refinement layers *)
Theorem C78_periodic : forall nelx nely nelz nfine h m, 1 <= nelx -> 1 <= nely -> 1 <= nelz ->
  HexFineLayer_init nelx nely nelz h nfine = Some (Ok m) -> (0 < h)%R -> nth_error (g_refine m) 0 = Some (-1)%Z ->
  exists X ties D, g_coor m = Ok X /\ g_nodesPeriodic m = Ok ties /\ g_dofsPeriodic m = Ok D /\
    periodic_ties3 X (h * INR nelx) (h * INR (g_nely m)) (h * INR nelz) ties /\
    periodic_dofs3 X (h * INR nelx) (h * INR (g_nely m)) (h * INR nelz) 3 D ((g_nnode m - length ties) * 3).
Proof. exact T3_periodic. Qed.
Print Assumptions C78_periodic.
Example C78_ex : forall h, match HexFineLayer_init 2 3 1 h 1 with Some (Ok m) => nth_error (g_refine m) 0 = Some (-1)%Z /\
  g_nodesPeriodic m = Ok [(0, 2); (0, 5); (0, 3); (0, 18); (0, 20); (0, 23); (0, 21); (1, 4); (1, 22); (1, 19);
    (6, 8); (12, 14); (6, 11); (12, 17); (6, 9); (12, 15); (7, 10); (13, 16)] | _ => False end.
Proof. intros h. vm_compute. repeat split. Qed.

(** C78 in general: the pairs are at equivalent positions and well formed; everything on the right, top and back is tied except
    nodes strictly inside the back and right faces, in the outermost layers; degrees of freedom that are equal are at equivalent
    positions, and the converse holds except for these nodes.  Missing for the full property: these nodes. *)
Theorem C78_periodic_partial : forall nelx nely nelz nfine h m, 1 <= nelx -> 1 <= nely -> 1 <= nelz ->
  HexFineLayer_init nelx nely nelz h nfine = Some (Ok m) -> (0 < h)%R ->
  exists X ties D b, g_coor m = Ok X /\ g_nodesPeriodic m = Ok ties /\ g_dofsPeriodic m = Ok D /\ nth_error (g_nhy m) 0 = Some b /\
  let Lx := (h * INR nelx)%R in let Ly := (h * INR (g_nely m))%R in let Lz := (h * INR nelz)%R in
  let left_out := outermost_inner Lx Ly Lz (h * INR b) in
  wf_ties (g_nnode m) ties /\
  (forall a c x y z x' y' z', In (a, c) ties -> node_at3 X a x y z -> node_at3 X c x' y' z' -> congruent3 Lx Ly Lz x y z x' y' z') /\
  lists_nodes3 X (map snd ties) (fun x y z => (x = Lx \/ y = Ly \/ z = Lz) /\ ~ left_out x y z) /\
  shape2 D (g_nnode m) 3 /\
  (forall p i v x y z p' i' v' x' y' z', at2 D p i = Some v -> at2 D p' i' = Some v' -> node_at3 X p x y z -> node_at3 X p' x' y' z' ->
      (v = v' -> i = i' /\ congruent3 Lx Ly Lz x y z x' y' z') /\
      (~ left_out x y z -> ~ left_out x' y' z' -> (v = v' <-> i = i' /\ congruent3 Lx Ly Lz x y z x' y' z'))) /\
  (forall v, In v (concat D) <-> v < (g_nnode m - length ties) * 3).
Proof. exact T3_periodic_partial. Qed.
Print Assumptions C78_periodic_partial.

(** the full property is false: node 10 of this mesh is at (1, 1, 2), on the back, and is not tied to node 6 at (1, 1, 0): the
    degrees of freedom of these nodes differ *)
Theorem C78_periodic_refuted :
  ~ (forall nelx nely nelz nfine h m, 1 <= nelx -> 1 <= nely -> 1 <= nelz ->
     HexFineLayer_init nelx nely nelz h nfine = Some (Ok m) -> (0 < h)%R ->
     exists X ties, g_coor m = Ok X /\ g_nodesPeriodic m = Ok ties /\ periodic_ties3 X (h * INR nelx) (h * INR (g_nely m)) (h * INR nelz) ties) /\
  ~ (forall nelx nely nelz nfine h m, 1 <= nelx -> 1 <= nely -> 1 <= nelz ->
     HexFineLayer_init nelx nely nelz h nfine = Some (Ok m) -> (0 < h)%R ->
     exists X D N, g_coor m = Ok X /\ g_dofsPeriodic m = Ok D /\ periodic_dofs3 X (h * INR nelx) (h * INR (g_nely m)) (h * INR nelz) 3 D N).
Proof. exact T3_periodic_refuted. Qed.
Print Assumptions C78_periodic_refuted.
