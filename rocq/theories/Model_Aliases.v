(** Model of the accessors of RegularBase2d and RegularBase3d (Mesh.h:339-1562): the derived mesh implements one order of the
    words in the name ([nodesFrontBottomEdge_impl]), the base class offers all of them ([nodesBottomFrontEdge], ...).  A method is
    identified by the words of its name; the number behind each case is the line of the method.  [None]: there is no such method. *)
From Coq Require Import Reals.
From Verif Require Import Base Spec_Sides Model_Numbering Model_Regular2d Model_FineLayer Model_Hex8Regular Model_Hex8FineLayer.

(** the sets that are implemented by the derived classes *)
Inductive edge := EFrontBottom | EFrontTop | EFrontLeft | EFrontRight | EBackBottom | EBackTop | EBackLeft | EBackRight | EBottomLeft | EBottomRight | ETopLeft | ETopRight.
Inductive corner := CFrontBottomLeft | CFrontBottomRight | CFrontTopLeft | CFrontTopRight | CBackBottomLeft | CBackBottomRight | CBackTopLeft | CBackTopRight.

(** Mesh.h:627-850 [nodes<a><b>Edge] *)
Definition edge_method (a b : wall) : option edge :=
  match a, b with
  | Front, Bottom => Some EFrontBottom  (* 627 *)
  | Front, Top => Some EFrontTop  (* 637 *)
  | Front, Left => Some EFrontLeft  (* 647 *)
  | Front, Right => Some EFrontRight  (* 657 *)
  | Back, Bottom => Some EBackBottom  (* 667 *)
  | Back, Top => Some EBackTop  (* 677 *)
  | Back, Left => Some EBackLeft  (* 687 *)
  | Back, Right => Some EBackRight  (* 697 *)
  | Bottom, Left => Some EBottomLeft  (* 707 *)
  | Bottom, Right => Some EBottomRight  (* 717 *)
  | Top, Left => Some ETopLeft  (* 727 *)
  | Top, Right => Some ETopRight  (* 737 *)
  | Bottom, Front => Some EFrontBottom  (* 746 *)
  | Bottom, Back => Some EBackBottom  (* 755 *)
  | Top, Front => Some EFrontTop  (* 764 *)
  | Top, Back => Some EBackTop  (* 773 *)
  | Left, Bottom => Some EBottomLeft  (* 782 *)
  | Left, Front => Some EFrontLeft  (* 791 *)
  | Left, Back => Some EBackLeft  (* 800 *)
  | Left, Top => Some ETopLeft  (* 809 *)
  | Right, Bottom => Some EBottomRight  (* 818 *)
  | Right, Top => Some ETopRight  (* 827 *)
  | Right, Front => Some EFrontRight  (* 836 *)
  | Right, Back => Some EBackRight  (* 845 *)
  | _, _ => None
  end.

(** Mesh.h:920-1132 [nodes<a><b>OpenEdge] *)
Definition open_edge_method (a b : wall) : option edge :=
  match a, b with
  | Front, Bottom => Some EFrontBottom  (* 920 *)
  | Front, Top => Some EFrontTop  (* 929 *)
  | Front, Left => Some EFrontLeft  (* 938 *)
  | Front, Right => Some EFrontRight  (* 947 *)
  | Back, Bottom => Some EBackBottom  (* 956 *)
  | Back, Top => Some EBackTop  (* 965 *)
  | Back, Left => Some EBackLeft  (* 974 *)
  | Back, Right => Some EBackRight  (* 983 *)
  | Bottom, Left => Some EBottomLeft  (* 992 *)
  | Bottom, Right => Some EBottomRight  (* 1001 *)
  | Top, Left => Some ETopLeft  (* 1010 *)
  | Top, Right => Some ETopRight  (* 1019 *)
  | Bottom, Front => Some EFrontBottom  (* 1028 *)
  | Bottom, Back => Some EBackBottom  (* 1037 *)
  | Top, Front => Some EFrontTop  (* 1046 *)
  | Top, Back => Some EBackTop  (* 1055 *)
  | Left, Bottom => Some EBottomLeft  (* 1064 *)
  | Left, Front => Some EFrontLeft  (* 1073 *)
  | Left, Back => Some EBackLeft  (* 1082 *)
  | Left, Top => Some ETopLeft  (* 1091 *)
  | Right, Bottom => Some EBottomRight  (* 1100 *)
  | Right, Top => Some ETopRight  (* 1109 *)
  | Right, Front => Some EFrontRight  (* 1118 *)
  | Right, Back => Some EBackRight  (* 1127 *)
  | _, _ => None
  end.

(** Mesh.h:1136-1562 [nodes<a><b><c>Corner] *)
Definition corner_method (a b c : wall) : option corner :=
  match a, b, c with
  | Front, Bottom, Left => Some CFrontBottomLeft  (* 1136 *)
  | Front, Bottom, Right => Some CFrontBottomRight  (* 1145 *)
  | Front, Top, Left => Some CFrontTopLeft  (* 1154 *)
  | Front, Top, Right => Some CFrontTopRight  (* 1163 *)
  | Back, Bottom, Left => Some CBackBottomLeft  (* 1172 *)
  | Back, Bottom, Right => Some CBackBottomRight  (* 1181 *)
  | Back, Top, Left => Some CBackTopLeft  (* 1190 *)
  | Back, Top, Right => Some CBackTopRight  (* 1199 *)
  | Front, Left, Bottom => Some CFrontBottomLeft  (* 1208 *)
  | Bottom, Front, Left => Some CFrontBottomLeft  (* 1217 *)
  | Bottom, Left, Front => Some CFrontBottomLeft  (* 1226 *)
  | Left, Front, Bottom => Some CFrontBottomLeft  (* 1235 *)
  | Left, Bottom, Front => Some CFrontBottomLeft  (* 1244 *)
  | Front, Right, Bottom => Some CFrontBottomRight  (* 1253 *)
  | Bottom, Front, Right => Some CFrontBottomRight  (* 1262 *)
  | Bottom, Right, Front => Some CFrontBottomRight  (* 1271 *)
  | Right, Front, Bottom => Some CFrontBottomRight  (* 1280 *)
  | Right, Bottom, Front => Some CFrontBottomRight  (* 1289 *)
  | Front, Left, Top => Some CFrontTopLeft  (* 1298 *)
  | Top, Front, Left => Some CFrontTopLeft  (* 1307 *)
  | Top, Left, Front => Some CFrontTopLeft  (* 1316 *)
  | Left, Front, Top => Some CFrontTopLeft  (* 1325 *)
  | Left, Top, Front => Some CFrontTopLeft  (* 1334 *)
  | Front, Right, Top => Some CFrontTopRight  (* 1343 *)
  | Top, Front, Right => Some CFrontTopRight  (* 1352 *)
  | Top, Right, Front => Some CFrontTopRight  (* 1361 *)
  | Right, Front, Top => Some CFrontTopRight  (* 1370 *)
  | Right, Top, Front => Some CFrontTopRight  (* 1379 *)
  | Back, Left, Bottom => Some CBackBottomLeft  (* 1388 *)
  | Bottom, Back, Left => Some CBackBottomLeft  (* 1397 *)
  | Bottom, Left, Back => Some CBackBottomLeft  (* 1406 *)
  | Left, Back, Bottom => Some CBackBottomLeft  (* 1415 *)
  | Left, Bottom, Back => Some CBackBottomLeft  (* 1424 *)
  | Back, Right, Bottom => Some CBackBottomRight  (* 1433 *)
  | Bottom, Back, Right => Some CBackBottomRight  (* 1442 *)
  | Bottom, Right, Back => Some CBackBottomRight  (* 1451 *)
  | Right, Back, Bottom => Some CBackBottomRight  (* 1460 *)
  | Right, Bottom, Back => Some CBackBottomRight  (* 1469 *)
  | Back, Left, Top => Some CBackTopLeft  (* 1478 *)
  | Top, Back, Left => Some CBackTopLeft  (* 1487 *)
  | Top, Left, Back => Some CBackTopLeft  (* 1496 *)
  | Left, Back, Top => Some CBackTopLeft  (* 1505 *)
  | Left, Top, Back => Some CBackTopLeft  (* 1514 *)
  | Back, Right, Top => Some CBackTopRight  (* 1523 *)
  | Top, Back, Right => Some CBackTopRight  (* 1532 *)
  | Top, Right, Back => Some CBackTopRight  (* 1541 *)
  | Right, Back, Top => Some CBackTopRight  (* 1550 *)
  | Right, Top, Back => Some CBackTopRight  (* 1559 *)
  | _, _, _ => None
  end.

(** Mesh.h:427-496 [nodes<a><b>Corner] in two dimensions *)
Inductive corner2 := DBottomLeft | DBottomRight | DTopLeft | DTopRight.
Definition corner2_method (a b : wall) : option corner2 :=
  match a, b with
  | Bottom, Left => Some DBottomLeft  (* 427 *)
  | Bottom, Right => Some DBottomRight  (* 437 *)
  | Top, Left => Some DTopLeft  (* 447 *)
  | Top, Right => Some DTopRight  (* 457 *)
  | Left, Bottom => Some DBottomLeft  (* 466 *)
  | Left, Top => Some DTopLeft  (* 475 *)
  | Right, Bottom => Some DBottomRight  (* 484 *)
  | Right, Top => Some DTopRight  (* 493 *)
  | _, _ => None
  end.

(** Hex8::Regular: MeshHex8.h:296-598 *)
Definition hexreg_edge (m : HexRegular) (e : edge) : res (list nat) :=
  match e with
  | EFrontBottom => Ok (nodesFrontBottomEdge m)
  | EFrontTop => Ok (nodesFrontTopEdge m)
  | EFrontLeft => Ok (nodesFrontLeftEdge m)
  | EFrontRight => Ok (nodesFrontRightEdge m)
  | EBackBottom => Ok (nodesBackBottomEdge m)
  | EBackTop => Ok (nodesBackTopEdge m)
  | EBackLeft => Ok (nodesBackLeftEdge m)
  | EBackRight => Ok (nodesBackRightEdge m)
  | EBottomLeft => Ok (nodesBottomLeftEdge m)
  | EBottomRight => Ok (nodesBottomRightEdge m)
  | ETopLeft => Ok (nodesTopLeftEdge m)
  | ETopRight => Ok (nodesTopRightEdge m)
  end.
Definition hexreg_open_edge (m : HexRegular) (e : edge) : res (list nat) :=
  match e with
  | EFrontBottom => Ok (nodesFrontBottomOpenEdge m)
  | EFrontTop => Ok (nodesFrontTopOpenEdge m)
  | EFrontLeft => Ok (nodesFrontLeftOpenEdge m)
  | EFrontRight => Ok (nodesFrontRightOpenEdge m)
  | EBackBottom => Ok (nodesBackBottomOpenEdge m)
  | EBackTop => Ok (nodesBackTopOpenEdge m)
  | EBackLeft => Ok (nodesBackLeftOpenEdge m)
  | EBackRight => Ok (nodesBackRightOpenEdge m)
  | EBottomLeft => Ok (nodesBottomLeftOpenEdge m)
  | EBottomRight => Ok (nodesBottomRightOpenEdge m)
  | ETopLeft => Ok (nodesTopLeftOpenEdge m)
  | ETopRight => Ok (nodesTopRightOpenEdge m)
  end.
Definition hexreg_corner (m : HexRegular) (e : corner) : res nat :=
  match e with
  | CFrontBottomLeft => Ok (nodesFrontBottomLeftCorner)
  | CFrontBottomRight => Ok (nodesFrontBottomRightCorner m)
  | CFrontTopLeft => Ok (nodesFrontTopLeftCorner m)
  | CFrontTopRight => Ok (nodesFrontTopRightCorner m)
  | CBackBottomLeft => Ok (nodesBackBottomLeftCorner m)
  | CBackBottomRight => Ok (nodesBackBottomRightCorner m)
  | CBackTopLeft => Ok (nodesBackTopLeftCorner m)
  | CBackTopRight => Ok (nodesBackTopRightCorner m)
  end.
(** Hex8::FineLayer: MeshHex8.h:1894-2272 *)
Definition fine3_edge (m : HexFineLayer) (e : edge) : res (list nat) :=
  match e with
  | EFrontBottom => g_nodesFrontBottomEdge m
  | EFrontTop => g_nodesFrontTopEdge m
  | EFrontLeft => g_nodesFrontLeftEdge m
  | EFrontRight => g_nodesFrontRightEdge m
  | EBackBottom => g_nodesBackBottomEdge m
  | EBackTop => g_nodesBackTopEdge m
  | EBackLeft => g_nodesBackLeftEdge m
  | EBackRight => g_nodesBackRightEdge m
  | EBottomLeft => g_nodesBottomLeftEdge m
  | EBottomRight => g_nodesBottomRightEdge m
  | ETopLeft => g_nodesTopLeftEdge m
  | ETopRight => g_nodesTopRightEdge m
  end.
Definition fine3_open_edge (m : HexFineLayer) (e : edge) : res (list nat) :=
  match e with
  | EFrontBottom => g_nodesFrontBottomOpenEdge m
  | EFrontTop => g_nodesFrontTopOpenEdge m
  | EFrontLeft => g_nodesFrontLeftOpenEdge m
  | EFrontRight => g_nodesFrontRightOpenEdge m
  | EBackBottom => g_nodesBackBottomOpenEdge m
  | EBackTop => g_nodesBackTopOpenEdge m
  | EBackLeft => g_nodesBackLeftOpenEdge m
  | EBackRight => g_nodesBackRightOpenEdge m
  | EBottomLeft => g_nodesBottomLeftOpenEdge m
  | EBottomRight => g_nodesBottomRightOpenEdge m
  | ETopLeft => g_nodesTopLeftOpenEdge m
  | ETopRight => g_nodesTopRightOpenEdge m
  end.
Definition fine3_corner (m : HexFineLayer) (e : corner) : res nat :=
  match e with
  | CFrontBottomLeft => g_nodesFrontBottomLeftCorner m
  | CFrontBottomRight => g_nodesFrontBottomRightCorner m
  | CFrontTopLeft => g_nodesFrontTopLeftCorner m
  | CFrontTopRight => g_nodesFrontTopRightCorner m
  | CBackBottomLeft => g_nodesBackBottomLeftCorner m
  | CBackBottomRight => g_nodesBackBottomRightCorner m
  | CBackTopLeft => g_nodesBackTopLeftCorner m
  | CBackTopRight => g_nodesBackTopRightCorner m
  end.
(** Mesh.h:1694-1697 [nodesOrigin_impl] *)
Definition origin3 (corner_of : corner -> res nat) : res nat := corner_of CFrontBottomLeft.
(** Quad4::Regular, Tri3::Regular, Quad4::FineLayer: MeshQuad4.h:168-186, 884-895, MeshTri3.h:201-219 *)
Definition quad_corner (m : Regular) (e : corner2) : res nat :=
  match e with
  | DBottomLeft => Ok (nodesBottomLeftCorner m)
  | DBottomRight => Ok (nodesBottomRightCorner m)
  | DTopLeft => Ok (nodesTopLeftCorner m)
  | DTopRight => Ok (nodesTopRightCorner m)
  end.
Definition tri_corner (m : Regular) (e : corner2) : res nat :=
  match e with
  | DBottomLeft => Ok (tri_nodesBottomLeftCorner m)
  | DBottomRight => Ok (tri_nodesBottomRightCorner m)
  | DTopLeft => Ok (tri_nodesTopLeftCorner m)
  | DTopRight => Ok (tri_nodesTopRightCorner m)
  end.
Definition fine_corner (m : FineLayer) (e : corner2) : res nat :=
  match e with
  | DBottomLeft => f_nodesBottomLeftCorner m
  | DBottomRight => f_nodesBottomRightCorner m
  | DTopLeft => f_nodesTopLeftCorner m
  | DTopRight => f_nodesTopRightCorner m
  end.
(** Mesh.h:542-545 [nodesOrigin_impl] *)
Definition origin2 (corner_of : corner2 -> res nat) : res nat := corner_of DBottomLeft.
