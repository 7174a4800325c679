(** Model of Quad4::Regular, Tri3::Regular and of the base class RegularBase2d. *)
From Coq Require Import Reals ZArith.
From Verif Require Import Base Model_Numbering.

(** [xt::arange<size_t>(a, b)] *)
Definition arange (a b : nat) : list nat := seq a (b - a).

(** [xt::linspace<double>(start, stop, num)](i), exact arithmetic:
    xtensor evaluates start + i * (stop - start) / max(1, num - 1) *)
Definition linspace (start stop : R) (num i : nat) : R :=
  (start + INR i * ((stop - start) / INR (Nat.max 1 (num - 1))))%R.

(** ** Quad4::Regular *)
Record Regular := mkRegular { nelx : nat; nely : nat; hh : R }.

(** MeshQuad4.h:54-55 *)
Definition nnode (m : Regular) : nat := (nelx m + 1) * (nely m + 1).
Definition nelem (m : Regular) : nat := nelx m * nely m.

(** MeshQuad4.h:63-66 *)
Definition elementgrid (m : Regular) : list (list nat) :=
  reshape2 (nely m) (nelx m) (seq 0 (nelem m)).

(** MeshQuad4.h:87-107 [coor_impl]; row [inode] is appended in loop order *)
Definition coor (m : Regular) : list (list R) :=
  let x := linspace 0 (hh m * INR (nelx m)) (nelx m + 1) in
  let y := linspace 0 (hh m * INR (nely m)) (nely m + 1) in
  flat_map (fun iy => map (fun ix => [x ix; y iy]) (seq 0 (nelx m + 1))) (seq 0 (nely m + 1)).

(** MeshQuad4.h:109-126 [conn_impl]; row [ielem] is appended in loop order *)
Definition conn (m : Regular) : list (list nat) :=
  flat_map (fun iy => map (fun ix =>
      [ iy * (nelx m + 1) + ix;
        iy * (nelx m + 1) + (ix + 1);
        (iy + 1) * (nelx m + 1) + (ix + 1);
        (iy + 1) * (nelx m + 1) + ix ]) (seq 0 (nelx m))) (seq 0 (nely m)).

(** MeshQuad4.h:128-146 *)
Definition nodesBottomEdge (m : Regular) := arange 0 (nelx m + 1).
Definition nodesTopEdge (m : Regular) := map (fun i => i + nely m * (nelx m + 1)) (arange 0 (nelx m + 1)).
Definition nodesLeftEdge (m : Regular) := map (fun i => i * (nelx m + 1)) (arange 0 (nely m + 1)).
Definition nodesRightEdge (m : Regular) := map (fun i => i * (nelx m + 1) + nelx m) (arange 0 (nely m + 1)).

(** MeshQuad4.h:148-166 *)
Definition nodesBottomOpenEdge (m : Regular) := arange 1 (nelx m).
Definition nodesTopOpenEdge (m : Regular) := map (fun i => i + nely m * (nelx m + 1)) (arange 1 (nelx m)).
Definition nodesLeftOpenEdge (m : Regular) := map (fun i => i * (nelx m + 1)) (arange 1 (nely m)).
Definition nodesRightOpenEdge (m : Regular) := map (fun i => i * (nelx m + 1) + nelx m) (arange 1 (nely m)).

(** MeshQuad4.h:168-186 *)
Definition nodesBottomLeftCorner (m : Regular) : nat := 0.
Definition nodesBottomRightCorner (m : Regular) : nat := nelx m.
Definition nodesTopLeftCorner (m : Regular) : nat := nely m * (nelx m + 1).
Definition nodesTopRightCorner (m : Regular) : nat := nely m * (nelx m + 1) + nelx m.

(** ** RegularBase2d: the boundary a derived class provides *)
Record boundary2d := mkBoundary2d {
  b_bot : list nat; b_top : list nat; b_lft : list nat; b_rgt : list nat;   (* open edges *)
  c_bl : nat; c_br : nat; c_tl : nat; c_tr : nat }.                        (* corners *)

(** Mesh.h:511-540 [RegularBase2d::nodesPeriodic_impl], rows (independent, dependent) *)
Definition nodesPeriodic2d (b : boundary2d) : list (nat * nat) :=
  [ (c_bl b, c_br b); (c_bl b, c_tr b); (c_bl b, c_tl b) ]
  ++ combine (b_bot b) (b_top b)
  ++ combine (b_lft b) (b_rgt b).

(** Mesh.h:542-545 [nodesOrigin_impl] *)
Definition nodesOrigin2d (b : boundary2d) : nat := c_bl b.

Definition Regular_boundary (m : Regular) : boundary2d := {|
  b_bot := nodesBottomOpenEdge m; b_top := nodesTopOpenEdge m;
  b_lft := nodesLeftOpenEdge m; b_rgt := nodesRightOpenEdge m;
  c_bl := nodesBottomLeftCorner m; c_br := nodesBottomRightCorner m;
  c_tl := nodesTopLeftCorner m; c_tr := nodesTopRightCorner m |}.

Definition nodesPeriodic (m : Regular) := nodesPeriodic2d (Regular_boundary m).

(** Mesh.h:291-303 for this mesh; [ndim = 2] (MeshQuad4.h:48) *)
Definition Regular_dofsPeriodic (m : Regular) : res (list (list nat)) :=
  dofsPeriodic (nnode m) 2 (nodesPeriodic m).

(** ** Tri3::Regular (same constructor arguments) *)
(** MeshTri3.h:46-47 *)
Definition tri_nnode (m : Regular) : nat := (nelx m + 1) * (nely m + 1).
Definition tri_nelem (m : Regular) : nat := nelx m * nely m * 2.

(** MeshTri3.h:69-89 *)
Definition tri_coor (m : Regular) : list (list R) :=
  let x := linspace 0 (hh m * INR (nelx m)) (nelx m + 1) in
  let y := linspace 0 (hh m * INR (nely m)) (nely m + 1) in
  flat_map (fun iy => map (fun ix => [x ix; y iy]) (seq 0 (nelx m + 1))) (seq 0 (nely m + 1)).

(** MeshTri3.h:91-111 *)
Definition tri_conn (m : Regular) : list (list nat) :=
  flat_map (fun iy => flat_map (fun ix =>
      [ [ iy * (nelx m + 1) + ix;
          iy * (nelx m + 1) + (ix + 1);
          (iy + 1) * (nelx m + 1) + ix ];
        [ iy * (nelx m + 1) + (ix + 1);
          (iy + 1) * (nelx m + 1) + (ix + 1);
          (iy + 1) * (nelx m + 1) + ix ] ]) (seq 0 (nelx m))) (seq 0 (nely m)).

(** MeshTri3.h:113-155: loops [for (i = 0; i < n + 1; ++i) ret(i) = ...] *)
Definition tri_nodesBottomEdge (m : Regular) := map (fun ix => ix) (seq 0 (nelx m + 1)).
Definition tri_nodesTopEdge (m : Regular) := map (fun ix => ix + nely m * (nelx m + 1)) (seq 0 (nelx m + 1)).
Definition tri_nodesLeftEdge (m : Regular) := map (fun iy => iy * (nelx m + 1)) (seq 0 (nely m + 1)).
Definition tri_nodesRightEdge (m : Regular) := map (fun iy => iy * (nelx m + 1) + nelx m) (seq 0 (nely m + 1)).

(** MeshTri3.h:157-199: loops [for (i = 1; i < n; ++i) ret(i - 1) = ...] *)
Definition tri_nodesBottomOpenEdge (m : Regular) := map (fun ix => ix) (seq 1 (nelx m - 1)).
Definition tri_nodesTopOpenEdge (m : Regular) := map (fun ix => ix + nely m * (nelx m + 1)) (seq 1 (nelx m - 1)).
Definition tri_nodesLeftOpenEdge (m : Regular) := map (fun iy => iy * (nelx m + 1)) (seq 1 (nely m - 1)).
Definition tri_nodesRightOpenEdge (m : Regular) := map (fun iy => iy * (nelx m + 1) + nelx m) (seq 1 (nely m - 1)).

(** MeshTri3.h:201-219 *)
Definition tri_nodesBottomLeftCorner (m : Regular) : nat := 0.
Definition tri_nodesBottomRightCorner (m : Regular) : nat := nelx m.
Definition tri_nodesTopLeftCorner (m : Regular) : nat := nely m * (nelx m + 1).
Definition tri_nodesTopRightCorner (m : Regular) : nat := nely m * (nelx m + 1) + nelx m.

Definition tri_boundary (m : Regular) : boundary2d := {|
  b_bot := tri_nodesBottomOpenEdge m; b_top := tri_nodesTopOpenEdge m;
  b_lft := tri_nodesLeftOpenEdge m; b_rgt := tri_nodesRightOpenEdge m;
  c_bl := tri_nodesBottomLeftCorner m; c_br := tri_nodesBottomRightCorner m;
  c_tl := tri_nodesTopLeftCorner m; c_tr := tri_nodesTopRightCorner m |}.

Definition tri_nodesPeriodic (m : Regular) := nodesPeriodic2d (tri_boundary m).

(** Mesh.h:291-303; [ndim = 2] (MeshTri3.h:40) *)
Definition tri_dofsPeriodic (m : Regular) : res (list (list nat)) :=
  dofsPeriodic (tri_nnode m) 2 (tri_nodesPeriodic m).

(** ** Orientation of triangles *)
(** MeshTri3.h:250-264 body of the loop of [getOrientation], for the coordinates of the three nodes *)
Definition orientation_of (p0 p1 p2 : list R) : res BinNums.Z :=
  do x0 <- get p0 0; do y0 <- get p0 1;
  do x1 <- get p1 0; do y1 <- get p1 1;
  do x2 <- get p2 0; do y2 <- get p2 1;
  let v1x := (x0 - x1)%R in let v1y := (y0 - y1)%R in
  let v2x := (x2 - x1)%R in let v2y := (y2 - y1)%R in
  let k := (v1x * v2y - v2x * v1y)%R in
  Ok (if Rlt_dec k 0 then (-1)%Z else 1%Z).

(** MeshTri3.h:239-267 *)
Definition getOrientation (coor : list (list R)) (conn : list (list nat)) : res (list BinNums.Z) :=
  mapM (fun e =>
    do n0 <- get e 0; do n1 <- get e 1; do n2 <- get e 2;
    do p0 <- get coor n0; do p1 <- get coor n1; do p2 <- get coor n2;
    orientation_of p0 p1 p2) conn.

(** MeshTri3.h:296-300 body of the loop of [setOrientation]: swap of columns 1 and 2 *)
Definition orient_row (e : list nat) (val orientation : BinNums.Z) : res (list nat) :=
  if ((orientation =? -1)%Z && (0 <? val)%Z) || ((orientation =? 1)%Z && (val <? 0)%Z)
  then do a <- get e 2; do b <- get e 1; do e' <- set e 2 b; set e' 1 a
  else Ok e.

(** MeshTri3.h:279-303 *)
Definition setOrientation_val (conn : list (list nat)) (val : list BinNums.Z) (orientation : BinNums.Z)
  : res (list (list nat)) :=
  mapM (fun iv => do v <- get val (fst iv); orient_row (snd iv) v orientation)
       (combine (seq 0 (length conn)) conn).

(** MeshTri3.h:313-326 *)
Definition setOrientation (coor : list (list R)) (conn : list (list nat)) (orientation : BinNums.Z)
  : res (list (list nat)) :=
  do val <- getOrientation coor conn; setOrientation_val conn val orientation.
