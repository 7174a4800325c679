(** Model of Hex8::Regular and of the base class RegularBase3d. *)
From Coq Require Import Reals.
From Verif Require Import Base Model_Numbering Model_Regular2d.

(** two nested loops [for i in la, for j in lb: ret(k++) = f i j].  All loops modelled this way
    write row/entry k in iteration k (the index expression in the C++ is the iteration number) and
    the theorems show that the number of iterations is the allocated size. *)
Definition forin2 {A} (la lb : list nat) (f : nat -> nat -> A) : list A :=
  flat_map (fun i => map (f i) lb) la.
Definition forin3 {A} (la lb lc : list nat) (f : nat -> nat -> nat -> A) : list A :=
  flat_map (fun i => forin2 lb lc (f i)) la.

Record HexRegular := mkHexRegular { hx_nelx : nat; hx_nely : nat; hx_nelz : nat; hx_h : R }.

Section Hex.
Variable m : HexRegular.
Notation m_nelx := (hx_nelx m).
Notation m_nely := (hx_nely m).
Notation m_nelz := (hx_nelz m).
Notation m_h := (hx_h m).

(** MeshHex8.h:49-50 *)
Definition hex_nnode : nat := (m_nelx + 1) * (m_nely + 1) * (m_nelz + 1).
Definition hex_nelem : nat := m_nelx * m_nely * m_nelz.

(** MeshHex8.h:77-102 *)
Definition hex_coor : list (list R) :=
  let x := linspace 0 (m_h * INR m_nelx) (m_nelx + 1) in
  let y := linspace 0 (m_h * INR m_nely) (m_nely + 1) in
  let z := linspace 0 (m_h * INR m_nelz) (m_nelz + 1) in
  forin3 (seq 0 (m_nelz + 1)) (seq 0 (m_nely + 1)) (seq 0 (m_nelx + 1))
    (fun iz iy ix => [x ix; y iy; z iz]).

(** MeshHex8.h:104-131 *)
Definition hex_conn : list (list nat) :=
  forin3 (seq 0 m_nelz) (seq 0 m_nely) (seq 0 m_nelx) (fun iz iy ix =>
    [ iy * (m_nelx + 1) + ix + iz * (m_nely + 1) * (m_nelx + 1);
      iy * (m_nelx + 1) + (ix + 1) + iz * (m_nely + 1) * (m_nelx + 1);
      (iy + 1) * (m_nelx + 1) + (ix + 1) + iz * (m_nely + 1) * (m_nelx + 1);
      (iy + 1) * (m_nelx + 1) + ix + iz * (m_nely + 1) * (m_nelx + 1);
      iy * (m_nelx + 1) + ix + (iz + 1) * (m_nely + 1) * (m_nelx + 1);
      iy * (m_nelx + 1) + (ix + 1) + (iz + 1) * (m_nely + 1) * (m_nelx + 1);
      (iy + 1) * (m_nelx + 1) + (ix + 1) + (iz + 1) * (m_nely + 1) * (m_nelx + 1);
      (iy + 1) * (m_nelx + 1) + ix + (iz + 1) * (m_nely + 1) * (m_nelx + 1) ]).

(** MeshHex8.h:133-212: faces, including their edges *)
Definition nodesFront := forin2 (seq 0 (m_nely + 1)) (seq 0 (m_nelx + 1)) (fun iy ix => iy * (m_nelx + 1) + ix).
Definition nodesBack := forin2 (seq 0 (m_nely + 1)) (seq 0 (m_nelx + 1)) (fun iy ix =>
  iy * (m_nelx + 1) + ix + m_nelz * (m_nely + 1) * (m_nelx + 1)).
Definition nodesLeft := forin2 (seq 0 (m_nelz + 1)) (seq 0 (m_nely + 1)) (fun iz iy =>
  iy * (m_nelx + 1) + iz * (m_nelx + 1) * (m_nely + 1)).
Definition nodesRight := forin2 (seq 0 (m_nelz + 1)) (seq 0 (m_nely + 1)) (fun iz iy =>
  iy * (m_nelx + 1) + iz * (m_nelx + 1) * (m_nely + 1) + m_nelx).
Definition nodesBottom := forin2 (seq 0 (m_nelz + 1)) (seq 0 (m_nelx + 1)) (fun iz ix =>
  ix + iz * (m_nelx + 1) * (m_nely + 1)).
Definition nodesTop := forin2 (seq 0 (m_nelz + 1)) (seq 0 (m_nelx + 1)) (fun iz ix =>
  ix + m_nely * (m_nelx + 1) + iz * (m_nelx + 1) * (m_nely + 1)).

(** MeshHex8.h:214-294: faces without their edges; [seq 1 (n - 1)] is [for (i = 1; i < n; ++i)] *)
Definition nodesFrontFace := forin2 (seq 1 (m_nely - 1)) (seq 1 (m_nelx - 1)) (fun iy ix => iy * (m_nelx + 1) + ix).
Definition nodesBackFace := forin2 (seq 1 (m_nely - 1)) (seq 1 (m_nelx - 1)) (fun iy ix =>
  iy * (m_nelx + 1) + ix + m_nelz * (m_nely + 1) * (m_nelx + 1)).
Definition nodesLeftFace := forin2 (seq 1 (m_nelz - 1)) (seq 1 (m_nely - 1)) (fun iz iy =>
  iy * (m_nelx + 1) + iz * (m_nelx + 1) * (m_nely + 1)).
Definition nodesRightFace := forin2 (seq 1 (m_nelz - 1)) (seq 1 (m_nely - 1)) (fun iz iy =>
  iy * (m_nelx + 1) + iz * (m_nelx + 1) * (m_nely + 1) + m_nelx).
Definition nodesBottomFace := forin2 (seq 1 (m_nelz - 1)) (seq 1 (m_nelx - 1)) (fun iz ix =>
  ix + iz * (m_nelx + 1) * (m_nely + 1)).
Definition nodesTopFace := forin2 (seq 1 (m_nelz - 1)) (seq 1 (m_nelx - 1)) (fun iz ix =>
  ix + m_nely * (m_nelx + 1) + iz * (m_nelx + 1) * (m_nely + 1)).

(** MeshHex8.h:296-426: edges *)
Definition nodesFrontBottomEdge := map (fun ix => ix) (seq 0 (m_nelx + 1)).
Definition nodesFrontTopEdge := map (fun ix => ix + m_nely * (m_nelx + 1)) (seq 0 (m_nelx + 1)).
Definition nodesFrontLeftEdge := map (fun iy => iy * (m_nelx + 1)) (seq 0 (m_nely + 1)).
Definition nodesFrontRightEdge := map (fun iy => iy * (m_nelx + 1) + m_nelx) (seq 0 (m_nely + 1)).
Definition nodesBackBottomEdge := map (fun ix => ix + m_nelz * (m_nely + 1) * (m_nelx + 1)) (seq 0 (m_nelx + 1)).
Definition nodesBackTopEdge := map (fun ix => m_nely * (m_nelx + 1) + ix + m_nelz * (m_nely + 1) * (m_nelx + 1)) (seq 0 (m_nelx + 1)).
Definition nodesBackLeftEdge := map (fun iy => iy * (m_nelx + 1) + m_nelz * (m_nelx + 1) * (m_nely + 1)) (seq 0 (m_nely + 1)).
Definition nodesBackRightEdge := map (fun iy => iy * (m_nelx + 1) + m_nelz * (m_nelx + 1) * (m_nely + 1) + m_nelx) (seq 0 (m_nely + 1)).
Definition nodesBottomLeftEdge := map (fun iz => iz * (m_nelx + 1) * (m_nely + 1)) (seq 0 (m_nelz + 1)).
Definition nodesBottomRightEdge := map (fun iz => iz * (m_nelx + 1) * (m_nely + 1) + m_nelx) (seq 0 (m_nelz + 1)).
Definition nodesTopLeftEdge := map (fun iz => m_nely * (m_nelx + 1) + iz * (m_nelx + 1) * (m_nely + 1)) (seq 0 (m_nelz + 1)).
Definition nodesTopRightEdge := map (fun iz => m_nely * (m_nelx + 1) + iz * (m_nelx + 1) * (m_nely + 1) + m_nelx) (seq 0 (m_nelz + 1)).

(** MeshHex8.h:428-558: edges without corners *)
Definition nodesFrontBottomOpenEdge := map (fun ix => ix) (seq 1 (m_nelx - 1)).
Definition nodesFrontTopOpenEdge := map (fun ix => ix + m_nely * (m_nelx + 1)) (seq 1 (m_nelx - 1)).
Definition nodesFrontLeftOpenEdge := map (fun iy => iy * (m_nelx + 1)) (seq 1 (m_nely - 1)).
Definition nodesFrontRightOpenEdge := map (fun iy => iy * (m_nelx + 1) + m_nelx) (seq 1 (m_nely - 1)).
Definition nodesBackBottomOpenEdge := map (fun ix => ix + m_nelz * (m_nely + 1) * (m_nelx + 1)) (seq 1 (m_nelx - 1)).
Definition nodesBackTopOpenEdge := map (fun ix => m_nely * (m_nelx + 1) + ix + m_nelz * (m_nely + 1) * (m_nelx + 1)) (seq 1 (m_nelx - 1)).
Definition nodesBackLeftOpenEdge := map (fun iy => iy * (m_nelx + 1) + m_nelz * (m_nelx + 1) * (m_nely + 1)) (seq 1 (m_nely - 1)).
Definition nodesBackRightOpenEdge := map (fun iy => iy * (m_nelx + 1) + m_nelz * (m_nelx + 1) * (m_nely + 1) + m_nelx) (seq 1 (m_nely - 1)).
Definition nodesBottomLeftOpenEdge := map (fun iz => iz * (m_nelx + 1) * (m_nely + 1)) (seq 1 (m_nelz - 1)).
Definition nodesBottomRightOpenEdge := map (fun iz => iz * (m_nelx + 1) * (m_nely + 1) + m_nelx) (seq 1 (m_nelz - 1)).
Definition nodesTopLeftOpenEdge := map (fun iz => m_nely * (m_nelx + 1) + iz * (m_nelx + 1) * (m_nely + 1)) (seq 1 (m_nelz - 1)).
Definition nodesTopRightOpenEdge := map (fun iz => m_nely * (m_nelx + 1) + iz * (m_nelx + 1) * (m_nely + 1) + m_nelx) (seq 1 (m_nelz - 1)).

(** MeshHex8.h:560-598: corners *)
Definition nodesFrontBottomLeftCorner := 0.
Definition nodesFrontBottomRightCorner := m_nelx.
Definition nodesFrontTopLeftCorner := m_nely * (m_nelx + 1).
Definition nodesFrontTopRightCorner := m_nely * (m_nelx + 1) + m_nelx.
Definition nodesBackBottomLeftCorner := m_nelz * (m_nely + 1) * (m_nelx + 1).
Definition nodesBackBottomRightCorner := m_nelx + m_nelz * (m_nely + 1) * (m_nelx + 1).
Definition nodesBackTopLeftCorner := m_nely * (m_nelx + 1) + m_nelz * (m_nely + 1) * (m_nelx + 1).
Definition nodesBackTopRightCorner := m_nely * (m_nelx + 1) + m_nelx + m_nelz * (m_nely + 1) * (m_nelx + 1).

End Hex.

(** what RegularBase3d::nodesPeriodic uses of the derived class *)
Record boundary3d := mkBoundary3d {
  f_fro : list nat; f_bck : list nat; f_lft : list nat; f_rgt : list nat; f_bot : list nat; f_top : list nat;
  e_froBot : list nat; e_froTop : list nat; e_froLft : list nat; e_froRgt : list nat;
  e_bckBot : list nat; e_bckTop : list nat; e_bckLft : list nat; e_bckRgt : list nat;
  e_botLft : list nat; e_botRgt : list nat; e_topLft : list nat; e_topRgt : list nat;
  n_fbl : nat; n_fbr : nat; n_ftl : nat; n_ftr : nat; n_bbl : nat; n_bbr : nat; n_btl : nat; n_btr : nat }.

(** Mesh.h:1577-1692 [RegularBase3d::nodesPeriodic_impl] *)
Definition nodesPeriodic3d (b : boundary3d) : list (nat * nat) :=
  [ (n_fbl b, n_fbr b); (n_fbl b, n_bbr b); (n_fbl b, n_bbl b); (n_fbl b, n_ftl b);
    (n_fbl b, n_ftr b); (n_fbl b, n_btr b); (n_fbl b, n_btl b) ]
  ++ combine (e_froBot b) (e_bckBot b) ++ combine (e_froBot b) (e_bckTop b) ++ combine (e_froBot b) (e_froTop b)
  ++ combine (e_botLft b) (e_botRgt b) ++ combine (e_botLft b) (e_topRgt b) ++ combine (e_botLft b) (e_topLft b)
  ++ combine (e_froLft b) (e_froRgt b) ++ combine (e_froLft b) (e_bckRgt b) ++ combine (e_froLft b) (e_bckLft b)
  ++ combine (f_fro b) (f_bck b) ++ combine (f_lft b) (f_rgt b) ++ combine (f_bot b) (f_top b).

Definition hex_boundary (m : HexRegular) : boundary3d := {|
  f_fro := nodesFrontFace m; f_bck := nodesBackFace m; f_lft := nodesLeftFace m; f_rgt := nodesRightFace m;
  f_bot := nodesBottomFace m; f_top := nodesTopFace m;
  e_froBot := nodesFrontBottomOpenEdge m; e_froTop := nodesFrontTopOpenEdge m;
  e_froLft := nodesFrontLeftOpenEdge m; e_froRgt := nodesFrontRightOpenEdge m;
  e_bckBot := nodesBackBottomOpenEdge m; e_bckTop := nodesBackTopOpenEdge m;
  e_bckLft := nodesBackLeftOpenEdge m; e_bckRgt := nodesBackRightOpenEdge m;
  e_botLft := nodesBottomLeftOpenEdge m; e_botRgt := nodesBottomRightOpenEdge m;
  e_topLft := nodesTopLeftOpenEdge m; e_topRgt := nodesTopRightOpenEdge m;
  n_fbl := nodesFrontBottomLeftCorner; n_fbr := nodesFrontBottomRightCorner m;
  n_ftl := nodesFrontTopLeftCorner m; n_ftr := nodesFrontTopRightCorner m;
  n_bbl := nodesBackBottomLeftCorner m; n_bbr := nodesBackBottomRightCorner m;
  n_btl := nodesBackTopLeftCorner m; n_btr := nodesBackTopRightCorner m |}.

Definition hex_nodesPeriodic (m : HexRegular) := nodesPeriodic3d (hex_boundary m).

(** Mesh.h:291-303; [ndim = 3] (MeshHex8.h:43) *)
Definition hex_dofsPeriodic (m : HexRegular) : res (list (list nat)) :=
  dofsPeriodic (hex_nnode m) 3 (hex_nodesPeriodic m).
