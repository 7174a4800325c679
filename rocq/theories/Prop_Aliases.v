(** C79: every accessor returns the set its name says.  A method is identified by the words in its name ([nodesTopFrontEdge]:
    Top, Front); for every order of the words there is a method, and it returns the nodes (once each) on the intersection of the
    sides that are named. *)
From Coq Require Import Reals.
From Verif Require Import Base Spec2d Spec3d Spec_Sides Model_Numbering Model_Regular2d Model_FineLayer Model_Hex8Regular Model_Hex8FineLayer Model_Aliases Proof_Aliases.

(** the methods that exist: any two (three) different directions *)
Theorem C79_methods :
  (forall a b, axis a <> axis b <-> edge_method a b <> None) /\
  (forall a b, axis a <> axis b <-> open_edge_method a b <> None) /\
  (forall a b c, (axis a <> axis b /\ axis a <> axis c /\ axis b <> axis c) <-> corner_method a b c <> None).
Proof. exact all_methods. Qed.
Print Assumptions C79_methods.

Theorem C79_hex8_regular : forall m, (0 < hx_h m)%R ->
  let Lx := (hx_h m * INR (hx_nelx m))%R in let Ly := (hx_h m * INR (hx_nely m))%R in let Lz := (hx_h m * INR (hx_nelz m))%R in
  let on := on_wall Lx Ly Lz in
  (forall a b, axis a <> axis b ->
     (exists e l, edge_method a b = Some e /\ hexreg_edge m e = Ok l /\ lists_nodes3 (hex_coor m) l (fun x y z => on a x y z /\ on b x y z)) /\
     (exists e l, open_edge_method a b = Some e /\ hexreg_open_edge m e = Ok l /\
        lists_nodes3 (hex_coor m) l (fun x y z => on a x y z /\ on b x y z /\ inside_along Lx Ly Lz (3 - axis a - axis b) x y z))) /\
  (forall a b c, axis a <> axis b -> axis a <> axis c -> axis b <> axis c ->
     exists k p x y z, corner_method a b c = Some k /\ hexreg_corner m k = Ok p /\ node_at3 (hex_coor m) p x y z /\ on a x y z /\ on b x y z /\ on c x y z) /\
  (exists p, origin3 (hexreg_corner m) = Ok p /\ node_at3 (hex_coor m) p 0 0 0).
Proof. exact alias_hex_regular. Qed.
Print Assumptions C79_hex8_regular.
Example C79_hex8_ex : forall h, let m := {| hx_nelx := 2; hx_nely := 3; hx_nelz := 1; hx_h := h |} in
  option_map (hexreg_edge m) (edge_method Right Top) = Some (Ok [11; 23]) /\
  option_map (hexreg_open_edge m) (open_edge_method Left Back) = Some (Ok [15; 18]) /\
  option_map (hexreg_corner m) (corner_method Right Back Bottom) = Some (Ok 14) /\ origin3 (hexreg_corner m) = Ok 0.
Proof. intros h. vm_compute. repeat split. Qed.

Theorem C79_hex8_finelayer : forall nelx nely nelz nfine h m, 1 <= nelx -> 1 <= nely -> 1 <= nelz -> HexFineLayer_init nelx nely nelz h nfine = Some (Ok m) -> (0 < h)%R ->
  let Lx := (h * INR nelx)%R in let Ly := (h * INR (g_nely m))%R in let Lz := (h * INR nelz)%R in
  let on := on_wall Lx Ly Lz in
  exists X, g_coor m = Ok X /\
  (forall a b, axis a <> axis b ->
     (exists e l, edge_method a b = Some e /\ fine3_edge m e = Ok l /\ lists_nodes3 X l (fun x y z => on a x y z /\ on b x y z)) /\
     (exists e l, open_edge_method a b = Some e /\ fine3_open_edge m e = Ok l /\
        lists_nodes3 X l (fun x y z => on a x y z /\ on b x y z /\ inside_along Lx Ly Lz (3 - axis a - axis b) x y z))) /\
  (forall a b c, axis a <> axis b -> axis a <> axis c -> axis b <> axis c ->
     exists k p x y z, corner_method a b c = Some k /\ fine3_corner m k = Ok p /\ node_at3 X p x y z /\ on a x y z /\ on b x y z /\ on c x y z) /\
  (exists p, origin3 (fine3_corner m) = Ok p /\ node_at3 X p 0 0 0).
Proof. exact alias_hex_finelayer. Qed.
Print Assumptions C79_hex8_finelayer.
Example C79_hex8_finelayer_ex : forall h, match HexFineLayer_init 3 9 2 h 1 with Some (Ok m) =>
  option_map (fine3_corner m) (corner_method Right Back Bottom) = Some (Ok 5) /\ origin3 (fine3_corner m) = Ok 0 | _ => False end.
Proof. intros h. vm_compute. repeat split. Qed.

(** two dimensions *)
Theorem C79_quad4_regular : forall m, 1 <= nelx m -> 1 <= nely m -> (0 < hh m)%R ->
  let Lx := (hh m * INR (nelx m))%R in let Ly := (hh m * INR (nely m))%R in
  (forall a b, axis a < 2 -> axis b < 2 -> axis a <> axis b ->
     exists k p x y, corner2_method a b = Some k /\ quad_corner m k = Ok p /\ node_at (coor m) p x y /\ on_wall Lx Ly 0 a x y 0 /\ on_wall Lx Ly 0 b x y 0) /\
  (exists p, origin2 (quad_corner m) = Ok p /\ node_at (coor m) p 0 0).
Proof. exact alias_quad. Qed.
Print Assumptions C79_quad4_regular.

Theorem C79_tri3_regular : forall m, 1 <= nelx m -> 1 <= nely m -> (0 < hh m)%R ->
  let Lx := (hh m * INR (nelx m))%R in let Ly := (hh m * INR (nely m))%R in
  (forall a b, axis a < 2 -> axis b < 2 -> axis a <> axis b ->
     exists k p x y, corner2_method a b = Some k /\ tri_corner m k = Ok p /\ node_at (tri_coor m) p x y /\ on_wall Lx Ly 0 a x y 0 /\ on_wall Lx Ly 0 b x y 0) /\
  (exists p, origin2 (tri_corner m) = Ok p /\ node_at (tri_coor m) p 0 0).
Proof. exact alias_tri. Qed.
Print Assumptions C79_tri3_regular.

Theorem C79_quad4_finelayer : forall nelx nely nfine h m, 1 <= nelx -> 1 <= nely -> FineLayer_init nelx nely h nfine = Some (Ok m) -> (0 < h)%R ->
  let Lx := (h * INR nelx)%R in let Ly := (h * INR (f_nely m))%R in
  exists X, f_coor m = Ok X /\
  (forall a b, axis a < 2 -> axis b < 2 -> axis a <> axis b ->
     exists k p x y, corner2_method a b = Some k /\ fine_corner m k = Ok p /\ node_at X p x y /\ on_wall Lx Ly 0 a x y 0 /\ on_wall Lx Ly 0 b x y 0) /\
  (exists p, origin2 (fine_corner m) = Ok p /\ node_at X p 0 0).
Proof. exact alias_finelayer. Qed.
Print Assumptions C79_quad4_finelayer.
Example C79_ex2 : forall h, match FineLayer_init 9 17 h 1 with Some (Ok m) =>
  option_map (fine_corner m) (corner2_method Right Bottom) = Some (Ok 3) /\ option_map (fine_corner m) (corner2_method Bottom Left) = Some (Ok 0) | _ => False end.
Proof. intros h. vm_compute. repeat split. Qed.
