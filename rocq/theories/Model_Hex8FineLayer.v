(** Model of Hex8::FineLayer (MeshHex8.h:613-2290).

    The conventions are those of Model_FineLayer: arrays filled by loops are written entry by entry ([loop_fill]), rows
    and entries that are written with a running index ([ret(j) = ..; ++j]) are collected in a list that must fill the
    allocated array ([fill_rows]).  [layer_nelx - 1], [layer_nelz - 1], [layer_nelx * 3 - 1] and [nely - 1] are written
    with the subtraction of natural numbers (truncated): the theorems are about meshes with at least one element in each
    direction, for which nothing is truncated. *)
From Coq Require Import Reals ZArith.
From Verif Require Import Base Model_Numbering Model_Regular2d Model_FineLayer Model_Hex8Regular.

(** MeshHex8.h:2274-2290 *)
Record HexFineLayer := mkHFL {
  g_h : R; g_nelem : nat; g_nnode : nat; g_Lx : R; g_Lz : R;
  g_layer_nelx : list nat; g_layer_nelz : list nat; g_nnd : list nat;
  g_nhx : list nat; g_nhy : list nat; g_nhz : list nat; g_refine : list Z;
  g_startElem : list nat; g_startNode : list nat }.

(** the temporaries of the constructor *)
Record half3 := mkHalf3 { t3_nhx : list nat; t3_nhy : list nat; t3_nhz : list nat; t3_refine : list Z; t3_ntot : nat }.

(** MeshHex8.h:690-716: coarsen in x-direction, and if possible the next layer in z-direction; the result includes the
    index of the current layer *)
Definition coarsen_x (nelz nely nmin iy : nat) (s : half3) : res (half3 * nat) :=
  do r <- set (t3_refine s) iy 0%Z;
  do y <- get (t3_nhy s) iy;
  do nhy <- set (t3_nhy s) iy (y * 2);
  let nhy := mul_from (iy + 1) 3 nhy in
  let nhx := mul_from iy 3 (t3_nhx s) in
  do y <- get nhy iy;
  if (iy + 1 <? nely) && (t3_ntot s + 2 * y <? nmin) then
    do z <- get (t3_nhz s) (iy + 1);
    if nelz mod (3 * z) =? 0 then
      let ntot := t3_ntot s + y in
      let iy := iy + 1 in
      do r <- set r iy 2%Z;
      do y <- get nhy (iy - 1);
      do nhy <- set nhy iy y;
      Ok (mkHalf3 nhx nhy (mul_from iy 3 (t3_nhz s)) r ntot, iy)
    else Ok (mkHalf3 nhx nhy (t3_nhz s) r (t3_ntot s), iy)
  else Ok (mkHalf3 nhx nhy (t3_nhz s) r (t3_ntot s), iy).

(** MeshHex8.h:718-727: coarsen in z-direction *)
Definition coarsen_z (iy : nat) (s : half3) : res (half3 * nat) :=
  do r <- set (t3_refine s) iy 2%Z;
  do y <- get (t3_nhy s) iy;
  do nhy <- set (t3_nhy s) iy (y * 2);
  Ok (mkHalf3 (t3_nhx s) (mul_from (iy + 1) 3 nhy) (mul_from iy 3 (t3_nhz s)) r (t3_ntot s), iy).

(** MeshHex8.h:689-727: the rules *)
Definition coarsen3 (nelx nelz nely nmin iy : nat) (s : half3) : res (half3 * nat) :=
  do y <- get (t3_nhy s) iy; do x <- get (t3_nhx s) iy; do z <- get (t3_nhz s) iy;
  if (3 * y <=? t3_ntot s) && (nelx mod (3 * x) =? 0) && (t3_ntot s + y <? nmin) then coarsen_x nelz nely nmin iy s
  else if (3 * y <=? t3_ntot s) && (nelz mod (3 * z) =? 0) && (t3_ntot s + y <? nmin) then coarsen_z iy s
  else Ok (s, iy).

(** MeshHex8.h:679-738: the loop; [fuel] bounds the number of iterations: [None] if it runs out *)
Fixpoint init_loop3 (fuel nelx nelz nely nmin iy : nat) (s : half3) : option (res (half3 * nat)) :=
  match fuel with
  | O => None
  | S fuel =>
      if (nely <=? iy) || (nmin <=? t3_ntot s) then Some (Ok (s, iy))
      else
        match (do r <- coarsen3 nelx nelz nely nmin iy s;
               let '(s1, iy1) := r in
               do y <- get (t3_nhy s1) iy1;
               Ok (mkHalf3 (t3_nhx s1) (t3_nhy s1) (t3_nhz s1) (t3_refine s1) (t3_ntot s1 + y), iy1 + 1)) with
        | Ok (s2, iy2) =>
            if (nely <=? iy2) || (nmin <=? t3_ntot s2) then Some (Ok (s2, iy2)) else init_loop3 fuel nelx nelz nely nmin iy2 s2
        | Oob => Some Oob | Uninit => Some Uninit | Throw => Some Throw
        end
  end.

(** MeshHex8.h:792-846: one layer; [c]: 3 below, 5 from the middle upwards *)
Definition start_layer3 (nx nz : list nat) (refine : list Z) (c : nat) (s : starts) (i : nat) : res starts :=
  do x <- get nx i; do z <- get nz i; do r <- get refine i;
  let nnode := s_nnode s + (if (r =? 0)%Z then (c * x + 1) * (z + 1) else if (r =? 2)%Z then (x + 1) * (c * z + 1) else (x + 1) * (z + 1)) in
  let nelem := s_nelem s + (if (r =? 0)%Z then 4 * x * z else if (r =? 2)%Z then x * (4 * z) else x * z) in
  Ok (mkStarts nnode nelem (s_elem s ++ [(i, s_nelem s)]) (s_node s ++ [(i + 1, nnode)])).

(** MeshHex8.h:740-848: everything that follows the loop *)
Definition finish3 (nelx nelz : nat) (h : R) (s : half3) (half_nely : nat) : res HexFineLayer :=
  do nhx <- symmetrise half_nely (t3_nhx s);
  do nhy <- symmetrise half_nely (t3_nhy s);
  do nhz <- symmetrise half_nely (t3_nhz s);
  do refine <- symmetrise half_nely (t3_refine s);
  let nely := length nhx in
  do nx <- mapM (fun iy => do x <- get nhx iy; Ok (nelx / x)) (seq 0 nely);
  do nz <- mapM (fun iy => do z <- get nhz iy; Ok (nelz / z)) (seq 0 nely);
  do nnd_lo <- mapM (fun iy => do x <- get nx iy; do z <- get nz iy; Ok (iy, (x + 1) * (z + 1))) (seq 0 ((nely + 1) / 2));
  do nnd_up <- mapM (fun iy => do x <- get nx iy; do z <- get nz iy; Ok (iy + 1, (x + 1) * (z + 1)))
                 (seq ((nely - 1) / 2) (nely - (nely - 1) / 2));
  do nnd <- loop_fill (half_nely * 2) (nnd_lo ++ nnd_up);
  do st <- foldM (start_layer3 nx nz refine 3) (seq 0 ((nely - 1) / 2)) (mkStarts 0 0 [] [(0, 0)]);
  do st <- foldM (start_layer3 nx nz refine 5) (seq ((nely - 1) / 2) (nely - (nely - 1) / 2)) st;
  do startElem <- loop_fill (half_nely * 2 - 1) (s_elem st);
  do startNode <- loop_fill (half_nely * 2) (s_node st);
  do x <- get nx (nely - 1); do z <- get nz (nely - 1);
  Ok (mkHFL h (s_nelem st) (s_nnode st + (x + 1) * (z + 1)) (h * INR nelx)%R (h * INR nelz)%R nx nz nnd nhx nhy nhz refine startElem startNode).

(** MeshHex8.h:627-849: the constructor; nmin and nfine (651-674) are computed as in Quad4::FineLayer *)
Definition HexFineLayer_init (nelx nely nelz : nat) (h : R) (nfine : nat) : option (res HexFineLayer) :=
  let nmin := init_nmin nely in
  let nfine := init_nfine nfine nmin in
  match init_loop3 (S nely) nelx nelz nely nmin nfine
          (mkHalf3 (repeat 1 nely) (repeat 1 nely) (repeat 1 nely) (repeat (-1)%Z nely) nfine) with
  | Some (Ok (s, half_nely)) => Some (finish3 nelx nelz h s half_nely)
  | Some Oob => Some Oob | Some Uninit => Some Uninit | Some Throw => Some Throw
  | None => None
  end.

Section Methods.
Variable m : HexFineLayer.

(** number of layers ([m_nhy.size()]) *)
Definition g_layers : nat := length (g_nhy m).

(** MeshHex8.h:874-887 *)
Definition g_nelx : nat := amax (g_layer_nelx m).
Definition g_nely : nat := fold_right Nat.add 0 (g_nhy m).
Definition g_nelz : nat := amax (g_layer_nelz m).

(** MeshHex8.h:854-869 *)
Definition g_elementsMiddleLayer : res (list nat) :=
  let y := (g_layers - 1) / 2 in
  do nx <- get (g_layer_nelx m) y; do nz <- get (g_layer_nelz m) y; do s <- get (g_startElem m) y;
  do a <- write_all (repeat None (nx * nz)) (forin2 (seq 0 nx) (seq 0 nz) (fun x z => (x + z * nx, Some (s + x + z * nx))));
  mapM (fun i => get_init a i) (seq 0 (nx * nz)).

(** MeshHex8.h:905-912: [y(iy)], the running sum *)
Definition g_y (iy : nat) : R := fold_left (fun y n => y + INR n * g_h m)%R (firstn iy (g_nhy m)) 0%R.

(** MeshHex8.h:917-932 and 974-976, 1013-1021: a plane of nodes along layer [iy], at height [y(j)] *)
Definition node_plane (iy j : nat) : res (list (list R)) :=
  do nx <- get (g_layer_nelx m) iy; do nz <- get (g_layer_nelz m) iy;
  let x := linspace 0 (g_Lx m) (nx + 1) in
  let z := linspace 0 (g_Lz m) (nz + 1) in
  Ok (forin2 (seq 0 (nz + 1)) (seq 0 (nx + 1)) (fun iz ix => [x ix; g_y j; z iz])).

(** MeshHex8.h:939-971 and 978-1011: nodes of the intermediate layer *)
Definition node_mid3 (iy : nat) : res (list (list R)) :=
  do r <- get (g_refine m) iy;
  do nx <- get (g_layer_nelx m) iy; do nz <- get (g_layer_nelz m) iy;
  do nhx <- get (g_nhx m) iy; do nhy <- get (g_nhy m) iy; do nhz <- get (g_nhz m) iy;
  let x := linspace 0 (g_Lx m) (nx + 1) in
  let z := linspace 0 (g_Lz m) (nz + 1) in
  let dx := (g_h m * INR (nhx / 3))%R in
  let dy := (g_h m * INR (nhy / 2))%R in
  let dz := (g_h m * INR (nhz / 3))%R in
  if (r =? 0)%Z then
    Ok (forin3 (seq 0 (nz + 1)) (seq 0 nx) (seq 0 2) (fun iz ix j => [x ix + dx * INR (j + 1); g_y iy + dy; z iz]%R))
  else if (r =? 2)%Z then
    Ok (forin3 (seq 0 nz) (seq 0 2) (seq 0 (nx + 1)) (fun iz j ix => [x ix; g_y iy + dy; z iz + dz * INR (j + 1)]%R))
  else Ok [].

(** MeshHex8.h:893-1027 [coor_impl]; the first loop ends with the break at [iy == (nely - 1) / 2] *)
Definition g_coor : res (list (list R)) :=
  let nely := g_layers in
  do lo <- concatM (fun iy =>
      do bot <- node_plane iy iy;
      if iy =? (nely - 1) / 2 then Ok bot else do mid <- node_mid3 iy; Ok (bot ++ mid))
    (seq 0 ((nely - 1) / 2 + 1));
  do up <- concatM (fun iy => do mid <- node_mid3 iy; do top <- node_plane iy (iy + 1); Ok (mid ++ top))
    (seq ((nely - 1) / 2) (nely - (nely - 1) / 2));
  fill_rows (g_nnode m) (lo ++ up).

(** MeshHex8.h:1040-1254: the elements of layer [iy] *)
Definition layer_conn3 (iy : nat) : res (list (list nat)) :=
  let nely := g_layers in
  do bot <- get (g_startNode m) iy; do nnd <- get (g_nnd m) iy; do top <- get (g_startNode m) (iy + 1);
  let mid := bot + nnd in
  do r <- get (g_refine m) iy; do nx <- get (g_layer_nelx m) iy; do nz <- get (g_layer_nelz m) iy;
  if (r =? -1)%Z then
    Ok (forin2 (seq 0 nz) (seq 0 nx) (fun iz ix =>
      [bot + ix + iz * (nx + 1);
       bot + (ix + 1) + iz * (nx + 1);
       top + (ix + 1) + iz * (nx + 1);
       top + ix + iz * (nx + 1);
       bot + ix + (iz + 1) * (nx + 1);
       bot + (ix + 1) + (iz + 1) * (nx + 1);
       top + (ix + 1) + (iz + 1) * (nx + 1);
       top + ix + (iz + 1) * (nx + 1)]))
  else if (r =? 0)%Z && (iy <=? (nely - 1) / 2) then
    Ok (concat (forin2 (seq 0 nz) (seq 0 nx) (fun iz ix =>
      [ [bot + ix + iz * (nx + 1);
         bot + (ix + 1) + iz * (nx + 1);
         mid + (2 * ix + 1) + iz * (2 * nx);
         mid + (2 * ix) + iz * (2 * nx);
         bot + ix + (iz + 1) * (nx + 1);
         bot + (ix + 1) + (iz + 1) * (nx + 1);
         mid + (2 * ix + 1) + (iz + 1) * (2 * nx);
         mid + (2 * ix) + (iz + 1) * (2 * nx)];
        [bot + (ix + 1) + iz * (nx + 1);
         top + (3 * ix + 3) + iz * (3 * nx + 1);
         top + (3 * ix + 2) + iz * (3 * nx + 1);
         mid + (2 * ix + 1) + iz * (2 * nx);
         bot + (ix + 1) + (iz + 1) * (nx + 1);
         top + (3 * ix + 3) + (iz + 1) * (3 * nx + 1);
         top + (3 * ix + 2) + (iz + 1) * (3 * nx + 1);
         mid + (2 * ix + 1) + (iz + 1) * (2 * nx)];
        [mid + (2 * ix) + iz * (2 * nx);
         mid + (2 * ix + 1) + iz * (2 * nx);
         top + (3 * ix + 2) + iz * (3 * nx + 1);
         top + (3 * ix + 1) + iz * (3 * nx + 1);
         mid + (2 * ix) + (iz + 1) * (2 * nx);
         mid + (2 * ix + 1) + (iz + 1) * (2 * nx);
         top + (3 * ix + 2) + (iz + 1) * (3 * nx + 1);
         top + (3 * ix + 1) + (iz + 1) * (3 * nx + 1)];
        [bot + ix + iz * (nx + 1);
         mid + (2 * ix) + iz * (2 * nx);
         top + (3 * ix + 1) + iz * (3 * nx + 1);
         top + (3 * ix) + iz * (3 * nx + 1);
         bot + ix + (iz + 1) * (nx + 1);
         mid + (2 * ix) + (iz + 1) * (2 * nx);
         top + (3 * ix + 1) + (iz + 1) * (3 * nx + 1);
         top + (3 * ix) + (iz + 1) * (3 * nx + 1)] ])))
  else if (r =? 0)%Z && ((nely - 1) / 2 <? iy) then
    Ok (concat (forin2 (seq 0 nz) (seq 0 nx) (fun iz ix =>
      [ [bot + (3 * ix) + iz * (3 * nx + 1);
         bot + (3 * ix + 1) + iz * (3 * nx + 1);
         mid + (2 * ix) + iz * (2 * nx);
         top + ix + iz * (nx + 1);
         bot + (3 * ix) + (iz + 1) * (3 * nx + 1);
         bot + (3 * ix + 1) + (iz + 1) * (3 * nx + 1);
         mid + (2 * ix) + (iz + 1) * (2 * nx);
         top + ix + (iz + 1) * (nx + 1)];
        [bot + (3 * ix + 1) + iz * (3 * nx + 1);
         bot + (3 * ix + 2) + iz * (3 * nx + 1);
         mid + (2 * ix + 1) + iz * (2 * nx);
         mid + (2 * ix) + iz * (2 * nx);
         bot + (3 * ix + 1) + (iz + 1) * (3 * nx + 1);
         bot + (3 * ix + 2) + (iz + 1) * (3 * nx + 1);
         mid + (2 * ix + 1) + (iz + 1) * (2 * nx);
         mid + (2 * ix) + (iz + 1) * (2 * nx)];
        [bot + (3 * ix + 2) + iz * (3 * nx + 1);
         bot + (3 * ix + 3) + iz * (3 * nx + 1);
         top + (ix + 1) + iz * (nx + 1);
         mid + (2 * ix + 1) + iz * (2 * nx);
         bot + (3 * ix + 2) + (iz + 1) * (3 * nx + 1);
         bot + (3 * ix + 3) + (iz + 1) * (3 * nx + 1);
         top + (ix + 1) + (iz + 1) * (nx + 1);
         mid + (2 * ix + 1) + (iz + 1) * (2 * nx)];
        [mid + (2 * ix) + iz * (2 * nx);
         mid + (2 * ix + 1) + iz * (2 * nx);
         top + (ix + 1) + iz * (nx + 1);
         top + ix + iz * (nx + 1);
         mid + (2 * ix) + (iz + 1) * (2 * nx);
         mid + (2 * ix + 1) + (iz + 1) * (2 * nx);
         top + (ix + 1) + (iz + 1) * (nx + 1);
         top + ix + (iz + 1) * (nx + 1)] ])))
  else if (r =? 2)%Z && (iy <=? (nely - 1) / 2) then
    Ok (concat (forin2 (seq 0 nz) (seq 0 nx) (fun iz ix =>
      [ [bot + ix + iz * (nx + 1);
         bot + ix + (iz + 1) * (nx + 1);
         bot + (ix + 1) + (iz + 1) * (nx + 1);
         bot + (ix + 1) + iz * (nx + 1);
         mid + ix + 2 * iz * (nx + 1);
         mid + ix + (2 * iz + 1) * (nx + 1);
         mid + (ix + 1) + (2 * iz + 1) * (nx + 1);
         mid + (ix + 1) + 2 * iz * (nx + 1)];
        [mid + ix + (2 * iz + 1) * (nx + 1);
         mid + (ix + 1) + (2 * iz + 1) * (nx + 1);
         top + (ix + 1) + (3 * iz + 2) * (nx + 1);
         top + ix + (3 * iz + 2) * (nx + 1);
         bot + ix + (iz + 1) * (nx + 1);
         bot + (ix + 1) + (iz + 1) * (nx + 1);
         top + (ix + 1) + (3 * iz + 3) * (nx + 1);
         top + ix + (3 * iz + 3) * (nx + 1)];
        [mid + ix + (2 * iz) * (nx + 1);
         mid + (ix + 1) + (2 * iz) * (nx + 1);
         top + (ix + 1) + (3 * iz + 1) * (nx + 1);
         top + ix + (3 * iz + 1) * (nx + 1);
         mid + ix + (2 * iz + 1) * (nx + 1);
         mid + (ix + 1) + (2 * iz + 1) * (nx + 1);
         top + (ix + 1) + (3 * iz + 2) * (nx + 1);
         top + ix + (3 * iz + 2) * (nx + 1)];
        [bot + ix + iz * (nx + 1);
         bot + (ix + 1) + iz * (nx + 1);
         top + (ix + 1) + (3 * iz) * (nx + 1);
         top + ix + (3 * iz) * (nx + 1);
         mid + ix + (2 * iz) * (nx + 1);
         mid + (ix + 1) + (2 * iz) * (nx + 1);
         top + (ix + 1) + (3 * iz + 1) * (nx + 1);
         top + ix + (3 * iz + 1) * (nx + 1)] ])))
  else if (r =? 2)%Z && ((nely - 1) / 2 <? iy) then
    Ok (concat (forin2 (seq 0 nz) (seq 0 nx) (fun iz ix =>
      [ [bot + ix + (3 * iz) * (nx + 1);
         bot + (ix + 1) + (3 * iz) * (nx + 1);
         top + (ix + 1) + iz * (nx + 1);
         top + ix + iz * (nx + 1);
         bot + ix + (3 * iz + 1) * (nx + 1);
         bot + (ix + 1) + (3 * iz + 1) * (nx + 1);
         mid + (ix + 1) + (2 * iz) * (nx + 1);
         mid + ix + (2 * iz) * (nx + 1)];
        [bot + ix + (3 * iz + 1) * (nx + 1);
         bot + (ix + 1) + (3 * iz + 1) * (nx + 1);
         mid + (ix + 1) + (2 * iz) * (nx + 1);
         mid + ix + (2 * iz) * (nx + 1);
         bot + ix + (3 * iz + 2) * (nx + 1);
         bot + (ix + 1) + (3 * iz + 2) * (nx + 1);
         mid + (ix + 1) + (2 * iz + 1) * (nx + 1);
         mid + ix + (2 * iz + 1) * (nx + 1)];
        [bot + ix + (3 * iz + 2) * (nx + 1);
         bot + (ix + 1) + (3 * iz + 2) * (nx + 1);
         mid + (ix + 1) + (2 * iz + 1) * (nx + 1);
         mid + ix + (2 * iz + 1) * (nx + 1);
         bot + ix + (3 * iz + 3) * (nx + 1);
         bot + (ix + 1) + (3 * iz + 3) * (nx + 1);
         top + (ix + 1) + (iz + 1) * (nx + 1);
         top + ix + (iz + 1) * (nx + 1)];
        [mid + ix + (2 * iz) * (nx + 1);
         mid + (ix + 1) + (2 * iz) * (nx + 1);
         top + (ix + 1) + iz * (nx + 1);
         top + ix + iz * (nx + 1);
         mid + ix + (2 * iz + 1) * (nx + 1);
         mid + (ix + 1) + (2 * iz + 1) * (nx + 1);
         top + (ix + 1) + (iz + 1) * (nx + 1);
         top + ix + (iz + 1) * (nx + 1)] ])))
  else Ok [].

(** MeshHex8.h:1029-1257 [conn_impl] *)
Definition g_conn : res (list (list nat)) :=
  do rows <- concatM layer_conn3 (seq 0 g_layers); fill_rows (g_nelem m) rows.

(** sums of loops [for (i ..) { n += f(i); }] *)
Definition sumM (f : nat -> res nat) (l : list nat) : res nat := do r <- mapM f l; Ok (fold_right Nat.add 0 r).

(** the two loops that the sides have in common, over the layers [a, (nely + 1) / 2) and [(nely - 1) / 2, b):
    [size iy] is what a layer adds to the size of the result, [row start iy] the nodes of layer [iy] in the plane of
    nodes with first node [start], [mid iy] those of its intermediate layer *)
Definition side (a b : nat) (size : nat -> res nat) (row : nat -> nat -> res (list nat)) (mid : nat -> res (list nat)) : res (list nat) :=
  let nely := g_layers in
  do n1 <- sumM size (arange a ((nely + 1) / 2));
  do n2 <- sumM size (arange ((nely - 1) / 2) b);
  do lo <- concatM (fun iy => do s <- get (g_startNode m) iy; do r <- row s iy; do q <- mid iy; Ok (r ++ q)) (arange a ((nely + 1) / 2));
  do up <- concatM (fun iy => do q <- mid iy; do s <- get (g_startNode m) (iy + 1); do r <- row s iy; Ok (q ++ r)) (arange ((nely - 1) / 2) b);
  fill_rows (n1 + n2) (lo ++ up).

(** [n += nel(iy) * 3 + c] in refinement layers of type [t], [n += nel(iy) + c] otherwise, [c] = 1 or (open) -1 *)
Definition side_size (nel : list nat) (t : Z) (op : bool) (iy : nat) : res nat :=
  do r <- get (g_refine m) iy; do n <- get nel iy;
  let k := if (r =? t)%Z then n * 3 else n in Ok (if op then k - 1 else k + 1).

(** indices along the side: [0, n] or (open) [1, n) *)
Definition side_range (op : bool) (n : nat) : list nat := if op then arange 1 n else arange 0 (n + 1).

(** MeshHex8.h:1283-1292, 1350-1360: planes of nodes at the front and at the back *)
Definition row_front (op : bool) (s iy : nat) : res (list nat) :=
  do nx <- get (g_layer_nelx m) iy; Ok (map (fun ix => s + ix) (side_range op nx)).
Definition row_back (op : bool) (s iy : nat) : res (list nat) :=
  do nx <- get (g_layer_nelx m) iy; do nz <- get (g_layer_nelz m) iy; Ok (map (fun ix => s + ix + (nx + 1) * nz) (side_range op nx)).
Definition mid_front (iy : nat) : res (list nat) :=
  do r <- get (g_refine m) iy;
  if (r =? 0)%Z then
    do nx <- get (g_layer_nelx m) iy; do s <- get (g_startNode m) iy; do nnd <- get (g_nnd m) iy;
    Ok (map (fun ix => s + ix + nnd) (arange 0 (2 * nx)))
  else Ok [].
Definition mid_back (iy : nat) : res (list nat) :=
  do r <- get (g_refine m) iy;
  if (r =? 0)%Z then
    do nx <- get (g_layer_nelx m) iy; do nz <- get (g_layer_nelz m) iy; do s <- get (g_startNode m) iy; do nnd <- get (g_nnd m) iy;
    Ok (map (fun ix => s + ix + nnd + 2 * nx * nz) (arange 0 (2 * nx)))
  else Ok [].
(** MeshHex8.h:1422-1450, 1489-1522: left and right *)
Definition row_left (op : bool) (s iy : nat) : res (list nat) :=
  do nx <- get (g_layer_nelx m) iy; do nz <- get (g_layer_nelz m) iy; Ok (map (fun iz => s + iz * (nx + 1)) (side_range op nz)).
Definition row_right (op : bool) (s iy : nat) : res (list nat) :=
  do nx <- get (g_layer_nelx m) iy; do nz <- get (g_layer_nelz m) iy; Ok (map (fun iz => s + iz * (nx + 1) + nx) (side_range op nz)).
Definition mid_left (iy : nat) : res (list nat) :=
  do r <- get (g_refine m) iy;
  if (r =? 2)%Z then
    do nx <- get (g_layer_nelx m) iy; do nz <- get (g_layer_nelz m) iy; do s <- get (g_startNode m) iy; do nnd <- get (g_nnd m) iy;
    Ok (map (fun iz => s + iz * (nx + 1) + nnd) (arange 0 (2 * nz)))
  else Ok [].
Definition mid_right (iy : nat) : res (list nat) :=
  do r <- get (g_refine m) iy;
  if (r =? 2)%Z then
    do nx <- get (g_layer_nelx m) iy; do nz <- get (g_layer_nelz m) iy; do s <- get (g_startNode m) iy; do nnd <- get (g_nnd m) iy;
    Ok (map (fun iz => s + nnd + iz * (nx + 1) + nx) (arange 0 (2 * nz)))
  else Ok [].

(** MeshHex8.h:1259-1325, 1327-1395, 1397-1463, 1465-1529 *)
Definition g_nodesFront := side 0 g_layers (side_size (g_layer_nelx m) 0 false) (row_front false) mid_front.
Definition g_nodesBack := side 0 g_layers (side_size (g_layer_nelx m) 0 false) (row_back false) mid_back.
Definition g_nodesLeft := side 0 g_layers (side_size (g_layer_nelz m) 2 false) (row_left false) mid_left.
Definition g_nodesRight := side 0 g_layers (side_size (g_layer_nelz m) 2 false) (row_right false) mid_right.

(** MeshHex8.h:1575-1641, 1643-1711, 1713-1779, 1781-1849: without the edges; layers 1, ... and ..., nely - 2 *)
Definition g_nodesFrontFace := side 1 (g_layers - 1) (side_size (g_layer_nelx m) 0 true) (row_front true) mid_front.
Definition g_nodesBackFace := side 1 (g_layers - 1) (side_size (g_layer_nelx m) 0 true) (row_back true) mid_back.
Definition g_nodesLeftFace := side 1 (g_layers - 1) (side_size (g_layer_nelz m) 2 true) (row_left true) mid_left.
Definition g_nodesRightFace := side 1 (g_layers - 1) (side_size (g_layer_nelz m) 2 true) (row_right true) mid_right.

(** MeshHex8.h:1531-1551, 1553-1573: the size is [m_nnd(nely)] for both *)
Definition g_plane (start layer : nat) : res (list nat) :=
  do n <- get (g_nnd m) g_layers;
  do s <- get (g_startNode m) start; do nx <- get (g_layer_nelx m) layer; do nz <- get (g_layer_nelz m) layer;
  fill_rows n (forin2 (seq 0 (nx + 1)) (seq 0 (nz + 1)) (fun ix iz => s + ix + iz * (nx + 1))).
Definition g_nodesBottom := g_plane 0 0.
Definition g_nodesTop := g_plane g_layers (g_layers - 1).

(** MeshHex8.h:1851-1869, 1871-1892 *)
Definition g_open_plane (start layer : nat) : res (list nat) :=
  do s <- get (g_startNode m) start; do nx <- get (g_layer_nelx m) layer; do nz <- get (g_layer_nelz m) layer;
  fill_rows ((nx - 1) * (nz - 1)) (forin2 (arange 1 nx) (arange 1 nz) (fun ix iz => s + ix + iz * (nx + 1))).
Definition g_nodesBottomFace := g_open_plane 0 0.
Definition g_nodesTopFace := g_open_plane g_layers (g_layers - 1).

(** edges along x: MeshHex8.h:1894-1903, 1905-1916, 1952-1961, 1963-1975 and (open) 2062-2084, 2120-2143 *)
Definition edge_x (op back : bool) (start layer : nat) : res (list nat) :=
  do s <- get (g_startNode m) start; do nx <- get (g_layer_nelx m) layer; do nz <- get (g_layer_nelz m) layer;
  Ok (map (fun ix => if back then s + ix + (nx + 1) * nz else s + ix) (side_range op nx)).
Definition g_nodesFrontBottomEdge := edge_x false false 0 0.
Definition g_nodesFrontTopEdge := edge_x false false g_layers (g_layers - 1).
Definition g_nodesBackBottomEdge := edge_x false true 0 0.
Definition g_nodesBackTopEdge := edge_x false true g_layers (g_layers - 1).
Definition g_nodesFrontBottomOpenEdge := edge_x true false 0 0.
Definition g_nodesFrontTopOpenEdge := edge_x true false g_layers (g_layers - 1).
Definition g_nodesBackBottomOpenEdge := edge_x true true 0 0.
Definition g_nodesBackTopOpenEdge := edge_x true true g_layers (g_layers - 1).

(** edges along z: MeshHex8.h:2013-2060 and (open) 2181-2228 *)
Definition edge_z (op right : bool) (start layer : nat) : res (list nat) :=
  do s <- get (g_startNode m) start; do nx <- get (g_layer_nelx m) layer; do nz <- get (g_layer_nelz m) layer;
  Ok (map (fun iz => if right then s + nx + iz * (nx + 1) else s + iz * (nx + 1)) (side_range op nz)).
Definition g_nodesBottomLeftEdge := edge_z false false 0 0.
Definition g_nodesBottomRightEdge := edge_z false true 0 0.
Definition g_nodesTopLeftEdge := edge_z false false g_layers (g_layers - 1).
Definition g_nodesTopRightEdge := edge_z false true g_layers (g_layers - 1).
Definition g_nodesBottomLeftOpenEdge := edge_z true false 0 0.
Definition g_nodesBottomRightOpenEdge := edge_z true true 0 0.
Definition g_nodesTopLeftOpenEdge := edge_z true false g_layers (g_layers - 1).
Definition g_nodesTopRightOpenEdge := edge_z true true g_layers (g_layers - 1).

(** edges along y: MeshHex8.h:1918-1950, 1977-2011 and (open) 2086-2118, 2145-2179; [f s iy]: the node of the plane with
    first node [s] *)
Definition edge_y (f : nat -> nat -> res nat) : res (list nat) :=
  let nely := g_layers in
  do lo <- mapM (fun iy => do s <- get (g_startNode m) iy; do p <- f s iy; Ok (iy, p)) (arange 0 ((nely + 1) / 2));
  do up <- mapM (fun iy => do s <- get (g_startNode m) (iy + 1); do p <- f s iy; Ok (iy + 1, p)) (arange ((nely - 1) / 2) nely);
  loop_fill (nely + 1) (lo ++ up).
Definition open_edge_y (f : nat -> nat -> res nat) : res (list nat) :=
  let nely := g_layers in
  do lo <- mapM (fun iy => do s <- get (g_startNode m) iy; do p <- f s iy; Ok (iy - 1, p)) (arange 1 ((nely + 1) / 2));
  do up <- mapM (fun iy => do s <- get (g_startNode m) (iy + 1); do p <- f s iy; Ok (iy, p)) (arange ((nely - 1) / 2) (nely - 1));
  loop_fill (nely - 1) (lo ++ up).
Definition at_fl (s iy : nat) : res nat := Ok s.
Definition at_fr (s iy : nat) : res nat := do nx <- get (g_layer_nelx m) iy; Ok (s + nx).
Definition at_bl (s iy : nat) : res nat := do nx <- get (g_layer_nelx m) iy; do nz <- get (g_layer_nelz m) iy; Ok (s + (nx + 1) * nz).
Definition at_br (s iy : nat) : res nat := do nx <- get (g_layer_nelx m) iy; do nz <- get (g_layer_nelz m) iy; Ok (s + nx + (nx + 1) * nz).
Definition g_nodesFrontLeftEdge := edge_y at_fl.
Definition g_nodesFrontRightEdge := edge_y at_fr.
Definition g_nodesBackLeftEdge := edge_y at_bl.
Definition g_nodesBackRightEdge := edge_y at_br.
Definition g_nodesFrontLeftOpenEdge := open_edge_y at_fl.
Definition g_nodesFrontRightOpenEdge := open_edge_y at_fr.
Definition g_nodesBackLeftOpenEdge := open_edge_y at_bl.
Definition g_nodesBackRightOpenEdge := open_edge_y at_br.

(** MeshHex8.h:2230-2272: corners *)
Definition corner_of (f : nat -> nat -> res nat) (start layer : nat) : res nat := do s <- get (g_startNode m) start; f s layer.
Definition g_nodesFrontBottomLeftCorner := corner_of at_fl 0 0.
Definition g_nodesFrontBottomRightCorner := corner_of at_fr 0 0.
Definition g_nodesFrontTopLeftCorner := corner_of at_fl g_layers (g_layers - 1).
Definition g_nodesFrontTopRightCorner := corner_of at_fr g_layers (g_layers - 1).
Definition g_nodesBackBottomLeftCorner := corner_of at_bl 0 0.
Definition g_nodesBackBottomRightCorner := corner_of at_br 0 0.
Definition g_nodesBackTopLeftCorner := corner_of at_bl g_layers (g_layers - 1).
Definition g_nodesBackTopRightCorner := corner_of at_br g_layers (g_layers - 1).

(** the boundary that RegularBase3d uses, see Model_Hex8Regular *)
Definition g_boundary : res boundary3d :=
  do f1 <- g_nodesFrontFace; do f2 <- g_nodesBackFace; do f3 <- g_nodesLeftFace;
  do f4 <- g_nodesRightFace; do f5 <- g_nodesBottomFace; do f6 <- g_nodesTopFace;
  do e1 <- g_nodesFrontBottomOpenEdge; do e2 <- g_nodesFrontTopOpenEdge; do e3 <- g_nodesFrontLeftOpenEdge; do e4 <- g_nodesFrontRightOpenEdge;
  do e5 <- g_nodesBackBottomOpenEdge; do e6 <- g_nodesBackTopOpenEdge; do e7 <- g_nodesBackLeftOpenEdge; do e8 <- g_nodesBackRightOpenEdge;
  do e9 <- g_nodesBottomLeftOpenEdge; do e10 <- g_nodesBottomRightOpenEdge; do e11 <- g_nodesTopLeftOpenEdge; do e12 <- g_nodesTopRightOpenEdge;
  do c1 <- g_nodesFrontBottomLeftCorner; do c2 <- g_nodesFrontBottomRightCorner; do c3 <- g_nodesFrontTopLeftCorner; do c4 <- g_nodesFrontTopRightCorner;
  do c5 <- g_nodesBackBottomLeftCorner; do c6 <- g_nodesBackBottomRightCorner; do c7 <- g_nodesBackTopLeftCorner; do c8 <- g_nodesBackTopRightCorner;
  Ok (mkBoundary3d f1 f2 f3 f4 f5 f6 e1 e2 e3 e4 e5 e6 e7 e8 e9 e10 e11 e12 c1 c2 c3 c4 c5 c6 c7 c8).
Definition g_nodesPeriodic : res (list (nat * nat)) := do b <- g_boundary; Ok (nodesPeriodic3d b).
(** Mesh.h:291-303 for this mesh; [ndim = 3] (MeshHex8.h:631) *)
Definition g_dofsPeriodic : res (list (list nat)) := do t <- g_nodesPeriodic; dofsPeriodic (g_nnode m) 3 t.

End Methods.
