(** Model of Quad4::FineLayer (MeshQuad4.h).

    [size_t] are natural numbers, [double] real numbers (exact arithmetic), [int] integers.  Arrays
    that are created with [xt::empty] and filled by loops are written entry by entry ([loop_fill]): a
    write outside the array is [Oob], an entry that is never written is [Uninit] (reported when the
    loops are done instead of at the first read).  Rows that are written with a running index
    ([ret(inode, 0) = ..; ++inode]) are collected in a list that must fill the array ([fill_rows]). *)
From Coq Require Import Reals ZArith.
From Verif Require Import Base Model_Numbering Model_Regular2d.

Definition loop_fill {A} (n : nat) (ws : list (nat * A)) : res (list A) :=
  do a <- write_all (repeat None n) (map (fun w => (fst w, Some (snd w))) ws);
  mapM (fun i => get_init a i) (seq 0 n).
Definition fill_rows {A} (n : nat) (rows : list A) : res (list A) :=
  if n <? length rows then Oob else if length rows <? n then Uninit else Ok rows.
Definition concatM {A B} (f : A -> res (list B)) (l : list A) : res (list B) := do r <- mapM f l; Ok (concat r).

(** MeshQuad4.h:884-895 *)
Record FineLayer := mkFL {
  f_h : R; f_nelem : nat; f_nnode : nat; f_Lx : R;
  f_layer_nelx : list nat; f_nhx : list nat; f_nhy : list nat; f_nnd : list nat; f_refine : list Z;
  f_startElem : list nat; f_startNode : list nat }.

(** [auto v = xt::view(l, xt::range(k, _)); v *= f;] *)
Definition mul_from (k f : nat) (l : list nat) : list nat := firstn k l ++ map (fun x => x * f) (skipn k l).

(** state of the loop of [init]: the temporaries nhx, nhy, refine and ntot *)
Record half := mkHalf { t_nhx : list nat; t_nhy : list nat; t_refine : list Z; t_ntot : nat }.

(** MeshQuad4.h:957-965: coarsen in x-direction if rules (1) and (2) are satisfied *)
Definition coarsen (nelx nmin iy : nat) (s : half) : res half :=
  do y <- get (t_nhy s) iy; do x <- get (t_nhx s) iy;
  if (3 * y <=? t_ntot s) && (nelx mod (3 * x) =? 0) && (t_ntot s + y <? nmin) then
    do r <- set (t_refine s) iy 0%Z;
    do nhy <- set (t_nhy s) iy (y * 2);
    Ok (mkHalf (mul_from iy 3 (t_nhx s)) (mul_from (iy + 1) 3 nhy) r (t_ntot s))
  else Ok s.

(** MeshQuad4.h:946-976: the loop of [init]; the result is the state and the number of layers.
    [fuel] bounds the number of iterations: [None] if it runs out *)
Fixpoint init_loop (fuel nelx nely nmin iy : nat) (s : half) : option (res (half * nat)) :=
  match fuel with
  | O => None
  | S fuel =>
      if (nely <=? iy) || (nmin <=? t_ntot s) then Some (Ok (s, iy))
      else
        match (do s1 <- coarsen nelx nmin iy s; do y <- get (t_nhy s1) iy;
               Ok (mkHalf (t_nhx s1) (t_nhy s1) (t_refine s1) (t_ntot s1 + y))) with
        | Ok s2 =>
            let iy := iy + 1 in
            if (nely <=? iy) || (nmin <=? t_ntot s2) then Some (Ok (s2, iy)) else init_loop fuel nelx nely nmin iy s2
        | Oob => Some Oob | Uninit => Some Uninit | Throw => Some Throw
        end
  end.

(** MeshQuad4.h:918-924 nmin *)
Definition init_nmin (nely : nat) : nat := if nely mod 2 =? 0 then nely / 2 else (nely + 1) / 2.
(** MeshQuad4.h:926-940 nfine *)
Definition init_nfine (nfine nmin : nat) : nat :=
  let nfine := if nfine mod 2 =? 0 then nfine / 2 + 1 else (nfine + 1) / 2 in
  let nfine := if nfine <? 1 then 1 else nfine in
  if nmin <? nfine then nmin else nfine.

(** MeshQuad4.h:989-1001: symmetrise one of the temporaries; [nely]: number of layers of the half *)
Definition symmetrise {A} (nely : nat) (t : list A) : res (list A) :=
  do lo <- mapM (fun iy => do x <- get t (nely - iy - 1); Ok (iy, x)) (seq 0 nely);
  do up <- mapM (fun iy => do x <- get t (iy + 1); Ok (iy + nely, x)) (seq 0 (nely - 1));
  loop_fill (nely * 2 - 1) (lo ++ up).

(** state of the loops of MeshQuad4.h:1021-1069: nnode, nelem and the writes to startElem, startNode *)
Record starts := mkStarts { s_nnode : nat; s_nelem : nat; s_elem : list (nat * nat); s_node : list (nat * nat) }.

(** MeshQuad4.h:1027-1046, 1049-1068: one layer; [c]: 3 below, 5 from the middle upwards *)
Definition start_layer (layer_nelx : list nat) (refine : list Z) (c : nat) (s : starts) (i : nat) : res starts :=
  do n <- get layer_nelx i; do r <- get refine i;
  let nnode := s_nnode s + (if (r =? 0)%Z then c * n + 1 else n + 1) in
  let nelem := s_nelem s + (if (r =? 0)%Z then 4 * n else n) in
  Ok (mkStarts nnode nelem (s_elem s ++ [(i, s_nelem s)]) (s_node s ++ [(i + 1, nnode)])).

(** MeshQuad4.h:978-1071: everything that follows the loop *)
Definition finish (nelx : nat) (h : R) (s : half) (half_nely : nat) : res FineLayer :=
  do nhx <- symmetrise half_nely (t_nhx s);
  do nhy <- symmetrise half_nely (t_nhy s);
  do refine <- symmetrise half_nely (t_refine s);
  let nely := length nhx in
  do layer_nelx <- mapM (fun iy => do x <- get nhx iy; Ok (nelx / x)) (seq 0 nely);
  do nnd_lo <- mapM (fun iy => do n <- get layer_nelx iy; Ok (iy, n + 1)) (seq 0 ((nely + 1) / 2));
  do nnd_up <- mapM (fun iy => do n <- get layer_nelx iy; Ok (iy + 1, n + 1))
                 (seq ((nely - 1) / 2) (nely - (nely - 1) / 2));
  do nnd <- loop_fill (half_nely * 2) (nnd_lo ++ nnd_up);
  do st <- foldM (start_layer layer_nelx refine 3) (seq 0 ((nely - 1) / 2)) (mkStarts 0 0 [] [(0, 0)]);
  do st <- foldM (start_layer layer_nelx refine 5) (seq ((nely - 1) / 2) (nely - (nely - 1) / 2)) st;
  do startElem <- loop_fill (half_nely * 2 - 1) (s_elem st);
  do startNode <- loop_fill (half_nely * 2) (s_node st);
  do top <- get layer_nelx (nely - 1);
  Ok (mkFL h (s_nelem st) (s_nnode st + (top + 1)) (h * INR nelx)%R layer_nelx nhx nhy nnd refine startElem startNode).

(** MeshQuad4.h:900-1071 [init] *)
Definition FineLayer_init (nelx nely : nat) (h : R) (nfine : nat) : option (res FineLayer) :=
  let nmin := init_nmin nely in
  let nfine := init_nfine nfine nmin in
  match init_loop (S nely) nelx nely nmin nfine (mkHalf (repeat 1 nely) (repeat 1 nely) (repeat (-1)%Z nely) nfine) with
  | Some (Ok (s, half_nely)) => Some (finish nelx h s half_nely)
  | Some Oob => Some Oob | Some Uninit => Some Uninit | Some Throw => Some Throw
  | None => None
  end.

Section Methods.
Variable m : FineLayer.

(** number of layers ([m_nhy.size()]) *)
Definition f_layers : nat := length (f_nhy m).

(** MeshQuad4.h:571-579 *)
Definition f_nelx : nat := amax (f_layer_nelx m).
Definition f_nely : nat := fold_right Nat.add 0 (f_nhy m).

(** MeshQuad4.h:287-292 *)
Definition elementsMiddleLayer : res (list nat) :=
  let iy := (f_layers - 1) / 2 in
  do s <- get (f_startElem m) iy; do n <- get (f_layer_nelx m) iy; Ok (map (Nat.add s) (seq 0 n)).

(** MeshQuad4.h:299-307 *)
Definition elementsLayer (layer : nat) : res (list nat) :=
  do n <- get (f_layer_nelx m) layer; do r <- get (f_refine m) layer;
  let n := if (r =? -1)%Z then n else n * 4 in
  do s <- get (f_startElem m) layer; Ok (map (Nat.add s) (seq 0 n)).

(** MeshQuad4.h:595-603: [y(iy)], the running sum *)
Definition f_y (iy : nat) : R := fold_left (fun y n => y + INR n * f_h m)%R (firstn iy (f_nhy m)) 0%R.

(** MeshQuad4.h:609-617 and 643, 660-665: a row of nodes along layer [iy], at height [y(j)] *)
Definition node_row (iy j : nat) : res (list (list R)) :=
  do n <- get (f_layer_nelx m) iy;
  let x := linspace 0 (f_Lx m) (n + 1) in
  Ok (map (fun ix => [x ix; f_y j]) (seq 0 (n + 1))).

(** MeshQuad4.h:624-637 and 645-658: nodes of the intermediate layer, for refinement in x-direction *)
Definition node_mid (iy : nat) : res (list (list R)) :=
  do r <- get (f_refine m) iy;
  if (r =? 0)%Z then
    do n <- get (f_layer_nelx m) iy; do nhx <- get (f_nhx m) iy; do nhy <- get (f_nhy m) iy;
    let x := linspace 0 (f_Lx m) (n + 1) in
    let dx := (f_h m * INR (nhx / 3))%R in
    let dy := (f_h m * INR (nhy / 2))%R in
    Ok (flat_map (fun ix => map (fun j => [x ix + dx * INR (j + 1); f_y iy + dy]%R) (seq 0 2)) (seq 0 n))
  else Ok [].

(** MeshQuad4.h:586-670 [coor_impl]; the first loop ends with the break at [iy == (nely - 1) / 2] *)
Definition f_coor : res (list (list R)) :=
  let nely := f_layers in
  do lo <- concatM (fun iy =>
      do bot <- node_row iy iy;
      if iy =? (nely - 1) / 2 then Ok bot else do mid <- node_mid iy; Ok (bot ++ mid))
    (seq 0 ((nely - 1) / 2 + 1));
  do up <- concatM (fun iy => do mid <- node_mid iy; do top <- node_row iy (iy + 1); Ok (mid ++ top))
    (seq ((nely - 1) / 2) (nely - (nely - 1) / 2));
  fill_rows (f_nnode m) (lo ++ up).

(** MeshQuad4.h:683-759: the elements of layer [iy] *)
Definition layer_conn (iy : nat) : res (list (list nat)) :=
  let nely := f_layers in
  do bot <- get (f_startNode m) iy; do nnd <- get (f_nnd m) iy; do top <- get (f_startNode m) (iy + 1);
  let mid := bot + nnd in
  do r <- get (f_refine m) iy; do n <- get (f_layer_nelx m) iy;
  if (r =? -1)%Z then
    Ok (map (fun ix => [bot + ix; bot + (ix + 1); top + (ix + 1); top + ix]) (seq 0 n))
  else if (r =? 0)%Z && (iy <=? (nely - 1) / 2) then
    Ok (flat_map (fun ix =>
      [ [bot + ix; bot + (ix + 1); mid + (2 * ix + 1); mid + 2 * ix];
        [bot + (ix + 1); top + (3 * ix + 3); top + (3 * ix + 2); mid + (2 * ix + 1)];
        [mid + 2 * ix; mid + (2 * ix + 1); top + (3 * ix + 2); top + (3 * ix + 1)];
        [bot + ix; mid + 2 * ix; top + (3 * ix + 1); top + 3 * ix] ]) (seq 0 n))
  else if (r =? 0)%Z && ((nely - 1) / 2 <? iy) then
    Ok (flat_map (fun ix =>
      [ [bot + 3 * ix; bot + (3 * ix + 1); mid + 2 * ix; top + ix];
        [bot + (3 * ix + 1); bot + (3 * ix + 2); mid + (2 * ix + 1); mid + 2 * ix];
        [bot + (3 * ix + 2); bot + (3 * ix + 3); top + (ix + 1); mid + (2 * ix + 1)];
        [mid + 2 * ix; mid + (2 * ix + 1); top + (ix + 1); top + ix] ]) (seq 0 n))
  else Ok [].

(** MeshQuad4.h:672-762 [conn_impl] *)
Definition f_conn : res (list (list nat)) :=
  do rows <- concatM layer_conn (seq 0 f_layers); fill_rows (f_nelem m) rows.

(** MeshQuad4.h:764-773 *)
Definition f_nodesBottomEdge : res (list nat) :=
  do s <- get (f_startNode m) 0; do n <- get (f_layer_nelx m) 0; Ok (map (Nat.add s) (arange 0 (n + 1))).
Definition f_nodesTopEdge : res (list nat) :=
  do s <- get (f_startNode m) f_layers; do n <- get (f_layer_nelx m) (f_layers - 1); Ok (map (Nat.add s) (arange 0 (n + 1))).

(** assignment of [f src] for [src] in [range(a, b)] to the entries [range(c, ...)] of the result *)
Definition range_writes (a b c : nat) (f : nat -> res nat) : res (list (nat * nat)) :=
  mapM (fun i => do x <- f i; Ok (c + (i - a), x)) (arange a b).

(** MeshQuad4.h:775-810: left and right edge *)
Definition f_nodesLeftEdge : res (list nat) :=
  let nely := f_layers in
  let j := (nely + 1) / 2 in let k := (nely - 1) / 2 in let l := nely in
  do w1 <- range_writes 0 j 0 (get (f_startNode m));
  do w2 <- range_writes (k + 1) (l + 1) (k + 1) (get (f_startNode m));
  loop_fill (nely + 1) (w1 ++ w2).
Definition f_nodesRightEdge : res (list nat) :=
  let nely := f_layers in
  let j := (nely + 1) / 2 in let k := (nely - 1) / 2 in let l := nely in
  do w1 <- range_writes 0 j 0 (fun i => do s <- get (f_startNode m) i; do n <- get (f_layer_nelx m) i; Ok (s + n));
  do w2 <- range_writes (k + 1) (l + 1) (k + 1)
             (fun i => do s <- get (f_startNode m) i; do n <- get (f_layer_nelx m) (k + (i - (k + 1))); Ok (s + n));
  loop_fill (nely + 1) (w1 ++ w2).

(** MeshQuad4.h:812-822 *)
Definition f_nodesBottomOpenEdge : res (list nat) :=
  do s <- get (f_startNode m) 0; do n <- get (f_layer_nelx m) 0; Ok (map (Nat.add s) (arange 1 n)).
Definition f_nodesTopOpenEdge : res (list nat) :=
  do s <- get (f_startNode m) f_layers; do n <- get (f_layer_nelx m) (f_layers - 1); Ok (map (Nat.add s) (arange 1 n)).

(** MeshQuad4.h:824-859 *)
Definition f_nodesLeftOpenEdge : res (list nat) :=
  let nely := f_layers in
  let j := (nely + 1) / 2 in let k := (nely - 1) / 2 in let l := nely in
  do w1 <- range_writes 1 j 0 (get (f_startNode m));
  do w2 <- range_writes (k + 1) l k (get (f_startNode m));
  loop_fill (nely - 1) (w1 ++ w2).
Definition f_nodesRightOpenEdge : res (list nat) :=
  let nely := f_layers in
  let j := (nely + 1) / 2 in let k := (nely - 1) / 2 in let l := nely in
  do w1 <- range_writes 1 j 0 (fun i => do s <- get (f_startNode m) i; do n <- get (f_layer_nelx m) i; Ok (s + n));
  do w2 <- range_writes (k + 1) l k
             (fun i => do s <- get (f_startNode m) i; do n <- get (f_layer_nelx m) (k + (i - (k + 1))); Ok (s + n));
  loop_fill (nely - 1) (w1 ++ w2).

(** MeshQuad4.h:861-881 *)
Definition f_nodesBottomLeftCorner : res nat := get (f_startNode m) 0.
Definition f_nodesBottomRightCorner : res nat := do s <- get (f_startNode m) 0; do n <- get (f_layer_nelx m) 0; Ok (s + n).
Definition f_nodesTopLeftCorner : res nat := get (f_startNode m) f_layers.
Definition f_nodesTopRightCorner : res nat :=
  do s <- get (f_startNode m) f_layers; do n <- get (f_layer_nelx m) (f_layers - 1); Ok (s + n).

(** the boundary that RegularBase2d uses, see Model_Regular2d *)
Definition f_boundary : res boundary2d :=
  do bot <- f_nodesBottomOpenEdge; do top <- f_nodesTopOpenEdge;
  do lft <- f_nodesLeftOpenEdge; do rgt <- f_nodesRightOpenEdge;
  do bl <- f_nodesBottomLeftCorner; do br <- f_nodesBottomRightCorner;
  do tl <- f_nodesTopLeftCorner; do tr <- f_nodesTopRightCorner;
  Ok (mkBoundary2d bot top lft rgt bl br tl tr).
Definition f_nodesPeriodic : res (list (nat * nat)) := do b <- f_boundary; Ok (nodesPeriodic2d b).
(** Mesh.h:291-303 for this mesh; [ndim = 2] (MeshQuad4.h:906) *)
Definition f_dofsPeriodic : res (list (list nat)) := do t <- f_nodesPeriodic; dofsPeriodic (f_nnode m) 2 t.

(** [xt::roll(e, shift)] of a list of rank 1: the entries move [shift] places to the right *)
Definition xt_roll {A} (shift : nat) (l : list A) : list A :=
  let s := shift mod length l in skipn (length l - s) l ++ firstn (length l - s) l.

(** MeshQuad4.h:539-564 [roll] *)
Definition f_roll (n : nat) : res (list nat) :=
  do n0 <- get (f_layer_nelx m) 0;
  do ws <- concatM (fun iy =>
      do nx <- get (f_layer_nelx m) iy; do r <- get (f_refine m) iy; do s <- get (f_startElem m) iy;
      let shift := if (r =? -1)%Z then n * (nx / n0) else n * (nx / n0) * 4 in
      let nel := if (r =? -1)%Z then nx else nx * 4 in
      let e := map (Nat.add s) (seq 0 nel) in
      Ok (combine (arange s (s + nel)) (xt_roll shift e)))
    (seq 0 f_layers);
  loop_fill (f_nelem m) ws.

(** [xt::cumsum], [xt::argmax(H > x)()]: the first index where it holds, 0 if there is none *)
Definition cumsum (l : list nat) : list nat := map (fun i => fold_right Nat.add 0 (firstn (i + 1) l)) (seq 0 (length l)).
Definition argmax (p : nat -> bool) (l : list nat) : nat :=
  match find (fun i => p (nth i l 0)) (seq 0 (length l)) with Some i => i | None => 0 end.

(** unsigned subtraction whose result is used as an index or position: [Oob] on wrap-around *)
Definition usub (a b : nat) : res nat := if a <? b then Oob else Ok (a - b).
(** MeshQuad4.h:314-398 [elementgrid_ravel]; [None]: an empty vector *)
Definition elementgrid_ravel (start_stop_rows start_stop_cols : option (nat * nat)) : res (list nat) :=
  let rows := match start_stop_rows with Some r => r | None => (0, f_nely) end in
  let cols := match start_stop_cols with Some r => r | None => (0, f_nelx) end in
  if (fst rows =? snd rows) || (fst cols =? snd cols) then Ok []
  else
    let H := cumsum (f_nhy m) in
    let yl := if 0 <? fst rows then argmax (fun x => fst rows <? x) H else 0 in
    let yu := argmax (fun x => snd rows <=? x) H in
    do xl_ <- get (f_nhx m) yl; do xu_ <- get (f_nhx m) yu;
    let hx := Nat.max xl_ xu_ in
    let xl := (fst cols - fst cols mod hx) / hx in
    let xu := (snd cols - snd cols mod hx) / hx in
    do dx <- usub xu xl;
    (* the size of the result is the sum of the [n] of the same loop: [ret] is filled exactly *)
    concatM (fun i =>
      do nhx <- get (f_nhx m) i; do r <- get (f_refine m) i; do s <- get (f_startElem m) i;
      let n := dx * hx / nhx in
      let h := hx in
      let '(n, h) := if (r =? -1)%Z then (n, h) else (n * 4, h * 4) in
      Ok (map (fun k => s + xl * h / nhx + k) (seq 0 n)))
    (arange yl (yu + 1)).

(** [xt::argmin(l <= e)()]: the first index where the comparison is false, 0 if there is none *)
Definition argmin_le (e : nat) (l : list nat) : nat := argmax (fun x => negb (x <=? e)) l.

(** MeshQuad4.h:434-437, 492-495: number of coarsest blocks to roll, and the column of [e] after that *)
Definition roll_to_mid (e nel start step : nat) : res (nat * nat) :=
  do rel <- usub e start;
  let relx := rel mod step in
  let mid := (nel / step - (nel / step) mod 2) / 2 * step + relx in
  do a <- usub nel mid;
  let nroll := (nel - (a + e - start) mod nel) / step in
  Ok (mid, nroll).

(** MeshQuad4.h:438-464, 496-522: columns [xl, xu) *)
Definition columns (mid nel dx left right : nat) : res (nat * nat) :=
  let xl := if left <=? mid then mid - left else 0 in
  let xu := if mid + right <? nel then mid + right + 1 else nel in
  let xl := xl - xl mod dx in
  let xu := xu - xu mod dx in
  do a <- usub mid xl;
  let xl := if a <? left then (if xl <? dx then 0 else xl - dx) else xl in
  do b <- usub xu mid;
  do c <- usub nel dx;
  let xu := if b <? right then (if c <? xu then nel else xu + dx) else xu in
  Ok (xl, xu).

(** MeshQuad4.h:409-469 [elementgrid_around_ravel] (GOOSEFEM_WIP_ASSERT is always on) *)
Definition elementgrid_around_ravel (e size : nat) (periodic : bool) : res (list nat) :=
  if negb periodic then Throw else
  do iy <- usub (argmin_le e (f_startElem m)) 1;
  do nel <- get (f_layer_nelx m) iy;
  if negb (iy =? (f_layers - 1) / 2) then Throw else
  let H := cumsum (f_nhy m) in
  do last <- get H (length H - 1);
  if last <=? 2 * size then Ok (seq 0 (f_nelem m)) else
  do hy <- get H iy;
  do b <- usub hy (size + 1);
  let l := argmax (fun x => b <? x) H in
  let u := argmax (fun x => hy + size <=? x) H in
  do lh <- (if 0 <? l then get H (l - 1) else Ok 0);
  do uh <- get H u;
  let step := amax (f_nhx m) in
  do s <- get (f_startElem m) iy;
  do mr <- roll_to_mid e nel s step;
  do dx <- get (f_nhx m) u;
  do xx <- columns (fst mr) nel dx size size;
  do ret <- elementgrid_ravel (Some (lh, uh)) (Some xx);
  do map <- f_roll (snd mr);
  mapM (get map) ret.

(** MeshQuad4.h:482-532 [elementgrid_leftright] *)
Definition elementgrid_leftright (e left right : nat) (periodic : bool) : res (list nat) :=
  if negb periodic then Throw else
  do iy <- usub (argmin_le e (f_startElem m)) 1;
  do nel <- get (f_layer_nelx m) iy;
  if negb (iy =? (f_layers - 1) / 2) then Throw else
  let step := amax (f_nhx m) in
  do s <- get (f_startElem m) iy;
  do mr <- roll_to_mid e nel s step;
  do dx <- get (f_nhx m) iy;
  do xx <- columns (fst mr) nel dx left right;
  let H := cumsum (f_nhy m) in
  do yl <- (if 0 <? iy then get H (iy - 1) else Ok 0);
  do yu <- get H iy;
  do ret <- elementgrid_ravel (Some (yl, yu)) (Some xx);
  do map <- f_roll (snd mr);
  mapM (get map) ret.
End Methods.
