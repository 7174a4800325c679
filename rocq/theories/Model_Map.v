(** Model of Quad4::Map::RefineRegular and Quad4::Map::FineLayer2Regular (MeshQuad4.h).

    [size_t] are natural numbers, [double] real numbers (exact arithmetic).  Element data of rank [r] is a
    list with one row per element; the other axes are flattened to [d] columns. *)
From Coq Require Import Reals ZArith.
From Verif Require Import Base Model_Numbering Model_Regular2d Model_FineLayer.

(** [xt::range(a, b)] on an axis (xtensor clamps the range to the axis) *)
Definition slice {A} (a b : nat) (l : list A) : list A := firstn (b - a) (skipn a l).
(** [xt::view(g, xt::range(r0, r1), xt::range(c0, c1))] *)
Definition view2 {A} (g : list (list A)) (r0 r1 c0 c1 : nat) : list (list A) := map (slice c0 c1) (slice r0 r1 g).

(** ** RefineRegular: MeshQuad4.h:1347-1351 *)
Record RefineRegular := mkRR { rr_coarse : Regular; rr_fine : Regular; rr_nx : nat; rr_ny : nat; rr_map : list (list nat) }.

(** MeshQuad4.h:1156-1174 the constructor; [elmat_coarse.shape(1)] is [nelx] of the coarse mesh *)
Definition RefineRegular_init (m : Regular) (nx ny : nat) : res RefineRegular :=
  let fine := mkRegular (nx * nelx m) (ny * nely m) (hh m) in
  let ec := elementgrid m in
  let ef := elementgrid fine in
  do ws <- concatM (fun i => mapM (fun j =>
      do row <- get ec i; do e <- get row j;
      Ok (e, concat (view2 ef (i * ny) ((i + 1) * ny) (j * nx) ((j + 1) * nx)))) (seq 0 (nelx m)))
    (seq 0 (length ec));
  do map <- loop_fill (nelem m) ws;
  Ok (mkRR m fine nx ny map).

Section Data.
Variable d : nat.   (* number of columns of the data *)
(** [xt::sum(rows, 0)] *)
Definition colsum (rows : list (list R)) : list R :=
  map (fun c => fold_right Rplus 0%R (map (fun row => nth c row 0%R) rows)) (seq 0 d).

(** MeshQuad4.h:1260-1278 [meanToCoarse] *)
Definition meanToCoarse (r : RefineRegular) (data : list (list R)) : res (list (list R)) :=
  mapM (fun row =>
    do v <- mapM (get data) row;
    Ok (map (fun x => x / INR (length v))%R (colsum v))) (rr_map r).

(** MeshQuad4.h:1290-1312 [averageToCoarse]: [xt::average(d, w, {0})] = sum(d * w) / sum(w) *)
Definition averageToCoarse (r : RefineRegular) (data weights : list (list R)) : res (list (list R)) :=
  mapM (fun row =>
    do v <- mapM (get data) row;
    do w <- mapM (get weights) row;
    let vw := map (fun p => map (fun q => fst q * snd q)%R (combine (fst p) (snd p))) (combine v w) in
    Ok (map (fun q => fst q / snd q)%R (combine (colsum vw) (colsum w)))) (rr_map r).

(** MeshQuad4.h:1326-1344 [mapToFine]; [m_coarse2fine.size()] rows are written *)
Definition mapToFine (r : RefineRegular) (data : list (list R)) : res (list (list R)) :=
  do ws <- concatM (fun e =>
      do row <- get (rr_map r) e; do v <- get data e;
      Ok (map (fun i => (i, v)) row))
    (seq 0 (length (rr_map r)));
  loop_fill (length (concat (rr_map r))) ws.
End Data.

(** ** FineLayer2Regular *)
(** [v[e].push_back(x)] in the given order, on a vector of [n] empty vectors *)
Definition push_all {A} (n : nat) (ws : list (nat * A)) : res (list (list A)) :=
  foldM (fun a w => do l <- get a (fst w); set a (fst w) (l ++ [snd w])) ws (repeat [] n).

(** entries [e(a) .. e(b - 1)] of a view, pushed with fraction 1.0; fraction 0.5 of one entry *)
Definition full (e : list nat) (a b : nat) : res (list (nat * R)) := mapM (fun k => do x <- get e k; Ok (x, 1%R)) (arange a b).
Definition halff (e : list nat) (k : nat) : res (list (nat * R)) := do x <- get e k; Ok [(x, (/ 2)%R)].
(** [xt::view(block, j, xt::range(a, b))] *)
Definition row_view (block : list (list nat)) (j a b : nat) : res (list nat) := do row <- get block j; Ok (slice a b row).
(** half, full, .., full, half *)
Definition half_full_half (e : list nat) : res (list (nat * R)) :=
  do l <- usub (length e) 1;
  do p <- halff e 0; do q <- full e 1 l; do r <- halff e l; Ok (p ++ q ++ r).
(** full, .., full, half *)
Definition full_half (e : list nat) : res (list (nat * R)) :=
  do l <- usub (length e) 1; do q <- full e 0 l; do r <- halff e l; Ok (q ++ r).
(** half, full, .., full *)
Definition half_full (e : list nat) : res (list (nat * R)) :=
  do p <- halff e 0; do q <- full e 1 (length e); Ok (p ++ q).
(** [for (auto& i : view)] with fraction 1.0 *)
Definition all_full (v : list (list nat)) : list (nat * R) := map (fun i => (i, 1%R)) (concat v).

Definition to_elem (e : nat) (l : list (nat * R)) : list (nat * (nat * R)) := map (pair e) l.

(** MeshQuad4.h:1438-1536: a block of a refinement layer below the middle; [e0]: its first element *)
Definition block_below (block : list (list nat)) (nhx nhy e0 : nat) : res (list (nat * (nat * R))) :=
  (* bottom: wide-to-narrow *)
  do bot <- concatM (fun j => do b <- usub nhx j; do e <- row_view block j j b; half_full_half e) (seq 0 (nhy / 2));
  (* top: regular small element *)
  let top := all_full (view2 block (nhy / 2) nhy (1 * nhx / 3) (2 * nhx / 3)) in
  (* left *)
  do lft <- concatM (fun j => do e <- row_view block j 0 (j + 1); full_half e) (seq 0 (nhy / 2));
  let lft' := all_full (view2 block (nhy / 2) nhy (0 * nhx / 3) (1 * nhx / 3)) in
  (* right *)
  do rgt <- concatM (fun j => do a <- usub nhx (j + 1); do e <- row_view block j a nhx; half_full e) (seq 0 (nhy / 2));
  let rgt' := all_full (view2 block (nhy / 2) nhy (2 * nhx / 3) (3 * nhx / 3)) in
  Ok (to_elem (e0 + 0) bot ++ to_elem (e0 + 2) top ++ to_elem (e0 + 3) (lft ++ lft') ++ to_elem (e0 + 1) (rgt ++ rgt')).

(** MeshQuad4.h:1547-1651: a block of a refinement layer above the middle *)
Definition block_above (block : list (list nat)) (nhx nhy e0 : nat) : res (list (nat * (nat * R))) :=
  (* top: narrow-to-wide *)
  do top <- concatM (fun j => do a <- usub (1 * nhx / 3) (j + 1);
      do e <- row_view block (nhy / 2 + j) a (2 * nhx / 3 + j + 1); half_full_half e) (seq 0 (nhy / 2));
  (* bottom: regular small element *)
  let bot := all_full (view2 block 0 (nhy / 2) (1 * nhx / 3) (2 * nhx / 3)) in
  (* left *)
  let lft := all_full (view2 block 0 (nhy / 2) (0 * nhx / 3) (1 * nhx / 3)) in
  do lft' <- concatM (fun j => do b <- usub (1 * nhx / 3) j; do e <- row_view block (nhy / 2 + j) 0 b; full_half e) (seq 0 (nhy / 2));
  (* right *)
  let rgt := all_full (view2 block 0 (nhy / 2) (2 * nhx / 3) (3 * nhx / 3)) in
  do rgt' <- concatM (fun j => do e <- row_view block (nhy / 2 + j) (2 * nhx / 3 + j) nhx; half_full e) (seq 0 (nhy / 2));
  Ok (to_elem (e0 + 3) top ++ to_elem (e0 + 1) bot ++ to_elem (e0 + 0) (lft ++ lft') ++ to_elem (e0 + 2) (rgt ++ rgt')).

(** MeshQuad4.h:1781-1785; the two vectors [m_elem_regular], [m_frac_regular] are filled in tandem: one vector of pairs *)
Record FineLayer2Regular := mkF2R { fr_finelayer : FineLayer; fr_regular : Regular; fr_pairs : list (list (nat * R)) }.
(** MeshQuad4.h:1685-1698 [map], [mapFraction] *)
Definition fr_map (r : FineLayer2Regular) : list (list nat) := map (map fst) (fr_pairs r).
Definition fr_fraction (r : FineLayer2Regular) : list (list R) := map (map snd) (fr_pairs r).

(** MeshQuad4.h:1368-1653 the constructor *)
Definition FineLayer2Regular_init (m : FineLayer) : res FineLayer2Regular :=
  let regular := mkRegular (amax (f_layer_nelx m)) (fold_right Nat.add 0 (f_nhy m)) (f_h m) in
  let grid := elementgrid regular in
  let cum := 0 :: cumsum (f_nhy m) in
  let nely := length (f_nhy m) in
  do ws <- concatM (fun iy =>
      do c0 <- get cum iy; do c1 <- get cum (iy + 1);
      let el_new := slice c0 c1 grid in
      do t <- get (f_refine m) iy; do nel <- get (f_layer_nelx m) iy;
      do nhx <- get (f_nhx m) iy; do nhy <- get (f_nhy m) iy; do start <- get (f_startElem m) iy;
      concatM (fun ix =>
        let block := map (slice (ix * nhx) ((ix + 1) * nhx)) el_new in
        if (t =? -1)%Z then Ok (to_elem (start + ix) (all_full block))
        else if (t =? 0)%Z && (iy <=? (nely - 1) / 2) then block_below block nhx nhy (start + ix * 4)
        else if (t =? 0)%Z && ((nely - 1) / 2 <? iy) then block_above block nhx nhy (start + ix * 4)
        else Ok []) (seq 0 nel))
    (seq 0 nely);
  do p <- push_all (f_nelem m) ws;
  Ok (mkF2R m regular p).

(** MeshQuad4.h:1761-1779 [mapToRegular], for data with [d] columns *)
Definition mapToRegular (d : nat) (r : FineLayer2Regular) (data : list (list R)) : res (list (list R)) :=
  foldM (fun ret e =>
      do l <- get (fr_pairs r) e;
      foldM (fun ret q =>
        do old <- get ret (fst q); do v <- get data e;
        set ret (fst q) (map (fun p => fst p + snd q * snd p)%R (combine old v))) l ret)
    (seq 0 (f_nelem (fr_finelayer r))) (repeat (repeat 0%R d) (nelem (fr_regular r))).
