(** Model of Mesh::overlapping, Mesh::ManualStitch, Mesh::Stitch and Mesh::Vstack.

    [close] is the comparison of two coordinates, [xt::isclose(a, b, rtol, atol)]: the model and
    all theorems hold for every such comparison.  [A] is the type of the coordinates. *)
From Coq Require Import Reals.
From Verif Require Import Base Model_Topology.

(** Mesh.h:66-78 [detail::renum] with an initialised map *)
Definition renum_map (mapping arg : list nat) : res (list nat) := mapM (get mapping) arg.

Section Stitching.
Context {A : Type} (close : A -> A -> bool).

(** [xt::prod(xt::isclose(row_b, row_a), axis)]: all coordinates are close (rows of equal length) *)
Definition row_close (rb ra : list A) : bool := forallb (fun ba => close (fst ba) (snd ba)) (combine rb ra).

(** Mesh.h:1716-1745 [overlapping]: columns (i, j) of the result *)
Definition overlapping (coor_a coor_b : list (list A)) : list (nat * nat) :=
  flat_map (fun ia =>
     map (fun jb => (fst ia, fst jb)) (filter (fun jb => row_close (snd jb) (snd ia)) (enum coor_b)))
    (enum coor_a).

Record ManualStitch_t := mkManual {
  ms_coor : list (list A); ms_conn : list (list nat); ms_map_b : list nat;
  ms_nnd_a : nat; ms_nel_a : nat; ms_nel_b : nat }.

(** [xt::allclose(view(coor_a, keep(ov_a)), view(coor_b, keep(ov_b)))] *)
Definition positions_close (coor_a coor_b : list (list A)) (ov_a ov_b : list nat) : res bool :=
  do ra <- mapM (get coor_a) ov_a;
  do rb <- mapM (get coor_b) ov_b;
  Ok (forallb (fun ab => row_close (fst ab) (snd ab)) (combine ra rb)).

(** Mesh.h:1765-1828 constructor of [ManualStitch].
    Simplifications: a mismatch of the shapes in an assignment to a view always throws (xtensor
    would broadcast a single row); [nnda + nndb - nelim] is taken as mathematical subtraction and
    throws if negative; [m_map_b] is read completely when it has been filled. *)
Definition ManualStitch (coor_a : list (list A)) (conn_a : list (list nat)) (ov_a : list nat)
    (coor_b : list (list A)) (conn_b : list (list nat)) (ov_b : list nat) (check_position : bool)
  : res ManualStitch_t :=
  do ok <- (if check_position then positions_close coor_a coor_b ov_a ov_b else Ok true);
  if negb ok then Throw else
  let nnda := length coor_a in
  let nndb := length coor_b in
  let nelim := length ov_a in
  let keep_b := setdiff1d (seq 0 nndb) ov_b in
  if negb (length ov_a =? length ov_b) then Throw else
  do map1 <- write_all (empty nndb) (combine ov_b (map Some ov_a));
  do map2 <- write_all map1 (combine keep_b (map (fun k => Some (k + nnda)) (seq 0 (length keep_b))));
  do map_b <- mapM (get_init map2) (seq 0 nndb);
  do conn_b' <- mapM (renum_map map_b) conn_b;
  if negb (nnda + length keep_b + nelim =? nnda + nndb) then Throw else
  do rows <- mapM (get coor_b) keep_b;
  Ok (mkManual (coor_a ++ rows) (conn_a ++ conn_b') map_b nnda (length conn_a) (length conn_b)).

(** Mesh.h:1933-1942 / 1948-1957 / 1967-1978 / 1988-1999 *)
Definition ms_nodemap (s : ManualStitch_t) (i : nat) : list nat :=
  if i =? 0 then seq 0 (ms_nnd_a s) else ms_map_b s.
Definition ms_elemmap (s : ManualStitch_t) (i : nat) : list nat :=
  if i =? 0 then seq 0 (ms_nel_a s) else map (fun e => e + ms_nel_a s) (seq 0 (ms_nel_b s)).
Definition ms_nodeset (s : ManualStitch_t) (set : list nat) (i : nat) : res (list nat) :=
  if i =? 0 then Ok set else renum_map (ms_map_b s) set.
Definition ms_elemset (s : ManualStitch_t) (set : list nat) (i : nat) : list nat :=
  if i =? 0 then set else map (fun e => e + ms_nel_a s) set.

(** ** Stitch *)
Record Stitch_t := mkStitch {
  st_coor : list (list A); st_conn : list (list nat); st_map : list (list nat);
  st_nel : list nat; st_off : list nat }.

(** Mesh.h:2019-2023 *)
Definition Stitch_new : Stitch_t := mkStitch [] [] [] [] [].

(** tail shared by Mesh.h:2060-2064 and Mesh.h:2361-2365 *)
Definition append_mesh (s : Stitch_t) (m : ManualStitch_t) (nelem_b : nat) : res Stitch_t :=
  let index := length (st_map s) in
  do off <- get (st_off s) (index - 1);
  do nel <- get (st_nel s) (index - 1);
  Ok (mkStitch (ms_coor m) (ms_conn m) (st_map s ++ [ms_nodemap m 1])
        (st_nel s ++ [nelem_b]) (st_off s ++ [off + nel])).

(** Mesh.h:2032-2065 [Stitch::push_back] *)
Definition Stitch_push_back (s : Stitch_t) (coor : list (list A)) (conn : list (list nat)) : res Stitch_t :=
  if length (st_map s) =? 0 then
    Ok (mkStitch coor conn (st_map s ++ [seq 0 (length coor)]) (st_nel s ++ [length conn]) (st_off s ++ [0]))
  else
    let overlap := overlapping (st_coor s) coor in
    do m <- ManualStitch (st_coor s) (st_conn s) (map fst overlap) coor conn (map snd overlap) false;
    append_mesh s m (length conn).

(** Mesh.h:2070-2088, 2172-2188 *)
Definition Stitch_nmesh (s : Stitch_t) : nat := length (st_map s).
Definition Stitch_nelem (s : Stitch_t) : nat := length (st_conn s).
Definition Stitch_nnode (s : Stitch_t) : nat := length (st_coor s).
Definition Stitch_nodemap (s : Stitch_t) (i : nat) : res (list nat) := get (st_map s) i.
Definition Stitch_elemmap (s : Stitch_t) (i : nat) : res (list nat) :=
  do n <- get (st_nel s) i; do o <- get (st_off s) i; Ok (map (fun e => e + o) (seq 0 n)).

(** Mesh.h:2198-2218 *)
Definition Stitch_nodeset (s : Stitch_t) (set : list nat) (i : nat) : res (list nat) :=
  do mp <- get (st_map s) i; renum_map mp set.
Definition Stitch_elemset (s : Stitch_t) (set : list nat) (i : nat) : res (list nat) :=
  do o <- get (st_off s) i; Ok (map (fun e => e + o) set).

(** Mesh.h:2227-2247 and 2265-2285: a set for every mesh *)
Definition Stitch_nodeset_all (s : Stitch_t) (sets : list (list nat)) : res (list nat) :=
  do l <- mapM (fun is => Stitch_nodeset s (snd is) (fst is)) (enum sets); Ok (unique (concat l)).
Definition Stitch_elemset_all (s : Stitch_t) (sets : list (list nat)) : res (list nat) :=
  do l <- mapM (fun is => Stitch_elemset s (snd is) (fst is)) (enum sets); Ok (concat l).

(** a history of calls to push_back on a new object *)
Definition Stitch_run (meshes : list (list (list A) * list (list nat))) : res Stitch_t :=
  foldM (fun s m => Stitch_push_back s (fst m) (snd m)) meshes Stitch_new.
End Stitching.

Arguments ManualStitch_t : clear implicits.
Arguments Stitch_t : clear implicits.

(** ** Vstack *)
Section Vstacking.
Context (close : R -> R -> bool).

Record Vstack_t := mkVstack { vs : Stitch_t R; vs_bot : list (list nat); vs_top : list (list nat) }.

Definition Vstack_new : Vstack_t := mkVstack Stitch_new [] [].

(** [xt::amax] of a non-empty list; an empty one gives the lowest double, here an error *)
Definition amaxR (l : list R) : res R :=
  match l with [] => Throw | x :: l' => Ok (fold_left Rmax l' x) end.

(** column 1 of a rank-2 array *)
Definition column1 (X : list (list R)) : res (list R) := mapM (fun r => get r 1) X.

(** [xt::view(x, all, 1) += shift] *)
Definition shift_y (shift : R) (X : list (list R)) : res (list (list R)) :=
  mapM (fun r => do y <- get r 1; set r 1 (y + shift)%R) X.

Record vmesh := mkVmesh { v_coor : list (list R); v_conn : list (list nat);
                          v_bot : list nat; v_top : list nat }.

(** Mesh.h:2333-2368 [Vstack::push_back] *)
Definition Vstack_push_back (check_overlap : bool) (s : Vstack_t) (m : vmesh) : res Vstack_t :=
  let st := vs s in
  if length (st_map st) =? 0 then
    Ok (mkVstack (mkStitch (v_coor m) (v_conn m) (st_map st ++ [seq 0 (length (v_coor m))])
                    (st_nel st ++ [length (v_conn m)]) (st_off st ++ [0]))
          (vs_bot s ++ [v_bot m]) (vs_top s ++ [v_top m]))
  else
    do top <- get (vs_top s) (length (vs_top s) - 1);
    do ys <- column1 (st_coor st);
    do shift <- amaxR ys;
    do x <- shift_y shift (v_coor m);
    do sm <- ManualStitch close (st_coor st) (st_conn st) top x (v_conn m) (v_bot m) check_overlap;
    do bot' <- ms_nodeset sm (v_bot m) 1;
    do top' <- ms_nodeset sm (v_top m) 1;
    do st' <- append_mesh st sm (length (v_conn m));
    Ok (mkVstack st' (vs_bot s ++ [bot']) (vs_top s ++ [top'])).

Definition Vstack_run (check_overlap : bool) (ms : list vmesh) : res Vstack_t :=
  foldM (Vstack_push_back check_overlap) ms Vstack_new.
End Vstacking.
