(** Model of Mesh::ManualStitch, Mesh::Stitch and Mesh::Vstack as they are called: with arrays of any rank and shape, with any index and
    any set, and with the assertions.  [ck]: whether the library is compiled with GOOSEFEM_ENABLE_ASSERT (config.h:94-98). *)
From Coq Require Import Reals.
From Verif Require Import Base Model_Numbering Model_Topology Model_Stitch Model_Checked.

Section Checked.
Context {A : Type} (close : A -> A -> bool).
Variable ck : bool.

(** a Stitch object; [sc_ndim] = m_coor.shape(1), [sc_nne] = m_conn.shape(1) (0 before the first mesh) *)
Record StitchC := mkSC { sc : Stitch_t A; sc_ndim : nat; sc_nne : nat }.

(** Mesh.h:2032-2065 [Stitch::push_back] with the assertions of [overlapping] (Mesh.h:1719-1721) and of the constructor of
    [ManualStitch] (Mesh.h:1780-1788; the lists of overlapping nodes are the two rows of one array: they always have equal shapes).
    Simplifications: without assertions an array of another rank throws (it is copied to a member of rank 2), and so do arrays
    with another number of columns (xtensor would broadcast an array of one column). *)
Definition c_push (s : StitchC) (m : array A * array nat) : res StitchC :=
  assert ck (length (a_shape (fst m)) =? 2) (assert ck (length (a_shape (snd m)) =? 2)
  (match a_shape (fst m), a_shape (snd m) with
   | [nnode; ndim], [nelem; nne] =>
       let push := do t <- Stitch_push_back close (sc s) (rows2 nnode ndim (fst m)) (rows2 nelem nne (snd m)); Ok (mkSC t ndim nne) in
       if length (st_map (sc s)) =? 0 then push
       else assert ck (sc_ndim s =? ndim) (assert ck (sc_nne s =? nne)
              (if ((sc_ndim s =? ndim) && (sc_nne s =? nne))%bool then push else Throw))
   | _, _ => Throw
   end)).

(** a history of calls to push_back on a new object *)
Definition c_run (ms : list (array A * array nat)) : res StitchC := foldM c_push ms (mkSC Stitch_new 0 0).

(** Mesh.h:2172-2176, 2184-2188, 2198-2204, 2213-2219; the assertions read members of the object: only if they are enabled *)
Definition c_nodemap (s : Stitch_t A) (i : nat) : res (list nat) := assert ck (i <? length (st_map s)) (Stitch_nodemap s i).
Definition c_elemmap (s : Stitch_t A) (i : nat) : res (list nat) := assert ck (i <? length (st_map s)) (Stitch_elemmap s i).
Definition c_nodeset (s : Stitch_t A) (set : list nat) (i : nat) : res (list nat) :=
  assert ck (i <? length (st_map s))
  (do _ <- (if ck then do mp <- get (st_map s) i; assert ck (amax set <? length mp) (Ok tt) else Ok tt);
   Stitch_nodeset s set i).
Definition c_elemset (s : Stitch_t A) (set : list nat) (i : nat) : res (list nat) :=
  assert ck (i <? length (st_map s))
  (do _ <- (if ck then do n <- get (st_nel s) i; assert ck (amax set <? n) (Ok tt) else Ok tt);
   Stitch_elemset s set i).

(** Mesh.h:2227-2249, 2266-2288: the loop over the sets; Mesh.h:2145-2152, 2158-2165: the loop over the meshes *)
Definition c_nodesets (s : Stitch_t A) (sets : list (list nat)) : res (list nat) :=
  assert ck (length sets =? length (st_map s)) (do l <- mapM (fun is => c_nodeset s (snd is) (fst is)) (enum sets); Ok (unique (concat l))).
Definition c_elemsets (s : Stitch_t A) (sets : list (list nat)) : res (list nat) :=
  assert ck (length sets =? length (st_map s)) (do l <- mapM (fun is => c_elemset s (snd is) (fst is)) (enum sets); Ok (concat l)).
Definition c_nodemaps (s : Stitch_t A) : res (list (list nat)) := mapM (c_nodemap s) (seq 0 (Stitch_nmesh s)).
Definition c_elemmaps (s : Stitch_t A) : res (list (list nat)) := mapM (c_elemmap s) (seq 0 (Stitch_nmesh s)).
(** Mesh.h:2133-2138 (and Mesh.h:1896-1901) *)
Definition c_dofs (s : StitchC) : list (list nat) := dofs (Stitch_nnode (sc s)) (sc_ndim s).

(** the queries *)
Inductive query :=
| Nodemap (i : nat) | Elemmap (i : nat) | Nodeset (set : list nat) (i : nat) | Elemset (set : list nat) (i : nat)
| Nodesets (sets : list (list nat)) | Elemsets (sets : list (list nat)).
Definition ask (s : Stitch_t A) (q : query) : res (list nat) :=
  match q with
  | Nodemap i => c_nodemap s i | Elemmap i => c_elemmap s i
  | Nodeset set i => c_nodeset s set i | Elemset set i => c_elemset s set i
  | Nodesets sets => c_nodesets s sets | Elemsets sets => c_elemsets s sets
  end.

(** Mesh.h:1933-1942, 1948-1957, 1967-1978, 1988-1999: the queries on a [ManualStitch].  The last two of the list do not exist
    for this class: here [Throw]. *)
Definition ask_manual (s : ManualStitch_t A) (q : query) : res (list nat) :=
  match q with
  | Nodemap i => assert ck (i <=? 1) (Ok (ms_nodemap s i))
  | Elemmap i => assert ck (i <=? 1) (Ok (ms_elemmap s i))
  | Nodeset set i => assert ck (i <=? 1)
      (if i =? 0 then assert ck (amax set <? ms_nnd_a s) (ms_nodeset s set i)
       else assert ck (amax set <? length (ms_map_b s)) (ms_nodeset s set i))
  | Elemset set i => assert ck (i <=? 1)
      (if i =? 0 then assert ck (amax set <? ms_nel_a s) (Ok (ms_elemset s set i))
       else assert ck (amax set <? ms_nel_b s) (Ok (ms_elemset s set i)))
  | _ => Throw
  end.
End Checked.

Section CheckedV.
Variable close : R -> R -> bool.
Variables ck check_overlap : bool.
(** Mesh.h:2333-2368 [Vstack::push_back] with its assertion and that of [ManualStitch::nodeset] (Mesh.h:1976), both called with the
    bottom and the top nodes.  Simplification: the arrays have rank 2 and the number of columns of the first mesh. *)
Definition cv_push (s : Vstack_t) (m : vmesh) : res Vstack_t :=
  let st := vs s in
  if length (st_map st) =? 0 then Vstack_push_back close check_overlap s m
  else
    do top <- get (vs_top s) (length (vs_top s) - 1);
    assert ck (length (v_bot m) =? length top)
    (do ys <- column1 (st_coor st);
     do shift <- amaxR ys;
     do x <- shift_y shift (v_coor m);
     do sm <- ManualStitch close (st_coor st) (st_conn st) top x (v_conn m) (v_bot m) check_overlap;
     do bot' <- ask_manual ck sm (Nodeset (v_bot m) 1);
     do top' <- ask_manual ck sm (Nodeset (v_top m) 1);
     do st' <- append_mesh st sm (length (v_conn m));
     Ok (mkVstack st' (vs_bot s ++ [bot']) (vs_top s ++ [top']))).
Definition cv_run (ms : list vmesh) : res Vstack_t := foldM cv_push ms Vstack_new.
End CheckedV.
