(** Model of the connectivity utilities of Mesh.h. *)
From Coq Require Import Reals.
From Verif Require Import Base.

(** (0, l[0]), (1, l[1]), ... *)
Definition enum {A} (l : list A) : list (nat * A) := combine (seq 0 (length l)) l.

(** [std::sort] of a vector of [size_t]: the sorted permutation (unique); insertion sort *)
Fixpoint insert_le (x : nat) (l : list nat) : list nat :=
  match l with
  | [] => [x]
  | y :: l' => if x <=? y then x :: l else y :: insert_le x l'
  end.
Definition std_sort (l : list nat) : list nat := fold_right insert_le [] l.

(** Mesh.h:2463-2476 [coordination] *)
Definition coordination (conn : list (list nat)) : res (list nat) :=
  let nnode := amax (concat conn) + 1 in
  foldM (fun N it => do v <- get N it; set N it (v + 1)) (concat conn) (repeat 0 nnode).

(** [ret[n].push_back(e)] *)
Definition push_back (ret : list (list nat)) (n e : nat) : res (list (list nat)) :=
  do row <- get ret n; set ret n (row ++ [e]).

(** the iterations (e, conn(e, m)) of the double loop Mesh.h:2496-2500 *)
Definition incidences (conn : list (list nat)) : list (nat * nat) :=
  flat_map (fun er => map (fun n => (fst er, n)) (snd er)) (enum conn).

(** Mesh.h:2486-2509 [elem2node(conn, sorted)] ([reserve] has no observable effect) *)
Definition elem2node (conn : list (list nat)) (sorted : bool) : res (list (list nat)) :=
  do N <- coordination conn;
  do ret <- foldM (fun r en => push_back r (snd en) (fst en)) (incidences conn) (repeat [] (length N));
  Ok (if sorted then map std_sort ret else ret).

(** Mesh.h:2557-2560 [node2dof] *)
Definition node2dof (dofs : list (list nat)) (sorted : bool) : res (list (list nat)) :=
  elem2node dofs sorted.

(** Mesh.h:2840-2864 [nodaltyings], without GOOSEFEM_ENABLE_ASSERT *)
Definition nodaltyings (dofs : list (list nat)) : res (list (list nat)) :=
  do nodemap <- node2dof dofs true;
  mapM (fun m => do row <- get dofs m; do d <- get row 0; do r <- get nodemap d; Ok (std_sort r))
       (seq 0 (length dofs)).

(** body of the loop Mesh.h:2523-2547 *)
Definition merge_step (nties : list (list nat)) (sorted : bool) (ret : list (list nat)) (m : nat)
  : res (list (list nat)) :=
  do g <- get nties m;
  if length g <=? 1 then Ok ret else
  do g0 <- get g 0;
  if g0 <? m then Ok ret else
  do rm <- get ret m;
  (* ret[m].insert(ret[m].end(), ret[nties[m][j]] ...) *)
  do row <- foldM (fun acc j => do rj <- get ret j; Ok (acc ++ rj)) (tl g) rm;
  let row := if sorted then std_sort row else row in
  do ret <- set ret m row;
  foldM (fun r j => set r j row) (tl g) ret.

(** Mesh.h:2517-2548 [elem2node(conn, dofs, sorted)] *)
Definition elem2node_dofs (conn dofs : list (list nat)) (sorted : bool) : res (list (list nat)) :=
  do ret <- elem2node conn sorted;
  do nties <- nodaltyings dofs;
  foldM (merge_step nties sorted) (seq 0 (length dofs)) ret.

(** [xt::where(xt::equal(ret, N), t, ret)] *)
Definition where_eq (N : nat) (ret t : list nat) : list nat :=
  map (fun rt => if fst rt =? N then snd rt else fst rt) (combine ret t).

(** body of the loop Mesh.h:2689-2695 for column [i]; the assignment to the view runs over the
    elements in order *)
Definition column_map (N : nat) (elem_map : list nat) (conn : list (list nat)) (i : nat) : res (list nat) :=
  do ws <- mapM (fun eo =>
       do e' <- get elem_map (fst eo); do new_row <- get conn e';
       do old_nd <- get (snd eo) i; do new_nd <- get new_row i;
       Ok (old_nd, new_nd)) (enum conn);
  write_all (repeat N N) ws.

(** Mesh.h:2672-2701 [elemmap2nodemap], ElementType::Quad4; [N = coor.shape(0)] *)
Definition elemmap2nodemap (elem_map : list nat) (N : nat) (conn : list (list nat)) : res (list nat) :=
  foldM (fun ret i => do t <- column_map N elem_map conn i; Ok (where_eq N ret t))
        [0; 1; 2; 3] (repeat N N).
