(** Model of MatrixPartitioned.h: MatrixPartitioned and MatrixPartitionedSolver. *)
From Coq Require Import Reals.
From Verif Require Import Base Sums Model_Numbering Model_Vector Model_VectorPartitioned Model_Sparse Model_Matrix.

(** the triplets that one of the branches of the loops of MatrixPartitioned.h:177-198 (and 241-252,
    296-307; MatrixPartitionedTyings.h has nine branches) pushes: those that satisfy its condition,
    with shifted row and column *)
Definition sel (p : nat -> nat -> bool) (sr sc : nat) (ts : list (nat * nat * R)) : list (nat * nat * R) :=
  map (fun t => (fst (fst t) - sr, snd (fst t) - sc, snd t)) (filter (fun t => p (fst (fst t)) (snd (fst t))) ts).

(** MatrixPartitioned.h:40-69: the members; iiu, iip and part are those of VectorPartitioned.h *)
Record MatrixPartitioned := mkMP {
  MP_p : VectorPartitioned; MP_part1d : list nat; A_uu : mat; A_up : mat; A_pu : mat; A_pp : mat; MP_changed : bool }.

(** MatrixPartitioned.h:87-121: the constructor *)
Definition new_MatrixPartitioned (v : Vector) (iip : list nat) : res MatrixPartitioned :=
  do p <- new_VectorPartitioned v iip;
  do r <- Reorder [m_iiu p; m_iip p];
  do part1d <- Reorder_apply r (seq 0 (m_ndof v));
  let z := zero_mat in
  Ok (mkMP p part1d (z (m_nnu p) (m_nnu p)) (z (m_nnu p) (m_nnp p)) (z (m_nnp p) (m_nnu p)) (z (m_nnp p) (m_nnp p)) true).

(** MatrixPartitioned.h:177-208: the four branches, then [setFromTriplets] of each *)
Definition part_blocks (p : VectorPartitioned) (ts : list (nat * nat * R)) : res (mat * mat * mat * mat) :=
  let u := fun k => k <? m_nnu p in
  do uu <- setFromTriplets (m_nnu p) (m_nnu p) (sel (fun di dj => u di && u dj) 0 0 ts);
  do up <- setFromTriplets (m_nnu p) (m_nnp p) (sel (fun di dj => negb (u di && u dj) && u di) 0 (m_nnu p) ts);
  do pu <- setFromTriplets (m_nnp p) (m_nnu p) (sel (fun di dj => negb (u di && u dj) && negb (u di) && u dj) (m_nnu p) 0 ts);
  do pp <- setFromTriplets (m_nnp p) (m_nnp p) (sel (fun di dj => negb (u di && u dj) && negb (u di) && negb (u dj)) (m_nnu p) (m_nnu p) ts);
  Ok (uu, up, pu, pp).

Section MP.
Variable a : MatrixPartitioned.
Let p := MP_p a.
Let v := vp_v p.

Definition with_blocks (b : mat * mat * mat * mat) : MatrixPartitioned :=
  mkMP p (MP_part1d a) (fst (fst (fst b))) (snd (fst (fst b))) (snd (fst b)) (snd b) true.

(** MatrixPartitioned.h:157-210 [assemble_impl] *)
Definition MP_assemble (elemmat : list (list (list R))) : res MatrixPartitioned :=
  do ts <- elemmat_triplets v (fun e m i => do n <- get2 (m_conn v) e m; get2 (m_part p) n i) elemmat;
  do b <- part_blocks p ts;
  Ok (with_blocks b).

(** MatrixPartitioned.h:221-261 [set] *)
Definition MP_set (rs cs : list nat) (matrix : list (list R)) : res MatrixPartitioned :=
  do ts <- block_triplets (get (MP_part1d a)) rs cs matrix;
  do b <- part_blocks p ts;
  Ok (with_blocks b).

(** MatrixPartitioned.h:271-320 [add] *)
Definition MP_add (rs cs : list nat) (matrix : list (list R)) : res MatrixPartitioned :=
  do ts <- block_triplets (get (MP_part1d a)) rs cs matrix;
  do b <- part_blocks p ts;
  do uu <- addmat (A_uu a) (fst (fst (fst b)));
  do up <- addmat (A_up a) (snd (fst (fst b)));
  do pu <- addmat (A_pu a) (snd (fst b));
  do pp <- addmat (A_pp a) (snd b);
  Ok (with_blocks (uu, up, pu, pp)).

(** MatrixPartitioned.h:324-351 [todense_impl] *)
Definition MP_todense : res (list (list R)) :=
  let z := repeat (repeat 0%R (m_ndof v)) (m_ndof v) in
  do w <- dense_writes (get (m_iiu p)) (get (m_iiu p)) (A_uu a); do z <- write2_all z w;
  do w <- dense_writes (get (m_iiu p)) (get (m_iip p)) (A_up a); do z <- write2_all z w;
  do w <- dense_writes (get (m_iip p)) (get (m_iiu p)) (A_pu a); do z <- write2_all z w;
  do w <- dense_writes (get (m_iip p)) (get (m_iip p)) (A_pp a); write2_all z w.

(** [m_Auu * X_u + m_Aup * X_p], [m_Apu * X_u + m_App * X_p] *)
Definition B_u (X_u X_p : list R) : res (list R) :=
  do s <- mulvec (A_uu a) X_u; do t <- mulvec (A_up a) X_p; addvec s t.
Definition B_p (X_u X_p : list R) : res (list R) :=
  do s <- mulvec (A_pu a) X_u; do t <- mulvec (A_pp a) X_p; addvec s t.

(** MatrixPartitioned.h:354-375 [dot_nodevec_impl]; AsDofs_u, AsDofs_p of lines 467-483, 499-515 are
    the loops of VectorPartitioned.h *)
Definition MP_dot_nodevec (order : list (nat * nat)) (x : list (list R)) : res (list (list R)) :=
  do X_u <- AsDofs_u_nodevec p order x; do X_p <- AsDofs_p_nodevec p order x;
  do Bu <- B_u X_u X_p; do Bp <- B_p X_u X_p;
  fill2 (m_nnode v) (m_ndim v) (fun m i => do k <- get2 (m_part p) m i;
    if k <? m_nnu p then get Bu k else get Bp (k - m_nnu p)).

(** MatrixPartitioned.h:378-398 [dot_dofval_impl]; [b] is the array that is written (uninitialised in
    Matrix.h:380) *)
Definition MP_dot_dofval (x b : list R) : res (list R) :=
  do X_u <- AsDofs_u_dofval p x; do X_p <- AsDofs_p_dofval p x;
  do Bu <- B_u X_u X_p; do Bp <- B_p X_u X_p;
  do wu <- index_writes (m_iiu p) Bu; do b <- write_all b wu;
  do wp <- index_writes (m_iip p) Bp; write_all b wp.

(** MatrixPartitioned.h:401-418 [reaction_nodevec_impl] *)
Definition MP_reaction_nodevec (order : list (nat * nat)) (x b : list (list R)) : res (list (list R)) :=
  do X_u <- AsDofs_u_nodevec p order x; do X_p <- AsDofs_p_nodevec p order x;
  do Bp <- B_p X_u X_p;
  fill2 (m_nnode v) (m_ndim v) (fun m i => do k <- get2 (m_part p) m i;
    if m_nnu p <=? k then get Bp (k - m_nnu p) else get2 b m i).

(** MatrixPartitioned.h:421-434 [reaction_dofval_impl] *)
Definition MP_reaction_dofval (x b : list R) : res (list R) :=
  do X_u <- AsDofs_u_dofval p x; do X_p <- AsDofs_p_dofval p x;
  do Bp <- B_p X_u X_p;
  do wp <- index_writes (m_iip p) Bp; write_all b wp.

(** MatrixPartitioned.h:436-449 [reaction_p_impl] *)
Definition MP_reaction_p (x_u x_p : list R) : res (list R) := B_p x_u x_p.

(** ** MatrixPartitionedSolver *)
Variable linsolve : mat -> list R -> list R.
Variable s : Solver.
(** MatrixPartitioned.h:633-641 [factorize] *)
Let s' := factorize (MP_changed a) (A_uu a) s.
Let a' := mkMP p (MP_part1d a) (A_uu a) (A_up a) (A_pu a) (A_pp a) (changed_after (MP_changed a) s).

(** MatrixPartitioned.h:615-624 [solve_u_impl] *)
Definition MPS_solve_u (b_u x_p : list R) : res (list R * Solver * MatrixPartitioned) :=
  do t <- mulvec (A_up a) x_p; do r <- subvec b_u t; do x <- S_solve linsolve s' r; Ok (x, s', a').

(** MatrixPartitioned.h:601-612 [solve_dofval_impl] *)
Definition MPS_solve_dofval (b x : list R) : res (list R * Solver * MatrixPartitioned) :=
  do B_u <- AsDofs_u_dofval p b; do X_p <- AsDofs_p_dofval p x;
  do t <- mulvec (A_up a) X_p; do r <- subvec B_u t; do X_u <- S_solve linsolve s' r;
  do wu <- index_writes (m_iiu p) X_u; do y <- write_all x wu;
  Ok (y, s', a').

(** MatrixPartitioned.h:583-598 [solve_nodevec_impl] *)
Definition MPS_solve_nodevec (order : list (nat * nat)) (b x : list (list R)) : res (list (list R) * Solver * MatrixPartitioned) :=
  do B_u <- AsDofs_u_nodevec p order b; do X_p <- AsDofs_p_nodevec p order x;
  do t <- mulvec (A_up a) X_p; do r <- subvec B_u t; do X_u <- S_solve linsolve s' r;
  do y <- fill2 (m_nnode v) (m_ndim v) (fun m i => do k <- get2 (m_part p) m i;
    if k <? m_nnu p then get X_u k else get2 x m i);
  Ok (y, s', a').
End MP.

(** ** histories of one matrix and one solver *)
Definition run_mp (o : mop) (a : MatrixPartitioned) : res MatrixPartitioned :=
  match o with OpAssemble K => MP_assemble a K | OpSet r c m => MP_set a r c m | OpAdd r c m => MP_add a r c m end.

Inductive pop :=
| PMat (o : mop)
| PSolve (b x : list R)
| PSolveN (order : list (nat * nat)) (b x : list (list R))
| PSolveU (b_u x_p : list R).
Definition run_pop (linsolve : mat -> list R -> list R) (w : MatrixPartitioned * Solver) (o : pop) : res (MatrixPartitioned * Solver) :=
  match o with
  | PMat o => do a <- run_mp o (fst w); Ok (a, snd w)
  | PSolve b x => do r <- MPS_solve_dofval (fst w) linsolve (snd w) b x; Ok (snd r, snd (fst r))
  | PSolveN order b x => do r <- MPS_solve_nodevec (fst w) linsolve (snd w) order b x; Ok (snd r, snd (fst r))
  | PSolveU b x => do r <- MPS_solve_u (fst w) linsolve (snd w) b x; Ok (snd r, snd (fst r))
  end.
