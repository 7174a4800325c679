(** Model of MatrixPartitionedTyings.h: MatrixPartitionedTyings and MatrixPartitionedTyingsSolver. *)
From Coq Require Import Reals.
From Verif Require Import Base Sums Model_Numbering Model_Vector Model_VectorPartitioned Model_Sparse Model_Matrix Model_MatrixPartitioned.

(** unknown, prescribed, dependent *)
Inductive part := U | P | D.

(** MatrixPartitionedTyings.h:44-76: the members; [PT_A U P] is m_Aup and so on, [PT_ACuu], [PT_ACup]
    are m_ACuu, m_ACup (m_ACpu and m_ACpp are never computed) *)
Record MatrixTyings := mkPT {
  PT_v : Vector; PT_Cdu : mat; PT_Cdp : mat; PT_A : part -> part -> mat; PT_ACuu : mat; PT_ACup : mat; PT_changed : bool }.

Section PT.
Variable a : MatrixTyings.
(** MatrixPartitionedTyings.h:103-111 *)
Definition PT_nnu := cols (PT_Cdu a).
Definition PT_nnp := cols (PT_Cdp a).
Definition PT_nnd := rows (PT_Cdp a).
Definition PT_nni := PT_nnu + PT_nnp.
Definition PT_ndof := PT_nni + PT_nnd.
Definition PT_size (q : part) : nat := match q with U => PT_nnu | P => PT_nnp | D => PT_nnd end.
(** what is subtracted from a DOF number: MatrixPartitionedTyings.h:235-280 *)
Definition PT_off (q : part) : nat := match q with U => 0 | P => PT_nnu | D => PT_nni end.
(** MatrixPartitionedTyings.h:108-111: m_iiu, m_iip, m_iid *)
Definition PT_ii (q : part) : list nat := seq (PT_off q) (PT_size q).
End PT.

(** MatrixPartitionedTyings.h:88-146: the constructor; matrices that are only resized are zero *)
Definition new_MatrixTyings (v : Vector) (Cdu Cdp : mat) : MatrixTyings :=
  let a := mkPT v Cdu Cdp (fun _ _ => zero_mat 0 0) (zero_mat 0 0) (zero_mat 0 0) true in
  mkPT v Cdu Cdp (fun p q => zero_mat (PT_size a p) (PT_size a q)) (zero_mat 0 0) (zero_mat 0 0) true.

Section PT2.
Variable a : MatrixTyings.
Let v := PT_v a.
Let nnu := PT_nnu a.
Let nni := PT_nni a.

(** MatrixPartitionedTyings.h:235-285: the nine branches *)
Definition branch (di dj : nat) : part * part :=
  if (di <? nnu) && (dj <? nnu) then (U, U)
  else if (di <? nnu) && (dj <? nni) then (U, P)
  else if di <? nnu then (U, D)
  else if (di <? nni) && (dj <? nnu) then (P, U)
  else if (di <? nni) && (dj <? nni) then (P, P)
  else if di <? nni then (P, D)
  else if dj <? nnu then (D, U)
  else if dj <? nni then (D, P)
  else (D, D).
Definition same (p q : part) : bool := match p, q with U, U | P, P | D, D => true | _, _ => false end.

(** the block (p, q): the triplets pushed by its branch, and [setFromTriplets] *)
Definition tblock (p q : part) (ts : list (nat * nat * R)) : res mat :=
  setFromTriplets (PT_size a p) (PT_size a q)
    (sel (fun di dj => same (fst (branch di dj)) p && same (snd (branch di dj)) q) (PT_off a p) (PT_off a q) ts).

(** MatrixPartitionedTyings.h:211-304 [assemble_impl] *)
Definition PT_assemble (elemmat : list (list (list R))) : res MatrixTyings :=
  do ts <- elemmat_triplets v (elem_dof v) elemmat;
  do uu <- tblock U U ts; do up <- tblock U P ts; do pu <- tblock P U ts; do pp <- tblock P P ts;
  do ud <- tblock U D ts; do pd <- tblock P D ts; do du <- tblock D U ts; do dp <- tblock D P ts; do dd <- tblock D D ts;
  Ok (mkPT v (PT_Cdu a) (PT_Cdp a)
    (fun p q => match p, q with U, U => uu | U, P => up | U, D => ud | P, U => pu | P, P => pp | P, D => pd | D, U => du | D, P => dp | D, D => dd end)
    (PT_ACuu a) (PT_ACup a) true).

(** MatrixPartitionedTyings.h:309-367 [todense_impl]; the loops in the order of the code *)
Definition PT_todense : res (list (list R)) :=
  let z := repeat (repeat 0%R (PT_ndof a)) (PT_ndof a) in
  foldM (fun z pq => do w <- dense_writes (get (PT_ii a (fst pq))) (get (PT_ii a (snd pq))) (PT_A a (fst pq) (snd pq)); write2_all z w)
    [(U, U); (U, P); (P, U); (P, P); (D, U); (D, P); (U, D); (P, D); (D, D)] z.

(** MatrixPartitionedTyings.h:369-411: dot and reaction are not implemented *)
Definition PT_dot_nodevec (x : list (list R)) : res (list (list R)) := Throw.
Definition PT_dot_dofval (x : list R) : res (list R) := Throw.
Definition PT_reaction_nodevec (x b : list (list R)) : res (list (list R)) := Throw.
Definition PT_reaction_dofval (x b : list R) : res (list R) := Throw.
Definition PT_reaction_p (x_u x_p : list R) : res (list R) := Throw.

(** MatrixPartitionedTyings.h:414-426, 446-458, 478-490 [AsDofs_u], [AsDofs_p], [AsDofs_d] of "dofval";
    the last one reads m_iip, as in the code *)
Definition PT_u_dofval (x : list R) : res (list R) := fill1 (PT_nnu a) (fun d => do k <- get (PT_ii a U) d; get x k).
Definition PT_p_dofval (x : list R) : res (list R) := fill1 (PT_nnp a) (fun d => do k <- get (PT_ii a P) d; get x k).
Definition PT_d_dofval (x : list R) : res (list R) := fill1 (PT_nnd a) (fun d => do k <- get (PT_ii a P) d; get x k).

(** the loops of MatrixPartitionedTyings.h:428-444, 460-476, 492-508 of "nodevec": [keep] is the
    condition, [shift] is subtracted from the DOF, [n] is the size of the result *)
Definition keep_nodevec (keep : nat -> bool) (shift n : nat) (order : list (nat * nat)) (u : list (list R)) : res (list R) :=
  do ws <- mapM (fun mi => do d <- get2 (m_dofs v) (fst mi) (snd mi);
                           if keep d then do x <- get2 u (fst mi) (snd mi); Ok [(d - shift, x)] else Ok []) order;
  write_all (repeat 0%R n) (concat ws).
Definition PT_u_nodevec := keep_nodevec (fun d => d <? nnu) 0 (PT_nnu a).
Definition PT_p_nodevec := keep_nodevec (fun d => (nnu <=? d) && (d <? nni)) nnu (PT_nnp a).
Definition PT_d_nodevec := keep_nodevec (fun d => nni <=? d) nni (PT_nnd a).

(** MatrixPartitionedTyings.h:661-663: [A_uq + A_ud * C_dq + C_ud * A_dq + C_ud * A_dd * C_dq] *)
Definition condense (q : part) (Cdq : mat) : res mat :=
  let Cud := transpose (PT_Cdu a) in
  do t <- mulmat (PT_A a U D) Cdq; do s <- addmat (PT_A a U q) t;
  do t <- mulmat Cud (PT_A a D q); do s <- addmat s t;
  do t <- mulmat Cud (PT_A a D D); do t <- mulmat t Cdq; addmat s t.

(** ** MatrixPartitionedTyingsSolver *)
Variable linsolve : mat -> list R -> list R.
Variable s : Solver.

(** MatrixPartitionedTyings.h:655-675 [factorize] *)
Definition PT_factorize : res (MatrixTyings * Solver) :=
  if negb (PT_changed a) && negb (S_factor s) then Ok (a, s)
  else do uu <- condense U (PT_Cdu a); do up <- condense P (PT_Cdp a);
       Ok (mkPT v (PT_Cdu a) (PT_Cdp a) (PT_A a) uu up false, mkSolver (Some uu) false).

(** [m_solver.solve(B_u - m_ACup * X_p)] *)
Definition PT_core (w : MatrixTyings * Solver) (B_u X_p : list R) : res (list R) :=
  do t <- mulvec (PT_ACup (fst w)) X_p; do r <- subvec B_u t; S_solve linsolve (snd w) r.
(** [m_Cdu * X_u + m_Cdp * X_p] *)
Definition PT_X_d (X_u X_p : list R) : res (list R) :=
  do t <- mulvec (PT_Cdu a) X_u; do t' <- mulvec (PT_Cdp a) X_p; addvec t t'.

(** MatrixPartitionedTyings.h:540-564 [solve_nodevec_impl] *)
Definition PT_solve_nodevec (order : list (nat * nat)) (b x : list (list R)) : res (list (list R) * Solver * MatrixTyings) :=
  do w <- PT_factorize;
  do B_u <- PT_u_nodevec order b; do B_d <- PT_d_nodevec order b; do X_p <- PT_p_nodevec order x;
  do t <- mulvec (transpose (PT_Cdu a)) B_d; do B_u <- addvec B_u t;
  do X_u <- PT_core w B_u X_p; do X_d <- PT_X_d X_u X_p;
  do y <- fill2 (m_nnode v) (m_ndim v) (fun m i => do d <- get2 (m_dofs v) m i;
    if d <? nnu then get X_u d else if nni <=? d then get X_d (d - nni) else get2 x m i);
  Ok (y, snd w, fst w).

(** MatrixPartitionedTyings.h:567-588 [solve_dofval_impl]; B_d is computed and not used, as in the code *)
Definition PT_solve_dofval (b x : list R) : res (list R * Solver * MatrixTyings) :=
  do w <- PT_factorize;
  do B_u <- PT_u_dofval b; do B_d <- PT_d_dofval b; do X_p <- PT_p_dofval x;
  do X_u <- PT_core w B_u X_p; do X_d <- PT_X_d X_u X_p;
  do wu <- index_writes (PT_ii a U) X_u; do y <- write_all x wu;
  do wd <- index_writes (PT_ii a D) X_d; do y <- write_all y wd;
  Ok (y, snd w, fst w).

(** MatrixPartitionedTyings.h:601-647 [Solve_u], [solve_u]; b_d is not used, as in the code *)
Definition PT_solve_u (b_u b_d x_p : list R) : res (list R * Solver * MatrixTyings) :=
  do w <- PT_factorize; do X_u <- PT_core w b_u x_p; Ok (X_u, snd w, fst w).
End PT2.

(** ** histories of one matrix and one solver *)
Inductive top :=
| TAssemble (elemmat : list (list (list R)))
| TSolve (b x : list R)
| TSolveN (order : list (nat * nat)) (b x : list (list R))
| TSolveU (b_u b_d x_p : list R).
Definition run_top (linsolve : mat -> list R -> list R) (w : MatrixTyings * Solver) (o : top) : res (MatrixTyings * Solver) :=
  match o with
  | TAssemble K => do a <- PT_assemble (fst w) K; Ok (a, snd w)
  | TSolve b x => do r <- PT_solve_dofval (fst w) linsolve (snd w) b x; Ok (snd r, snd (fst r))
  | TSolveN order b x => do r <- PT_solve_nodevec (fst w) linsolve (snd w) order b x; Ok (snd r, snd (fst r))
  | TSolveU b c x => do r <- PT_solve_u (fst w) linsolve (snd w) b c x; Ok (snd r, snd (fst r))
  end.
