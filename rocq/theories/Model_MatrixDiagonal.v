(** Model of MatrixDiagonal.h and MatrixDiagonalPartitioned.h.

    Arrays created by [xt::empty] have entries [None] until they are written; reading such an entry
    is [Uninit].  Real numbers stand for doubles; [1.0 / 0.0] is not a meaningful number here, the
    theorems ask for a non-zero diagonal where it is used. *)
From Coq Require Import Reals.
From Verif Require Import Base Sums Model_Numbering Model_Vector Model_VectorPartitioned.

(** MatrixDiagonal.h:260-261, Matrix.h:209 (m_changed) *)
Record MatrixDiagonal := mkMD { MD_v : Vector; MD_A : list (option R); MD_inv : list (option R); MD_changed : bool }.

(** MatrixDiagonal.h:131-147: the constructor *)
Definition new_MatrixDiagonal (v : Vector) : MatrixDiagonal := mkMD v (empty (m_ndof v)) (empty (m_ndof v)) true.

(** MatrixDiagonal.h:150-168 [assemble_impl]: [m_A.fill(0.0)] and the loops over (e, m, i) *)
Definition MD_assemble (a : MatrixDiagonal) (elemmat : list (list (list R))) : res MatrixDiagonal :=
  let v := MD_v a in
  do A <- foldM (fun A emi =>
      do d <- elem_dof v (fst (fst emi)) (snd (fst emi)) (snd emi);
      do x <- get3 elemmat (fst (fst emi)) (snd (fst emi) * m_ndim v + snd emi) (snd (fst emi) * m_ndim v + snd emi);
      add_at A d x) (elem_iters v) (repeat 0%R (length (MD_A a)));
  Ok (mkMD v (map Some A) (MD_inv a) true).

(** MatrixDiagonal.h:185-190 [set]: [std::copy] to [m_A.begin()] *)
Definition copy_to {A} (src dest : list A) : res (list A) :=
  if length src <=? length dest then Ok (src ++ skipn (length src) dest) else Oob.
Definition MD_set (a : MatrixDiagonal) (A : list R) : res MatrixDiagonal :=
  do A' <- copy_to (map Some A) (MD_A a); Ok (mkMD (MD_v a) A' (MD_inv a) true).

(** MatrixDiagonal.h:206-209 [data] (read by the caller) *)
Definition MD_data (a : MatrixDiagonal) : res (list R) := fill1 (m_ndof (MD_v a)) (get_init (MD_A a)).

(** MatrixDiagonal.h:169-178 [todense_impl], Matrix.h:335-344 [Todense] *)
Definition MD_todense (a : MatrixDiagonal) : res (list (list R)) :=
  let n := m_ndof (MD_v a) in
  do ws <- mapM (fun d => do x <- get_init (MD_A a) d; Ok (d, d, x)) (seq 0 n);
  write2_all (repeat (repeat 0%R n) n) ws.

(** MatrixDiagonal.h:212-224 [dot_nodevec_impl] *)
Definition MD_dot_nodevec (a : MatrixDiagonal) (x : list (list R)) : res (list (list R)) :=
  fill2 (m_nnode (MD_v a)) (m_ndim (MD_v a)) (fun m i =>
    do d <- get2 (m_dofs (MD_v a)) m i; do k <- get_init (MD_A a) d; do y <- get2 x m i; Ok (k * y)%R).

(** MatrixDiagonal.h:226-233 [dot_dofval_impl]: [m_A * x], entry by entry *)
Definition MD_dot_dofval (a : MatrixDiagonal) (x : list R) : res (list R) :=
  fill1 (m_ndof (MD_v a)) (fun d => do k <- get_init (MD_A a) d; do y <- get x d; Ok (k * y)%R).

(** MatrixDiagonal.h:268-280 [factorize] *)
Definition MD_factorize (a : MatrixDiagonal) : res MatrixDiagonal :=
  if negb (MD_changed a) then Ok a else
  do inv <- fill1 (m_ndof (MD_v a)) (fun d => do k <- get_init (MD_A a) d; Ok (Some (1 / k)%R));
  Ok (mkMD (MD_v a) (MD_A a) inv false).

(** MatrixDiagonal.h:236-250 [solve_nodevec_impl]: the result and the matrix after the call.  All
    entries of the output are overwritten, so [Solve] (:62-67) gives the same. *)
Definition MD_solve_nodevec (a : MatrixDiagonal) (b : list (list R)) : res (list (list R) * MatrixDiagonal) :=
  do a <- MD_factorize a;
  do x <- fill2 (m_nnode (MD_v a)) (m_ndim (MD_v a)) (fun m i =>
    do d <- get2 (m_dofs (MD_v a)) m i; do k <- get_init (MD_inv a) d; do y <- get2 b m i; Ok (k * y)%R);
  Ok (x, a).

(** MatrixDiagonal.h:252-259 [solve_dofval_impl] *)
Definition MD_solve_dofval (a : MatrixDiagonal) (b : list R) : res (list R * MatrixDiagonal) :=
  do a <- MD_factorize a;
  do x <- fill1 (m_ndof (MD_v a)) (fun d => do k <- get_init (MD_inv a) d; do y <- get b d; Ok (k * y)%R);
  Ok (x, a).

(** ** MatrixDiagonalPartitioned *)

(** MatrixDiagonalPartitioned.h:423-436: the members.  The bookkeeping ([m_part], [m_iiu], [m_iip],
    the sizes) is that of VectorPartitioned.h:73-88. *)
Record MatrixDiagonalPartitioned := mkMDP {
  MDP_p : VectorPartitioned; Auu : list (option R); App : list (option R); inv_uu : list (option R); MDP_changed : bool }.

(** MatrixDiagonalPartitioned.h:41-69: the constructor *)
Definition new_MatrixDiagonalPartitioned (v : Vector) (iip : list nat) : res MatrixDiagonalPartitioned :=
  do p <- new_VectorPartitioned v iip;
  Ok (mkMDP p (empty (m_nnu p)) (empty (m_nnp p)) (empty (m_nnu p)) true).

(** MatrixDiagonalPartitioned.h:72-98 [assemble_impl] *)
Definition MDP_assemble (a : MatrixDiagonalPartitioned) (elemmat : list (list (list R))) : res MatrixDiagonalPartitioned :=
  let p := MDP_p a in let v := vp_v p in
  do r <- foldM (fun up emi =>
      do n <- get2 (m_conn v) (fst (fst emi)) (snd (fst emi));
      do d <- get2 (m_part p) n (snd emi);
      do x <- get3 elemmat (fst (fst emi)) (snd (fst emi) * m_ndim v + snd emi) (snd (fst emi) * m_ndim v + snd emi);
      if d <? m_nnu p then do u <- add_at (fst up) d x; Ok (u, snd up)
      else do q <- add_at (snd up) (d - m_nnu p) x; Ok (fst up, q))
    (elem_iters v) (repeat 0%R (length (Auu a)), repeat 0%R (length (App a)));
  Ok (mkMDP p (map Some (fst r)) (map Some (snd r)) (inv_uu a) true).

(** the loop [for d < ii.size(): array(ii(d)) = f(d, ii(d))]: its writes *)
Definition loop_writes {A} (ii : list nat) (f : nat -> nat -> res A) : res (list (nat * A)) :=
  mapM (fun d => do k <- get ii d; do x <- f d k; Ok (k, x)) (seq 0 (length ii)).

(** MatrixDiagonalPartitioned.h:121-137 [set] *)
Definition MDP_set (a : MatrixDiagonalPartitioned) (A : list R) : res MatrixDiagonalPartitioned :=
  let p := MDP_p a in
  do u <- fill1 (m_nnu p) (fun d => do k <- get (m_iiu p) d; do x <- get A k; Ok (Some x));
  do q <- fill1 (m_nnp p) (fun d => do k <- get (m_iip p) d; do x <- get A k; Ok (Some x));
  Ok (mkMDP p u q (inv_uu a) true).

(** MatrixDiagonalPartitioned.h:142-158 [data] *)
Definition MDP_data (a : MatrixDiagonalPartitioned) : res (list R) :=
  let p := MDP_p a in
  do wu <- loop_writes (m_iiu p) (fun d _ => get_init (Auu a) d);
  do r <- write_all (repeat 0%R (m_ndof (vp_v p))) wu;
  do wp <- loop_writes (m_iip p) (fun d _ => get_init (App a) d);
  write_all r wp.

(** MatrixDiagonalPartitioned.h:100-114 [todense_impl] *)
Definition MDP_todense (a : MatrixDiagonalPartitioned) : res (list (list R)) :=
  let p := MDP_p a in let n := m_ndof (vp_v p) in
  do wu <- loop_writes (m_iiu p) (fun d _ => get_init (Auu a) d);
  do r <- write2_all (repeat (repeat 0%R n) n) (map (fun w => (fst w, fst w, snd w)) wu);
  do wp <- loop_writes (m_iip p) (fun d _ => get_init (App a) d);
  write2_all r (map (fun w => (fst w, fst w, snd w)) wp).

(** MatrixDiagonalPartitioned.h:188-208 [dot_nodevec_impl] *)
Definition MDP_dot_nodevec (a : MatrixDiagonalPartitioned) (x : list (list R)) : res (list (list R)) :=
  let p := MDP_p a in
  fill2 (m_nnode (vp_v p)) (m_ndim (vp_v p)) (fun m i =>
    do d <- get2 (m_part p) m i;
    if d <? m_nnu p then do k <- get_init (Auu a) d; do y <- get2 x m i; Ok (k * y)%R
    else do k <- get_init (App a) (d - m_nnu p); do y <- get2 x m i; Ok (k * y)%R).

(** MatrixDiagonalPartitioned.h:210-225 [dot_dofval_impl]; [b]: the array that is written *)
Definition MDP_dot_dofval (a : MatrixDiagonalPartitioned) (x b : list R) : res (list R) :=
  let p := MDP_p a in
  do wu <- loop_writes (m_iiu p) (fun d i => do k <- get_init (Auu a) d; do y <- get x i; Ok (k * y)%R);
  do r <- write_all b wu;
  do wp <- loop_writes (m_iip p) (fun d i => do k <- get_init (App a) d; do y <- get x i; Ok (k * y)%R);
  write_all r wp.

(** MatrixDiagonalPartitioned.h:234-264, 272-302 [Dot_u], [Dot_p]: the other argument is not used *)
Definition MDP_dot_u (a : MatrixDiagonalPartitioned) (x_u x_p : list R) : res (list R) :=
  fill1 (m_nnu (MDP_p a)) (fun d => do k <- get_init (Auu a) d; do y <- get x_u d; Ok (k * y)%R).
Definition MDP_dot_p (a : MatrixDiagonalPartitioned) (x_u x_p : list R) : res (list R) :=
  fill1 (m_nnp (MDP_p a)) (fun d => do k <- get_init (App a) d; do y <- get x_p d; Ok (k * y)%R).

(** MatrixDiagonalPartitioned.h:439-451 [factorize] *)
Definition MDP_factorize (a : MatrixDiagonalPartitioned) : res MatrixDiagonalPartitioned :=
  if negb (MDP_changed a) then Ok a else
  do inv <- fill1 (m_nnu (MDP_p a)) (fun d => do k <- get_init (Auu a) d; Ok (Some (1 / k)%R));
  Ok (mkMDP (MDP_p a) (Auu a) (App a) inv false).

(** MatrixDiagonalPartitioned.h:305-321 [solve_nodevec_impl]; [x]: the array that is written, its
    entries may be uninitialised *)
Definition MDP_solve_nodevec (a : MatrixDiagonalPartitioned) (b : list (list R)) (x : list (list (option R)))
  : res (list (list (option R)) * MatrixDiagonalPartitioned) :=
  do a <- MDP_factorize a;
  let p := MDP_p a in
  do y <- fill2 (m_nnode (vp_v p)) (m_ndim (vp_v p)) (fun m i =>
    do d <- get2 (m_part p) m i;
    if d <? m_nnu p then do k <- get_init (inv_uu a) d; do z <- get2 b m i; Ok (Some (k * z)%R)
    else get2 x m i);
  Ok (y, a).

(** MatrixDiagonalPartitioned.h:323-336 [solve_dofval_impl] *)
Definition MDP_solve_dofval (a : MatrixDiagonalPartitioned) (b : list R) (x : list (option R))
  : res (list (option R) * MatrixDiagonalPartitioned) :=
  do a <- MDP_factorize a;
  let p := MDP_p a in
  do ws <- loop_writes (m_iiu p) (fun d i => do k <- get_init (inv_uu a) d; do z <- get b i; Ok (Some (k * z)%R));
  do y <- write_all x ws;
  Ok (y, a).

(** MatrixDiagonal.h:50-55, 62-67 [Solve]: the output is [xt::empty_like(b)] *)
Definition MDP_Solve_nodevec (a : MatrixDiagonalPartitioned) (b : list (list R)) :=
  MDP_solve_nodevec a b (map (fun r => empty (length r)) b).
Definition MDP_Solve_dofval (a : MatrixDiagonalPartitioned) (b : list R) := MDP_solve_dofval a b (empty (length b)).

(** MatrixDiagonalPartitioned.h:343-374 [Solve_u] *)
Definition MDP_solve_u (a : MatrixDiagonalPartitioned) (b_u x_p : list R) : res (list R * MatrixDiagonalPartitioned) :=
  do a <- MDP_factorize a;
  do y <- fill1 (m_nnu (MDP_p a)) (fun d => do k <- get_init (inv_uu a) d; do z <- get b_u d; Ok (k * z)%R);
  Ok (y, a).

(** MatrixDiagonalPartitioned.h:377-391, 393-403 [reaction_nodevec_impl], [reaction_dofval_impl] *)
Definition MDP_reaction_nodevec (a : MatrixDiagonalPartitioned) (x b : list (list R)) : res (list (list R)) :=
  let p := MDP_p a in
  fill2 (m_nnode (vp_v p)) (m_ndim (vp_v p)) (fun m i =>
    do d <- get2 (m_part p) m i;
    if m_nnu p <=? d then do k <- get_init (App a) (d - m_nnu p); do y <- get2 x m i; Ok (k * y)%R
    else get2 b m i).
Definition MDP_reaction_dofval (a : MatrixDiagonalPartitioned) (x b : list R) : res (list R) :=
  let p := MDP_p a in
  do wp <- loop_writes (m_iip p) (fun d i => do k <- get_init (App a) d; do y <- get x i; Ok (k * y)%R);
  write_all b wp.

(** MatrixDiagonalPartitioned.h:405-421 [reaction_p_impl] *)
Definition MDP_reaction_p (a : MatrixDiagonalPartitioned) (x_u x_p : list R) (b_p : list (option R)) : res (list (option R)) :=
  do ws <- mapM (fun d => do k <- get_init (App a) d; do y <- get x_p d; Ok (d, Some (k * y)%R)) (seq 0 (m_nnp (MDP_p a)));
  write_all b_p ws.
(** Matrix.h:553-561 [Reaction_p]: the output has [m_nnp] entries, where m_nnp is the member of the
    base class (Matrix.h:422).  MatrixDiagonalPartitioned.h:436 declares another member with that
    name and the constructor writes only that one, so the value [base_nnp] is indeterminate. *)
Definition MDP_Reaction_p (base_nnp : nat) (a : MatrixDiagonalPartitioned) (x_u x_p : list R) : res (list (option R)) :=
  MDP_reaction_p a x_u x_p (empty base_nnp).

(** ** histories *)
Inductive dop :=
| DAssemble (elemmat : list (list (list R)))
| DSet (A : list R)
| DSolve (b : list R)
| DSolveN (b : list (list R)).
Definition run_dop (a : MatrixDiagonal) (o : dop) : res MatrixDiagonal :=
  match o with
  | DAssemble K => MD_assemble a K
  | DSet A => MD_set a A
  | DSolve b => do r <- MD_solve_dofval a b; Ok (snd r)
  | DSolveN b => do r <- MD_solve_nodevec a b; Ok (snd r)
  end.
(** [x0], [x1]: what is in the arrays the solutions are written to *)
Definition run_dpop (x0 : list (option R)) (x1 : list (list (option R))) (a : MatrixDiagonalPartitioned) (o : dop) : res MatrixDiagonalPartitioned :=
  match o with
  | DAssemble K => MDP_assemble a K
  | DSet A => MDP_set a A
  | DSolve b => do r <- MDP_solve_dofval a b x0; Ok (snd r)
  | DSolveN b => do r <- MDP_solve_nodevec a b x1; Ok (snd r)
  end.
