(** Model of Matrix, MatrixSolver, MatrixPartitioned and MatrixPartitionedSolver as they are called: with arrays of any rank and shape, and
    with the assertions ([ck]: whether the library is compiled with GOOSEFEM_ENABLE_ASSERT, config.h:94-98). *)
From Coq Require Import Reals.
From Verif Require Import Base Model_Numbering Model_Vector Model_VectorPartitioned Model_Misc Model_Sparse Model_Matrix Model_MatrixPartitioned Model_Checked.

(** Matrix.h:679-697: the constructor, with the assertions of lines 694-695: they are those of Vector.h:33-47 *)
Definition new_Matrix_checked (ck : bool) (conn dofs : array nat) : res Matrix := do v <- new_Vector ck conn dofs; Ok (new_Matrix v).

(** MatrixPartitioned.h:87-121: the constructor, with the assertions of lines 102-105, and those of Reorder (Mesh.h:2406), that is called
    twice with the same lists *)
Definition new_MatrixPartitioned_checked (ck : bool) (conn dofs iip : array nat) : res MatrixPartitioned :=
  match a_shape conn, a_shape dofs, a_shape iip with
  | [nelem; nne], [nnode; ndim], [n] =>
      let v := mkVector (rows2 nelem nne conn) nne (rows2 nnode ndim dofs) ndim in
      let ii := rows1 n iip in
      assert ck (is_unique ii)
      (assert ck (amax (concat (m_conn v)) + 1 <=? nnode)
      (assert ck (amax ii <=? amax (concat (m_dofs v)))
      (assert ck (m_ndof v <=? nnode * ndim)
      (assert ck (is_unique (setdiff1d (concat (m_dofs v)) ii)) (assert ck (is_unique ii)
      (new_MatrixPartitioned v ii))))))
  | _, _, _ => Throw
  end.

(** the calls to a matrix or its solver; every array can have every rank and shape.  [Todense]: the shape of the output.  The last array of
    [Dot], [Solve], [Reaction_p], [Solve_u] is the output, the one of [Reaction] is read and overwritten.
    The by-value methods make the output themselves: [Todense] one of shape [ndof; ndof] (Matrix.h:335-344), [Dot], [MatrixSolver::Solve]
    and [Solve_u] one of the shape of the first argument (Matrix.h:361-367, 375-381, 100-106, 118-124; MatrixPartitioned.h:545-556),
    [Reaction] and [MatrixPartitionedSolver::Solve] a copy of the second one (Matrix.h:490-515, 160-187), and [Reaction_p] one of shape
    [nnp] (Matrix.h:553-561); see [by_value] *)
Inductive mcall :=
| Assemble (elemmat : array R)
| SetBlock (rs cs : array nat) (matrix : array R)
| AddBlock (rs cs : array nat) (matrix : array R)
| ToDense (ret : list nat)
| Dot (x b : array R)
| Solve (b x : array R).
Inductive pcall :=
| Common (c : mcall)
| Reaction (x b : array R)
| Reaction_p (x_u x_p b_p : array R)
| Solve_u (b_u x_p x_u : array R).
(** an array with the shape of another one, with unspecified entries: [xt::empty_like] *)
Definition empty_like (x : array R) (garbage : list nat -> R) : array R := mkArray (a_shape x) garbage.

Section Calls.
Variable ck : bool.
Variable linsolve : mat -> list R -> list R.
Variable o : schedule.

(** Matrix.h:743-746, 772-775; MatrixPartitioned.h:225-228, 275-278: the assertions of [set] and [add], whose arguments have ranks 1, 1, 2 *)
Definition block_args {A} (ndof : nat) (rs cs : array nat) (m : array R) (k : list nat -> list nat -> list (list R) -> res A) : res A :=
  match a_shape rs, a_shape cs, a_shape m with
  | [nr], [nc], [mr; mc] =>
      assert ck (nr =? mr) (assert ck (nc =? mc) (assert ck (amax (rows1 nc cs) <? ndof) (assert ck (amax (rows1 nr rs) <? ndof)
      (k (rows1 nr rs) (rows1 nc cs) (rows2 mr mc m)))))
  | _, _, _ => Throw
  end.
(** Matrix.h:322-328 [assemble]; [s]: shape_elemmat, Matrix.h:307-314 *)
Definition assemble_arg {A} (s : list nat) (K : array R) (k : list (list (list R)) -> res A) : res A :=
  assert ck (has_shape (a_shape K) s) (match a_shape K with [n; r; c] => k (rows3 n r c K) | _ => Oob end).
(** an output and the objects after the call *)
Definition with_out {A} (f : A -> output) {S} (st : S) (x : res A) : res (option output * S) := do y <- x; Ok (Some (f y), st).

(** Matrix.h:322-328, 738-789, 351-356 [todense], 389-407 [dot], 51-72 [MatrixSolver::solve].  The assertions in the private conversions
    (Matrix.h:827, 851-852) repeat those on the arguments and are left out. *)
Definition run_mcall (st : Matrix * Solver) (c : mcall) : res (option output * (Matrix * Solver)) :=
  let (a, s) := st in
  let v := M_v a in
  match c with
  | Assemble K => assemble_arg (shape_elemmat v) K (fun K => do a' <- M_assemble a K; Ok (None, (a', s)))
  | SetBlock rs cs m => block_args (m_ndof v) rs cs m (fun rs cs m => do a' <- M_set a rs cs m; Ok (None, (a', s)))
  | AddBlock rs cs m => block_args (m_ndof v) rs cs m (fun rs cs m => do a' <- M_add a rs cs m; Ok (None, (a', s)))
  | ToDense ret => assert ck (has_shape ret [m_ndof v; m_ndof v]) (if has_shape ret [m_ndof v; m_ndof v] then with_out Out2 st (M_todense a) else Oob)
  | Dot x b =>
      match a_shape x, a_shape b with
      | [n], [n'] => assert ck (has_shape [n] (shape_dofval v)) (assert ck (has_shape [n'] (shape_dofval v))
          (if has_shape [n'] (shape_dofval v) then with_out Out1 st (M_dot_dofval a (rows1 n x)) else Oob))
      | [n; d], [n'; d'] => assert ck (has_shape [n; d] (shape_nodevec v)) (assert ck (has_shape [n'; d'] (shape_nodevec v))
          (if has_shape [n'; d'] (shape_nodevec v) then with_out Out2 st (M_dot_nodevec a (s_node o) (rows2 n d x)) else Oob))
      | _, _ => Throw
      end
  | Solve b x =>
      match a_shape b, a_shape x with
      | [n], [n'] => assert ck (has_shape [n] (shape_dofval v)) (assert ck (has_shape [n'] (shape_dofval v))
          (if has_shape [n'] (shape_dofval v) then do r <- MS_solve_dofval linsolve s a (rows1 n b); Ok (Some (Out1 (fst (fst r))), (snd r, snd (fst r))) else Oob))
      | [n; d], [n'; d'] => assert ck (has_shape [n; d] (shape_nodevec v)) (assert ck (has_shape [n'; d'] (shape_nodevec v))
          (if has_shape [n'; d'] (shape_nodevec v) then do r <- MS_solve_nodevec linsolve (s_node o) s a (rows2 n d b); Ok (Some (Out2 (fst (fst r))), (snd r, snd (fst r))) else Oob))
      | _, _ => Throw
      end
  end.

(** the same for MatrixPartitioned.h:157-450 and 527-624 ([solve], [Solve_u], [solve_u]), with Matrix.h:490-580 ([Reaction], [reaction],
    [Reaction_p], [reaction_p]).  Assertions that are repeated (MatrixPartitioned.h:159, 356-357, 380-381, 403-404, 423-424, 455, 469, 487,
    501) are left out.  [reaction_p] has its assertions in MatrixPartitioned.h:442-444. *)
Definition run_pcall (st : MatrixPartitioned * Solver) (c : pcall) : res (option output * (MatrixPartitioned * Solver)) :=
  let (a, s) := st in
  let p := MP_p a in
  let v := vp_v p in
  match c with
  | Common (Assemble K) => assemble_arg (shape_elemmat v) K (fun K => do a' <- MP_assemble a K; Ok (None, (a', s)))
  | Common (SetBlock rs cs m) => block_args (m_ndof v) rs cs m (fun rs cs m => do a' <- MP_set a rs cs m; Ok (None, (a', s)))
  | Common (AddBlock rs cs m) => block_args (m_ndof v) rs cs m (fun rs cs m => do a' <- MP_add a rs cs m; Ok (None, (a', s)))
  | Common (ToDense ret) => assert ck (has_shape ret [m_ndof v; m_ndof v]) (if has_shape ret [m_ndof v; m_ndof v] then with_out Out2 st (MP_todense a) else Oob)
  | Common (Dot x b) =>
      match a_shape x, a_shape b with
      | [n], [n'] => assert ck (has_shape [n] (shape_dofval v)) (assert ck (has_shape [n'] (shape_dofval v)) (with_out Out1 st (MP_dot_dofval a (rows1 n x) (rows1 n' b))))
      | [n; d], [n'; d'] => assert ck (has_shape [n; d] (shape_nodevec v)) (assert ck (has_shape [n'; d'] (shape_nodevec v))
          (if has_shape [n'; d'] (shape_nodevec v) then with_out Out2 st (MP_dot_nodevec a (s_node o) (rows2 n d x)) else Oob))
      | _, _ => Throw
      end
  | Common (Solve b x) =>
      match a_shape b, a_shape x with
      | [n], [n'] => assert ck (has_shape [n] (shape_dofval v)) (assert ck (has_shape [n'] (shape_dofval v))
          (do r <- MPS_solve_dofval a linsolve s (rows1 n b) (rows1 n' x); Ok (Some (Out1 (fst (fst r))), (snd r, snd (fst r)))))
      | [n; d], [n'; d'] => assert ck (has_shape [n; d] (shape_nodevec v)) (assert ck (has_shape [n'; d'] (shape_nodevec v))
          (do r <- MPS_solve_nodevec a linsolve s (s_node o) (rows2 n d b) (rows2 n' d' x); Ok (Some (Out2 (fst (fst r))), (snd r, snd (fst r)))))
      | _, _ => Throw
      end
  | Reaction x b =>
      match a_shape x, a_shape b with
      | [n], [n'] => assert ck (has_shape [n] (shape_dofval v)) (assert ck (has_shape [n'] (shape_dofval v)) (with_out Out1 st (MP_reaction_dofval a (rows1 n x) (rows1 n' b))))
      | [n; d], [n'; d'] => assert ck (has_shape [n; d] (shape_nodevec v)) (assert ck (has_shape [n'; d'] (shape_nodevec v))
          (with_out Out2 st (MP_reaction_nodevec a (s_node o) (rows2 n d x) (rows2 n' d' b))))
      | _, _ => Throw
      end
  | Reaction_p xu xp bp =>
      match a_shape xu, a_shape xp, a_shape bp with
      | [nu], [np], [nb] => assert ck (nu =? m_nnu p) (assert ck (np =? m_nnp p) (assert ck (nb =? m_nnp p)
          (if nb =? m_nnp p then with_out Out1 st (MP_reaction_p a (rows1 nu xu) (rows1 np xp)) else Oob)))
      | _, _, _ => Throw
      end
  | Solve_u bu xp xu =>
      match a_shape bu, a_shape xp, a_shape xu with
      | [nb], [np], [nu] => assert ck (has_shape [nb] [m_nnu p]) (assert ck (has_shape [np] [m_nnp p]) (assert ck (has_shape [nu] [m_nnu p])
          (if has_shape [nu] [m_nnu p] then do r <- MPS_solve_u a linsolve s (rows1 nb bu) (rows1 np xp); Ok (Some (Out1 (fst (fst r))), (snd r, snd (fst r))) else Oob)))
      | _, _, _ => Throw
      end
  end.
End Calls.

(** a program that calls a matrix and its solver and catches the exceptions: an assertion is checked before anything is changed, so that a
    call that throws leaves the objects as they were.  Every call comes with an order of the iterations of its parallel loops. *)
Definition caught {S O} (run : S -> res (O * S)) (st : S) : S := match run st with Ok r => snd r | _ => st end.
Definition program_m (ck : bool) linsolve (l : list (schedule * mcall)) (st : Matrix * Solver) : Matrix * Solver :=
  fold_left (fun st oc => caught (fun st => run_mcall ck linsolve (fst oc) st (snd oc)) st) l st.
Definition program_p (ck : bool) linsolve (l : list (schedule * pcall)) (st : MatrixPartitioned * Solver) : MatrixPartitioned * Solver :=
  fold_left (fun st oc => caught (fun st => run_pcall ck linsolve (fst oc) st (snd oc)) st) l st.
