(** Model of MatrixPartitionedTyings and MatrixPartitionedTyingsSolver as they are called: with arrays of any rank and shape, and with the
    assertions ([ck]: whether the library is compiled with GOOSEFEM_ENABLE_ASSERT, config.h:94-98). *)
From Coq Require Import Reals.
From Verif Require Import Base Model_Numbering Model_Vector Model_VectorPartitioned Model_Misc Model_Sparse Model_Matrix Model_MatrixPartitioned Model_MatrixTyings Model_Checked Model_CheckedMatrix.

(** MatrixPartitionedTyings.h:86-135: the constructor, with the assertions of lines 93 and 133-134.  Nothing is asserted about the nodes in
    the connectivity.  Arrays of another rank cannot be converted: xtensor throws. *)
Definition new_MatrixTyings_checked (ck : bool) (conn dofs : array nat) (Cdu Cdp : mat) : res MatrixTyings :=
  match a_shape conn, a_shape dofs with
  | [nelem; nne], [nnode; ndim] =>
      let v := mkVector (rows2 nelem nne conn) nne (rows2 nnode ndim dofs) ndim in
      let a := new_MatrixTyings v Cdu Cdp in
      assert ck (rows Cdu =? rows Cdp)
      (assert ck (PT_ndof a <=? nnode * ndim)
      (assert ck (PT_ndof a =? amax (concat (m_dofs v)) + 1)
      (Ok a)))
  | _, _ => Throw
  end.

(** the calls to a matrix with tyings or its solver; the arguments as in [mcall] and [pcall] of Model_CheckedMatrix.v.  [TSolve_u]: b_u, b_d,
    x_p, x_u.  The by-value methods make the last array: [TDot] and [TReaction_p] an array of the right shape, [TReaction] and [TSolve] a copy
    of the last one (Matrix.h:160-187, 490-515), [TSolve_u] one of shape [nnu] (MatrixPartitionedTyings.h:601-611). *)
Inductive tcall :=
| TAssem (elemmat : array R)
| TDense (ret : list nat)
| TDot (x b : array R)
| TReaction (x b : array R)
| TReaction_p (x_u x_p b_p : array R)
| TSolve' (b x : array R)
| TSolve_u (b_u b_d x_p x_u : array R).

Section Calls.
Variable ck : bool.
Variable linsolve : mat -> list R -> list R.
Variable o : schedule.

(** Matrix.h:322-328 [assemble], 351-356 [todense], 389-407 [dot], 524-549 [reaction], 572-580 [reaction_p], 51-72 [solve], with
    MatrixPartitionedTyings.h:211-411 and 536-647.  The assertions in the private functions (MatrixPartitionedTyings.h:213, 416, 430, 448,
    462, 480, 494) repeat those on the arguments and are left out.  Without assertions, an output of another shape counts as an access out of
    bounds. *)
Definition run_tcall (st : MatrixTyings * Solver) (c : tcall) : res (option output * (MatrixTyings * Solver)) :=
  let (a, s) := st in
  let v := PT_v a in
  let dofval := [PT_ndof a] in
  let nodevec := shape_nodevec v in
  match c with
  | TAssem K => assemble_arg ck (shape_elemmat v) K (fun K => do a' <- PT_assemble a K; Ok (None, (a', s)))
  | TDense ret => assert ck (has_shape ret [PT_ndof a; PT_ndof a]) (if has_shape ret [PT_ndof a; PT_ndof a] then with_out Out2 st (PT_todense a) else Oob)
  | TDot x b =>
      match a_shape x, a_shape b with
      | [n], [n'] => assert ck (has_shape [n] dofval) (assert ck (has_shape [n'] dofval) (with_out Out1 st (PT_dot_dofval (rows1 n x))))
      | [n; d], [n'; d'] => assert ck (has_shape [n; d] nodevec) (assert ck (has_shape [n'; d'] nodevec) (with_out Out2 st (PT_dot_nodevec (rows2 n d x))))
      | _, _ => Throw
      end
  | TReaction x b =>
      match a_shape x, a_shape b with
      | [n], [n'] => assert ck (has_shape [n] dofval) (assert ck (has_shape [n'] dofval) (with_out Out1 st (PT_reaction_dofval (rows1 n x) (rows1 n' b))))
      | [n; d], [n'; d'] => assert ck (has_shape [n; d] nodevec) (assert ck (has_shape [n'; d'] nodevec) (with_out Out2 st (PT_reaction_nodevec (rows2 n d x) (rows2 n' d' b))))
      | _, _ => Throw
      end
  | TReaction_p xu xp bp =>
      match a_shape xu, a_shape xp, a_shape bp with
      | [nu], [np], [nb] => with_out Out1 st (PT_reaction_p (rows1 nu xu) (rows1 np xp))
      | _, _, _ => Throw
      end
  | TSolve' b x =>
      match a_shape b, a_shape x with
      | [n], [n'] => assert ck (has_shape [n] dofval) (assert ck (has_shape [n'] dofval)
          (do r <- PT_solve_dofval a linsolve s (rows1 n b) (rows1 n' x); Ok (Some (Out1 (fst (fst r))), (snd r, snd (fst r)))))
      | [n; d], [n'; d'] => assert ck (has_shape [n; d] nodevec) (assert ck (has_shape [n'; d'] nodevec)
          (do r <- PT_solve_nodevec a linsolve s (s_node o) (rows2 n d b) (rows2 n' d' x); Ok (Some (Out2 (fst (fst r))), (snd r, snd (fst r)))))
      | _, _ => Throw
      end
  | TSolve_u bu bd xp xu =>
      match a_shape bu, a_shape bd, a_shape xp, a_shape xu with
      | [nb], [nd], [np], [nu] => assert ck (nb =? PT_nnu a) (assert ck (nd =? PT_nnd a) (assert ck (np =? PT_nnp a) (assert ck (nu =? PT_nnu a)
          (if nu =? PT_nnu a then do r <- PT_solve_u a linsolve s (rows1 nb bu) (rows1 nd bd) (rows1 np xp); Ok (Some (Out1 (fst (fst r))), (snd r, snd (fst r))) else Oob))))
      | _, _, _, _ => Throw
      end
  end.
End Calls.

(** a program that calls a matrix and its solver and catches the exceptions, as [program_m] of Model_CheckedMatrix.v: everything that is
    asserted is asserted before anything is changed *)
Definition program_t (ck : bool) linsolve (l : list (schedule * tcall)) (st : MatrixTyings * Solver) : MatrixTyings * Solver :=
  fold_left (fun st oc => caught (fun st => run_tcall ck linsolve (fst oc) st (snd oc)) st) l st.
