(** Model of MatrixDiagonal and MatrixDiagonalPartitioned as they are called: with arrays of any rank and shape, and with the assertions
    ([ck]: whether the library is compiled with GOOSEFEM_ENABLE_ASSERT, config.h:94-98). *)
From Coq Require Import Reals.
From Verif Require Import Base Model_Numbering Model_Vector Model_VectorPartitioned Model_Misc Model_MatrixDiagonal Model_Checked Model_CheckedMatrix.

(** MatrixDiagonal.h:131-147: the constructor; the assertions of lines 145-146 are those of Vector.h:33-47 *)
Definition new_MatrixDiagonal_checked (ck : bool) (conn dofs : array nat) : res MatrixDiagonal := do v <- new_Vector ck conn dofs; Ok (new_MatrixDiagonal v).

(** MatrixDiagonalPartitioned.h:41-69: the constructor, with the assertions of lines 56-59, and those of Reorder (Mesh.h:2406), that is called
    with the lists of unknown and of prescribed DOFs *)
Definition new_MatrixDiagonalPartitioned_checked (ck : bool) (conn dofs iip : array nat) : res MatrixDiagonalPartitioned :=
  match a_shape conn, a_shape dofs, a_shape iip with
  | [nelem; nne], [nnode; ndim], [n] =>
      let v := mkVector (rows2 nelem nne conn) nne (rows2 nnode ndim dofs) ndim in
      let ii := rows1 n iip in
      assert ck (is_unique ii)
      (assert ck (amax (concat (m_conn v)) + 1 <=? nnode)
      (assert ck (m_ndof v <=? nnode * ndim)
      (assert ck (amax ii <=? amax (concat (m_dofs v)))
      (assert ck (is_unique (setdiff1d (concat (m_dofs v)) ii)) (assert ck (is_unique ii)
      (new_MatrixDiagonalPartitioned v ii))))))
  | _, _, _ => Throw
  end.

(** the calls; every array can have every rank and shape.  [DiagToDense]: the shape of the output.  The last array of the others is the
    output: the by-value methods allocate it (MatrixDiagonal.h:50-67, Matrix.h:335-381, MatrixDiagonalPartitioned.h:234-241, 272-279, 343-350) *)
Inductive dcall :=
| DiagAssemble (elemmat : array R)
| DiagSet (A : array R)
| DiagData
| DiagToDense (ret : list nat)
| DiagDot (x b : array R)
| DiagSolve (b x : array R).
Inductive dpcall :=
| DCommon (c : dcall)
| DDot_u (x_u x_p b_u : array R)
| DDot_p (x_u x_p b_p : array R)
| DSolve_u (b_u x_p x_u : array R)
| DReaction (x b : array R)
| DReaction_p (x_u x_p b_p : array R).

(** reading a whole array: every entry must have been written *)
Definition read_all (l : list (option R)) : res (list R) := mapM (fun o => match o with Some x => Ok x | None => Uninit end) l.

Section Calls.
Variable ck : bool.

(** MatrixDiagonal.h:153-154, MatrixDiagonalPartitioned.h:75-76: the assertions of [assemble], the second one evaluates Element::isDiagonal
    (Element.h:122-144) only if the assertions are enabled; Matrix.h:322-328 repeats the first one *)
Definition diag_arg {A} (s : list nat) (K : array R) (k : list (list (list R)) -> res A) : res A :=
  assert ck (has_shape (a_shape K) s)
  (match a_shape K with
   | [n; r; c] => if ck then do b <- isDiagonal n r (rows3 n r c K); assert ck b (k (rows3 n r c K)) else k (rows3 n r c K)
   | _ => Oob
   end).

(** MatrixDiagonal.h:150-259 with Matrix.h:322-407: assertions of lines 153-154, 187, 215-216, 229-230, 239-240, 255-256, Matrix.h:351-356 *)
Definition run_dcall (a : MatrixDiagonal) (c : dcall) : res (option output * MatrixDiagonal) :=
  let v := MD_v a in
  match c with
  | DiagAssemble K => diag_arg (shape_elemmat v) K (fun K => do a' <- MD_assemble a K; Ok (None, a'))
  | DiagSet A => match a_shape A with [n] => assert ck (n =? m_ndof v) (do a' <- MD_set a (rows1 n A); Ok (None, a')) | _ => Throw end
  | DiagData => with_out Out1 a (MD_data a)
  | DiagToDense ret => assert ck (has_shape ret [m_ndof v; m_ndof v]) (if has_shape ret [m_ndof v; m_ndof v] then with_out Out2 a (MD_todense a) else Oob)
  | DiagDot x b =>
      match a_shape x, a_shape b with
      | [n], [n'] => assert ck (n =? m_ndof v) (assert ck (n' =? m_ndof v)
          (if n' =? m_ndof v then with_out Out1 a (MD_dot_dofval a (rows1 n x)) else Oob))
      | [n; d], [n'; d'] => assert ck (has_shape [n; d] (shape_nodevec v)) (assert ck (has_shape [n'; d'] (shape_nodevec v))
          (if has_shape [n'; d'] (shape_nodevec v) then with_out Out2 a (MD_dot_nodevec a (rows2 n d x)) else Oob))
      | _, _ => Throw
      end
  | DiagSolve b x =>
      match a_shape b, a_shape x with
      | [n], [n'] => assert ck (n =? m_ndof v) (assert ck (n' =? m_ndof v)
          (if n' =? m_ndof v then do r <- MD_solve_dofval a (rows1 n b); Ok (Some (Out1 (fst r)), snd r) else Oob))
      | [n; d], [n'; d'] => assert ck (has_shape [n; d] (shape_nodevec v)) (assert ck (has_shape [n'; d'] (shape_nodevec v))
          (if has_shape [n'; d'] (shape_nodevec v) then do r <- MD_solve_nodevec a (rows2 n d b); Ok (Some (Out2 (fst r)), snd r) else Oob))
      | _, _ => Throw
      end
  end.

(** MatrixDiagonalPartitioned.h:72-421 with Matrix.h:322-407, 490-580: assertions of lines 75-76, 123, 191-192, 213-214, 256-258, 294-296,
    308-309, 326-327, 364-366, 380-381, 396-397, 413-415.  The arrays that are passed as output have entries. *)
Definition run_dpcall (a : MatrixDiagonalPartitioned) (c : dpcall) : res (option output * MatrixDiagonalPartitioned) :=
  let p := MDP_p a in
  let v := vp_v p in
  match c with
  | DCommon (DiagAssemble K) => diag_arg (shape_elemmat v) K (fun K => do a' <- MDP_assemble a K; Ok (None, a'))
  | DCommon (DiagSet A) => match a_shape A with [n] => assert ck (n =? m_ndof v) (do a' <- MDP_set a (rows1 n A); Ok (None, a')) | _ => Throw end
  | DCommon DiagData => with_out Out1 a (MDP_data a)
  | DCommon (DiagToDense ret) => assert ck (has_shape ret [m_ndof v; m_ndof v]) (if has_shape ret [m_ndof v; m_ndof v] then with_out Out2 a (MDP_todense a) else Oob)
  | DCommon (DiagDot x b) =>
      match a_shape x, a_shape b with
      | [n], [n'] => assert ck (n =? m_ndof v) (assert ck (n' =? m_ndof v) (with_out Out1 a (MDP_dot_dofval a (rows1 n x) (rows1 n' b))))
      | [n; d], [n'; d'] => assert ck (has_shape [n; d] (shape_nodevec v)) (assert ck (has_shape [n'; d'] (shape_nodevec v))
          (if has_shape [n'; d'] (shape_nodevec v) then with_out Out2 a (MDP_dot_nodevec a (rows2 n d x)) else Oob))
      | _, _ => Throw
      end
  | DCommon (DiagSolve b x) =>
      match a_shape b, a_shape x with
      | [n], [n'] => assert ck (n =? m_ndof v) (assert ck (n' =? m_ndof v)
          (do r <- MDP_solve_dofval a (rows1 n b) (map Some (rows1 n' x)); do y <- read_all (fst r); Ok (Some (Out1 y), snd r)))
      | [n; d], [n'; d'] => assert ck (has_shape [n; d] (shape_nodevec v)) (assert ck (has_shape [n'; d'] (shape_nodevec v))
          (do r <- MDP_solve_nodevec a (rows2 n d b) (map (map Some) (rows2 n' d' x)); do y <- mapM read_all (fst r); Ok (Some (Out2 y), snd r)))
      | _, _ => Throw
      end
  | DDot_u xu xp bu =>
      match a_shape xu, a_shape xp, a_shape bu with
      | [nu], [np], [nb] => assert ck (nu =? m_nnu p) (assert ck (np =? m_nnp p) (assert ck (nb =? m_nnu p)
          (if nb =? m_nnu p then with_out Out1 a (MDP_dot_u a (rows1 nu xu) (rows1 np xp)) else Oob)))
      | _, _, _ => Throw
      end
  | DDot_p xu xp bp =>
      match a_shape xu, a_shape xp, a_shape bp with
      | [nu], [np], [nb] => assert ck (nu =? m_nnu p) (assert ck (np =? m_nnp p) (assert ck (nb =? m_nnp p)
          (if nb =? m_nnp p then with_out Out1 a (MDP_dot_p a (rows1 nu xu) (rows1 np xp)) else Oob)))
      | _, _, _ => Throw
      end
  | DSolve_u bu xp xu =>
      match a_shape bu, a_shape xp, a_shape xu with
      | [nb], [np], [nu] => assert ck (nb =? m_nnu p) (assert ck (np =? m_nnp p) (assert ck (nu =? m_nnu p)
          (if nu =? m_nnu p then do r <- MDP_solve_u a (rows1 nb bu) (rows1 np xp); Ok (Some (Out1 (fst r)), snd r) else Oob)))
      | _, _, _ => Throw
      end
  | DReaction x b =>
      match a_shape x, a_shape b with
      | [n], [n'] => assert ck (n =? m_ndof v) (assert ck (n' =? m_ndof v) (with_out Out1 a (MDP_reaction_dofval a (rows1 n x) (rows1 n' b))))
      | [n; d], [n'; d'] => assert ck (has_shape [n; d] (shape_nodevec v)) (assert ck (has_shape [n'; d'] (shape_nodevec v))
          (with_out Out2 a (MDP_reaction_nodevec a (rows2 n d x) (rows2 n' d' b))))
      | _, _ => Throw
      end
  | DReaction_p xu xp bp =>
      match a_shape xu, a_shape xp, a_shape bp with
      | [nu], [np], [nb] => assert ck (nu =? m_nnu p) (assert ck (np =? m_nnp p) (assert ck (nb =? m_nnp p)
          (do r <- MDP_reaction_p a (rows1 nu xu) (rows1 np xp) (map Some (rows1 nb bp)); do y <- read_all r; Ok (Some (Out1 y), a))))
      | _, _, _ => Throw
      end
  end.
End Calls.

(** a program that calls a matrix and catches the exceptions: an assertion is checked before anything is changed *)
Definition program_d (ck : bool) (l : list dcall) (a : MatrixDiagonal) : MatrixDiagonal := fold_left (fun a c => caught (fun a => run_dcall ck a c) a) l a.
Definition program_dp (ck : bool) (l : list dpcall) (a : MatrixDiagonalPartitioned) : MatrixDiagonalPartitioned :=
  fold_left (fun a c => caught (fun a => run_dpcall ck a c) a) l a.
