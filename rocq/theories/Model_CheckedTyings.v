(** Model of Tyings::Periodic and VectorPartitionedTyings as they are called: with arrays of any rank and shape, and with the assertions
    ([ck]: whether the library is compiled with GOOSEFEM_ENABLE_ASSERT, config.h:94-98). *)
From Coq Require Import Reals.
From Verif Require Import Base Model_Numbering Model_Vector Model_Misc Model_Sparse Model_Tyings Model_Checked.

(** xt::amin: [None] is the largest number of the type, which is what the reduction gives for an array without entries *)
Definition amin (l : list nat) : option nat := match l with [] => None | x :: l => Some (fold_right Nat.min x l) end.
Definition leq (a b : option nat) : bool :=
  match a, b with _, None => true | None, Some _ => false | Some a, Some b => a <=? b end.

(** the rows of an array of rank 2 with (at least) two columns, as pairs *)
Definition pairs (n : nat) (a : array nat) : list (nat * nat) := map (fun i => (a_ent a [i; 0], a_ent a [i; 1])) (seq 0 n).

(** TyingsPeriodic.h:82-121: the constructor, with the assertions of lines 96-103 and those of Reorder (Mesh.h:2404-2407).  The arrays have
    a fixed rank (an array of another rank cannot be converted: xtensor throws).  Simplified: less than two columns of [nodal_tyings] count
    as an access out of bounds (line 105, without assertions). *)
Definition new_Periodic_checked (ck : bool) (coor : array R) (dofs control_dofs nodal_tyings iip : array nat) : res Periodic :=
  match a_shape coor, a_shape dofs, a_shape control_dofs, a_shape nodal_tyings, a_shape iip with
  | [nnode; ndim], [nd; dd], [nc; dc], [nt; k], [n] =>
      let D := rows2 nd dd dofs in let C := rows2 nc dc control_dofs in let ii := rows1 n iip in
      assert ck (has_shape [nt; k] [nt; 2])
      (assert ck (has_shape [nc; dc] [ndim; ndim])
      (assert ck (has_shape [nd; dd] [nnode; ndim])
      (assert ck (amax (concat C) <=? amax (concat D))
      (assert ck (leq (amin (concat D)) (amin (concat C)))
      (assert ck (amax ii <=? amax (concat D))
      (assert ck (leq (amin (concat D)) (amin ii))
      (assert ck (amax (concat (rows2 nt k nodal_tyings)) <? nnode)
      (if k <? 2 then Oob else
       do dependent_dofs <- mapM (fun t => get D (snd t)) (pairs nt nodal_tyings);
       let iid := concat dependent_dofs in
       let iiu := setdiff1d (setdiff1d (concat D) iid) ii in
       assert ck (is_unique iiu) (assert ck (is_unique ii) (assert ck (is_unique iid)
       (new_Periodic (rows2 nnode ndim coor) ndim D C (pairs nt nodal_tyings) ii)))))))))))
  | _, _, _, _, _ => Throw
  end.

(** VectorPartitionedTyings.h:90-116: the constructor, with the assertions of lines 94-95, 109-110 and those of Vector.h:33-47 *)
Definition new_VectorTyings_checked (ck : bool) (conn dofs : array nat) (Cdu Cdp Cdi : mat) : res VectorTyings :=
  do v <- new_Vector ck conn dofs;
  let t := mkVT v Cdu Cdp Cdi in
  assert ck (rows Cdu =? rows Cdp)
  (assert ck (rows Cdi =? rows Cdp)
  (assert ck (cols Cdi =? vt_nni t)
  (assert ck (m_ndof v =? amax (concat (m_dofs v)) + 1)
  (Ok t)))).

Section T.
Variable ck : bool.
Variable t : VectorTyings.
Let v := vt_v t.
(** VectorPartitionedTyings.h:187-200 [copy_p]: the assertions of lines 190-193; the second argument is overwritten *)
Definition T_copy_p (src dest : array R) : res output :=
  match a_shape src, a_shape dest with
  | [n], [n'] => assert ck ((n =? m_ndof v) || (n =? vt_nni t)) (assert ck ((n' =? m_ndof v) || (n' =? vt_nni t))
      (out1 (vt_copy_p t (rows1 n src) (rows1 n' dest))))
  | _, _ => Throw
  end.
(** VectorPartitionedTyings.h:223-253 [asDofs_i]: the assertions of lines 226-227, and that of line 60, which repeats the first.
    [ret]: the size of the output; one of another size counts as an access out of bounds if there are no assertions. *)
Definition T_asDofs_i (o o' : list (nat * nat)) (arg : array R) (ret : nat) (apply_tyings : bool) : res output :=
  match a_shape arg with
  | [n; d] => assert ck (has_shape [n; d] (shape_nodevec v)) (assert ck (ret =? vt_nni t)
      (if ret =? vt_nni t then out1 (asDofs_i t o o' (rows2 n d arg) apply_tyings) else Oob))
  | _ => Throw
  end.
(** VectorPartitionedTyings.h:208-214 [AsDofs_i] *)
Definition T_AsDofs_i (o o' : list (nat * nat)) (arg : array R) : res output := T_asDofs_i o o' arg (vt_nni t) true.
End T.

(** an array of rank 2 *)
Definition array2 (n d : nat) (l : list (list nat)) : array nat :=
  mkArray [n; d] (fun ix => match ix with [m; i] => nth i (nth m l []) 0 | _ => 0 end).

(** the way the classes are used (docs/examples/statics/periodic_elastoplastic.py): the tyings, their matrices,
    and the vector class with the renumbered DOFs *)
Definition tied_vector (ck : bool) (conn : array nat) (coor : array R) (dofs control_dofs nodal_tyings iip : array nat) : res (Periodic * VectorTyings) :=
  do t <- new_Periodic_checked ck coor dofs control_dofs nodal_tyings iip;
  do U <- Cdu t; do P <- Cdp t; do I <- Cdi t;
  do v <- new_VectorTyings_checked ck conn (array2 (length (tp_dofs t)) (tp_ndim t) (tp_dofs t)) U P I;
  Ok (t, v).
