(** Model of functions of Mesh.h and MeshTri3.h as they are called: with arrays of any rank and shape, and with the assertions ([ck]: whether
    the library is compiled with GOOSEFEM_ENABLE_ASSERT, config.h:94-98).  Arrays of another rank: the Python interface takes only arrays of
    the right rank and throws on others (in C++ the rank is fixed, or asserted). *)
From Coq Require Import Reals ZArith.
From Verif Require Import Base Model_Numbering Model_Vector Model_Topology Model_Misc Model_MeshGeometry Model_Regular2d Model_Checked.

(** the type of the elements: given, or Mesh.h:45-62 [defaultElementType] *)
Definition the_type (ndim nne : nat) (type : option ElementType) : res ElementType :=
  match type with Some t => Ok t | None => defaultElementType ndim nne end.

(** Mesh.h:2571-2601 and 2612-2615 [edgesize], with the assertions of lines 2573-2575 and 2578-2579.  Without assertions more than four nodes
    per element give an array with columns that are never written. *)
Definition edgesize_checked (ck : bool) (coor : array R) (conn : array nat) (type : option ElementType) : res (list (list R)) :=
  match a_shape coor, a_shape conn with
  | [nnode; ndim], [nelem; nne] =>
      let C := rows2 nelem nne conn in
      do t <- the_type ndim nne type;
      assert ck (amax (concat C) <? nnode)
      (match t with
       | Quad4 => assert ck (ndim =? 2) (assert ck (nne =? 4)
           (do r <- edgesize (rows2 nnode ndim coor) C Quad4; if 4 <? nne then Uninit else Ok r))
       | _ => Throw
       end)
  | _, _ => Throw
  end.

(** Mesh.h:2626-2646 and 2656-2659 [centers], with the assertions of lines 2628-2630 and 2634-2635 *)
Definition centers_checked (ck : bool) (coor : array R) (conn : array nat) (type : option ElementType) : res (list (list R)) :=
  match a_shape coor, a_shape conn with
  | [nnode; ndim], [nelem; nne] =>
      let C := rows2 nelem nne conn in
      do t <- the_type ndim nne type;
      assert ck (amax (concat C) <? nnode)
      (match t with
       | Quad4 => assert ck (ndim =? 2) (assert ck (nne =? 4) (centers (rows2 nnode ndim coor) ndim C Quad4))
       | _ => Throw
       end)
  | _, _ => Throw
  end.

(** Mesh.h:2671-2701 and 2711-2715 [elemmap2nodemap], with the assertions of lines 2674-2678 and 2684-2685: nothing is asserted about the
    entries of [elem_map].  Simplified: without assertions an element map of another size counts as an access out of bounds. *)
Definition elemmap2nodemap_checked (ck : bool) (elem_map : array nat) (coor : array R) (conn : array nat) (type : option ElementType) : res (list nat) :=
  match a_shape elem_map, a_shape coor, a_shape conn with
  | [n], [nnode; ndim], [nelem; nne] =>
      let C := rows2 nelem nne conn in
      do t <- the_type ndim nne type;
      assert ck (amax (concat C) <? nnode)
      (assert ck (n =? nelem)
      (match t with
       | Quad4 => assert ck (ndim =? 2) (assert ck (nne =? 4)
           (if n =? nelem then Model_Topology.elemmap2nodemap (rows1 n elem_map) nnode C else Oob))
       | _ => Throw
       end))
  | _, _, _ => Throw
  end.

(** std::equal(r.begin(), r.end(), t.begin()): as many elements of [t] are read as there are in [r], until one differs *)
Fixpoint std_equal (r t : list nat) : res bool :=
  match r, t with
  | [], _ => Ok true
  | _ :: _, [] => Oob
  | x :: r, y :: t => if x =? y then std_equal r t else Ok false
  end.

(** Mesh.h:2840-2864 [nodaltyings], with the assertion of lines 2851-2857 *)
Definition tying_of (ck : bool) (D : list (list nat)) (ndim : nat) (nodemap : list (list nat)) (m : nat) : res (list nat) :=
  do row <- get D m; do d <- get row 0; do r <- get nodemap d;
  let r := std_sort r in
  if ck then
    do _ <- mapM (fun i => do d <- get row i; do t <- get nodemap d; do same <- std_equal r (std_sort t); if same then Ok tt else Throw) (seq 1 (ndim - 1));
    Ok r
  else Ok r.
Definition nodaltyings_checked (ck : bool) (dofs : array nat) : res (list (list nat)) :=
  match a_shape dofs with
  | [nnode; ndim] =>
      let D := rows2 nnode ndim dofs in
      do nodemap <- node2dof D true;
      mapM (tying_of ck D ndim nodemap) (seq 0 nnode)
  | _ => Throw
  end.

(** Mesh.h:2517-2548 [elem2node(conn, dofs, sorted)]: nothing is asserted but what [nodaltyings] asserts *)
Definition elem2node_dofs_checked (ck : bool) (conn dofs : array nat) (sorted : bool) : res (list (list nat)) :=
  match a_shape conn, a_shape dofs with
  | [nelem; nne], [nnode; ndim] =>
      do ret <- elem2node (rows2 nelem nne conn) sorted;
      do nties <- nodaltyings_checked ck dofs;
      foldM (merge_step nties sorted) (seq 0 nnode) ret
  | _, _ => Throw
  end.

(** MeshTri3.h:239-267 [getOrientation], with the assertions of lines 242-243: nothing is asserted about the nodes in the connectivity *)
Definition getOrientation_checked (ck : bool) (coor : array R) (conn : array nat) : res (list Z) :=
  match a_shape coor, a_shape conn with
  | [nnode; ndim], [nelem; nne] => assert ck (nne =? 3) (assert ck (ndim =? 2) (getOrientation (rows2 nnode ndim coor) (rows2 nelem nne conn)))
  | _, _ => Throw
  end.

(** MeshTri3.h:279-303 [setOrientation] with the current orientations, with the assertions of lines 286-289 *)
Definition setOrientation_val_checked (ck : bool) (coor : array R) (conn : array nat) (val : array Z) (orientation : Z) : res (list (list nat)) :=
  match a_shape coor, a_shape conn, a_shape val with
  | [nnode; ndim], [nelem; nne], [n] =>
      assert ck (nne =? 3) (assert ck (ndim =? 2) (assert ck (nelem =? n) (assert ck ((orientation =? -1) || (orientation =? 1))%Z
        (setOrientation_val (rows2 nelem nne conn) (rows1 n val) orientation))))
  | _, _, _ => Throw
  end.

(** MeshTri3.h:313-326 [setOrientation], with the assertions of lines 319-321 *)
Definition setOrientation_checked (ck : bool) (coor : array R) (conn : array nat) (orientation : Z) : res (list (list nat)) :=
  match a_shape coor, a_shape conn with
  | [nnode; ndim], [nelem; nne] =>
      assert ck (nne =? 3) (assert ck (ndim =? 2) (assert ck ((orientation =? -1) || (orientation =? 1))%Z
        (do val <- getOrientation_checked ck coor conn;
         setOrientation_val_checked ck coor conn (mkArray [length val] (fun ix => match ix with [e] => nth e val 0%Z | _ => 0%Z end)) orientation)))
  | _, _ => Throw
  end.
