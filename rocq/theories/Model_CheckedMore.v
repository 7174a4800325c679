(** Model of the remaining functions with assertions as they are called: with arrays of any rank and shape, and with the assertions ([ck]:
    whether the library is compiled with GOOSEFEM_ENABLE_ASSERT, config.h:94-98): Element.h (conversions by a connectivity), Allocate.h (tensors
    of scalars), TyingsPeriodic.h (control nodes), Mesh.h (masses of the nodes), MeshQuad4.h (FineLayer from a mesh). *)
From Coq Require Import Reals ZArith.
From Verif Require Import Model_Element Base Model_Numbering Model_Regular2d Model_Vector Model_Misc Model_MatrixDiagonal Model_MeshGeometry Model_Tyings Model_FineLayer Model_FineLayerMapping
  Model_Checked Model_CheckedMesh Model_CheckedMaps.
Local Open Scope nat_scope.

(** ** Element.h *)
(** Element.h:31-55 [asElementVector]: nothing is asserted *)
Definition asElementVector_checked (conn : array nat) (nodevec : array R) : res (list (list (list R))) :=
  match a_shape conn, a_shape nodevec with
  | [nelem; nne], [n; ndim] => asElementVector (rows2 nelem nne conn) nne (rows2 n ndim nodevec) ndim
  | _, _ => Throw
  end.
(** Element.h:64-89 [assembleNodeVector], with the assertions of lines 73-74.  Simplified: without assertions an array of another shape counts
    as an access out of bounds. *)
Definition assembleNodeVector_checked (ck : bool) (conn : array nat) (elemvec : array R) : res (list (list R)) :=
  match a_shape conn, a_shape elemvec with
  | [nelem; nne], [n; k; ndim] =>
      assert ck (n =? nelem) (assert ck (k =? nne)
        (if (n =? nelem) && (k =? nne) then assembleNodeVector (rows2 nelem nne conn) nne (rows3 n k ndim elemvec) ndim else Oob))
  | _, _ => Throw
  end.

(** ** Allocate.h *)
(** Allocate.h:24-33 [has_shape_begin]: [t] has at most as many dimensions as [s], and its extents are the first ones of [s] *)
Fixpoint shape_begins (t s : list nat) : bool :=
  match t, s with [], _ => true | _ :: _, [] => false | a :: t, b :: s => (a =? b) && shape_begins t s end.
Definition has_shape_begin (t s : list nat) : bool := (length t <=? length s) && shape_begins t s.
(** the entries of an array in memory: row by row *)
Definition flat (a : array R) : list R := map (a_ent a) (indices (a_shape a)).
(** Allocate.h:67-103, 151-156 [asTensor] with the output given, with the assertions of lines 71-72, 94; the second argument is the shape of the
    output, the result are its entries row by row.  Without assertions: strides of more dimensions than the output has are written out of bounds *)
Definition asTensor_checked (ck : bool) (arg : array R) (ret : list nat) : res (list R) :=
  assert ck (length (a_shape arg) <=? length ret) (assert ck (has_shape_begin (a_shape arg) ret)
    (if length (a_shape arg) <=? length ret then asTensor (a_shape arg) (flat arg) ret else Oob)).
(** Allocate.h:108-169, 191-214 [AsTensor] *)
Definition AsTensor_checked (ck : bool) (arg : array R) (shape : list nat) : res (list nat * list R) :=
  do d <- asTensor_checked ck arg (a_shape arg ++ shape); Ok (a_shape arg ++ shape, d).
(** Element.h:215-220, 232-249 [Quadrature::asTensor] with the output given, with the assertion of line 218 *)
Definition quad_asTensor_checked (ck : bool) (nelem nip : nat) (arg : array R) (ret : list nat) : res (list R) :=
  assert ck (has_shape (a_shape arg) [nelem; nip]) (asTensor_checked ck arg ret).

(** ** TyingsPeriodic.h *)
(** TyingsPeriodic.h:374-393 the constructor of [Control], with the assertions of lines 376-377.  Without assertions: [xt::concatenate] throws if
    the rows of [dofs] are not as long as those of the control DOFs *)
Definition Control_checked (ck : bool) (coor : array R) (dofs : array nat) : res Control :=
  match a_shape coor, a_shape dofs with
  | [nnode; ndim], [n; d] => assert ck (has_shape [nnode; ndim] [n; d])
      (if d =? ndim then Ok (new_Control (rows2 nnode ndim coor) nnode ndim (rows2 n d dofs)) else Throw)
  | _, _ => Throw
  end.

(** ** Mesh.h *)
(** Mesh.h:2732-2754 and 2768-2771 [nodal_mass], with the assertions of what it calls: MatrixDiagonal.h:145-146 and Vector.h:44-45
    (the constructors), ElementQuad4.h:307-308 (the quadrature), MatrixDiagonal.h:154 ([assemble]).  Simplified: without assertions a
    connectivity with another number of nodes per element, or coordinates in another number of dimensions, counts as an access out of bounds. *)
Definition nodal_mass_checked (ck : bool) (mem : memory) (coor : array R) (conn : array nat) (type : option ElementType) : res (list (list R)) :=
  match a_shape coor, a_shape conn with
  | [nnode; ndim], [nelem; nne] =>
      let X := rows2 nnode ndim coor in
      let C := rows2 nelem nne conn in
      do t <- the_type ndim nne type;
      let v := mkVector C nne (dofs nnode ndim) ndim in
      assert ck (amax (concat C) + 1 <=? nnode) (assert ck (m_ndof v <=? nnode * ndim)
      (match t with
       | Quad4 =>
           do x <- AsElement_nodevec v X;
           assert ck (nne =? 4) (assert ck (ndim =? 2)
           (if (nne =? 4) && (ndim =? 2) then
              let quad := Quad4_new (es_new mem) nelem (of_rows x) 4 (Nodal4_xi (j_xi mem)) (Nodal4_w (j_w mem)) (j1 mem) (j2 mem) (j3 mem) (j4 mem) (j5 mem) in
              let K := to_rows nelem 8 8 (Quad4_int_N_scalar_NT_dV (es_int mem) quad (fun _ => 1%R) (j_K mem)) in
              do M <- (if ck then do b <- isDiagonal nelem 8 K; assert ck b (MD_assemble (new_MatrixDiagonal v) K) else MD_assemble (new_MatrixDiagonal v) K);
              do data <- MD_data M;
              AsNode_dofval v data
            else Oob))
       | _ => Throw
       end))
  | _, _ => Throw
  end.
(** Mesh.h:2808-2814, 2826-2831 [center_of_gravity], with the assertions of [average_axis_0] (lines 2779-2780): the masses have the shape of the
    coordinates *)
Definition center_of_gravity_checked (ck : bool) (mem : memory) (coor : array R) (conn : array nat) (type : option ElementType) : res (list R) :=
  match a_shape coor with
  | [nnode; ndim] =>
      do w <- nodal_mass_checked ck mem coor conn type;
      assert ck ((length w =? nnode) && forallb (fun r => length r =? ndim) w) (average_axis_0 (rows2 nnode ndim coor) w ndim)
  | _ => Throw
  end.

(** ** MeshQuad4.h *)
(** MeshQuad4.h:1072-1133 [init_by_mapping], the constructor of [Quad4::FineLayer] from a mesh, with the assertions of lines 1079-1085, and those
    of [init] (lines 902-903).  [close]: the comparison of [xt::allclose].  Without assertions: coordinates with other than two columns, or
    elements with other than four nodes are used by their first columns (simplified: fewer are an access out of bounds, more a failed check). *)
Definition FineLayer_from_checked (ck : bool) (close : R -> R -> bool) (coor : array R) (conn : array nat) : option (res FineLayer) :=
  match a_shape coor, a_shape conn with
  | [nnode; ndim], [nelem; nne] =>
      let X := rows2 nnode ndim coor in
      let C := rows2 nelem nne conn in
      if ck && negb ((ndim =? 2) && (nne =? 4) && (0 <? nelem) && (4 <=? nnode) && (amax (concat C) <? nnode)) then Some Throw
      else if nelem =? 1 then
        match (do n1 <- at2 C 0 1; do x1 <- at2 X n1 0; do n0 <- at2 C 0 0; do x0 <- at2 X n0 0; Ok (x1 - x0)%R) with
        | Ok h => same_mesh close X C (FineLayer_checked ck 1 1 h 1) Ok
        | Oob => Some Oob | Uninit => Some Uninit | Throw => Some Throw
        end
      else
        let emid := (nelem - nelem mod 2) / 2 in
        match go_right nelem C emid with
        | None => None
        | Some er =>
            match (do eleft <- go_left C emid; do eright <- er;
                   do nl <- at2 C eleft 0; do xl <- at2 X nl 0; check (close xl 0%R) (
                   let es := arange eleft (eright + 1) in
                   do dx <- mapM (fun e => do n1 <- at2 C e 1; do x1 <- at2 X n1 0; do n0 <- at2 C e 0; do x0 <- at2 X n0 0; Ok (x1 - x0)%R) es;
                   do dy <- mapM (fun e => do n2 <- at2 C e 2; do y2 <- at2 X n2 1; do n1 <- at2 C e 1; do y1 <- at2 X n1 1; Ok (y2 - y1)%R) es;
                   do hx <- aminR dx; do hy <- aminR dy;
                   check (close hx hy) (check (allclose0 close dx hx) (check (allclose0 close dy hy) (
                   do last <- at2 X (nnode - 1) 1; do first <- at2 X 0 1;
                   Ok (eleft, eright - eleft + 1, to_size ((last - first) / hx), hx)))))) with
            | Ok (eleft, nelx, nely, hx) =>
                same_mesh close X C (FineLayer_checked ck nelx nely hx 1) (fun m =>
                  do mid <- elementsMiddleLayer m; check (equal1 mid (map (Nat.add eleft) (seq 0 nelx))) (Ok m))
            | Oob => Some Oob | Uninit => Some Uninit | Throw => Some Throw
            end
        end
  | _, _ => Some Throw
  end.
