(** Model of GooseFEM::Vector and GooseFEM::VectorPartitioned as they are called: with arrays of any rank and shape, and with the
    assertions.  [ck]: whether the library is compiled with GOOSEFEM_ENABLE_ASSERT (config.h:94-98). *)
From Coq Require Import Reals.
From Verif Require Import Base Model_Numbering Model_Vector Model_VectorPartitioned Model_Misc.

(** an array: its shape and its entries.  Entries outside the shape do not exist: they are never used, because the functions below only
    see the rows made from the entries inside the shape. *)
Record array (A : Type) := mkArray { a_shape : list nat; a_ent : list nat -> A }.
Arguments mkArray {A}. Arguments a_shape {A}. Arguments a_ent {A}.
(** the entries of an array of rank 1, 2, 3 *)
Definition rows1 {A} (n : nat) (a : array A) : list A := map (fun i => a_ent a [i]) (seq 0 n).
Definition rows2 {A} (n d : nat) (a : array A) : list (list A) := map (fun m => map (fun i => a_ent a [m; i]) (seq 0 d)) (seq 0 n).
Definition rows3 {A} (n k d : nat) (a : array A) : list (list (list A)) := map (fun e => map (fun m => map (fun i => a_ent a [e; m; i]) (seq 0 d)) (seq 0 k)) (seq 0 n).
(** the arrays that are returned *)
Inductive output := Out1 (x : list R) | Out2 (x : list (list R)) | Out3 (x : list (list (list R))).

(** config.h:65-71, 94-98 GOOSEFEM_ASSERT: throws if the assertions are enabled and the condition is false *)
Definition assert {A} (ck c : bool) (k : res A) : res A := if (ck && negb c)%bool then Throw else k.
(** xt::has_shape *)
Fixpoint has_shape (s t : list nat) : bool :=
  match s, t with [], [] => true | a :: s, b :: t => ((a =? b) && has_shape s t)%bool | _, _ => false end.

(** Vector.h:33-47: the constructor.  The arrays are copied to members of rank 2 (an array of another rank cannot be: xtensor throws) *)
Definition new_Vector (ck : bool) (conn dofs : array nat) : res Vector :=
  match a_shape conn, a_shape dofs with
  | [nelem; nne], [nnode; ndim] =>
      let v := mkVector (rows2 nelem nne conn) nne (rows2 nnode ndim dofs) ndim in
      assert ck (amax (concat (m_conn v)) + 1 <=? nnode)
      (assert ck (m_ndof v <=? nnode * ndim)
      (Ok v))
  | _, _ => Throw
  end.

(** Vector.h:270-303 *)
Definition shape_dofval (v : Vector) : list nat := [m_ndof v].
Definition shape_nodevec (v : Vector) : list nat := [m_nnode v; m_ndim v].
Definition shape_elemvec (v : Vector) : list nat := [m_nelem v; m_nne v; m_ndim v].
Definition shape_elemmat (v : Vector) : list nat := [m_nelem v; m_nne v * m_ndim v; m_nne v * m_ndim v].

(** Vector.h:322-327, 346-351, 370-375 [allocate_dofval(val)], [allocate_nodevec(val)], [allocate_elemvec(val)]; Vector.h:394-399
    [allocate_elemmat(val)] *)
Definition allocate_dofval (v : Vector) (val : R) : output := Out1 (repeat val (m_ndof v)).
Definition allocate_nodevec (v : Vector) (val : R) : output := Out2 (repeat (repeat val (m_ndim v)) (m_nnode v)).
Definition allocate_elemvec (v : Vector) (val : R) : output := Out3 (repeat (repeat (repeat val (m_ndim v)) (m_nne v)) (m_nelem v)).
Definition allocate_elemmat (v : Vector) (val : R) : output := Out3 (repeat (repeat (repeat val (m_nne v * m_ndim v)) (m_nne v * m_ndim v)) (m_nelem v)).

(** the orders in which the parallel loops are run *)
Record schedule := mkSchedule { s_node : list (nat * nat); s_elem : list (nat * nat * nat) }.

Section V.
Variable ck : bool.
Variable v : Vector.
Variable o : schedule.
Definition out1 (x : res (list R)) : res output := do y <- x; Ok (Out1 y).
Definition out2 (x : res (list (list R))) : res output := do y <- x; Ok (Out2 y).
Definition out3 (x : res (list (list (list R)))) : res output := do y <- x; Ok (Out3 y).

(** the output array of the in-place methods, of shape [ret]: after the assertion on its shape the method writes all entries of an array
    of shape [want].  Simplified: a target of another shape counts as an access out of bounds. *)
Definition target (ret want : list nat) (x : res output) : res output := assert ck (has_shape ret want) (if has_shape ret want then x else Oob).

(** Vector.h:155-159 [asDofs], dispatch 405-435, assertions 574-575, 596-597; the last argument is the shape of the output *)
Definition Vector_asDofs (arg : array R) (ret : list nat) : res output :=
  match a_shape arg with
  | [n; d] => assert ck (has_shape (a_shape arg) (shape_nodevec v)) (target ret (shape_dofval v) (out1 (AsDofs_nodevec v (s_node o) (rows2 n d arg))))
  | [n; k; d] => assert ck (has_shape (a_shape arg) (shape_elemvec v)) (target ret (shape_dofval v) (out1 (AsDofs_elemvec v (s_elem o) (rows3 n k d arg))))
  | _ => Throw
  end.
(** Vector.h:181-185 [asNode], dispatch 440-470, assertions 620-621, 640-641 *)
Definition Vector_asNode (arg : array R) (ret : list nat) : res output :=
  match a_shape arg with
  | [n] => assert ck (has_shape (a_shape arg) (shape_dofval v)) (target ret (shape_nodevec v) (out2 (AsNode_dofval v (rows1 n arg))))
  | [n; k; d] => assert ck (has_shape (a_shape arg) (shape_elemvec v)) (target ret (shape_nodevec v) (out2 (AsNode_elemvec v (s_elem o) (rows3 n k d arg))))
  | _ => Throw
  end.
(** Vector.h:207-211 [asElement], dispatch 475-505, assertions 664-665, 686-687 *)
Definition Vector_asElement (arg : array R) (ret : list nat) : res output :=
  match a_shape arg with
  | [n] => assert ck (n =? m_ndof v) (target ret (shape_elemvec v) (out3 (AsElement_dofval v (rows1 n arg))))
  | [n; d] => assert ck (has_shape (a_shape arg) (shape_nodevec v)) (target ret (shape_elemvec v) (out3 (AsElement_nodevec v (rows2 n d arg))))
  | _ => Throw
  end.
(** Vector.h:233-237 [assembleDofs], dispatch 510-540, assertions 708-709, 729-730 *)
Definition Vector_assembleDofs (arg : array R) (ret : list nat) : res output :=
  match a_shape arg with
  | [n; d] => assert ck (has_shape (a_shape arg) (shape_nodevec v)) (target ret (shape_dofval v) (out1 (AssembleDofs_nodevec v (rows2 n d arg))))
  | [n; k; d] => assert ck (has_shape (a_shape arg) (shape_elemvec v)) (target ret (shape_dofval v) (out1 (AssembleDofs_elemvec v (rows3 n k d arg))))
  | _ => Throw
  end.
(** Vector.h:259-263 [assembleNode], dispatch 545-563, assertions 752-753 *)
Definition Vector_assembleNode (arg : array R) (ret : list nat) : res output :=
  match a_shape arg with
  | [n; k; d] => assert ck (has_shape (a_shape arg) (shape_elemvec v)) (target ret (shape_nodevec v) (out2 (AssembleNode v (rows3 n k d arg))))
  | _ => Throw
  end.
(** Vector.h:126-133 [copy] *)
Definition Vector_copy (arg : array R) (ret : list nat) : res output :=
  match a_shape arg with
  | [n; d] => assert ck (has_shape (a_shape arg) (shape_nodevec v)) (target ret (shape_nodevec v) (Ok (Out2 (Vector_Copy (rows2 n d arg) []))))
  | _ => Throw
  end.

(** the conversions, and the shape of the array that the by-value methods allocate for them: Vector.h:141-147, 167-173, 193-199,
    219-225, 245-251 ([AsDofs], [AsNode], [AsElement], [AssembleDofs], [AssembleNode]) *)
Inductive conversion := ToDofs | ToNode | ToElement | SumDofs | SumNode | CopyNode.
Definition target_shape (c : conversion) : list nat :=
  match c with ToDofs | SumDofs => shape_dofval v | ToNode | SumNode | CopyNode => shape_nodevec v | ToElement => shape_elemvec v end.
Definition convert_into (c : conversion) (arg : array R) (ret : list nat) : res output :=
  match c with ToDofs => Vector_asDofs arg ret | ToNode => Vector_asNode arg ret | ToElement => Vector_asElement arg ret
  | SumDofs => Vector_assembleDofs arg ret | SumNode => Vector_assembleNode arg ret | CopyNode => Vector_copy arg ret end.
Definition convert (c : conversion) (arg : array R) : res output := convert_into c arg (target_shape c).
End V.

(** VectorPartitioned.h:73-88: the constructor with its assertions, and those of Reorder (Mesh.h:2406) *)
Definition new_VectorPartitioned_checked (ck : bool) (conn dofs : array nat) (iip : array nat) : res VectorPartitioned :=
  match a_shape iip with
  | [n] =>
      let ii := rows1 n iip in
      do v <- new_Vector ck conn dofs;
      assert ck (is_unique ii)
      (let iiu := setdiff1d (concat (m_dofs v)) ii in
       assert ck (is_unique iiu) (assert ck (is_unique ii)
      (do p <- new_VectorPartitioned v ii;
       assert ck (amax ii <=? amax (concat (m_dofs v))) (Ok p))))
  | _ => Throw
  end.

Section P.
Variable ck : bool.
Variable p : VectorPartitioned.
Variable o : schedule.
Let v := vp_v p.

(** VectorPartitioned.h:197-214, 250-267 [copy_u], [copy_p]: arguments of rank 2; the second one is overwritten *)
Definition P_copy (unknown : bool) (src dest : array R) : res output :=
  match a_shape src, a_shape dest with
  | [n; d], [n'; d'] => assert ck (has_shape [n; d] (shape_nodevec v)) (assert ck (has_shape [n'; d'] (shape_nodevec v))
      (out2 ((if unknown then Copy_u p else Copy_p p) (rows2 n d src) (rows2 n' d' dest))))
  | _, _ => Throw
  end.
(** VectorPartitioned.h:276-283, 299-301 [DofsFromParitioned]; 328-335, 350-352 [NodeFromPartitioned]; 380-387, 401-403
    [ElementFromPartitioned] *)
Definition P_combine (c : conversion) (u q : array R) : res output :=
  match a_shape u, a_shape q with
  | [nu], [np] => assert ck (nu =? m_nnu p) (assert ck (np =? m_nnp p)
      (match c with
       | ToDofs => out1 (DofsFromParitioned p (rows1 nu u) (rows1 np q))
       | ToNode => out2 (NodeFromPartitioned p (rows1 nu u) (rows1 np q))
       | ToElement => out3 (ElementFromPartitioned p (rows1 nu u) (rows1 np q))
       | _ => Throw (* there is no such method *)
       end))
  | _, _ => Throw
  end.
(** VectorPartitioned.h:429-540, 550-661 [AsDofs_u], [AsDofs_p] for the three ranks *)
Definition P_select (unknown : bool) (arg : array R) : res output :=
  match a_shape arg with
  | [n] => assert ck (n =? m_ndof v) (out1 ((if unknown then AsDofs_u_dofval p else AsDofs_p_dofval p) (rows1 n arg)))
  | [n; d] => assert ck (has_shape [n; d] (shape_nodevec v)) (out1 ((if unknown then AsDofs_u_nodevec p (s_node o) else AsDofs_p_nodevec p (s_node o)) (rows2 n d arg)))
  | [n; k; d] => assert ck (has_shape [n; k; d] (shape_elemvec v)) (out1 ((if unknown then AsDofs_u_elemvec p (s_elem o) else AsDofs_p_elemvec p (s_elem o)) (rows3 n k d arg)))
  | _ => Throw (* no such overload *)
  end.
End P.
