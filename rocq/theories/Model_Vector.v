(** Model of GooseFEM::Vector (Vector.h).

    Parallel loops ("#pragma omp parallel for") that write each entry of the output at most once are
    modelled by their (unique) result.  Loops that can write one entry several times take the order
    of the iterations as a parameter: every interleaving of the threads is one such order. *)
From Coq Require Import Reals.
From Verif Require Import Base Model_Numbering.

(** [t(i, j, k)] *)
Definition get3 {A} (a : list (list (list A))) (i j k : nat) : res A := bind (get a i) (fun r => get2 r j k).

(** loops that fill an array of rank 1, 2, 3 *)
Definition fill1 {A} (n : nat) (f : nat -> res A) : res (list A) := mapM f (seq 0 n).
Definition fill2 {A} (n d : nat) (f : nat -> nat -> res A) : res (list (list A)) :=
  mapM (fun m => mapM (f m) (seq 0 d)) (seq 0 n).
Definition fill3 {A} (n m d : nat) (f : nat -> nat -> nat -> res A) : res (list (list (list A))) :=
  mapM (fun e => fill2 m d (f e)) (seq 0 n).

(** Vector.h:34-47: the constructor.  [nne], [ndim] are [conn.shape(1)], [dofs.shape(1)]. *)
Record Vector := mkVector { m_conn : list (list nat); m_nne : nat; m_dofs : list (list nat); m_ndim : nat }.
Definition m_nelem (v : Vector) : nat := length (m_conn v).
Definition m_nnode (v : Vector) : nat := length (m_dofs v).
Definition m_ndof (v : Vector) : nat := amax (concat (m_dofs v)) + 1.

Section V.
Variable v : Vector.

(** the iterations of the loops over (m, i) and (e, m, i) *)
Definition node_iters : list (nat * nat) := list_prod (seq 0 (m_nnode v)) (seq 0 (m_ndim v)).
Definition elem_iters : list (nat * nat * nat) :=
  list_prod (list_prod (seq 0 (m_nelem v)) (seq 0 (m_nne v))) (seq 0 (m_ndim v)).

(** [m_dofs(m_conn(e, m), i)] *)
Definition elem_dof (e m i : nat) : res nat := do n <- get2 (m_conn v) e m; get2 (m_dofs v) n i.

(** Vector.h:569-585 [asDofs_impl_nodevec] *)
Definition AsDofs_nodevec (order : list (nat * nat)) (arg : list (list R)) : res (list R) :=
  do ws <- mapM (fun mi => do d <- get2 (m_dofs v) (fst mi) (snd mi);
                           do x <- get2 arg (fst mi) (snd mi); Ok (d, x)) order;
  write_all (repeat 0%R (m_ndof v)) ws.

(** Vector.h:591-609 [asDofs_impl_elemvec] *)
Definition AsDofs_elemvec (order : list (nat * nat * nat)) (arg : list (list (list R))) : res (list R) :=
  do ws <- mapM (fun emi => do d <- elem_dof (fst (fst emi)) (snd (fst emi)) (snd emi);
                            do x <- get3 arg (fst (fst emi)) (snd (fst emi)) (snd emi); Ok (d, x)) order;
  write_all (repeat 0%R (m_ndof v)) ws.

(** Vector.h:615-630 [asNode_impl_dofval] *)
Definition AsNode_dofval (arg : list R) : res (list (list R)) :=
  fill2 (m_nnode v) (m_ndim v) (fun m i => do d <- get2 (m_dofs v) m i; get arg d).

(** a sequence of writes [arr(i, j) = x] *)
Definition write2_all {A} (arr : list (list A)) (ws : list (nat * nat * A)) : res (list (list A)) :=
  foldM (fun a w => set2 a (fst (fst w)) (snd (fst w)) (snd w)) ws arr.

(** Vector.h:636-653 [asNode_impl_elemvec] *)
Definition AsNode_elemvec (order : list (nat * nat * nat)) (arg : list (list (list R))) : res (list (list R)) :=
  do ws <- mapM (fun emi => do n <- get2 (m_conn v) (fst (fst emi)) (snd (fst emi));
                            do x <- get3 arg (fst (fst emi)) (snd (fst emi)) (snd emi);
                            Ok (n, snd emi, x)) order;
  write2_all (repeat (repeat 0%R (m_ndim v)) (m_nnode v)) ws.

(** Vector.h:659-675 [asElement_impl_dofval] *)
Definition AsElement_dofval (arg : list R) : res (list (list (list R))) :=
  fill3 (m_nelem v) (m_nne v) (m_ndim v) (fun e m i => do d <- elem_dof e m i; get arg d).

(** Vector.h:681-697 [asElement_impl_nodevec] *)
Definition AsElement_nodevec (arg : list (list R)) : res (list (list (list R))) :=
  fill3 (m_nelem v) (m_nne v) (m_ndim v) (fun e m i => do n <- get2 (m_conn v) e m; get2 arg n i).

(** [ret(k) += x] *)
Definition add_at (ret : list R) (k : nat) (x : R) : res (list R) := do y <- get ret k; set ret k (y + x)%R.

(** Vector.h:703-718 [assembleDofs_impl_nodevec] *)
Definition AssembleDofs_nodevec (arg : list (list R)) : res (list R) :=
  foldM (fun ret mi => do d <- get2 (m_dofs v) (fst mi) (snd mi);
                       do x <- get2 arg (fst mi) (snd mi); add_at ret d x)
        node_iters (repeat 0%R (m_ndof v)).

(** Vector.h:724-741 [assembleDofs_impl_elemvec] *)
Definition AssembleDofs_elemvec (arg : list (list (list R))) : res (list R) :=
  foldM (fun ret emi => do d <- elem_dof (fst (fst emi)) (snd (fst emi)) (snd emi);
                        do x <- get3 arg (fst (fst emi)) (snd (fst emi)) (snd emi); add_at ret d x)
        elem_iters (repeat 0%R (m_ndof v)).

(** Vector.h:747-757 [assembleNode_impl_elemvec] *)
Definition AssembleNode (arg : list (list (list R))) : res (list (list R)) :=
  do dofval <- AssembleDofs_elemvec arg; AsNode_dofval dofval.
End V.

(** Vector.h:113-133 [Copy] *)
Definition Vector_Copy (nodevec_src nodevec_dest : list (list R)) : list (list R) := nodevec_src.

(** Element.h:31-55 [Element::asElementVector]; [nne = conn.shape(1)], [ndim = nodevec.shape(1)] *)
Definition asElementVector (conn : list (list nat)) (nne : nat) (nodevec : list (list R)) (ndim : nat)
  : res (list (list (list R))) :=
  fill3 (length conn) nne ndim (fun e m i => do n <- get2 conn e m; get2 nodevec n i).

(** Element.h:64-89 [Element::assembleNodeVector] *)
Definition assembleNodeVector (conn : list (list nat)) (nne : nat) (elemvec : list (list (list R))) (ndim : nat)
  : res (list (list R)) :=
  let nnode := amax (concat conn) + 1 in
  foldM (fun ret emi => do n <- get2 conn (fst (fst emi)) (snd (fst emi));
                        do x <- get3 elemvec (fst (fst emi)) (snd (fst emi)) (snd emi);
                        do y <- get2 ret n (snd emi);
                        set2 ret n (snd emi) (y + x)%R)
        (list_prod (list_prod (seq 0 (length conn)) (seq 0 nne)) (seq 0 ndim))
        (repeat (repeat 0%R ndim) nnode).
