(** Model of GooseFEM::VectorPartitioned (VectorPartitioned.h). *)
From Coq Require Import Reals.
From Verif Require Import Base Model_Numbering Model_Vector.

(** VectorPartitioned.h:45-61: the members *)
Record VectorPartitioned := mkVP {
  vp_v : Vector; m_iiu : list nat; m_iip : list nat; m_part : list (list nat) }.
Definition m_nnu (p : VectorPartitioned) : nat := length (m_iiu p).
Definition m_nnp (p : VectorPartitioned) : nat := length (m_iip p).

(** VectorPartitioned.h:73-88: the constructor (the assertions are not modelled: they are disabled
    by default) *)
Definition new_VectorPartitioned (v : Vector) (iip : list nat) : res VectorPartitioned :=
  let iiu := setdiff1d (concat (m_dofs v)) iip in
  do r <- Reorder [iiu; iip];
  do part <- Reorder_apply2 r (m_dofs v);
  Ok (mkVP v iiu iip part).

Section P.
Variable p : VectorPartitioned.
Let v := vp_v p.

(** VectorPartitioned.h:127-142 [dofs_is_u], 149-164 [dofs_is_p] *)
Definition dofs_is_u : res (list (list bool)) :=
  fill2 (m_nnode v) (m_ndim v) (fun m i => do k <- get2 (m_part p) m i; Ok (k <? m_nnu p)).
Definition dofs_is_p : res (list (list bool)) :=
  fill2 (m_nnode v) (m_ndim v) (fun m i => do k <- get2 (m_part p) m i; Ok (m_nnu p <=? k)).

(** VectorPartitioned.h:176-214 [Copy_u], [copy_u] *)
Definition Copy_u (src dest : list (list R)) : res (list (list R)) :=
  fill2 (m_nnode v) (m_ndim v) (fun m i => do k <- get2 (m_part p) m i;
    if k <? m_nnu p then get2 src m i else get2 dest m i).

(** VectorPartitioned.h:229-267 [Copy_p], [copy_p] *)
Definition Copy_p (src dest : list (list R)) : res (list (list R)) :=
  fill2 (m_nnode v) (m_ndim v) (fun m i => do k <- get2 (m_part p) m i;
    if m_nnu p <=? k then get2 src m i else get2 dest m i).

(** [ret(ii(d)) = val(d)] for all d: the writes of one of the loops of [dofsFromParitioned] *)
Definition index_writes (ii : list nat) (val : list R) : res (list (nat * R)) :=
  mapM (fun d => do k <- get ii d; do x <- get val d; Ok (k, x)) (seq 0 (length ii)).

(** VectorPartitioned.h:276-314 [DofsFromParitioned], [dofsFromParitioned] *)
Definition DofsFromParitioned (dofval_u dofval_p : list R) : res (list R) :=
  do wu <- index_writes (m_iiu p) dofval_u;
  do r <- write_all (repeat 0%R (m_ndof v)) wu;
  do wp <- index_writes (m_iip p) dofval_p;
  write_all r wp.

(** the branch of VectorPartitioned.h:357-362 and 410-415 *)
Definition from_part (dofval_u dofval_p : list R) (k : nat) : res R :=
  if k <? m_nnu p then get dofval_u k else get dofval_p (k - m_nnu p).

(** VectorPartitioned.h:328-366 [NodeFromPartitioned], [nodeFromPartitioned] *)
Definition NodeFromPartitioned (dofval_u dofval_p : list R) : res (list (list R)) :=
  fill2 (m_nnode v) (m_ndim v) (fun m i => do k <- get2 (m_part p) m i; from_part dofval_u dofval_p k).

(** VectorPartitioned.h:380-420 [ElementFromPartitioned], [elementFromPartitioned] *)
Definition ElementFromPartitioned (dofval_u dofval_p : list R) : res (list (list (list R))) :=
  fill3 (m_nelem v) (m_nne v) (m_ndim v) (fun e m i =>
    do n <- get2 (m_conn v) e m; do k <- get2 (m_part p) n i; from_part dofval_u dofval_p k).

(** VectorPartitioned.h:429-455 and 550-576 [AsDofs_u], [AsDofs_p] of "dofval" *)
Definition AsDofs_u_dofval (dofval : list R) : res (list R) :=
  fill1 (m_nnu p) (fun d => do k <- get (m_iiu p) d; get dofval k).
Definition AsDofs_p_dofval (dofval : list R) : res (list R) :=
  fill1 (m_nnp p) (fun d => do k <- get (m_iip p) d; get dofval k).

(** one iteration of the loops of VectorPartitioned.h:487-495, 528-538 (side u) *)
Definition write_u (k : nat) (x : res R) : res (list (nat * R)) :=
  if k <? m_nnu p then do y <- x; Ok [(k, y)] else Ok [].
(** one iteration of the loops of VectorPartitioned.h:608-616, 649-659 (side p) *)
Definition write_p (k : nat) (x : res R) : res (list (nat * R)) :=
  if m_nnu p <=? k then do y <- x; Ok [(k - m_nnu p, y)] else Ok [].

(** VectorPartitioned.h:464-496 and 585-617 [AsDofs_u], [AsDofs_p] of "nodevec"; the order of the iterations of the
    parallel loop is a parameter *)
Definition AsDofs_u_nodevec (order : list (nat * nat)) (u : list (list R)) : res (list R) :=
  do ws <- mapM (fun mi => do k <- get2 (m_part p) (fst mi) (snd mi); write_u k (get2 u (fst mi) (snd mi))) order;
  write_all (repeat 0%R (m_nnu p)) (concat ws).
Definition AsDofs_p_nodevec (order : list (nat * nat)) (u : list (list R)) : res (list R) :=
  do ws <- mapM (fun mi => do k <- get2 (m_part p) (fst mi) (snd mi); write_p k (get2 u (fst mi) (snd mi))) order;
  write_all (repeat 0%R (m_nnp p)) (concat ws).

(** VectorPartitioned.h:505-540 and 626-661 [AsDofs_u], [AsDofs_p] of "elemvec" *)
Definition AsDofs_u_elemvec (order : list (nat * nat * nat)) (f : list (list (list R))) : res (list R) :=
  do ws <- mapM (fun a => do n <- get2 (m_conn v) (fst (fst a)) (snd (fst a));
                          do k <- get2 (m_part p) n (snd a);
                          write_u k (get3 f (fst (fst a)) (snd (fst a)) (snd a))) order;
  write_all (repeat 0%R (m_nnu p)) (concat ws).
Definition AsDofs_p_elemvec (order : list (nat * nat * nat)) (f : list (list (list R))) : res (list R) :=
  do ws <- mapM (fun a => do n <- get2 (m_conn v) (fst (fst a)) (snd (fst a));
                          do k <- get2 (m_part p) n (snd a);
                          write_p k (get3 f (fst (fst a)) (snd (fst a)) (snd a))) order;
  write_all (repeat 0%R (m_nnp p)) (concat ws).
End P.
