(** Model of TyingsPeriodic.h and VectorPartitionedTyings.h. *)
From Coq Require Import Reals.
From Verif Require Import Base Sums Model_Numbering Model_Vector Model_Sparse.

(** TyingsPeriodic.h:346-355: the members of [Tyings::Periodic]; a tie is (independent, dependent) *)
Record Periodic := mkPeriodic {
  tp_nnu : nat; tp_nnp : nat; tp_nni : nat; tp_nnd : nat; tp_ndim : nat;
  tp_dofs : list (list nat); tp_control : list (list nat);
  tp_tyings : list (nat * nat); tp_coor : list (list R) }.

(** TyingsPeriodic.h:82-121: the constructor (assertions are disabled by default); [ndim = coor.shape(1)] *)
Definition new_Periodic (coor : list (list R)) (ndim : nat) (dofs control_dofs : list (list nat))
    (nodal_tyings : list (nat * nat)) (iip : list nat) : res Periodic :=
  do dependent_dofs <- mapM (fun t => get dofs (snd t)) nodal_tyings;
  let iid := concat dependent_dofs in
  let iii := setdiff1d (concat dofs) iid in
  let iiu := setdiff1d iii iip in
  do reorder <- Reorder [iiu; iip; iid];
  do d <- Reorder_apply2 reorder dofs;
  do c <- Reorder_apply2 reorder control_dofs;
  Ok (mkPeriodic (length iiu) (length iip) (length iii) (length iid) ndim d c nodal_tyings coor).

(** TyingsPeriodic.h:62-66: the constructor without prescribed DOFs *)
Definition new_Periodic0 coor ndim dofs control_dofs nodal_tyings : res Periodic :=
  new_Periodic coor ndim dofs control_dofs nodal_tyings [].

(** TyingsPeriodic.h:179-222: [nodal_tyings], [iid], [iii], [iiu], [iip] *)
Definition tp_iid (t : Periodic) : list nat := seq (tp_nni t) (tp_nnd t).
Definition tp_iii (t : Periodic) : list nat := seq 0 (tp_nni t).
Definition tp_iiu (t : Periodic) : list nat := seq 0 (tp_nnu t).
Definition tp_iip (t : Periodic) : list nat := map (fun i => i + tp_nnu t) (seq 0 (tp_nnp t)).

(** the entries pushed by the loops of TyingsPeriodic.h:244-258, 278-296, 316-336: [keep] selects
    the columns that are stored, [shift] is what is subtracted from the column *)
Definition tie_triplets (t : Periodic) (keep : nat -> bool) (shift : nat) : res (list (nat * nat * R)) :=
  do l <- mapM (fun ij =>
      do tie <- get (tp_tyings t) (fst ij);
      do d <- get2 (tp_dofs t) (fst tie) (snd ij);
      let first := if keep d then [(fst ij * tp_ndim t + snd ij, d - shift, 1%R)] else [] in
      do rest <- mapM (fun k =>
          do c <- get2 (tp_control t) (snd ij) k;
          do xd <- get2 (tp_coor t) (snd tie) k;
          do xi <- get2 (tp_coor t) (fst tie) k;
          Ok (if keep c then [(fst ij * tp_ndim t + snd ij, c - shift, (xd - xi)%R)] else [])) (seq 0 (tp_ndim t));
      Ok (first ++ concat rest))
    (list_prod (seq 0 (length (tp_tyings t))) (seq 0 (tp_ndim t)));
  Ok (concat l).

(** TyingsPeriodic.h:238-265 [Cdi] *)
Definition Cdi (t : Periodic) : res mat :=
  do ts <- tie_triplets t (fun _ => true) 0; setFromTriplets (tp_nnd t) (tp_nni t) ts.
(** TyingsPeriodic.h:272-303 [Cdu] *)
Definition Cdu (t : Periodic) : res mat :=
  do ts <- tie_triplets t (fun c => c <? tp_nnu t) 0; setFromTriplets (tp_nnd t) (tp_nnu t) ts.
(** TyingsPeriodic.h:310-343 [Cdp] *)
Definition Cdp (t : Periodic) : res mat :=
  do ts <- tie_triplets t (fun c => tp_nnu t <=? c) (tp_nnu t); setFromTriplets (tp_nnd t) (tp_nnp t) ts.

(** TyingsPeriodic.h:361-440 [Tyings::Control]; [nnode, ndim] are the shape of [coor] *)
Record Control := mkControl {
  tc_coor : list (list R); tc_dofs : list (list nat); tc_control_dofs : list (list nat); tc_control_nodes : list nat }.
Definition new_Control (coor : list (list R)) (nnode ndim : nat) (dofs : list (list nat)) : Control :=
  let control_dofs := map (map (fun d => d + (amax (concat dofs) + 1))) (reshape2 ndim ndim (seq 0 (ndim * ndim))) in
  let control_nodes := map (fun i => nnode + i) (seq 0 ndim) in
  mkControl (coor ++ repeat (repeat 0%R ndim) ndim) (dofs ++ control_dofs) control_dofs control_nodes.

(** VectorPartitionedTyings.h:30-50, 90-116: the members and the constructor *)
Record VectorTyings := mkVT {
  vt_v : Vector; vt_Cdu : mat; vt_Cdp : mat; vt_Cdi : mat }.
Definition vt_nnu (t : VectorTyings) := cols (vt_Cdu t).
Definition vt_nnp (t : VectorTyings) := cols (vt_Cdp t).
Definition vt_nnd (t : VectorTyings) := rows (vt_Cdp t).
Definition vt_nni (t : VectorTyings) := vt_nnu t + vt_nnp t.

(** VectorPartitionedTyings.h:187-200 [copy_p] *)
Definition vt_copy_p (t : VectorTyings) (src dest : list R) : res (list R) :=
  foldM (fun r i => do x <- get src i; set r i x) (seq (vt_nnu t) (vt_nni t - vt_nnu t)) dest.

(** VectorPartitionedTyings.h:57-74 [Eigen_asDofs_d]: the vector is not initialised *)
Definition Eigen_asDofs_d (t : VectorTyings) (order : list (nat * nat)) (nodevec : list (list R)) : res (list (option R)) :=
  do ws <- mapM (fun mi => do d <- get2 (m_dofs (vt_v t)) (fst mi) (snd mi);
                           if vt_nni t <=? d then do x <- get2 nodevec (fst mi) (snd mi); Ok [(d - vt_nni t, Some x)] else Ok []) order;
  write_all (empty (vt_nnd t)) (concat ws).

(** VectorPartitionedTyings.h:223-253 [asDofs_i]; [order], [order'] are the orders of the two
    parallel loops *)
Definition asDofs_i (t : VectorTyings) (order order' : list (nat * nat)) (nodevec : list (list R)) (apply_tyings : bool) : res (list R) :=
  do ws <- mapM (fun mi => do d <- get2 (m_dofs (vt_v t)) (fst mi) (snd mi);
                           if d <? vt_nni t then do x <- get2 nodevec (fst mi) (snd mi); Ok [(d, x)] else Ok []) order;
  do dofval_i <- write_all (repeat 0%R (vt_nni t)) (concat ws);
  if negb apply_tyings then Ok dofval_i
  else do dd <- Eigen_asDofs_d t order' nodevec;
       do Dofval_d <- mapM (get_init dd) (seq 0 (vt_nnd t));
       do Dofval_i <- mulvec (transpose (vt_Cdi t)) Dofval_d;
       foldM (fun r i => do x <- get Dofval_i i; add_at r i x) (seq 0 (vt_nni t)) dofval_i.

(** VectorPartitionedTyings.h:208-214 [AsDofs_i] *)
Definition AsDofs_i (t : VectorTyings) order order' nodevec : res (list R) := asDofs_i t order order' nodevec true.
