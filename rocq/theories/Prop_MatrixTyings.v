(** Properties C51-C52: matrices with tyings and their solver. *)
From Coq Require Import Reals Lra.
From Verif Require Import Base Spec Sums Spec_Vector Spec_Matrix Spec_Tyings Model_Numbering Model_Vector Proof_Vector Model_VectorPartitioned Model_Sparse Model_Matrix
  Model_MatrixTyings Spec_MatrixTyings Proof_Matrix Proof_MatrixTyings.

Lemma node_iters_eq' : forall conn dofs nelem nne nnode ndim ndof, mesh_dofs conn dofs nelem nne nnode ndim ndof ->
  node_iters (mkVector conn nne dofs ndim) = list_prod (seq 0 nnode) (seq 0 ndim).
Proof.
  intros conn dofs nelem nne nnode ndim ndof H. unfold node_iters.
  now destruct (V_sizes (mkVector conn nne dofs ndim) nelem nne nnode ndim ndof eq_refl eq_refl H) as [_ [-> _]].
Qed.

(** C51: one matrix and its solver, after any sequence of [assemble] and solves.  Let A be the matrix of
    the last [assemble] and T the matrix that gives all DOFs in terms of the independent ones.  If the
    linear solver solves systems with (T^t A T)_uu, then the solution keeps the prescribed values of x,
    satisfies the tyings x = T x_i, and the unknown rows of T^t (A x - b) are zero. *)
Theorem C51_solve : forall conn dofs nelem nne nnode ndim ndof Cdu Cdp nnu nnp nnd, mesh_dofs conn dofs nelem nne nnode ndim ndof -> no_holes dofs ndof ->
  tying_sizes Cdu Cdp nnu nnp nnd -> nnu + nnp + nnd = ndof ->
  let v := mkVector conn nne dofs ndim in
  let T := tie nnu (nnu + nnp) Cdu Cdp in
  forall linsolve ops a s order b x, Forall (valid_top nelem nne ndim) ops ->
  foldM (run_top linsolve) ops (new_MatrixTyings v Cdu Cdp, new_Solver) = Ok (a, s) ->
  let A := last_assembled conn dofs nelem nne ndim ops in
  solves_matrix linsolve nnu (condensed ndof T A) ->
  Permutation order (list_prod (seq 0 nnode) (seq 0 ndim)) -> shape2 b nnode ndim -> agree2 dofs nnode ndim b -> shape2 x nnode ndim -> agree2 dofs nnode ndim x ->
  exists y s' a' Y B, PT_solve_nodevec a linsolve s order b x = Ok (y, s', a') /\ shape2 y nnode ndim /\
    dof_values dofs nnode ndim ndof y Y /\ dof_values dofs nnode ndim ndof b B /\
    (forall m i, m < nnode -> i < ndim -> nnu <= idx2 dofs m i < nnu + nnp -> val2 y m i = val2 x m i) /\
    (forall d, d < ndof -> val1 Y d = sumn (nnu + nnp) (fun j => T d j * val1 Y j)%R) /\
    (forall i, i < nnu -> sumn ndof (fun c => T c i * (mv ndof A (val1 Y) c - val1 B c))%R = 0%R).
Proof.
  intros conn dofs nelem nne nnode ndim ndof Cdu Cdp nnu nnp nnd H Hh Hts Hn v T linsolve ops a s order b x Hok E A. rewrite <- (node_iters_eq' conn dofs nelem nne nnode ndim ndof H).
  exact (history_solve v nelem nne nnode ndim ndof eq_refl eq_refl H Hh Cdu Cdp nnu nnp nnd Hts Hn linsolve ops a s order b x Hok E).
Qed.
Print Assumptions C51_solve.

(** C51: the dense form is the assembled matrix; solving does not change it *)
Theorem C51_matrix : forall conn dofs nelem nne nnode ndim ndof Cdu Cdp nnu nnp nnd, mesh_dofs conn dofs nelem nne nnode ndim ndof -> no_holes dofs ndof ->
  tying_sizes Cdu Cdp nnu nnp nnd -> nnu + nnp + nnd = ndof ->
  let v := mkVector conn nne dofs ndim in
  forall linsolve ops a s, Forall (valid_top nelem nne ndim) ops ->
  foldM (run_top linsolve) ops (new_MatrixTyings v Cdu Cdp, new_Solver) = Ok (a, s) ->
  exists dn, PT_todense a = Ok dn /\ is_dense ndof dn (last_assembled conn dofs nelem nne ndim ops).
Proof.
  intros conn dofs nelem nne nnode ndim ndof Cdu Cdp nnu nnp nnd H Hh Hts Hn v linsolve ops a s Hok E.
  exact (pt_todense v nelem nne nnode ndim ndof eq_refl eq_refl H Hh Cdu Cdp nnu nnp nnd Hts Hn a _
    (proj1 (run_history v nelem nne nnode ndim ndof eq_refl eq_refl H Hh Cdu Cdp nnu nnp nnd Hts Hn linsolve ops a s Hok E))).
Qed.
Print Assumptions C51_matrix.

(** C52, part: if there are at most as many dependent as prescribed DOFs, the solve with DOF values and
    the solve with the corresponding nodal values agree exactly if the dependent part of b has no effect:
    the DOF variant forgets it. *)
Theorem C52_agree_partial : forall conn dofs nelem nne nnode ndim ndof Cdu Cdp nnu nnp nnd, mesh_dofs conn dofs nelem nne nnode ndim ndof -> no_holes dofs ndof ->
  tying_sizes Cdu Cdp nnu nnp nnd -> nnu + nnp + nnd = ndof -> nnd <= nnp ->
  let v := mkVector conn nne dofs ndim in
  let T := tie nnu (nnu + nnp) Cdu Cdp in
  forall linsolve ops a s order b x bn xn, Forall (valid_top nelem nne ndim) ops ->
  foldM (run_top linsolve) ops (new_MatrixTyings v Cdu Cdp, new_Solver) = Ok (a, s) ->
  solves_matrix linsolve nnu (condensed ndof T (last_assembled conn dofs nelem nne ndim ops)) ->
  Permutation order (list_prod (seq 0 nnode) (seq 0 ndim)) -> length b = ndof -> length x = ndof -> AsNode_dofval v b = Ok bn -> AsNode_dofval v x = Ok xn ->
  exists y s' a' yn z, PT_solve_dofval a linsolve s b x = Ok (y, s', a') /\ PT_solve_nodevec a linsolve s order bn xn = Ok (yn, s', a') /\
    AsNode_dofval v y = Ok z /\ (z = yn <-> forall i, i < nnu -> sumn nnd (fun k => ent Cdu k i * val1 b (nnu + nnp + k))%R = 0%R).
Proof.
  intros conn dofs nelem nne nnode ndim ndof Cdu Cdp nnu nnp nnd H Hh Hts Hn Ld v T linsolve ops a s order b x bn xn Hok E Hs. rewrite <- (node_iters_eq' conn dofs nelem nne nnode ndim ndof H).
  destruct (run_history v nelem nne nnode ndim ndof eq_refl eq_refl H Hh Cdu Cdp nnu nnp nnd Hts Hn linsolve ops a s Hok E) as [H1 H2].
  exact (pt_agree v nelem nne nnode ndim ndof eq_refl eq_refl H Hh Cdu Cdp nnu nnp nnd Hts Hn linsolve a _ s order b x bn xn H1 H2 Hs Ld).
Qed.
Print Assumptions C52_agree_partial.

(** C52: with more dependent than prescribed DOFs, the solve with DOF values always reads outside an
    array *)
Theorem C52_out_of_bounds : forall conn dofs nelem nne nnode ndim ndof Cdu Cdp nnu nnp nnd, mesh_dofs conn dofs nelem nne nnode ndim ndof -> no_holes dofs ndof ->
  tying_sizes Cdu Cdp nnu nnp nnd -> nnu + nnp + nnd = ndof -> nnp < nnd ->
  let v := mkVector conn nne dofs ndim in
  forall linsolve ops a s b x, Forall (valid_top nelem nne ndim) ops ->
  foldM (run_top linsolve) ops (new_MatrixTyings v Cdu Cdp, new_Solver) = Ok (a, s) -> length b = ndof ->
  PT_solve_dofval a linsolve s b x = Oob.
Proof.
  intros conn dofs nelem nne nnode ndim ndof Cdu Cdp nnu nnp nnd H Hh Hts Hn Ld v linsolve ops a s b x Hok E.
  destruct (run_history v nelem nne nnode ndim ndof eq_refl eq_refl H Hh Cdu Cdp nnu nnp nnd Hts Hn linsolve ops a s Hok E) as [H1 H2].
  exact (pt_solve_dofval_oob v nelem nne nnode ndim ndof eq_refl eq_refl H Hh Cdu Cdp nnu nnp nnd Hts Hn linsolve a _ s b x H1 H2 Ld).
Qed.
Print Assumptions C52_out_of_bounds.

(** C52: [Solve_u] solves the system in which the dependent part of b is zero, whatever is given *)
Theorem C52_solve_u_partial : forall conn dofs nelem nne nnode ndim ndof Cdu Cdp nnu nnp nnd, mesh_dofs conn dofs nelem nne nnode ndim ndof -> no_holes dofs ndof ->
  tying_sizes Cdu Cdp nnu nnp nnd -> nnu + nnp + nnd = ndof ->
  let v := mkVector conn nne dofs ndim in
  let T := tie nnu (nnu + nnp) Cdu Cdp in
  forall linsolve ops a s bu bd xp, Forall (valid_top nelem nne ndim) ops ->
  foldM (run_top linsolve) ops (new_MatrixTyings v Cdu Cdp, new_Solver) = Ok (a, s) ->
  let A := last_assembled conn dofs nelem nne ndim ops in
  solves_matrix linsolve nnu (condensed ndof T A) -> length bu = nnu -> length xp = nnp ->
  exists X s' a', PT_solve_u a linsolve s bu bd xp = Ok (X, s', a') /\ length X = nnu /\
    forall y, (forall k, k < nnu -> y k = val1 X k) -> (forall k, k < nnp -> y (nnu + k) = val1 xp k) ->
      (forall d, d < ndof -> y d = sumn (nnu + nnp) (fun j => T d j * y j)%R) ->
      forall i, i < nnu -> sumn ndof (fun c => T c i * mv ndof A y c)%R = val1 bu i.
Proof.
  intros conn dofs nelem nne nnode ndim ndof Cdu Cdp nnu nnp nnd H Hh Hts Hn v T linsolve ops a s bu bd xp Hok E A Hs L1 L2.
  destruct (run_history v nelem nne nnode ndim ndof eq_refl eq_refl H Hh Cdu Cdp nnu nnp nnd Hts Hn linsolve ops a s Hok E) as [H1 H2].
  destruct (Proof_MatrixTyings.pt_solve_u v nelem nne nnode ndim ndof eq_refl eq_refl H Hh Cdu Cdp nnu nnp nnd Hts Hn linsolve a _ s bu bd xp H1 H2 Hs L1 L2) as [X [s' [a' [E1 [_ [_ E2]]]]]].
  exists X, s', a'. exact (conj E1 E2).
Qed.
Print Assumptions C52_solve_u_partial.

(** one element with three nodes: an unknown, a prescribed and a dependent DOF, tied by x_2 = x_0 *)
Definition tv : Vector := mkVector [[0; 1; 2]] 3 [[0]; [1]; [2]] 1.
Definition tK : list (list (list R)) := [[[1%R; 0%R; 0%R]; [0%R; 1%R; 0%R]; [0%R; 0%R; 1%R]]].
Definition tCdu : mat := mkMat 1 1 (fun _ _ => 1%R).
Definition tCdp : mat := mkMat 1 1 (fun _ _ => 0%R).

Lemma tv_mesh : mesh_dofs [[0; 1; 2]] [[0]; [1]; [2]] 1 3 3 1 3.
Proof.
  split.
  - split; [reflexivity|]. simpl. intuition (subst; reflexivity).
  - split; [reflexivity|]. simpl. intuition (subst; reflexivity).
  - intros [|[|e]] [|[|[|m]]] He Hm; cbn; lia.
  - reflexivity.
Qed.
Lemma tv_holes : no_holes [[0]; [1]; [2]] 3.
Proof. intros d Hd. simpl. lia. Qed.
Lemma tv_sizes : tying_sizes tCdu tCdp 1 1 1.
Proof. now split. Qed.
Lemma tK_valid : valid_top 1 3 1 (TAssemble tK).
Proof.
  split; [reflexivity|]. intros r [<-|[]]. split; [reflexivity|]. intros x [<-|[<-|[<-|[]]]]; reflexivity.
Qed.
Lemma tv_condensed : condensed 3 (tie 1 2 tCdu tCdp) (last_assembled [[0; 1; 2]] [[0]; [1]; [2]] 1 3 1 [TAssemble tK]) 0 0 = 2%R.
Proof.
  unfold condensed, last_assembled, assembled, sum_elem, sum_node, sumn, sumL, ind, tie, idx2, val3, nth3, nth2. simpl. lra.
Qed.
Lemma tv_solves : solves_matrix div1 1 (condensed 3 (tie 1 2 tCdu tCdp) (last_assembled [[0; 1; 2]] [[0]; [1]; [2]] 1 3 1 [TAssemble tK])).
Proof.
  intros m HR HC He b Lb. split; [reflexivity|]. intros i Hi. assert (E : i = 0) by lia. rewrite E. unfold mv, div1, val1. cbn [sumn sumL seq fold_right nth map].
  unfold sumn, sumL. cbn [seq fold_right nth map]. rewrite He by lia. rewrite tv_condensed. lra.
Qed.

(** the hypotheses of C51 and C52 *)
Example C51_ex : exists a s, foldM (run_top div1) [TAssemble tK] (new_MatrixTyings tv tCdu tCdp, new_Solver) = Ok (a, s).
Proof. do 2 eexists. reflexivity. Qed.

(** C52 as stated is false: the two variants differ for b = (0, 0, 2) *)
Theorem C52_refuted : exists a s y s' a' yn z b x bn xn order,
  foldM (run_top div1) [TAssemble tK] (new_MatrixTyings tv tCdu tCdp, new_Solver) = Ok (a, s) /\
  solves_matrix div1 1 (condensed 3 (tie 1 2 tCdu tCdp) (last_assembled [[0; 1; 2]] [[0]; [1]; [2]] 1 3 1 [TAssemble tK])) /\
  length b = 3 /\ length x = 3 /\ Permutation order (list_prod (seq 0 3) (seq 0 1)) /\
  AsNode_dofval tv b = Ok bn /\ AsNode_dofval tv x = Ok xn /\
  PT_solve_dofval a div1 s b x = Ok (y, s', a') /\ PT_solve_nodevec a div1 s order bn xn = Ok (yn, s', a') /\ AsNode_dofval tv y = Ok z /\ z <> yn.
Proof.
  destruct C51_ex as [a [s E]].
  assert (Eb : AsNode_dofval tv [0%R; 0%R; 2%R] = Ok [[0%R]; [0%R]; [2%R]]) by reflexivity.
  assert (Ex : AsNode_dofval tv [0%R; 0%R; 0%R] = Ok [[0%R]; [0%R]; [0%R]]) by reflexivity.
  destruct (C52_agree_partial [[0; 1; 2]] [[0]; [1]; [2]] 1 3 3 1 3 tCdu tCdp 1 1 1 tv_mesh tv_holes tv_sizes eq_refl (le_n 1) div1 [TAssemble tK] a s
    (list_prod (seq 0 3) (seq 0 1)) [0%R; 0%R; 2%R] [0%R; 0%R; 0%R] _ _ (Forall_cons _ tK_valid (Forall_nil _)) E tv_solves (Permutation_refl _) eq_refl eq_refl Eb Ex)
    as [y [s' [a' [yn [z [E1 [E2 [E3 E4]]]]]]]].
  exists a, s, y, s', a', yn, z. do 5 eexists. split; [exact E|]. split; [exact tv_solves|]. split; [|split; [|split; [apply Permutation_refl|split; [exact Eb|split; [exact Ex|split; [exact E1|split; [exact E2|split; [exact E3|]]]]]]]]; try reflexivity.
  intro Ez. apply (proj1 E4) with (i := 0) in Ez; [|lia]. revert Ez. unfold sumn, sumL, val1. cbn. lra.
Qed.
Print Assumptions C52_refuted.
