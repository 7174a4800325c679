(** Properties C43-C45: control nodes, periodic tyings, and vectors with tyings. *)
From Coq Require Import Reals Lra.
From Verif Require Import Base Spec Sums Spec_Vector Spec_Tyings Model_Numbering Model_Vector Model_Sparse Model_Tyings
  Proof_Tyings Proof_Tyings2.

(** C43: [Control] keeps all nodes and adds ndim nodes at the origin, with DOFs that are distinct
    and that no node had; [control_nodes] and [control_dofs] are those nodes and DOFs. *)
Theorem C43_Control : forall coor dofs nnode ndim, shape2 coor nnode ndim -> shape2 dofs nnode ndim ->
  let c := new_Control coor nnode ndim dofs in
  shape2 (tc_coor c) (nnode + ndim) ndim /\ shape2 (tc_dofs c) (nnode + ndim) ndim /\ shape2 (tc_control_dofs c) ndim ndim /\
  tc_control_nodes c = seq nnode ndim /\
  (forall m i, m < nnode -> i < ndim -> val2 (tc_coor c) m i = val2 coor m i /\ idx2 (tc_dofs c) m i = idx2 dofs m i) /\
  (forall j k, j < ndim -> k < ndim -> val2 (tc_coor c) (nnode + j) k = 0%R /\
     idx2 (tc_dofs c) (nnode + j) k = idx2 (tc_control_dofs c) j k /\
     idx2 (tc_control_dofs c) j k = S (fold_right Nat.max 0 (concat dofs)) + (j * ndim + k)).
Proof. exact Control_spec. Qed.
Print Assumptions C43_Control.

Theorem C43_Control_fresh : forall coor dofs nnode ndim, shape2 coor nnode ndim -> shape2 dofs nnode ndim ->
  let c := new_Control coor nnode ndim dofs in
  (forall j k m i, j < ndim -> k < ndim -> m < nnode -> i < ndim -> idx2 (tc_control_dofs c) j k <> idx2 dofs m i) /\
  (forall j k j' k', j < ndim -> k < ndim -> j' < ndim -> k' < ndim ->
     idx2 (tc_control_dofs c) j k = idx2 (tc_control_dofs c) j' k' -> j = j' /\ k = k').
Proof. exact Control_fresh. Qed.
Print Assumptions C43_Control_fresh.

Example C43_ex : new_Control [[0%R; 0%R]; [1%R; 0%R]] 2 2 [[0; 1]; [2; 3]] =
  mkControl [[0%R; 0%R]; [1%R; 0%R]; [0%R; 0%R]; [0%R; 0%R]] [[0; 1]; [2; 3]; [4; 5]; [6; 7]] [[4; 5]; [6; 7]] [2; 3].
Proof. reflexivity. Qed.

(** C44: the DOFs are renumbered without merging or splitting any; the prescribed DOFs come after
    the unknown ones, and the dependent ones last, in the order of the ties; the control DOFs stay
    the same DOFs. *)
Theorem C44_renumber : forall coor dofs control ties iip nnode ndim, periodic_input coor dofs control ties iip nnode ndim ->
  exists t, new_Periodic coor ndim dofs control ties iip = Ok t /\
  shape2 (tp_dofs t) nnode ndim /\ shape2 (tp_control t) ndim ndim /\
  tp_nnp t = length iip /\ tp_nni t = tp_nnu t + tp_nnp t /\ tp_nnd t = length ties * ndim /\
  (forall m i n j, m < nnode -> i < ndim -> n < nnode -> j < ndim ->
     (idx2 (tp_dofs t) m i = idx2 (tp_dofs t) n j <-> idx2 dofs m i = idx2 dofs n j)) /\
  (forall m i, m < nnode -> i < ndim -> idx2 (tp_dofs t) m i < tp_nni t + tp_nnd t /\
     (tp_nnu t <= idx2 (tp_dofs t) m i < tp_nni t <-> In (idx2 dofs m i) iip) /\
     (tp_nni t <= idx2 (tp_dofs t) m i <-> dependent dofs ndim ties (idx2 dofs m i))) /\
  (forall s a b j, nth_error ties s = Some (a, b) -> j < ndim -> idx2 (tp_dofs t) b j = tp_nni t + (s * ndim + j)) /\
  (forall j k m i, j < ndim -> k < ndim -> m < nnode -> i < ndim ->
     (idx2 (tp_control t) j k = idx2 (tp_dofs t) m i <-> idx2 control j k = idx2 dofs m i)) /\
  (forall k, k < tp_nni t + tp_nnd t -> exists m i, m < nnode /\ i < ndim /\ idx2 (tp_dofs t) m i = k).
Proof.
  intros coor dofs control ties iip nnode ndim H.
  destruct (per_new _ _ _ _ _ _ _ H) as [t [E _]]. exists t. split; [exact E|].
  destruct (per_facts _ _ _ _ _ _ _ H t E) as [_ [F2 [F3 [F4 [_ [_ [_ [F5 [F6 _]]]]]]]]].
  do 5 (split; [assumption|]). exact (per_renumber _ _ _ _ _ _ _ H t E).
Qed.
Print Assumptions C44_renumber.

(** C44: with y the values of all DOFs of nodal values u, split in independent values (first) and
    dependent values, the dependent values are [Cdi] times the independent values if and only if
    every tied pair satisfies u_dep = u_indep + F (x_dep - x_indep), F the control DOFs' values. *)
Theorem C44_affine : forall coor dofs control ties iip nnode ndim, periodic_input coor dofs control ties iip nnode ndim ->
  forall t, new_Periodic coor ndim dofs control ties iip = Ok t ->
  exists C, Cdi t = Ok C /\ rows C = tp_nnd t /\ cols C = tp_nni t /\
  forall u y, dof_values (tp_dofs t) nnode ndim (tp_nni t + tp_nnd t) u y -> exists z, mulvec C (firstn (tp_nni t) y) = Ok z /\
    (z = skipn (tp_nni t) y <->
     forall a b j, In (a, b) ties -> j < ndim -> val2 u b j =
       (val2 u a j + sumn ndim (fun k => val1 y (idx2 (tp_control t) j k) * (val2 coor b k - val2 coor a k)))%R).
Proof. exact Cdi_affine. Qed.
Print Assumptions C44_affine.

(** C44: Cdi = [Cdu Cdp] *)
Theorem C44_Cdu_Cdp : forall coor dofs control ties iip nnode ndim, periodic_input coor dofs control ties iip nnode ndim ->
  forall t, new_Periodic coor ndim dofs control ties iip = Ok t ->
  exists C U P, Cdi t = Ok C /\ Cdu t = Ok U /\ Cdp t = Ok P /\
  rows U = tp_nnd t /\ cols U = tp_nnu t /\ rows P = tp_nnd t /\ cols P = tp_nnp t /\
  forall r, r < tp_nnd t -> (forall c, c < tp_nnu t -> ent U r c = ent C r c) /\ (forall c, c < tp_nnp t -> ent P r c = ent C r (tp_nnu t + c)).
Proof. exact Cdu_Cdp_spec. Qed.
Print Assumptions C44_Cdu_Cdp.

(** two tied nodes in two dimensions, with two control nodes of which one is prescribed *)
Example C44_ex_input : periodic_input [[0%R; 0%R]; [1%R; 0%R]; [0%R; 0%R]; [0%R; 0%R]] [[0; 1]; [2; 3]; [4; 5]; [6; 7]] [[4; 5]; [6; 7]]
  [(0, 1)] [6; 7] 4 2.
Proof.
  assert (D : forall d, dependent [[0; 1]; [2; 3]; [4; 5]; [6; 7]] 2 [(0, 1)] d -> d = 2 \/ d = 3).
  { intros d [a [b [i [[E|[]] [Hi Ed]]]]]. inversion E; subst. destruct i as [|[|i]]; cbn; lia. }
  split.
  - split; [reflexivity|]. simpl. intuition (subst; reflexivity).
  - split; [reflexivity|]. simpl. intuition (subst; reflexivity).
  - split; [reflexivity|]. simpl. intuition (subst; reflexivity).
  - intros a b [E|[]]. inversion E. lia.
  - intros [|s] [|t] a b a' b' i j E1 E2; try (destruct s; discriminate); try (destruct t; discriminate).
    simpl in E1, E2. inversion E1; inversion E2; subst. destruct i as [|[|i]], j as [|[|j]]; cbn; lia.
  - intros a b i [E|[]] Hi Hd. inversion E; subst. apply D in Hd. destruct i as [|[|i]]; cbn in Hd; lia.
  - intros [|[|j]] [|[|k]] Hj Hk; try lia; cbn; (split; [tauto|]); intro Hd; apply D in Hd; lia.
  - repeat constructor; simpl; lia.
  - intros d Hd. split; [simpl in *; lia|]. intro Hq. apply D in Hq. simpl in Hd. lia.
Qed.
Example C44_ex : exists t, new_Periodic [[0%R; 0%R]; [1%R; 0%R]; [0%R; 0%R]; [0%R; 0%R]] 2 [[0; 1]; [2; 3]; [4; 5]; [6; 7]] [[4; 5]; [6; 7]]
  [(0, 1)] [6; 7] = Ok t /\ tp_dofs t = [[0; 1]; [6; 7]; [2; 3]; [4; 5]] /\ tp_control t = [[2; 3]; [4; 5]] /\ tp_nnu t = 4 /\ tp_nnp t = 2 /\ tp_nnd t = 2.
Proof. eexists. repeat split. Qed.

(** C45: AsDofs_i returns the independent values plus the transpose of Cdi times the dependent
    values, for every order of the two parallel loops *)
Theorem C45_AsDofs_i : forall conn dofs nelem nne nnode ndim ndof Cdu Cdp Cdi,
  mesh_dofs conn dofs nelem nne nnode ndim ndof -> no_holes dofs ndof ->
  rows Cdu = rows Cdi -> rows Cdp = rows Cdi -> cols Cdi = cols Cdu + cols Cdp -> cols Cdi + rows Cdi = ndof ->
  let t := mkVT (mkVector conn nne dofs ndim) Cdu Cdp Cdi in
  forall order order' u y, Permutation order (list_prod (seq 0 nnode) (seq 0 ndim)) -> Permutation order' (list_prod (seq 0 nnode) (seq 0 ndim)) ->
  shape2 u nnode ndim -> dof_values dofs nnode ndim ndof u y ->
  (exists x, asDofs_i t order order' u false = Ok x /\ length x = cols Cdi /\ forall d, d < cols Cdi -> val1 x d = val1 y d) /\
  (exists x, AsDofs_i t order order' u = Ok x /\ length x = cols Cdi /\
     (forall d, d < cols Cdi -> val1 x d = (val1 y d + sumn (rows Cdi) (fun k => ent Cdi k d * val1 y (cols Cdi + k)))%R)).
Proof.
  intros conn dofs nelem nne nnode ndim ndof Cdu Cdp Cdi H Hh R1 R2 C1 C2 t order order' u y Ho Ho' Hu Hy.
  assert (Hn : length dofs = nnode) by apply (md_dofs _ _ _ _ _ _ _ H). rewrite <- Hn in Ho, Ho'.
  assert (Hd : vt_nni t + vt_nnd t = ndof) by (unfold vt_nni, vt_nnd, vt_nnu, vt_nnp, t; cbn [vt_Cdu vt_Cdp]; lia).
  pose proof (asDofs_i_spec t nelem nne nnode ndim ndof eq_refl eq_refl H Hd (eq_sym R2) C1 order order' u Ho Ho' Hu y Hy Hh) as P.
  unfold AsDofs_i. unfold vt_nni, vt_nnu, vt_nnp, vt_nnd in P. cbn [vt_Cdu vt_Cdp vt_Cdi t vt_v m_dofs] in P.
  rewrite <- C1, R2 in P. exact P.
Qed.
Print Assumptions C45_AsDofs_i.

(** C45: so for every choice of independent values w, with dependent values Cdi w: the work of the
    condensed vector is that of the full vector *)
Theorem C45_work : forall conn dofs nelem nne nnode ndim ndof Cdu Cdp Cdi,
  mesh_dofs conn dofs nelem nne nnode ndim ndof -> no_holes dofs ndof ->
  rows Cdu = rows Cdi -> rows Cdp = rows Cdi -> cols Cdi = cols Cdu + cols Cdp -> cols Cdi + rows Cdi = ndof ->
  let t := mkVT (mkVector conn nne dofs ndim) Cdu Cdp Cdi in
  forall order order' u y, Permutation order (list_prod (seq 0 nnode) (seq 0 ndim)) -> Permutation order' (list_prod (seq 0 nnode) (seq 0 ndim)) ->
  shape2 u nnode ndim -> dof_values dofs nnode ndim ndof u y -> forall w wd, length w = cols Cdi -> mulvec Cdi w = Ok wd ->
  exists x, AsDofs_i t order order' u = Ok x /\
    sumn (cols Cdi) (fun d => val1 x d * val1 w d)%R = sumn ndof (fun d => val1 y d * val1 (w ++ wd) d)%R.
Proof.
  intros conn dofs nelem nne nnode ndim ndof Cdu Cdp Cdi H Hh R1 R2 C1 C2 t order order' u y Ho Ho' Hu Hy w wd Lw Ew.
  destruct (proj2 (C45_AsDofs_i _ _ _ _ _ _ _ _ _ _ H Hh R1 R2 C1 C2 _ _ _ _ Ho Ho' Hu Hy)) as [x [Ex [Lx Vx]]].
  exists x. split; [exact Ex|]. rewrite (adjoint (ent Cdi) (cols Cdi) (rows Cdi) y x (val1 w) Lx); [|destruct Hy; lia|exact Vx].
  exact (work_split Cdi ndof y w wd Lw Ew C2).
Qed.
Print Assumptions C45_work.

(** C45: AsDofs_i reads an uninitialised value if some dependent DOF is not the DOF of any node *)
Theorem C45_uninitialised : forall conn dofs nelem nne nnode ndim ndof Cdu Cdp Cdi,
  mesh_dofs conn dofs nelem nne nnode ndim ndof ->
  rows Cdu = rows Cdi -> rows Cdp = rows Cdi -> cols Cdi = cols Cdu + cols Cdp -> cols Cdi + rows Cdi = ndof ->
  let t := mkVT (mkVector conn nne dofs ndim) Cdu Cdp Cdi in
  forall order order' u k, Permutation order (list_prod (seq 0 nnode) (seq 0 ndim)) -> Permutation order' (list_prod (seq 0 nnode) (seq 0 ndim)) ->
  shape2 u nnode ndim -> agree2 dofs nnode ndim u -> k < rows Cdi -> ~ In (cols Cdi + k) (concat dofs) ->
  AsDofs_i t order order' u = Uninit.
Proof.
  intros conn dofs nelem nne nnode ndim ndof Cdu Cdp Cdi H R1 R2 C1 C2 t order order' u k Ho Ho' Hu Ha Hk Hn.
  assert (En : length dofs = nnode) by apply (md_dofs _ _ _ _ _ _ _ H). rewrite <- En in Ho, Ho'.
  assert (Hd : vt_nni t + vt_nnd t = ndof) by (unfold vt_nni, vt_nnd, vt_nnu, vt_nnp, t; cbn [vt_Cdu vt_Cdp]; lia).
  apply (asDofs_i_uninit t nelem nne nnode ndim ndof eq_refl eq_refl H Hd (eq_sym R2) C1 order order' u Ho Ho' Hu k Ha);
    unfold vt_nni, vt_nnd, vt_nnu, vt_nnp, t; cbn [vt_Cdu vt_Cdp vt_v m_dofs]; [lia|].
  rewrite <- C1. exact Hn.
Qed.
Print Assumptions C45_uninitialised.

(** C45: Copy_p changes exactly the prescribed entries *)
Theorem C45_copy_p : forall t src dest, vt_nni t <= length src -> length src <= length dest ->
  exists r, vt_copy_p t src dest = Ok r /\ length r = length dest /\
    forall i, val1 r i = if (cols (vt_Cdu t) <=? i) && (i <? cols (vt_Cdu t) + cols (vt_Cdp t)) then val1 src i else val1 dest i.
Proof. exact copy_p_spec. Qed.
Print Assumptions C45_copy_p.

(** one element of two nodes; the second is tied to the first; DOF 1 is a prescribed control DOF *)
Definition ex_Cdu := mkMat 1 1 (fun _ _ => 1%R).
Definition ex_Cdp := mkMat 1 1 (fun _ _ => 2%R).
Definition ex_Cdi := mkMat 1 2 (fun _ c => if c =? 0 then 1%R else 2%R).
Example C45_ex_mesh : mesh_dofs [[0; 1]] [[0]; [2]; [1]] 1 2 3 1 3 /\ no_holes [[0]; [2]; [1]] 3 /\
  dof_values [[0]; [2]; [1]] 3 1 3 [[4%R]; [5%R]; [6%R]] [4%R; 6%R; 5%R] /\
  mulvec ex_Cdi [7%R; 8%R] = Ok [(1 * 7 + (2 * 8 + 0))%R].
Proof.
  split; [split|split; [|split]].
  - split; [reflexivity|]. simpl. intuition (subst; reflexivity).
  - split; [reflexivity|]. simpl. intuition (subst; reflexivity).
  - intros [|e] [|[|m]] He Hm; cbn; lia.
  - reflexivity.
  - intros [|[|[|d]]] Hd; simpl; lia.
  - split; [reflexivity|]. intros [|[|[|m]]] [|i] Hm Hi; try lia; reflexivity.
  - reflexivity.
Qed.
Example C45_ex_AsDofs_i :
  AsDofs_i (mkVT (mkVector [[0; 1]] 2 [[0]; [2]; [1]] 1) ex_Cdu ex_Cdp ex_Cdi) [(2, 0); (0, 0); (1, 0)] [(0, 0); (1, 0); (2, 0)]
    [[4%R]; [5%R]; [6%R]] = Ok [(4 + (1 * 5 + 0))%R; (6 + (2 * 5 + 0))%R].
Proof. reflexivity. Qed.
Example C45_ex_hole : mesh_dofs [[0; 1]] [[0]; [3]; [1]] 1 2 3 1 4 /\ ~ In 2 (concat [[0]; [3]; [1]]) /\
  AsDofs_i (mkVT (mkVector [[0; 1]] 2 [[0]; [3]; [1]] 1) (mkMat 2 1 (fun _ _ => 1%R)) (mkMat 2 1 (fun _ _ => 1%R)) (mkMat 2 2 (fun _ _ => 1%R)))
    [(0, 0); (1, 0); (2, 0)] [(0, 0); (1, 0); (2, 0)] [[4%R]; [5%R]; [6%R]] = Uninit.
Proof.
  split; [split|split].
  - split; [reflexivity|]. simpl. intuition (subst; reflexivity).
  - split; [reflexivity|]. simpl. intuition (subst; reflexivity).
  - intros [|e] [|[|m]] He Hm; cbn; lia.
  - reflexivity.
  - simpl. lia.
  - reflexivity.
Qed.
Example C45_ex_copy_p : vt_copy_p (mkVT (mkVector [[0; 1]] 2 [[0]; [2]; [1]] 1) ex_Cdu ex_Cdp ex_Cdi) [1%R; 2%R; 3%R] [4%R; 5%R; 6%R] = Ok [4%R; 2%R; 6%R].
Proof. reflexivity. Qed.
