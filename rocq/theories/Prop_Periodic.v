(** Property C88: a periodic cell that is deformed through control nodes (docs/examples/statics/periodic_elastoplastic.py). *)
From Coq Require Import Reals Lra Lia.
From Verif Require Import Model_Element Spec_Element Base Spec Sums Spec_Vector Spec_Matrix Spec_Tyings Model_Numbering Model_Vector Proof_Vector Model_Sparse Model_Tyings Prop_Tyings
  Model_Matrix Proof_Matrix Model_MatrixPartitioned Model_MatrixTyings Spec_MatrixTyings Proof_MatrixTyings Proof_Tyings2 Model_MeshGeometry Model_Pipeline Spec_Pipeline Proof_PipelineElem Proof_Pipeline Proof_PipelineBalance
  Model_PeriodicProgram Spec_Periodic Proof_Periodic Proof_PeriodicNodes.

(** C88: for every mesh in which each node has its own DOFs, every list of ties in which no independent node is a dependent one and every
    list of different, independent, nodes that are kept in place, the set-up succeeds.  The control nodes come after the nodes of the mesh.
    Every DOF of every node has its own number: first those that are unknown, then those that are prescribed, then the dependent ones. *)
Theorem C88_setup : forall coor dofs ties fixed nnode ndim conn nne, cell coor dofs ties fixed nnode ndim ->
  exists ps, periodic_setup coor nnode ndim dofs conn nne ties fixed = Ok ps /\
    ps_control_nodes ps = seq nnode ndim /\ shape2 (ps_coor ps) (nnode + ndim) ndim /\
    (forall m i, m < nnode -> i < ndim -> val2 (ps_coor ps) m i = val2 coor m i) /\
    let t := ps_t ps in
    let number := idx2 (tp_dofs t) in
    let nni := tp_nnu t + tp_nnp t in
    shape2 (tp_dofs t) (nnode + ndim) ndim /\
    (forall m i n j, m < nnode + ndim -> i < ndim -> n < nnode + ndim -> j < ndim -> number m i = number n j -> m = n /\ i = j) /\
    (forall d, d < nni + tp_nnd t <-> exists m i, m < nnode + ndim /\ i < ndim /\ number m i = d) /\
    (forall m i, m < nnode + ndim -> i < ndim ->
       (number m i < tp_nnu t <-> ~ prescribed_node fixed nnode m /\ ~ In m (map snd ties)) /\
       (tp_nnu t <= number m i < nni <-> prescribed_node fixed nnode m) /\
       (nni <= number m i <-> In m (map snd ties))).
Proof.
  intros coor dofs ties fixed nnode ndim conn nne HC. destruct HC as [H1 H2 H3 H4 H5 H6].
  destruct (setup_ok coor dofs ties fixed nnode ndim H1 H2 H3 H4 H5 H6 conn nne) as [t0 [cu [cp [ci [_ [_ [_ [_ E]]]]]]]].
  assert (HC : cell coor dofs ties fixed nnode ndim) by now split. clear H1 H2 H3 H5 H6. rename H4 into H4.
  eexists. split; [exact E|]. set (ps := mkPS _ _ _ _ _) in E |- *. destruct (ps_facts _ _ _ _ _ _ HC conn nne ps E) as [Et [_ [_ [_ [EX [EN _]]]]]].
  destruct (c_shape _ _ _ _ _ _ HC) as [SX [_ [_ [_ [C1 _]]]]]. pose proof (rn _ _ _ _ _ _ _ (c_input _ _ _ _ _ _ HC) _ Et) as RN.
  split; [exact EN|]. rewrite EX. split; [exact SX|]. split; [intros m i Hm Hi; exact (proj1 (C1 m i Hm Hi))|]. cbv zeta.
  split; [exact (rn_dofs _ _ _ _ _ _ _ RN)|]. split; [|split].
  - intros m i n j Hm Hi Hn Hj Ed. apply (rn_same _ _ _ _ _ _ _ RN) in Ed; try assumption. now apply (c_distinct _ _ _ _ _ _ HC) in Ed.
  - intro d. split; [apply (rn_all _ _ _ _ _ _ _ RN)|]. intros [m [i [Hm [Hi Ed]]]]. rewrite <- Ed. now apply (rn_lt _ _ _ _ _ _ _ RN).
  - intros m i Hm Hi. pose proof (rn_p _ _ _ _ _ _ _ RN m i Hm Hi) as HP. rewrite (c_prescribed _ _ _ _ _ _ HC m i Hm Hi) in HP.
    pose proof (rn_d _ _ _ _ _ _ _ RN m i Hm Hi) as HD.
    assert (HD' : dependent (tc_dofs (new_Control coor nnode ndim dofs)) ndim ties (idx2 (tc_dofs (new_Control coor nnode ndim dofs)) m i) <-> In m (map snd ties)).
    { split.
      - intros [a [b [j [Hab [Hj Ed]]]]]. pose proof (proj1 H4 a b Hab) as [La Lb]. apply (c_distinct _ _ _ _ _ _ HC) in Ed; try assumption; try lia. destruct Ed as [<- _]. exact (in_map snd _ _ Hab).
      - intro Hx. apply in_map_iff in Hx. destruct Hx as [[a b] [Eb Hab]]. cbn [snd] in Eb. rewrite <- Eb. now exists a, b, i. }
    rewrite HD' in HD. split; [|split; [exact HP|exact HD]].
    destruct (le_lt_dec (tp_nnu (ps_t ps)) (idx2 (tp_dofs (ps_t ps)) m i)) as [L|L].
    + split; [lia|]. intros [Z1 Z2]. exfalso. destruct (le_lt_dec (tp_nnu (ps_t ps) + tp_nnp (ps_t ps)) (idx2 (tp_dofs (ps_t ps)) m i)); [now apply Z2, HD|]. apply Z1, HP. lia.
    + split; [|auto]. intros _. split; [intro Z; apply HP in Z; lia|intro Z; apply HD in Z; lia].
Qed.
Print Assumptions C88_setup.

(** C88: from any state of the matrix and its solver, and any displacement that is periodic (for example zero), any number of iterations
    succeeds, for any material, tangent and orders of the parallel loops, if the linear solver solves the condensed systems.  The result
    is periodic, and where the displacement is prescribed it is the sum of the prescribed updates.  If in the last iteration the material
    is linear, and the tangent is its stiffness, then after it the virtual work of the stress is that of the external force, for every
    virtual displacement. *)
Theorem C88_newton : forall coor dofs ties fixed nnode nelem conn x E, elem_obj nelem x E -> cell coor dofs ties fixed nnode (el_ndim E) -> connects conn nelem (el_nne E) nnode ->
  forall ps, periodic_setup coor nnode (el_ndim E) dofs conn (el_nne E) ties fixed = Ok ps ->
  let t := ps_t ps in
  let n := nnode + el_ndim E in
  let v := mkVector conn (el_nne E) (tp_dofs t) (el_ndim E) in
  let ndof := tp_nnu t + tp_nnp t + tp_nnd t in
  let T := tie (tp_nnu t) (tp_nnu t + tp_nnp t) (vt_Cdu (ps_vector ps)) (vt_Cdp (ps_vector ps)) in
  forall linsolve ops K s, Forall (valid_top nelem (el_nne E) (el_ndim E)) ops -> foldM (run_top linsolve) ops (ps_K ps, new_Solver) = Ok (K, s) ->
  forall its, Forall (fun it => valid_memory nelem n (el_ndim E) (it_mem it) /\ shape2 (it_fext it) n (el_ndim E) /\ shape2 (it_du it) n (el_ndim E) /\
    solves_matrix linsolve (tp_nnu t) (condensed ndof T (assembled conn (tp_dofs t) nelem (el_nne E) (el_ndim E) (element_stiffness v E (r_K (it_mem it)) (it_C it))))) its ->
  forall disp, periodic_disp coor ties nnode (el_ndim E) disp ->
  exists disp' K' s', foldM (newton_tyings linsolve (vt_v (ps_vector ps)) E) its (disp, K, s) = Ok (disp', K', s') /\
    periodic_disp coor ties nnode (el_ndim E) disp' /\
    (forall m i, m < n -> i < el_ndim E -> prescribed_node fixed nnode m -> val2 disp' m i = (val2 disp m i + sumL its (fun it => val2 (it_du it) m i))%R) /\
    (forall before it, its = before ++ [it] -> minor_symmetric nelem E (it_C it) -> linear_law nelem E (it_law it) (it_C it) ->
     forall c1 c2 ue w we, valid_call nelem c1 -> valid_call nelem c2 -> AsElement_nodevec v disp' = Ok ue ->
     virtual_disp coor ties fixed nnode (el_ndim E) w -> AsElement_nodevec v w = Ok we ->
     integral nelem E (it_law it (el_SymGradN_vector E c1 (of_rows ue))) (el_GradN_vector E c2 (of_rows we)) = work n (el_ndim E) (it_fext it) w).
Proof.
  intros coor dofs ties fixed nnode nelem conn x E HE HC Hc ps Eps t n v ndof T linsolve ops K s Hops EK its Hits disp Hd.
  destruct (ps_facts _ _ _ _ _ _ HC conn (el_nne E) ps Eps) as [Et [ECu [ECp [ECi [_ [_ [Ev EKn]]]]]]]. pose proof (c_input _ _ _ _ _ _ HC) as HI.
  assert (Hc' : connects conn nelem (el_nne E) n) by (destruct Hc as [Sc Hc]; split; [exact Sc|]; intros e m He Hm; specialize (Hc e m He Hm); unfold n; lia).
  pose proof (Hmd _ _ _ _ _ _ conn nelem x E HE HI Hc' t Et) as HM. pose proof (Hholes _ _ _ _ _ _ E HI t Et) as HH.
  pose proof (sizes _ _ _ _ _ _ _ HI t Et _ _ ECu ECp) as SZ. rewrite EKn in EK.
  destruct (run_history v nelem (el_nne E) n (el_ndim E) ndof eq_refl eq_refl HM HH _ _ _ _ _ SZ eq_refl linsolve ops K s Hops EK) as [Ha Hf].
  pose proof (proj1 (c_tied _ _ _ _ _ _ HC disp) Hd) as [Sd Td].
  destruct (newton_many _ _ _ _ _ _ conn nelem x E HE HI Hc' t Et _ _ ECu ECp linsolve its) with (a := K) (A := last_assembled conn (tp_dofs t) nelem (el_nne E) (el_ndim E) ops) (s := s) (disp := disp) (F := fun j k => val2 disp (nnode + j) k)
    as [disp' [K' [s' [F' [EN [N' [T' [P' W']]]]]]]]; try assumption.
  { apply Forall_forall. intros it Hin. rewrite Forall_forall in Hits. destruct (Hits it Hin) as [Q1 [Q2 [Q3 Q4]]]. split; [exact Q1|now apply (c_nodal _ _ _ _ _ _ HC)|now apply (c_nodal _ _ _ _ _ _ HC)|exact Q4]. }
  { now apply (c_nodal _ _ _ _ _ _ HC). }
  exists disp', K', s'. rewrite Ev. split; [exact EN|]. apply (c_nodal _ _ _ _ _ _ HC) in N'. split; [now apply (c_tied_F _ _ _ _ _ _ HC disp' F')|]. split.
  - intros m i Hm Hi Hp. apply P'; try assumption. now apply (c_prescribed _ _ _ _ _ _ HC).
  - intros before it Eits HCs HL c1 c2 ue w we H1 H2 Eu Vw Ew. pose proof (proj1 (proj1 Vw)) as Sw.
    assert (Sf : shape2 (it_fext it) n (el_ndim E)). { rewrite Forall_forall in Hits. apply Hits. rewrite Eits. apply in_or_app. right. now left. }
    destruct (c_values _ _ _ _ _ _ HC conn _ ps Eps w Sw) as [W DW]. destruct (c_values _ _ _ _ _ _ HC conn _ ps Eps (it_fext it) Sf) as [Fx DF].
    rewrite (W' before it Eits HCs HL c1 c2 ue w we W Fx H1 H2 Eu (proj1 (c_virtual _ _ _ _ _ _ HC w) Vw) Ew DW DF).
    unfold n. rewrite <- (c_work _ _ _ _ _ _ HC conn _ ps Eps (it_fext it) w Fx W DF DW). apply sumn_ext. intros. ring.
Qed.
Print Assumptions C88_newton.

Lemma eta_VT vt v : vt_v vt = v -> mkVT v (vt_Cdu vt) (vt_Cdp vt) (vt_Cdi vt) = vt.
Proof. intros <-. now destruct vt. Qed.

(** C88: the forces on the independent DOFs that the program compares to decide on convergence.  On prescribed DOFs they are equal (the
    reaction); their work on every periodic displacement is that of the nodal forces; and they are equal on all independent DOFs exactly
    if internal and external forces do the same work on every virtual displacement. *)
Theorem C88_forces : forall coor dofs ties fixed nnode nelem conn x E, elem_obj nelem x E -> cell coor dofs ties fixed nnode (el_ndim E) -> connects conn nelem (el_nne E) nnode ->
  forall ps, periodic_setup coor nnode (el_ndim E) dofs conn (el_nne E) ties fixed = Ok ps ->
  let t := ps_t ps in
  let n := nnode + el_ndim E in
  let nni := tp_nnu t + tp_nnp t in
  forall os fext fint, (forall k, Permutation (os k) (list_prod (seq 0 n) (seq 0 (el_ndim E)))) -> shape2 fext n (el_ndim E) -> shape2 fint n (el_ndim E) ->
  exists Fx Fi, periodic_forces (ps_vector ps) os fext fint = Ok (Fx, Fi) /\ length Fx = nni /\ length Fi = nni /\
    (forall d, tp_nnu t <= d < nni -> val1 Fx d = val1 Fi d) /\
    (forall w W, periodic_disp coor ties nnode (el_ndim E) w -> dof_values (tp_dofs t) n (el_ndim E) (nni + tp_nnd t) w W ->
       sumn nni (fun d => val1 Fi d * val1 W d)%R = work n (el_ndim E) fint w) /\
    (Fx = Fi <-> forall w, virtual_disp coor ties fixed nnode (el_ndim E) w -> work n (el_ndim E) fint w = work n (el_ndim E) fext w).
Proof.
  intros coor dofs ties fixed nnode nelem conn x E HE HC Hc ps Eps t n nni os fext fint Hos Sx Si.
  destruct (ps_facts _ _ _ _ _ _ HC conn (el_nne E) ps Eps) as [Et [ECu [ECp [ECi [_ [_ [Ev EKn]]]]]]]. pose proof (c_input _ _ _ _ _ _ HC) as HI.
  assert (Hc' : connects conn nelem (el_nne E) n) by (destruct Hc as [Sc Hc]; split; [exact Sc|]; intros e m He Hm; specialize (Hc e m He Hm); unfold n; lia).
  destruct (c_values _ _ _ _ _ _ HC conn _ ps Eps fext Sx) as [bx Dx]. destruct (c_values _ _ _ _ _ _ HC conn _ ps Eps fint Si) as [bi Di].
  destruct (forces_spec _ _ _ _ _ _ conn nelem x E HE HI Hc' t Et _ _ ECu ECp _ ECi os fext fint bx bi Hos Sx Si Dx Di) as [Fx [Fi [EF [L1 [L2 [HP [HT HV]]]]]]].
  exists Fx, Fi. split; [rewrite <- EF; f_equal; symmetry; exact (eta_VT _ _ Ev)|]. split; [exact L1|]. split; [exact L2|]. split; [exact HP|]. split.
  - intros w W Hw DW. pose proof (proj1 (c_tied _ _ _ _ _ _ HC w) Hw) as [Sw Tw].
    unfold nni. rewrite (HT _ w W (proj2 (c_nodal _ _ _ _ _ _ HC w) Sw) Tw DW). exact (c_work _ _ _ _ _ _ HC conn _ ps Eps fint w bi W Di DW).
  - rewrite HV. split.
    + intros HA w Vw. destruct (c_values _ _ _ _ _ _ HC conn _ ps Eps w (proj1 (proj1 Vw))) as [W DW].
      unfold n. rewrite <- (c_work _ _ _ _ _ _ HC conn _ ps Eps fint w bi W Di DW), <- (c_work _ _ _ _ _ _ HC conn _ ps Eps fext w bx W Dx DW).
      apply (HA w W); [now apply (c_virtual _ _ _ _ _ _ HC)|exact DW].
    + intros HA w W Vw DW. apply (c_virtual _ _ _ _ _ _ HC) in Vw.
      exact (eq_trans (c_work _ _ _ _ _ _ HC conn _ ps Eps fint w bi W Di DW) (eq_trans (HA w Vw) (eq_sym (c_work _ _ _ _ _ _ HC conn _ ps Eps fext w bx W Dx DW)))).
Qed.
Print Assumptions C88_forces.
