(** Property C108: the exception of the periodic programs
    (docs/examples/statics/periodic_elastoplastic.py:114-134 and docs/examples/statics/periodic_elastoplastic_finite-strain.py). *)
From Coq Require Import Reals Lra Lia.
From Verif Require Import Model_Element Spec_Element Base Spec Sums Spec_Vector Spec_Matrix Spec_Tyings Model_Numbering Model_Vector Proof_Vector Model_Sparse Model_Tyings Prop_Tyings
  Model_VectorPartitioned Model_Matrix Model_MatrixPartitioned Model_MatrixTyings Spec_MatrixTyings Proof_MatrixTyings Model_MeshGeometry Model_Pipeline Spec_Pipeline Proof_PipelineElem Proof_Pipeline Proof_PipelineBalance Proof_Tyings2
  Model_PeriodicProgram Spec_Periodic Proof_Periodic Proof_PeriodicNodes Prop_Periodic Proof_MeshGeometry Model_FiniteStrain Model_NewtonLoop Spec_NewtonLoop Proof_NewtonLoop Proof_NewtonRaise Prop_NewtonLoop.

(** C108: the exception is raised only in an increment in which 21 iterations (the second to the twenty-second) have not converged: in
    each of them the forces are those of the stress in that iteration, and the sum of the absolute differences between internal and external force on the independent DOFs is not
    below the tolerance times the reference force.  For both programs, any material, solver, mesh and memory; all increments before it have ended by convergence. *)
Theorem C108_raise : forall M G linsolve vt control_nodes lm fext tol dgammas inc st,
  increments M G linsolve vt control_nodes lm fext inc tol dgammas st = Ok None ->
  exists k sk, k < length dgammas /\ increments M G linsolve vt control_nodes lm fext inc tol (firstn k dgammas) st = Ok (Some sk) /\
  exists s : nat -> loop_state M G, forall i, 1 <= i <= 21 ->
    let E := geo_elem G (ls_geo _ _ (s i)) in
    (exists ue m0 c c', AsElement_nodevec (vt_v vt) (ls_disp _ _ (s i)) = Ok ue /\ ls_mat _ _ (s i) = mat_refresh M m0 (geo_strain G (ls_geo _ _ (s i)) c (of_rows ue)) /\
       AssembleNode (vt_v vt) (to_rows (m_nelem (vt_v vt)) (el_nne E) (el_ndim E) (el_Int_gradN_dot_tensor2_dV E c' (mat_Sig M (ls_mat _ _ (s i))))) = Ok (ls_fint _ _ (s i))) /\
    exists os Fx Fi, periodic_forces vt os fext (ls_fint _ _ (s i)) = Ok (Fx, Fi) /\ (tol * reference Fx <= sumn (length Fx) (fun d => Rabs (val1 Fx d - val1 Fi d)))%R.
Proof.
  intros M G linsolve vt cn lm fext tol dgammas inc st H. destruct (increments_none _ _ _ _ _ _ _ _ _ _ _ H) as (k & sk & Lk & Ek & s & Hs). exists k, sk. split; [exact Lk|]. split; [exact Ek|].
  exists s. intros i Hi E. destruct (Hs i Hi) as [A (Fx & Fi & B)]. split; [exact A|]. exists (lm_os lm (inc + k) i), Fx, Fi. exact B.
Qed.
Print Assumptions C108_raise.

(** and it is raised when it should be: with a tolerance of zero (no residual is below it) by every program with at least one increment, for any cell, material and solver *)
Theorem C108_raised : forall coor dofs ties fixed nnode nelem conn x E, elem_obj nelem x E -> cell coor dofs ties fixed nnode (el_ndim E) -> connects conn nelem (el_nne E) nnode ->
  forall ps, periodic_setup coor nnode (el_ndim E) dofs conn (el_nne E) ties fixed = Ok ps ->
  forall linsolve, sized linsolve (tp_nnu (ps_t ps)) ->
  forall M lm fext disp m0 fint0 tol dgammas, memory_ok nelem (nnode + el_ndim E) (el_ndim E) lm -> shape2 fext (nnode + el_ndim E) (el_ndim E) -> periodic_disp coor ties nnode (el_ndim E) disp ->
  (tol <= 0)%R -> dgammas <> [] ->
  increments M (small_strain E) linsolve (ps_vector ps) (ps_control_nodes ps) lm fext 0 tol dgammas (mkLS M (small_strain E) disp tt m0 fint0 (ps_K ps) new_Solver) = Ok None.
Proof.
  intros coor dofs ties fixed nnode nelem conn x E HE HC Hc ps Eps linsolve Hs M lm fext disp m0 fint0 tol dgammas Hlm Sx Hd Ht Hn.
  destruct (C108_small coor dofs ties fixed nnode nelem conn x E HE HC Hc ps Eps linsolve [] (ps_K ps) new_Solver (Forall_nil _) eq_refl Hs M lm fext disp m0 fint0 tol dgammas Hlm Sx Hd) as (r & Er & Hr).
  rewrite firstn_all in Er. rewrite Er. destruct r as [st'|]; [exfalso|reflexivity]. destruct (Hr st' eq_refl) as [_ Hk].
  assert (L : 0 < length dgammas) by (destruct dgammas; [congruence|cbn; lia]).
  destruct (Hk 0 L) as (stk & sk & _ & _ & _ & _ & (_ & c & ue & Vc & _ & _) & os & Fx & Fi & _ & _ & EQ).
  set (zero := repeat (repeat 0%R (el_ndim E)) (nnode + el_ndim E)).
  assert (Z : forall m i, val2 zero m i = 0%R) by (intros; apply val2_zero).
  assert (VZ : virtual_disp coor ties fixed nnode (el_ndim E) zero).
  { split; [split; [apply zero_shape|]|intros; apply Z]. intros a b k Hab Hk'. rewrite !Z, sumn_zero; [ring|]. intros l Hl. rewrite Z. ring. }
  destruct (ps_facts _ _ _ _ _ _ HC conn (el_nne E) ps Eps) as [Et [_ [_ [_ [_ [_ [Ev _]]]]]]].
  assert (Hdim : 1 < el_ndim E) by (destruct HE; cbn; lia).
  pose proof (mesh_n coor dofs ties fixed nnode _ nelem _ conn HC Hc Hdim ps Eps) as HM.
  destruct (AsElement_nodevec_spec (vt_v (ps_vector ps)) nelem (el_nne E) (nnode + el_ndim E) (el_ndim E) _ ltac:(now rewrite Ev) ltac:(now rewrite Ev) ltac:(rewrite Ev; exact HM) zero (zero_shape _ _)) as (we & Ew & _).
  assert (B : forall m i, m < nnode + el_ndim E -> i < el_ndim E -> (Rabs (val2 zero m i) <= 1)%R) by (intros; rewrite Z, Rabs_R0; lra).
  pose proof (EQ zero we c 1%R ltac:(lra) VZ B Ew Vc) as Q. pose proof (Rabs_pos (integral nelem E (mat_Sig M (ls_mat M (small_strain E) stk)) (el_GradN_vector E c (of_rows we)) - work (nnode + el_ndim E) (el_ndim E) fext zero)) as P.
  assert (R0 : (0 < reference Fx)%R). { unfold reference. pose proof (magnitude_pos Fx). destruct (Req_EM_T (magnitude Fx) 0); lra. }
  assert (T0 : (tol * reference Fx <= 0)%R) by nra. lra.
Qed.
Print Assumptions C108_raised.
