(** Property C108: the loops of the periodic programs: increments, iterations, the check for convergence and the exception
    (docs/examples/statics/periodic_elastoplastic.py and docs/examples/statics/periodic_elastoplastic_finite-strain.py). *)
From Coq Require Import Reals Lra Lia.
From Verif Require Import Model_Element Spec_Element Base Spec Sums Spec_Vector Spec_Matrix Spec_Tyings Model_Numbering Model_Vector Proof_Vector Model_Sparse Model_Tyings Prop_Tyings
  Model_VectorPartitioned Model_Matrix Proof_Matrix Model_MatrixPartitioned Model_MatrixTyings Spec_MatrixTyings Proof_MatrixTyings Proof_Tyings2 Model_MeshGeometry Model_Pipeline Spec_Pipeline Proof_PipelineElem Proof_Pipeline Proof_PipelineBalance
  Model_PeriodicProgram Spec_Periodic Proof_Periodic Proof_PeriodicNodes Prop_Periodic Spec_Deform Proof_Deform Model_FiniteStrain Spec_FiniteStrain Proof_FiniteStrain Model_NewtonLoop Spec_NewtonLoop Proof_NewtonLoop Proof_NewtonLinear.

(** C108: small strains.  For every cell, element class, material, external force and list of increments, every history of the matrix and solver, and any linear solver that returns
    vectors of the right size (whether they are solutions or not), the program makes no invalid access: it ends, or it raises the exception.  If it ends, then after each
    increment: the displacement is periodic; direction 1 of the first control node is displaced by what the increment asks, and all else that is prescribed is kept; the history of the material has
    been updated once, and its stress is that of the strain of the displacement; and this stress is in equilibrium with the external force, up to the tolerance relative to the forces
    (never is the end of the range of iterations taken for convergence). *)
Theorem C108_small : forall coor dofs ties fixed nnode nelem conn x E, elem_obj nelem x E -> cell coor dofs ties fixed nnode (el_ndim E) -> connects conn nelem (el_nne E) nnode ->
  forall ps, periodic_setup coor nnode (el_ndim E) dofs conn (el_nne E) ties fixed = Ok ps ->
  let n := nnode + el_ndim E in
  let v := vt_v (ps_vector ps) in
  forall linsolve ops K s, Forall (valid_top nelem (el_nne E) (el_ndim E)) ops -> foldM (run_top linsolve) ops (ps_K ps, new_Solver) = Ok (K, s) -> sized linsolve (tp_nnu (ps_t ps)) ->
  forall M lm fext disp m0 fint0 tol dgammas, memory_ok nelem n (el_ndim E) lm -> shape2 fext n (el_ndim E) -> periodic_disp coor ties nnode (el_ndim E) disp ->
  let G := small_strain E in
  let run k := increments M G linsolve (ps_vector ps) (ps_control_nodes ps) lm fext 0 tol (firstn k dgammas) (mkLS M G disp tt m0 fint0 K s) in
  exists r, run (length dgammas) = Ok r /\
    forall st', r = Some st' ->
      (forall m i, m < n -> i < el_ndim E -> prescribed_node fixed nnode m -> val2 (ls_disp _ _ st') m i = (val2 disp m i + control_update nnode m i (sumL dgammas (fun d => d)))%R) /\
      forall k, k < length dgammas -> exists stk sk, run k = Ok (Some sk) /\ run (S k) = Ok (Some stk) /\
        periodic_disp coor ties nnode (el_ndim E) (ls_disp _ _ stk) /\
        (forall m i, m < n -> i < el_ndim E -> prescribed_node fixed nnode m -> val2 (ls_disp _ _ stk) m i = (val2 (ls_disp _ _ sk) m i + control_update nnode m i (nth k dgammas 0))%R) /\
        (exists l c ue, valid_call nelem c /\ AsElement_nodevec v (ls_disp _ _ stk) = Ok ue /\
           ls_mat _ _ stk = mat_refresh M (fold_left (mat_refresh M) l (mat_increment M (ls_mat _ _ sk))) (el_SymGradN_vector E c (of_rows ue))) /\
        exists os Fx Fi, periodic_forces (ps_vector ps) os fext (ls_fint _ _ stk) = Ok (Fx, Fi) /\ (forall j, Permutation (os j) (list_prod (seq 0 n) (seq 0 (el_ndim E)))) /\
          equilibrium coor ties fixed nnode nelem v E (tol * reference Fx) (mat_Sig M (ls_mat _ _ stk)) fext.
Proof.
  intros coor dofs ties fixed nnode nelem conn x E HE HC Hc ps Eps n v linsolve ops K s Hops EK Hs M lm fext disp m0 fint0 tol dgammas Hlm Sx Hd G run.
  destruct (ps_facts _ _ _ _ _ _ HC conn (el_nne E) ps Eps) as [Et [ECu [ECp [ECi [_ [_ [Ev EKn]]]]]]]. pose proof (c_input _ _ _ _ _ _ HC) as HI.
  assert (Hdim : 1 < el_ndim E) by (destruct HE; cbn; lia).
  pose proof (mesh_n coor dofs ties fixed nnode _ nelem _ conn HC Hc Hdim ps Eps) as HM. pose proof (no_holes_n coor dofs ties fixed nnode _ _ conn HC ps Eps) as HH.
  pose proof (sizes_n coor dofs ties fixed nnode _ _ conn HC ps Eps) as SZ. rewrite EKn in EK.
  destruct (run_history (mkVector conn (el_nne E) (tp_dofs (ps_t ps)) (el_ndim E)) nelem (el_nne E) n (el_ndim E) _ eq_refl eq_refl HM HH _ _ _ _ _ SZ eq_refl linsolve ops K s Hops EK) as [Ha Hf].
  set (Inv := fun (_ : Geo G) (_ : list (list R)) => True).
  destruct (increments_ok coor dofs ties fixed nnode (el_ndim E) nelem (el_nne E) conn HC Hc Hdim ps Eps M G linsolve lm fext Hs Hlm Sx Inv) with (tol := tol) (dgammas := dgammas) (inc := 0) (st := mkLS M G disp tt m0 fint0 K s) as [r [Er Hr]].
  { intros g d _. exists x. auto. }
  { intros es junk g d d' _ _ _. exists g. split; [reflexivity|exact I]. }
  { split; [exact Hd|]. split; [exact I|]. eexists. split; [exact Ha|exact Hf]. }
  exists r. split; [unfold run; rewrite firstn_all; exact Er|]. intros st' Es. destruct (Hr st' Es) as [Hv Hk]. split; [exact Hv|]. intros k Lk.
  destruct (Hk k Lk) as [stk [sk [E1 [E2 [[Hgd _] [[l [c [c' [ue [Vc [Vc' [Eu [Em Ef]]]]]]]] [Hv2 [iiter [Fx [Fi [_ [EF HB]]]]]]]]]]]].
  exists stk, sk. split; [exact E1|]. split; [exact E2|]. split; [exact Hgd|]. split; [exact Hv2|]. split.
  - exists l, c, ue. split; [exact Vc|]. split; [unfold v; rewrite Ev; exact Eu|exact Em].
  - exists (lm_os lm (0 + k) iiter), Fx, Fi. split; [exact EF|]. split; [exact (proj1 (proj2 (Hlm _ _)))|].
    intros w we cc delta Hdel Vw Bw Ew Vcc. unfold v in Ew. rewrite Ev in Ew. rewrite <- (force_work coor dofs ties fixed nnode nelem conn x E HE HC Hc ps Eps c' cc _ _ w we Vc' Vcc Ef (proj1 (proj1 Vw)) Ew). now apply HB.
Qed.
Print Assumptions C108_small.

(** C108: large deformations.  The same holds for the program with two element objects: the strain that the material gets is taken in the reference geometry, the equilibrium is that of the
    deformed geometry: the element object has the coordinates of the nodes plus the displacement. *)
Theorem C108_finite : forall coor dofs ties fixed nnode nelem conn, cell coor dofs ties fixed nnode 2 -> connects conn nelem 4 nnode ->
  forall ps, periodic_setup coor nnode 2 dofs conn 4 ties fixed = Ok ps ->
  let n := nnode + 2 in
  let v := vt_v (ps_vector ps) in
  forall nip xi w thick E0 x P, Planar_obj nelem nip xi w thick x P ->
  forall linsolve ops K s, Forall (valid_top nelem 4 2) ops -> foldM (run_top linsolve) ops (ps_K ps, new_Solver) = Ok (K, s) -> sized linsolve (tp_nnu (ps_t ps)) ->
  forall M lm fext disp m0 fint0 tol dgammas, memory_ok nelem n 2 lm -> shape2 fext n 2 -> periodic_disp coor ties nnode 2 disp -> current conn nelem 4 2 coor disp x ->
  let G := finite_strain v (ps_coor ps) E0 in
  let run k := increments M G linsolve (ps_vector ps) (ps_control_nodes ps) lm fext 0 tol (firstn k dgammas) (mkLS M G disp P m0 fint0 K s) in
  exists r, run (length dgammas) = Ok r /\
    forall st', r = Some st' ->
      (forall m i, m < n -> i < 2 -> prescribed_node fixed nnode m -> val2 (ls_disp _ _ st') m i = (val2 disp m i + control_update nnode m i (sumL dgammas (fun d => d)))%R) /\
      forall k, k < length dgammas -> exists stk sk, run k = Ok (Some sk) /\ run (S k) = Ok (Some stk) /\
        periodic_disp coor ties nnode 2 (ls_disp _ _ stk) /\
        (forall m i, m < n -> i < 2 -> prescribed_node fixed nnode m -> val2 (ls_disp _ _ stk) m i = (val2 (ls_disp _ _ sk) m i + control_update nnode m i (nth k dgammas 0))%R) /\
        (exists l c ue, valid_call nelem c /\ AsElement_nodevec v (ls_disp _ _ stk) = Ok ue /\
           ls_mat _ _ stk = mat_refresh M (fold_left (mat_refresh M) l (mat_increment M (ls_mat _ _ sk))) (material_F E0 c (of_rows ue))) /\
        (exists x', current conn nelem 4 2 coor (ls_disp _ _ stk) x' /\ Planar_obj nelem nip xi w thick x' (ls_geo _ _ stk)) /\
        exists os Fx Fi, periodic_forces (ps_vector ps) os fext (ls_fint _ _ stk) = Ok (Fx, Fi) /\ (forall j, Permutation (os j) (list_prod (seq 0 n) (seq 0 2))) /\
          equilibrium coor ties fixed nnode nelem v (Planar_elem (ls_geo _ _ stk)) (tol * reference Fx) (mat_Sig M (ls_mat _ _ stk)) fext.
Proof.
  intros coor dofs ties fixed nnode nelem conn HC Hc ps Eps n v nip xi w thick E0 x P HP linsolve ops K s Hops EK Hs M lm fext disp m0 fint0 tol dgammas Hlm Sx Hd Hx G run.
  destruct (ps_facts _ _ _ _ _ _ HC conn 4 ps Eps) as [Et [ECu [ECp [ECi [_ [_ [Ev EKn]]]]]]]. pose proof (c_input _ _ _ _ _ _ HC) as HI.
  assert (Hdim : 1 < 2) by lia.
  pose proof (mesh_n coor dofs ties fixed nnode 2 nelem 4 conn HC Hc Hdim ps Eps) as HM. pose proof (no_holes_n coor dofs ties fixed nnode 2 4 conn HC ps Eps) as HH.
  pose proof (sizes_n coor dofs ties fixed nnode 2 4 conn HC ps Eps) as SZ. rewrite EKn in EK.
  destruct (run_history (mkVector conn 4 (tp_dofs (ps_t ps)) 2) nelem 4 n 2 _ eq_refl eq_refl HM HH _ _ _ _ _ SZ eq_refl linsolve ops K s Hops EK) as [Ha Hf].
  set (Inv := fun (g : Geo G) (d : list (list R)) => exists x, current conn nelem 4 2 coor d x /\ Planar_obj nelem nip xi w thick x g).
  assert (HinvE : forall g d, Inv g d -> exists x, elem_obj nelem x (geo_elem G g) /\ el_nne (geo_elem G g) = 4 /\ el_ndim (geo_elem G g) = 2).
  { intros g d [y [_ Hy]]. exists y. split; [econstructor; exact Hy|]. split; reflexivity. }
  destruct (increments_ok coor dofs ties fixed nnode 2 nelem 4 conn HC Hc Hdim ps Eps M G linsolve lm fext Hs Hlm Sx Inv HinvE) with (tol := tol) (dgammas := dgammas) (inc := 0) (st := mkLS M G disp P m0 fint0 K s) as [r [Er Hr]].
  { intros es junk g d d' Hes [y [_ Hy]] Sd. pose proof (coor_shape coor dofs ties fixed nnode nelem conn HC Hc ps Eps nip xi w thick P x HP linsolve) as SC.
    assert (Sd1 : shape2 (add2 (ps_coor ps) d') n 2) by (apply zip2_shape; [exact SC|exact Sd]).
    destruct (AsElement_nodevec_spec (mkVector conn 4 (tp_dofs (ps_t ps)) 2) nelem 4 n 2 _ eq_refl eq_refl HM _ Sd1) as [xe [Ex _]]. cbn [geo_move G finite_strain]. unfold v. rewrite Ev, Ex. cbn [bind]. eexists. split; [reflexivity|].
    exists (of_rows xe). split; [exact (moved coor dofs ties fixed nnode nelem conn HC Hc ps Eps nip xi w thick P x HP linsolve d' xe Sd Ex)|]. eapply Planar_obj_update; [exact Hes|exact Hy]. }
  { split; [exact Hd|]. split; [exists x; split; assumption|]. eexists. split; [exact Ha|exact Hf]. }
  exists r. split; [unfold run; rewrite firstn_all; exact Er|]. intros st' Es. destruct (Hr st' Es) as [Hv Hk]. split; [exact Hv|]. intros k Lk.
  destruct (Hk k Lk) as [stk [sk [E1 [E2 [[Hgd [[xk [Hxk HPk]] _]] [[l [c [c' [ue [Vc [Vc' [Eu [Em Ef]]]]]]]] [Hv2 [iiter [Fx [Fi [_ [EF HB]]]]]]]]]]]].
  exists stk, sk. split; [exact E1|]. split; [exact E2|]. split; [exact Hgd|]. split; [exact Hv2|]. split; [|split].
  - exists l, c, ue. split; [exact Vc|]. split; [unfold v; rewrite Ev; exact Eu|exact Em].
  - exists xk. split; assumption.
  - exists (lm_os lm (0 + k) iiter), Fx, Fi. split; [exact EF|]. split; [exact (proj1 (proj2 (Hlm _ _)))|].
    intros ww we cc delta Hdel Vw Bw Ew Vcc. unfold v in Ew. rewrite Ev in Ew.
    assert (HEk : elem_obj nelem xk (Planar_elem (ls_geo _ _ stk))) by (econstructor; exact HPk).
    rewrite <- (force_work coor dofs ties fixed nnode nelem conn xk (Planar_elem (ls_geo _ _ stk)) HEk HC Hc ps Eps c' cc _ _ ww we Vc' Vcc Ef (proj1 (proj1 Vw)) Ew). now apply HB.
Qed.
Print Assumptions C108_finite.

(** C108: no exception is raised if the material is linear, with the stiffness that it reports, and the linear solver solves the condensed systems: each increment converges, at any
    tolerance, and the stress at its end is in equilibrium with the external force, without error. *)
Theorem C108_linear : forall coor dofs ties fixed nnode nelem conn x E, elem_obj nelem x E -> cell coor dofs ties fixed nnode (el_ndim E) -> connects conn nelem (el_nne E) nnode ->
  forall ps, periodic_setup coor nnode (el_ndim E) dofs conn (el_nne E) ties fixed = Ok ps ->
  let t := ps_t ps in
  let n := nnode + el_ndim E in
  let v := vt_v (ps_vector ps) in
  let ndof := tp_nnu t + tp_nnp t + tp_nnd t in
  let T := tie (tp_nnu t) (tp_nnu t + tp_nnp t) (vt_Cdu (ps_vector ps)) (vt_Cdp (ps_vector ps)) in
  forall linsolve ops K s, Forall (valid_top nelem (el_nne E) (el_ndim E)) ops -> foldM (run_top linsolve) ops (ps_K ps, new_Solver) = Ok (K, s) -> sized linsolve (tp_nnu t) ->
  forall M C lm fext disp m0 fint0 tol dgammas, memory_ok nelem n (el_ndim E) lm -> shape2 fext n (el_ndim E) -> periodic_disp coor ties nnode (el_ndim E) disp -> (0 < tol)%R ->
  minor_symmetric nelem E C -> (forall m A, all_points nelem E (fun e q i j => mat_Sig M (mat_refresh M m A) [e;q;i;j] = ddot42 (el_tdim E) C A [e;q;i;j])) ->
  (forall m A, mat_C M (mat_refresh M m A) = C) ->
  (forall inc iiter, solves_matrix linsolve (tp_nnu t) (condensed ndof T (assembled conn (tp_dofs t) nelem (el_nne E) (el_ndim E) (element_stiffness v E (r_K (lm_mem lm inc iiter)) C)))) ->
  let G := small_strain E in
  exists st', increments M G linsolve (ps_vector ps) (ps_control_nodes ps) lm fext 0 tol dgammas (mkLS M G disp tt m0 fint0 K s) = Ok (Some st') /\
    (dgammas = [] \/ forall w we c, virtual_disp coor ties fixed nnode (el_ndim E) w -> AsElement_nodevec v w = Ok we -> valid_call nelem c ->
       integral nelem E (mat_Sig M (ls_mat _ _ st')) (el_GradN_vector E c (of_rows we)) = work n (el_ndim E) fext w).
Proof.
  intros coor dofs ties fixed nnode nelem conn x E HE HC Hc ps Eps t n v ndof T linsolve ops K s Hops EK Hs M C lm fext disp m0 fint0 tol dgammas Hlm Sx Hd Ht Hmin Hlaw HCm Hsol G.
  destruct (ps_facts _ _ _ _ _ _ HC conn (el_nne E) ps Eps) as [Et [ECu [ECp [ECi [_ [_ [Ev EKn]]]]]]]. pose proof (elem_dim _ _ _ HE) as Hdim.
  pose proof (mesh_n coor dofs ties fixed nnode _ nelem _ conn HC Hc Hdim ps Eps) as HM. pose proof (no_holes_n coor dofs ties fixed nnode _ _ conn HC ps Eps) as HH.
  pose proof (sizes_n coor dofs ties fixed nnode _ _ conn HC ps Eps) as SZ. rewrite EKn in EK.
  destruct (run_history (mkVector conn (el_nne E) (tp_dofs (ps_t ps)) (el_ndim E)) nelem (el_nne E) n (el_ndim E) _ eq_refl eq_refl HM HH _ _ _ _ _ SZ eq_refl linsolve ops K s Hops EK) as [Ha Hf].
  unfold v in Hsol |- *. rewrite Ev in Hsol |- *.
  apply (linear_run coor dofs ties fixed nnode nelem conn x E HE HC Hc ps Eps M linsolve lm fext Hs Hlm Sx C Hmin Hlaw HCm Hsol tol Ht dgammas 0).
  split; [exact Hd|]. split; [exact I|]. eexists. split; [exact Ha|exact Hf].
Qed.
Print Assumptions C108_linear.
