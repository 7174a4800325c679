(** Proofs for Prop_NewtonLoop.v: a linear material. *)
From Coq Require Import Reals Lra Lia.
From Verif Require Import Model_Element Spec_Element Base Spec Sums Spec_Vector Spec_Matrix Spec_Tyings Model_Numbering Model_Vector Proof_Vector Model_Sparse Model_Tyings Prop_Tyings
  Model_VectorPartitioned Model_Matrix Proof_Matrix Model_MatrixPartitioned Model_MatrixTyings Spec_MatrixTyings Proof_MatrixTyings Proof_Tyings2 Model_MeshGeometry Model_Pipeline Spec_Pipeline Proof_PipelineElem Proof_Pipeline Proof_PipelineBalance
  Model_PeriodicProgram Spec_Periodic Proof_Periodic Proof_PeriodicNodes Prop_Periodic Model_FiniteStrain Model_NewtonLoop Spec_NewtonLoop Proof_NewtonLoop.

Lemma elem_dim nelem x E : elem_obj nelem x E -> 1 < el_ndim E.
Proof. intros []; cbn; lia. Qed.

Section Lin.
Set Default Proof Using "All".
Variables (coor : list (list R)) (dofs : list (list nat)) (ties : list (nat * nat)) (fixed : list nat) (nnode nelem : nat) (conn : list (list nat)) (x : arr) (E : Elem).
Hypothesis HE : elem_obj nelem x E.
Notation ndim := (el_ndim E). Notation nne := (el_nne E).
Hypothesis HC : cell coor dofs ties fixed nnode ndim.
Hypothesis Hc : connects conn nelem nne nnode.
Variable ps : PeriodicSystem.
Hypothesis Eps : periodic_setup coor nnode ndim dofs conn nne ties fixed = Ok ps.
Variables (M : Material) (linsolve : mat -> list R -> list R) (lm : loop_memory) (fext : list (list R)).
Notation G := (small_strain E).
Notation t := (ps_t ps). Notation n := (nnode + ndim). Notation v := (mkVector conn nne (tp_dofs t) ndim).
Notation nnu := (tp_nnu t). Notation nnp := (tp_nnp t). Notation nnd := (tp_nnd t). Notation ndof := (nnu + nnp + nnd).
Notation Cu := (vt_Cdu (ps_vector ps)). Notation Cp := (vt_Cdp (ps_vector ps)).
Notation vt := (ps_vector ps).
Notation cn := (ps_control_nodes ps).
Hypothesis Hs : sized linsolve nnu.
Hypothesis Hlm : memory_ok nelem n ndim lm.
Hypothesis Sx : shape2 fext n ndim.
Variable C : arr.
Hypothesis Hmin : minor_symmetric nelem E C.
Hypothesis Hlaw : forall m A, all_points nelem E (fun e q i j => mat_Sig M (mat_refresh M m A) [e;q;i;j] = ddot42 (el_tdim E) C A [e;q;i;j]).
Hypothesis HCm : forall m A, mat_C M (mat_refresh M m A) = C.
Hypothesis Hsol : forall inc iiter, solves_matrix linsolve nnu (condensed ndof (tie nnu (nnu + nnp) Cu Cp) (assembled conn (tp_dofs t) nelem nne ndim (element_stiffness v E (r_K (lm_mem lm inc iiter)) C))).

Definition Any (_ : Geo G) (_ : list (list R)) : Prop := True.
Notation goodL := (good coor ties nnode ndim nne conn ps M G Any).

Lemma dim : 1 < ndim.
Proof using HE. exact (elem_dim _ _ _ HE). Qed.
Lemma anyE : forall g d, Any g d -> exists y, elem_obj nelem y (geo_elem G g) /\ el_nne (geo_elem G g) = nne /\ el_ndim (geo_elem G g) = ndim.
Proof using HE. intros g d _. exists x. auto. Qed.
Lemma anyM : forall es junk g d d', schedule nelem es -> Any g d -> shape2 d' n ndim -> exists g', geo_move G es junk d' g = Ok g' /\ Any g' d'.
Proof using. intros es junk g d d' _ _ _. exists g. split; [reflexivity|exact I]. Qed.

Lemma one_newton mem es junk iiter dgamma st st1 st2 : evaluate M G vt mem st = Ok st1 -> advance M G linsolve vt cn fext mem es junk iiter dgamma st1 = Ok st2 ->
  length (ls_disp _ _ st) = n ->
  exists du, (if iiter =? 0 then do c <- get cn 0; do row <- get (repeat (repeat 0%R ndim) n) c; do row <- set row 1 dgamma; set (repeat (repeat 0%R ndim) n) c row else Ok (repeat (repeat 0%R ndim) n)) = Ok du /\
  newton_tyings linsolve v E (ls_disp _ _ st, ls_K _ _ st, ls_solver _ _ st) (mkIteration mem (fun A => mat_Sig M (mat_refresh M (ls_mat _ _ st) A)) C fext du) = Ok (ls_disp _ _ st2, ls_K _ _ st2, ls_solver _ _ st2).
Proof using HC Eps HCm.
  destruct (ps_facts _ _ _ _ _ _ HC conn nne ps Eps) as [_ [_ [_ [_ [_ [_ [Ev _]]]]]]].
  unfold evaluate, newton_tyings, internal_force, internal_force_of, advance. rewrite Ev. cbn [fst snd it_mem it_law it_C it_fext it_du m_ndim small_strain geo_elem geo_strain geo_move]. intros E1 E2 L.
  destruct (AsElement_nodevec _ _) as [ue| | |] in E1 |- *; cbn [bind] in E1 |- *; try discriminate.
  destruct (AssembleNode _ _) as [fint| | |] in E1 |- *; cbn [bind] in E1 |- *; try discriminate.
  rewrite HCm in E1. destruct (PT_assemble _ _) as [K| | |] in E1 |- *; cbn [bind] in E1 |- *; try discriminate.
  injection E1 as E1. rewrite <- E1 in E2. cbn [ls_disp ls_geo ls_mat ls_fint ls_K ls_solver] in E2. rewrite L in E2.
  destruct (if iiter =? 0 then _ else _) as [du| | |] in E2 |- *; cbn [bind] in E2; try discriminate. exists du. split; [reflexivity|].
  destruct (PT_solve_nodevec _ _ _ _ _ _) as [sol| | |] in E2 |- *; cbn [bind] in E2 |- *; try discriminate. injection E2 as E2. rewrite <- E2. reflexivity.
Qed.

(** exact equilibrium *)
Definition exact (st : loop_state M G) : Prop := forall w we c, virtual_disp coor ties fixed nnode ndim w -> AsElement_nodevec v w = Ok we -> valid_call nelem c ->
  integral nelem E (mat_Sig M (ls_mat _ _ st)) (el_GradN_vector E c (of_rows we)) = work n ndim fext w.

Lemma linear_increment tol dgamma inc st k : (0 < tol)%R -> goodL st ->
  exists st', iterations M G linsolve vt cn lm fext (S (S k)) inc 0 tol dgamma st = Ok (Some st') /\ goodL st' /\ exact st'.
Proof.
  intros Ht Hg. pose proof dim as Hdim.
  destruct (ps_facts _ _ _ _ _ _ HC conn nne ps Eps) as [Et [ECu [ECp [ECi [EX [_ [Ev EKn]]]]]]]. pose proof (c_input _ _ _ _ _ _ HC) as HI.
  assert (Hc' : connects conn nelem nne n) by (destruct Hc as [Sc Hcc]; split; [exact Sc|]; intros e m He Hm; specialize (Hcc e m He Hm); lia).
  destruct (Hlm inc 0) as [Hmem [_ Hes]]. destruct (Hlm inc 1) as [Hmem1 [Hos1 _]].
  destruct (evaluate_ok coor dofs ties fixed nnode ndim nelem nne conn HC Hc Hdim ps Eps M G linsolve lm fext Hs Hlm Sx Any anyE anyM _ st Hmem Hg) as [m [fint [K [EV1 [_ [Sf [A [HK Ch]]]]]]]].
  set (st1 := mkLS _ _ _ _ _ _ _ _) in EV1. assert (Hg1 : goodL st1) by (destruct Hg as [Q1 [Q2 _]]; split; [exact Q1|]; split; [exact Q2|exists A; split; [exact HK|right; left; exact Ch]]).
  destruct (advance_ok coor dofs ties fixed nnode ndim nelem nne conn HC Hc Hdim ps Eps M G linsolve lm fext Hs Hlm Sx Any anyE anyM _ _ (lm_junk lm inc 0) 0 dgamma st1 A Hmem Hes Hg1 Sf HK Ch) as [st2 [EA [Hg2 [_ _]]]].
  destruct (evaluate_ok coor dofs ties fixed nnode ndim nelem nne conn HC Hc Hdim ps Eps M G linsolve lm fext Hs Hlm Sx Any anyE anyM _ st2 Hmem1 Hg2) as [m2 [fint2 [K2 [EV2 [[c1 [c2 [ue [Vc1 [Vc2 [Eu [Em2 Ef2]]]]]]] [Sf2 [A2 [HK2 Ch2]]]]]]]].
  set (st3 := mkLS _ _ _ _ _ _ _ _) in EV2.
  destruct (one_newton _ _ _ 0 dgamma st st1 st2 EV1 EA (proj1 (proj1 (proj1 Hg)))) as [du [Edu EN]].
  destruct (du_ok coor dofs ties fixed nnode ndim nelem nne conn HC Hc Hdim ps Eps M G linsolve lm fext Hs Hlm Sx Any anyE anyM 0 dgamma) as [du' [Edu' [Sdu _]]]. cbn [Nat.eqb] in Edu, Edu'. rewrite Edu in Edu'. injection Edu' as Edu'. rewrite <- Edu' in Sdu.
  set (it := mkIteration _ _ _ _ _) in EN.
  destruct Hg as [Hd0 [_ [A0 [HA0 HF0]]]].
  destruct (newton_one _ _ _ _ _ _ conn nelem x E HE HI Hc' t Et _ _ ECu ECp linsolve (ls_K _ _ st) A0 (ls_solver _ _ st) (ls_disp _ _ st) (fun j k => val2 (ls_disp _ _ st) (nnode + j) k) it HA0 HF0) as [d1 [a1 [s1 [F1 [E1 [_ [_ [_ [_ [_ W1]]]]]]]]]].
  { split; [exact Hmem|now apply (c_nodal _ _ _ _ _ _ HC)|now apply (c_nodal _ _ _ _ _ _ HC)|exact (Hsol inc 0)]. }
  { apply (c_nodal _ _ _ _ _ _ HC). exact (proj1 Hd0). } { exact (proj2 (proj1 (c_tied _ _ _ _ _ _ HC _) Hd0)). }
  rewrite EN in E1. injection E1 as E1 _ _. rewrite <- E1 in W1.
  assert (HX : exact st3).
  { intros w we c Vw Ew Vc. destruct (c_values _ _ _ _ _ _ HC conn _ ps Eps w (proj1 (proj1 Vw))) as [W DW]. destruct (c_values _ _ _ _ _ _ HC conn _ ps Eps fext Sx) as [Fx DF].
    pose proof (W1 Hmin (fun A => Hlaw (ls_mat _ _ st) A) c1 c ue w we W Fx Vc1 Vc Eu (proj1 (c_virtual _ _ _ _ _ _ HC w) Vw) Ew DW DF) as W2.
    transitivity (integral nelem E (it_law it (el_SymGradN_vector E c1 (of_rows ue))) (el_GradN_vector E c (of_rows we))).
    - unfold integral. apply sumn_ext. intros e He. apply sumn_ext. intros q Hq. f_equal. apply sumn_ext. intros i Hi. apply sumn_ext. intros j Hj. f_equal.
      cbn [st3 ls_mat it it_law]. rewrite Em2. rewrite (Hlaw _ _ e q i j He Hq Hi Hj), (Hlaw _ _ e q i j He Hq Hi Hj). reflexivity.
    - rewrite W2. rewrite <- (c_work _ _ _ _ _ _ HC conn _ ps Eps fext w Fx W DF DW). apply sumn_ext. intros. ring. }
  exists st3. split; [|split; [|exact HX]].
  2:{ destruct Hg2 as [Q1 [Q2 _]]. split; [exact Q1|]. split; [exact Q2|]. exists A2. split; [exact HK2|right; left; exact Ch2]. }
  cbn [iterations]. rewrite EV1. cbn [bind check Nat.ltb Nat.leb]. rewrite EA. cbn [bind]. rewrite EV2. cbn [bind].
  unfold check. cbn [Nat.ltb Nat.leb]. cbn [st3 ls_fint].
  destruct (C88_forces coor dofs ties fixed nnode nelem conn x E HE HC Hc ps Eps (lm_os lm inc 1) fext fint2 Hos1 Sx Sf2) as [Fx [Fi [EF [LX [LI [_ [_ HEq]]]]]]].
  rewrite EF. cbn [bind fst snd].
  assert (Q : Fx = Fi).
  { apply HEq. intros w Vw. destruct (AsElement_nodevec_spec v nelem nne n ndim ndof eq_refl eq_refl (mesh_n coor dofs ties fixed nnode ndim nelem nne conn HC Hc Hdim ps Eps) w (proj1 (proj1 Vw))) as [we [Ew _]].
    rewrite (force_work coor dofs ties fixed nnode nelem conn x E HE HC Hc ps Eps c2 c2 _ _ w we Vc2 Vc2 Ef2 (proj1 (proj1 Vw)) Ew). exact (HX w we c2 Vw Ew Vc2). }
  assert (Z : residual Fx Fi = 0%R).
  { unfold residual. rewrite (diff_abs Fx Fi) by lia. rewrite (sumn_zero (length Fx)) by (intros d _; rewrite Q, Rminus_diag_eq by reflexivity; apply Rabs_R0). destruct (Req_EM_T _ _); [reflexivity|]. unfold Rdiv. ring. }
  rewrite Z. destruct (Rlt_dec 0 tol); [reflexivity|lra].
Qed.

Lemma linear_run tol : (0 < tol)%R -> forall dgammas inc st, goodL st -> exists st', increments M G linsolve vt cn lm fext inc tol dgammas st = Ok (Some st') /\ (dgammas = [] \/ exact st').
Proof.
  intros Ht. induction dgammas as [|dg dgammas IH]; intros inc st Hg; [eexists; split; [reflexivity|now left]|]. cbn [increments].
  set (st0 := mkLS _ _ _ _ _ _ _ _). assert (Hg0 : goodL st0) by exact Hg.
  destruct (linear_increment tol dg inc st0 98 Ht Hg0) as [st1 [E1 [Hg1 X1]]]. rewrite E1. cbn [bind]. destruct (IH (S inc) st1 Hg1) as [st' [E2 X2]]. exists st'. split; [exact E2|]. right.
  destruct X2 as [X2|X2]; [|exact X2]. rewrite X2 in E2. cbn [increments] in E2. injection E2 as <-. exact X1.
Qed.
End Lin.
