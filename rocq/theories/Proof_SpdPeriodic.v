From Coq Require Import Reals Lra Lia.
From Verif Require Import Model_Element Spec_Element Base Spec Sums Spec_Vector Spec_Matrix Spec_Tyings Model_Numbering Model_Vector Proof_Vector Model_Sparse Model_Tyings Prop_Tyings
  Model_Matrix Proof_Matrix Model_MatrixPartitioned Model_MatrixTyings Spec_MatrixTyings Proof_MatrixTyings Proof_Tyings2 Model_MeshGeometry Model_Pipeline Spec_Pipeline Spec_Patch Proof_PipelineElem Proof_Pipeline Proof_PipelineBalance
  Model_PeriodicProgram Spec_Periodic Proof_Periodic Proof_PeriodicNodes Prop_Periodic Spec_Spd Model_Ldlt Proof_Ldlt Proof_Spd.

(** the gradient depends on the values at the nodes of the elements only *)
Lemma grad_ext nelem x E c u w : elem_obj nelem x E -> valid_call nelem c ->
  (forall e m i, e < nelem -> m < el_nne E -> i < el_ndim E -> u [e;m;i] = w [e;m;i]) ->
  all_points nelem E (fun e q i j => el_GradN_vector E c u [e;q;i;j] = el_GradN_vector E c w [e;q;i;j]).
Proof.
  intros HE Hc Hu e q i j He Hq Hi Hj. destruct (elem_obj_raw _ _ _ HE) as [B Ho]. rewrite !(r_grad _ _ _ Ho) by assumption.
  apply sumn_ext. intros m Hm. apply sumn_ext. intros k Hk. now rewrite Hu.
Qed.
Lemma energy_ext nelem E C A B : all_points nelem E (fun e q i j => A [e;q;i;j] = B [e;q;i;j]) ->
  integral nelem E (ddot42 (el_tdim E) C A) A = integral nelem E (ddot42 (el_tdim E) C B) B.
Proof.
  intros H. unfold integral. apply sumn_ext. intros e He. apply sumn_ext. intros q Hq. f_equal. apply sumn_ext. intros i Hi. apply sumn_ext. intros j Hj.
  rewrite H by assumption. f_equal. unfold ddot42. apply sumn_ext. intros k Hk. apply sumn_ext. intros l Hl. now rewrite H.
Qed.

Section N.
Set Default Proof Using "All".
Variables (coor : list (list R)) (dofs : list (list nat)) (ties : list (nat * nat)) (fixed : list nat) (nnode nelem : nat) (conn : list (list nat)) (x : arr) (E : Elem).
Notation nne := (el_nne E). Notation ndim := (el_ndim E).
Hypothesis HE : elem_obj nelem x E.
Hypothesis HC : cell coor dofs ties fixed nnode ndim.
Hypothesis Hc : connects conn nelem nne nnode.
Variable ps : PeriodicSystem.
Hypothesis Eps : periodic_setup coor nnode ndim dofs conn nne ties fixed = Ok ps.
Notation t := (ps_t ps).
Notation n := (nnode + ndim).
Notation v := (mkVector conn nne (tp_dofs t) ndim).
Notation nnu := (tp_nnu t). Notation nni := (tp_nnu t + tp_nnp t).
Notation ndof := (nni + tp_nnd t).
Notation T := (tie nnu nni (vt_Cdu (ps_vector ps)) (vt_Cdp (ps_vector ps))).
Notation asm c C := (assembled conn (tp_dofs t) nelem nne ndim (element_stiffness v E c C)).

(** displacements of the unknown DOFs only are virtual displacements *)
Lemma comb_virtual (z : nat -> R) W : length W = ndof -> (forall d, d < ndof -> val1 W d = sumn nnu (fun k => T d k * z k)%R) ->
  exists w, virtual_disp coor ties fixed nnode ndim w /\ forall m i, m < n -> i < ndim -> val2 w m i = val1 W (idx2 (tp_dofs t) m i).
Proof.
  intros LW VW. destruct (ps_facts _ _ _ _ _ _ HC conn nne ps Eps) as [Et [ECu [ECp [ECi _]]]]. pose proof (c_input _ _ _ _ _ _ HC) as HI.
  assert (Hc' : connects conn nelem nne n) by (destruct Hc as [Sc Hcc]; split; [exact Sc|]; intros e m He Hm; specialize (Hcc e m He Hm); lia).
  pose proof (Hmd _ _ _ _ _ _ conn nelem x E HE HI Hc' t Et) as HM. pose proof (rn _ _ _ _ _ _ _ HI t Et) as RN.
  destruct (AsNode_dofval_spec v nelem nne n ndim ndof eq_refl eq_refl HM W LW) as [w [_ [Sw Vw]]].
  assert (DW : dof_values (tp_dofs t) n ndim ndof w W) by (split; [exact LW|intros m i Hm Hi; symmetry; now apply Vw]).
  assert (TI : forall a j, a < nni -> T a j = ind (a =? j)%nat) by (intros a j L; unfold tie; now destruct (Nat.ltb_spec a nni); [|lia]).
  assert (WU : forall d, d < nnu -> val1 W d = z d).
  { intros d L. rewrite VW by lia. rewrite (sumn_ext nnu _ (fun k => ind (d =? k)%nat * z k)%R) by (intros k Hk; rewrite TI by lia; reflexivity). now apply sumn_delta'. }
  assert (WP : forall d, nnu <= d < nni -> val1 W d = 0%R).
  { intros d L. rewrite VW by lia. apply sumn_zero. intros k Hk. rewrite TI by lia. unfold ind. destruct (Nat.eqb_spec d k); [lia|ring]. }
  exists w. split; [|exact Vw]. apply (c_virtual _ _ _ _ _ _ HC). split; [|split].
  - apply (nodal_of _ _ _ _ _ _ _ HI t Et). split; [exact Sw|]. intros m i m' j Hm Hi Hn Hj Ed. rewrite !Vw by assumption. cbn [m_dofs]. now rewrite Ed.
  - exists (fun j k => val1 W (idx2 (tp_control t) j k)). apply (tied_iff _ _ _ _ _ _ _ HI t Et _ _ ECu ECp w W DW). intros d Hd. rewrite VW by exact Hd.
    rewrite (sumn_app nnu (tp_nnp t)). rewrite (sumn_zero (tp_nnp t)); [|intros k Hk; rewrite WP by lia; ring]. rewrite Rplus_0_r. apply sumn_ext. intros k Hk. now rewrite WU.
  - intros m i Hm Hi Hp. rewrite Vw by assumption. apply WP. now apply (rn_p _ _ _ _ _ _ _ RN).
Qed.

Lemma condensed_spd cK C : valid_call nelem cK -> major_symmetric nelem E C -> positive_stiffness nelem E C -> positive_volume nelem E ->
  no_periodic_mechanism coor ties fixed nnode nelem conn E C -> spd nnu (condensed ndof T (asm cK C)).
Proof.
  intros HK HS HP HV HM. destruct (elem_obj_raw _ _ _ HE) as [B Ho].
  destruct (ps_facts _ _ _ _ _ _ HC conn nne ps Eps) as [Et [ECu [ECp [ECi _]]]]. pose proof (c_input _ _ _ _ _ _ HC) as HI.
  assert (Hc' : connects conn nelem nne n) by (destruct Hc as [Sc Hcc]; split; [exact Sc|]; intros e m He Hm; specialize (Hcc e m He Hm); lia).
  pose proof (Hmd _ _ _ _ _ _ conn nelem x E HE HI Hc' t Et) as HMd. pose proof (rn _ _ _ _ _ _ _ HI t Et) as RN.
  apply (K_spd conn (tp_dofs t) E nelem n ndof B Ho HMd T nnu cK C HK HS HP HV).
  intros c z y Y Hcc Ly Vy EY HZ k Hk. destruct (comb_virtual z y Ly Vy) as [w [Vw Ew]].
  destruct (AsElement_dofval_spec v nelem nne n ndim ndof eq_refl eq_refl HMd y Ly) as [Y' [EY' [_ VY]]]. rewrite EY in EY'. injection EY' as EY'. rewrite <- EY' in VY.
  set (U := of_rows Y). assert (Z0 : forall m i, m < nnode -> i < ndim -> val2 w m i = 0%R).
  { apply (HM c w U Hcc Vw); [|exact HZ]. intros e m i He Hm Hi. unfold U. rewrite of_rows_val, VY by assumption. cbn [m_dofs m_conn]. symmetry. apply Ew; [|exact Hi]. now apply (proj2 Hc'). }
  assert (TK : T k k = 1%R). { unfold tie. destruct (Nat.ltb_spec k nni); [|lia]. unfold ind. now rewrite Nat.eqb_refl. }
  destruct (rn_all _ _ _ _ _ _ _ RN k ltac:(lia)) as [m [i [Hm [Hi Ed]]]].
  assert (E1 : val1 y k = z k).
  { rewrite Vy by lia. rewrite (sumn_ext nnu _ (fun l => ind (k =? l)%nat * z l)%R); [now apply sumn_delta'|]. intros l Hl. unfold tie. now destruct (Nat.ltb_spec k nni); [|lia]. }
  rewrite <- E1, <- Ed, <- Ew by assumption. destruct (le_lt_dec nnode m) as [L|L]; [|now apply Z0]. apply (proj2 Vw); try assumption. now right.
Qed.
End N.
