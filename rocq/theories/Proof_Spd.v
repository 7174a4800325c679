From Coq Require Import Reals Lra Lia.
From Verif Require Import Model_Element Spec_Element Base Spec Sums Spec_Vector Spec_Matrix Spec_MatrixOps Spec_MatrixTyings Model_Numbering Model_Vector Proof_Vector Model_VectorPartitioned
  Model_Sparse Model_Matrix Proof_Matrix Model_MatrixPartitioned Proof_MatrixPartitioned Prop_MatrixPartitioned Model_MeshGeometry Model_Pipeline Spec_Pipeline Spec_Patch Proof_PipelineElem Proof_Pipeline Proof_PipelineBalance Proof_Patch Proof_PatchRigid
  Spec_Periodic Spec_Spd Model_Ldlt Proof_Ldlt.

Lemma integral_nonneg nelem E C G : positive_stiffness nelem E C -> positive_volume nelem E -> (0 <= integral nelem E (ddot42 (el_tdim E) C G) G)%R.
Proof.
  intros HC HV. unfold integral. apply sumn_nonneg. intros e He. apply sumn_nonneg. intros q Hq. apply Rmult_le_pos; [now apply HC|now apply HV].
Qed.

Section S.
Set Default Proof Using "All".
Variables conn dofs : list (list nat).
Variable E : Elem.
Variables nelem nnode ndof : nat.
Variable B : nat -> nat -> nat -> nat -> nat -> nat -> R.
Hypothesis Ho : elem_raw nelem E B.
Hypothesis Hmd : mesh_dofs conn dofs nelem (el_nne E) nnode (el_ndim E) ndof.
Notation v := (mkVector conn (el_nne E) dofs (el_ndim E)).
Notation dof := (idx2 dofs).
Notation asm c C := (assembled conn dofs nelem (el_nne E) (el_ndim E) (element_stiffness v E c C)).

(** the quadratic form of the assembled stiffness is the energy *)
Lemma K_quad cK c C y Y : valid_call nelem cK -> valid_call nelem c -> length y = ndof -> AsElement_dofval v y = Ok Y ->
  quad_form ndof (asm cK C) (val1 y) = integral nelem E (ddot42 (el_tdim E) C (el_GradN_vector E c (of_rows Y))) (el_GradN_vector E c (of_rows Y)).
Proof.
  intros HK Hc Ly EY. pose proof (K_shape v E nelem nnode ndof eq_refl eq_refl Hmd B Ho cK C) as SK.
  destruct (assemble_spec v nelem _ nnode _ ndof eq_refl eq_refl Hmd (new_Matrix v) _ eq_refl SK) as [K [EK [VK [_ [R1 [C1 H3]]]]]].
  destruct (K_energy v E nelem nnode ndof eq_refl eq_refl Hmd B Ho cK c C y Y (new_Matrix v) K HK Hc eq_refl EK Ly EY) as [b [Eb En]].
  destruct (dot_dofval_spec v nelem _ nnode _ ndof eq_refl eq_refl Hmd K y VK R1 C1 Ly) as [b' [Eb' [_ Hb]]]. rewrite Eb in Eb'. injection Eb' as Eb'. rewrite <- Eb' in Hb.
  rewrite <- En. unfold quad_form. apply sumn_ext. intros d Hd. rewrite Hb by exact Hd. f_equal. unfold mv. apply sumn_ext. intros k Hk. rewrite H3. reflexivity.
Qed.

Lemma K_spd T m cK C : valid_call nelem cK -> major_symmetric nelem E C -> positive_stiffness nelem E C -> positive_volume nelem E ->
  (forall c x y Y, valid_call nelem c -> length y = ndof -> (forall d, d < ndof -> val1 y d = sumn m (fun k => T d k * x k)%R) -> AsElement_dofval v y = Ok Y ->
     integral nelem E (ddot42 (el_tdim E) C (el_GradN_vector E c (of_rows Y))) (el_GradN_vector E c (of_rows Y)) = 0%R -> forall k, k < m -> x k = 0%R) ->
  spd m (condensed ndof T (asm cK C)).
Proof.
  intros HK HC HP HV HM. apply spd_congruence.
  - intros i j Hi Hj. exact (K_symmetric v E nelem nnode ndof eq_refl eq_refl Hmd B Ho cK C HK HC i j).
  - intros x [k [Hk Hx]]. set (y := tab1 ndof (fun d => sumn m (fun k => T d k * x k)%R)).
    assert (Ly : length y = ndof) by apply tab1_length.
    assert (Vy : forall d, d < ndof -> val1 y d = sumn m (fun k => T d k * x k)%R) by (intros d Hd; exact (tab1_nth 0%R ndof (fun d => sumn m (fun k => T d k * x k)%R) d Hd)).
    destruct (AsElement_dofval_spec v nelem _ nnode _ ndof eq_refl eq_refl Hmd y Ly) as [Y [EY _]].
    rewrite (quad_ext ndof (asm cK C) (asm cK C) _ (val1 y)); [|reflexivity|intros i Hi; now rewrite Vy].
    rewrite (K_quad cK cK C y Y HK HK Ly EY).
    pose proof (integral_nonneg nelem E C (el_GradN_vector E cK (of_rows Y)) HP HV) as N.
    destruct (Rle_lt_or_eq_dec _ _ N) as [L|Z]; [exact L|]. exfalso. apply Hx. exact (HM cK x y Y HK Ly Vy EY (eq_sym Z) k Hk).
Qed.

(** partitioned matrix *)
Variable iip : list nat.
Hypothesis Hiip : prescribed ndof iip.
Hypothesis Hh : no_holes dofs ndof.
Notation iiu := (setdiff1d (concat dofs) iip).

Lemma uu_spd cK C : valid_call nelem cK -> major_symmetric nelem E C -> positive_stiffness nelem E C -> positive_volume nelem E -> no_mechanism v nelem ndof E C iip ->
  forall a, mp_is v ndof iip a (asm cK C) -> rows (A_uu a) = length iiu /\ cols (A_uu a) = length iiu /\ spd (length iiu) (ent (A_uu a)).
Proof.
  intros HK HC HP HV HM a [_ Hb]. destruct Hb as [[[R1 [C1 _]] _] V1 _ _ _]. cbn [m_dofs] in *. split; [exact R1|]. split; [exact C1|].
  assert (NU : NoDup iiu) by apply setdiff1d_NoDup.
  assert (LU : forall k, k < length iiu -> nth k iiu 0 < ndof) by (intros k Hk; apply (iiu_bound v nelem _ nnode _ ndof eq_refl eq_refl Hmd iip Hiip Hh); now apply nth_In).
  set (T := fun d k => ind (d =? nth k iiu 0)%nat).
  apply (spd_ext _ (condensed ndof T (asm cK C))).
  - intros i j Hi Hj. rewrite V1 by assumption. unfold condensed, T.
    transitivity (sumn ndof (fun a => ind (a =? nth i iiu 0)%nat * asm cK C a (nth j iiu 0%nat))%R); [|rewrite sumn_delta by (now apply LU); reflexivity].
    apply sumn_ext. intros r Hr. rewrite sumn_scal. f_equal. transitivity (sumn ndof (fun b => ind (b =? nth j iiu 0)%nat * asm cK C r b)%R); [apply sumn_ext; intros; ring|]. rewrite sumn_delta by (now apply LU); reflexivity.
  - apply K_spd; try assumption. intros c x y Y Hc Ly Vy EY Z k Hk.
    assert (Hy : forall d, In d iip -> val1 y d = 0%R).
    { intros d Hd. rewrite Vy by now apply Hiip. apply sumn_zero. intros l Hl. unfold T. destruct (Nat.eqb_spec d (nth l iiu 0)) as [->|]; [|unfold ind; ring].
      exfalso. assert (HI : In (nth l iiu 0) iiu) by now apply nth_In. apply setdiff1d_In in HI. now apply (proj2 HI). }
    pose proof (HM c y Y Hc Ly Hy EY Z _ (LU k Hk)) as E0. rewrite Vy in E0 by now apply LU. rewrite <- E0. symmetry.
    transitivity (sumn (length iiu) (fun l => ind (l =? k)%nat * x l)%R); [|now apply sumn_delta]. apply sumn_ext. intros l Hl. f_equal. unfold T. f_equal.
    destruct (Nat.eqb_spec l k) as [->|N]; [apply Nat.eqb_refl|]. apply Nat.eqb_neq. intros Eq. apply N. symmetry. now apply (proj1 (NoDup_nth iiu 0) NU).
Qed.

Lemma uu_any cK C p : valid_call nelem cK -> major_symmetric nelem E C -> positive_stiffness nelem E C -> positive_volume nelem E -> no_mechanism v nelem ndof E C iip ->
  new_VectorPartitioned v iip = Ok p -> forall K K', MP_p K = p -> MP_assemble K (element_stiffness v E cK C) = Ok K' ->
  rows (A_uu K') = length iiu /\ cols (A_uu K') = length iiu /\ spd (length iiu) (ent (A_uu K')).
Proof.
  intros HK HC HP HV HM Ep K K' EK Ea. pose proof (K_shape v E nelem nnode ndof eq_refl eq_refl Hmd B Ho cK C) as SK.
  destruct (mp_new v nelem _ nnode _ ndof eq_refl eq_refl Hmd iip Hiip Hh) as [K0 [E0 [H0 _]]].
  destruct (mp_assemble v nelem _ nnode _ ndof eq_refl eq_refl Hmd iip Hiip Hh K0 _ _ H0 SK) as [K1 [E1 [H1 _]]].
  assert (Ep0 : MP_p K0 = p) by (destruct H0 as [[H0 _] _]; rewrite Ep in H0; now injection H0).
  assert (EA : A_uu K' = A_uu K1).
  { clear H1 E0 H0. revert Ea E1. unfold MP_assemble. rewrite EK, Ep0. destruct (elemmat_triplets _ _ _); cbn [bind]; try discriminate.
    destruct (part_blocks _ _); cbn [bind]; try discriminate. intros [= <-] [= <-]. reflexivity. }
  rewrite EA. apply (uu_spd cK C HK HC HP HV HM K1). exact H1.
Qed.
End S.
