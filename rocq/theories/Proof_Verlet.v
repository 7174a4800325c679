(** Energy in the dynamics programs. *)
From Coq Require Import Reals Lra Lia.
From Verif Require Import Model_Element Spec_Element Base Spec Sums Spec_Vector Spec_Matrix Spec_MatrixDiagonal Model_Numbering Model_Vector Proof_Vector Proof_Matrix Model_MatrixDiagonal Proof_MatrixDiagonal Model_MeshGeometry Model_Pipeline Spec_Pipeline Proof_PipelineElem Proof_Pipeline Proof_PipelineBalance Proof_PipelineDynamics Spec_Periodic Model_Verlet Spec_Verlet.

(** solving twice with the same right-hand side *)
Lemma solve_again M b a M1 : MD_solve_nodevec M b = Ok (a, M1) -> MD_solve_nodevec M1 b = Ok (a, M1).
Proof.
  unfold MD_solve_nodevec. destruct (MD_factorize M) as [M2| | |] eqn:EF; try discriminate. cbn [bind]. intros H.
  destruct (fill2 _ _ _) as [x| | |] eqn:Ex; try discriminate. cbn [bind] in H. injection H as -> ->.
  assert (Z : MD_factorize M1 = Ok M1).
  { unfold MD_factorize in EF. destruct (MD_changed M) eqn:C; cbn [negb] in EF.
    - destruct (fill1 _ _); try discriminate. cbn [bind] in EF. injection EF as <-. reflexivity.
    - injection EF as <-. unfold MD_factorize. now rewrite C. }
  rewrite Z. cbn [bind]. rewrite Ex. reflexivity.
Qed.
(** the two programs make the same increments *)
Lemma step_same v E law fext dt st mem : verlet_step v E law fext dt st mem = elastic_verlet_step v E law fext dt st mem.
Proof.
  destruct st as [[[u w] a] M]. unfold verlet_step, elastic_verlet_step. destruct (internal_force _ _ _ _ _ _) as [f| | |]; try reflexivity. cbn [bind].
  destruct (MD_solve_nodevec M (sub2 fext f)) as [[a1 M1]| | |] eqn:E1; try reflexivity. cbn [bind fst snd].
  rewrite (solve_again _ _ _ _ E1). cbn [bind fst snd]. rewrite (solve_again _ _ _ _ E1). reflexivity.
Qed.

Lemma foldM_app2 {S X} (g : S -> X -> res S) l1 l2 s s' : foldM g l1 s = Ok s' -> foldM g (l1 ++ l2) s = foldM g l2 s'.
Proof.
  revert s. induction l1 as [|a l1 IH]; intros s H; cbn [foldM app] in *; [now injection H as ->|].
  destruct (g s a); cbn [bind] in *; try discriminate. now apply IH.
Qed.
Lemma sqdot_spec M V n : length M = n -> length V = n -> sqdot M V = Ok (sumn n (fun d => val1 M d * (val1 V d * val1 V d))%R).
Proof.
  intros LM LV. unfold sqdot. rewrite LM.
  assert (G : forall k, k <= n -> foldM (fun ret i => do m <- get M i; do x <- get V i; Ok (ret + m * x * x)%R) (seq 0 k) 0%R = Ok (sumn k (fun d => val1 M d * (val1 V d * val1 V d))%R)).
  { induction k as [|k IH]; intros Hk; [reflexivity|]. rewrite seq_S. rewrite (foldM_app2 _ _ _ _ _ (IH ltac:(lia))). cbn [foldM plus].
    rewrite (get_nth 0%R) by lia. cbn [bind]. rewrite (get_nth 0%R) by lia. cbn [bind]. rewrite sumn_S. apply f_equal. unfold val1. rewrite Nat.add_0_l. ring. }
  apply G. lia.
Qed.

Section E.
Set Default Proof Using "All".
Variable v : Vector.
Variable E : Elem.
Variables nelem nnode ndof : nat.
Notation nne := (el_nne E). Notation ndim := (el_ndim E). Notation td := (el_tdim E). Notation nip := (el_nip E).
Hypothesis Hne : m_nne v = nne.
Hypothesis Hnd : m_ndim v = ndim.
Hypothesis Hmd : mesh_dofs (m_conn v) (m_dofs v) nelem nne nnode ndim ndof.
Variable x : arr.
Hypothesis Hx : elem_obj nelem x E.
Variable C : arr.
Variables law energy : arr -> arr.
Hypothesis Hlaw : linear_law nelem E law C.
Hypothesis Hen : stored_energy nelem E law energy.
Hypothesis HCm : minor_symmetric nelem E C.
Hypothesis HCM : major_symmetric nelem E C.
Notation dof := (idx2 (m_dofs v)).
Notation node := (idx2 (m_conn v)).
Notation mdis := (md_is v ndof).
Notation nod u := (shape2 u nnode ndim /\ agree2 (m_dofs v) nnode ndim u).
Notation shp u := (shape2 u nnode ndim).
Let c0 := mkCall (seq 0 nelem) (fun _ => 0%R).
Notation ua := (at_elements (m_conn v)).
Definition G (u : list (list R)) : arr := el_GradN_vector E c0 (ua u).
Definition kf (u w : list (list R)) : R := integral nelem E (ddot42 td C (G u)) (G w).

Lemma c0_valid : valid_call nelem c0.
Proof. unfold valid_call, schedule, c0. cbn. apply Permutation_refl. Qed.
Lemma integral_ext A A' B B' : all_points nelem E (fun e q i j => A [e;q;i;j] = A' [e;q;i;j] /\ B [e;q;i;j] = B' [e;q;i;j]) -> integral nelem E A B = integral nelem E A' B'.
Proof.
  intros H. unfold integral. apply sumn_ext. intros e He. apply sumn_ext. intros q Hq. f_equal. apply sumn_ext. intros i Hi. apply sumn_ext. intros j Hj. destruct (H e q i j He Hq Hi Hj) as [-> ->]. reflexivity.
Qed.
Lemma integral_lin A s B D F : (forall e q i j, e < nelem -> q < nip -> i < td -> j < td -> (A [e;q;i;j] = B [e;q;i;j] + s * D [e;q;i;j])%R) ->
  integral nelem E A F = (integral nelem E B F + s * integral nelem E D F)%R.
Proof.
  intros H. unfold integral. rewrite <- sumn_scal, <- sumn_plus. apply sumn_ext. intros e He. rewrite <- sumn_scal, <- sumn_plus. apply sumn_ext. intros q Hq.
  transitivity ((sumn td (fun i => sumn td (fun j => B [e;q;i;j] * F [e;q;i;j])) + s * sumn td (fun i => sumn td (fun j => D [e;q;i;j] * F [e;q;i;j]))) * el_dV E [e;q])%R; [|ring].
  f_equal. rewrite <- sumn_scal, <- sumn_plus. apply sumn_ext. intros i Hi. rewrite <- sumn_scal, <- sumn_plus. apply sumn_ext. intros j Hj. rewrite H by assumption. ring.
Qed.
Lemma integral_comm A B : integral nelem E A B = integral nelem E B A.
Proof. unfold integral. apply sumn_ext. intros e He. apply sumn_ext. intros q Hq. f_equal. apply sumn_ext. intros i Hi. apply sumn_ext. intros j Hj. ring. Qed.

(** the form is symmetric *)
Lemma form_sym A B : integral nelem E (ddot42 td C A) B = integral nelem E (ddot42 td C B) A.
Proof.
  unfold integral. apply sumn_ext. intros e He. apply sumn_ext. intros q Hq. f_equal.
  set (P := fun i j a b => (C [e;q;i;j;a;b] * A [e;q;b;a] * B [e;q;i;j])%R).
  transitivity (sumn td (fun i => sumn td (fun j => sumn td (fun a => sumn td (fun b => P i j a b))))).
  { apply sumn_ext. intros i Hi. apply sumn_ext. intros j Hj. cbn [ddot42]. rewrite <- sumn_scal_r. apply sumn_ext. intros a Ha. rewrite <- sumn_scal_r. reflexivity. }
  transitivity (sumn td (fun i => sumn td (fun j => sumn td (fun a => sumn td (fun b => P b a j i))))).
  - rewrite sumn_swap.
    transitivity (sumn td (fun j => sumn td (fun i => sumn td (fun b => sumn td (fun a => P i j a b))))).
    { apply sumn_ext. intros j Hj. apply sumn_ext. intros i Hi. apply sumn_swap. }
    transitivity (sumn td (fun j => sumn td (fun b => sumn td (fun i => sumn td (fun a => P i j a b))))).
    { apply sumn_ext. intros j Hj. apply sumn_swap. }
    rewrite sumn_swap. apply sumn_ext. intros b Hb.
    transitivity (sumn td (fun j => sumn td (fun a => sumn td (fun i => P i j a b)))).
    { apply sumn_ext. intros j Hj. apply sumn_swap. }
    apply sumn_swap.
  - apply sumn_ext. intros i Hi. apply sumn_ext. intros j Hj. cbn [ddot42]. rewrite <- sumn_scal_r. apply sumn_ext. intros a Ha. rewrite <- sumn_scal_r.
    apply sumn_ext. intros b Hb. unfold P. rewrite (HCM e q b a He Hq Hb Ha j i Hj Hi). ring.
Qed.
Lemma kf_sym u w : kf u w = kf w u.
Proof. apply form_sym. Qed.

(** linear *)
Lemma G_lin u a b s : shp u -> shp a -> shp b -> (forall n i, n < nnode -> i < ndim -> val2 u n i = (val2 a n i + s * val2 b n i)%R) ->
  all_points nelem E (fun e q i j => G u [e;q;i;j] = (G a [e;q;i;j] + s * G b [e;q;i;j])%R).
Proof.
  intros Su Sa Sb H e q i j He Hq Hi Hj. destruct (elem_obj_raw _ _ _ Hx) as [B Ho]. unfold G. rewrite !(r_grad _ _ _ Ho) by (try assumption; apply c0_valid).
  rewrite <- sumn_scal, <- sumn_plus. apply sumn_ext. intros m Hm. rewrite <- sumn_scal, <- sumn_plus. apply sumn_ext. intros k Hk. cbn [at_elements].
  rewrite H by (try assumption; now apply (V_node v nelem nne nnode ndim ndof Hne Hnd Hmd)). ring.
Qed.
Lemma kf_lin u a b w s : shp u -> shp a -> shp b -> (forall n i, n < nnode -> i < ndim -> val2 u n i = (val2 a n i + s * val2 b n i)%R) ->
  kf u w = (kf a w + s * kf b w)%R.
Proof.
  intros Su Sa Sb H. rewrite (kf_sym u), (kf_sym a), (kf_sym b). unfold kf. rewrite (integral_comm _ (G u)), (integral_comm _ (G a)), (integral_comm _ (G b)).
  apply integral_lin. intros. now apply (G_lin u a b s).
Qed.

(** the stress is symmetric *)
Lemma stress_sym A e q i j : e < nelem -> q < nip -> i < td -> j < td -> ddot42 td C A [e;q;i;j] = ddot42 td C A [e;q;j;i].
Proof.
  intros He Hq Hi Hj. cbn [ddot42]. apply sumn_ext. intros k Hk. apply sumn_ext. intros l Hl. f_equal.
  rewrite (HCM e q i j He Hq Hi Hj k l Hk Hl), (HCm e q l k He Hq Hl Hk j i Hj Hi), (HCM e q l k He Hq Hl Hk i j Hi Hj). reflexivity.
Qed.
Lemma sym_half S A A' e q : e < nelem -> q < nip -> (forall i j, i < td -> j < td -> S [e;q;i;j] = S [e;q;j;i]) ->
  (forall i j, i < td -> j < td -> (A' [e;q;i;j] = (A [e;q;i;j] + A [e;q;j;i]) / 2)%R) ->
  sumn td (fun i => sumn td (fun j => S [e;q;i;j] * A' [e;q;i;j])%R) = sumn td (fun i => sumn td (fun j => S [e;q;i;j] * A [e;q;i;j])%R).
Proof.
  intros He Hq HS HA.
  transitivity (sumn td (fun i => / 2 * sumn td (fun j => S [e;q;i;j] * A [e;q;i;j]) + / 2 * sumn td (fun j => S [e;q;j;i] * A [e;q;j;i])))%R.
  - apply sumn_ext. intros i Hi. rewrite <- !sumn_scal, <- sumn_plus. apply sumn_ext. intros j Hj. rewrite HA, (HS j i) by assumption. field.
  - rewrite sumn_plus, !sumn_scal, (sumn_swap td td (fun i j => (S [e;q;j;i] * A [e;q;j;i])%R)). field.
Qed.

(** the stress of the strain of u, as computed by the programs *)
Lemma stress_G c u ue : valid_call nelem c -> shp u -> AsElement_nodevec v u = Ok ue ->
  all_points nelem E (fun e q i j => law (el_SymGradN_vector E c (of_rows ue)) [e;q;i;j] = ddot42 td C (G u) [e;q;i;j] /\
    (el_SymGradN_vector E c (of_rows ue) [e;q;i;j] = (G u [e;q;i;j] + G u [e;q;j;i]) / 2)%R).
Proof.
  intros Hc Su Eu. destruct (AsElement_nodevec_spec v nelem nne nnode ndim ndof Hne Hnd Hmd u Su) as [ue' [Eu' [_ Hue]]]. rewrite Eu in Eu'. injection Eu' as <-.
  destruct (elem_obj_raw _ _ _ Hx) as [B Ho]. intros e q i j He Hq Hi Hj.
  assert (S : forall i j, i < td -> j < td -> (el_SymGradN_vector E c (of_rows ue) [e;q;i;j] = (G u [e;q;i;j] + G u [e;q;j;i]) / 2)%R).
  { intros a b Ha Hb. apply (o_sym2 nelem E B Ho c c0 (of_rows ue) (ua u)); try assumption; [apply c0_valid|]. intros m k Hm Hk. exact (Hue e m k He Hm Hk). }
  split; [|now apply S]. rewrite (Hlaw _ e q i j He Hq Hi Hj).
  cbn [ddot42].
  transitivity (sumn td (fun k => / 2 * sumn td (fun l => C [e;q;i;j;k;l] * G u [e;q;l;k]) + / 2 * sumn td (fun l => C [e;q;i;j;l;k] * G u [e;q;k;l])))%R.
  - apply sumn_ext. intros k Hk. rewrite <- !sumn_scal, <- sumn_plus. apply sumn_ext. intros l Hl. rewrite S by assumption. rewrite (HCm e q i j He Hq Hi Hj l k Hl Hk). field.
  - rewrite sumn_plus, !sumn_scal, (sumn_swap td td (fun k l => (C [e;q;i;j;l;k] * G u [e;q;k;l])%R)). field.
Qed.

(** what the programs store *)
Lemma outputs_spec mass c order u w : valid_call nelem c -> Permutation order (node_iters v) -> length mass = ndof -> shp u -> nod w ->
  exists W, AsDofs_nodevec v order w = Ok W /\ length W = ndof /\ (forall n i, n < nnode -> i < ndim -> val1 W (dof n i) = val2 w n i) /\
    outputs v E energy mass c order u w = Ok ((/ 2 * mass_product ndof mass W W)%R, (/ 2 * kf u u)%R).
Proof.
  intros Hc Ho Lm Su [Sw Aw]. destruct (AsDofs_values v nelem nne nnode ndim ndof Hne Hnd Hmd order w Ho Sw Aw) as [W [EW [LW [VW _]]]]. exists W. split; [exact EW|]. split; [exact LW|]. split; [exact VW|].
  destruct (AsElement_nodevec_spec v nelem nne nnode ndim ndof Hne Hnd Hmd u Su) as [ue [Eu _]]. unfold outputs. rewrite Eu. cbn [bind]. rewrite EW. cbn [bind].
  rewrite (sqdot_spec mass W ndof Lm LW). cbn [bind]. f_equal. f_equal.
  destruct (V_sizes v nelem nne nnode ndim ndof Hne Hnd Hmd) as [-> _]. pose proof (stress_G c u ue Hc Su Eu) as S.
  unfold sum_points, kf, integral. rewrite <- sumn_scal. apply sumn_ext. intros e He. rewrite <- sumn_scal. apply sumn_ext. intros q Hq.
  rewrite Hen by assumption. rewrite Rmult_assoc. f_equal. f_equal.
  transitivity (sumn td (fun i => sumn td (fun j => ddot42 td C (G u) [e;q;i;j] * el_SymGradN_vector E c (of_rows ue) [e;q;i;j])))%R.
  - apply sumn_ext. intros i Hi. apply sumn_ext. intros j Hj. now rewrite (proj1 (S e q i j He Hq Hi Hj)).
  - apply sym_half; try assumption; [intros; now apply stress_sym|]. intros i j Hi Hj. now apply S.
Qed.

(** the work of the internal force *)
Lemma force_work c1 c2 u f y Y : valid_call nelem c1 -> valid_call nelem c2 -> shp u -> internal_force v E law c1 c2 u = Ok f ->
  shp y -> length Y = ndof -> (forall n i, n < nnode -> i < ndim -> val1 Y (dof n i) = val2 y n i) ->
  exists b, length b = ndof /\ (forall n i, n < nnode -> i < ndim -> val2 f n i = val1 b (dof n i)) /\ sumn ndof (fun d => val1 Y d * val1 b d)%R = kf u y.
Proof.
  intros H1 H2 Su Ef Sy LY VY.
  destruct (AsElement_nodevec_spec v nelem nne nnode ndim ndof Hne Hnd Hmd u Su) as [ue [Eu _]].
  set (sig := law (el_SymGradN_vector E c1 (of_rows ue))).
  destruct (AsElement_dofval_spec v nelem nne nnode ndim ndof Hne Hnd Hmd Y LY) as [Ye [EY [_ HYe]]].
  destruct (virtual_work v E nelem nnode ndof Hne Hnd Hmd x c2 c0 sig Y Ye Hx H2 c0_valid LY EY) as [b [Eb [Lb Wb]]].
  destruct (AsNode_dofval_spec v nelem nne nnode ndim ndof Hne Hnd Hmd b Lb) as [f' [Ef' [_ Vf]]].
  assert (f = f') as ->.
  { unfold internal_force, internal_force_of in Ef. rewrite Eu in Ef. cbn [bind] in Ef. fold sig in Ef. destruct (V_sizes v nelem nne nnode ndim ndof Hne Hnd Hmd) as [Z _]. rewrite Z in Ef. unfold AssembleNode in Ef. rewrite Eb in Ef. cbn [bind] in Ef. congruence. }
  exists b. split; [exact Lb|]. split; [exact Vf|]. rewrite Wb. unfold kf. apply integral_ext. intros e q i j He Hq Hi Hj. split.
  - unfold sig. now apply (stress_G c1 u ue H1 Su Eu).
  - destruct (elem_obj_raw _ _ _ Hx) as [B Ho]. unfold G. apply (o_grad2 nelem E B Ho); try apply c0_valid; try assumption. intros m k Hm Hk. rewrite of_rows_val. rewrite HYe by assumption.
    cbn [at_elements]. apply VY; [now apply (V_node v nelem nne nnode ndim ndof Hne Hnd Hmd)|assumption].
Qed.

(** ** the mass *)
Variable mass : list R.
Hypothesis Lmass : length mass = ndof.
Hypothesis Hmass : forall d, d < ndof -> val1 mass d <> 0%R.
Hypothesis Hholes : forall d, d < ndof -> exists n i, n < nnode /\ i < ndim /\ dof n i = d.
Definition mp (f g : nat -> R) : R := sumn ndof (fun d => val1 mass d * (f d * g d))%R.
Lemma mp_comm f g : mp f g = mp g f.
Proof. apply sumn_ext. intros. ring. Qed.
Lemma mp_lin f a b s g : (forall d, d < ndof -> f d = (a d + s * b d)%R) -> mp f g = (mp a g + s * mp b g)%R.
Proof. intros H. unfold mp. rewrite <- sumn_scal, <- sumn_plus. apply sumn_ext. intros d Hd. rewrite H by exact Hd. ring. Qed.
Definition dofs_of (U : list R) (u : list (list R)) : Prop := length U = ndof /\ forall n i, n < nnode -> i < ndim -> val1 U (dof n i) = val2 u n i.
Lemma dofs_of_nodal u : nod u -> exists U, dofs_of U u.
Proof.
  intros [S A]. destruct (AsDofs_values v nelem nne nnode ndim ndof Hne Hnd Hmd (node_iters v) u (Permutation_refl _) S A) as [U [_ [L [V _]]]]. exists U. now split.
Qed.
Lemma dofs_of_eq U U' u d : dofs_of U u -> dofs_of U' u -> d < ndof -> val1 U d = val1 U' d.
Proof. intros [_ V] [_ V'] Hd. destruct (Hholes d Hd) as [n [i [Hn [Hi <-]]]]. now rewrite V, V'. Qed.
Lemma dofs_of_lin U u A a B b s : dofs_of U u -> dofs_of A a -> dofs_of B b -> (forall n i, n < nnode -> i < ndim -> val2 u n i = (val2 a n i + s * val2 b n i)%R) ->
  forall d, d < ndof -> val1 U d = (val1 A d + s * val1 B d)%R.
Proof. intros [_ V] [_ VA] [_ VB] H d Hd. destruct (Hholes d Hd) as [n [i [Hn [Hi <-]]]]. rewrite V, VA, VB by assumption. now apply H. Qed.

Variable fext : list (list R).
Hypothesis Nf : nod fext.
Variable F : list R.
Hypothesis HF : dofs_of F fext.
Variable dt : R.

(** the acceleration is that of the forces *)
Definition bal (u : list (list R)) (A : list R) : Prop :=
  forall y Y, shp y -> dofs_of Y y -> mp (val1 A) (val1 Y) = (sumn ndof (fun d => val1 F d * val1 Y d) - kf u y)%R.

Lemma bal_of_solve c1 c2 u f a A : valid_call nelem c1 -> valid_call nelem c2 -> shp u -> internal_force v E law c1 c2 u = Ok f -> dofs_of A a ->
  (forall n i, n < nnode -> i < ndim -> val2 a n i = (1 / val1 mass (dof n i) * (val2 fext n i - val2 f n i))%R) -> bal u A.
Proof.
  intros H1 H2 Su Ef [LA VA] Ha y Y Sy [LY VY]. destruct (force_work c1 c2 u f y Y H1 H2 Su Ef Sy LY VY) as [b [Lb [Vb Wb]]]. rewrite <- Wb.
  transitivity (sumn ndof (fun d => val1 F d * val1 Y d + (-1) * (val1 Y d * val1 b d)))%R.
  - apply sumn_ext. intros d Hd. pose proof (Hmass d Hd) as Hm. destruct (Hholes d Hd) as [n [i [Hn [Hi Ed]]]]. rewrite <- Ed in *. rewrite VA, Ha, (proj2 HF), Vb by assumption. field. exact Hm.
  - rewrite sumn_plus, sumn_scal. ring.
Qed.

Definition shadow (u : list (list R)) (W A : list R) : R := (/ 2 * mp (val1 W) (val1 W) + / 2 * kf u u - dt * dt / 8 * mp (val1 A) (val1 A))%R.

Lemma step_energy M c u w a W A : mdis M (val1 mass) -> valid_call nelem (fst c) -> valid_call nelem (snd c) -> shp u -> nod w -> nod a -> dofs_of W w -> dofs_of A a ->
  exists u' w' a' M', elastic_verlet_step v E law fext dt (u, w, a, M) c = Ok (u', w', a', M') /\ mdis M' (val1 mass) /\ shp u' /\ nod w' /\ nod a' /\ nod (sub2 u' u) /\
    exists W' A' D, dofs_of W' w' /\ dofs_of A' a' /\ dofs_of D (sub2 u' u) /\ bal u' A' /\
      (bal u A -> shadow u' W' A' = (shadow u W A + sumn ndof (fun d => val1 F d * val1 D d))%R).
Proof.
  destruct c as [c1 c2]. cbn [fst snd]. intros HM H1 H2 Su Nw Na DW DA. rewrite <- step_same.
  destruct (verlet_spec v E nelem nnode ndof Hne Hnd Hmd law fext dt M (val1 mass) c1 c2 u w a HM Nf Su Nw Na) as [f [u' [w' [a' [M' [Ef [Nff [E1 [HM' [Su' [Nw' [Na' V1]]]]]]]]]]]].
  exists u', w', a', M'. split; [exact E1|]. split; [exact HM'|]. split; [exact Su'|]. split; [exact Nw'|]. split; [exact Na'|].
  assert (Sd : shp (sub2 u' u)) by (now apply zip2_shape).
  assert (Vd : forall n i, n < nnode -> i < ndim -> val2 (sub2 u' u) n i = (dt * val2 w n i + / 2 * (dt * dt) * val2 a n i)%R).
  { intros n i Hn Hi. unfold sub2. rewrite (zip2_val Rminus _ _ nnode ndim) by assumption. rewrite (proj1 (V1 n i Hn Hi)). ring. }
  assert (Nd : nod (sub2 u' u)).
  { split; [exact Sd|]. intros m i n j Hm Hi Hn Hj Ed. rewrite !Vd by assumption. now rewrite (proj2 Nw m i n j), (proj2 Na m i n j). }
  split; [exact Nd|]. destruct (dofs_of_nodal w' Nw') as [W' DW']. destruct (dofs_of_nodal a' Na') as [A' DA']. destruct (dofs_of_nodal _ Nd) as [D DD].
  exists W', A', D. split; [exact DW'|]. split; [exact DA'|]. split; [exact DD|].
  assert (B' : bal u' A') by (apply (bal_of_solve c1 c2 u' f a' A'); try assumption; intros n i Hn Hi; now apply V1).
  split; [exact B'|]. intros B0.
  assert (EW : forall d, d < ndof -> val1 W' d = (val1 W d + / 2 * dt * (val1 A d + val1 A' d))%R).
  { intros d Hd. destruct (Hholes d Hd) as [n [i [Hn [Hi <-]]]]. rewrite (proj2 DW'), (proj2 DW), (proj2 DA), (proj2 DA') by assumption. now apply V1. }
  assert (ED : forall d, d < ndof -> val1 D d = (dt * val1 W d + / 2 * (dt * dt) * val1 A d)%R).
  { intros d Hd. destruct (Hholes d Hd) as [n [i [Hn [Hi <-]]]]. rewrite (proj2 DD), (proj2 DW), (proj2 DA) by assumption. now apply Vd. }
  pose proof (B' _ _ Sd DD) as X'. pose proof (B0 _ _ Sd DD) as X0.
  assert (Hu : forall n i, n < nnode -> i < ndim -> val2 u' n i = (val2 u n i + 1 * val2 (sub2 u' u) n i)%R).
  { intros n i Hn Hi. unfold sub2. rewrite (zip2_val Rminus _ _ nnode ndim) by assumption. ring. }
  assert (K : (kf u' u' = kf u u + kf u' (sub2 u' u) + kf u (sub2 u' u))%R).
  { rewrite (kf_lin u' u (sub2 u' u) u' 1 Su' Su Sd Hu). rewrite (kf_sym u u'), (kf_lin u' u (sub2 u' u) u 1 Su' Su Sd Hu), (kf_sym (sub2 u' u) u), (kf_sym (sub2 u' u) u'). ring. }
  assert (Q : (/ 2 * mp (val1 W') (val1 W') - / 2 * mp (val1 W) (val1 W) - / 2 * (mp (val1 A) (val1 D) + mp (val1 A') (val1 D)) = dt * dt / 8 * (mp (val1 A') (val1 A') - mp (val1 A) (val1 A)))%R).
  { unfold mp. 
    assert (Z : sumn ndof (fun d => / 2 * (val1 mass d * (val1 W' d * val1 W' d)) + (- / 2) * (val1 mass d * (val1 W d * val1 W d)) + (- / 2) * (val1 mass d * (val1 A d * val1 D d)) + (- / 2) * (val1 mass d * (val1 A' d * val1 D d))
      + (- (dt * dt / 8)) * (val1 mass d * (val1 A' d * val1 A' d)) + (dt * dt / 8) * (val1 mass d * (val1 A d * val1 A d)))%R = 0%R).
    { apply sumn_zero. intros d Hd. rewrite EW, ED by exact Hd. field. }
    rewrite !sumn_plus, !sumn_scal in Z. lra. }
  unfold shadow. rewrite K. lra.
Qed.

(** ** any number of increments *)
Notation step := (elastic_verlet_step v E law fext dt).
Lemma run_energy cs : Forall (valid_calls nelem) cs -> forall M u w a W A, mdis M (val1 mass) -> shp u -> nod w -> nod a -> dofs_of W w -> dofs_of A a -> bal u A ->
  exists u' w' a' M', foldM step cs (u, w, a, M) = Ok (u', w', a', M') /\ mdis M' (val1 mass) /\ shp u' /\ nod w' /\ nod a' /\ nod (sub2 u' u) /\
    exists W' A' D, dofs_of W' w' /\ dofs_of A' a' /\ dofs_of D (sub2 u' u) /\ bal u' A' /\ shadow u' W' A' = (shadow u W A + sumn ndof (fun d => val1 F d * val1 D d))%R.
Proof.
  induction cs as [|c cs IH]; intros Hc M u w a W A HM Su Nw Na DW DA B0.
  - exists u, w, a, M. split; [reflexivity|]. split; [exact HM|]. split; [exact Su|]. split; [exact Nw|]. split; [exact Na|].
    assert (Z : forall n i, n < nnode -> i < ndim -> val2 (sub2 u u) n i = 0%R). { intros n i Hn Hi. unfold sub2. rewrite (zip2_val Rminus _ _ nnode ndim) by assumption. ring. }
    split. { split; [now apply zip2_shape|]. intros m i n j Hm Hi Hn Hj _. now rewrite !Z. }
    exists W, A, (repeat 0%R ndof). split; [exact DW|]. split; [exact DA|]. assert (V0 : forall d, val1 (repeat 0%R ndof) d = 0%R). { intros d. unfold val1. destruct (Nat.lt_ge_cases d ndof); [apply nth_repeat|apply nth_overflow; rewrite repeat_length; lia]. }
    split. { split; [apply repeat_length|]. intros n i Hn Hi. now rewrite Z, V0. }
    split; [exact B0|]. rewrite sumn_zero; [ring|]. intros d Hd. rewrite V0. ring.
  - pose proof (Forall_inv Hc) as [Hc1 Hc2]. apply Forall_inv_tail in Hc.
    destruct (step_energy M c u w a W A HM Hc1 Hc2 Su Nw Na DW DA) as [u1 [w1 [a1 [M1 [E1 [HM1 [Su1 [Nw1 [Na1 [Nd1 [W1 [A1 [D1 [DW1 [DA1 [DD1 [B1 S1]]]]]]]]]]]]]]]]].
    destruct (IH Hc M1 u1 w1 a1 W1 A1 HM1 Su1 Nw1 Na1 DW1 DA1 B1) as [u2 [w2 [a2 [M2 [E2 [HM2 [Su2 [Nw2 [Na2 [Nd2 [W2 [A2 [D2 [DW2 [DA2 [DD2 [B2 S2]]]]]]]]]]]]]]]]].
    exists u2, w2, a2, M2. split; [cbn [foldM]; rewrite E1; exact E2|]. split; [exact HM2|]. split; [exact Su2|]. split; [exact Nw2|]. split; [exact Na2|].
    assert (Z : forall n i, n < nnode -> i < ndim -> val2 (sub2 u2 u) n i = (val2 (sub2 u2 u1) n i + 1 * val2 (sub2 u1 u) n i)%R). { intros n i Hn Hi. unfold sub2. rewrite !(zip2_val Rminus _ _ nnode ndim) by assumption. ring. }
    assert (Nd : nod (sub2 u2 u)). { split; [now apply zip2_shape|]. intros m i n j Hm Hi Hn Hj Ed. rewrite !Z by assumption. now rewrite (proj2 Nd2 m i n j), (proj2 Nd1 m i n j). }
    split; [exact Nd|]. destruct (dofs_of_nodal _ Nd) as [D DD]. exists W2, A2, D. split; [exact DW2|]. split; [exact DA2|]. split; [exact DD|]. split; [exact B2|].
    rewrite S2, (S1 B0). rewrite Rplus_assoc. f_equal. rewrite <- sumn_plus. apply sumn_ext. intros d Hd. rewrite (dofs_of_lin D _ D2 _ D1 _ 1 DD DD2 DD1 Z d Hd). ring.
Qed.

(** stability *)
Hypothesis Hpos : forall y, shp y -> (0 <= kf y y)%R.
Lemma stability u a A theta : (0 < theta)%R -> shp u -> shp a -> dofs_of A a -> bal u A -> (forall d, d < ndof -> val1 F d = 0%R) -> (dt * dt * kf a a <= 4 * theta * mp (val1 A) (val1 A))%R ->
  (dt * dt / 8 * mp (val1 A) (val1 A) <= theta * (/ 2 * kf u u))%R.
Proof.
  intros Ht Su Sa DA B0 HF0 Hs. set (s := (dt * dt / (4 * theta))%R). set (y := add2 u (scal2 s a)).
  assert (Ss : shp (scal2 s a)) by (now apply scale_shape). assert (Sy : shp y) by (now apply zip2_shape).
  assert (Vy : forall n i, n < nnode -> i < ndim -> val2 y n i = (val2 u n i + s * val2 a n i)%R). { intros n i Hn Hi. unfold y, add2. rewrite (zip2_val Rplus _ _ nnode ndim) by assumption. unfold scal2. now rewrite (scale_val s a nnode ndim) by assumption. }
  pose proof (Hpos y Sy) as P. rewrite (kf_lin y u a y s Sy Su Sa Vy), (kf_sym u y), (kf_sym a y), (kf_lin y u a u s Sy Su Sa Vy), (kf_lin y u a a s Sy Su Sa Vy), (kf_sym a u) in P.
  pose proof (B0 a A Sa DA) as K. rewrite sumn_zero in K by (intros d Hd; rewrite HF0 by exact Hd; ring).
  set (m := mp (val1 A) (val1 A)) in *. set (ka := kf a a) in *. set (ku := kf u u) in *. assert (Kua : (kf u a = - m)%R) by lra. rewrite Kua in P.
  assert (S2 : (s * s * ka <= s * m)%R).
  { unfold s. replace (dt * dt / (4 * theta) * (dt * dt / (4 * theta)) * ka)%R with (dt * dt / (4 * theta) * ((dt * dt * ka) / (4 * theta)))%R by (field; lra).
    apply Rmult_le_compat_l; [apply Rmult_le_pos; [nra|left; apply Rinv_0_lt_compat; lra]|]. apply (Rmult_le_reg_l (4 * theta)); [lra|]. replace (4 * theta * (dt * dt * ka / (4 * theta)))%R with (dt * dt * ka)%R by (field; lra). lra. }
  assert (P2 : (s * m <= ku)%R) by nra. unfold s in P2.
  apply (Rmult_le_compat_l (/ 2 * theta)) in P2; [|lra]. replace (/ 2 * theta * (dt * dt / (4 * theta) * m))%R with (dt * dt / 8 * m)%R in P2 by (field; lra). lra.
Qed.

Hypothesis Hmpos : forall d, d < ndof -> (0 < val1 mass d)%R.
Lemma mp_pos f : (0 <= mp f f)%R.
Proof. unfold mp. apply sumn_nonneg. intros d Hd. pose proof (Hmpos d Hd). apply Rmult_le_pos; [lra|]. nra. Qed.

Definition valid_inc (m : inc_memory) : Prop := valid_calls nelem (i_calls m) /\ Permutation (i_order m) (node_iters v).
Notation body := (fun (s : dyn_state * list (R * R)) m => do st <- step (fst s) (i_calls m);
    do o <- outputs v E energy mass (fst (i_calls m)) (i_order m) (fst (fst (fst st))) (snd (fst (fst st)));
    Ok (st, snd s ++ [o])).
Variable theta : R.
Hypothesis Ht : (0 < theta <= 1)%R.
Hypothesis HF0 : forall d, d < ndof -> val1 F d = 0%R.
Hypothesis Hcfl : forall w W, nod w -> dofs_of W w -> (dt * dt * kf w w <= 4 * theta * mp (val1 W) (val1 W))%R.
Lemma run_bounded ms : Forall valid_inc ms -> forall outs0 M u w a W A, mdis M (val1 mass) -> shp u -> nod w -> nod a -> dofs_of W w -> dofs_of A a -> bal u A ->
  exists st outs, foldM body ms ((u, w, a, M), outs0) = Ok (st, outs0 ++ outs) /\ length outs = length ms /\
    Forall (fun o => (0 <= fst o)%R /\ (0 <= snd o)%R /\ (fst o + (1 - theta) * snd o <= shadow u W A <= fst o + snd o)%R) outs.
Proof.
  induction ms as [|m ms IH]; intros Hms outs0 M u w a W A HM Su Nw Na DW DA B0.
  - exists (u, w, a, M), []. cbn [foldM]. rewrite app_nil_r. split; [reflexivity|]. split; [reflexivity|constructor].
  - pose proof (Forall_inv Hms) as [[Hc1 Hc2] Ho]. apply Forall_inv_tail in Hms.
    destruct (step_energy M (i_calls m) u w a W A HM Hc1 Hc2 Su Nw Na DW DA) as [u1 [w1 [a1 [M1 [E1 [HM1 [Su1 [Nw1 [Na1 [Nd1 [W1 [A1 [D1 [DW1 [DA1 [DD1 [B1 S1]]]]]]]]]]]]]]]]].
    destruct (outputs_spec mass (fst (i_calls m)) (i_order m) u1 w1 Hc1 Ho Lmass Su1 Nw1) as [W1' [_ [LW1' [VW1' Eo]]]].
    assert (EW : mass_product ndof mass W1' W1' = mp (val1 W1) (val1 W1)). { apply sumn_ext. intros d Hd. now rewrite (dofs_of_eq W1' W1 w1 d (conj LW1' VW1') DW1 Hd). }
    rewrite EW in Eo.
    destruct (IH Hms (outs0 ++ [((/ 2 * mp (val1 W1) (val1 W1))%R, (/ 2 * kf u1 u1)%R)]) M1 u1 w1 a1 W1 A1 HM1 Su1 Nw1 Na1 DW1 DA1 B1) as [st [outs [Er [Lo Bo]]]].
    assert (SH : shadow u1 W1 A1 = shadow u W A). { rewrite (S1 B0), sumn_zero; [ring|]. intros d Hd. rewrite HF0 by exact Hd. ring. }
    exists st, (((/ 2 * mp (val1 W1) (val1 W1))%R, (/ 2 * kf u1 u1)%R) :: outs). split; [|split].
    + cbn [foldM fst snd]. rewrite E1. cbn [bind fst snd]. rewrite Eo. cbn [bind]. refine (eq_trans Er _). now rewrite <- app_assoc.
    + cbn [length]. now rewrite Lo.
    + constructor; [|rewrite SH in Bo; exact Bo]. cbn [fst snd]. pose proof (mp_pos (val1 W1)). pose proof (Hpos u1 Su1). split; [lra|]. split; [lra|]. rewrite <- SH. unfold shadow.
      pose proof (stability u1 a1 A1 theta (proj1 Ht) Su1 (proj1 Na1) DA1 B1 HF0 (Hcfl a1 A1 Na1 DA1)). pose proof (mp_pos (val1 A1)). split; [lra|nra].
Qed.

(** the program: whatever the acceleration to start with *)
Lemma program_bounded m ms M u w a : Forall valid_inc (m :: ms) -> mdis M (val1 mass) -> shp u -> nod w -> nod a ->
  exists st outs e, foldM body (m :: ms) ((u, w, a, M), []) = Ok (st, outs) /\ length outs = length (m :: ms) /\
    Forall (fun o => (0 <= fst o)%R /\ (0 <= snd o)%R /\ (fst o + (1 - theta) * snd o <= e <= fst o + snd o)%R) outs /\
    ((forall n i, n < nnode -> i < ndim -> val2 w n i = 0%R /\ val2 a n i = 0%R) -> e = (/ 2 * kf u u)%R /\ snd (nth 0 outs (0, 0)%R) = e).
Proof.
  intros Hms HM Su Nw Na. destruct (dofs_of_nodal w Nw) as [W DW]. destruct (dofs_of_nodal a Na) as [A DA]. pose proof (Forall_inv Hms) as [[Hc1 Hc2] Ho]. apply Forall_inv_tail in Hms.
  destruct (verlet_spec v E nelem nnode ndof Hne Hnd Hmd law fext dt M (val1 mass) (fst (i_calls m)) (snd (i_calls m)) u w a HM Nf Su Nw Na) as [f [u1 [w1 [a1 [M1 [Ef [Nff [E1 [HM1 [Su1 [Nw1 [Na1 V1]]]]]]]]]]]].
  rewrite <- surjective_pairing, step_same in E1.
  destruct (dofs_of_nodal w1 Nw1) as [W1 DW1]. destruct (dofs_of_nodal a1 Na1) as [A1 DA1].
  assert (B1 : bal u1 A1) by (apply (bal_of_solve (fst (i_calls m)) (snd (i_calls m)) u1 f a1 A1); try assumption; intros n i Hn Hi; now apply V1).
  destruct (outputs_spec mass (fst (i_calls m)) (i_order m) u1 w1 Hc1 Ho Lmass Su1 Nw1) as [W1' [_ [LW1' [VW1' Eo]]]].
  assert (EW : mass_product ndof mass W1' W1' = mp (val1 W1) (val1 W1)). { apply sumn_ext. intros d Hd. now rewrite (dofs_of_eq W1' W1 w1 d (conj LW1' VW1') DW1 Hd). }
  rewrite EW in Eo. set (o := ((/ 2 * mp (val1 W1) (val1 W1))%R, (/ 2 * kf u1 u1)%R)) in *.
  destruct (run_bounded ms Hms [o] M1 u1 w1 a1 W1 A1 HM1 Su1 Nw1 Na1 DW1 DA1 B1) as [st [outs [Er [Lo Bo]]]].
  exists st, (o :: outs), (shadow u1 W1 A1). split; [|split; [|split]].
  - cbn [foldM fst snd]. rewrite E1. cbn [bind fst snd]. rewrite Eo. cbn [bind app]. exact Er.
  - cbn [length]. now rewrite Lo.
  - constructor; [|exact Bo]. unfold o, shadow. cbn [fst snd]. pose proof (mp_pos (val1 W1)). pose proof (mp_pos (val1 A1)). pose proof (Hpos u1 Su1).
    pose proof (stability u1 a1 A1 theta (proj1 Ht) Su1 (proj1 Na1) DA1 B1 HF0 (Hcfl a1 A1 Na1 DA1)). split; [lra|]. split; [lra|]. split; [lra|nra].
  - intros Z. assert (Ku : kf u1 u1 = kf u u).
    { assert (forall n i, n < nnode -> i < ndim -> val2 u1 n i = (val2 u n i + 0 * val2 u n i)%R) as X1. { intros n i Hn Hi. rewrite (proj1 (V1 n i Hn Hi)). destruct (Z n i Hn Hi) as [-> ->]. ring. }
      rewrite (kf_lin u1 u u u1 0 Su1 Su Su X1), (kf_sym u u1), (kf_lin u1 u u u 0 Su1 Su Su X1). ring. }
    assert (WA : mp (val1 W1) (val1 W1) = (/ 4 * (dt * dt) * mp (val1 A1) (val1 A1))%R).
    { unfold mp. rewrite <- sumn_scal. apply sumn_ext. intros d Hd. destruct (Hholes d Hd) as [n [i [Hn [Hi <-]]]]. rewrite (proj2 DW1), (proj2 DA1) by assumption.
      destruct (V1 n i Hn Hi) as [_ V1']. destruct (Z n i Hn Hi) as [Z1 Z2].
      assert (val2 w1 n i = / 2 * dt * val2 a1 n i)%R as ->; [|field]. destruct V1' as [V2 V3]. rewrite V3, Z1, Z2. lra. }
    unfold shadow, o. cbn [nth snd]. rewrite WA, Ku. split; field.
Qed.
End E.
