(** Assembled forces and stiffness of the programs of Model_Pipeline.v. *)
From Coq Require Import Reals Lra Lia.
From Verif Require Import Model_Element Spec_Element Base Spec Sums Spec_Vector Spec_Matrix Model_Numbering Model_Vector Model_VectorPartitioned Proof_Vector Proof_VectorPartitioned
  Model_Sparse Model_Matrix Model_MatrixPartitioned Spec_MatrixOps Proof_Matrix Proof_MatrixPartitioned Model_MeshGeometry Model_Pipeline Spec_Pipeline Proof_PipelineElem.

(** arrays as rows *)
Lemma to_rows_eq n m d a : to_rows n m d a = tab3 n m d (fun e i j => a [e;i;j]).
Proof. reflexivity. Qed.
Lemma to_rows_shape n m d a : shape3 (to_rows n m d a) n m d.
Proof. rewrite to_rows_eq. apply tab3_shape. Qed.
Lemma to_rows_val n m d a e i j : e < n -> i < m -> j < d -> val3 (to_rows n m d a) e i j = a [e;i;j].
Proof. intros. rewrite to_rows_eq. now apply (tab3_nth 0%R n m d (fun e i j => a [e;i;j])). Qed.
Lemma to_rows_ext n m d a b : (forall e i j, e < n -> i < m -> j < d -> a [e;i;j] = b [e;i;j]) -> to_rows n m d a = to_rows n m d b.
Proof.
  intros H. unfold to_rows. apply map_ext_in. intros e He. apply in_seq in He. apply map_ext_in. intros i Hi. apply in_seq in Hi. apply map_ext_in. intros j Hj. apply in_seq in Hj.
  apply H; lia.
Qed.
Lemma of_rows_val x e m i : of_rows x [e;m;i] = val3 x e m i.
Proof. reflexivity. Qed.

(** sums and differences of nodal arrays *)
Lemma zip2_shape f a b n d : shape2 a n d -> shape2 b n d -> shape2 (zip2 f a b) n d.
Proof.
  intros [La Sa] [Lb Sb]. split; [unfold zip2; rewrite map_length, combine_length; lia|]. intros r Hr. apply in_map_iff in Hr. destruct Hr as [[x y] [<- Hxy]].
  pose proof (in_combine_l _ _ _ _ Hxy) as Hx. pose proof (in_combine_r _ _ _ _ Hxy) as Hy. cbn [fst snd].
  rewrite map_length, combine_length, (Sa _ Hx), (Sb _ Hy). lia.
Qed.
Lemma zip2_val f a b n d i j : shape2 a n d -> shape2 b n d -> i < n -> j < d -> val2 (zip2 f a b) i j = f (val2 a i j) (val2 b i j).
Proof.
  intros [La Sa] [Lb Sb] Hi Hj. unfold val2, nth2, zip2.
  rewrite (nth_indep _ [] (map (fun q => f (fst q) (snd q)) (combine (fst (@nil R, @nil R)) (snd (@nil R, @nil R))))) by (rewrite map_length, combine_length; lia).
  rewrite (map_nth (fun p => map (fun q => f (fst q) (snd q)) (combine (fst p) (snd p))) (combine a b) (@nil R, @nil R)).
  rewrite combine_nth by lia. cbn [fst snd].
  assert (Ra : length (nth i a []) = d) by (apply Sa, nth_In; lia). assert (Rb : length (nth i b []) = d) by (apply Sb, nth_In; lia).
  rewrite (nth_indep _ 0%R (f (fst (0%R, 0%R)) (snd (0%R, 0%R)))) by (rewrite map_length, combine_length; lia).
  rewrite (map_nth (fun q => f (fst q) (snd q)) _ (0%R, 0%R)). rewrite combine_nth by congruence. reflexivity.
Qed.
Lemma scale_shape t a n d : shape2 a n d -> shape2 (map (map (Rmult t)) a) n d.
Proof. intros [La Sa]. split; [now rewrite map_length|]. intros r Hr. apply in_map_iff in Hr. destruct Hr as [x [<- Hx]]. rewrite map_length. now apply Sa. Qed.
Lemma scale_val t a n d i j : shape2 a n d -> i < n -> j < d -> val2 (map (map (Rmult t)) a) i j = (t * val2 a i j)%R.
Proof.
  intros [La Sa] Hi Hj. unfold val2, nth2. rewrite (nth_indep _ [] (map (Rmult t) [])) by (rewrite map_length; lia). rewrite (map_nth (map (Rmult t))).
  assert (Ra : length (nth i a []) = d) by (apply Sa, nth_In; lia).
  rewrite (nth_indep _ 0%R (t * 0)%R) by (rewrite map_length; lia). now rewrite map_nth.
Qed.
Lemma move_shape u du t n d : shape2 u n d -> shape2 du n d -> shape2 (move u du t) n d.
Proof. intros Hu Hd. apply zip2_shape; [assumption|]. now apply scale_shape. Qed.
Lemma move_val u du t n d i j : shape2 u n d -> shape2 du n d -> i < n -> j < d -> val2 (move u du t) i j = (val2 u i j + t * val2 du i j)%R.
Proof. intros Hu Hd Hi Hj. unfold move, add2. rewrite (zip2_val Rplus _ _ n d) by (try assumption; now apply scale_shape). now rewrite (scale_val t du n d). Qed.

(** derivatives of sums *)
Lemma deriv_sumn n (f : nat -> R -> R) (l : nat -> R) x : (forall i, i < n -> derivable_pt_lim (f i) x (l i)) ->
  derivable_pt_lim (fun t => sumn n (fun i => f i t)) x (sumn n l).
Proof.
  induction n as [|n IH]; intros H.
  - exact (derivable_pt_lim_const 0 x).
  - apply (derivable_pt_lim_ext (fun t => sumn n (fun i => f i t) + f n t)%R); [intros z; now rewrite sumn_S|]. rewrite sumn_S.
    apply (derivable_pt_lim_plus (fun t => sumn n (fun i => f i t)) (f n)); [apply IH; intros; apply H; lia|apply H; lia].
Qed.
Lemma deriv_scal (f : R -> R) c x l : derivable_pt_lim f x l -> derivable_pt_lim (fun t => c * f t)%R x (c * l)%R.
Proof. apply derivable_pt_lim_scal. Qed.
Lemma deriv_scal_r (f : R -> R) c x l : derivable_pt_lim f x l -> derivable_pt_lim (fun t => f t * c)%R x (l * c)%R.
Proof. intros H. rewrite Rmult_comm. apply (derivable_pt_lim_ext (fun t => c * f t)%R); [intros; ring|]. now apply derivable_pt_lim_scal. Qed.

Section A.
Set Default Proof Using "All".
Variable v : Vector.
Variable E : Elem.
Variables nelem nnode ndof : nat.
Notation nne := (el_nne E). Notation ndim := (el_ndim E). Notation td := (el_tdim E). Notation nip := (el_nip E).
Hypothesis Hne : m_nne v = nne.
Hypothesis Hnd : m_ndim v = ndim.
Hypothesis Hmd : mesh_dofs (m_conn v) (m_dofs v) nelem nne nnode ndim ndof.
Variable B : nat -> nat -> nat -> nat -> nat -> nat -> R.
Hypothesis Ho : elem_raw nelem E B.
Notation dof := (idx2 (m_dofs v)).
Notation node := (idx2 (m_conn v)).
Notation asm := (assembled (m_conn v) (m_dofs v) nelem nne ndim).

(** the nodal values of the elements *)
Definition uel (u : list (list R)) : arr := fun k => match k with [e;m;i] => val2 u (node e m) i | _ => 0%R end.

Lemma ue_spec u : shape2 u nnode ndim -> exists ue, AsElement_nodevec v u = Ok ue /\ shape3 ue nelem nne ndim /\
  forall e m i, e < nelem -> m < nne -> i < ndim -> of_rows ue [e;m;i] = uel u [e;m;i].
Proof. exact (AsElement_nodevec_spec v nelem nne nnode ndim ndof Hne Hnd Hmd u). Qed.

(** the force for any strain and stress *)
Lemma force_spec strain law c1 c2 u : shape2 u nnode ndim -> exists ue f, AsElement_nodevec v u = Ok ue /\
  internal_force_of v E strain law c1 c2 u = Ok f /\ shape2 f nnode ndim /\
  (forall n j, n < nnode -> j < ndim -> val2 f n j = sum_elem nelem nne ndim (fun e m i => ind (dof (node e m) i =? dof n j)%nat *
     el_Int_gradN_dot_tensor2_dV E c2 (law (strain E c1 (of_rows ue))) [e;m;i])%R) /\
  agree2 (m_dofs v) nnode ndim f.
Proof.
  intros Hu. destruct (ue_spec u Hu) as [ue [Eu [Su Hue]]]. exists ue.
  destruct (AssembleNode_spec v nelem nne nnode ndim ndof Hne Hnd Hmd _ (to_rows_shape nelem nne ndim (el_Int_gradN_dot_tensor2_dV E c2 (law (strain E c1 (of_rows ue)))))) as [f [Ef [Sf Hf]]].
  exists f. split; [exact Eu|]. unfold internal_force_of. rewrite Eu. cbn [bind]. destruct (V_sizes v nelem nne nnode ndim ndof Hne Hnd Hmd) as [-> _].
  split; [exact Ef|]. split; [exact Sf|]. split.
  - intros n j Hn Hj. rewrite Hf by assumption. unfold sum_elem. apply sumn_ext. intros e He. apply sumn_ext. intros m Hm. apply sumn_ext. intros i Hi. now rewrite to_rows_val.
  - intros n i n' i' Hn Hi Hn' Hi' Ed. rewrite !Hf by assumption. now rewrite Ed.
Qed.

(** the force only depends on the stress in the elements *)
Lemma force_ext strain strain' law law' c1 c2 c1' c2' u : valid_call nelem c2 -> valid_call nelem c2' -> shape2 u nnode ndim ->
  (forall ue, (forall e m i, e < nelem -> m < nne -> i < ndim -> of_rows ue [e;m;i] = uel u [e;m;i]) ->
   all_points nelem E (fun e q i j => law (strain E c1 (of_rows ue)) [e;q;i;j] = law' (strain' E c1' (of_rows ue)) [e;q;i;j])) ->
  internal_force_of v E strain law c1 c2 u = internal_force_of v E strain' law' c1' c2' u.
Proof.
  intros Hc Hc' Hu H. destruct (ue_spec u Hu) as [ue [Eu [Su Hue]]]. unfold internal_force_of. rewrite Eu. cbn [bind].
  destruct (V_sizes v nelem nne nnode ndim ndof Hne Hnd Hmd) as [-> _]. f_equal. apply to_rows_ext. intros e m i He Hm Hi.
  apply (o_force2 nelem E B Ho); try assumption. intros q a b Hq Ha Hb. exact (H ue Hue e q a b He Hq Ha Hb).
Qed.

Lemma K_shape c C : shape3 (element_stiffness v E c C) nelem (nne * ndim) (nne * ndim).
Proof. unfold element_stiffness. destruct (V_sizes v nelem nne nnode ndim ndof Hne Hnd Hmd) as [-> _]. apply to_rows_shape. Qed.
Lemma K_val c C e a b : e < nelem -> a < nne * ndim -> b < nne * ndim -> val3 (element_stiffness v E c C) e a b = el_Int_gradN_dot_tensor4_dot_gradNT_dV E c C [e;a;b].
Proof. intros. unfold element_stiffness. destruct (V_sizes v nelem nne nnode ndim ndof Hne Hnd Hmd) as [-> _]. now apply to_rows_val. Qed.
Lemma flat_lt m i n d : m < n -> i < d -> m * d + i < n * d.
Proof. nia. Qed.

(** the product of the assembled stiffness *)
Lemma K_dot cK C c1 c2 order u x : valid_call nelem cK -> valid_call nelem c1 -> valid_call nelem c2 ->
  Permutation order (node_iters v) -> shape2 u nnode ndim -> agree2 (m_dofs v) nnode ndim u -> AsDofs_nodevec v order u = Ok x ->
  forall a a', M_v a = v -> M_assemble a (element_stiffness v E cK C) = Ok a' ->
  exists b, M_dot_dofval a' x = Ok b /\ internal_force_grad v E (ddot42 td C) c1 c2 u = AsNode_dofval v b /\
    M_dot_nodevec a' order u = internal_force_grad v E (ddot42 td C) c1 c2 u.
Proof.
  intros HK H1 H2 Hor Hu Hag Ex a a' Hv Ea. pose proof (K_shape cK C) as SK.
  destruct (assemble_spec v nelem nne nnode ndim ndof Hne Hnd Hmd a _ Hv SK) as [a1 [E1 [V1 [_ [R1 [C1 _]]]]]]. rewrite Ea in E1. injection E1 as E1. rewrite <- E1 in V1, R1, C1. clear E1 a1.
  destruct (AsDofs_values v nelem nne nnode ndim ndof Hne Hnd Hmd order u Hor Hu Hag) as [x' [Ex' [Lx [Vx _]]]]. rewrite Ex in Ex'. injection Ex' as Ex'. rewrite <- Ex' in Lx, Vx. clear Ex' x'.
  destruct (AsElement_dofval_spec v nelem nne nnode ndim ndof Hne Hnd Hmd x Lx) as [X [EX [SX HX]]].
  destruct (ue_spec u Hu) as [ue [Eu [Su Hue]]].
  destruct (assemble_dot v nelem nne nnode ndim ndof Hne Hnd Hmd a a' _ x X (to_rows nelem nne ndim (el_Int_gradN_dot_tensor2_dV E c2 (ddot42 td C (el_GradN_vector E c1 (of_rows ue))))) Hv SK Lx Ea EX (to_rows_shape _ _ _ _)) as [b [Eb [EF _]]].
  { intros e m i He Hm Hi. rewrite to_rows_val by assumption. rewrite <- (o_act2 nelem E B Ho cK c2 c1 C (of_rows ue) e m i) by assumption.
    unfold sum_node. apply sumn_ext. intros n Hn. apply sumn_ext. intros j Hj. rewrite K_val by (try assumption; now apply flat_lt). f_equal.
    rewrite HX, Hue by assumption. cbn [uel]. symmetry. apply Vx; [|assumption]. now apply (V_node v nelem nne nnode ndim ndof Hne Hnd Hmd). }
  exists b. split; [exact Eb|].
  assert (EI : internal_force_grad v E (ddot42 td C) c1 c2 u = AsNode_dofval v b).
  { unfold internal_force_grad, internal_force_of. rewrite Eu. cbn [bind]. destruct (V_sizes v nelem nne nnode ndim ndof Hne Hnd Hmd) as [-> _]. unfold AssembleNode. rewrite EF. reflexivity. }
  split; [exact EI|]. rewrite EI.
  destruct (dot_nodevec_spec v nelem nne nnode ndim ndof Hne Hnd Hmd a' order u x V1 R1 C1 Hor Hu Hag Ex) as [b' [w [Ew [Eb' Ew']]]].
  rewrite Eb in Eb'. injection Eb' as Eb'. rewrite <- Eb' in Ew'. now rewrite Ew, Ew'.
Qed.

(** for a tensor with minor symmetry the strain may be the symmetric gradient *)
Lemma sym_force C c1 c2 c1' c2' u : minor_symmetric nelem E C -> valid_call nelem c1 -> valid_call nelem c2 -> valid_call nelem c1' -> valid_call nelem c2' -> shape2 u nnode ndim ->
  internal_force v E (ddot42 td C) c1 c2 u = internal_force_grad v E (ddot42 td C) c1' c2' u.
Proof.
  intros HC H1 H2 H1' H2' Hu. apply force_ext; try assumption. intros ue Hue e q i j He Hq Hi Hj.
  now apply (o_minor nelem E B Ho c1 c1' C (of_rows ue) e q i j).
Qed.

(** the product, entry by entry *)
Lemma K_mv cK C c1 c2 order u x : valid_call nelem cK -> valid_call nelem c1 -> valid_call nelem c2 ->
  Permutation order (node_iters v) -> shape2 u nnode ndim -> agree2 (m_dofs v) nnode ndim u -> AsDofs_nodevec v order u = Ok x ->
  exists f, internal_force_grad v E (ddot42 td C) c1 c2 u = Ok f /\ shape2 f nnode ndim /\
    forall n i, n < nnode -> i < ndim -> val2 f n i = mv ndof (asm (element_stiffness v E cK C)) (val1 x) (dof n i).
Proof.
  intros HK H1 H2 Hor Hu Hag Ex. pose proof (K_shape cK C) as SK.
  destruct (assemble_spec v nelem nne nnode ndim ndof Hne Hnd Hmd (new_Matrix v) _ eq_refl SK) as [a' [Ea [V1 [_ [R1 [C1 H3]]]]]].
  destruct (K_dot cK C c1 c2 order u x HK H1 H2 Hor Hu Hag Ex (new_Matrix v) a' eq_refl Ea) as [b [Eb [EI _]]].
  destruct (AsDofs_values v nelem nne nnode ndim ndof Hne Hnd Hmd order u Hor Hu Hag) as [x' [Ex' [Lx [Vx _]]]]. rewrite Ex in Ex'. injection Ex' as Ex'. rewrite <- Ex' in Lx, Vx.
  destruct (dot_dofval_spec v nelem nne nnode ndim ndof Hne Hnd Hmd a' x V1 R1 C1 Lx) as [b' [Eb' [Lb Hb]]]. rewrite Eb in Eb'. injection Eb' as Eb'. rewrite <- Eb' in Lb, Hb.
  destruct (AsNode_dofval_spec v nelem nne nnode ndim ndof Hne Hnd Hmd b Lb) as [f [Ef [Sf Hf]]]. exists f. rewrite EI. split; [exact Ef|]. split; [exact Sf|].
  intros n i Hn Hi. pose proof (V_dof v nelem nne nnode ndim ndof Hne Hnd Hmd n i Hn Hi) as Hd.
  rewrite Hf, Hb by assumption. apply mv_ext; [|reflexivity]. intros c _. apply H3.
Qed.

Lemma K_symmetric c C : valid_call nelem c -> major_symmetric nelem E C -> forall a b, asm (element_stiffness v E c C) a b = asm (element_stiffness v E c C) b a.
Proof.
  intros Hc HC. apply (assembled_sym v nelem nne nnode ndim ndof Hne Hnd Hmd). intros e r s He Hr Hs. rewrite !K_val by assumption.
  destruct (Nat.eq_dec ndim 0) as [Z|Z]; [rewrite Z in Hr; lia|].
  rewrite (Nat.div_mod_eq r ndim), (Nat.div_mod_eq s ndim), !(Nat.mul_comm ndim).
  apply (o_stiff_sym nelem E B Ho); try assumption; try (apply Nat.mod_upper_bound; assumption); apply Nat.div_lt_upper_bound; try assumption; lia.
Qed.

Lemma K_energy cK c C x X a a' : valid_call nelem cK -> valid_call nelem c -> M_v a = v -> M_assemble a (element_stiffness v E cK C) = Ok a' -> length x = ndof ->
  AsElement_dofval v x = Ok X -> exists b, M_dot_dofval a' x = Ok b /\
    sumn ndof (fun d => val1 x d * val1 b d)%R = integral nelem E (ddot42 td C (el_GradN_vector E c (of_rows X))) (el_GradN_vector E c (of_rows X)).
Proof.
  intros HK Hc Hv Ea Lx EX. pose proof (K_shape cK C) as SK.
  destruct (assemble_dot v nelem nne nnode ndim ndof Hne Hnd Hmd a a' _ x X (to_rows nelem nne ndim (el_Int_gradN_dot_tensor2_dV E c (ddot42 td C (el_GradN_vector E c (of_rows X))))) Hv SK Lx Ea EX (to_rows_shape _ _ _ _)) as [b [Eb [EF Hen]]].
  { intros e m i He Hm Hi. rewrite to_rows_val by assumption. rewrite <- (o_act2 nelem E B Ho cK c c C (of_rows X) e m i) by assumption.
    unfold sum_node. apply sumn_ext. intros n Hn. apply sumn_ext. intros j Hj. rewrite K_val by (try assumption; now apply flat_lt). reflexivity. }
  exists b. split; [exact Eb|]. rewrite Hen. unfold sum_elem, integral. apply sumn_ext. intros e He.
  rewrite <- (o_vw nelem E B Ho c c (ddot42 td C (el_GradN_vector E c (of_rows X))) (of_rows X) e Hc Hc He).
  apply sumn_ext. intros m Hm. apply sumn_ext. intros i Hi. rewrite to_rows_val by assumption. rewrite of_rows_val. ring.
Qed.

(** ** the stiffness is the derivative of the internal force *)
Definition linear_strain (strain : Elem -> call -> arr -> arr) : Prop := exists B' : nat -> nat -> nat -> nat -> nat -> nat -> R,
  forall c u e q i j, valid_call nelem c -> e < nelem -> q < nip -> i < td -> j < td ->
    strain E c u [e;q;i;j] = sumn nne (fun m => sumn ndim (fun k => B' e q i j m k * u [e;m;k])%R).
Lemma grad_linear : linear_strain el_GradN_vector.
Proof. exists B. intros. now apply (r_grad _ _ _ Ho). Qed.
Lemma sym_linear : linear_strain el_SymGradN_vector.
Proof.
  exists (fun e q i j m k => (/ 2 * B e q i j m k + / 2 * B e q j i m k)%R). intros c u e q i j Hc He Hq Hi Hj. rewrite (r_sym _ _ _ Ho), !(r_grad _ _ _ Ho) by assumption.
  transitivity (sumn nne (fun m => / 2 * sumn ndim (fun k => B e q i j m k * u [e;m;k]) + / 2 * sumn ndim (fun k => B e q j i m k * u [e;m;k])))%R.
  - rewrite sumn_plus, !sumn_scal. lra.
  - apply sumn_ext. intros m Hm. rewrite <- !sumn_scal, <- sumn_plus. apply sumn_ext. intros k Hk. ring.
Qed.
Lemma strain_move strain c u du ue due uet t e q i j : linear_strain strain -> valid_call nelem c -> shape2 u nnode ndim -> shape2 du nnode ndim ->
  (forall e m i, e < nelem -> m < nne -> i < ndim -> of_rows ue [e;m;i] = uel u [e;m;i]) ->
  (forall e m i, e < nelem -> m < nne -> i < ndim -> of_rows due [e;m;i] = uel du [e;m;i]) ->
  (forall e m i, e < nelem -> m < nne -> i < ndim -> of_rows uet [e;m;i] = uel (move u du t) [e;m;i]) ->
  e < nelem -> q < nip -> i < td -> j < td ->
  strain E c (of_rows uet) [e;q;i;j] = (strain E c (of_rows ue) [e;q;i;j] + t * strain E c (of_rows due) [e;q;i;j])%R.
Proof.
  intros [B' HB] Hc Su Sd Hu Hd Ht He Hq Hi Hj. rewrite !HB by assumption. rewrite <- sumn_scal, <- sumn_plus. apply sumn_ext. intros m Hm.
  rewrite <- sumn_scal, <- sumn_plus. apply sumn_ext. intros k Hk. rewrite Hu, Hd, Ht by assumption. cbn [uel].
  rewrite (move_val u du t nnode ndim) by (try assumption; now apply (V_node v nelem nne nnode ndim ndof Hne Hnd Hmd)). ring.
Qed.

Lemma tangent_gen strain law C c1 c2 u du ue w : linear_strain strain -> local_law nelem E law -> valid_call nelem c1 -> valid_call nelem c2 ->
  shape2 u nnode ndim -> shape2 du nnode ndim -> AsElement_nodevec v u = Ok ue -> tangent_at nelem E law (strain E c1 (of_rows ue)) C ->
  internal_force_of v E strain (ddot42 td C) c1 c2 du = Ok w ->
  exists F, (forall t, internal_force_of v E strain law c1 c2 (move u du t) = Ok (F t)) /\
    forall n j, n < nnode -> j < ndim -> derivable_pt_lim (fun t => val2 (F t) n j) 0 (val2 w n j).
Proof.
  intros Hlin Hloc H1 H2 Su Sd Eu Ht Ew.
  destruct (ue_spec u Su) as [ue' [Eu' [_ Hue]]]. rewrite Eu in Eu'. injection Eu' as Eu'. rewrite <- Eu' in Hue. clear ue' Eu'.
  exists (fun t => match internal_force_of v E strain law c1 c2 (move u du t) with Ok f => f | _ => [] end). split.
  - intros t. destruct (force_spec strain law c1 c2 (move u du t) (move_shape u du t _ _ Su Sd)) as [uet [f [_ [-> _]]]]. reflexivity.
  - intros n j Hn Hj. destruct (force_spec strain (ddot42 td C) c1 c2 du Sd) as [due [w' [Ed [Ew' [_ [Hw _]]]]]]. rewrite Ew in Ew'. injection Ew' as Ew'. rewrite <- Ew' in Hw. clear w' Ew'.
    destruct (ue_spec du Sd) as [due' [Ed' [_ Hdue]]]. rewrite Ed in Ed'. injection Ed' as Ed'. rewrite <- Ed' in Hdue. clear due' Ed'.
    rewrite Hw by assumption. unfold sum_elem.
    apply (derivable_pt_lim_ext (fun t => sumn nelem (fun e => sumn nne (fun m => sumn ndim (fun i => ind (dof (node e m) i =? dof n j)%nat *
      sumn nip (fun q => sumn td (fun a => sumn td (fun b => law (fun k => strain E c1 (of_rows ue) k + t * strain E c1 (of_rows due) k) [e;q;a;b] * B e q a b m i)) * el_dV E [e;q]))))))%R.
    + intros t. destruct (force_spec strain law c1 c2 (move u du t) (move_shape u du t _ _ Su Sd)) as [uet [f [Et [Ef [_ [Hf _]]]]]]. rewrite Ef, Hf by assumption.
      destruct (ue_spec (move u du t) (move_shape u du t _ _ Su Sd)) as [uet' [Et' [_ Huet]]]. rewrite Et in Et'. injection Et' as Et'. rewrite <- Et' in Huet.
      unfold sum_elem. apply sumn_ext. intros e He. apply sumn_ext. intros m Hm. apply sumn_ext. intros i Hi. f_equal.
      rewrite (o_force nelem E B Ho) by assumption. apply sumn_ext. intros q Hq. f_equal. apply sumn_ext. intros a Ha. apply sumn_ext. intros b Hb. f_equal.
      apply (Hloc _ _ e q He Hq); try assumption. intros a' b' Ha' Hb'. symmetry. now apply (strain_move strain c1 u du ue due uet t e q a' b').
    + apply deriv_sumn. intros e He. apply deriv_sumn. intros m Hm. apply deriv_sumn. intros i Hi. apply deriv_scal.
      rewrite (o_force nelem E B Ho) by assumption. apply (deriv_sumn nip (fun q t => _)). intros q Hq. apply deriv_scal_r.
      apply (deriv_sumn td (fun a t => _)). intros a Ha. apply (deriv_sumn td (fun b t => _)). intros b Hb. apply deriv_scal_r.
      exact (Ht (strain E c1 (of_rows due)) e q a b He Hq Ha Hb).
Qed.

(** linear laws: the force is additive *)
Lemma force_add strain C c1 c2 u du fu fd : linear_strain strain -> valid_call nelem c1 -> valid_call nelem c2 -> shape2 u nnode ndim -> shape2 du nnode ndim ->
  internal_force_of v E strain (ddot42 td C) c1 c2 u = Ok fu -> internal_force_of v E strain (ddot42 td C) c1 c2 du = Ok fd ->
  exists f, internal_force_of v E strain (ddot42 td C) c1 c2 (add2 u du) = Ok f /\ shape2 f nnode ndim /\ forall n j, n < nnode -> j < ndim -> val2 f n j = (val2 fu n j + val2 fd n j)%R.
Proof.
  intros [B' HB] H1 H2 Su Sd Efu Efd.
  assert (Sm : shape2 (add2 u du) nnode ndim) by now apply zip2_shape.
  destruct (force_spec strain (ddot42 td C) c1 c2 u Su) as [ue [f1 [Eu [E1 [_ [V1 _]]]]]]. rewrite Efu in E1. injection E1 as E1. rewrite <- E1 in V1.
  destruct (force_spec strain (ddot42 td C) c1 c2 du Sd) as [due [f2 [Ed [E2 [_ [V2 _]]]]]]. rewrite Efd in E2. injection E2 as E2. rewrite <- E2 in V2.
  destruct (force_spec strain (ddot42 td C) c1 c2 _ Sm) as [sue [f [Es [Ef [Sf [Vf _]]]]]].
  destruct (ue_spec u Su) as [ue' [Eu' [_ Hue]]]. rewrite Eu in Eu'. injection Eu' as Eu'. rewrite <- Eu' in Hue.
  destruct (ue_spec du Sd) as [due' [Ed' [_ Hdue]]]. rewrite Ed in Ed'. injection Ed' as Ed'. rewrite <- Ed' in Hdue.
  destruct (ue_spec _ Sm) as [sue' [Es' [_ Hsue]]]. rewrite Es in Es'. injection Es' as Es'. rewrite <- Es' in Hsue.
  exists f. split; [exact Ef|]. split; [exact Sf|]. intros n j Hn Hj. rewrite Vf, V1, V2 by assumption. unfold sum_elem.
  rewrite <- sumn_plus. apply sumn_ext. intros e He. rewrite <- sumn_plus. apply sumn_ext. intros m Hm. rewrite <- sumn_plus. apply sumn_ext. intros i Hi.
  rewrite <- Rmult_plus_distr_l. f_equal. rewrite !(o_force nelem E B Ho) by assumption.
  rewrite <- sumn_plus. apply sumn_ext. intros q Hq. rewrite <- Rmult_plus_distr_r. f_equal. rewrite <- sumn_plus. apply sumn_ext. intros a Ha. rewrite <- sumn_plus. apply sumn_ext. intros b Hb.
  rewrite <- Rmult_plus_distr_r. f_equal. cbn [ddot42]. rewrite <- sumn_plus. apply sumn_ext. intros k Hk. rewrite <- sumn_plus. apply sumn_ext. intros l Hl.
  rewrite <- Rmult_plus_distr_l. f_equal. rewrite !HB by assumption. rewrite <- sumn_plus. apply sumn_ext. intros m' Hm'. rewrite <- sumn_plus. apply sumn_ext. intros k' Hk'.
  rewrite Hue, Hdue, Hsue by assumption. cbn [uel]. unfold add2. rewrite (zip2_val Rplus u du nnode ndim) by (try assumption; now apply (V_node v nelem nne nnode ndim ndof Hne Hnd Hmd)). ring.
Qed.
Lemma force_zero strain C c1 c2 u : linear_strain strain -> valid_call nelem c1 -> valid_call nelem c2 -> shape2 u nnode ndim ->
  (forall n j, n < nnode -> j < ndim -> val2 u n j = 0%R) ->
  exists f, internal_force_of v E strain (ddot42 td C) c1 c2 u = Ok f /\ shape2 f nnode ndim /\ forall n j, n < nnode -> j < ndim -> val2 f n j = 0%R.
Proof.
  intros Hlin H1 H2 Su H0. destruct (force_spec strain (ddot42 td C) c1 c2 u Su) as [ue [f [Eu [Ef [Sf [Vf _]]]]]]. exists f. split; [exact Ef|]. split; [exact Sf|].
  destruct (ue_spec u Su) as [ue' [Eu' [_ Hue]]]. rewrite Eu in Eu'. injection Eu' as Eu'. rewrite <- Eu' in Hue. destruct Hlin as [B' HB].
  intros n j Hn Hj. rewrite Vf by assumption. unfold sum_elem.
  apply sumn_zero. intros e He. apply sumn_zero. intros m Hm. apply sumn_zero. intros i Hi. rewrite (o_force nelem E B Ho) by assumption. rewrite sumn_zero; [ring|].
  intros q Hq. rewrite sumn_zero; [ring|]. intros a Ha. apply sumn_zero. intros b Hb. cbn [ddot42]. rewrite sumn_zero; [ring|]. intros k Hk. apply sumn_zero. intros l Hl.
  rewrite HB by assumption. rewrite sumn_zero; [ring|]. intros m' Hm'. apply sumn_zero. intros k' Hk'. rewrite Hue by assumption. cbn [uel]. rewrite H0; [ring| |assumption].
  now apply (V_node v nelem nne nnode ndim ndof Hne Hnd Hmd).
Qed.

(** ** solving *)
Variable iip : list nat.
Hypothesis Hiip : prescribed ndof iip.
Hypothesis Hh : no_holes (m_dofs v) ndof.
Variable linsolve : mat -> list R -> list R.

Lemma assemble_step ops a0 a s Ke : Forall (fun o => match o with PMat o => valid_op nelem nne ndim ndof o | _ => True end) ops ->
  new_MatrixPartitioned v iip = Ok a0 -> foldM (run_pop linsolve) ops (a0, new_Solver) = Ok (a, s) -> shape3 Ke nelem (nne * ndim) (nne * ndim) ->
  exists a', MP_assemble a Ke = Ok a' /\ mp_is v ndof iip a' (asm Ke) /\ p_fresh a' s.
Proof.
  intros Hok E0 Er SK. destruct (mp_new v nelem nne nnode ndim ndof Hne Hnd Hmd iip Hiip Hh) as [a0' [E0' [H0 _]]]. rewrite E0 in E0'. injection E0' as E0'. rewrite <- E0' in H0.
  destruct (run_pops_spec v nelem nne nnode ndim ndof Hne Hnd Hmd iip Hiip Hh linsolve ops a0 new_Solver _ (a, s) H0 (or_introl eq_refl) Hok Er) as [H1 F1]. cbn [fst snd] in H1, F1.
  destruct (run_mp_step v nelem nne nnode ndim ndof Hne Hnd Hmd iip Hiip Hh (OpAssemble Ke) a _ H1 SK) as [a' [Ea [H2 C2]]]. cbn [run_mp] in Ea.
  exists a'. split; [exact Ea|]. split; [|right; left; exact C2].
  eapply (mpis_ext v nelem nne nnode ndim ndof Hne Hnd Hmd iip Hiip Hh); [|exact H2]. intros r c. reflexivity.
Qed.

(** the solution of the assembled linear system, and the internal force of it *)
Lemma solve_step ops a0 a s cK C c1 c2 order b x : Forall (fun o => match o with PMat o => valid_op nelem nne ndim ndof o | _ => True end) ops ->
  new_MatrixPartitioned v iip = Ok a0 -> foldM (run_pop linsolve) ops (a0, new_Solver) = Ok (a, s) ->
  valid_call nelem cK -> valid_call nelem c1 -> valid_call nelem c2 -> Permutation order (node_iters v) ->
  (forall a', MP_assemble a (element_stiffness v E cK C) = Ok a' -> solves linsolve (A_uu a')) ->
  shape2 b nnode ndim -> agree2 (m_dofs v) nnode ndim b -> shape2 x nnode ndim -> agree2 (m_dofs v) nnode ndim x ->
  exists a' y s'' a'' f, MP_assemble a (element_stiffness v E cK C) = Ok a' /\ MPS_solve_nodevec a' linsolve s order b x = Ok (y, s'', a'') /\
    shape2 y nnode ndim /\ agree2 (m_dofs v) nnode ndim y /\ (forall m i, m < nnode -> i < ndim -> In (dof m i) iip -> val2 y m i = val2 x m i) /\
    internal_force_grad v E (ddot42 td C) c1 c2 y = Ok f /\ shape2 f nnode ndim /\
    (forall m i, m < nnode -> i < ndim -> ~ In (dof m i) iip -> val2 f m i = val2 b m i).
Proof.
  intros Hok E0 Er HK H1 H2 Hor Hsol Sb Ab Sx Ax.
  destruct (assemble_step ops a0 a s _ Hok E0 Er (K_shape cK C)) as [a' [Ea [Ia Fa]]].
  destruct (mp_solve_nodevec v nelem nne nnode ndim ndof Hne Hnd Hmd iip Hiip Hh linsolve a' _ s order b x Ia Fa (Hsol a' Ea) Hor Sb Ab Sx Ax)
    as [y [s'' [a'' [Es [_ [_ [Sy [Ay [Hp Hu]]]]]]]]].
  destruct (AsDofs_values v nelem nne nnode ndim ndof Hne Hnd Hmd order y Hor Sy Ay) as [Y [EY _]].
  destruct (K_mv cK C c1 c2 order y Y HK H1 H2 Hor Sy Ay EY) as [f [Ef [Sf Vf]]].
  exists a', y, s'', a'', f. repeat (split; [assumption|]). intros m i Hm Hi Hn. rewrite Vf by assumption. now apply Hu.
Qed.

Lemma statics_ok ops a0 a s p mem C fext disp0 bc : Forall (fun o => match o with PMat o => valid_op nelem nne ndim ndof o | _ => True end) ops ->
  new_MatrixPartitioned v iip = Ok a0 -> foldM (run_pop linsolve) ops (a0, new_Solver) = Ok (a, s) -> new_VectorPartitioned v iip = Ok p ->
  valid_memory nelem nnode ndim mem -> minor_symmetric nelem E C ->
  (forall a', MP_assemble a (element_stiffness v E (r_K mem) C) = Ok a' -> solves linsolve (A_uu a')) ->
  shape2 fext nnode ndim -> agree2 (m_dofs v) nnode ndim fext -> shape2 bc nnode ndim -> agree2 (m_dofs v) nnode ndim bc ->
  shape2 disp0 nnode ndim -> (forall n j, n < nnode -> j < ndim -> val2 disp0 n j = 0%R) ->
  exists disp fint fext' fres, statics linsolve mem p a s E (ddot42 td C) C fext disp0 bc = Ok (disp, fint, fext', fres) /\
    shape2 disp nnode ndim /\ agree2 (m_dofs v) nnode ndim disp /\ shape2 fres nnode ndim /\
    (forall c1 c2, valid_call nelem c1 -> valid_call nelem c2 -> internal_force v E (ddot42 td C) c1 c2 disp = Ok fint) /\
    forall m i, m < nnode -> i < ndim -> val2 fres m i = 0%R /\ (In (dof m i) iip -> val2 disp m i = val2 bc m i) /\
      (~ In (dof m i) iip -> val2 fext' m i = val2 fext m i) /\ val2 fext' m i = val2 fint m i.
Proof.
  intros Hok E0 Er Ep [M1 [M2 [M3 [M4 [M5 M6]]]]] HC Hsol Sf Af Sb Ab S0 Z0.
  assert (Nit : node_iters v = list_prod (seq 0 nnode) (seq 0 ndim)) by (unfold node_iters; destruct (V_sizes v nelem nne nnode ndim ndof Hne Hnd Hmd) as [_ [-> _]]; now rewrite Hnd).
  rewrite <- Nit in M6.
  assert (Vp : vp_v p = v) by (apply (vp_facts v nelem nne nnode ndim ndof Hne Hnd Hmd iip Hiip p Ep)).
  destruct (force_zero el_SymGradN_vector C (r_eps0 mem) (r_f0 mem) disp0 sym_linear M1 M2 S0 Z0) as [f0 [Ef0 [Sf0 Vf0]]].
  assert (Sr : shape2 (sub2 fext f0) nnode ndim) by now apply zip2_shape.
  assert (Vr : forall n j, n < nnode -> j < ndim -> val2 (sub2 fext f0) n j = val2 fext n j).
  { intros n j Hn Hj. unfold sub2. rewrite (zip2_val Rminus _ _ nnode ndim), Vf0 by assumption. lra. }
  assert (Ar : agree2 (m_dofs v) nnode ndim (sub2 fext f0)).
  { intros m i n j Hm Hi Hn Hj Ed. rewrite !Vr by assumption. now apply Af. }
  destruct (solve_step ops a0 a s (r_K mem) C (r_eps1 mem) (r_f1 mem) (r_order mem) (sub2 fext f0) bc Hok E0 Er M3 M4 M5 M6 Hsol Sr Ar Sb Ab)
    as [a' [y [s'' [a'' [f [Ea [Es [Sy [Ay [Hp [Ef [Sff Vf]]]]]]]]]]]].
  assert (Ef' : forall c1 c2, valid_call nelem c1 -> valid_call nelem c2 -> internal_force v E (ddot42 td C) c1 c2 y = Ok f).
  { intros c1 c2 H1 H2. rewrite <- Ef. now apply sym_force. }
  destruct (copy_spec v nelem nne nnode ndim ndof Hne Hnd Hmd iip Hiip p Ep f fext Sff Sf) as [U [P [_ [EP [_ [SP VP]]]]]].
  exists y, f, P, (sub2 P f). split.
  - unfold statics. rewrite Vp. unfold internal_force at 1. rewrite Ef0. cbn [bind]. rewrite Ea. cbn [bind]. rewrite Es. cbn [bind fst snd]. rewrite Ef' by assumption. cbn [bind]. rewrite EP. reflexivity.
  - split; [exact Sy|]. split; [exact Ay|]. split; [now apply zip2_shape|]. split; [exact Ef'|]. intros m i Hm Hi. destruct (VP m i Hm Hi) as [VP1 VP2].
    assert (EQ : val2 P m i = val2 f m i).
    { destruct (in_dec Nat.eq_dec (dof m i) iip) as [Hin|Hin]; [now apply VP1|]. rewrite (proj2 (VP2 Hin)), Vf, Vr by assumption. reflexivity. }
    split; [|split; [|split]].
    + unfold sub2. rewrite (zip2_val Rminus _ _ nnode ndim) by assumption. rewrite EQ. lra.
    + intros Hin. now apply Hp.
    + intros Hin. now apply VP2.
    + exact EQ.
Qed.

Lemma newton_ok ops a0 a s p mem C fext disp du : Forall (fun o => match o with PMat o => valid_op nelem nne ndim ndof o | _ => True end) ops ->
  new_MatrixPartitioned v iip = Ok a0 -> foldM (run_pop linsolve) ops (a0, new_Solver) = Ok (a, s) -> new_VectorPartitioned v iip = Ok p ->
  valid_memory nelem nnode ndim mem -> minor_symmetric nelem E C ->
  (forall a', MP_assemble a (element_stiffness v E (r_K mem) C) = Ok a' -> solves linsolve (A_uu a')) ->
  shape2 fext nnode ndim -> agree2 (m_dofs v) nnode ndim fext -> shape2 du nnode ndim -> agree2 (m_dofs v) nnode ndim du ->
  shape2 disp nnode ndim -> agree2 (m_dofs v) nnode ndim disp ->
  exists disp' a' s' fint fres, newton linsolve mem p E (ddot42 td C) C fext (disp, a, s) du = Ok (disp', a', s') /\
    foldM (run_pop linsolve) (ops ++ [PMat (OpAssemble (element_stiffness v E (r_K mem) C)); PSolveN (r_order mem) fres du]) (a0, new_Solver) = Ok (a', s') /\
    shape2 disp' nnode ndim /\ agree2 (m_dofs v) nnode ndim disp' /\
    (forall c1 c2, valid_call nelem c1 -> valid_call nelem c2 -> internal_force v E (ddot42 td C) c1 c2 disp' = Ok fint) /\
    forall m i, m < nnode -> i < ndim -> (In (dof m i) iip -> val2 disp' m i = (val2 disp m i + val2 du m i)%R) /\
      (~ In (dof m i) iip -> val2 fint m i = val2 fext m i).
Proof.
  intros Hok E0 Er Ep [M1 [M2 [M3 [M4 [M5 M6]]]]] HC Hsol Sf Af Sb Ab S0 A0.
  assert (Nit : node_iters v = list_prod (seq 0 nnode) (seq 0 ndim)) by (unfold node_iters; destruct (V_sizes v nelem nne nnode ndim ndof Hne Hnd Hmd) as [_ [-> _]]; now rewrite Hnd).
  rewrite <- Nit in M6.
  assert (Vp : vp_v p = v) by (apply (vp_facts v nelem nne nnode ndim ndof Hne Hnd Hmd iip Hiip p Ep)).
  destruct (force_spec el_SymGradN_vector (ddot42 td C) (r_eps0 mem) (r_f0 mem) disp S0) as [ue [f0 [_ [Ef0 [Sf0 [_ Af0]]]]]].
  assert (Sr : shape2 (sub2 fext f0) nnode ndim) by now apply zip2_shape.
  assert (Vr : forall n j, n < nnode -> j < ndim -> val2 (sub2 fext f0) n j = (val2 fext n j - val2 f0 n j)%R).
  { intros n j Hn Hj. unfold sub2. now rewrite (zip2_val Rminus _ _ nnode ndim). }
  assert (Ar : agree2 (m_dofs v) nnode ndim (sub2 fext f0)).
  { intros m i n j Hm Hi Hn Hj Ed. rewrite !Vr by assumption. rewrite (Af m i n j), (Af0 m i n j) by assumption. reflexivity. }
  destruct (solve_step ops a0 a s (r_K mem) C (r_eps0 mem) (r_f0 mem) (r_order mem) (sub2 fext f0) du Hok E0 Er M3 M1 M2 M6 Hsol Sr Ar Sb Ab)
    as [a' [y [s'' [a'' [f [Ea [Es [Sy [Ay [Hp [Ef [Sff Vf]]]]]]]]]]]].
  assert (Efs : internal_force v E (ddot42 td C) (r_eps0 mem) (r_f0 mem) y = Ok f) by (rewrite <- Ef; now apply sym_force).
  destruct (force_add el_SymGradN_vector C (r_eps0 mem) (r_f0 mem) disp y f0 f sym_linear M1 M2 S0 Sy Ef0 Efs) as [g [Eg [Sg Vg]]].
  assert (Sd : shape2 (add2 disp y) nnode ndim) by now apply zip2_shape.
  exists (add2 disp y), a'', s'', g, (sub2 fext f0). split; [|split].
  - unfold newton. rewrite Vp. cbn [fst snd]. unfold internal_force at 1. rewrite Ef0. cbn [bind]. rewrite Ea. cbn [bind]. rewrite Es. reflexivity.
  - rewrite foldM_app, Er. cbn [bind foldM run_pop run_mp fst snd]. rewrite Ea. cbn [bind fst snd]. rewrite Es. reflexivity.
  - split; [exact Sd|]. split.
    { intros m i n j Hm Hi Hn Hj Ed. unfold add2. rewrite !(zip2_val Rplus _ _ nnode ndim) by assumption. rewrite (A0 m i n j), (Ay m i n j) by assumption. reflexivity. }
    split.
    { intros c1 c2 H1 H2. rewrite <- Eg. change (internal_force v E (ddot42 td C) c1 c2 (add2 disp y) = internal_force v E (ddot42 td C) (r_eps0 mem) (r_f0 mem) (add2 disp y)).
      rewrite (sym_force C c1 c2 c1 c2), (sym_force C (r_eps0 mem) (r_f0 mem) c1 c2) by assumption. reflexivity. }
    intros m i Hm Hi. split; intros Hin.
    + unfold add2. rewrite (zip2_val Rplus _ _ nnode ndim) by assumption. now rewrite Hp.
    + rewrite Vg, Vf, Vr by assumption. lra.
Qed.

(** any number of iterations, with increments of the prescribed displacements *)
Lemma newton_steps p C (mems : list (run_memory * list (list R) * list (list R))) : new_VectorPartitioned v iip = Ok p -> minor_symmetric nelem E C ->
  (forall K K' c, MP_p K = p -> valid_call nelem c -> MP_assemble K (element_stiffness v E c C) = Ok K' -> solves linsolve (A_uu K')) ->
  (forall mem fext du, In (mem, fext, du) mems -> valid_memory nelem nnode ndim mem /\ shape2 fext nnode ndim /\ agree2 (m_dofs v) nnode ndim fext /\ shape2 du nnode ndim /\ agree2 (m_dofs v) nnode ndim du) ->
  forall a0 ops a s disp, new_MatrixPartitioned v iip = Ok a0 -> Forall (fun o => match o with PMat o => valid_op nelem nne ndim ndof o | _ => True end) ops ->
  foldM (run_pop linsolve) ops (a0, new_Solver) = Ok (a, s) -> shape2 disp nnode ndim -> agree2 (m_dofs v) nnode ndim disp ->
  exists disp' a' s', foldM (fun st x => newton linsolve (fst (fst x)) p E (ddot42 td C) C (snd (fst x)) st (snd x)) mems (disp, a, s) = Ok (disp', a', s') /\
    shape2 disp' nnode ndim /\ agree2 (m_dofs v) nnode ndim disp' /\
    (forall m i, m < nnode -> i < ndim -> In (dof m i) iip -> val2 disp' m i = (val2 disp m i + sumL mems (fun x => val2 (snd x) m i))%R) /\
    (forall c1 c2, valid_call nelem c1 -> valid_call nelem c2 -> forall mem fext du, last mems (mem, fext, du) = (mem, fext, du) -> mems <> [] ->
       exists fint, internal_force v E (ddot42 td C) c1 c2 disp' = Ok fint /\ forall m i, m < nnode -> i < ndim -> ~ In (dof m i) iip -> val2 fint m i = val2 fext m i).
Proof.
  intros Ep HC Hsol. induction mems as [|[[mem fext] du] mems IH]; intros Hin a0 ops a s disp E0 Hok Er Sd Ad.
  - exists disp, a, s. cbn. split; [reflexivity|]. split; [exact Sd|]. split; [exact Ad|]. split; [intros; lra|]. intros; contradiction.
  - destruct (Hin mem fext du (or_introl eq_refl)) as [Hm [Sf [Af [Su Au]]]]. pose proof Hm as [M1 [M2 [M3 _]]].
    assert (Hs : forall a', MP_assemble a (element_stiffness v E (r_K mem) C) = Ok a' -> solves linsolve (A_uu a')).
    { intros a' Ea. apply (Hsol a a' (r_K mem)); try assumption.
      destruct (mp_new v nelem nne nnode ndim ndof Hne Hnd Hmd iip Hiip Hh) as [a0' [E0' [H0 _]]]. rewrite E0 in E0'. injection E0' as E0'. rewrite <- E0' in H0.
      destruct (run_pops_spec v nelem nne nnode ndim ndof Hne Hnd Hmd iip Hiip Hh linsolve ops a0 new_Solver _ (a, s) H0 (or_introl eq_refl) Hok Er) as [[[H1 _] _] _].
      cbn [fst] in H1. rewrite Ep in H1. now injection H1. }
    destruct (newton_ok ops a0 a s p mem C fext disp du Hok E0 Er Ep Hm HC Hs Sf Af Su Au Sd Ad) as [d1 [a1 [s1 [f1 [r1 [En [Er1 [S1 [A1 [F1 V1]]]]]]]]]].
    assert (Hok1 : Forall (fun o => match o with PMat o => valid_op nelem nne ndim ndof o | _ => True end) (ops ++ [PMat (OpAssemble (element_stiffness v E (r_K mem) C)); PSolveN (r_order mem) r1 du])).
    { apply Forall_app. split; [exact Hok|]. constructor; [apply K_shape|]. constructor; [exact I|constructor]. }
    destruct (IH (fun m f u H => Hin m f u (or_intror H)) a0 _ a1 s1 d1 E0 Hok1 Er1 S1 A1) as [d2 [a2 [s2 [E2 [S2 [A2 [V2 F2]]]]]]].
    exists d2, a2, s2. split.
    { cbn [foldM fst snd]. rewrite En. cbn [bind]. exact E2. }
    split; [exact S2|]. split; [exact A2|]. split.
    { intros m i Hmm Hi Hp. rewrite V2 by assumption. rewrite (proj1 (V1 m i Hmm Hi) Hp). cbn [sumL fold_right snd]. unfold sumL. lra. }
    intros c1 c2 H1 H2 mem' fext' du' Hl _. destruct mems as [|x mems].
    + cbn [foldM] in E2. injection E2 as <- _ _. cbn [last] in Hl. injection Hl as <- <- <-. exists f1. split; [now apply F1|]. intros m i Hmm Hi Hn. now apply V1.
    + apply (F2 c1 c2 H1 H2 mem' fext' du'); [exact Hl|discriminate].
Qed.
End A.
