(** Balance of the assembled internal forces, and momentum of the dynamics program. *)
From Coq Require Import Reals Lra Lia.
From Verif Require Import Model_Element Spec_Element Proof_Element Proof_ElementQuad4 Proof_ElementMath Proof_ElementThm Proof_ElementThm2 Proof_ElementThm3 Prop_ElementQuad4 Prop_ElementPlanar Prop_ElementHex8
  Base Spec Sums Spec_Vector Spec_Matrix Model_Numbering Model_Vector Proof_Vector Model_MatrixDiagonal Proof_MatrixDiagonal Model_MeshGeometry Model_Pipeline Spec_Pipeline Proof_PipelineElem Proof_Pipeline.

Lemma cart_elem nelem x E : cartesian_obj nelem x E -> elem_obj nelem x E.
Proof. intros []; econstructor; eassumption. Qed.
Lemma regular_cart nelem x E : regular2_obj nelem x E -> cartesian_obj nelem x E.
Proof. intros []; econstructor; eassumption. Qed.

Lemma sumn_nonneg n f : (forall i, i < n -> (0 <= f i)%R) -> (0 <= sumn n f)%R.
Proof.
  induction n as [|n IH]; intros H; [unfold sumn, sumL; cbn; lra|]. rewrite sumn_S. pose proof (H n ltac:(lia)). pose proof (IH (fun i Hi => H i ltac:(lia))). lra.
Qed.

(** the forces of one element are in balance *)
Lemma cart_zero nelem x E : cartesian_obj nelem x E -> forall c sig e k, valid_call nelem c -> e < nelem -> k < el_ndim E ->
  sumn (el_nne E) (fun m => el_Int_gradN_dot_tensor2_dV E c sig [e;m;k]) = 0%R.
Proof.
  intros [nip xi w x' Q H|nip xi w thick x' P H|nip xi w x' Q H] c sig e k Hc He Hk.
  - exact (C59_zero _ _ _ _ _ _ H _ Hc sig _ e k He Hk).
  - pose proof (Planar_raw _ _ _ _ _ _ _ H) as Ho. pose proof (proj2 (Planar_facts _ _ _ _ _ _ _ H)) as F.
    rewrite (sumn_ext _ _ _ (fun m Hm => o_force nelem _ _ Ho c sig e m k Hc He Hm Hk)). rewrite sumn_swap. apply sumn_zero. intros q Hq.
    rewrite sumn_scal_r. replace (sumn _ _) with 0%R; [ring|]. symmetry. rewrite sumn_swap. apply sumn_zero. intros i Hi. rewrite sumn_swap. apply sumn_zero. intros j Hj.
    rewrite sumn_scal. unfold Bplanar. destruct (Nat.ltb_spec i 2) as [Hi2|]; [destruct (Nat.ltb_spec j 2)|]; cbn [andb].
    + unfold Bcart. rewrite sumn_scal. cbn [Planar_elem el_nne].
      rewrite (sumn_ext 4 _ (fun m => gshape2 (nodes x' e) m i (point xi q))); [rewrite gshape2_sum by assumption; ring|].
      intros m Hm. apply (f_dNx F); try assumption. cbn in Hq. now rewrite (f_nip F) in Hq.
    + rewrite sumn_zero by reflexivity. ring.
    + rewrite sumn_zero by reflexivity. ring.
  - exact (C74_zero _ _ _ _ _ _ H _ Hc sig _ e k He Hk).
Qed.

(** the moment of the forces of one element, for a symmetric stress *)
Lemma regular_moment nelem x E : regular2_obj nelem x E -> forall c sig e, valid_call nelem c -> e < nelem ->
  all_points nelem E (fun e q i j => sig [e;q;i;j] = sig [e;q;j;i]) ->
  sumn (el_nne E) (fun m => x [e;m;0]%nat * el_Int_gradN_dot_tensor2_dV E c sig [e;m;1]%nat - x [e;m;1]%nat * el_Int_gradN_dot_tensor2_dV E c sig [e;m;0]%nat)%R = 0%R.
Proof.
  intros H c sig e Hc He Hs. set (u := fun k : list nat => match k with [e;m;i] => match i with O => - x [e;m;1]%nat | _ => x [e;m;0]%nat end | _ => 0 end%R).
  assert (D : el_ndim E = 2) by (destruct H; reflexivity).
  destruct (elem_obj_raw _ _ _ (cart_elem _ _ _ (regular_cart _ _ _ H))) as [B Ho].
  transitivity (sumn (el_nne E) (fun m => sumn (el_ndim E) (fun k => el_Int_gradN_dot_tensor2_dV E c sig [e;m;k] * u [e;m;k]))%R).
  { apply sumn_ext. intros m Hm. rewrite D. unfold sumn, sumL. cbn [seq fold_right u]. ring. }
  rewrite (o_vw nelem E B Ho c c sig u e Hc Hc He). apply sumn_zero. intros q Hq.
  set (W := fun j i : nat => match j, i with O, 1 => (-1)%R | 1, O => 1%R | _, _ => 0%R end).
  assert (Aff : affine 2 4 (fun _ => 0%R) W x u e).
  { intros m j Hm Hj. unfold sumn, sumL. cbn [seq fold_right]. destruct j as [|[|j]]; [| |lia]; cbn [u W]; ring. }
  assert (G : forall i j, i < 2 -> j < 2 -> el_GradN_vector E c u [e;q;i;j] = W j i).
  { intros i j Hi Hj. destruct H as [nip xi w x Q HQ HJ|nip xi w thick x P HP HJ].
    - unrec. rewrite (C56_affine _ _ _ _ _ _ HQ _ Hc (fun _ => 0%R) W u) ; try assumption; try reflexivity; [|apply HJ]; try assumption; cbn in Hq; now rewrite (f_nip (Quad4_facts _ _ _ _ _ _ HQ)) in Hq.
    - pose proof (Quad4_obj_new nelem nip xi w (c_es c) x (fun _ => 0%R) (fun _ => 0%R) (fun _ => 0%R) (fun _ => 0%R) (fun _ => 0%R) Hc) as HQ.
      assert (Hq' : q < nip) by (cbn in Hq; now rewrite (f_nip (proj2 (Planar_facts _ _ _ _ _ _ _ HP))) in Hq).
      unrec. rewrite (proj1 (C61_in_plane _ _ _ _ _ _ _ _ HP HQ _ Hc u (c_old c) (c_old c) e q i j He Hq' Hi Hj)).
      rewrite (C56_affine _ _ _ _ _ _ HQ _ Hc (fun _ => 0%R) W u); try assumption; try reflexivity. now apply HJ. }
  assert (S01 : sig [e;q;0;1] = sig [e;q;1;0]) by (apply Hs; try assumption; destruct H; cbn; lia).
  destruct H as [nip xi w x Q HQ HJ|nip xi w thick x P HP HJ].
  - cbn [Quad4_elem el_tdim el_dV]. unfold sumn at 1 2, sumL. cbn [seq fold_right]. cbn [Quad4_elem el_GradN_vector] in G. unfold sumn, sumL. cbn [seq fold_right]. cbn [Quad4_elem el_GradN_vector].
    rewrite !G by lia. cbn [W]. rewrite S01. ring.
  - assert (Hq' : q < nip) by (cbn in Hq; now rewrite (f_nip (proj2 (Planar_facts _ _ _ _ _ _ _ HP))) in Hq).
    cbn [Planar_elem el_tdim el_dV]. unfold sumn, sumL. cbn [seq fold_right]. cbn [Planar_elem el_GradN_vector] in G |- *.
    rewrite (G 0 0), (G 0 1), (G 1 0), (G 1 1) by lia. 
    assert (O : forall i j, i = 2 \/ j = 2 -> i < 3 -> j < 3 -> Planar_gradN_vector (c_es c) P u (c_old c) [e;q;i;j] = 0%R).
    { intros i j Hij Hi Hj. unrec. apply (C61_out_of_plane _ _ _ _ _ _ _ HP _ Hc); lia. }
    rewrite (O 0 2), (O 1 2), (O 2 0), (O 2 1), (O 2 2) by lia. cbn [W]. rewrite S01. ring.
Qed.

Section B.
Set Default Proof Using "All".
Variable v : Vector.
Variable E : Elem.
Variables nelem nnode ndof : nat.
Notation nne := (el_nne E). Notation ndim := (el_ndim E). Notation td := (el_tdim E). Notation nip := (el_nip E).
Hypothesis Hne : m_nne v = nne.
Hypothesis Hnd : m_ndim v = ndim.
Hypothesis Hmd : mesh_dofs (m_conn v) (m_dofs v) nelem nne nnode ndim ndof.
Variable x : arr.
Notation dof := (idx2 (m_dofs v)).
Notation node := (idx2 (m_conn v)).

Lemma virtual_work c c' sig y Y : elem_obj nelem x E -> valid_call nelem c -> valid_call nelem c' -> length y = ndof -> AsElement_dofval v y = Ok Y ->
  exists b, AssembleDofs_elemvec v (to_rows nelem nne ndim (el_Int_gradN_dot_tensor2_dV E c sig)) = Ok b /\ length b = ndof /\
    sumn ndof (fun d => val1 y d * val1 b d)%R = integral nelem E sig (el_GradN_vector E c' (of_rows Y)).
Proof.
  intros H Hc Hc' L EY. destruct (elem_obj_raw _ _ _ H) as [B Ho].
  destruct (AssembleDofs_elemvec_spec v nelem nne nnode ndim ndof Hne Hnd Hmd _ (to_rows_shape nelem nne ndim (el_Int_gradN_dot_tensor2_dV E c sig))) as [b [Eb [Lb _]]].
  exists b. split; [exact Eb|]. split; [exact Lb|].
  rewrite (assemble_adjoint v nelem nne nnode ndim ndof Hne Hnd Hmd y _ Y b L (to_rows_shape _ _ _ _) EY Eb). unfold sum_elem, integral. apply sumn_ext. intros e He.
  rewrite <- (o_vw nelem E B Ho c c' sig (of_rows Y) e Hc Hc' He). apply sumn_ext. intros m Hm. apply sumn_ext. intros i Hi. rewrite to_rows_val by assumption. rewrite of_rows_val. ring.
Qed.

Lemma work_elem c sig y b : length y = ndof -> AssembleDofs_elemvec v (to_rows nelem nne ndim (el_Int_gradN_dot_tensor2_dV E c sig)) = Ok b ->
  sumn ndof (fun d => val1 y d * val1 b d)%R = sumn nelem (fun e => sumn nne (fun m => sumn ndim (fun i => val1 y (dof (node e m) i) * el_Int_gradN_dot_tensor2_dV E c sig [e;m;i])))%R.
Proof.
  intros L Eb. destruct (AsElement_dofval_spec v nelem nne nnode ndim ndof Hne Hnd Hmd y L) as [Y [EY [_ HY]]].
  rewrite (assemble_adjoint v nelem nne nnode ndim ndof Hne Hnd Hmd y _ Y b L (to_rows_shape _ _ _ _) EY Eb). unfold sum_elem.
  apply sumn_ext. intros e He. apply sumn_ext. intros m Hm. apply sumn_ext. intros i Hi. now rewrite to_rows_val, HY.
Qed.

Lemma translation c sig y b t : cartesian_obj nelem x E -> valid_call nelem c -> length y = ndof ->
  (forall n i, n < nnode -> i < ndim -> val1 y (dof n i) = t i) ->
  AssembleDofs_elemvec v (to_rows nelem nne ndim (el_Int_gradN_dot_tensor2_dV E c sig)) = Ok b ->
  sumn ndof (fun d => val1 y d * val1 b d)%R = 0%R.
Proof.
  intros H Hc L Hy Eb. rewrite (work_elem c sig y b L Eb). apply sumn_zero. intros e He. rewrite sumn_swap. apply sumn_zero. intros i Hi.
  rewrite (sumn_ext nne _ (fun m => t i * el_Int_gradN_dot_tensor2_dV E c sig [e;m;i])%R).
  - rewrite sumn_scal, (cart_zero _ _ _ H c sig e i Hc He Hi). ring.
  - intros m Hm. rewrite Hy; [reflexivity| |assumption]. now apply (V_node v nelem nne nnode ndim ndof Hne Hnd Hmd).
Qed.

Lemma rotation c sig y b : regular2_obj nelem x E -> valid_call nelem c -> length y = ndof ->
  (forall e m, e < nelem -> m < nne -> val1 y (dof (node e m) 0) = (- x [e;m;1]%nat)%R /\ val1 y (dof (node e m) 1) = x [e;m;0]%nat) ->
  all_points nelem E (fun e q i j => sig [e;q;i;j] = sig [e;q;j;i]) ->
  AssembleDofs_elemvec v (to_rows nelem nne ndim (el_Int_gradN_dot_tensor2_dV E c sig)) = Ok b ->
  sumn ndof (fun d => val1 y d * val1 b d)%R = 0%R.
Proof.
  intros H Hc L Hy Hs Eb. rewrite (work_elem c sig y b L Eb). apply sumn_zero. intros e He.
  rewrite <- (regular_moment _ _ _ H c sig e Hc He Hs). apply sumn_ext. intros m Hm. destruct (Hy e m He Hm) as [Y0 Y1].
  assert (D : ndim = 2) by (destruct H; reflexivity). rewrite D. unfold sumn, sumL. cbn [seq fold_right]. rewrite Y0, Y1. ring.
Qed.
End B.
