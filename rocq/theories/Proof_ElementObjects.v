(** Constructors, update_x and methods in memory against the objects of Model_Element.v. *)
From Coq Require Import Reals.
From Verif Require Import Model_Element Spec_Element Base Model_Checked Model_ElementMemory Spec_ElementMemory Proof_Checked Proof_ElementMemory Proof_ElementKernels.

Definition obj_nip (O : object) : nat := match O with OQuad4 Q | OHex8 Q => q_nip Q | OPlanar P => q_nip (p_base P) | OAxisym A => a_nip A end.
Definition obj_w (O : object) : arr := match O with OQuad4 Q | OHex8 Q => q_w Q | OPlanar P => q_w (p_base P) | OAxisym A => a_w A end.
Definition obj_dNxi (O : object) : arr := match O with OQuad4 Q | OHex8 Q => q_dNxi Q | OPlanar P => q_dNxi (p_base P) | OAxisym A => a_dNxi A end.

Definition represents (c : eclass) (nelem nip : nat) (xi w x : buf) (Q : quad) (O : object) : Prop :=
  is_object c nelem nip (entry xi) (entry w) (entry x) O /\ m_nelem Q = nelem /\ m_nip Q = nip /\ obj_nip O = nip /\ b_shape (m_x Q) = [nelem; nodes_per_element c; dimension c] /\
  stored [nip] (m_w Q) (obj_w O) /\ stored [nip; nodes_per_element c] (m_N Q) (obj_N O) /\ stored [nip; nodes_per_element c; dimension c] (m_dNxi Q) (obj_dNxi O) /\
  stored (gradient_shape c nelem nip) (m_grad Q) (obj_grad O) /\ stored [nelem; nip] (m_vol Q) (obj_vol O) /\ m_x Q = x /\
  (match c, O with CPlanar t, OPlanar P => p_thick P = t | _, _ => True end).

Lemma sched_lt nelem es : Spec_Element.schedule nelem es -> forall e, In e es -> e < nelem.
Proof. intros H e He. apply (Permutation_in _ H) in He. apply in_seq in He. lia. Qed.
Lemma stored_of b s : array b -> b_shape b = s -> stored s b (entry b).
Proof. intros H <-. now apply stored_entry. Qed.
Lemma uninit_stored s g : stored s (uninit s g) (entry (uninit s g)).
Proof. apply stored_of; [apply uninit_array | reflexivity]. Qed.
Lemma has_shape_iff s t : has_shape s t = true <-> s = t.
Proof. split; [apply has_shape_eq|]. intros ->. apply has_shape_refl. Qed.

Lemma new_rep ck c es g1 g2 g3 g4 junk nelem nip x xi w : schedules es -> array x -> array xi -> array w -> documented c nelem nip x xi w ->
  exists Q O, new_quad ck c es g1 g2 g3 g4 junk x xi w = Ok Q /\ represents c nelem nip xi w x Q O.
Proof.
  intros Hes Ax Axi Aw (Ex & Exi & Ew). pose proof (Hes nelem) as Hs. pose proof (sched_lt _ _ Hs) as Hlt.
  pose proof (stored_of _ _ Ax Ex) as Sx. pose proof (stored_of _ _ Axi Exi) as Sxi. pose proof (stored_of _ _ Aw Ew) as Sw.
  assert (chk : forall k : res quad, assert ck (nodes_per_element c =? s_nne c) (assert ck (dimension c =? s_ndim c) (assert ck (has_shape [nip; dimension c] [nip; s_ndim c]) (assert ck (has_shape [nip] [nip]) k))) = k).
  { intro k. assert (E1 : nodes_per_element c = s_nne c) by (destruct c; reflexivity). assert (E2 : dimension c = s_ndim c) by (destruct c; reflexivity).
    rewrite E1, E2, !Nat.eqb_refl, !has_shape_refl, !assert_true. reflexivity. }
  unfold new_quad. rewrite Ex, Exi, Ew. cbv zeta.
  destruct c as [|t| |].
  - destruct (Quad4_N_ok nip nip 2 xi _ _ _ (le_n _) (le_n _) Sxi (uninit_stored [nip; 4] g1)) as (N & EN & SN).
    destruct (Quad4_dNxi_ok nip nip 2 xi _ _ _ (le_n _) (le_n _) Sxi (uninit_stored [nip; 4; 2] g2)) as (D & ED & SD).
    destruct (Quad4_dN nelem nip (es nelem) Hlt junk w _ D _ x _ (fun w d => (w * d)%R) (uninit [nelem; nip; 4; 2] g3, uninit [nelem; nip] g4) (entry (uninit [nelem; nip; 4; 2] g3), entry (uninit [nelem; nip] g4)) Sw SD Sx) as (st & Est & Sg & Sv);
      [split; apply uninit_stored|].
    cbn [s_nne s_ndim] in *. rewrite EN. cbn [bind]. rewrite ED. cbn [bind]. rewrite chk. cbn [m_compute_dN shape_grad s_nne s_ndim]. rewrite Est. cbn [bind].
    eexists. exists (OQuad4 (Quad4_new (es nelem) nelem (entry x) nip (entry xi) (entry w) (entry (uninit [nip; 4] g1)) (entry (uninit [nip; 4; 2] g2)) (entry (uninit [nelem; nip; 4; 2] g3)) (entry (uninit [nelem; nip] g4)) junk)).
    split; [reflexivity|]. unfold represents. cbn. repeat split; try assumption; try reflexivity; try (apply Sw || apply SN || apply SD || apply Sg || apply Sv). now constructor.
  - destruct (Quad4_N_ok nip nip 2 xi _ _ _ (le_n _) (le_n _) Sxi (uninit_stored [nip; 4] g1)) as (N & EN & SN).
    destruct (Quad4_dNxi_ok nip nip 2 xi _ _ _ (le_n _) (le_n _) Sxi (uninit_stored [nip; 4; 2] g2)) as (D & ED & SD).
    destruct (Quad4_dN nelem nip (es nelem) Hlt junk w _ D _ x _ (fun w d => (w * d * t)%R) (uninit [nelem; nip; 4; 2] g3, uninit [nelem; nip] g4) (entry (uninit [nelem; nip; 4; 2] g3), entry (uninit [nelem; nip] g4)) Sw SD Sx) as (st & Est & Sg & Sv);
      [split; apply uninit_stored|].
    cbn [s_nne s_ndim] in *. rewrite EN. cbn [bind]. rewrite ED. cbn [bind]. rewrite chk. cbn [m_compute_dN shape_grad s_nne s_ndim]. rewrite Est. cbn [bind].
    eexists. exists (OPlanar (Planar_new (es nelem) nelem (entry x) nip (entry xi) (entry w) t (entry (uninit [nip; 4] g1)) (entry (uninit [nip; 4; 2] g2)) (entry (uninit [nelem; nip; 4; 2] g3)) (entry (uninit [nelem; nip] g4)) junk)).
    split; [reflexivity|]. unfold represents. cbn. repeat split; try assumption; try reflexivity; try (apply Sw || apply SN || apply SD || apply Sg || apply Sv). now constructor.
  - destruct (Quad4_N_ok nip nip 2 xi _ _ _ (le_n _) (le_n _) Sxi (uninit_stored [nip; 4] g1)) as (N & EN & SN).
    destruct (Quad4_dNxi_ok nip nip 2 xi _ _ _ (le_n _) (le_n _) Sxi (uninit_stored [nip; 4; 2] g2)) as (D & ED & SD).
    destruct (Axisym_dN nelem nip (es nelem) Hlt junk w _ N _ D _ x _ (uninit [nelem; nip; 4; 3; 3; 3] g3, uninit [nelem; nip] g4) (entry (uninit [nelem; nip; 4; 3; 3; 3] g3), entry (uninit [nelem; nip] g4)) Sw SN SD Sx) as (st & Est & Sg & Sv);
      [split; apply uninit_stored|].
    rewrite chk. cbn [s_nne s_ndim] in *. rewrite EN. cbn [bind]. rewrite ED. cbn [bind]. cbn [m_compute_dN shape_grad s_nne s_ndim]. rewrite Est. cbn [bind].
    eexists. exists (OAxisym (Axisym_new (es nelem) nelem (entry x) nip (entry xi) (entry w) (entry (uninit [nip; 4] g1)) (entry (uninit [nip; 4; 2] g2)) (entry (uninit [nelem; nip; 4; 3; 3; 3] g3)) (entry (uninit [nelem; nip] g4)) junk)).
    split; [reflexivity|]. unfold represents. cbn. repeat split; try assumption; try reflexivity; try (apply Sw || apply SN || apply SD || apply Sg || apply Sv). now constructor.
  - destruct (Hex8_N_ok nip nip 3 xi _ _ _ (le_n _) (le_n _) Sxi (uninit_stored [nip; 8] g1)) as (N & EN & SN).
    destruct (Hex8_dNxi_ok nip nip 3 xi _ _ _ (le_n _) (le_n _) Sxi (uninit_stored [nip; 8; 3] g2)) as (D & ED & SD).
    destruct (base_dN nelem nip (es nelem) Hlt 8 3 det3 inv3 junk w _ D _ x _ (uninit [nelem; nip; 8; 3] g3, uninit [nelem; nip] g4) (entry (uninit [nelem; nip; 8; 3] g3), entry (uninit [nelem; nip] g4)) Sw SD Sx) as (st & Est & Sg & Sv);
      [split; apply uninit_stored|].
    cbn [s_nne s_ndim] in *. rewrite EN. cbn [bind]. rewrite ED. cbn [bind]. rewrite chk. cbn [m_compute_dN shape_grad s_nne s_ndim]. rewrite Est. cbn [bind].
    eexists. exists (OHex8 (Hex8_new (es nelem) nelem (entry x) nip (entry xi) (entry w) (entry (uninit [nip; 8] g1)) (entry (uninit [nip; 8; 3] g2)) (entry (uninit [nelem; nip; 8; 3] g3)) (entry (uninit [nelem; nip] g4)) junk)).
    split; [reflexivity|]. unfold represents. cbn. repeat split; try assumption; try reflexivity; try (apply Sw || apply SN || apply SD || apply Sg || apply Sv). now constructor.
Qed.

Lemma update_rep ck c es junk nelem nip xi w x0 x Q O : schedules es -> array x -> represents c nelem nip xi w x0 Q O ->
  b_shape x = [nelem; nodes_per_element c; dimension c] ->
  exists Q' O', update_x ck c es junk x Q = Ok Q' /\ represents c nelem nip xi w x Q' O'.
Proof.
  intros Hes Ax (HO & E1 & E2 & E3 & Ex0 & Sw & SN & SD & Sg & Sv & Ex' & Ht) Ex. pose proof (Hes nelem) as Hs. pose proof (sched_lt _ _ Hs) as Hlt.
  pose proof (stored_of _ _ Ax Ex) as Sx. unfold update_x. rewrite Ex0, Ex, has_shape_refl, assert_true, E1, E2.
  destruct c as [|t| |]; destruct O as [F|F|F|F]; cbn [is_object] in HO; try tauto; cbn [m_compute_dN obj_w obj_N obj_dNxi obj_grad obj_vol obj_nip gradient_shape] in *.
  - destruct (Quad4_dN nelem nip (es nelem) Hlt junk (m_w Q) _ (m_dNxi Q) _ x _ (fun w d => (w * d)%R) (m_grad Q, m_vol Q) (q_dNx F, q_vol F) Sw SD Sx) as (st & Est & Sg' & Sv'); [now split|].
    pose proof (Quad4_obj_update _ _ _ _ (es nelem) _ _ (entry x) junk Hs HO) as HO'. unfold Quad4_update_x in HO'. rewrite E3 in HO'.
    rewrite Est. cbn [bind]. eexists. exists (OQuad4 (Quad4_update_x (es nelem) junk (entry x) F)). split; [reflexivity|]. unfold represents, Quad4_update_x. rewrite E3. cbn.
    repeat split; try assumption; try reflexivity; try (apply Sw || apply SN || apply SD || apply Sg' || apply Sv').
  - destruct (Quad4_dN nelem nip (es nelem) Hlt junk (m_w Q) _ (m_dNxi Q) _ x _ (fun w d => (w * d * t)%R) (m_grad Q, m_vol Q) (q_dNx (p_base F), q_vol (p_base F)) Sw SD Sx) as (st & Est & Sg' & Sv'); [now split|].
    pose proof (Planar_obj_update _ _ _ _ _ (es nelem) _ _ (entry x) junk Hs HO) as HO'. unfold Planar_update_x in HO'. rewrite E3, Ht in HO'.
    rewrite Est. cbn [bind]. eexists. exists (OPlanar (Planar_update_x (es nelem) junk (entry x) F)). split; [reflexivity|]. unfold represents, Planar_update_x. rewrite E3, Ht. cbn.
    repeat split; try assumption; try reflexivity; try (apply Sw || apply SN || apply SD || apply Sg' || apply Sv').
  - destruct (Axisym_dN nelem nip (es nelem) Hlt junk (m_w Q) _ (m_N Q) _ (m_dNxi Q) _ x _ (m_grad Q, m_vol Q) (a_B F, a_vol F) Sw SN SD Sx) as (st & Est & Sg' & Sv'); [now split|].
    pose proof (Axisym_obj_update _ _ _ _ (es nelem) _ _ (entry x) junk Hs HO) as HO'. unfold Axisym_update_x in HO'. rewrite E3 in HO'.
    rewrite Est. cbn [bind]. eexists. exists (OAxisym (Axisym_update_x (es nelem) junk (entry x) F)). split; [reflexivity|]. unfold represents, Axisym_update_x. rewrite E3. cbn.
    repeat split; try assumption; try reflexivity; try (apply Sw || apply SN || apply SD || apply Sg' || apply Sv').
  - destruct (base_dN nelem nip (es nelem) Hlt 8 3 det3 inv3 junk (m_w Q) _ (m_dNxi Q) _ x _ (m_grad Q, m_vol Q) (q_dNx F, q_vol F) Sw SD Sx) as (st & Est & Sg' & Sv'); [now split|].
    pose proof (Hex8_obj_update _ _ _ _ (es nelem) _ _ (entry x) junk Hs HO) as HO'. unfold Hex8_update_x in HO'. rewrite E3 in HO'.
    rewrite Est. cbn [bind]. eexists. exists (OHex8 (Hex8_update_x (es nelem) junk (entry x) F)). split; [reflexivity|]. unfold represents, Hex8_update_x. rewrite E3. cbn.
    repeat split; try assumption; try reflexivity; try (apply Sw || apply SN || apply SD || apply Sg' || apply Sv').
Qed.

(** the shapes the code checks are the documented ones *)
Lemma io_documented c nelem nip xi w x Q O f n : represents c nelem nip xi w x Q O -> components c f n ->
  io_shapes c Q f n = (argument_shape c nelem nip f n, result_shape c nelem nip f n).
Proof.
  intros (_ & E1 & E2 & _) Hn. unfold io_shapes, shape_elemvec, shape_elemvec_n, shape_elemmat, shape_qtensor, shape_qscalar, shape_qvector, shape_qvector_n. rewrite E1, E2.
  destruct f, c; cbn in *; subst; reflexivity.
Qed.

Lemma kernel_rep c es nelem nip xi w x Q O f n arg out : Spec_Element.schedule nelem es -> represents c nelem nip xi w x Q O -> components c f n ->
  array arg -> array out -> b_shape arg = argument_shape c nelem nip f n -> b_shape out = result_shape c nelem nip f n ->
  exists r, kernel c es Q f n arg out = Ok r /\ stored (result_shape c nelem nip f n) r (result O es f n (entry arg) (entry out)).
Proof.
  intros Hs (HO & E1 & E2 & E3 & Ex0 & Sw & SN & SD & Sg & Sv & _) Hn Aa Ao Ea Eo. pose proof (sched_lt _ _ Hs) as Hlt.
  pose proof (stored_of _ _ Aa Ea) as Sa. pose proof (stored_of _ _ Ao Eo) as So. unfold kernel. cbv zeta. rewrite E2.
  destruct c as [|t| |]; destruct O as [F|F|F|F]; cbn [is_object] in HO; try tauto; cbn [obj_w obj_N obj_dNxi obj_grad obj_vol obj_nip gradient_shape s_nne s_ndim s_tdim nodes_per_element dimension] in *;
    destruct f; cbn [argument_shape result_shape nodes_per_element dimension tensor_dimension components] in *; unfold result.
  all: try subst n.
  - edestruct Quad4_interp as (r & E & S); [exact Hlt | exact SN | exact Sa | exact So |]. exists r. split; [exact E | now apply S].
  - edestruct (Quad4_grad nelem nip es Hlt 2) as (r & E & S); [lia | exact Sg | exact Sa | exact So |]. exists r. split; [exact E|]. unfold Quad4_gradN_vector. rewrite E3. exact S.
  - edestruct (Quad4_grad_T nelem nip es Hlt 2) as (r & E & S); [lia | exact Sg | exact Sa | exact So |]. exists r. split; [exact E|]. unfold Quad4_gradN_vector_T. rewrite E3. exact S.
  - edestruct (Quad4_sym nelem nip es Hlt 2) as (r & E & S); [lia | exact Sg | exact Sa | exact So |]. exists r. split; [exact E|]. unfold Quad4_symGradN_vector. rewrite E3. exact S.
  - edestruct (base_int_N nelem nip es Hlt 4 n) as (r & E & S); [exact SN | exact Sv | exact Sa | exact So |]. exists r. split; [exact E|]. unfold Quad4_int_N_vector_dV. rewrite E3. exact S.
  - edestruct (Quad4_mass nelem nip es Hlt) as (r & E & S); [exact SN | exact Sv | exact Sa | exact So |]. exists r. split; [exact E|]. unfold Quad4_int_N_scalar_NT_dV. rewrite E3. exact S.
  - edestruct (Quad4_force nelem nip es Hlt 2) as (r & E & S); [lia | exact Sg | exact Sv | exact Sa | exact So |]. exists r. split; [exact E|]. unfold Quad4_int_gradN_dot_tensor2_dV. rewrite E3. exact S.
  - edestruct (base_tensor4 nelem nip es Hlt 4 2 2) as (r & E & S); [lia | exact Sg | exact Sv | exact Sa | exact So |]. exists r. split; [exact E|]. unfold Quad4_int_gradN_dot_tensor4_dot_gradNT_dV. rewrite E3. exact S.
  - edestruct (base_interp nelem nip es Hlt 4 n) as (r & E & S); [exact SN | exact Sa | exact So |]. exists r. split; [exact E|]. unfold Planar_interpQuad_vector. rewrite E3. exact S.
  - edestruct (Quad4_grad nelem nip es Hlt 3) as (r & E & S); [lia | exact Sg | exact Sa | exact (stored_zero _ _ _ So) |]. exists r. split; [exact E|]. unfold Planar_gradN_vector. rewrite E3. exact S.
  - edestruct (Quad4_grad_T nelem nip es Hlt 3) as (r & E & S); [lia | exact Sg | exact Sa | exact (stored_zero _ _ _ So) |]. exists r. split; [exact E|]. unfold Planar_gradN_vector_T. rewrite E3. exact S.
  - edestruct (Quad4_sym nelem nip es Hlt 3) as (r & E & S); [lia | exact Sg | exact Sa | exact (stored_zero _ _ _ So) |]. exists r. split; [exact E|]. unfold Planar_symGradN_vector. rewrite E3. exact S.
  - edestruct (base_int_N nelem nip es Hlt 4 n) as (r & E & S); [exact SN | exact Sv | exact Sa | exact So |]. exists r. split; [exact E|]. unfold Planar_int_N_vector_dV. rewrite E3. exact S.
  - edestruct (Quad4_mass nelem nip es Hlt) as (r & E & S); [exact SN | exact Sv | exact Sa | exact So |]. exists r. split; [exact E|]. unfold Planar_int_N_scalar_NT_dV. rewrite E3. exact S.
  - edestruct (Quad4_force nelem nip es Hlt 3) as (r & E & S); [lia | exact Sg | exact Sv | exact Sa | exact So |]. exists r. split; [exact E|]. unfold Planar_int_gradN_dot_tensor2_dV. rewrite E3. exact S.
  - edestruct (base_tensor4 nelem nip es Hlt 4 2 3) as (r & E & S); [lia | exact Sg | exact Sv | exact Sa | exact So |]. exists r. split; [exact E|]. unfold Planar_int_gradN_dot_tensor4_dot_gradNT_dV. rewrite E3. exact S.
  - edestruct (base_interp nelem nip es Hlt 4 n) as (r & E & S); [exact SN | exact Sa | exact So |]. exists r. split; [exact E|]. unfold Axisym_interpQuad_vector. rewrite E3. exact S.
  - edestruct (Axisym_grad nelem nip es Hlt) as (r & E & S); [exact Sg | exact Sa | exact (stored_zero _ _ _ So) |]. exists r. split; [exact E|]. unfold Axisym_gradN_vector. rewrite E3. exact S.
  - edestruct (Axisym_grad_T nelem nip es Hlt) as (r & E & S); [exact Sg | exact Sa | exact (stored_zero _ _ _ So) |]. exists r. split; [exact E|]. unfold Axisym_gradN_vector_T. rewrite E3. exact S.
  - edestruct (Axisym_sym nelem nip es Hlt) as (r & E & S); [exact Sg | exact Sa | exact (stored_zero _ _ _ So) |]. exists r. split; [exact E|]. unfold Axisym_symGradN_vector. rewrite E3. exact S.
  - edestruct (base_int_N nelem nip es Hlt 4 n) as (r & E & S); [exact SN | exact Sv | exact Sa | exact So |]. exists r. split; [exact E|]. unfold Axisym_int_N_vector_dV. rewrite E3. exact S.
  - edestruct (Quad4_mass nelem nip es Hlt) as (r & E & S); [exact SN | exact Sv | exact Sa | exact So |]. exists r. split; [exact E|]. unfold Axisym_int_N_scalar_NT_dV. rewrite E3. exact S.
  - edestruct (Axisym_force nelem nip es Hlt) as (r & E & S); [exact Sg | exact Sv | exact Sa | exact So |]. exists r. split; [exact E | now apply S].
  - edestruct (Axisym_tensor4 nelem nip es Hlt) as (r & E & S); [exact Sg | exact Sv | exact Sa | exact So |]. exists r. split; [exact E | now apply S].
  - edestruct (base_interp nelem nip es Hlt 8 n) as (r & E & S); [exact SN | exact Sa | exact So |]. exists r. split; [exact E|]. unfold Hex8_interpQuad_vector. rewrite E3. exact S.
  - edestruct (base_grad nelem nip es Hlt 8 3 3) as (r & E & S); [lia | exact Sg | exact Sa | exact So |]. exists r. split; [exact E|]. unfold Hex8_gradN_vector. rewrite E3. exact S.
  - edestruct (base_grad_T nelem nip es Hlt 8 3 3) as (r & E & S); [lia | exact Sg | exact Sa | exact So |]. exists r. split; [exact E|]. unfold Hex8_gradN_vector_T. rewrite E3. exact S.
  - edestruct (base_sym nelem nip es Hlt 8 3 3) as (r & E & S); [lia | exact Sg | exact Sa | exact So |]. exists r. split; [exact E|]. unfold Hex8_symGradN_vector. rewrite E3. exact S.
  - edestruct (base_int_N nelem nip es Hlt 8 n) as (r & E & S); [exact SN | exact Sv | exact Sa | exact So |]. exists r. split; [exact E|]. unfold Hex8_int_N_vector_dV. rewrite E3. exact S.
  - edestruct (Hex8_mass nelem nip es Hlt) as (r & E & S); [exact SN | exact Sv | exact Sa | exact So |]. exists r. split; [exact E | now apply S].
  - edestruct (Hex8_force nelem nip es Hlt) as (r & E & S); [exact Sg | exact Sv | exact Sa | exact So |]. exists r. split; [exact E | now apply S].
  - edestruct (base_tensor4 nelem nip es Hlt 8 3 3) as (r & E & S); [lia | exact Sg | exact Sv | exact Sa | exact So |]. exists r. split; [exact E|]. unfold Hex8_int_gradN_dot_tensor4_dot_gradNT_dV. rewrite E3. exact S.
Qed.
