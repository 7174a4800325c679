From Coq Require Import Reals Lra Lia List Permutation.
From Verif Require Import Model_Element Spec_Element Proof_Element Proof_ElementQuad4 Proof_ElementMath Proof_ElementThm Proof_ElementThm2 Proof_ElementThm3 Proof_ElementAxisym Prop_ElementQuad4 Prop_ElementPlanar
  Base Spec Sums Spec_Vector Model_Numbering Model_Vector Proof_Vector Model_MeshGeometry Model_Pipeline Spec_Pipeline Proof_PipelineElem Proof_Pipeline Proof_PipelineBalance Spec_Patch Proof_Patch Proof_PatchRigid
  Spec_Conform Proof_Conform Proof_ConformMesh Proof_ConformClosed Spec_AxisymBody Proof_AxisymBody.
Local Open Scope R_scope.

(** ** integrals of polynomials by the rule *)
Lemma rule_bilinear nip xi w a0 a1 a2 a3 b0 b1 b2 : biquadratic_rule nip xi w ->
  sumn nip (fun q => w [q] * ((a0 + a1 * xi [q;0]%nat + a2 * xi [q;1]%nat + a3 * (xi [q;0]%nat * xi [q;1]%nat)) * (b0 + b1 * xi [q;0]%nat + b2 * xi [q;1]%nat))) =
  4 * (a0 * b0) + 4 / 3 * (a1 * b1 + a2 * b2).
Proof.
  intros H. 
  rewrite (sumn_ext nip _ (fun q => a0 * b0 * (w [q] * (xi [q;0]%nat ^ 0 * xi [q;1]%nat ^ 0)) + (a0 * b1 + a1 * b0) * (w [q] * (xi [q;0]%nat ^ 1 * xi [q;1]%nat ^ 0))
    + (a0 * b2 + a2 * b0) * (w [q] * (xi [q;0]%nat ^ 0 * xi [q;1]%nat ^ 1)) + a1 * b1 * (w [q] * (xi [q;0]%nat ^ 2 * xi [q;1]%nat ^ 0)) + a2 * b2 * (w [q] * (xi [q;0]%nat ^ 0 * xi [q;1]%nat ^ 2))
    + (a1 * b2 + a2 * b1 + a3 * b0) * (w [q] * (xi [q;0]%nat ^ 1 * xi [q;1]%nat ^ 1)) + a3 * b1 * (w [q] * (xi [q;0]%nat ^ 2 * xi [q;1]%nat ^ 1)) + a3 * b2 * (w [q] * (xi [q;0]%nat ^ 1 * xi [q;1]%nat ^ 2)))).
  - rewrite !sumn_plus, !sumn_scal, !H by lia. unfold moment. field.
  - intros q Hq. ring.
Qed.

(** the integrals of r dN/dz, r dN/dr + N and of r over an element, by the nodes around a corner *)
Definition phi (x : nat -> nat -> R) (m i k : nat) : R := (x k i - x m i) * (2 * x m 1%nat + x k 1%nat).
Definition dphi (x : nat -> nat -> R) (m i : nat) : R := phi x m i ((m + 1) mod 4) - phi x m i ((m + 3) mod 4).

Section I.
Set Default Proof Using "All".
Variables (nip : nat) (xi w : arr) (x : nat -> nat -> R).
Hypothesis H : biquadratic_rule nip xi w.
Notation r := (fun m => x m 1%nat).

Lemma cof_form m i q : (m < 4)%nat -> (i < 2)%nat -> w [q] * (interp2 r (point xi q) * cof x m i (point xi q)) =
  w [q] * (((x 0%nat 1%nat + x 1%nat 1%nat + x 2%nat 1%nat + x 3%nat 1%nat) / 4 + k1 r * xi [q;0]%nat + k2 r * xi [q;1]%nat + k3 r * (xi [q;0]%nat * xi [q;1]%nat)) *
    (turn x m i + (cof x m i (P 1 0) - turn x m i) * xi [q;0]%nat + (cof x m i (P 0 1) - turn x m i) * xi [q;1]%nat)).
Proof. intros Hm Hi. rewrite interp_k. rewrite (cof_linear x m i (point xi q) Hm Hi) at 1. unfold point. ring. Qed.

Lemma int_rcof m i : (m < 4)%nat -> (i < 2)%nat -> sumn nip (fun q => w [q] * (interp2 r (point xi q) * cof x m i (point xi q))) =
  4 * ((x 0%nat 1%nat + x 1%nat 1%nat + x 2%nat 1%nat + x 3%nat 1%nat) / 4 * turn x m i) + 4 / 3 * (k1 r * (cof x m i (P 1 0) - turn x m i) + k2 r * (cof x m i (P 0 1) - turn x m i)).
Proof. intros Hm Hi. rewrite (sumn_ext nip _ _ (fun q _ => cof_form m i q Hm Hi)). now apply rule_bilinear. Qed.

Definition jx := (k1 (fun m => x m 0%nat) * k2 r - k2 (fun m => x m 0%nat) * k1 r).
Definition jx1 := (k1 (fun m => x m 0%nat) * k3 r - k3 (fun m => x m 0%nat) * k1 r).
Definition jx2 := (k3 (fun m => x m 0%nat) * k2 r - k2 (fun m => x m 0%nat) * k3 r).
Lemma jac_form p : jac2 x p = jx + jx1 * p 0%nat + jx2 * p 1%nat.
Proof. unfold jx, jx1, jx2. rewrite <- cross_affine. unfold cross, jac2. reflexivity. Qed.

Lemma int_fjac (f : nat -> R) : sumn nip (fun q => w [q] * (interp2 f (point xi q) * jac2 x (point xi q))) =
  4 * ((f 0%nat + f 1%nat + f 2%nat + f 3%nat) / 4 * jx) + 4 / 3 * (k1 f * jx1 + k2 f * jx2).
Proof.
  rewrite (sumn_ext nip _ _ (fun q _ => f_equal2 (fun a b => w [q] * (a * b)) (interp_k f (point xi q)) (jac_form (point xi q)))). unfold point. now apply rule_bilinear.
Qed.

Lemma int_r0 m : (m < 4)%nat -> sumn nip (fun q => w [q] * (interp2 r (point xi q) * cof x m 0 (point xi q))) = dphi x m 1 / 6.
Proof.
  intros Hm. rewrite int_rcof by (assumption || lia). unfold dphi, phi. revert m Hm. 
  apply lt4; unfold turn, cof, k1, k2, k3, dinterp2; rewrite !sumn4; unfold dshape2, corner2, P; cbn [Nat.add Nat.modulo Nat.divmod Nat.sub fst snd]; field.
Qed.

Lemma shape_interp m p : (m < 4)%nat -> Spec_Element.shape2 m p = interp2 (fun k => ind (k =? m)%nat) p.
Proof. intros Hm. unfold interp2. rewrite <- (sumn_delta 4 m (fun k => Spec_Element.shape2 k p) Hm). apply sumn_ext. intros k Hk. ring. Qed.

Lemma int_r1 m : (m < 4)%nat -> sumn nip (fun q => w [q] * (interp2 r (point xi q) * cof x m 1 (point xi q))) + sumn nip (fun q => w [q] * (Spec_Element.shape2 m (point xi q) * jac2 x (point xi q))) = - (dphi x m 0 / 6).
Proof.
  intros Hm. rewrite int_rcof by (assumption || lia). rewrite (sumn_ext nip (fun q => w [q] * (Spec_Element.shape2 m _ * _)) (fun q => w [q] * (interp2 (fun k => ind (k =? m)%nat) (point xi q) * jac2 x (point xi q)))).
  2:{ intros q _. now rewrite (shape_interp m _ Hm). }
  rewrite int_fjac. unfold dphi, phi, jx, jx1, jx2. revert m Hm.
  apply lt4; unfold turn, cof, k1, k2, k3, dinterp2; rewrite !sumn4; unfold dshape2, corner2, P, ind; cbn [Nat.eqb Nat.add Nat.modulo Nat.divmod Nat.sub fst snd]; field.
Qed.

Definition rstep (y0 y1 : nat -> R) : R := - (y1 0%nat - y0 0%nat) * (y0 1%nat * y0 1%nat + y0 1%nat * y1 1%nat + y1 1%nat * y1 1%nat) / 6.
Lemma int_volume : sumn nip (fun q => w [q] * (interp2 r (point xi q) * jac2 x (point xi q))) = rstep (x 0%nat) (x 1%nat) + rstep (x 1%nat) (x 2%nat) + rstep (x 2%nat) (x 3%nat) + rstep (x 3%nat) (x 0%nat).
Proof. rewrite int_fjac. unfold jx, jx1, jx2, rstep, k1, k2, k3. field. Qed.
End I.

(** ** forces of a uniform stress *)
Section F.
Set Default Proof Using "All".
Variables (nelem nip : nat) (xi w x : arr) (A : Axisym).
Hypothesis H : Axisym_obj nelem nip xi w x A.
Hypothesis HR : biquadratic_rule nip xi w.
Hypothesis HV : forall e q, (e < nelem)%nat -> (q < nip)%nat -> 0 < a_vol A [e;q].

Lemma ring_force c sig S e m : valid_call nelem c -> uniform nelem (Axisym_elem A) sig S -> S 0%nat 0%nat = S 1%nat 1%nat -> S 0%nat 2%nat = 0 -> (e < nelem)%nat -> (m < 4)%nat ->
  el_Int_gradN_dot_tensor2_dV (Axisym_elem A) c sig [e;m;0]%nat = PI / 3 * (S 2%nat 2%nat * dphi (nodes x e) m 1) /\
  el_Int_gradN_dot_tensor2_dV (Axisym_elem A) c sig [e;m;1]%nat = PI / 3 * (S 2%nat 0%nat * dphi (nodes x e) m 1 - S 0%nat 0%nat * dphi (nodes x e) m 0).
Proof.
  intros Hc HS S0 S2 He Hm. pose proof (Axisym_facts _ _ _ _ _ _ H) as F.
  assert (Sq : forall q i j, (q < nip)%nat -> (i < 3)%nat -> (j < 3)%nat -> sig [e;q;i;j] = S i j).
  { intros q i j Hq Hi Hj. apply HS; try assumption. unrec. now rewrite (a_f_nip F). }
  assert (V : forall q, (q < nip)%nat -> jac2 (nodes x e) (point xi q) <> 0 /\ interp2 (comp x e 1) (point xi q) <> 0) by (intros q Hq; apply (ring_vol _ _ _ _ _ _ H e q He Hq (HV e q He Hq))).
  assert (Fq : forall k, (k < 2)%nat -> el_Int_gradN_dot_tensor2_dV (Axisym_elem A) c sig [e;m;k] =
    sumn nip (fun q => sumn 3 (fun i => sumn 3 (fun j => S i j * Bspec xi x e q m i j (axc k))) * (w [q] * jac2 (nodes x e) (point xi q) * (2 * PI * interp2 (comp x e 1) (point xi q))))).
  { intros k Hk. rewrite (o_force nelem _ _ (Axisym_raw _ _ _ _ _ _ H) c sig e m k Hc He Hm Hk). unrec. rewrite (a_f_nip F). apply sumn_ext. intros q Hq. rewrite (a_f_vol F) by assumption. unfold radius at 1. f_equal.
    apply sumn_ext. intros i Hi. apply sumn_ext. intros j Hj. rewrite Sq by assumption. f_equal. apply (Bq_at nelem nip xi w x A F _ Hc); assumption. }
  split; rewrite Fq by lia.
  - rewrite (sumn_ext nip _ (fun q => 2 * PI * S 2%nat 2%nat * (w [q] * (interp2 (fun m => nodes x e m 1%nat) (point xi q) * cof (nodes x e) m 0 (point xi q))))).
    + rewrite sumn_scal, int_r0 by assumption. field.
    + intros q Hq. destruct (V q Hq) as [J _]. rewrite <- (gshape_cof (nodes x e) m 0) by (assumption || lia). rewrite sumn3, !sumn3. cbn [axc Bspec]. rewrite S2.
      change (interp2 (fun m0 => nodes x e m0 1%nat) (point xi q)) with (interp2 (comp x e 1) (point xi q)). ring.
  - rewrite (sumn_ext nip _ (fun q => 2 * PI * (S 0%nat 0%nat * (w [q] * (interp2 (fun m => nodes x e m 1%nat) (point xi q) * cof (nodes x e) m 1 (point xi q)))) +
      2 * PI * (S 0%nat 0%nat * (w [q] * (Spec_Element.shape2 m (point xi q) * jac2 (nodes x e) (point xi q)))) +
      2 * PI * (S 2%nat 0%nat * (w [q] * (interp2 (fun m => nodes x e m 1%nat) (point xi q) * cof (nodes x e) m 0 (point xi q)))))).
    + rewrite !sumn_plus, !sumn_scal. rewrite (int_r0 nip xi w (nodes x e) HR m Hm).
      pose proof (int_r1 nip xi w (nodes x e) HR m Hm) as E1.
      replace (2 * PI * (S 0%nat 0%nat * sumn nip (fun q => w [q] * (interp2 (fun m0 => nodes x e m0 1%nat) (point xi q) * cof (nodes x e) m 1 (point xi q))))) with
        (2 * PI * (S 0%nat 0%nat * (- (dphi (nodes x e) m 0 / 6) - sumn nip (fun q => w [q] * (Spec_Element.shape2 m (point xi q) * jac2 (nodes x e) (point xi q)))))) by (rewrite <- E1; ring).
      field.
    + intros q Hq. destruct (V q Hq) as [J Rq]. rewrite <- (gshape_cof (nodes x e) m 0), <- (gshape_cof (nodes x e) m 1) by (assumption || lia). rewrite sumn3, !sumn3. cbn [axc Bspec]. rewrite <- S0. unfold radius.
      change (interp2 (fun m0 => nodes x e m0 1%nat) (point xi q)) with (interp2 (comp x e 1) (point xi q)). field. exact Rq.
Qed.

Lemma ring_element_volume e : (e < nelem)%nat ->
  sumn nip (fun q => a_vol A [e;q]) = 2 * PI * (rstep (nodes x e 0%nat) (nodes x e 1%nat) + rstep (nodes x e 1%nat) (nodes x e 2%nat) + rstep (nodes x e 2%nat) (nodes x e 3%nat) + rstep (nodes x e 3%nat) (nodes x e 0%nat)).
Proof.
  intros He. rewrite <- (int_volume nip xi w (nodes x e) HR), <- sumn_scal. apply sumn_ext. intros q Hq. rewrite (a_f_vol (Axisym_facts _ _ _ _ _ _ H)) by assumption.
  unfold radius. change (interp2 (fun m => nodes x e m 1%nat) (point xi q)) with (interp2 (comp x e 1) (point xi q)). ring.
Qed.
End F.

(** ** assembly *)
Lemma closed_sum_g conn nelem n (g : nat -> R) : closed_around conn nelem n -> sumL (corners_at conn nelem n) (fun c => g (next_node conn c) - g (prev_node conn c)) = 0.
Proof.
  intros HC. rewrite sumL_minus.
  assert (M : forall h, sumL (corners_at conn nelem n) (fun c => g (h c)) = sumL (map h (corners_at conn nelem n)) g) by (intros h; now rewrite sumL_map).
  rewrite !M, (sumL_perm _ _ _ HC). ring.
Qed.

Lemma off_axis_sum X l (g : nat -> R) : (forall k, off_axis X k = false -> g k = 0) -> sumL (filter (off_axis X) l) g = sumL l g.
Proof. intros H. rewrite sumL_filter. apply sumL_ext. intros k _. destruct (off_axis X k) eqn:E; [unfold ind; ring|rewrite H by assumption; ring]. Qed.
Lemma closed_sum_axis conn nelem X n (g : nat -> R) : closed_at_axis conn nelem X n -> (forall k, off_axis X k = false -> g k = 0) ->
  sumL (corners_at conn nelem n) (fun c => g (next_node conn c) - g (prev_node conn c)) = 0.
Proof.
  intros [_ HC] H0. rewrite sumL_minus.
  assert (M : forall h, sumL (corners_at conn nelem n) (fun c => g (h c)) = sumL (map h (corners_at conn nelem n)) g) by (intros h; now rewrite sumL_map).
  rewrite !M, <- (off_axis_sum X (map (next_node conn) _) g H0), <- (off_axis_sum X (map (prev_node conn) _) g H0), (sumL_perm _ _ _ HC). ring.
Qed.

Section P.
Set Default Proof Using "All".
Variables conn dofs : list (list nat).
Variable E : Elem.
Variables nelem nnode ndof : nat.
Variables (X : list (list R)) (x : arr).
Hypothesis HE : exact_ring nelem x E.
Hypothesis Hmd : mesh_dofs conn dofs nelem (el_nne E) nnode (el_ndim E) ndof.
Hypothesis HX : on_mesh conn nelem X x.
Notation v := (mkVector conn (el_nne E) dofs (el_ndim E)).

Lemma exact_dims : el_nne E = 4%nat /\ el_ndim E = 2%nat /\ el_tdim E = 3%nat.
Proof using HE. clear Hmd dofs HX conn X. destruct HE; cbn; lia. Qed.
Lemma exact_elem : elem_obj nelem x E.
Proof using HE. clear Hmd dofs HX conn X. destruct HE. econstructor. eassumption. Qed.

Lemma dphi_next e m n i : (e < nelem)%nat -> (m < 4)%nat -> (i < 2)%nat -> idx2 conn e m = n ->
  dphi (nodes x e) m i = (fun k => (val2 X k i - val2 X n i) * (2 * val2 X n 1 + val2 X k 1)) (next_node conn (e, m)) - (fun k => (val2 X k i - val2 X n i) * (2 * val2 X n 1 + val2 X k 1)) (prev_node conn (e, m)).
Proof.
  intros He Hm Hi <-. unfold dphi, phi, nodes, next_node, prev_node. cbn [fst snd].
  assert (B : forall k, (k mod 4 < 4)%nat) by (intros k; apply Nat.mod_upper_bound; lia). rewrite !HX by (assumption || apply B || lia). reflexivity.
Qed.

Lemma ring_uniform_force c sig S f n j : valid_call nelem c -> uniform nelem E sig S -> S 0%nat 0%nat = S 1%nat 1%nat -> S 0%nat 2%nat = 0 ->
  (n < nnode)%nat -> (j < 2)%nat -> closed_or_axis conn nelem X n j -> own_dofs dofs nnode 2 n ->
  (forall n j, (n < nnode)%nat -> (j < el_ndim E)%nat -> val2 f n j = sum_elem nelem (el_nne E) (el_ndim E) (fun e m i => ind (idx2 dofs (idx2 conn e m) i =? idx2 dofs n j)%nat *
     el_Int_gradN_dot_tensor2_dV E c sig [e;m;i])) -> val2 f n j = 0.
Proof.
  intros Hc HS S0 S2 Hn Hj HC HO Hf. destruct exact_dims as [D4 [D2 _]]. rewrite Hf by (rewrite ?D2; assumption). unfold sum_elem. rewrite D4, D2.
  transitivity (sumn nelem (fun e => sumn 4 (fun m => ind (idx2 conn e m =? n)%nat * el_Int_gradN_dot_tensor2_dV E c sig [e;m;j]))).
  { apply sumn_ext. intros e He. apply sumn_ext. intros m Hm.
    assert (L : (idx2 conn e m < nnode)%nat) by (apply (md_node _ _ _ _ _ _ _ Hmd); [exact He|rewrite D4; exact Hm]).
    destruct (Nat.eqb_spec (idx2 conn e m) n) as [Eq|Ne].
    - rewrite Eq. unfold ind at 2. rewrite Rmult_1_l. rewrite <- (sumn_delta 2 j (fun i => el_Int_gradN_dot_tensor2_dV E c sig [e;m;i]) Hj). apply sumn_ext. intros i Hi. f_equal. f_equal.
      destruct (Nat.eqb_spec i j) as [->|Nij]; [apply Nat.eqb_refl|]. apply Nat.eqb_neq. intros K. apply Nij. exact (proj2 (HO j n i Hj Hn Hi K)).
    - unfold ind at 2. rewrite Rmult_0_l. apply sumn_zero. intros i Hi.
      destruct (Nat.eqb_spec (idx2 dofs (idx2 conn e m) i) (idx2 dofs n j)) as [K|_]; [|unfold ind; ring].
      exfalso. apply Ne. exact (proj1 (HO j _ i Hj L Hi K)). }
  transitivity (sumL (corners_at conn nelem n) (fun c' => el_Int_gradN_dot_tensor2_dV E c sig [fst c'; snd c'; j])).
  { unfold corners_at. rewrite sumL_filter, sumL_prod. reflexivity. }
  set (g i := fun k => (val2 X k i - val2 X n i) * (2 * val2 X n 1 + val2 X k 1)).
  assert (Fo : forall c', In c' (corners_at conn nelem n) -> el_Int_gradN_dot_tensor2_dV E c sig [fst c'; snd c'; j] =
    (if (j =? 0)%nat then PI / 3 * S 2%nat 2%nat else PI / 3 * S 2%nat 0%nat) * (g 1%nat (next_node conn c') - g 1%nat (prev_node conn c')) +
    (if (j =? 0)%nat then 0 else - (PI / 3) * S 0%nat 0%nat) * (g 0%nat (next_node conn c') - g 0%nat (prev_node conn c'))).
  { intros [e m] Hin. apply filter_In in Hin. destruct Hin as [Hin En]. apply in_prod_iff in Hin. rewrite !in_seq in Hin. apply Nat.eqb_eq in En. cbn [fst snd] in *.
    pose proof (dphi_next e m n 0 ltac:(lia) ltac:(lia) ltac:(lia) En) as P0. pose proof (dphi_next e m n 1 ltac:(lia) ltac:(lia) ltac:(lia) En) as P1. fold (g 0%nat) in P0. fold (g 1%nat) in P1. rewrite <- P0, <- P1.
    destruct HE as [nip xi w x' A H HR HV]. destruct (ring_force nelem nip xi w x' A H HR HV c sig S e m Hc HS S0 S2 ltac:(lia) ltac:(lia)) as [F0 F1].
    destruct j as [|[|]]; [| |lia]; cbn [Nat.eqb]; [rewrite F0|rewrite F1]; ring. }
  rewrite (sumL_ext _ _ _ Fo), sumL_plus, !sumL_scal. destruct HC as [HC|[J0 HC]].
  - rewrite !closed_sum_g by assumption. ring.
  - rewrite J0. cbn [Nat.eqb]. rewrite (closed_sum_axis conn nelem X n (g 1%nat) HC); [ring|].
    intros k Hk. unfold off_axis in Hk. destruct (Req_EM_T (val2 X k 1) 0) as [Zk|]; [|discriminate]. unfold g. rewrite Zk, (proj1 HC). ring.
Qed.

(** the strain of a stretch *)
Lemma stretch_strain c a b s ue : valid_call nelem c -> (forall e m, (e < nelem)%nat -> (m < 4)%nat -> ue [e;m;0]%nat = s + b * x [e;m;0]%nat /\ ue [e;m;1]%nat = a * x [e;m;1]%nat) ->
  uniform nelem E (el_SymGradN_vector E c ue) (stretched a b).
Proof.
  intros Hc Hue e q i j He Hq Hi Hj. destruct HE as [nip xi w x' A H HR HV]. cbn [Axisym_elem el_nip el_tdim] in Hq, Hi, Hj. rewrite (a_f_nip (Axisym_facts _ _ _ _ _ _ H)) in Hq.
  rewrite (ring_sym _ _ _ _ _ _ H) by assumption. destruct (ring_vol _ _ _ _ _ _ H e q He Hq (HV e q He Hq)) as [HJ Hr].
  assert (Af : affine 2 4 (fun i => match i with O => s | _ => 0 end) (fun i j => match i, j with O, O => b | 1%nat, 1%nat => a | _, _ => 0 end) x' ue e).
  { intros m k Hm Hk. rewrite sumn2. destruct (Hue e m He Hm) as [U0 U1]. destruct k as [|[|]]; [rewrite U0|rewrite U1|lia]; ring. }
  destruct (C62_affine _ _ _ _ _ _ H _ Hc _ _ ue (c_old c) e q He Hq HJ Af) as [G00 [G22 [G02 G20]]].
  assert (G11 : el_GradN_vector (Axisym_elem A) c ue [e;q;1;1]%nat = a).
  { rewrite (ring_grad _ _ _ _ _ _ H) by (assumption || lia). unfold interp2, comp.
    rewrite (sumn_ext 4 _ (fun m => a * (Spec_Element.shape2 m (point xi q) * x' [e;m;1]%nat))) by (intros m Hm; rewrite (proj2 (Hue e m He Hm)); ring). rewrite sumn_scal.
    change (sumn 4 (fun i0 => Spec_Element.shape2 i0 (point xi q) * x' [e;i0;1]%nat)) with (radius xi x' e q). field. exact Hr. }
  assert (O : forall i j, (i < 3)%nat -> (j < 3)%nat -> el_GradN_vector (Axisym_elem A) c ue [e;q;i;j] = stretched a b i j).
  { clear i j Hi Hj. intros i j Hi Hj. destruct (Nat.eq_dec i 1) as [->|N1]; [destruct (Nat.eq_dec j 1) as [->|N2]; [exact G11|]|].
    - rewrite (ring_grad _ _ _ _ _ _ H) by assumption. destruct j as [|[|[|]]]; try lia; reflexivity.
    - destruct (Nat.eq_dec j 1) as [->|N2]; [rewrite (ring_grad _ _ _ _ _ _ H) by assumption; destruct i as [|[|[|]]]; try lia; reflexivity|].
      destruct i as [|[|[|]]]; try lia; destruct j as [|[|[|]]]; try lia; unrec; assumption. }
  rewrite !O by assumption. unfold stretched. rewrite (Nat.eqb_sym j i). destruct (Nat.eqb_spec i j) as [->|]; lra.
Qed.

Lemma stretch_force law c1 c2 a b s u : valid_call nelem c1 -> valid_call nelem c2 -> axially_symmetric nelem E law -> stretch_field nnode X a b s u ->
  exists f, internal_force v E law c1 c2 u = Ok f /\ Spec.shape2 f nnode 2 /\
    forall n j, (n < nnode)%nat -> (j < 2)%nat -> closed_or_axis conn nelem X n j -> own_dofs dofs nnode 2 n -> val2 f n j = 0.
Proof.
  intros H1 H2 HL [Su Hu]. destruct exact_dims as [D4 [D2 _]].
  destruct (elem_obj_raw _ _ _ exact_elem) as [B Ho].
  assert (Su' : Spec.shape2 u nnode (el_ndim E)) by now rewrite D2.
  destruct (force_spec v E nelem nnode ndof eq_refl eq_refl Hmd B Ho el_SymGradN_vector law c1 c2 u Su') as [ue [f [Eu [Ef [Sf [Vf _]]]]]].
  destruct (AsElement_nodevec_spec v nelem (el_nne E) nnode (el_ndim E) ndof eq_refl eq_refl Hmd u Su') as [ue' [Eu' [_ Vu]]]. rewrite Eu in Eu'. injection Eu' as <-.
  exists f. split; [exact Ef|]. split; [rewrite <- D2; exact Sf|]. intros n j Hn Hj HC HO.
  destruct (HL (el_SymGradN_vector E c1 (of_rows ue)) a b) as [S [HS [S0 S2]]].
  { apply (stretch_strain c1 a b s (of_rows ue) H1). intros e m He Hm. rewrite !of_rows_val.
    assert (L : (idx2 conn e m < nnode)%nat) by (apply (md_node _ _ _ _ _ _ _ Hmd); [exact He|rewrite D4; exact Hm]).
    rewrite !Vu by first [assumption|rewrite D4; assumption|rewrite D2; lia]. rewrite !HX by (assumption || lia). now apply Hu. }
  apply (ring_uniform_force c2 (law (el_SymGradN_vector E c1 (of_rows ue))) S f n j); assumption.
Qed.

(** ** volume *)
Lemma ring_step_odd : odd (fun p q => ring_step X (p, q)).
Proof using X. intros p q. unfold ring_step. cbn [fst snd]. field. Qed.

Lemma ring_total bot rgt top lft : Spec.shape2 conn nelem 4 -> conforming_mesh conn bot rgt top lft ->
  sumn nelem (fun e => sumn (el_nip E) (fun q => el_dV E [e;q])) = 2 * PI * sumL (outline bot rgt top lft) (ring_step X).
Proof using HE HX.
  clear Hmd dofs. intros Sc HC. pose proof (conforming_sum conn bot rgt top lft (fun p q => ring_step X (p, q)) HC ring_step_odd) as K. unfold along in K at 2.
  rewrite (sumL_ext (outline bot rgt top lft) (ring_step X) (fun s => ring_step X (fst s, snd s))) by (intros [p q] _; reflexivity). rewrite <- K. clear K.
  rewrite along_flat. rewrite (sumL_nth conn [] (fun e => along (fun p q => ring_step X (p, q)) (sides e))), (proj1 Sc), <- sumn_scal. apply sumn_ext. intros e He.
  pose proof (row4 conn nelem Sc e He) as Er. rewrite (nth_error_nth _ _ [] Er), along_quad.
  assert (N : forall m k, (m < 4)%nat -> (k < 2)%nat -> nodes x e m k = val2 X (idx2 conn e m) k) by (intros; unfold nodes; now apply HX).
  destruct HE as [nip xi w x' A H HR HV]. unrec. rewrite (a_f_nip (Axisym_facts _ _ _ _ _ _ H)), (ring_element_volume nelem nip xi w x' A H HR HV e He). unfold rstep, ring_step. cbn [fst snd]. rewrite !N by lia. reflexivity.
Qed.
End P.
