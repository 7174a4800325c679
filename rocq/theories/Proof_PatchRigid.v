From Coq Require Import Reals Lra Lia List Permutation.
From Verif Require Import Model_Element Spec_Element Proof_Element Proof_ElementQuad4 Proof_ElementMath Proof_ElementThm Proof_ElementThm2 Proof_ElementThm3 Prop_ElementQuad4 Prop_ElementPlanar
  Base Spec Sums Spec_Vector Model_Numbering Model_Vector Proof_Vector Model_MeshGeometry Model_Pipeline Spec_Pipeline Proof_PipelineElem Proof_Pipeline Proof_PipelineBalance Spec_Patch Proof_Patch.
Local Open Scope R_scope.

(** coefficients of xi, eta and xi * eta of the interpolation *)
Definition k1 (u : nat -> R) := (- u 0%nat + u 1%nat + u 2%nat - u 3%nat) / 4.
Definition k2 (u : nat -> R) := (- u 0%nat - u 1%nat + u 2%nat + u 3%nat) / 4.
Definition k3 (u : nat -> R) := (u 0%nat - u 1%nat + u 2%nat - u 3%nat) / 4.
Lemma dinterp_k u p : dinterp2 u 0 p = k1 u + k3 u * p 1%nat /\ dinterp2 u 1 p = k2 u + k3 u * p 0%nat.
Proof. unfold dinterp2. rewrite !sumn4. unfold dshape2, corner2, k1, k2, k3. split; field. Qed.
Lemma value_k u m : (m < 4)%nat -> u m = (u 0%nat + u 1%nat + u 2%nat + u 3%nat) / 4 + corner2 m 0 * k1 u + corner2 m 1 * k2 u + corner2 m 0 * corner2 m 1 * k3 u.
Proof. revert m. apply lt4; unfold corner2, k1, k2, k3; field. Qed.

(** determinant of the gradients of two interpolations *)
Definition cross (u y : nat -> R) (p : nat -> R) : R := dinterp2 u 0 p * dinterp2 y 1 p - dinterp2 u 1 p * dinterp2 y 0 p.
Lemma cross_affine u y p : cross u y p = (k1 u * k2 y - k2 u * k1 y) + (k1 u * k3 y - k3 u * k1 y) * p 0%nat + (k3 u * k2 y - k2 u * k3 y) * p 1%nat.
Proof. unfold cross. destruct (dinterp_k u p) as [-> ->]. destruct (dinterp_k y p) as [-> ->]. ring. Qed.

Lemma parallel (a1 a2 a3 y1 y2 y3 : R) : a1 * y2 - a2 * y1 = 0 -> a1 * y3 - a3 * y1 = 0 -> a3 * y2 - a2 * y3 = 0 -> (y1 <> 0 \/ y2 <> 0 \/ y3 <> 0) ->
  exists k, a1 = k * y1 /\ a2 = k * y2 /\ a3 = k * y3.
Proof.
  intros H1 H2 H3 [N|[N|N]].
  - exists (a1 / y1). repeat split; apply (Rmult_eq_reg_r y1); try assumption; field_simplify; try assumption; lra.
  - exists (a2 / y2). repeat split; apply (Rmult_eq_reg_r y2); try assumption; field_simplify; try assumption; lra.
  - exists (a3 / y3). repeat split; apply (Rmult_eq_reg_r y3); try assumption; field_simplify; try assumption; lra.
Qed.

(** zero strain at points that are not on a line, and a non-zero Jacobian at one of them: a rigid motion *)
Lemma zero_strain_rigid nip xi (x u : nat -> nat -> R) : not_on_a_line nip xi -> (exists q, (q < nip)%nat /\ jac2 x (point xi q) <> 0) ->
  (forall q, (q < nip)%nat -> let p := point xi q in
     cross (fun m => u m 0%nat) (fun m => x m 1%nat) p = 0 /\ cross (fun m => x m 0%nat) (fun m => u m 1%nat) p = 0 /\
     cross (fun m => x m 0%nat) (fun m => u m 0%nat) p + cross (fun m => u m 1%nat) (fun m => x m 1%nat) p = 0) ->
  exists s t r, forall m, (m < 4)%nat -> u m 0%nat = s - r * x m 1%nat /\ u m 1%nat = t + r * x m 0%nat.
Proof.
  intros HL [q0 [Hq0 HJ]] H.
  assert (J : cross (fun m => x m 0%nat) (fun m => x m 1%nat) (point xi q0) <> 0) by (unfold cross; unfold jac2 in HJ; exact HJ). clear HJ. rewrite cross_affine in J.
  set (X1 := k1 (fun m => x m 0%nat)) in *. set (X2 := k2 (fun m => x m 0%nat)) in *. set (X3 := k3 (fun m => x m 0%nat)) in *.
  set (Y1 := k1 (fun m => x m 1%nat)) in *. set (Y2 := k2 (fun m => x m 1%nat)) in *. set (Y3 := k3 (fun m => x m 1%nat)) in *.
  set (a1 := k1 (fun m => u m 0%nat)). set (a2 := k2 (fun m => u m 0%nat)). set (a3 := k3 (fun m => u m 0%nat)).
  set (b1 := k1 (fun m => u m 1%nat)). set (b2 := k2 (fun m => u m 1%nat)). set (b3 := k3 (fun m => u m 1%nat)).
  destruct (HL (a1 * Y2 - a2 * Y1) (a1 * Y3 - a3 * Y1) (a3 * Y2 - a2 * Y3)) as [A1 [A2 A3]].
  { intros q Hq. destruct (H q Hq) as [H0 _]. rewrite cross_affine in H0. unfold point in H0. exact H0. }
  destruct (HL (X1 * b2 - X2 * b1) (X1 * b3 - X3 * b1) (X3 * b2 - X2 * b3)) as [B1 [B2 B3]].
  { intros q Hq. destruct (H q Hq) as [_ [H0 _]]. rewrite cross_affine in H0. unfold point in H0. exact H0. }
  destruct (HL ((X1 * a2 - X2 * a1) + (b1 * Y2 - b2 * Y1)) ((X1 * a3 - X3 * a1) + (b1 * Y3 - b3 * Y1)) ((X3 * a2 - X2 * a3) + (b3 * Y2 - b2 * Y3))) as [C1 [C2 C3]].
  { intros q Hq. destruct (H q Hq) as [_ [_ H0]]. rewrite !cross_affine in H0. unfold point in H0. etransitivity; [|exact H0]. fold X1 X2 X3 Y1 Y2 Y3 a1 a2 a3 b1 b2 b3. ring. }
  assert (NY : Y1 <> 0 \/ Y2 <> 0 \/ Y3 <> 0).
  { destruct (Req_dec Y1 0) as [Z1|]; [|tauto]. destruct (Req_dec Y2 0) as [Z2|]; [|tauto]. destruct (Req_dec Y3 0) as [Z3|]; [|tauto]. exfalso. apply J. rewrite Z1, Z2, Z3. ring. }
  assert (NX : X1 <> 0 \/ X2 <> 0 \/ X3 <> 0).
  { destruct (Req_dec X1 0) as [Z1|]; [|tauto]. destruct (Req_dec X2 0) as [Z2|]; [|tauto]. destruct (Req_dec X3 0) as [Z3|]; [|tauto]. exfalso. apply J. rewrite Z1, Z2, Z3. ring. }
  destruct (parallel a1 a2 a3 Y1 Y2 Y3 A1 A2 A3 NY) as [k [Ea1 [Ea2 Ea3]]].
  destruct (parallel b1 b2 b3 X1 X2 X3) as [l [Eb1 [Eb2 Eb3]]]; try assumption; try lra.
  assert (K : k + l = 0).
  { apply (Rmult_eq_reg_r (X1 * Y2 - X2 * Y1 + (X1 * Y3 - X3 * Y1) * point xi q0 0%nat + (X3 * Y2 - X2 * Y3) * point xi q0 1%nat)); [|exact J].
    rewrite Ea1, Ea2, Eb1, Eb2 in C1. rewrite Ea1, Ea3, Eb1, Eb3 in C2. rewrite Ea2, Ea3, Eb2, Eb3 in C3.
    transitivity ((X1 * (k * Y2) - X2 * (k * Y1) + (l * X1 * Y2 - l * X2 * Y1)) + (X1 * (k * Y3) - X3 * (k * Y1) + (l * X1 * Y3 - l * X3 * Y1)) * point xi q0 0%nat
      + (X3 * (k * Y2) - X2 * (k * Y3) + (l * X3 * Y2 - l * X2 * Y3)) * point xi q0 1%nat); [ring|].
    rewrite C1, C2, C3. ring. }
  assert (Ek : k = - l) by lra. clear K.
  exists ((u 0%nat 0%nat + u 1%nat 0%nat + u 2%nat 0%nat + u 3%nat 0%nat) / 4 + l * ((x 0%nat 1%nat + x 1%nat 1%nat + x 2%nat 1%nat + x 3%nat 1%nat) / 4)).
  exists ((u 0%nat 1%nat + u 1%nat 1%nat + u 2%nat 1%nat + u 3%nat 1%nat) / 4 - l * ((x 0%nat 0%nat + x 1%nat 0%nat + x 2%nat 0%nat + x 3%nat 0%nat) / 4)).
  exists l. intros m Hm. split.
  - rewrite (value_k (fun m => u m 0%nat) m Hm), (value_k (fun m => x m 1%nat) m Hm). fold a1 a2 a3 Y1 Y2 Y3. rewrite Ea1, Ea2, Ea3, Ek. ring.
  - rewrite (value_k (fun m => u m 1%nat) m Hm), (value_k (fun m => x m 0%nat) m Hm). fold b1 b2 b3 X1 X2 X3. rewrite Eb1, Eb2, Eb3. ring.
Qed.

(** the gradient of the element classes, times the Jacobian *)
Lemma grad_cross (x u : nat -> nat -> R) i j p : (i < 2)%nat -> (j < 2)%nat -> jac2 x p <> 0 ->
  sumn 4 (fun m => gshape2 x m i p * u m j) * jac2 x p =
    match i with O => cross (fun m => u m j) (fun m => x m 1%nat) p | _ => cross (fun m => x m 0%nat) (fun m => u m j) p end.
Proof.
  intros Hi Hj HJ. revert i Hi. apply lt2; unfold cross, gshape2; cbv zeta; unfold dinterp2; rewrite !sumn4; field; assumption.
Qed.

Lemma full_grad nelem x E : full_obj nelem x E -> exists nip xi, el_nip E = nip /\ not_on_a_line nip xi /\ el_nne E = 4%nat /\ el_ndim E = 2%nat /\ (2 <= el_tdim E)%nat /\
  (forall e q, (e < nelem)%nat -> (q < nip)%nat -> jac2 (nodes x e) (point xi q) <> 0 /\ 0 < el_dV E [e;q]) /\
  forall c u e q i j, valid_call nelem c -> (e < nelem)%nat -> (q < nip)%nat -> (i < 2)%nat -> (j < 2)%nat ->
    el_GradN_vector E c u [e;q;i;j] = sumn 4 (fun m => gshape2 (nodes x e) m i (point xi q) * u [e;m;j]).
Proof.
  intros [nip xi w x' Q H HL HJ|nip xi w thick x' Pl H HL HJ].
  - pose proof (Quad4_facts _ _ _ _ _ _ H) as F. exists nip, xi. split; [exact (f_nip F)|]. split; [exact HL|]. do 3 (split; [cbn; lia|]). split; [exact HJ|].
    intros c u e q i j Hc He Hq Hi Hj. unrec. unfold Quad4_gradN_vector. rewrite (grad_at _ _ _ _ _ _ _ F _ Hc) by assumption. apply sumn_ext. intros m Hm.
    now rewrite (f_dNx F).
  - pose proof (proj2 (Planar_facts _ _ _ _ _ _ _ H)) as F. exists nip, xi. split; [exact (f_nip F)|]. split; [exact HL|]. do 3 (split; [cbn; lia|]). split; [exact HJ|].
    intros c u e q i j Hc He Hq Hi Hj. unrec. rewrite (P_grad_at _ _ _ _ _ _ _ H _ Hc) by (assumption || lia).
    replace ((i <? 2) && (j <? 2))%bool%nat with true by (symmetry; apply andb_true_iff; split; apply Nat.ltb_lt; assumption).
    apply sumn_ext. intros m Hm. now rewrite (f_dNx F).
Qed.

Lemma rigid_of_strain nelem x E : full_obj nelem x E -> forall c u e, valid_call nelem c -> (e < nelem)%nat ->
  (forall q i j, (q < el_nip E)%nat -> (i < 2)%nat -> (j < 2)%nat -> el_GradN_vector E c u [e;q;i;j] + el_GradN_vector E c u [e;q;j;i] = 0) -> rigid x u e.
Proof.
  intros HE c u e Hc He H. destruct (full_grad nelem x E HE) as [nip [xi [En [HL [_ [_ [_ [HV HG]]]]]]]]. rewrite En in H.
  apply (zero_strain_rigid nip xi (nodes x e) (nodes u e) HL).
  - destruct nip as [|nip].
    + exfalso. destruct (HL 1 0 0) as [A _]; [intros; lia|lra].
    + exists 0%nat. split; [lia|]. apply HV; [exact He|lia].
  - intros q Hq. cbv zeta. destruct (HV e q He Hq) as [HJ _].
    assert (G : forall i j, (i < 2)%nat -> (j < 2)%nat -> el_GradN_vector E c u [e;q;i;j] * jac2 (nodes x e) (point xi q) =
      match i with O => cross (fun m => nodes u e m j) (fun m => nodes x e m 1%nat) (point xi q) | _ => cross (fun m => nodes x e m 0%nat) (fun m => nodes u e m j) (point xi q) end).
    { intros i j Hi Hj. rewrite HG by assumption. exact (grad_cross (nodes x e) (nodes u e) i j (point xi q) Hi Hj HJ). }
    pose proof (H q 0%nat 0%nat Hq ltac:(lia) ltac:(lia)) as H00. pose proof (H q 1%nat 1%nat Hq ltac:(lia) ltac:(lia)) as H11. pose proof (H q 1%nat 0%nat Hq ltac:(lia) ltac:(lia)) as H10.
    pose proof (G 0%nat 0%nat ltac:(lia) ltac:(lia)) as G00. pose proof (G 1%nat 1%nat ltac:(lia) ltac:(lia)) as G11. pose proof (G 1%nat 0%nat ltac:(lia) ltac:(lia)) as G10. pose proof (G 0%nat 1%nat ltac:(lia) ltac:(lia)) as G01.
    cbv iota in G00, G11, G10, G01. rewrite <- G00, <- G11, <- G10, <- G01. replace (el_GradN_vector E c u [e;q;0;0]%nat) with 0 by lra. replace (el_GradN_vector E c u [e;q;1;1]%nat) with 0 by lra.
    split; [ring|]. split; [ring|]. rewrite <- Rmult_plus_distr_r, H10. ring.
Qed.

Lemma sumn_nonneg_zero n f : (forall i, (i < n)%nat -> 0 <= f i) -> sumn n f = 0 -> forall i, (i < n)%nat -> f i = 0.
Proof.
  induction n as [|n IH]; intros H Z i Hi; [lia|]. rewrite sumn_S in Z. pose proof (H n ltac:(lia)) as Hn.
  pose proof (sumn_nonneg n f (fun i Hi => H i ltac:(lia))) as Hs. destruct (Nat.eq_dec i n) as [->|Ne]; [lra|]. apply IH; [intros; apply H; lia|lra|lia].
Qed.

(** an element that can neither translate nor rotate *)
Lemma rigid_held x u e m1 m2 i : rigid x u e -> (m1 < 4)%nat -> (m2 < 4)%nat -> (i < 2)%nat -> x [e;m1;1-i]%nat <> x [e;m2;1-i]%nat ->
  u [e;m1;0]%nat = 0 -> u [e;m1;1]%nat = 0 -> u [e;m2;i] = 0 -> forall m j, (m < 4)%nat -> (j < 2)%nat -> u [e;m;j] = 0.
Proof.
  intros [s [t [r H]]] H1 H2 Hi Hx Z0 Z1 Z2 m k Hm Hk. destruct (H m1 H1) as [A1 A2]. destruct (H m2 H2) as [B1 B2]. destruct (H m Hm) as [D1 D2].
  rewrite Z0 in A1. rewrite Z1 in A2.
  assert (R0 : r = 0).
  { destruct i as [|[|]]; [| |lia]; cbn [Nat.sub] in Hx; [apply (Rmult_eq_reg_r (x [e;m1;1]%nat - x [e;m2;1]%nat))|apply (Rmult_eq_reg_r (x [e;m1;0]%nat - x [e;m2;0]%nat))]; lra. }
  rewrite R0 in *. destruct k as [|[|]]; [rewrite D1|rewrite D2|lia]; lra.
Qed.

Section M.
Set Default Proof Using "All".
Variables conn dofs : list (list nat).
Variable E : Elem.
Variables nelem nnode ndof : nat.
Variable x : arr.
Hypothesis HE : full_obj nelem x E.
Hypothesis Hmd : mesh_dofs conn dofs nelem (el_nne E) nnode (el_ndim E) ndof.
Notation v := (mkVector conn (el_nne E) dofs (el_ndim E)).
Variable iip : list nat.
Hypothesis Hh : no_holes dofs ndof.

Lemma held_no_mechanism C : strictly_elastic nelem E C -> (forall n i, (n < nnode)%nat -> (i < 2)%nat -> held conn dofs iip nelem x n i) -> no_mechanism v nelem ndof E C iip.
Proof.
  intros HC HA c y Y Hc Ly Hy EY HZ. destruct (full_grad nelem x E HE) as [nip [xi [En [HL [D4 [D2 [Dt [HV HG]]]]]]]].
  destruct (AsElement_dofval_spec v nelem _ nnode _ ndof eq_refl eq_refl Hmd y Ly) as [Y' [EY' [_ VY]]]. rewrite EY in EY'. injection EY' as <-.
  set (G := el_GradN_vector E c (of_rows Y)) in *.
  assert (P : forall e q, (e < nelem)%nat -> (q < el_nip E)%nat -> 0 <= sumn (el_tdim E) (fun i => sumn (el_tdim E) (fun j => ddot42 (el_tdim E) C G [e;q;i;j] * G [e;q;i;j])) * el_dV E [e;q]).
  { intros e q He Hq. apply Rmult_le_pos; [apply (HC G e q He Hq)|]. rewrite En in Hq. left. now apply HV. }
  assert (Q : forall e q i j, (e < nelem)%nat -> (q < el_nip E)%nat -> (i < el_tdim E)%nat -> (j < el_tdim E)%nat -> G [e;q;i;j] + G [e;q;j;i] = 0).
  { intros e q i j He Hq. apply (HC G e q He Hq). unfold integral in HZ.
    pose proof (sumn_nonneg_zero _ _ (fun e He => sumn_nonneg _ _ (fun q Hq => P e q He Hq)) HZ e He) as Z1. cbv beta in Z1.
    pose proof (sumn_nonneg_zero _ _ (fun q Hq => P e q He Hq) Z1 q Hq) as Z2. cbv beta in Z2. rewrite En in Hq. destruct (HV e q He Hq) as [_ Vp].
    apply (Rmult_eq_reg_r (el_dV E [e;q])); [|lra]. rewrite Rmult_0_l. exact Z2. }
  assert (HR : forall e, (e < nelem)%nat -> rigid x (of_rows Y) e).
  { intros e He. apply (rigid_of_strain nelem x E HE c (of_rows Y) e Hc He). intros q i j Hq Hi Hj. apply Q; try assumption; lia. }
  assert (N : forall n i, held conn dofs iip nelem x n i -> val1 y (idx2 dofs n i) = 0).
  { intros n k Hn. induction Hn as [n i Hp|e m1 m2 i m j He H1 H2 Hm Hi Hj A0 IH0 A1 IH1 A2 IH2 Hx]; [now apply Hy|].
    assert (V : forall m i, (m < 4)%nat -> (i < 2)%nat -> of_rows Y [e;m;i] = val1 y (idx2 dofs (idx2 conn e m) i)).
    { intros m' i' Hm' Hi'. rewrite of_rows_val. apply VY; [exact He|now rewrite D4|now rewrite D2]. }
    rewrite <- V by assumption. apply (rigid_held x (of_rows Y) e m1 m2 i); try assumption.
    - now apply HR.
    - rewrite V by lia. exact IH0.
    - rewrite V by lia. exact IH1.
    - rewrite V by lia. exact IH2. }
  intros d Hd. destruct (dof_node conn dofs E nelem nnode ndof Hmd Hh d Hd) as [n [i [Hn [Hi ->]]]]. rewrite D2 in Hi. apply N; auto.
Qed.
End M.
