(** Hexahedra that are boxes: no strain means a rigid motion. *)
From Coq Require Import Reals Lra Lia List Arith Permutation.
From Verif Require Import Model_Element Spec_Element Proof_Element Proof_ElementQuad4 Proof_ElementMath Proof_ElementThm Proof_ElementHex8 Base Spec Spec3d Sums Spec_Vector Spec_Matrix Model_Vector Model_Hex8Regular
  Model_Pipeline Spec_Pipeline Proof_PipelineElem Spec_Patch Spec_Macro Proof_PatchRigid Proof_QuadMeshObj Spec_HexMesh.
Import ListNotations.
Local Open Scope R_scope.

Lemma rule3_points nip xi w : full_rule3 nip xi w -> nip = 8%nat /\ (forall q, (q < 8)%nat -> w [q] = 1) /\
  exists g, 0 < g <= 1 /\ forall q i, (q < 8)%nat -> (i < 3)%nat -> xi [q;i] = g * corner3 q i.
Proof.
  assert (P : forall h j q i, (q < 8)%nat -> (i < 3)%nat -> Hex8_points h j [q;i] = 1 / h * corner3 q i).
  { intros h j q i Hq Hi. pose proof (Hex8_points_at h j) as P. revert q Hq. apply lt8; revert i Hi; apply lt3; corners3;
    repeat match type of P with _ /\ _ => let P1 := fresh in destruct P as [P1 P]; rewrite ?P1; clear P1 end; rewrite ?P; unfold Rdiv; ring. }
  intros [j j'|j j']; (split; [reflexivity|]); (split; [apply Gauss8_w_at|]).
  - exists (1 / sqrt 3). split; [exact sqrt3_inv|]. apply P.
  - exists (1 / 1). split; [lra|]. apply P.
Qed.

(** the coefficients of the trilinear interpolation of nodal values *)
Definition chi (k m : nat) : R :=
  match k with
  | 0%nat => 1 | 1%nat => corner3 m 0 | 2%nat => corner3 m 1 | 3%nat => corner3 m 2
  | 4%nat => corner3 m 0 * corner3 m 1 | 5%nat => corner3 m 1 * corner3 m 2 | 6%nat => corner3 m 0 * corner3 m 2
  | _ => corner3 m 0 * corner3 m 1 * corner3 m 2
  end.
Definition kf (u : nat -> R) (k : nat) : R := sumn 8 (fun m => chi k m * u m) / 8.
Lemma value_kf u m : (m < 8)%nat -> u m = sumn 8 (fun k => chi k m * kf u k).
Proof. revert m. apply lt8; rewrite sumn8; unfold kf; rewrite !sumn8; unfold chi; corners3; field. Qed.
Lemma dinterp_kf u p : dinterp3 u 0 p = kf u 1 + kf u 4 * p 1%nat + kf u 6 * p 2%nat + kf u 7 * p 1%nat * p 2%nat /\
  dinterp3 u 1 p = kf u 2 + kf u 4 * p 0%nat + kf u 5 * p 2%nat + kf u 7 * p 0%nat * p 2%nat /\
  dinterp3 u 2 p = kf u 3 + kf u 5 * p 1%nat + kf u 6 * p 0%nat + kf u 7 * p 0%nat * p 1%nat.
Proof. unfold dinterp3, kf. rewrite !sumn8. unfold dshape3, chi. corners3. repeat split; field. Qed.

Lemma unisolvent g a : 0 < g -> (forall q, (q < 8)%nat -> trilinear a (g * corner3 q 0) (g * corner3 q 1) (g * corner3 q 2) = 0) -> forall k, (k < 8)%nat -> a k = 0.
Proof.
  intros Hg H. assert (G2 : g * g <> 0) by nra. assert (G3 : g * g * g <> 0) by (apply Rmult_integral_contrapositive_currified; lra).
  pose proof (H 0%nat ltac:(lia)) as H0. pose proof (H 1%nat ltac:(lia)) as H1. pose proof (H 2%nat ltac:(lia)) as H2. pose proof (H 3%nat ltac:(lia)) as H3.
  pose proof (H 4%nat ltac:(lia)) as H4. pose proof (H 5%nat ltac:(lia)) as H5. pose proof (H 6%nat ltac:(lia)) as H6. pose proof (H 7%nat ltac:(lia)) as H7. clear H.
  unfold trilinear, corner3 in *. cbn [Nat.modulo Nat.divmod fst snd Nat.sub Nat.ltb Nat.leb] in *. unfold corner2 in *.
  apply lt8.
  - lra.
  - apply (Rmult_eq_reg_l g); [|lra]. rewrite Rmult_0_r. lra.
  - apply (Rmult_eq_reg_l g); [|lra]. rewrite Rmult_0_r. lra.
  - apply (Rmult_eq_reg_l g); [|lra]. rewrite Rmult_0_r. lra.
  - apply (Rmult_eq_reg_l (g * g)); [|lra]. rewrite Rmult_0_r. lra.
  - apply (Rmult_eq_reg_l (g * g)); [|lra]. rewrite Rmult_0_r. lra.
  - apply (Rmult_eq_reg_l (g * g)); [|lra]. rewrite Rmult_0_r. lra.
  - apply (Rmult_eq_reg_l (g * g * g)); [|lra]. rewrite Rmult_0_r. lra.
Qed.

(** the geometry of a box *)
Lemma box_dinterp x c h p : (forall m i, (m < 8)%nat -> (i < 3)%nat -> x m i = c i + h i * corner3 m i) ->
  forall i j, (i < 3)%nat -> (j < 3)%nat -> dinterp3 (fun m => x m j) i p = if (i =? j)%nat then h j else 0.
Proof.
  intros H i j Hi Hj. unfold dinterp3. rewrite sumn8, !H by (assumption || lia).
  revert i Hi. apply lt3; revert j Hj; apply lt3; unfold dshape3; corners3; cbn [Nat.eqb]; field.
Qed.
Lemma box_Jsum x c h p i : (forall m i, (m < 8)%nat -> (i < 3)%nat -> x m i = c i + h i * corner3 m i) -> (forall i, (i < 3)%nat -> 0 < h i) -> (i < 3)%nat -> Jsum x i p = / h i.
Proof.
  intros H Hh Hi. destruct (box_diagonal x c h p H) as [D J]. pose proof (Hh i Hi) as Hpos.
  assert (Jn : jac3 x p <> 0) by (rewrite J; repeat apply Rmult_integral_contrapositive_currified; apply Rgt_not_eq, Hh; lia).
  pose proof (Jsum_diagonal x p i Hi D Jn) as E. rewrite (box_dinterp x c h p H i i Hi Hi), Nat.eqb_refl in E.
  apply (Rmult_eq_reg_r (h i)); [|lra]. rewrite E. field. lra.
Qed.

(** what is used of the object *)
Lemma box_facts nelem x E : box_obj nelem x E -> el_nip E = 8%nat /\ el_nne E = 8%nat /\ el_ndim E = 3%nat /\ el_tdim E = 3%nat /\
  exists xi g, 0 < g <= 1 /\ (forall q i, (q < 8)%nat -> (i < 3)%nat -> xi [q;i] = g * corner3 q i) /\
  forall e, (e < nelem)%nat -> exists c s, (forall i, (i < 3)%nat -> 0 < s i) /\ (forall m i, (m < 8)%nat -> (i < 3)%nat -> x [e;m;i] = c i + s i * corner3 m i) /\
    (forall q, (q < 8)%nat -> el_dV E [e;q] = s 0%nat * s 1%nat * s 2%nat) /\
    forall k u q i j, valid_call nelem k -> (q < 8)%nat -> (i < 3)%nat -> (j < 3)%nat ->
      el_GradN_vector E k u [e;q;i;j] = / s i * dinterp3 (fun m => u [e;m;j]) i (point xi q).
Proof.
  intros [nip xi w x' Q HR HQ HB]. pose proof (Hex8_facts _ _ _ _ _ _ HQ) as F. destruct (rule3_points _ _ _ HR) as (-> & Hw & g & Hg & Hxi).
  split; [exact (h_nip F)|]. do 3 (split; [reflexivity|]). exists xi, g. split; [exact Hg|]. split; [exact Hxi|]. intros e He. destruct (HB e He) as (c & s & Hs & Hx). exists c, s.
  split; [exact Hs|]. split; [exact Hx|]. split.
  - intros q Hq. cbn [Hex8_elem el_dV]. rewrite (h_vol F e q He Hq), (Hw q Hq). destruct (box_diagonal (nodes x' e) c s (point xi q) Hx) as [_ ->]. ring.
  - intros k u q i j Hk Hq Hi Hj. unrec. rewrite (h_grad_at _ _ _ _ _ _ F _ Hk) by assumption. unfold grad8, dinterp3. rewrite <- sumn_scal. apply sumn_ext. intros m Hm.
    rewrite (h_dNx F) by assumption. unfold cshape3. rewrite (box_Jsum (nodes x' e) c s (point xi q) i Hx Hs Hi). ring.
Qed.

Lemma box_affine nelem x E : box_obj nelem x E -> affine_obj nelem x E.
Proof.
  intros [nip xi w x' Q HR HQ HB]. apply (aff_Hex8 nelem nip xi w x' Q HQ). intros e q He Hq. destruct (HB e He) as (c & s & Hs & Hx).
  destruct (box_diagonal (nodes x' e) c s (point xi q) Hx) as [D J]. split; [|exact D]. rewrite J. repeat apply Rmult_integral_contrapositive_currified; apply Rgt_not_eq, Hs; lia.
Qed.
Lemma box_volume nelem x E : box_obj nelem x E -> forall e q, (e < nelem)%nat -> (q < el_nip E)%nat -> 0 < el_dV E [e;q].
Proof.
  intros H e q He Hq. destruct (box_facts _ _ _ H) as (N & _ & _ & _ & xi & g & _ & _ & F). rewrite N in Hq. destruct (F e He) as (c & s & Hs & _ & V & _). rewrite (V q Hq).
  repeat apply Rmult_lt_0_compat; apply Hs; lia.
Qed.

(** zero strain at the integration points: a rigid motion *)
Lemma box_rigid nelem x E : box_obj nelem x E -> forall k u e, valid_call nelem k -> (e < nelem)%nat ->
  (forall q i j, (q < 8)%nat -> (i < 3)%nat -> (j < 3)%nat -> el_GradN_vector E k u [e;q;i;j] + el_GradN_vector E k u [e;q;j;i] = 0) -> rigid3 x u e.
Proof.
  intros HE k u e Hk He H. destruct (box_facts _ _ _ HE) as (_ & _ & _ & _ & xi & g & [Hg _] & Hxi & F). destruct (F e He) as (c & s & Hs & Hx & _ & G).
  set (U := fun j m => u [e;m;j]).
  pose proof (Hs 0%nat ltac:(lia)) as S0. pose proof (Hs 1%nat ltac:(lia)) as S1. pose proof (Hs 2%nat ltac:(lia)) as S2.
  (* D i j: derivative in direction i of component j *)
  set (d := fun i j : nat => fun k : nat => kf (U j) k / s i).
  assert (Z : forall a i j, (i < 3)%nat -> (j < 3)%nat -> (forall q, (q < 8)%nat -> / s i * dinterp3 (U j) i (point xi q) + / s j * dinterp3 (U i) j (point xi q) =
      trilinear a (point xi q 0%nat) (point xi q 1%nat) (point xi q 2%nat)) -> forall k, (k < 8)%nat -> a k = 0).
  { intros a i j Hi Hj HA. apply (unisolvent g a Hg). intros q Hq. rewrite <- !Hxi by lia. change (trilinear a (point xi q 0%nat) (point xi q 1%nat) (point xi q 2%nat) = 0). rewrite <- HA by exact Hq.
    rewrite <- (H q i j Hq Hi Hj), !(G k u q) by assumption. reflexivity. }
  pose proof (Z (fun k => nth k [2 * d 0%nat 0%nat 1%nat; 0; 2 * d 0%nat 0%nat 4%nat; 2 * d 0%nat 0%nat 6%nat; 0; 2 * d 0%nat 0%nat 7%nat; 0; 0] 0) 0%nat 0%nat) as Z00.
  pose proof (Z (fun k => nth k [2 * d 1%nat 1%nat 2%nat; 2 * d 1%nat 1%nat 4%nat; 0; 2 * d 1%nat 1%nat 5%nat; 0; 0; 2 * d 1%nat 1%nat 7%nat; 0] 0) 1%nat 1%nat) as Z11.
  pose proof (Z (fun k => nth k [2 * d 2%nat 2%nat 3%nat; 2 * d 2%nat 2%nat 6%nat; 2 * d 2%nat 2%nat 5%nat; 0; 2 * d 2%nat 2%nat 7%nat; 0; 0; 0] 0) 2%nat 2%nat) as Z22.
  pose proof (Z (fun k => nth k [d 0%nat 1%nat 1%nat + d 1%nat 0%nat 2%nat; d 1%nat 0%nat 4%nat; d 0%nat 1%nat 4%nat; d 0%nat 1%nat 6%nat + d 1%nat 0%nat 5%nat; 0; d 0%nat 1%nat 7%nat; d 1%nat 0%nat 7%nat; 0] 0) 0%nat 1%nat) as Z01.
  pose proof (Z (fun k => nth k [d 0%nat 2%nat 1%nat + d 2%nat 0%nat 3%nat; d 2%nat 0%nat 6%nat; d 0%nat 2%nat 4%nat + d 2%nat 0%nat 5%nat; d 0%nat 2%nat 6%nat; d 2%nat 0%nat 7%nat; d 0%nat 2%nat 7%nat; 0; 0] 0) 0%nat 2%nat) as Z02.
  pose proof (Z (fun k => nth k [d 1%nat 2%nat 2%nat + d 2%nat 1%nat 3%nat; d 1%nat 2%nat 4%nat + d 2%nat 1%nat 6%nat; d 2%nat 1%nat 5%nat; d 1%nat 2%nat 5%nat; d 2%nat 1%nat 7%nat; 0; d 1%nat 2%nat 7%nat; 0] 0) 1%nat 2%nat) as Z12.
  Ltac dk U xi := intros q Hq; repeat match goal with |- context [dinterp3 (U ?j) 0 (point xi ?q)] => rewrite (proj1 (dinterp_kf (U j) (point xi q)))
    | |- context [dinterp3 (U ?j) 1 (point xi ?q)] => rewrite (proj1 (proj2 (dinterp_kf (U j) (point xi q))))
    | |- context [dinterp3 (U ?j) 2 (point xi ?q)] => rewrite (proj2 (proj2 (dinterp_kf (U j) (point xi q)))) end; unfold trilinear; cbn [nth].
  specialize (Z00 ltac:(lia) ltac:(lia) ltac:(dk U xi; unfold d; field; lra)). specialize (Z11 ltac:(lia) ltac:(lia) ltac:(dk U xi; unfold d; field; lra)). specialize (Z22 ltac:(lia) ltac:(lia) ltac:(dk U xi; unfold d; field; lra)).
  specialize (Z01 ltac:(lia) ltac:(lia) ltac:(dk U xi; unfold d; field; lra)). specialize (Z02 ltac:(lia) ltac:(lia) ltac:(dk U xi; unfold d; field; lra)). specialize (Z12 ltac:(lia) ltac:(lia) ltac:(dk U xi; unfold d; field; lra)).
  assert (D0 : forall i j k, (i < 3)%nat -> d i j k = 0 -> kf (U j) k = 0).
  { intros i j l Hi Ed. unfold d in Ed. pose proof (Hs i Hi). replace (kf (U j) l) with (kf (U j) l / s i * s i) by (field; lra). rewrite Ed. ring. }
  assert (A01 : kf (U 0%nat) 1 = 0) by (apply (D0 0%nat); [lia|]; pose proof (Z00 0%nat ltac:(lia)) as Y; cbn [nth] in Y; lra).
  assert (A04 : kf (U 0%nat) 4 = 0) by (apply (D0 0%nat); [lia|]; pose proof (Z00 2%nat ltac:(lia)) as Y; cbn [nth] in Y; lra).
  assert (A06 : kf (U 0%nat) 6 = 0) by (apply (D0 0%nat); [lia|]; pose proof (Z00 3%nat ltac:(lia)) as Y; cbn [nth] in Y; lra).
  assert (A07 : kf (U 0%nat) 7 = 0) by (apply (D0 0%nat); [lia|]; pose proof (Z00 5%nat ltac:(lia)) as Y; cbn [nth] in Y; lra).
  assert (A12 : kf (U 1%nat) 2 = 0) by (apply (D0 1%nat); [lia|]; pose proof (Z11 0%nat ltac:(lia)) as Y; cbn [nth] in Y; lra).
  assert (A14 : kf (U 1%nat) 4 = 0) by (apply (D0 1%nat); [lia|]; pose proof (Z11 1%nat ltac:(lia)) as Y; cbn [nth] in Y; lra).
  assert (A15 : kf (U 1%nat) 5 = 0) by (apply (D0 1%nat); [lia|]; pose proof (Z11 3%nat ltac:(lia)) as Y; cbn [nth] in Y; lra).
  assert (A17 : kf (U 1%nat) 7 = 0) by (apply (D0 1%nat); [lia|]; pose proof (Z11 6%nat ltac:(lia)) as Y; cbn [nth] in Y; lra).
  assert (A23 : kf (U 2%nat) 3 = 0) by (apply (D0 2%nat); [lia|]; pose proof (Z22 0%nat ltac:(lia)) as Y; cbn [nth] in Y; lra).
  assert (A25 : kf (U 2%nat) 5 = 0) by (apply (D0 2%nat); [lia|]; pose proof (Z22 2%nat ltac:(lia)) as Y; cbn [nth] in Y; lra).
  assert (A26 : kf (U 2%nat) 6 = 0) by (apply (D0 2%nat); [lia|]; pose proof (Z22 1%nat ltac:(lia)) as Y; cbn [nth] in Y; lra).
  assert (A27 : kf (U 2%nat) 7 = 0) by (apply (D0 2%nat); [lia|]; pose proof (Z22 4%nat ltac:(lia)) as Y; cbn [nth] in Y; lra).
  (* the bilinear terms of the shear vanish together *)
  pose proof (Z01 3%nat ltac:(lia)) as B01. pose proof (Z02 2%nat ltac:(lia)) as B02. pose proof (Z12 1%nat ltac:(lia)) as B12. cbn [nth] in B01, B02, B12. unfold d in B01, B02, B12.
  assert (C01 : kf (U 1%nat) 6 * s 1%nat + kf (U 0%nat) 5 * s 0%nat = 0) by (replace (kf (U 1%nat) 6 * s 1%nat + kf (U 0%nat) 5 * s 0%nat) with ((kf (U 1%nat) 6 / s 0%nat + kf (U 0%nat) 5 / s 1%nat) * (s 0%nat * s 1%nat)) by (field; lra); rewrite B01; ring).
  assert (C02 : kf (U 2%nat) 4 * s 2%nat + kf (U 0%nat) 5 * s 0%nat = 0) by (replace (kf (U 2%nat) 4 * s 2%nat + kf (U 0%nat) 5 * s 0%nat) with ((kf (U 2%nat) 4 / s 0%nat + kf (U 0%nat) 5 / s 2%nat) * (s 0%nat * s 2%nat)) by (field; lra); rewrite B02; ring).
  assert (C12 : kf (U 2%nat) 4 * s 2%nat + kf (U 1%nat) 6 * s 1%nat = 0) by (replace (kf (U 2%nat) 4 * s 2%nat + kf (U 1%nat) 6 * s 1%nat) with ((kf (U 2%nat) 4 / s 1%nat + kf (U 1%nat) 6 / s 2%nat) * (s 1%nat * s 2%nat)) by (field; lra); rewrite B12; ring).
  assert (A05 : kf (U 0%nat) 5 = 0) by (apply (Rmult_eq_reg_r (s 0%nat)); lra). assert (A16 : kf (U 1%nat) 6 = 0) by (apply (Rmult_eq_reg_r (s 1%nat)); lra). assert (A24 : kf (U 2%nat) 4 = 0) by (apply (Rmult_eq_reg_r (s 2%nat)); lra).
  pose proof (Z01 0%nat ltac:(lia)) as E01. pose proof (Z02 0%nat ltac:(lia)) as E02. pose proof (Z12 0%nat ltac:(lia)) as E12. cbn [nth] in E01, E02, E12. unfold d in E01, E02, E12.
  set (r := fun i : nat => match i with 0%nat => kf (U 2%nat) 2 / s 1%nat | 1%nat => kf (U 0%nat) 3 / s 2%nat | _ => kf (U 1%nat) 1 / s 0%nat end).
  exists (fun i => match i with 0%nat => kf (U 0%nat) 0 - (r 1%nat * c 2%nat - r 2%nat * c 1%nat) | 1%nat => kf (U 1%nat) 0 - (r 2%nat * c 0%nat - r 0%nat * c 2%nat) | _ => kf (U 2%nat) 0 - (r 0%nat * c 1%nat - r 1%nat * c 0%nat) end), r.
  intros m i Hm Hi. change (u [e;m;i]) with (U i m). rewrite (value_kf (U i) m Hm), sumn8. unfold rigid_motion. revert i Hi. apply lt3; cbv beta iota; rewrite !Hx by lia.
  - rewrite A01, A04, A06, A07, A05. unfold chi, r. replace (kf (U 0%nat) 2) with (- (kf (U 1%nat) 1 / s 0%nat) * s 1%nat).
    2:{ replace (- (kf (U 1%nat) 1 / s 0%nat)) with (kf (U 0%nat) 2 / s 1%nat) by lra. field. lra. } field. lra.
  - rewrite A12, A14, A15, A17, A16. unfold chi, r. replace (kf (U 1%nat) 3) with (- (kf (U 2%nat) 2 / s 1%nat) * s 2%nat).
    2:{ replace (- (kf (U 2%nat) 2 / s 1%nat)) with (kf (U 1%nat) 3 / s 2%nat) by lra. field. lra. } field. lra.
  - rewrite A23, A25, A26, A27, A24. unfold chi, r. replace (kf (U 2%nat) 1) with (- (kf (U 0%nat) 3 / s 2%nat) * s 0%nat).
    2:{ replace (- (kf (U 0%nat) 3 / s 2%nat)) with (kf (U 2%nat) 1 / s 0%nat) by lra. field. lra. } field. lra.
Qed.
