(** Proofs for Prop_Deform.v *)
From Coq Require Import Reals Lra Lia.
From Verif Require Import Model_Element Spec_Element Proof_Element Proof_ElementQuad4 Proof_ElementMath Proof_ElementThm Proof_ElementThm2 Proof_ElementThm3 Proof_ElementAxisym Proof_ElementHex8
  Base Spec Sums Model_Pipeline Spec_Pipeline Proof_PipelineElem Spec_Deform.
Local Open Scope R_scope.

Lemma dinterp2_plus a b i p : dinterp2 (fun m => a m + b m) i p = dinterp2 a i p + dinterp2 b i p.
Proof. unfold dinterp2. rewrite <- sumn_plus. apply sumn_ext. intros m _. ring. Qed.
Lemma dinterp3_plus a b i p : dinterp3 (fun m => a m + b m) i p = dinterp3 a i p + dinterp3 b i p.
Proof. unfold dinterp3. rewrite <- sumn_plus. apply sumn_ext. intros m _. ring. Qed.
Lemma interp2_plus a b p : interp2 (fun m => a m + b m) p = interp2 a p + interp2 b p.
Proof. unfold interp2. rewrite <- sumn_plus. apply sumn_ext. intros m _. ring. Qed.

(** the gradient in terms of derivatives in local coordinates *)
Lemma gsum x (v : nat -> R) p i : (i < 2)%nat ->
  sumn 4 (fun m => gshape2 x m i p * v m) =
  (if (i =? 0)%nat then dinterp2 (fun m => x m 1%nat) 1 p * dinterp2 v 0 p - dinterp2 (fun m => x m 1%nat) 0 p * dinterp2 v 1 p
   else dinterp2 (fun m => x m 0%nat) 0 p * dinterp2 v 1 p - dinterp2 (fun m => x m 0%nat) 1 p * dinterp2 v 0 p) / jac2 x p.
Proof.
  intros Hi. unfold gshape2. set (J := jac2 x p). set (d00 := dinterp2 (fun m => x m 0%nat) 0 p). set (d01 := dinterp2 (fun m => x m 0%nat) 1 p).
  set (d10 := dinterp2 (fun m => x m 1%nat) 0 p). set (d11 := dinterp2 (fun m => x m 1%nat) 1 p).
  unfold dinterp2. rewrite !sumn4. revert i Hi. apply lt2; cbn [Nat.eqb]; unfold Rdiv; ring.
Qed.

Section Plane.
Variables (x u : nat -> nat -> R) (p : nat -> R).
Hypothesis HJ : jac2 x p <> 0.
Notation x' := (fun m i => x m i + u m i).
Definition G2 i j := sumn 4 (fun m => gshape2 x m i p * u m j).
Definition F2 i j := (if (i =? j)%nat then 1 else 0) + G2 j i.
Set Default Proof Using "All".

Lemma jac2_moved : jac2 x' p = (F2 0 0 * F2 1 1 - F2 0 1 * F2 1 0) * jac2 x p.
Proof.
  unfold F2, G2. rewrite !gsum by lia. cbn [Nat.eqb]. revert HJ. unfold jac2. rewrite !dinterp2_plus. cbv zeta.
  intros H. field. exact H.
Qed.

Lemma chain2 (v : nat -> R) i : (i < 2)%nat -> F2 0 0 * F2 1 1 - F2 0 1 * F2 1 0 <> 0 ->
  sumn 4 (fun m => gshape2 x m i p * v m) = F2 0 i * sumn 4 (fun m => gshape2 x' m 0 p * v m) + F2 1 i * sumn 4 (fun m => gshape2 x' m 1 p * v m).
Proof.
  intros Hi HF.
  assert (HJ' : jac2 x' p <> 0).
  { rewrite jac2_moved. apply Rmult_integral_contrapositive_currified; assumption. }
  rewrite !(gsum x') by lia. unfold F2, G2. rewrite !(gsum x) by lia.
  revert HJ HJ'. unfold jac2. cbv zeta. cbn [Nat.eqb]. rewrite !dinterp2_plus. intros H1 H2.
  revert i Hi. apply lt2; cbn [Nat.eqb]; field; split; assumption.
Qed.
End Plane.

(** Hex8, diagonal Jacobian matrix *)
Section Space.
Variables (x u : nat -> nat -> R) (p : nat -> R).
Hypothesis HJ : jac3 x p <> 0.
Hypothesis HD : diagonal3 x p.
Notation x' := (fun m i => x m i + u m i).
Set Default Proof Using "All".

Lemma jac3_diag : jac3 x p = dinterp3 (fun m => x m 0%nat) 0 p * dinterp3 (fun m => x m 1%nat) 1 p * dinterp3 (fun m => x m 2%nat) 2 p.
Proof.
  unfold jac3. cbv zeta. rewrite (HD 0%nat 1%nat), (HD 0%nat 2%nat), (HD 1%nat 0%nat), (HD 1%nat 2%nat), (HD 2%nat 0%nat), (HD 2%nat 1%nat) by lia. ring.
Qed.
End Space.

Section Space2.
Variables (x u : nat -> nat -> R) (p : nat -> R).
Hypothesis HJ : jac3 x p <> 0.
Hypothesis HD : diagonal3 x p.
Notation x' := (fun m i => x m i + u m i).
Definition G3 i j := sumn 8 (fun m => cshape3 x m i p * u m j).
Definition F3 i j := (if (i =? j)%nat then 1 else 0) + G3 j i.
Set Default Proof Using "All".

Lemma G3_at i j : (i < 3)%nat -> G3 i j = dinterp3 (fun m => u m j) i p / dinterp3 (fun m => x m i) i p.
Proof.
  intros Hi. unfold G3, cshape3. rewrite (sumn_ext 8 _ (fun m => Jsum x i p * (dshape3 m i p * u m j))) by (intros; ring).
  rewrite sumn_scal. fold (dinterp3 (fun m => u m j) i p). pose proof (Jsum_diagonal x p i Hi HD HJ) as E.
  assert (N : dinterp3 (fun m => x m i) i p <> 0) by (intros E'; rewrite E' in E; lra).
  apply (Rmult_eq_reg_r (dinterp3 (fun m => x m i) i p)); [|exact N].
  replace (_ * dinterp3 (fun m => u m j) i p * _) with (Jsum x i p * dinterp3 (fun m => x m i) i p * dinterp3 (fun m => u m j) i p) by ring.
  rewrite E. field. exact N.
Qed.

Lemma jac3_moved : jac3 x' p = det_of 3 F3 * jac3 x p.
Proof.
  assert (E := jac3_diagonal x p HD). assert (HJ' := HJ). rewrite E in HJ'.
  assert (N : forall i, (i < 3)%nat -> dinterp3 (fun m => x m i) i p <> 0).
  { apply lt3; intros E'; apply HJ'; rewrite E'; ring. }
  rewrite E. cbn [det_of]. unfold F3. rewrite !G3_at by lia. cbn [Nat.eqb]. unfold jac3. cbv zeta. rewrite !dinterp3_plus.
  rewrite (HD 0%nat 1%nat), (HD 0%nat 2%nat), (HD 1%nat 0%nat), (HD 1%nat 2%nat), (HD 2%nat 0%nat), (HD 2%nat 1%nat) by lia.
  field. repeat split; apply N; lia.
Qed.
End Space2.

(** ** the classes *)
Ltac eqbs := cbn [Nat.eqb].

Lemma nodes_moved x u e : nodes (displaced x u) e = fun m i => nodes x e m i + nodes u e m i.
Proof. reflexivity. Qed.

Lemma defgrad_F2 (g : arr) x u e q p : (forall i j, (i < 2)%nat -> (j < 2)%nat -> g [e;q;i;j] = sumn 4 (fun m => gshape2 (nodes x e) m i p * u [e;m;j])) ->
  forall i j, (i < 2)%nat -> (j < 2)%nat -> defgrad g e q i j = F2 (nodes x e) (nodes u e) p i j.
Proof. intros H i j Hi Hj. unfold defgrad, F2, G2. rewrite (H j i Hj Hi). reflexivity. Qed.

Section Q4.
Variables (nelem nip : nat) (xi w : arr) (vol_of : R -> R -> R) (x : arr) (Q : Quadrature).
Hypothesis F : quad4_facts nelem nip xi w vol_of x Q.
Lemma grad4_at u e q i j : (e < nelem)%nat -> (q < nip)%nat -> (i < 2)%nat -> (j < 2)%nat ->
  grad4 (q_dNx Q) u e q i j = sumn 4 (fun m => gshape2 (nodes x e) m i (point xi q) * u [e;m;j]).
Proof using F. intros He Hq Hi Hj. apply sumn_ext. intros m Hm. rewrite (f_dNx F) by assumption. reflexivity. Qed.
End Q4.

Lemma P_F nelem nip xi w thick x u P c e q : Planar_obj nelem nip xi w thick x P -> valid_call nelem c -> (e < nelem)%nat -> (q < nip)%nat ->
  let g := Planar_gradN_vector (c_es c) P u (c_old c) in
  (forall i j, (i < 2)%nat -> (j < 2)%nat -> g [e;q;i;j] = sumn 4 (fun m => gshape2 (nodes x e) m i (point xi q) * u [e;m;j])) /\
  g [e;q;2;0]%nat = 0 /\ g [e;q;2;1]%nat = 0 /\ g [e;q;0;2]%nat = 0 /\ g [e;q;1;2]%nat = 0 /\ g [e;q;2;2]%nat = 0.
Proof.
  intros H Hc He Hq g. split.
  - intros i j Hi Hj. unfold g. rewrite (P_grad_at _ _ _ _ _ _ _ H _ Hc) by (assumption || lia).
    rewrite (proj2 (Nat.ltb_lt i 2) Hi), (proj2 (Nat.ltb_lt j 2) Hj). cbn [andb]. now apply (grad4_at _ _ _ _ _ _ _ (P_facts _ _ _ _ _ _ _ H _ Hc)).
  - unfold g. repeat split; apply (P_out _ _ _ _ _ _ _ H _ Hc); lia.
Qed.

Lemma A_F nelem nip xi w x u A c e q : Axisym_obj nelem nip xi w x A -> valid_call nelem c -> (e < nelem)%nat -> (q < nip)%nat ->
  let g := Axisym_gradN_vector (c_es c) A u (c_old c) in
  let G i j := sumn 4 (fun m => gshape2 (nodes x e) m i (point xi q) * u [e;m;j]) in
  g [e;q;0;0]%nat = G 1%nat 1%nat /\ g [e;q;2;2]%nat = G 0%nat 0%nat /\ g [e;q;0;2]%nat = G 1%nat 0%nat /\ g [e;q;2;0]%nat = G 0%nat 1%nat /\
  g [e;q;1;1]%nat = interp2 (comp u e 1) (point xi q) / radius xi x e q /\
  g [e;q;0;1]%nat = 0 /\ g [e;q;1;0]%nat = 0 /\ g [e;q;1;2]%nat = 0 /\ g [e;q;2;1]%nat = 0.
Proof.
  intros H Hc He Hq g G. pose proof (Axisym_facts _ _ _ _ _ _ H) as F. unfold g.
  rewrite !(axi_grad_spec _ _ _ _ _ _ F _ Hc), !(agrad_at _ _ _ _ _ _ F _ Hc) by (assumption || lia). repeat split; reflexivity.
Qed.

Lemma radius_moved xi x u e q : radius xi (displaced x u) e q = radius xi x e q + interp2 (comp u e 1) (point xi q).
Proof. unfold radius, comp, displaced. apply interp2_plus. Qed.

Section Main.
Variables (nelem : nat) (x u : arr).
Set Default Proof Using "All".

Lemma def_same E E' : deformed nelem x u E E' -> el_nne E' = el_nne E /\ el_ndim E' = el_ndim E /\ el_tdim E' = el_tdim E /\ el_nip E' = el_nip E.
Proof.
  intros [nip xi w Q Q' H H' HJ|nip xi w thick P P' H H' HJ|nip xi w A A' H H' HJ|nip xi w Q Q' H H' HJ]; unrec; repeat split.
  - now rewrite (f_nip (Quad4_facts _ _ _ _ _ _ H)), (f_nip (Quad4_facts _ _ _ _ _ _ H')).
  - now rewrite (f_nip (proj2 (Planar_facts _ _ _ _ _ _ _ H))), (f_nip (proj2 (Planar_facts _ _ _ _ _ _ _ H'))).
  - now rewrite (a_f_nip (Axisym_facts _ _ _ _ _ _ H)), (a_f_nip (Axisym_facts _ _ _ _ _ _ H')).
  - now rewrite (h_nip (Hex8_facts _ _ _ _ _ _ H)), (h_nip (Hex8_facts _ _ _ _ _ _ H')).
Qed.

Lemma def_objs E E' : deformed nelem x u E E' -> elem_obj nelem x E /\ elem_obj nelem (displaced x u) E'.
Proof.
  intros [nip xi w Q Q' H H' HJ|nip xi w thick P P' H H' HJ|nip xi w A A' H H' HJ|nip xi w Q Q' H H' HJ]; split; econstructor; eassumption.
Qed.

Lemma def_volume E E' c e q : deformed nelem x u E E' -> valid_call nelem c -> (e < nelem)%nat -> (q < el_nip E)%nat ->
  el_dV E' [e;q] = det_of (el_tdim E) (defgrad (el_GradN_vector E c u) e q) * el_dV E [e;q].
Proof.
  intros [nip xi w Q Q' H H' HJ|nip xi w thick P P' H H' HJ|nip xi w A A' H H' HJ|nip xi w Q Q' H H' HJ] Hc He; unrec.
  - pose proof (Quad4_facts _ _ _ _ _ _ H) as F. pose proof (Quad4_facts _ _ _ _ _ _ H') as F'. rewrite (f_nip F). intros Hq.
    rewrite (f_vol F), (f_vol F') by assumption. rewrite nodes_moved, jac2_moved by (now apply HJ).
    assert (EF : forall i j, (i < 2)%nat -> (j < 2)%nat -> defgrad (Quad4_gradN_vector (c_es c) Q u (c_old c)) e q i j = F2 (nodes x e) (nodes u e) (point xi q) i j).
    { apply defgrad_F2. intros i j Hi Hj. unfold Quad4_gradN_vector. rewrite (grad_at _ _ _ _ _ _ _ F _ Hc) by assumption. now apply (grad4_at _ _ _ _ _ _ _ F). }
    cbn [det_of]. rewrite !EF by lia. ring.
  - pose proof (proj2 (Planar_facts _ _ _ _ _ _ _ H)) as F. pose proof (proj2 (Planar_facts _ _ _ _ _ _ _ H')) as F'. rewrite (f_nip F). intros Hq.
    rewrite (f_vol F), (f_vol F') by assumption. rewrite nodes_moved, jac2_moved by (now apply HJ).
    destruct (P_F _ _ _ _ _ _ u _ c e q H Hc He Hq) as (G & G1 & G2 & G3 & G4 & G5).
    pose proof (defgrad_F2 _ x u e q (point xi q) G) as EF.
    cbn [det_of]. rewrite (EF 0%nat 0%nat), (EF 0%nat 1%nat), (EF 1%nat 0%nat), (EF 1%nat 1%nat) by lia. unfold defgrad. cbn [Nat.eqb]. rewrite G1, G2, G3, G4, G5.
    ring.
  - pose proof (Axisym_facts _ _ _ _ _ _ H) as F. pose proof (Axisym_facts _ _ _ _ _ _ H') as F'. rewrite (a_f_nip F). intros Hq.
    destruct (HJ e q He Hq) as (J1 & J2).
    rewrite (a_f_vol F), (a_f_vol F') by assumption. rewrite radius_moved, nodes_moved, jac2_moved by exact J1.
    destruct (A_F _ _ _ _ _ u _ c e q H Hc He Hq) as (G00 & G22 & G02 & G20 & G11 & G01 & G10 & G12 & G21).
    cbn [det_of]. unfold defgrad. cbn [Nat.eqb]. rewrite G00, G22, G02, G20, G11, G01, G10, G12, G21. unfold F2, G2. cbn [Nat.eqb].
    unfold nodes. field. exact J2.
  - pose proof (Hex8_facts _ _ _ _ _ _ H) as F. pose proof (Hex8_facts _ _ _ _ _ _ H') as F'. rewrite (h_nip F). intros Hq.
    destruct (HJ e q He Hq) as (J1 & J2).
    rewrite (h_vol F), (h_vol F') by assumption. rewrite nodes_moved, jac3_moved by assumption.
    assert (EF : forall i j, (i < 3)%nat -> (j < 3)%nat -> defgrad (Hex8_gradN_vector (c_es c) Q u (c_old c)) e q i j = F3 (nodes x e) (nodes u e) (point xi q) i j).
    { intros i j Hi Hj. unfold defgrad, F3, G3. rewrite (h_grad_at _ _ _ _ _ _ F _ Hc) by assumption. f_equal. apply sumn_ext. intros m Hm. now rewrite (h_dNx F) by assumption. }
    cbn [det_of]. rewrite !EF by lia. ring.
Qed.

Lemma def_chain E E' c c' c'' v e q i j : deformed nelem x u E E' -> el_ndim E = 2%nat -> valid_call nelem c -> valid_call nelem c' -> valid_call nelem c'' ->
  (e < nelem)%nat -> (q < el_nip E)%nat -> (i < el_tdim E)%nat -> (j < el_tdim E)%nat ->
  det_of (el_tdim E) (defgrad (el_GradN_vector E c'' u) e q) <> 0 ->
  el_GradN_vector E c v [e;q;i;j] = sumn (el_tdim E) (fun k => defgrad (el_GradN_vector E c'' u) e q k i * el_GradN_vector E' c' v [e;q;k;j]).
Proof.
  intros [nip xi w Q Q' H H' HJ|nip xi w thick P P' H H' HJ|nip xi w A A' H H' HJ|nip xi w Q Q' H H' HJ] Hd Hc Hc' Hc'' He; unrec.
  - pose proof (Quad4_facts _ _ _ _ _ _ H) as F. pose proof (Quad4_facts _ _ _ _ _ _ H') as F'. rewrite (f_nip F). intros Hq Hi Hj.
    assert (EF : forall i j, (i < 2)%nat -> (j < 2)%nat -> defgrad (Quad4_gradN_vector (c_es c'') Q u (c_old c'')) e q i j = F2 (nodes x e) (nodes u e) (point xi q) i j).
    { apply defgrad_F2. intros i' j' Hi' Hj'. unfold Quad4_gradN_vector. rewrite (grad_at _ _ _ _ _ _ _ F _ Hc'') by assumption. now apply (grad4_at _ _ _ _ _ _ _ F). }
    rewrite sumn2. cbn [det_of]. rewrite !EF by lia. intros HF. unfold Quad4_gradN_vector.
    rewrite (grad_at _ _ _ _ _ _ _ F _ Hc), !(grad_at _ _ _ _ _ _ _ F' _ Hc') by (assumption || lia).
    rewrite (grad4_at _ _ _ _ _ _ _ F), !(grad4_at _ _ _ _ _ _ _ F') by (assumption || lia).
    rewrite (chain2 _ (nodes u e) _ (HJ e q He Hq) (fun m => v [e;m;j]) i Hi HF). reflexivity.
  - rewrite (f_nip (proj2 (Planar_facts _ _ _ _ _ _ _ H))). intros Hq Hi Hj.
    destruct (P_F _ _ _ _ _ _ u _ c'' e q H Hc'' He Hq) as (G & G1 & G2 & G3 & G4 & G5).
    pose proof (defgrad_F2 _ x u e q (point xi q) G) as EF.
    destruct (P_F _ _ _ _ _ _ v _ c e q H Hc He Hq) as (K & K1 & K2 & K3 & K4 & K5).
    destruct (P_F _ _ _ _ _ _ v _ c' e q H' Hc' He Hq) as (L & L1 & L2 & L3 & L4 & L5).
    assert (D : forall i, (i < 2)%nat -> defgrad (Planar_gradN_vector (c_es c'') P u (c_old c'')) e q 2 i = 0 /\ defgrad (Planar_gradN_vector (c_es c'') P u (c_old c'')) e q i 2 = 0).
    { apply lt2; unfold defgrad; cbn [Nat.eqb]; rewrite ?G1, ?G2, ?G3, ?G4; split; ring. }
    assert (D2 : defgrad (Planar_gradN_vector (c_es c'') P u (c_old c'')) e q 2 2 = 1) by (unfold defgrad; cbn [Nat.eqb]; rewrite G5; ring).
    rewrite sumn3. cbn [det_of]. rewrite (EF 0%nat 0%nat), (EF 0%nat 1%nat), (EF 1%nat 0%nat), (EF 1%nat 1%nat) by lia. rewrite D2, !(proj1 (D 0%nat ltac:(lia))), !(proj1 (D 1%nat ltac:(lia))), !(proj2 (D 0%nat ltac:(lia))), !(proj2 (D 1%nat ltac:(lia))).
    intros HF.
    assert (HF' : F2 (nodes x e) (nodes u e) (point xi q) 0 0 * F2 (nodes x e) (nodes u e) (point xi q) 1 1 - F2 (nodes x e) (nodes u e) (point xi q) 0 1 * F2 (nodes x e) (nodes u e) (point xi q) 1 0 <> 0).
    { intros EZ. apply HF. match type of EZ with ?l = 0 => transitivity l; [ring|exact EZ] end. }
    assert (J3 : j = 2%nat \/ (j < 2)%nat) by lia. destruct J3 as [Hj2|Hj2].
    { rewrite Hj2, L3, L4, L5. clear Hj Hj2. revert i Hi. apply lt3; [rewrite K3|rewrite K4|rewrite K5]; ring. }
    assert (I3 : i = 2%nat \/ (i < 2)%nat) by lia. destruct I3 as [Hi2|Hi2].
    { rewrite Hi2, D2, (proj2 (D 0%nat ltac:(lia))), (proj2 (D 1%nat ltac:(lia))). clear Hj Hi Hi2. revert j Hj2. apply lt2; rewrite ?K1, ?K2, ?L1, ?L2; ring. }
    rewrite (proj1 (D i Hi2)), (EF 0%nat i), (EF 1%nat i) by lia. rewrite K, !L by lia.
    rewrite (chain2 _ (nodes u e) _ (HJ e q He Hq) (fun m => v [e;m;j]) i Hi2 HF'). rewrite nodes_moved. ring.
  - pose proof (Axisym_facts _ _ _ _ _ _ H) as F. rewrite (a_f_nip F). intros Hq Hi Hj. destruct (HJ e q He Hq) as (J1 & J2).
    destruct (A_F _ _ _ _ _ u _ c'' e q H Hc'' He Hq) as (G00 & G22 & G02 & G20 & G11 & G01 & G10 & G12 & G21).
    destruct (A_F _ _ _ _ _ v _ c e q H Hc He Hq) as (K00 & K22 & K02 & K20 & K11 & K01 & K10 & K12 & K21).
    destruct (A_F _ _ _ _ _ v _ c' e q H' Hc' He Hq) as (L00 & L22 & L02 & L20 & L11 & L01 & L10 & L12 & L21).
    cbn [det_of]. rewrite sumn3. unfold defgrad. cbn [Nat.eqb]. rewrite G00, G22, G02, G20, G11, G01, G10, G12, G21.
    set (Fd := F2 (nodes x e) (nodes u e) (point xi q)). intros HF.
    assert (HF2 : Fd 0%nat 0%nat * Fd 1%nat 1%nat - Fd 0%nat 1%nat * Fd 1%nat 0%nat <> 0).
    { intros EZ. apply HF. unfold Fd, F2, G2 in EZ. cbn [Nat.eqb] in EZ. unfold nodes in EZ. unfold nodes.
      match type of EZ with ?l = 0 => transitivity ((1 + interp2 (comp u e 1) (point xi q) / radius xi x e q) * l); [|rewrite EZ; ring] end. ring. }
    assert (HR : radius xi (displaced x u) e q <> 0).
    { rewrite radius_moved. intros EZ. apply HF.
      replace (interp2 (comp u e 1) (point xi q)) with (- radius xi x e q) by lra. field. exact J2. }
    pose proof (chain2 _ (nodes u e) _ J1 (fun m => v [e;m;j]) ) as Ch. fold Fd in Ch.
    assert (Ch0 := fun (vv : nat -> R) => chain2 _ (nodes u e) _ J1 vv 0%nat ltac:(lia) HF2).
    assert (Ch1 := fun (vv : nat -> R) => chain2 _ (nodes u e) _ J1 vv 1%nat ltac:(lia) HF2).
    unfold F2, G2 in Ch0, Ch1. cbn [Nat.eqb] in Ch0, Ch1. clear Ch.
    pose proof (Ch0 (fun m => v [e;m;0]%nat)) as Ch00. pose proof (Ch0 (fun m => v [e;m;1]%nat)) as Ch01.
    pose proof (Ch1 (fun m => v [e;m;0]%nat)) as Ch10. pose proof (Ch1 (fun m => v [e;m;1]%nat)) as Ch11. cbv beta in Ch00, Ch01, Ch10, Ch11.
    clear Ch0 Ch1. rewrite nodes_moved in *. unfold nodes in *.
    revert i Hi. apply lt3; revert j Hj; apply lt3; cbn [Nat.eqb];
      rewrite ?K00, ?K22, ?K02, ?K20, ?K11, ?K01, ?K10, ?K12, ?K21, ?L00, ?L22, ?L02, ?L20, ?L11, ?L01, ?L10, ?L12, ?L21, ?G00, ?G22, ?G02, ?G20, ?G11, ?G01, ?G10, ?G12, ?G21; try ring.
    + rewrite Ch11. ring.
    + rewrite Ch10. ring.
    + rewrite radius_moved. rewrite radius_moved in HR. field. split; assumption.
    + rewrite Ch01. ring.
    + rewrite Ch00. ring.
  - discriminate Hd.
Qed.

Lemma def_forces E E' c c' c'' sig P e m k : deformed nelem x u E E' -> el_ndim E = 2%nat -> valid_call nelem c -> valid_call nelem c' -> valid_call nelem c'' ->
  nominal nelem E (defgrad (el_GradN_vector E c'' u)) sig P ->
  (forall q, (q < el_nip E)%nat -> det_of (el_tdim E) (defgrad (el_GradN_vector E c'' u) e q) <> 0) ->
  (e < nelem)%nat -> (m < el_nne E)%nat -> (k < el_ndim E)%nat ->
  el_Int_gradN_dot_tensor2_dV E' c' sig [e;m;k] = el_Int_gradN_dot_tensor2_dV E c P [e;m;k].
Proof.
  intros HD Hd Hc Hc' Hc'' HP HF He Hm Hk.
  destruct (def_same _ _ HD) as (S1 & S2 & S3 & S4). destruct (def_objs _ _ HD) as (O & O').
  destruct (elem_obj_raw _ _ _ O) as (B & R). destruct (elem_obj_raw _ _ _ O') as (B' & R').
  rewrite (o_force nelem E' B' R' c' sig e m k), (o_force nelem E B R c P e m k) by (rewrite ?S1, ?S2; assumption). rewrite S3, S4.
  apply sumn_ext. intros q Hq. rewrite (def_volume E E' c'' e q HD Hc'' He Hq).
  set (F := defgrad (el_GradN_vector E c'' u) e q). fold F in HF.
  transitivity (sumn (el_tdim E) (fun i => sumn (el_tdim E) (fun j => sumn (el_tdim E) (fun a => F i a * P [e;q;a;j]) * B' e q i j m k)) * el_dV E [e;q]).
  { rewrite <- Rmult_assoc. f_equal. rewrite <- sumn_scal_r. apply sumn_ext. intros i Hi. rewrite <- sumn_scal_r. apply sumn_ext. intros j Hj.
    unfold F. rewrite (HP e q i j He Hq Hi Hj). ring. }
  f_equal.
  transitivity (sumn (el_tdim E) (fun a => sumn (el_tdim E) (fun j => P [e;q;a;j] * sumn (el_tdim E) (fun i => F i a * B' e q i j m k)))).
  - transitivity (sumn (el_tdim E) (fun i => sumn (el_tdim E) (fun a => sumn (el_tdim E) (fun j => F i a * P [e;q;a;j] * B' e q i j m k)))).
    { apply sumn_ext. intros i Hi. rewrite sumn_swap. apply sumn_ext. intros j Hj. now rewrite sumn_scal_r. }
    rewrite sumn_swap. apply sumn_ext. intros a Ha. rewrite sumn_swap. apply sumn_ext. intros j Hj. rewrite <- sumn_scal. apply sumn_ext. intros i Hi. ring.
  - apply sumn_ext. intros a Ha. apply sumn_ext. intros j Hj. f_equal.
    assert (EB : forall EE BB (RR : elem_raw nelem EE BB) cc, valid_call nelem cc -> el_nne EE = el_nne E -> el_ndim EE = el_ndim E -> el_tdim EE = el_tdim E -> el_nip EE = el_nip E ->
      forall i, (i < el_tdim E)%nat -> BB e q i j m k = el_GradN_vector EE cc (unit_at m k) [e;q;i;j]).
    { intros EE BB RR cc Hcc T1 T2 T3 T4 i Hi. rewrite (r_grad _ _ _ RR) by (rewrite ?T3, ?T4; assumption). rewrite T1, T2.
      symmetry. exact (sumn_delta2 (el_nne E) (el_ndim E) m k (fun m' k' => BB e q i j m' k') Hm Hk). }
    rewrite (EB E B R c Hc eq_refl eq_refl eq_refl eq_refl a Ha).
    rewrite (def_chain E E' c c' c'' (unit_at m k) e q a j HD Hd Hc Hc' Hc'' He Hq Ha Hj (HF q Hq)). fold F.
    apply sumn_ext. intros i Hi. f_equal. exact (EB E' B' R' c' Hc' S1 S2 S3 S4 i Hi).
Qed.
End Main.
