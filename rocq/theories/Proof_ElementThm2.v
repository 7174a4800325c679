(** Quad4: integration volumes, mass matrix of the nodal quadrature; axisymmetric. *)
From Coq Require Import List Arith Reals Lra Lia Permutation.
From Coquelicot Require Import Hierarchy RInt.
From Verif Require Import Sums Model_Element Spec_Element Proof_Element Proof_ElementQuad4 Proof_ElementMath Proof_ElementThm.
Import ListNotations.
Local Open Scope R_scope.

Lemma dV_Gauss nelem j j' x Q e : Quad4_obj nelem 4 (Gauss4_xi j) (Gauss4_w j') x Q -> (e < nelem)%nat ->
  sumn 4 (fun q => q_vol Q [e;q]) = quad_area (nodes x e).
Proof.
  intros H He. pose proof (Quad4_facts _ _ _ _ _ _ H) as F.
  destruct (jac2_affine (nodes x e)) as (a & b & Hab).
  transitivity (sumn 4 (fun q => Gauss4_w j' [q] *
    (fun s t => quad_area (nodes x e) / 4 + a * s + b * t) (Gauss4_xi j [q;0]%nat) (Gauss4_xi j [q;1]%nat))).
  - apply sumn_ext. intros q Hq. rewrite (f_vol F) by assumption. rewrite Hab. reflexivity.
  - rewrite (Gauss4_sum (fun s t => quad_area (nodes x e) / 4 + a * s + b * t) j' j). field. apply sqrt3_neq.
Qed.

Lemma dV_Nodal nelem j j' x Q e : Quad4_obj nelem 4 (Nodal4_xi j) (Nodal4_w j') x Q -> (e < nelem)%nat ->
  sumn 4 (fun q => q_vol Q [e;q]) = quad_area (nodes x e).
Proof.
  intros H He. pose proof (Quad4_facts _ _ _ _ _ _ H) as F.
  destruct (jac2_affine (nodes x e)) as (a & b & Hab).
  transitivity (sumn 4 (fun q => Nodal4_w j' [q] *
    (fun s t => quad_area (nodes x e) / 4 + a * s + b * t) (Nodal4_xi j [q;0]%nat) (Nodal4_xi j [q;1]%nat))).
  - apply sumn_ext. intros q Hq. rewrite (f_vol F) by assumption. rewrite Hab. reflexivity.
  - rewrite (Nodal4_sum (fun s t => quad_area (nodes x e) / 4 + a * s + b * t) j' j). field.
Qed.

Lemma dV_MidPoint nelem j j' x Q e : Quad4_obj nelem 1 (MidPoint4_xi j) (MidPoint4_w j') x Q -> (e < nelem)%nat ->
  sumn 1 (fun q => q_vol Q [e;q]) = quad_area (nodes x e) / 4.
Proof.
  intros H He. pose proof (Quad4_facts _ _ _ _ _ _ H) as F.
  destruct (jac2_affine (nodes x e)) as (a & b & Hab).
  transitivity (sumn 1 (fun q => MidPoint4_w j' [q] *
    (fun s t => quad_area (nodes x e) / 4 + a * s + b * t) (MidPoint4_xi j [q;0]%nat) (MidPoint4_xi j [q;1]%nat))).
  - apply sumn_ext. intros q Hq. rewrite (f_vol F) by assumption. rewrite Hab. reflexivity.
  - rewrite (MidPoint4_sum (fun s t => quad_area (nodes x e) / 4 + a * s + b * t) j' j). field.
Qed.

(** the area is the integral of the Jacobian *)
Lemma area_integral x : is_integral2 (fun s t => jac2 x (pt2 s t)) (quad_area x).
Proof.
  destruct (jac2_affine x) as (a & b & Hab).
  assert (H : is_integral2 (fun s t => quad_area x / 4 + a * s + b * t + 0 * s * t) (4 * (quad_area x / 4)))
    by apply bilinear_integral.
  replace (4 * (quad_area x / 4)) with (quad_area x) in H by field.
  destruct H as (g & H1 & H2). exists g. split; [|exact H2].
  intros t. apply (is_RInt_ext (fun s => quad_area x / 4 + a * s + b * t + 0 * s * t)); [|apply H1].
  intros s _. match goal with |- ?a = ?b => change (@eq R a b) end. rewrite Hab. unfold pt2. ring.
Qed.

(** positive volumes for convex elements (positive Jacobian at the corners) *)
Lemma shape2_nonneg m p : (m < 4)%nat -> -1 <= p 0%nat <= 1 -> -1 <= p 1%nat <= 1 -> 0 <= shape2 m p.
Proof.
  intros Hm H0 H1. unfold shape2.
  apply Rmult_le_pos; revert m Hm; apply lt4; unfold corner2; lra.
Qed.

Lemma jac2_positive x p : -1 <= p 0%nat <= 1 -> -1 <= p 1%nat <= 1 ->
  (forall m, (m < 4)%nat -> 0 < jac2 x (corner2 m)) -> 0 < jac2 x p.
Proof.
  intros H0 H1 H. rewrite jac2_corners.
  set (c := Rmin (Rmin (jac2 x (corner2 0)) (jac2 x (corner2 1))) (Rmin (jac2 x (corner2 2)) (jac2 x (corner2 3)))).
  assert (Hc : 0 < c) by (unfold c; repeat apply Rmin_glb_lt; apply H; lia).
  apply Rlt_le_trans with c; [exact Hc|].
  rewrite <- (Rmult_1_r c), <- (shape2_sum p), <- sumn_scal.
  unfold sumn. apply sumL_le. intros m Hm. apply in_seq in Hm.
  rewrite Rmult_comm. apply Rmult_le_compat_l; [apply shape2_nonneg; (assumption || lia)|].
  destruct Hm as [_ Hm]. cbn in Hm. revert m Hm. unfold c. apply lt4.
  - eapply Rle_trans; [apply Rmin_l | apply Rmin_l].
  - eapply Rle_trans; [apply Rmin_l | apply Rmin_r].
  - eapply Rle_trans; [apply Rmin_r | apply Rmin_l].
  - eapply Rle_trans; [apply Rmin_r | apply Rmin_r].
Qed.

Lemma mass_nodal nelem j j' x Q es rho old e m i n : Quad4_obj nelem 4 (Nodal4_xi j) (Nodal4_w j') x Q ->
  schedule nelem es -> (e < nelem)%nat -> (m < 4)%nat -> (n < 4)%nat -> (i < 2)%nat ->
  Quad4_int_N_scalar_NT_dV es Q rho old [e; m * 2 + i; n * 2 + i]%nat = if (m =? n)%nat then rho [e;m] * q_vol Q [e;m] else 0.
Proof.
  intros H Hes He Hm Hn Hi. pose proof (Quad4_facts _ _ _ _ _ _ H) as F.
  unfold Quad4_int_N_scalar_NT_dV. rewrite (mass_at _ _ _ _ _ _ _ F _ Hes), Nat.eqb_refl by assumption.
  assert (P : forall k q, (k < 4)%nat -> (q < 4)%nat -> shape2 k (point (Nodal4_xi j) q) = if (k =? q)%nat then 1 else 0).
  { intros k q Hk Hq. rewrite <- (shape2_corner k q Hk Hq). unfold shape2, point. revert q Hq. apply lt4; unfold Nodal4_xi, corner2; blk; reflexivity. }
  rewrite sumn4. rewrite !P by (assumption || lia).
  revert m Hm. apply lt4; revert n Hn; apply lt4; cbn [Nat.eqb]; ring.
Qed.

(** ** axisymmetric *)
Section ACompute.
Variables (nelem : nat) (es : list nat).
Hypothesis Hes : schedule nelem es.
Variables (nip : nat) (xi w N dNxi x : arr).
Hypothesis HN : forall q m, (q < nip)%nat -> (m < 4)%nat -> N [q;m] = shape2 m (point xi q).
Hypothesis HdNxi : forall q m i, (q < nip)%nat -> (m < 4)%nat -> (i < 2)%nat -> dNxi [q;m;i] = dshape2 m i (point xi q).
Set Default Proof Using "All".

Lemma rq_at e q : (q < nip)%nat -> sum4 (fun m => N [q;m] * x [e;m;1]%nat) = radius xi x e q.
Proof.
  intros Hq. rewrite sum4_sumn. unfold radius, interp2, comp. apply sumn_ext. intros m Hm. rewrite HN by assumption. reflexivity.
Qed.

(** entries of B: only these are non-zero *)
Definition Bspec (e q m a b c : nat) : R :=
  match a, b, c with
  | 0, 0, 0 | 0, 2, 2 => gshape2 (nodes x e) m 1 (point xi q)
  | 1, 1, 0 => (shape2 m (point xi q) / radius xi x e q)%R
  | 2, 0, 0 | 2, 2, 2 => gshape2 (nodes x e) m 0 (point xi q)
  | _, _, _ => 0%R
  end%nat.

(** effect of one iteration on the entry *)
Definition Bstep (e q m a b c : nat) (v : R) : R :=
  match a, b, c with
  | 0, 0, 0 | 0, 2, 2 | 1, 1, 0 | 2, 0, 0 | 2, 2, 2 => Bspec e q m a b c
  | _, _, _ => v
  end%nat.

Lemma Acompute_B junk st e q m a b c : (e < nelem)%nat -> (q < nip)%nat -> (m < 4)%nat -> (a < 3)%nat -> (b < 3)%nat -> (c < 3)%nat ->
  fst (Axisym_compute_dN es nip junk w N dNxi x st) [e;q;m;a;b;c] = Bspec e q m a b c.
Proof.
  intros He Hq Hm Ha Hb Hc. unfold Axisym_compute_dN.
  assert (R1 : Bstep e q m a b c 0 = Bspec e q m a b c).
  { unfold Bstep. revert a Ha. apply lt3; revert b Hb; apply lt3; revert c Hc; apply lt3; reflexivity. }
  rewrite <- R1. change 0 with (fst (fill 0 (fst st), snd st) [e;q;m;a;b;c]).
  apply (forL_once (fun st : arr * arr => fst st [e;q;m;a;b;c]) (Bstep e q m a b c) es _ (fill 0 (fst st), snd st) e
           (schedule_NoDup _ _ Hes) (schedule_In _ _ _ Hes He)).
  - intros e' s Hn. apply (for_frame (fun st : arr * arr => fst st [e;q;m;a;b;c])). intros q' s' _. cbn [fst].
    apply (for_frame (fun A : arr => A [e;q;m;a;b;c])). intros m' A _. blk. reflexivity.
  - intros s. apply (for_once (fun st : arr * arr => fst st [e;q;m;a;b;c]) (Bstep e q m a b c) nip _ s q Hq).
    + intros q' s' Hn. cbn [fst]. apply (for_frame (fun A : arr => A [e;q;m;a;b;c])). intros m' A _. blk. reflexivity.
    + intros s'. cbn [fst].
      apply (for_once (fun A : arr => A [e;q;m;a;b;c]) (Bstep e q m a b c) 4 _ (fst s') m Hm).
      * intros m' A Hn. blk. reflexivity.
      * intros A.
        assert (G0 : inv2 (Quad4_jacobian dNxi x q e junk) junk [0;0]%nat * dNxi [q;m;0]%nat
            + inv2 (Quad4_jacobian dNxi x q e junk) junk [0;1]%nat * dNxi [q;m;1]%nat = gshape2 (nodes x e) m 0 (point xi q))
          by (apply (Jinv_dN nelem es Hes nip xi w dNxi x HdNxi); (assumption || lia)).
        assert (G1 : inv2 (Quad4_jacobian dNxi x q e junk) junk [1;0]%nat * dNxi [q;m;0]%nat
            + inv2 (Quad4_jacobian dNxi x q e junk) junk [1;1]%nat * dNxi [q;m;1]%nat = gshape2 (nodes x e) m 1 (point xi q))
          by (apply (Jinv_dN nelem es Hes nip xi w dNxi x HdNxi); (assumption || lia)).
        rewrite G0, G1, (rq_at e q Hq), (HN q m Hq Hm). clear R1. unfold Bstep, Bspec.
        revert a Ha. apply lt3; revert b Hb; apply lt3; revert c Hc; apply lt3; blk; try reflexivity. unfold Rdiv. ring.
Qed.

Lemma Acompute_vol junk st e q : (e < nelem)%nat -> (q < nip)%nat ->
  snd (Axisym_compute_dN es nip junk w N dNxi x st) [e;q] =
  w [q] * jac2 (nodes x e) (point xi q) * (2 * PI * radius xi x e q).
Proof.
  intros He Hq. unfold Axisym_compute_dN.
  set (V := w [q] * jac2 (nodes x e) (point xi q) * (2 * PI * radius xi x e q)).
  apply (forL_once (fun st : arr * arr => snd st [e;q]) (fun _ => V) es _ _ e
           (schedule_NoDup _ _ Hes) (schedule_In _ _ _ Hes He)).
  - intros e' s Hn. apply (for_frame (fun st : arr * arr => snd st [e;q])). intros q' s' _. cbn [snd]. upds. reflexivity.
  - intros s. apply (for_once (fun st : arr * arr => snd st [e;q]) (fun _ => V) nip _ s q Hq).
    + intros q' s' Hn. cbn [snd]. upds. reflexivity.
    + intros s'. cbn [snd]. upds. rewrite (J_det nelem es Hes nip xi w dNxi x HdNxi), rq_at by assumption. unfold V. ring.
Qed.
End ACompute.

Record axisym_facts (nelem nip : nat) (xi w x : arr) (A : Axisym) : Prop := {
  a_f_nip : a_nip A = nip; a_f_nelem : a_nelem A = nelem; a_f_w : a_w A = w; a_f_x : a_x A = x;
  a_f_N : forall q m, (q < nip)%nat -> (m < 4)%nat -> a_N A [q;m] = shape2 m (point xi q);
  a_f_dNxi : forall q m i, (q < nip)%nat -> (m < 4)%nat -> (i < 2)%nat -> a_dNxi A [q;m;i] = dshape2 m i (point xi q);
  a_f_B : forall e q m a b c, (e < nelem)%nat -> (q < nip)%nat -> (m < 4)%nat -> (a < 3)%nat -> (b < 3)%nat -> (c < 3)%nat ->
    a_B A [e;q;m;a;b;c] = Bspec xi x e q m a b c;
  a_f_vol : forall e q, (e < nelem)%nat -> (q < nip)%nat ->
    a_vol A [e;q] = w [q] * jac2 (nodes x e) (point xi q) * (2 * PI * radius xi x e q) }.
Arguments a_f_nip {_ _ _ _ _ _}. Arguments a_f_w {_ _ _ _ _ _}. Arguments a_f_N {_ _ _ _ _ _}. Arguments a_f_dNxi {_ _ _ _ _ _}.
Arguments a_f_B {_ _ _ _ _ _}. Arguments a_f_vol {_ _ _ _ _ _}. Arguments a_f_nelem {_ _ _ _ _ _}. Arguments a_f_x {_ _ _ _ _ _}.

Lemma Axisym_facts nelem nip xi w x A : Axisym_obj nelem nip xi w x A -> axisym_facts nelem nip xi w x A.
Proof.
  intros H. induction H as [es x j1 j2 j3 j4 j5 Hes | es x0 A x j5 Hes H IH].
  - constructor; try reflexivity.
    + intros. apply Quad4_N_at; assumption.
    + intros. apply Quad4_dNxi_at; assumption.
    + intros. apply (Acompute_B nelem es Hes nip xi w (Quad4_N nip xi j1) (Quad4_dNxi nip xi j2) x); try assumption; intros; (apply Quad4_dNxi_at || apply Quad4_N_at); assumption.
    + intros. apply (Acompute_vol nelem es Hes nip xi w (Quad4_N nip xi j1) (Quad4_dNxi nip xi j2) x); try assumption; intros; (apply Quad4_dNxi_at || apply Quad4_N_at); assumption.
  - destruct IH as [A1 A2 A3 A4 A5 A6 A7 A8].
    constructor; try assumption; try reflexivity.
    + intros. cbn [Axisym_update_x a_B]. rewrite A1, A3. apply (Acompute_B nelem es Hes nip xi w (a_N A) (a_dNxi A) x); assumption.
    + intros. cbn [Axisym_update_x a_vol]. rewrite A1, A3. apply (Acompute_vol nelem es Hes nip xi w (a_N A) (a_dNxi A) x); assumption.
Qed.
