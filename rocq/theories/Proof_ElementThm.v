From Coq Require Import List Arith Reals Lra Lia Permutation.
From Coquelicot Require Import Hierarchy RInt.
From Verif Require Import Sums Model_Element Spec_Element Proof_Element Proof_ElementQuad4 Proof_ElementMath.
Import ListNotations.
Local Open Scope R_scope.

(** ** quadrature rules *)
Lemma Gauss4_sum f junk junk' :
  sumn 4 (fun q => Gauss4_w junk [q] * f (Gauss4_xi junk' [q;0]%nat) (Gauss4_xi junk' [q;1]%nat)) =
  f (-1 / sqrt 3) (-1 / sqrt 3) + f (1 / sqrt 3) (-1 / sqrt 3) + f (1 / sqrt 3) (1 / sqrt 3) + f (-1 / sqrt 3) (1 / sqrt 3).
Proof. rewrite sumn4. unfold Gauss4_w, Gauss4_xi. blk. ring. Qed.

Lemma Gauss4_exact f junk junk' :
  (forall t, cubic (fun s => f s t)) -> (forall s, cubic (fun t => f s t)) ->
  is_integral2 f (sumn 4 (fun q => Gauss4_w junk [q] * f (Gauss4_xi junk' [q;0]%nat) (Gauss4_xi junk' [q;1]%nat))).
Proof. intros H1 H2. rewrite Gauss4_sum. apply gauss2; assumption. Qed.

Lemma cubic_affine a b : cubic (fun t => a + b * t).
Proof. exists a, b, 0, 0. intros; ring. Qed.

Lemma cubic_ext f g : (forall t, f t = g t) -> cubic g -> cubic f.
Proof. intros E (a & b & c & d & H). exists a, b, c, d. intros t. rewrite E. apply H. Qed.

Lemma Nodal4_sum f junk junk' :
  sumn 4 (fun q => Nodal4_w junk [q] * f (Nodal4_xi junk' [q;0]%nat) (Nodal4_xi junk' [q;1]%nat)) =
  f (-1) (-1) + f 1 (-1) + f 1 1 + f (-1) 1.
Proof. rewrite sumn4. unfold Nodal4_w, Nodal4_xi. blk. ring. Qed.

Lemma bilinear_integral a b c d : is_integral2 (fun s t => a + b * s + c * t + d * s * t) (4 * a).
Proof.
  replace (4 * a) with ((fun s t => a + b * s + c * t + d * s * t) (-1 / sqrt 3) (-1 / sqrt 3)
     + (fun s t => a + b * s + c * t + d * s * t) (1 / sqrt 3) (-1 / sqrt 3)
     + (fun s t => a + b * s + c * t + d * s * t) (1 / sqrt 3) (1 / sqrt 3)
     + (fun s t => a + b * s + c * t + d * s * t) (-1 / sqrt 3) (1 / sqrt 3)).
  - apply gauss2.
    + intros t. exists (a + c * t), (b + d * t), 0, 0. intros; ring.
    + intros s. exists (a + b * s), (c + d * s), 0, 0. intros; ring.
  - cbv beta. field. apply sqrt3_neq.
Qed.

Lemma Nodal4_exact a b c d junk junk' :
  let f := fun s t => a + b * s + c * t + d * s * t in
  is_integral2 f (sumn 4 (fun q => Nodal4_w junk [q] * f (Nodal4_xi junk' [q;0]%nat) (Nodal4_xi junk' [q;1]%nat))).
Proof.
  intros f. rewrite (Nodal4_sum f). unfold f.
  replace (_ + _) with (4 * a); [apply bilinear_integral | ring].
Qed.

Lemma MidPoint4_sum f junk junk' :
  sumn 1 (fun q => MidPoint4_w junk [q] * f (MidPoint4_xi junk' [q;0]%nat) (MidPoint4_xi junk' [q;1]%nat)) = f 0 0.
Proof. rewrite sumn1. unfold MidPoint4_w, MidPoint4_xi. blk. ring. Qed.

Lemma MidPoint4_wrong junk junk' :
  is_integral2 (fun _ _ => 1) 4 /\
  sumn 1 (fun q => MidPoint4_w junk [q] * (fun _ _ => 1) (MidPoint4_xi junk' [q;0]%nat) (MidPoint4_xi junk' [q;1]%nat)) <> 4.
Proof.
  split.
  - destruct (bilinear_integral 1 0 0 0) as (g & H1 & H2). exists g. split.
    + intros t. apply (is_RInt_ext (fun s => 1 + 0 * s + 0 * t + 0 * s * t)); [intros; match goal with |- ?a = ?b => change (@eq R a b) end; ring | apply H1].
    + replace 4 with (4 * 1) by ring. exact H2.
  - rewrite (MidPoint4_sum (fun _ _ => 1) junk junk'). lra.
Qed.

(** ** Quad4: facts common to Quadrature and QuadraturePlanar *)
Section Facts.
Variables (nelem nip : nat) (xi w : arr) (vol_of : R -> R -> R) (x : arr) (Q : Quadrature).
Hypothesis F : quad4_facts nelem nip xi w vol_of x Q.
Variable es : list nat.
Hypothesis Hes : schedule nelem es.
Set Default Proof Using "All".

Lemma G_sum e q i : (e < nelem)%nat -> (q < nip)%nat -> (i < 2)%nat -> sumn 4 (fun m => q_dNx Q [e;q;m;i]) = 0.
Proof.
  intros He Hq Hi. rewrite (sumn_ext 4 _ (fun m => gshape2 (nodes x e) m i (point xi q))).
  - apply gshape2_sum. exact Hi.
  - intros m Hm. apply (f_dNx F); assumption.
Qed.

Lemma grad4_affine a B u e q i j : (e < nelem)%nat -> (q < nip)%nat -> (i < 2)%nat -> (j < 2)%nat ->
  jac2 (nodes x e) (point xi q) <> 0 -> affine 2 4 a B x u e -> grad4 (q_dNx Q) u e q i j = B j i.
Proof.
  intros He Hq Hi Hj Hd Hu. unfold grad4.
  rewrite (sumn_ext 4 _ (fun m => gshape2 (nodes x e) m i (point xi q) * u [e;m;j])).
  - apply (gshape2_affine (nodes x e) (a j) (B j) i (point xi q) (fun m => u [e;m;j]) Hi Hd).
    intros m Hm. apply Hu; assumption.
  - intros m Hm. rewrite (f_dNx F) by assumption. reflexivity.
Qed.

Lemma grad4_chain u e q k j : (e < nelem)%nat -> (q < nip)%nat -> (k < 2)%nat -> (j < 2)%nat ->
  jac2 (nodes x e) (point xi q) <> 0 ->
  sumn 2 (fun i => dinterp2 (comp x e i) k (point xi q) * grad4 (q_dNx Q) u e q i j) = dinterp2 (comp u e j) k (point xi q).
Proof.
  intros He Hq Hk Hj Hd.
  rewrite <- (gshape2_chain (nodes x e) (comp u e j) k (point xi q) Hk Hd).
  apply sumn_ext. intros i Hi. f_equal. unfold grad4. apply sumn_ext. intros m Hm.
  rewrite (f_dNx F) by assumption. reflexivity.
Qed.

Lemma mass_at rho old e m i n j : (e < nelem)%nat -> (m < 4)%nat -> (n < 4)%nat -> (i < 2)%nat -> (j < 2)%nat ->
  Quad4_int_N_scalar_NT_dV_impl es (q_nip Q) (q_N Q) (q_vol Q) rho old [e; m * 2 + i; n * 2 + j]%nat =
  if (i =? j)%nat then sumn nip (fun q => shape2 m (point xi q) * rho [e;q] * shape2 n (point xi q) * q_vol Q [e;q]) else 0.
Proof.
  intros He Hm Hn Hi Hj. rewrite (f_nip F).
  rewrite (Quad4_mass_spec nelem es Hes) by assumption.
  destruct (i =? j)%nat; [|reflexivity]. apply sumn_ext. intros q Hq. rewrite !(f_N F) by assumption. reflexivity.
Qed.

Lemma force_at sig old e m j : (e < nelem)%nat -> (m < 4)%nat -> (j < 2)%nat ->
  Quad4_int_gradN_dot_tensor2_dV_impl es (q_nip Q) (q_dNx Q) (q_vol Q) sig old [e;m;j] =
  sumn nip (fun q => sumn 2 (fun i => q_dNx Q [e;q;m;i] * sig [e;q;i;j]) * q_vol Q [e;q]).
Proof. intros He Hm Hj. rewrite (f_nip F). apply (Quad4_force_spec nelem es Hes); assumption. Qed.

Lemma stiff_at C old e m j n k : (e < nelem)%nat -> (m < 4)%nat -> (n < 4)%nat -> (j < 2)%nat -> (k < 2)%nat ->
  base_int_gradN_dot_tensor4_dot_gradNT_dV es (q_nip Q) 4 2 (q_dNx Q) (q_vol Q) C old [e; m * 2 + j; n * 2 + k]%nat =
  sumn nip (fun q => sumn 2 (fun i => sumn 2 (fun l => q_dNx Q [e;q;m;i] * C [e;q;i;j;k;l] * q_dNx Q [e;q;n;l] * q_vol Q [e;q]))).
Proof. intros. rewrite (f_nip F). apply (base_tensor4_spec nelem es Hes); assumption. Qed.

Lemma grad_at u old e q i j : (e < nelem)%nat -> (q < nip)%nat -> (i < 2)%nat -> (j < 2)%nat ->
  forL es (fun e => for_ (q_nip Q) (fun q => Quad4_grad_block (q_dNx Q) u e q)) old [e;q;i;j] = grad4 (q_dNx Q) u e q i j.
Proof. intros. rewrite (f_nip F). apply (Quad4_grad_spec nelem es Hes); assumption. Qed.
Lemma grad_T_at u old e q i j : (e < nelem)%nat -> (q < nip)%nat -> (i < 2)%nat -> (j < 2)%nat ->
  forL es (fun e => for_ (q_nip Q) (fun q => Quad4_grad_T_block (q_dNx Q) u e q)) old [e;q;j;i] = grad4 (q_dNx Q) u e q i j.
Proof. intros. rewrite (f_nip F). apply (Quad4_grad_T_spec nelem es Hes); assumption. Qed.
Lemma sym_at u old e q i j : (e < nelem)%nat -> (q < nip)%nat -> (i < 2)%nat -> (j < 2)%nat ->
  forL es (fun e => for_ (q_nip Q) (fun q => Quad4_sym_block (q_dNx Q) u e q)) old [e;q;i;j]
  = (grad4 (q_dNx Q) u e q i j + grad4 (q_dNx Q) u e q j i) / 2.
Proof. intros. rewrite (f_nip F). apply (Quad4_sym_spec nelem es Hes); assumption. Qed.

Lemma f_virtual_work sig u old e : (e < nelem)%nat ->
  sumn 4 (fun m => sumn 2 (fun j =>
    Quad4_int_gradN_dot_tensor2_dV_impl es (q_nip Q) (q_dNx Q) (q_vol Q) sig old [e;m;j] * u [e;m;j])) =
  sumn nip (fun q => sumn 2 (fun i => sumn 2 (fun j => sig [e;q;i;j] * grad4 (q_dNx Q) u e q i j)) * q_vol Q [e;q]).
Proof.
  intros He. unfold grad4.
  rewrite <- (virtual_work nip 4 2 (fun q m i => q_dNx Q [e;q;m;i]) (fun q => q_vol Q [e;q]) (fun q i j => sig [e;q;i;j]) (fun m j => u [e;m;j])).
  apply sumn_ext. intros m Hm. apply sumn_ext. intros j Hj. rewrite force_at by assumption. reflexivity.
Qed.

Lemma f_force_zero sig old e j : (e < nelem)%nat -> (j < 2)%nat ->
  sumn 4 (fun m => Quad4_int_gradN_dot_tensor2_dV_impl es (q_nip Q) (q_dNx Q) (q_vol Q) sig old [e;m;j]) = 0.
Proof.
  intros He Hj.
  rewrite <- (forces_zero nip 4 2 (fun q m i => q_dNx Q [e;q;m;i]) (fun q => q_vol Q [e;q]) (fun q i j => sig [e;q;i;j]) j).
  - apply sumn_ext. intros m Hm. rewrite force_at by assumption. reflexivity.
  - intros q i Hq Hi. apply G_sum; assumption.
Qed.

Lemma f_stiff_action C u A old old' e m j : (e < nelem)%nat -> (m < 4)%nat -> (j < 2)%nat ->
  (forall q i k, (q < nip)%nat -> (i < 2)%nat -> (k < 2)%nat -> A [e;q;i;k] = grad4 (q_dNx Q) u e q i k) ->
  sumn 4 (fun n => sumn 2 (fun k =>
    base_int_gradN_dot_tensor4_dot_gradNT_dV es (q_nip Q) 4 2 (q_dNx Q) (q_vol Q) C old [e; m * 2 + j; n * 2 + k]%nat * u [e;n;k])) =
  Quad4_int_gradN_dot_tensor2_dV_impl es (q_nip Q) (q_dNx Q) (q_vol Q) (ddot42 2 C A) old' [e;m;j].
Proof.
  intros He Hm Hj HA. rewrite force_at by assumption.
  etransitivity; [|etransitivity; [apply (stiffness_action nip 4 2 (fun q m i => q_dNx Q [e;q;m;i]) (fun q => q_vol Q [e;q])
     (fun q i j k l => C [e;q;i;j;k;l]) (fun n k => u [e;n;k]) m j)|]].
  - apply sumn_ext. intros n Hn. apply sumn_ext. intros k Hk. rewrite stiff_at by assumption. reflexivity.
  - apply sumn_ext. intros q Hq. f_equal. apply sumn_ext. intros i Hi. f_equal. cbn [ddot42].
    apply sumn_ext. intros k Hk. apply sumn_ext. intros l Hl. rewrite HA by assumption. reflexivity.
Qed.

Lemma f_stiff_sym C old e m j n k : (e < nelem)%nat -> (m < 4)%nat -> (n < 4)%nat -> (j < 2)%nat -> (k < 2)%nat ->
  (forall q i j k l, (q < nip)%nat -> (i < 2)%nat -> (j < 2)%nat -> (k < 2)%nat -> (l < 2)%nat ->
     C [e;q;i;j;k;l] = C [e;q;l;k;j;i]) ->
  base_int_gradN_dot_tensor4_dot_gradNT_dV es (q_nip Q) 4 2 (q_dNx Q) (q_vol Q) C old [e; m * 2 + j; n * 2 + k]%nat =
  base_int_gradN_dot_tensor4_dot_gradNT_dV es (q_nip Q) 4 2 (q_dNx Q) (q_vol Q) C old [e; n * 2 + k; m * 2 + j]%nat.
Proof.
  intros He Hm Hn Hj Hk HC. rewrite !stiff_at by assumption.
  apply (stiffness_sym nip 2 (fun q m i => q_dNx Q [e;q;m;i]) (fun q => q_vol Q [e;q]) (fun q i j k l => C [e;q;i;j;k;l])); assumption.
Qed.

Lemma f_stiff_kernel C old e m j k : (e < nelem)%nat -> (m < 4)%nat -> (j < 2)%nat -> (k < 2)%nat ->
  sumn 4 (fun n => base_int_gradN_dot_tensor4_dot_gradNT_dV es (q_nip Q) 4 2 (q_dNx Q) (q_vol Q) C old [e; m * 2 + j; n * 2 + k]%nat) = 0.
Proof.
  intros He Hm Hj Hk.
  rewrite <- (stiffness_kernel nip 4 2 (fun q m i => q_dNx Q [e;q;m;i]) (fun q => q_vol Q [e;q]) (fun q i j k l => C [e;q;i;j;k;l]) m j k).
  - apply sumn_ext. intros n Hn. apply stiff_at; assumption.
  - intros q i Hq Hi. apply G_sum; assumption.
Qed.

Lemma f_mass_total rho old e i : (e < nelem)%nat -> (i < 2)%nat ->
  sumn 4 (fun m => sumn 4 (fun n => Quad4_int_N_scalar_NT_dV_impl es (q_nip Q) (q_N Q) (q_vol Q) rho old [e; m * 2 + i; n * 2 + i]%nat))
  = sumn nip (fun q => rho [e;q] * q_vol Q [e;q]).
Proof.
  intros He Hi.
  rewrite <- (mass_total nip 4 (fun q => q_vol Q [e;q]) (fun q m => shape2 m (point xi q)) (fun q => rho [e;q])).
  - apply sumn_ext. intros m Hm. apply sumn_ext. intros n Hn. rewrite mass_at, Nat.eqb_refl by assumption. reflexivity.
  - intros q _. apply shape2_sum.
Qed.

Lemma f_mass_quadratic rho old e i v : (e < nelem)%nat -> (i < 2)%nat ->
  sumn 4 (fun m => sumn 4 (fun n => v m * Quad4_int_N_scalar_NT_dV_impl es (q_nip Q) (q_N Q) (q_vol Q) rho old [e; m * 2 + i; n * 2 + i]%nat * v n))
  = sumn nip (fun q => rho [e;q] * q_vol Q [e;q] * (interp2 v (point xi q) * interp2 v (point xi q))).
Proof.
  intros He Hi.
  unfold interp2.
  rewrite <- (mass_quadratic nip 4 (fun q => q_vol Q [e;q]) (fun q m => shape2 m (point xi q)) (fun q => rho [e;q]) v).
  apply sumn_ext. intros m Hm. apply sumn_ext. intros n Hn. rewrite mass_at, Nat.eqb_refl by assumption. reflexivity.
Qed.

Lemma f_mass_nonneg rho old e i v : (e < nelem)%nat -> (i < 2)%nat ->
  (forall q, (q < nip)%nat -> 0 <= rho [e;q] * q_vol Q [e;q]) ->
  0 <= sumn 4 (fun m => sumn 4 (fun n => v m * Quad4_int_N_scalar_NT_dV_impl es (q_nip Q) (q_N Q) (q_vol Q) rho old [e; m * 2 + i; n * 2 + i]%nat * v n)).
Proof.
  intros He Hi H. rewrite f_mass_quadratic by assumption.
  unfold sumn. apply sumL_nonneg. intros q Hq. apply in_seq in Hq. apply Rmult_le_pos; [apply H; lia | apply Rle_0_sqr].
Qed.
End Facts.
