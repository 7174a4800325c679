(** Hex8: shape functions, gradients, volumes, weak forms. *)
From Coq Require Import List Arith Reals Lra Lia Permutation.
From Coquelicot Require Import Hierarchy RInt.
From Verif Require Import Sums Model_Element Spec_Element Proof_Element Proof_ElementQuad4 Proof_ElementMath Proof_ElementThm.
Import ListNotations.
Local Open Scope R_scope.

Lemma lt8 (P : nat -> Prop) : P 0%nat -> P 1%nat -> P 2%nat -> P 3%nat -> P 4%nat -> P 5%nat -> P 6%nat -> P 7%nat ->
  forall m, (m < 8)%nat -> P m.
Proof. intros. destruct m as [|[|[|[|[|[|[|[|m]]]]]]]]; try assumption; lia. Qed.

Lemma e0125 : 0.125 = / 8. Proof. lra. Qed.
Lemma em0125 : -0.125 = - / 8. Proof. lra. Qed.
Ltac decs8 := rewrite ?em0125, ?e0125.
Ltac corners3 := unfold corner3; cbn [Nat.modulo Nat.divmod fst snd Nat.sub Nat.ltb Nat.leb]; unfold corner2.

Lemma Hex8_N_at nip xi junk q m : (q < nip)%nat -> (m < 8)%nat ->
  Hex8_N nip xi junk [q;m] = shape3 m (point xi q).
Proof.
  intros Hq Hm. unfold Hex8_N.
  apply (for_once (fun a : arr => a [q;m]) (fun _ => shape3 m (point xi q)) nip _ junk q Hq).
  - intros q' s Hn. blk. reflexivity.
  - intros s. revert m Hm. apply lt8; blk; unfold shape3, point; corners3; decs8; field.
Qed.

Lemma Hex8_dNxi_at nip xi junk q m i : (q < nip)%nat -> (m < 8)%nat -> (i < 3)%nat ->
  Hex8_dNxi nip xi junk [q;m;i] = dshape3 m i (point xi q).
Proof.
  intros Hq Hm Hi. unfold Hex8_dNxi.
  apply (for_once (fun a : arr => a [q;m;i]) (fun _ => dshape3 m i (point xi q)) nip _ junk q Hq).
  - intros q' s Hn. blk. reflexivity.
  - intros s. revert m Hm. apply lt8; revert i Hi; apply lt3; blk; unfold dshape3, point; corners3; decs8; field.
Qed.

Lemma shape3_sum p : sumn 8 (fun m => shape3 m p) = 1.
Proof. rewrite sumn8. unfold shape3. corners3. field. Qed.
Lemma dshape3_sum i p : (i < 3)%nat -> sumn 8 (fun m => dshape3 m i p) = 0.
Proof. intros Hi. rewrite sumn8. revert i Hi. apply lt3; unfold dshape3; corners3; field. Qed.
Lemma shape3_corner m n : (m < 8)%nat -> (n < 8)%nat -> shape3 m (corner3 n) = if (m =? n)%nat then 1 else 0.
Proof.
  intros Hm Hn. revert m Hm. apply lt8; revert n Hn; apply lt8; unfold shape3; corners3; cbn [Nat.eqb]; field.
Qed.

(** the Jacobian matrix J(i,j) = d x_j / d xi_i and its inverse *)
Definition J3 (x : nat -> nat -> R) (p : nat -> R) : arr :=
  fun k => match k with [i;j] => dinterp3 (fun m => x m j) i p | _ => 0 end.
Definition Jsum (x : nat -> nat -> R) (i : nat) (p : nat -> R) : R :=
  sumn 3 (fun j => inv3 (J3 x p) (fun _ => 0) [i;j]).
(** what the code uses as gradient of shape function [m] in direction [i] *)
Definition cshape3 (x : nat -> nat -> R) (m i : nat) (p : nat -> R) : R := Jsum x i p * dshape3 m i p.

Lemma inv3_ext A B j j' i k : (forall i j, (i < 3)%nat -> (j < 3)%nat -> A [i;j] = B [i;j]) -> (i < 3)%nat -> (k < 3)%nat ->
  inv3 A j [i;k] = inv3 B j' [i;k].
Proof.
  intros H Hi Hk. unfold inv3. cbv zeta. unfold det3.
  revert i Hi. apply lt3; revert k Hk; apply lt3; blk; rewrite !H by lia; reflexivity.
Qed.

Lemma det3_ext A B : (forall i j, (i < 3)%nat -> (j < 3)%nat -> A [i;j] = B [i;j]) -> det3 A = det3 B.
Proof. intros H. unfold det3. rewrite !H by lia. reflexivity. Qed.

Lemma det3_J3 x p : det3 (J3 x p) = jac3 x p.
Proof. unfold det3, jac3, J3. cbv zeta. ring. Qed.

Section Compute.
Variables (nelem : nat) (es : list nat).
Hypothesis Hes : schedule nelem es.
Variables (nip : nat) (xi w dNxi x : arr).
Hypothesis HdNxi : forall q m i, (q < nip)%nat -> (m < 8)%nat -> (i < 3)%nat -> dNxi [q;m;i] = dshape3 m i (point xi q).
Set Default Proof Using "All".

Lemma J_at3 q e i j : (q < nip)%nat -> (i < 3)%nat -> (j < 3)%nat ->
  base_jacobian 8 3 dNxi x q e [i;j] = J3 (nodes x e) (point xi q) [i;j].
Proof.
  intros Hq Hi Hj. unfold base_jacobian. cbn [J3]. unfold dinterp3, nodes.
  assert (A : acc [i;j] (for_ 8 (fun m => for_ 3 (fun i => for_ 3 (fun j => plus [i;j] (dNxi [q;m;i] * x [e;m;j])))))
    (sumn 8 (fun m => dshape3 m i (point xi q) * x [e;m;j]))).
  { apply acc_for. intros m Hm. apply (acc_for_once _ _ _ i _ Hi); [intros i' Hn; acc0|].
    apply (acc_for_once _ _ _ j _ Hj); [intros j' Hn; acc0|]. rewrite <- HdNxi by assumption. apply acc_eq. }
  rewrite A. ring.
Qed.

Lemma compute3_dNx junk st e q m i : (e < nelem)%nat -> (q < nip)%nat -> (m < 8)%nat -> (i < 3)%nat ->
  fst (base_compute_dN es nip 8 3 det3 inv3 junk w dNxi x st) [e;q;m;i] = cshape3 (nodes x e) m i (point xi q).
Proof.
  intros He Hq Hm Hi. unfold base_compute_dN.
  replace (cshape3 _ _ _ _) with (fst (fill 0 (fst st), snd st) [e;q;m;i] + cshape3 (nodes x e) m i (point xi q))
    by (unfold fill; cbn [fst]; ring).
  apply (forL_once (fun st : arr * arr => fst st [e;q;m;i]) (fun v => v + cshape3 (nodes x e) m i (point xi q)) es _ _ e
           (schedule_NoDup _ _ Hes) (schedule_In _ _ _ Hes He)).
  - intros e' s Hn. apply (for_frame (fun st : arr * arr => fst st [e;q;m;i])). intros q' s' _. cbn [fst].
    match goal with |- for_ 8 ?b _ _ = _ => assert (A : acc [e;q;m;i] (for_ 8 b) 0) by acc0 end.
    rewrite A. ring.
  - intros s. apply (for_once (fun st : arr * arr => fst st [e;q;m;i]) (fun v => v + cshape3 (nodes x e) m i (point xi q)) nip _ s q Hq).
    + intros q' s' Hn. cbn [fst].
      match goal with |- for_ 8 ?b _ _ = _ => assert (A : acc [e;q;m;i] (for_ 8 b) 0) by acc0 end.
      rewrite A. ring.
    + intros s'. cbn [fst].
      match goal with |- for_ 8 ?b _ _ = _ => assert (A : acc [e;q;m;i] (for_ 8 b) (cshape3 (nodes x e) m i (point xi q))) end.
      { apply (acc_for_once _ _ _ m _ Hm); [intros m' Hn; acc0|].
        apply (acc_for_once _ _ _ i _ Hi); [intros i' Hn; acc0|].
        unfold cshape3, Jsum. rewrite <- sumn_scal_r. apply acc_for. intros k Hk.
        rewrite HdNxi by assumption.
        rewrite (inv3_ext _ (J3 (nodes x e) (point xi q)) junk (fun _ => 0) i k); [apply acc_eq | | assumption | assumption].
        intros a b Ha Hb. apply J_at3; assumption. }
      rewrite A. reflexivity.
Qed.

Lemma compute3_vol junk st e q : (e < nelem)%nat -> (q < nip)%nat ->
  snd (base_compute_dN es nip 8 3 det3 inv3 junk w dNxi x st) [e;q] = w [q] * jac3 (nodes x e) (point xi q).
Proof.
  intros He Hq. unfold base_compute_dN.
  set (V := w [q] * jac3 (nodes x e) (point xi q)).
  apply (forL_once (fun st : arr * arr => snd st [e;q]) (fun _ => V) es _ _ e
           (schedule_NoDup _ _ Hes) (schedule_In _ _ _ Hes He)).
  - intros e' s Hn. apply (for_frame (fun st : arr * arr => snd st [e;q])). intros q' s' _. cbn [snd]. upds. reflexivity.
  - intros s. apply (for_once (fun st : arr * arr => snd st [e;q]) (fun _ => V) nip _ s q Hq).
    + intros q' s' Hn. cbn [snd]. upds. reflexivity.
    + intros s'. cbn [snd]. upds. unfold V. rewrite <- det3_J3.
      rewrite (det3_ext _ (J3 (nodes x e) (point xi q))); [reflexivity|]. intros a b Ha Hb. apply J_at3; assumption.
Qed.
End Compute.

Record hex8_facts (nelem nip : nat) (xi w : arr) (x : arr) (Q : Quadrature) : Prop := {
  h_nelem : q_nelem Q = nelem; h_nip : q_nip Q = nip; h_w : q_w Q = w; h_x : q_x Q = x; h_xi : q_xi Q = xi;
  h_N : forall q m, (q < nip)%nat -> (m < 8)%nat -> q_N Q [q;m] = shape3 m (point xi q);
  h_dNxi : forall q m i, (q < nip)%nat -> (m < 8)%nat -> (i < 3)%nat -> q_dNxi Q [q;m;i] = dshape3 m i (point xi q);
  h_dNx : forall e q m i, (e < nelem)%nat -> (q < nip)%nat -> (m < 8)%nat -> (i < 3)%nat ->
    q_dNx Q [e;q;m;i] = cshape3 (nodes x e) m i (point xi q);
  h_vol : forall e q, (e < nelem)%nat -> (q < nip)%nat -> q_vol Q [e;q] = w [q] * jac3 (nodes x e) (point xi q) }.
Arguments h_nelem {_ _ _ _ _ _}. Arguments h_nip {_ _ _ _ _ _}. Arguments h_w {_ _ _ _ _ _}.
Arguments h_x {_ _ _ _ _ _}. Arguments h_xi {_ _ _ _ _ _}. Arguments h_N {_ _ _ _ _ _}.
Arguments h_dNxi {_ _ _ _ _ _}. Arguments h_dNx {_ _ _ _ _ _}. Arguments h_vol {_ _ _ _ _ _}.

Lemma Hex8_facts nelem nip xi w x Q : Hex8_obj nelem nip xi w x Q -> hex8_facts nelem nip xi w x Q.
Proof.
  intros H. induction H as [es x j1 j2 j3 j4 j5 Hes | es x0 Q x j5 Hes H IH].
  - constructor; try reflexivity.
    + intros. apply Hex8_N_at; assumption.
    + intros. apply Hex8_dNxi_at; assumption.
    + intros. apply (compute3_dNx nelem es Hes nip xi w (Hex8_dNxi nip xi j2) x); try assumption. intros; apply Hex8_dNxi_at; assumption.
    + intros. apply (compute3_vol nelem es Hes nip xi w (Hex8_dNxi nip xi j2) x); try assumption. intros; apply Hex8_dNxi_at; assumption.
  - destruct IH as [A1 A2 A3 A4 A5 A6 A7 A8 A9].
    constructor; try assumption; try reflexivity.
    + intros. cbn [Hex8_update_x q_dNx]. rewrite A2, A3. apply (compute3_dNx nelem es Hes nip xi w (q_dNxi Q) x); assumption.
    + intros. cbn [Hex8_update_x q_vol]. rewrite A2, A3. apply (compute3_vol nelem es Hes nip xi w (q_dNxi Q) x); assumption.
Qed.

(** ** gradients *)
Lemma cshape3_sum x i p : (i < 3)%nat -> sumn 8 (fun m => cshape3 x m i p) = 0.
Proof. intros Hi. unfold cshape3. rewrite sumn_scal, dshape3_sum by exact Hi. ring. Qed.

Lemma dinterp3_affine a c v0 v1 v2 i p : (i < 3)%nat ->
  dinterp3 (fun m => a + c 0%nat * v0 m + c 1%nat * v1 m + c 2%nat * v2 m) i p =
  c 0%nat * dinterp3 v0 i p + c 1%nat * dinterp3 v1 i p + c 2%nat * dinterp3 v2 i p.
Proof.
  intros Hi. unfold dinterp3.
  transitivity (a * sumn 8 (fun m => dshape3 m i p) + c 0%nat * sumn 8 (fun m => dshape3 m i p * v0 m)
     + c 1%nat * sumn 8 (fun m => dshape3 m i p * v1 m) + c 2%nat * sumn 8 (fun m => dshape3 m i p * v2 m)).
  - rewrite <- !sumn_scal, <- !sumn_plus. apply sumn_ext. intros m _. ring.
  - rewrite dshape3_sum by exact Hi. ring.
Qed.


Lemma jac3_diagonal x p : diagonal3 x p ->
  jac3 x p = dinterp3 (fun m => x m 0%nat) 0 p * dinterp3 (fun m => x m 1%nat) 1 p * dinterp3 (fun m => x m 2%nat) 2 p.
Proof.
  intros H. unfold jac3. cbv zeta. rewrite (H 1%nat 0%nat), (H 2%nat 0%nat), (H 0%nat 1%nat), (H 0%nat 2%nat), (H 1%nat 2%nat), (H 2%nat 1%nat) by lia. ring.
Qed.

Lemma Jsum_diagonal x p i : (i < 3)%nat -> diagonal3 x p -> jac3 x p <> 0 ->
  Jsum x i p * dinterp3 (fun m => x m i) i p = 1.
Proof.
  intros Hi H Hd. pose proof (jac3_diagonal x p H) as E. unfold Jsum. rewrite sumn3. unfold inv3. cbv zeta. rewrite det3_J3.
  rewrite E in Hd |- *.
  revert i Hi. apply lt3; blk; cbn [J3];
  rewrite ?(H 1%nat 0%nat), ?(H 2%nat 0%nat), ?(H 0%nat 1%nat), ?(H 0%nat 2%nat), ?(H 1%nat 2%nat), ?(H 2%nat 1%nat) by lia;
  field; repeat split; intros E'; rewrite E' in Hd; apply Hd; ring.
Qed.

Lemma cshape3_diagonal x p i u a B : (i < 3)%nat -> diagonal3 x p -> jac3 x p <> 0 ->
  (forall m, (m < 8)%nat -> u m = a + sumn 3 (fun k => B k * x m k)) ->
  sumn 8 (fun m => cshape3 x m i p * u m) = B i.
Proof.
  intros Hi H Hd Hu. unfold cshape3.
  rewrite (sumn_ext 8 _ (fun m => Jsum x i p * (dshape3 m i p * (a + B 0%nat * x m 0%nat + B 1%nat * x m 1%nat + B 2%nat * x m 2%nat)))).
  2:{ intros m Hm. rewrite (Hu m Hm), sumn3. ring. }
  rewrite sumn_scal. fold (dinterp3 (fun m => a + B 0%nat * x m 0%nat + B 1%nat * x m 1%nat + B 2%nat * x m 2%nat) i p).
  rewrite (dinterp3_affine a B (fun m => x m 0%nat) (fun m => x m 1%nat) (fun m => x m 2%nat)) by exact Hi.
  pose proof (Jsum_diagonal x p i Hi H Hd) as E.
  revert i Hi E. apply (lt3 (fun i => Jsum x i p * dinterp3 (fun m => x m i) i p = 1 ->
     Jsum x i p * (B 0%nat * dinterp3 (fun m => x m 0%nat) i p + B 1%nat * dinterp3 (fun m => x m 1%nat) i p + B 2%nat * dinterp3 (fun m => x m 2%nat) i p) = B i));
  intros E; rewrite ?(H 1%nat 0%nat), ?(H 2%nat 0%nat), ?(H 0%nat 1%nat), ?(H 0%nat 2%nat), ?(H 1%nat 2%nat), ?(H 2%nat 1%nat) by lia;
  match type of E with ?l = 1 => match goal with |- _ = ?b => transitivity (b * l); [ring | rewrite E; ring] end end.
Qed.

(** ** operators, in terms of whatever gradient the object stores *)
Definition grad8 (dNx u : arr) e q i j := sumn 8 (fun m => dNx [e;q;m;i] * u [e;m;j]).

Section Facts.
Variables (nelem nip : nat) (xi w : arr) (x : arr) (Q : Quadrature).
Hypothesis F : hex8_facts nelem nip xi w x Q.
Variable es : list nat.
Hypothesis Hes : schedule nelem es.
Set Default Proof Using "All".

Lemma h_grad_at u old e q i j : (e < nelem)%nat -> (q < nip)%nat -> (i < 3)%nat -> (j < 3)%nat ->
  Hex8_gradN_vector es Q u old [e;q;i;j] = grad8 (q_dNx Q) u e q i j.
Proof. intros. unfold Hex8_gradN_vector. rewrite (h_nip F). apply (base_gradN_spec nelem es Hes); assumption. Qed.
Lemma h_grad_T_at u old e q i j : (e < nelem)%nat -> (q < nip)%nat -> (i < 3)%nat -> (j < 3)%nat ->
  Hex8_gradN_vector_T es Q u old [e;q;j;i] = grad8 (q_dNx Q) u e q i j.
Proof. intros. unfold Hex8_gradN_vector_T. rewrite (h_nip F). apply (base_gradN_T_spec nelem es Hes); assumption. Qed.
Lemma h_sym_at u old e q i j : (e < nelem)%nat -> (q < nip)%nat -> (i < 3)%nat -> (j < 3)%nat ->
  Hex8_symGradN_vector es Q u old [e;q;i;j] = (grad8 (q_dNx Q) u e q i j + grad8 (q_dNx Q) u e q j i) / 2.
Proof. intros. unfold Hex8_symGradN_vector. rewrite (h_nip F). apply (base_sym_spec nelem es Hes); assumption. Qed.
Lemma h_interp_at n u old e q i : (e < nelem)%nat -> (q < nip)%nat -> (i < n)%nat ->
  Hex8_interpQuad_vector es Q n u old [e;q;i] = interp3 (comp u e i) (point xi q).
Proof.
  intros He Hq Hi. unfold Hex8_interpQuad_vector. rewrite (h_nip F).
  rewrite (base_interp_spec nelem es Hes) by assumption. unfold interp3, comp. apply sumn_ext. intros m Hm.
  rewrite (h_N F) by assumption. reflexivity.
Qed.

Lemma h_mass_at rho old e m i n j : (e < nelem)%nat -> (m < 8)%nat -> (n < 8)%nat -> (i < 3)%nat -> (j < 3)%nat ->
  Hex8_int_N_scalar_NT_dV es Q rho old [e; m * 3 + i; n * 3 + j]%nat =
  if (i =? j)%nat then sumn nip (fun q => shape3 m (point xi q) * rho [e;q] * shape3 n (point xi q) * q_vol Q [e;q]) else 0.
Proof.
  intros He Hm Hn Hi Hj. unfold Hex8_int_N_scalar_NT_dV. cbv zeta. rewrite (h_nip F). apply (acc_es nelem es _ _ e _ Hes He).
  - intros e' He'. acc0.
  - destruct (Nat.eqb_spec i j) as [->|Hij].
    + apply acc_for. intros q Hq. rewrite <- !(h_N F) by assumption.
      apply (acc_for_once _ _ _ m _ Hm).
      { intros m' Hm'. acc0; apply acc_neq; intros E; injection E as E1 E2; lia. }
      apply (acc_for_once _ _ _ n _ Hn).
      { intros n' Hn'. acc0; apply acc_neq; intros E; injection E as E1; lia. }
      revert j Hj Hi. apply (lt3 (fun j => (j < 3)%nat -> acc [e; m * 3 + j; n * 3 + j]%nat _ _)); intros _.
      * apply acc_cons1; [apply acc_eq|]. acc0; apply acc_neq; intros E; injection E as E1; lia.
      * apply acc_cons0; [apply acc_neq; intros E; injection E as E1; lia|]. apply acc_cons1; [apply acc_eq|].
        acc0; apply acc_neq; intros E; injection E as E1; lia.
      * do 2 (apply acc_cons0; [apply acc_neq; intros E; injection E as E1; lia|]). apply acc_cons1; [apply acc_eq|apply acc_nil].
    + acc0; apply acc_neq; intros E; injection E as E1 E2; lia.
Qed.

Lemma h_force_at sig old e m j : (e < nelem)%nat -> (m < 8)%nat -> (j < 3)%nat ->
  Hex8_int_gradN_dot_tensor2_dV es Q sig old [e;m;j] =
  sumn nip (fun q => sumn 3 (fun i => q_dNx Q [e;q;m;i] * sig [e;q;i;j]) * q_vol Q [e;q]).
Proof.
  intros He Hm Hj. unfold Hex8_int_gradN_dot_tensor2_dV. cbv zeta. rewrite (h_nip F). apply (acc_es nelem es _ _ e _ Hes He).
  - intros e' He'. acc0.
  - apply acc_for. intros q Hq. apply (acc_for_once _ _ _ m _ Hm); [intros m' Hm'; acc0|].
    revert j Hj. apply lt3; rewrite sumn3.
    + apply acc_cons1; [apply acc_eq|]. acc0.
    + apply acc_cons0; [acc0|]. apply acc_cons1; [apply acc_eq|acc0].
    + do 2 (apply acc_cons0; [acc0|]). apply acc_cons1; [apply acc_eq|acc0].
Qed.

Lemma h_stiff_at C old e m j n k : (e < nelem)%nat -> (m < 8)%nat -> (n < 8)%nat -> (j < 3)%nat -> (k < 3)%nat ->
  Hex8_int_gradN_dot_tensor4_dot_gradNT_dV es Q C old [e; m * 3 + j; n * 3 + k]%nat =
  sumn nip (fun q => sumn 3 (fun i => sumn 3 (fun l => q_dNx Q [e;q;m;i] * C [e;q;i;j;k;l] * q_dNx Q [e;q;n;l] * q_vol Q [e;q]))).
Proof. intros. unfold Hex8_int_gradN_dot_tensor4_dot_gradNT_dV. rewrite (h_nip F). apply (base_tensor4_spec nelem es Hes); assumption. Qed.

Lemma h_G_sum e q i : (e < nelem)%nat -> (q < nip)%nat -> (i < 3)%nat -> sumn 8 (fun m => q_dNx Q [e;q;m;i]) = 0.
Proof.
  intros He Hq Hi. rewrite (sumn_ext 8 _ (fun m => cshape3 (nodes x e) m i (point xi q))).
  - apply cshape3_sum. exact Hi.
  - intros m Hm. apply (h_dNx F); assumption.
Qed.

Lemma h_virtual_work sig u old old' e : (e < nelem)%nat ->
  sumn 8 (fun m => sumn 3 (fun j => Hex8_int_gradN_dot_tensor2_dV es Q sig old [e;m;j] * u [e;m;j])) =
  sumn nip (fun q => sumn 3 (fun i => sumn 3 (fun j => sig [e;q;i;j] * Hex8_gradN_vector es Q u old' [e;q;i;j])) * q_vol Q [e;q]).
Proof.
  intros He.
  transitivity (sumn nip (fun q => sumn 3 (fun i => sumn 3 (fun j => sig [e;q;i;j] * grad8 (q_dNx Q) u e q i j)) * q_vol Q [e;q])).
  - unfold grad8.
    rewrite <- (virtual_work nip 8 3 (fun q m i => q_dNx Q [e;q;m;i]) (fun q => q_vol Q [e;q]) (fun q i j => sig [e;q;i;j]) (fun m j => u [e;m;j])).
    apply sumn_ext. intros m Hm. apply sumn_ext. intros j Hj. rewrite h_force_at by assumption. reflexivity.
  - apply sumn_ext. intros q Hq. f_equal. apply sumn_ext. intros i Hi. apply sumn_ext. intros j Hj.
    rewrite h_grad_at by assumption. reflexivity.
Qed.

Lemma h_force_zero sig old e j : (e < nelem)%nat -> (j < 3)%nat ->
  sumn 8 (fun m => Hex8_int_gradN_dot_tensor2_dV es Q sig old [e;m;j]) = 0.
Proof.
  intros He Hj.
  rewrite <- (forces_zero nip 8 3 (fun q m i => q_dNx Q [e;q;m;i]) (fun q => q_vol Q [e;q]) (fun q i j => sig [e;q;i;j]) j).
  - apply sumn_ext. intros m Hm. rewrite h_force_at by assumption. reflexivity.
  - intros q i Hq Hi. apply h_G_sum; assumption.
Qed.

Lemma h_stiff_action C u old old' old'' e m j : (e < nelem)%nat -> (m < 8)%nat -> (j < 3)%nat ->
  sumn 8 (fun n => sumn 3 (fun k =>
    Hex8_int_gradN_dot_tensor4_dot_gradNT_dV es Q C old [e; m * 3 + j; n * 3 + k]%nat * u [e;n;k])) =
  Hex8_int_gradN_dot_tensor2_dV es Q (ddot42 3 C (Hex8_gradN_vector es Q u old'')) old' [e;m;j].
Proof.
  intros He Hm Hj. rewrite h_force_at by assumption.
  etransitivity; [|etransitivity; [apply (stiffness_action nip 8 3 (fun q m i => q_dNx Q [e;q;m;i]) (fun q => q_vol Q [e;q])
     (fun q i j k l => C [e;q;i;j;k;l]) (fun n k => u [e;n;k]) m j)|]].
  - apply sumn_ext. intros n Hn. apply sumn_ext. intros k Hk. rewrite h_stiff_at by assumption. reflexivity.
  - apply sumn_ext. intros q Hq. f_equal. apply sumn_ext. intros i Hi. f_equal. cbn [ddot42].
    apply sumn_ext. intros k Hk. apply sumn_ext. intros l Hl. rewrite h_grad_at by assumption. reflexivity.
Qed.

Lemma h_stiff_sym C old e m j n k : (e < nelem)%nat -> (m < 8)%nat -> (n < 8)%nat -> (j < 3)%nat -> (k < 3)%nat ->
  (forall q i j k l, (q < nip)%nat -> (i < 3)%nat -> (j < 3)%nat -> (k < 3)%nat -> (l < 3)%nat ->
     C [e;q;i;j;k;l] = C [e;q;l;k;j;i]) ->
  Hex8_int_gradN_dot_tensor4_dot_gradNT_dV es Q C old [e; m * 3 + j; n * 3 + k]%nat =
  Hex8_int_gradN_dot_tensor4_dot_gradNT_dV es Q C old [e; n * 3 + k; m * 3 + j]%nat.
Proof.
  intros He Hm Hn Hj Hk HC. rewrite !h_stiff_at by assumption.
  apply (stiffness_sym nip 3 (fun q m i => q_dNx Q [e;q;m;i]) (fun q => q_vol Q [e;q]) (fun q i j k l => C [e;q;i;j;k;l])); assumption.
Qed.

Lemma h_stiff_kernel C old e m j k : (e < nelem)%nat -> (m < 8)%nat -> (j < 3)%nat -> (k < 3)%nat ->
  sumn 8 (fun n => Hex8_int_gradN_dot_tensor4_dot_gradNT_dV es Q C old [e; m * 3 + j; n * 3 + k]%nat) = 0.
Proof.
  intros He Hm Hj Hk.
  rewrite <- (stiffness_kernel nip 8 3 (fun q m i => q_dNx Q [e;q;m;i]) (fun q => q_vol Q [e;q]) (fun q i j k l => C [e;q;i;j;k;l]) m j k).
  - apply sumn_ext. intros n Hn. apply h_stiff_at; assumption.
  - intros q i Hq Hi. apply h_G_sum; assumption.
Qed.

Lemma h_mass_total rho old e i : (e < nelem)%nat -> (i < 3)%nat ->
  sumn 8 (fun m => sumn 8 (fun n => Hex8_int_N_scalar_NT_dV es Q rho old [e; m * 3 + i; n * 3 + i]%nat))
  = sumn nip (fun q => rho [e;q] * q_vol Q [e;q]).
Proof.
  intros He Hi.
  rewrite <- (mass_total nip 8 (fun q => q_vol Q [e;q]) (fun q m => shape3 m (point xi q)) (fun q => rho [e;q])).
  - apply sumn_ext. intros m Hm. apply sumn_ext. intros n Hn. rewrite h_mass_at, Nat.eqb_refl by assumption. reflexivity.
  - intros q _. apply shape3_sum.
Qed.

Lemma h_mass_quadratic rho old e i v : (e < nelem)%nat -> (i < 3)%nat ->
  sumn 8 (fun m => sumn 8 (fun n => v m * Hex8_int_N_scalar_NT_dV es Q rho old [e; m * 3 + i; n * 3 + i]%nat * v n))
  = sumn nip (fun q => rho [e;q] * q_vol Q [e;q] * (interp3 v (point xi q) * interp3 v (point xi q))).
Proof.
  intros He Hi. unfold interp3.
  rewrite <- (mass_quadratic nip 8 (fun q => q_vol Q [e;q]) (fun q m => shape3 m (point xi q)) (fun q => rho [e;q]) v).
  apply sumn_ext. intros m Hm. apply sumn_ext. intros n Hn. rewrite h_mass_at, Nat.eqb_refl by assumption. reflexivity.
Qed.
End Facts.

(** ** quadrature rules *)
(** the coordinates and weights, one by one *)
Lemma Hex8_points_at h junk :
  Hex8_points h junk [0;0]%nat = -1 / h /\
  Hex8_points h junk [0;1]%nat = -1 / h /\
  Hex8_points h junk [0;2]%nat = -1 / h /\
  Hex8_points h junk [1;0]%nat = 1 / h /\
  Hex8_points h junk [1;1]%nat = -1 / h /\
  Hex8_points h junk [1;2]%nat = -1 / h /\
  Hex8_points h junk [2;0]%nat = 1 / h /\
  Hex8_points h junk [2;1]%nat = 1 / h /\
  Hex8_points h junk [2;2]%nat = -1 / h /\
  Hex8_points h junk [3;0]%nat = -1 / h /\
  Hex8_points h junk [3;1]%nat = 1 / h /\
  Hex8_points h junk [3;2]%nat = -1 / h /\
  Hex8_points h junk [4;0]%nat = -1 / h /\
  Hex8_points h junk [4;1]%nat = -1 / h /\
  Hex8_points h junk [4;2]%nat = 1 / h /\
  Hex8_points h junk [5;0]%nat = 1 / h /\
  Hex8_points h junk [5;1]%nat = -1 / h /\
  Hex8_points h junk [5;2]%nat = 1 / h /\
  Hex8_points h junk [6;0]%nat = 1 / h /\
  Hex8_points h junk [6;1]%nat = 1 / h /\
  Hex8_points h junk [6;2]%nat = 1 / h /\
  Hex8_points h junk [7;0]%nat = -1 / h /\
  Hex8_points h junk [7;1]%nat = 1 / h /\
  Hex8_points h junk [7;2]%nat = 1 / h.
Proof. repeat split; reflexivity. Qed.
Lemma Gauss8_w_at junk q : (q < 8)%nat -> Gauss8_w junk [q] = 1.
Proof. revert q. apply lt8; reflexivity. Qed.
Lemma Hex8_points_sum f h junk junk' :
  sumn 8 (fun q => Gauss8_w junk [q] * f (Hex8_points h junk' [q;0]%nat) (Hex8_points h junk' [q;1]%nat) (Hex8_points h junk' [q;2]%nat)) =
  let g := 1 / h in let h := -1 / h in
  f h h h + f g h h + f g g h + f h g h + f h h g + f g h g + f g g g + f h g g.
Proof.
  rewrite (sumn_ext 8 _ (fun q => f (Hex8_points h junk' [q;0]%nat) (Hex8_points h junk' [q;1]%nat) (Hex8_points h junk' [q;2]%nat)))
    by (intros; rewrite Gauss8_w_at by assumption; ring).
  rewrite sumn8. cbv zeta.
  pose proof (Hex8_points_at h junk') as P.
  repeat match type of P with _ /\ _ => let P1 := fresh in destruct P as [P1 P]; rewrite P1; clear P1 end. rewrite P. reflexivity.
Qed.

Lemma Gauss8_sum f junk junk' :
  sumn 8 (fun q => Gauss8_w junk [q] * f (Gauss8_xi junk' [q;0]%nat) (Gauss8_xi junk' [q;1]%nat) (Gauss8_xi junk' [q;2]%nat)) =
  let g := 1 / sqrt 3 in let h := -1 / sqrt 3 in
  f h h h + f g h h + f g g h + f h g h + f h h g + f g h g + f g g g + f h g g.
Proof. apply Hex8_points_sum. Qed.

Lemma Gauss8_exact f junk junk' :
  (forall s t, cubic (fun r => f r s t)) -> (forall r t, cubic (fun s => f r s t)) -> (forall r s, cubic (fun t => f r s t)) ->
  is_integral3 f (sumn 8 (fun q => Gauss8_w junk [q] * f (Gauss8_xi junk' [q;0]%nat) (Gauss8_xi junk' [q;1]%nat) (Gauss8_xi junk' [q;2]%nat))).
Proof. intros H1 H2 H3. rewrite Gauss8_sum. apply gauss3; assumption. Qed.

Lemma Nodal8_sum f junk junk' :
  sumn 8 (fun q => Gauss8_w junk [q] * f (Nodal8_xi junk' [q;0]%nat) (Nodal8_xi junk' [q;1]%nat) (Nodal8_xi junk' [q;2]%nat)) =
  f (-1) (-1) (-1) + f 1 (-1) (-1) + f 1 1 (-1) + f (-1) 1 (-1) + f (-1) (-1) 1 + f 1 (-1) 1 + f 1 1 1 + f (-1) 1 1.
Proof.
  unfold Nodal8_xi. rewrite Hex8_points_sum. cbv zeta.
  replace (-1 / 1) with (-1) by field. replace (1 / 1) with 1 by field. ring.
Qed.


Lemma Nodal8_exact c junk junk' :
  is_integral3 (trilinear c)
    (sumn 8 (fun q => Gauss8_w junk [q] * trilinear c (Nodal8_xi junk' [q;0]%nat) (Nodal8_xi junk' [q;1]%nat) (Nodal8_xi junk' [q;2]%nat))).
Proof.
  rewrite (Nodal8_sum (trilinear c)).
  pose proof (gauss3 (trilinear c)) as G.
  cbv zeta in G.
  replace (trilinear c (-1) (-1) (-1) + _ + _ + _ + _ + _ + _ + _) with (8 * c 0%nat) by (unfold trilinear; ring).
  match type of G with _ -> _ -> _ -> is_integral3 _ ?v => replace v with (8 * c 0%nat) in G end.
  2:{ unfold trilinear. field. apply sqrt3_neq. }
  apply G; clear G.
  - intros s t. exists (c 0%nat + c 2%nat * s + c 3%nat * t + c 5%nat * s * t), (c 1%nat + c 4%nat * s + c 6%nat * t + c 7%nat * s * t), 0, 0.
    intros r. unfold trilinear. ring.
  - intros r t. exists (c 0%nat + c 1%nat * r + c 3%nat * t + c 6%nat * r * t), (c 2%nat + c 4%nat * r + c 5%nat * t + c 7%nat * r * t), 0, 0.
    intros s. unfold trilinear. ring.
  - intros r s. exists (c 0%nat + c 1%nat * r + c 2%nat * s + c 4%nat * r * s), (c 3%nat + c 5%nat * s + c 6%nat * r + c 7%nat * r * s), 0, 0.
    intros t. unfold trilinear. ring.
Qed.

(** ** volumes *)
Definition aff (f : R -> R) : Prop := exists a b, forall t, f t = a + b * t.
Definition con (f : R -> R) : Prop := exists a, forall t, f t = a.
Lemma cubic_aac f g h : con f -> aff g -> aff h -> cubic (fun t => f t * (g t * h t)).
Proof.
  intros (a & Ha) (b & c & Hb) (d & e & Hd). exists (a * b * d), (a * (b * e + c * d)), (a * c * e), 0.
  intros t. rewrite Ha, Hb, Hd. ring.
Qed.
Lemma cubic_minus f g : cubic f -> cubic g -> cubic (fun t => f t - g t).
Proof.
  intros (a & b & c & d & H) (a' & b' & c' & d' & H'). exists (a - a'), (b - b'), (c - c'), (d - d').
  intros t. rewrite H, H'. ring.
Qed.

Lemma sum_aff k (f : nat -> R -> R) : (forall m, aff (f m)) -> aff (fun t => sumn k (fun m => f m t)).
Proof.
  intros H. induction k as [|k (a & b & IH)].
  - exists 0, 0. intros t. unfold sumn. cbn. ring.
  - destruct (H k) as (a' & b' & Hk). exists (a + a'), (b + b'). intros t. rewrite sumn_S, IH, Hk. ring.
Qed.
Lemma sum_con k (f : nat -> R -> R) : (forall m, con (f m)) -> con (fun t => sumn k (fun m => f m t)).
Proof.
  intros H. induction k as [|k (a & IH)].
  - exists 0. intros t. unfold sumn. cbn. ring.
  - destruct (H k) as (a' & Hk). exists (a + a'). intros t. rewrite sumn_S, IH, Hk. ring.
Qed.


Lemma jac3_cubic0 x s t : cubic (fun r => jac3 x (pt3 r s t)).
Proof.
  assert (C0 : forall u, con (fun r => dinterp3 u 0 (pt3 r s t))).
  { intros u. apply sum_con. intros m. exists (dshape3 m 0 (pt3 0 s t) * u m). intros r. reflexivity. }
  assert (A1 : forall u, aff (fun r => dinterp3 u 1 (pt3 r s t))).
  { intros u. apply sum_aff. intros m.
    exists (1 / 2 * (corner3 m 1 / 2) * ((1 + corner3 m 2 * t) / 2) * u m), (corner3 m 0 / 2 * (corner3 m 1 / 2) * ((1 + corner3 m 2 * t) / 2) * u m).
    intros r. unfold dshape3, pt3. field. }
  assert (A2 : forall u, aff (fun r => dinterp3 u 2 (pt3 r s t))).
  { intros u. apply sum_aff. intros m.
    exists (1 / 2 * ((1 + corner3 m 1 * s) / 2) * (corner3 m 2 / 2) * u m), (corner3 m 0 / 2 * ((1 + corner3 m 1 * s) / 2) * (corner3 m 2 / 2) * u m).
    intros r. unfold dshape3, pt3. field. }
  pose (d := fun (r : R) j i => dinterp3 (fun m => x m j) i (pt3 r s t)).
  apply (cubic_ext _ (fun r =>
    ((d r 0%nat 0%nat * (d r 1%nat 1%nat * d r 2%nat 2%nat) - d r 0%nat 0%nat * (d r 1%nat 2%nat * d r 2%nat 1%nat))
     - (d r 1%nat 0%nat * (d r 0%nat 1%nat * d r 2%nat 2%nat) - d r 2%nat 0%nat * (d r 0%nat 1%nat * d r 1%nat 2%nat)))
    + (d r 1%nat 0%nat * (d r 0%nat 2%nat * d r 2%nat 1%nat) - d r 2%nat 0%nat * (d r 0%nat 2%nat * d r 1%nat 1%nat)))).
  - intros r. unfold jac3, d. cbv zeta. ring.
  - unfold d. apply cubic_plus; [apply cubic_minus|]; apply cubic_minus; apply cubic_aac; first [apply C0 | apply A1 | apply A2].
Qed.

Lemma jac3_cubic1 x r t : cubic (fun s => jac3 x (pt3 r s t)).
Proof.
  assert (C1 : forall u, con (fun s => dinterp3 u 1 (pt3 r s t))).
  { intros u. apply sum_con. intros m. exists (dshape3 m 1 (pt3 r 0 t) * u m). intros s. reflexivity. }
  assert (A0 : forall u, aff (fun s => dinterp3 u 0 (pt3 r s t))).
  { intros u. apply sum_aff. intros m.
    exists ((corner3 m 0 / 2) * (1 / 2) * ((1 + corner3 m 2 * t) / 2) * u m), ((corner3 m 0 / 2) * (corner3 m 1 / 2) * ((1 + corner3 m 2 * t) / 2) * u m).
    intros s. unfold dshape3, pt3. field. }
  assert (A2 : forall u, aff (fun s => dinterp3 u 2 (pt3 r s t))).
  { intros u. apply sum_aff. intros m.
    exists (((1 + corner3 m 0 * r) / 2) * (1 / 2) * (corner3 m 2 / 2) * u m), (((1 + corner3 m 0 * r) / 2) * (corner3 m 1 / 2) * (corner3 m 2 / 2) * u m).
    intros s. unfold dshape3, pt3. field. }
  pose (d := fun (s : R) j i => dinterp3 (fun m => x m j) i (pt3 r s t)).
  apply (cubic_ext _ (fun r =>
    ((d r 1%nat 1%nat * (d r 0%nat 0%nat * d r 2%nat 2%nat) - d r 2%nat 1%nat * (d r 1%nat 2%nat * d r 0%nat 0%nat))
     - (d r 0%nat 1%nat * (d r 1%nat 0%nat * d r 2%nat 2%nat) - d r 0%nat 1%nat * (d r 2%nat 0%nat * d r 1%nat 2%nat)))
    + (d r 2%nat 1%nat * (d r 0%nat 2%nat * d r 1%nat 0%nat) - d r 1%nat 1%nat * (d r 0%nat 2%nat * d r 2%nat 0%nat)))).
  - intros s. unfold jac3, d. cbv zeta. ring.
  - unfold d. apply cubic_plus; [apply cubic_minus|]; apply cubic_minus; apply cubic_aac; first [apply C1 | apply A0 | apply A2].
Qed.

Lemma jac3_cubic2 x r s : cubic (fun t => jac3 x (pt3 r s t)).
Proof.
  assert (C2 : forall u, con (fun t => dinterp3 u 2 (pt3 r s t))).
  { intros u. apply sum_con. intros m. exists (dshape3 m 2 (pt3 r s 0) * u m). intros t. reflexivity. }
  assert (A0 : forall u, aff (fun t => dinterp3 u 0 (pt3 r s t))).
  { intros u. apply sum_aff. intros m.
    exists ((corner3 m 0 / 2) * ((1 + corner3 m 1 * s) / 2) * (1 / 2) * u m), ((corner3 m 0 / 2) * ((1 + corner3 m 1 * s) / 2) * (corner3 m 2 / 2) * u m).
    intros t. unfold dshape3, pt3. field. }
  assert (A1 : forall u, aff (fun t => dinterp3 u 1 (pt3 r s t))).
  { intros u. apply sum_aff. intros m.
    exists (((1 + corner3 m 0 * r) / 2) * (corner3 m 1 / 2) * (1 / 2) * u m), (((1 + corner3 m 0 * r) / 2) * (corner3 m 1 / 2) * (corner3 m 2 / 2) * u m).
    intros t. unfold dshape3, pt3. field. }
  pose (d := fun (t : R) j i => dinterp3 (fun m => x m j) i (pt3 r s t)).
  apply (cubic_ext _ (fun r =>
    ((d r 2%nat 2%nat * (d r 0%nat 0%nat * d r 1%nat 1%nat) - d r 1%nat 2%nat * (d r 0%nat 0%nat * d r 2%nat 1%nat))
     - (d r 2%nat 2%nat * (d r 0%nat 1%nat * d r 1%nat 0%nat) - d r 1%nat 2%nat * (d r 0%nat 1%nat * d r 2%nat 0%nat)))
    + (d r 0%nat 2%nat * (d r 1%nat 0%nat * d r 2%nat 1%nat) - d r 0%nat 2%nat * (d r 1%nat 1%nat * d r 2%nat 0%nat)))).
  - intros t. unfold jac3, d. cbv zeta. ring.
  - unfold d. apply cubic_plus; [apply cubic_minus|]; apply cubic_minus; apply cubic_aac; first [apply C2 | apply A0 | apply A1].
Qed.

Lemma jac3_pt x (p : nat -> R) : jac3 x p = jac3 x (pt3 (p 0%nat) (p 1%nat) (p 2%nat)).
Proof. reflexivity. Qed.

Lemma dV_Gauss8 nelem j j' x Q e : Hex8_obj nelem 8 (Gauss8_xi j) (Gauss8_w j') x Q -> (e < nelem)%nat ->
  is_integral3 (fun r s t => jac3 (nodes x e) (pt3 r s t)) (sumn 8 (fun q => q_vol Q [e;q])).
Proof.
  intros H He. pose proof (Hex8_facts _ _ _ _ _ _ H) as F.
  rewrite (sumn_ext 8 _ (fun q => Gauss8_w j' [q] * (fun r s t => jac3 (nodes x e) (pt3 r s t))
     (Gauss8_xi j [q;0]%nat) (Gauss8_xi j [q;1]%nat) (Gauss8_xi j [q;2]%nat))).
  - apply (Gauss8_exact (fun r s t => jac3 (nodes x e) (pt3 r s t))).
    + apply jac3_cubic0. + apply jac3_cubic1. + apply jac3_cubic2.
  - intros q Hq. rewrite (h_vol F) by assumption. rewrite jac3_pt. reflexivity.
Qed.

Lemma same_hex8 nelem nip xi w x Q Q' :
  hex8_facts nelem nip xi w x Q -> hex8_facts nelem nip xi w x Q' ->
  q_nelem Q = q_nelem Q' /\ q_nip Q = q_nip Q' /\ q_x Q = q_x Q' /\ q_w Q = q_w Q' /\ q_xi Q = q_xi Q' /\
  (forall q m, (q < nip)%nat -> (m < 8)%nat -> q_N Q [q;m] = q_N Q' [q;m] /\
     forall i, (i < 3)%nat -> q_dNxi Q [q;m;i] = q_dNxi Q' [q;m;i]) /\
  (forall e q, (e < nelem)%nat -> (q < nip)%nat -> q_vol Q [e;q] = q_vol Q' [e;q] /\
     forall m i, (m < 8)%nat -> (i < 3)%nat -> q_dNx Q [e;q;m;i] = q_dNx Q' [e;q;m;i]).
Proof.
  intros F F'. rewrite (h_nelem F), (h_nelem F'), (h_nip F), (h_nip F'), (h_x F), (h_x F'), (h_w F), (h_w F'), (h_xi F), (h_xi F').
  repeat split; intros.
  - rewrite (h_N F), (h_N F') by assumption. reflexivity.
  - rewrite (h_dNxi F), (h_dNxi F') by assumption. reflexivity.
  - rewrite (h_vol F), (h_vol F') by assumption. reflexivity.
  - rewrite (h_dNx F), (h_dNx F') by assumption. reflexivity.
Qed.

Lemma kron3 p m n : (m < 8)%nat -> (n < 8)%nat -> (forall i, (i < 3)%nat -> p i = corner3 n i) ->
  shape3 m p = if (m =? n)%nat then 1 else 0.
Proof.
  intros Hm Hn H. rewrite <- (shape3_corner m n Hm Hn). unfold shape3. rewrite !H by lia. reflexivity.
Qed.


Lemma sheared_jac e p : jac3 (nodes sheared e) p = 1.
Proof.
  unfold jac3, dinterp3. cbv zeta. rewrite !sumn8. unfold nodes, sheared. corners3. unfold dshape3. corners3. field.
Qed.

Lemma sheared_J e p : J3 (nodes sheared e) p [1;0]%nat = 1 /\ J3 (nodes sheared e) p [0;0]%nat = 1 /\ J3 (nodes sheared e) p [1;1]%nat = 1 /\
  J3 (nodes sheared e) p [2;2]%nat = 1 /\ J3 (nodes sheared e) p [0;1]%nat = 0 /\ J3 (nodes sheared e) p [0;2]%nat = 0 /\ J3 (nodes sheared e) p [1;2]%nat = 0 /\
  J3 (nodes sheared e) p [2;0]%nat = 0 /\ J3 (nodes sheared e) p [2;1]%nat = 0.
Proof.
  cbn [J3]. unfold dinterp3. rewrite !sumn8. unfold nodes, sheared, dshape3. corners3. repeat split; field.
Qed.

Lemma sheared_Jsum e p : Jsum (nodes sheared e) 1 p = 0.
Proof.
  unfold Jsum. rewrite sumn3. unfold inv3. cbv zeta. rewrite det3_J3, sheared_jac. blk.
  destruct (sheared_J e p) as (E1 & E2 & E3 & E4 & E5 & E6 & E7 & E8 & E9). rewrite ?E1, ?E2, ?E3, ?E4, ?E5, ?E6, ?E7, ?E8, ?E9. field.
Qed.

(** axis-aligned boxes have a diagonal Jacobian *)
Lemma box_diagonal x c h p : (forall m i, (m < 8)%nat -> (i < 3)%nat -> x m i = c i + h i * corner3 m i) ->
  diagonal3 x p /\ jac3 x p = h 0%nat * h 1%nat * h 2%nat.
Proof.
  intros H.
  assert (D : forall i j, (i < 3)%nat -> (j < 3)%nat -> dinterp3 (fun m => x m j) i p = if (i =? j)%nat then h j else 0).
  { intros i j Hi Hj. unfold dinterp3. rewrite sumn8, !H by (assumption || lia).
    revert i Hi. apply lt3; revert j Hj; apply lt3; unfold dshape3; corners3; cbn [Nat.eqb]; field. }
  split.
  - intros i j Hi Hj Hn. rewrite D by assumption. apply Nat.eqb_neq in Hn. rewrite Hn. reflexivity.
  - unfold jac3. cbv zeta. rewrite !D by lia. cbn [Nat.eqb]. ring.
Qed.
