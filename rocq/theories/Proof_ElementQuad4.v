From Coq Require Import List Arith Reals Lra Lia Permutation.
From Verif Require Import Sums Model_Element Spec_Element Proof_Element.
Import ListNotations.
Local Open Scope R_scope.

Ltac blk := unfold block; cbn [fold_left]; upds.

Lemma e025 : 0.25 = / 4. Proof. lra. Qed.
Lemma em025 : -0.25 = - / 4. Proof. lra. Qed.
Lemma e05 : 0.5 = / 2. Proof. lra. Qed.
Ltac decs := rewrite ?em025, ?e025, ?e05.

Lemma sum4_sumn f : sum4 f = sumn 4 f.
Proof. rewrite sumn4. reflexivity. Qed.

Lemma lt4 (P : nat -> Prop) : P 0%nat -> P 1%nat -> P 2%nat -> P 3%nat -> forall m, (m < 4)%nat -> P m.
Proof. intros. destruct m as [|[|[|[|m]]]]; try assumption; lia. Qed.
Lemma lt2 (P : nat -> Prop) : P 0%nat -> P 1%nat -> forall m, (m < 2)%nat -> P m.
Proof. intros. destruct m as [|[|m]]; try assumption; lia. Qed.
Lemma lt3 (P : nat -> Prop) : P 0%nat -> P 1%nat -> P 2%nat -> forall m, (m < 3)%nat -> P m.
Proof. intros. destruct m as [|[|[|m]]]; try assumption; lia. Qed.

Lemma Quad4_N_at nip xi junk q m : (q < nip)%nat -> (m < 4)%nat ->
  Quad4_N nip xi junk [q;m] = shape2 m (point xi q).
Proof.
  intros Hq Hm. unfold Quad4_N.
  apply (for_once (fun a : arr => a [q;m]) (fun _ => shape2 m (point xi q)) nip _ junk q Hq).
  - intros q' s Hn. blk. reflexivity.
  - intros s. revert m Hm. apply lt4; blk; unfold shape2, point, corner2; decs; field.
Qed.

Lemma Quad4_dNxi_at nip xi junk q m i : (q < nip)%nat -> (m < 4)%nat -> (i < 2)%nat ->
  Quad4_dNxi nip xi junk [q;m;i] = dshape2 m i (point xi q).
Proof.
  intros Hq Hm Hi. unfold Quad4_dNxi.
  apply (for_once (fun a : arr => a [q;m;i]) (fun _ => dshape2 m i (point xi q)) nip _ junk q Hq).
  - intros q' s Hn. blk. reflexivity.
  - intros s. revert m Hm. apply lt4; revert i Hi; apply lt2; blk; unfold dshape2, point, corner2; decs; field.
Qed.

Lemma Quad4_jacobian_at dNxi x q e junk i j : (i < 2)%nat -> (j < 2)%nat ->
  Quad4_jacobian dNxi x q e junk [i;j] = sumn 4 (fun m => dNxi [q;m;i] * x [e;m;j]).
Proof.
  intros Hi Hj. unfold Quad4_jacobian. revert i Hi. apply lt2; revert j Hj; apply lt2; blk; apply sum4_sumn.
Qed.

Lemma inv2_at A junk :
  inv2 A junk [0;0]%nat = A [1;1]%nat / det2 A /\ inv2 A junk [0;1]%nat = - A [0;1]%nat / det2 A /\
  inv2 A junk [1;0]%nat = - A [1;0]%nat / det2 A /\ inv2 A junk [1;1]%nat = A [0;0]%nat / det2 A.
Proof. unfold inv2. cbv zeta. repeat split; blk; unfold Rdiv; ring. Qed.

(** global gradient of shape function [m] in direction [i], at the local point [p] *)
Definition gshape2 (x : nat -> nat -> R) (m i : nat) (p : nat -> R) : R :=
  let d := fun j i => dinterp2 (fun m => x m j) i p in
  match i with
  | 0%nat => (d 1%nat 1%nat * dshape2 m 0 p - d 1%nat 0%nat * dshape2 m 1 p) / jac2 x p
  | _ => (d 0%nat 0%nat * dshape2 m 1 p - d 0%nat 1%nat * dshape2 m 0 p) / jac2 x p
  end.

Section Compute.
Variables (nelem : nat) (es : list nat).
Hypothesis Hes : schedule nelem es.
Variables (nip : nat) (xi w dNxi x : arr).
Hypothesis HdNxi : forall q m i, (q < nip)%nat -> (m < 4)%nat -> (i < 2)%nat -> dNxi [q;m;i] = dshape2 m i (point xi q).
Set Default Proof Using "All".

Lemma J_at q e junk i j : (q < nip)%nat -> (i < 2)%nat -> (j < 2)%nat ->
  Quad4_jacobian dNxi x q e junk [i;j] = dinterp2 (fun m => nodes x e m j) i (point xi q).
Proof.
  intros Hq Hi Hj. rewrite Quad4_jacobian_at by assumption.
  unfold dinterp2, nodes. apply sumn_ext. intros m Hm. rewrite HdNxi by assumption. reflexivity.
Qed.

Lemma J_det q e junk : (q < nip)%nat -> det2 (Quad4_jacobian dNxi x q e junk) = jac2 (nodes x e) (point xi q).
Proof.
  intros Hq. unfold det2, jac2. rewrite !J_at by (assumption || lia). ring.
Qed.

Lemma Jinv_dN q e junk junk' m i : (q < nip)%nat -> (m < 4)%nat -> (i < 2)%nat ->
  inv2 (Quad4_jacobian dNxi x q e junk) junk' [i;0]%nat * dNxi [q;m;0]%nat
  + inv2 (Quad4_jacobian dNxi x q e junk) junk' [i;1]%nat * dNxi [q;m;1]%nat = gshape2 (nodes x e) m i (point xi q).
Proof.
  intros Hq Hm Hi. rewrite !HdNxi by (assumption || lia).
  destruct (inv2_at (Quad4_jacobian dNxi x q e junk) junk') as (E00 & E01 & E10 & E11).
  rewrite J_det in E00, E01, E10, E11 by assumption.
  rewrite !J_at in E00, E01, E10, E11 by (assumption || lia).
  revert i Hi. apply lt2; unfold gshape2.
  - rewrite E00, E01. unfold Rdiv. ring.
  - rewrite E10, E11. unfold Rdiv. ring.
Qed.

Lemma compute_dNx junk vol_of st e q m i : (e < nelem)%nat -> (q < nip)%nat -> (m < 4)%nat -> (i < 2)%nat ->
  fst (Quad4_compute_dN es nip junk w dNxi x vol_of st) [e;q;m;i] = gshape2 (nodes x e) m i (point xi q).
Proof.
  intros He Hq Hm Hi. unfold Quad4_compute_dN.
  apply (forL_once (fun st : arr * arr => fst st [e;q;m;i]) (fun _ => gshape2 (nodes x e) m i (point xi q)) es _ st e
           (schedule_NoDup _ _ Hes) (schedule_In _ _ _ Hes He)).
  - intros e' s Hn. apply (for_frame (fun st : arr * arr => fst st [e;q;m;i])). intros q' s' _. cbn [fst].
    apply (for_frame (fun a : arr => a [e;q;m;i])). intros m' a _. blk. reflexivity.
  - intros s. apply (for_once (fun st : arr * arr => fst st [e;q;m;i]) (fun _ => gshape2 (nodes x e) m i (point xi q)) nip _ s q Hq).
    + intros q' s' Hn. cbn [fst]. apply (for_frame (fun a : arr => a [e;q;m;i])). intros m' a _. blk. reflexivity.
    + intros s'. cbn [fst].
      apply (for_once (fun a : arr => a [e;q;m;i]) (fun _ => gshape2 (nodes x e) m i (point xi q)) 4 _ (fst s') m Hm).
      * intros m' a Hn. blk. reflexivity.
      * intros a. revert i Hi. apply lt2; blk; apply Jinv_dN; (assumption || lia).
Qed.

Lemma compute_vol junk vol_of st e q : (e < nelem)%nat -> (q < nip)%nat ->
  snd (Quad4_compute_dN es nip junk w dNxi x vol_of st) [e;q] = vol_of (w [q]) (jac2 (nodes x e) (point xi q)).
Proof.
  intros He Hq. unfold Quad4_compute_dN.
  apply (forL_once (fun st : arr * arr => snd st [e;q]) (fun _ => vol_of (w [q]) (jac2 (nodes x e) (point xi q))) es _ st e
           (schedule_NoDup _ _ Hes) (schedule_In _ _ _ Hes He)).
  - intros e' s Hn. apply (for_frame (fun st : arr * arr => snd st [e;q])). intros q' s' _. cbn [snd]. upds. reflexivity.
  - intros s. apply (for_once (fun st : arr * arr => snd st [e;q]) (fun _ => vol_of (w [q]) (jac2 (nodes x e) (point xi q))) nip _ s q Hq).
    + intros q' s' Hn. cbn [snd]. upds. reflexivity.
    + intros s'. cbn [snd]. upds. rewrite J_det by assumption. reflexivity.
Qed.

End Compute.

(** ** every object *)
Record quad4_facts (nelem nip : nat) (xi w : arr) (vol_of : R -> R -> R) (x : arr) (Q : Quadrature) : Prop := {
  f_nelem : q_nelem Q = nelem; f_nip : q_nip Q = nip; f_w : q_w Q = w; f_x : q_x Q = x; f_xi : q_xi Q = xi;
  f_N : forall q m, (q < nip)%nat -> (m < 4)%nat -> q_N Q [q;m] = shape2 m (point xi q);
  f_dNxi : forall q m i, (q < nip)%nat -> (m < 4)%nat -> (i < 2)%nat -> q_dNxi Q [q;m;i] = dshape2 m i (point xi q);
  f_dNx : forall e q m i, (e < nelem)%nat -> (q < nip)%nat -> (m < 4)%nat -> (i < 2)%nat ->
    q_dNx Q [e;q;m;i] = gshape2 (nodes x e) m i (point xi q);
  f_vol : forall e q, (e < nelem)%nat -> (q < nip)%nat -> q_vol Q [e;q] = vol_of (w [q]) (jac2 (nodes x e) (point xi q)) }.
Arguments f_nelem {_ _ _ _ _ _ _}. Arguments f_nip {_ _ _ _ _ _ _}. Arguments f_w {_ _ _ _ _ _ _}.
Arguments f_x {_ _ _ _ _ _ _}. Arguments f_xi {_ _ _ _ _ _ _}. Arguments f_N {_ _ _ _ _ _ _}.
Arguments f_dNxi {_ _ _ _ _ _ _}. Arguments f_dNx {_ _ _ _ _ _ _}. Arguments f_vol {_ _ _ _ _ _ _}.

Lemma Quad4_facts nelem nip xi w x Q : Quad4_obj nelem nip xi w x Q -> quad4_facts nelem nip xi w (fun w d => w * d) x Q.
Proof.
  intros H. induction H as [es x j1 j2 j3 j4 j5 Hes | es x0 Q x j5 Hes H IH].
  - constructor; try reflexivity.
    + intros. apply Quad4_N_at; assumption.
    + intros. apply Quad4_dNxi_at; assumption.
    + intros. apply (compute_dNx nelem es Hes nip xi w (Quad4_dNxi nip xi j2) x); try assumption. intros; apply Quad4_dNxi_at; assumption.
    + intros. apply (compute_vol nelem es Hes nip xi w (Quad4_dNxi nip xi j2) x); try assumption. intros; apply Quad4_dNxi_at; assumption.
  - destruct IH as [A1 A2 A3 A4 A5 A6 A7 A8 A9].
    constructor; try assumption; try reflexivity.
    + intros. cbn [Quad4_update_x q_dNx]. rewrite A2, A3. apply (compute_dNx nelem es Hes nip xi w (q_dNxi Q) x); assumption.
    + intros. cbn [Quad4_update_x q_vol]. rewrite A2, A3. apply (compute_vol nelem es Hes nip xi w (q_dNxi Q) x); assumption.
Qed.

Lemma Planar_facts nelem nip xi w thick x P : Planar_obj nelem nip xi w thick x P ->
  p_thick P = thick /\ quad4_facts nelem nip xi w (fun w d => w * d * thick) x (p_base P).
Proof.
  intros H. induction H as [es x j1 j2 j3 j4 j5 Hes | es x0 P x j5 Hes H IH].
  - split; [reflexivity|]. constructor; try reflexivity.
    + intros. apply Quad4_N_at; assumption.
    + intros. apply Quad4_dNxi_at; assumption.
    + intros. apply (compute_dNx nelem es Hes nip xi w (Quad4_dNxi nip xi j2) x); try assumption. intros; apply Quad4_dNxi_at; assumption.
    + intros. cbn [Planar_new p_base q_vol].
      rewrite (compute_vol nelem es Hes nip xi w (Quad4_dNxi nip xi j2) x); try assumption; [reflexivity|]. intros; apply Quad4_dNxi_at; assumption.
  - destruct IH as [At [A1 A2 A3 A4 A5 A6 A7 A8 A9]]. split; [exact At|].
    constructor; try assumption; try reflexivity.
    + intros. cbn [Planar_update_x p_base q_dNx]. rewrite A2, A3. apply (compute_dNx nelem es Hes nip xi w (q_dNxi (p_base P)) x); assumption.
    + intros. cbn [Planar_update_x p_base q_vol]. rewrite A2, A3, At.
      rewrite (compute_vol nelem es Hes nip xi w (q_dNxi (p_base P)) x); try assumption. reflexivity.
Qed.

(** ** loops over (e, q) that overwrite *)
Section Loops.
Variables (nelem : nat) (es : list nat).
Hypothesis Hes : schedule nelem es.
Variables (nip : nat).
Set Default Proof Using "All".

Lemma forL_forq {S} (g : S -> R) (body : nat -> nat -> S -> S) (F : R -> R) s e q : (e < nelem)%nat -> (q < nip)%nat ->
  (forall e' q' s, (e' <> e \/ q' <> q) -> g (body e' q' s) = g s) ->
  (forall s, g (body e q s) = F (g s)) ->
  g (forL es (fun e => for_ nip (fun q => body e q)) s) = F (g s).
Proof.
  intros He Hq Hfr HF.
  apply (forL_once g F es (fun e => for_ nip (fun q => body e q)) s e (schedule_NoDup _ _ Hes) (schedule_In _ _ _ Hes He)).
  - intros e' s' Hn. apply for_frame. intros q' s'' _. apply Hfr. left; exact Hn.
  - intros s'. apply (for_once g F nip (fun q => body e q) s' q Hq).
    + intros q' s'' Hn. apply Hfr. right; exact Hn.
    + exact HF.
Qed.

Ltac frame := intros e' q' s [Hn|Hn]; blk; reflexivity.

Lemma Quad4_interp_spec (N u old : arr) e q i : (e < nelem)%nat -> (q < nip)%nat -> (i < 2)%nat ->
  forL es (fun e => for_ nip (fun q => block
    [ upd [e;q;0]%nat (sum4 (fun m => N [q;m] * u [e;m;0]%nat));
      upd [e;q;1]%nat (sum4 (fun m => N [q;m] * u [e;m;1]%nat)) ])) old [e;q;i]
  = sumn 4 (fun m => N [q;m] * u [e;m;i]).
Proof.
  intros He Hq Hi.
  apply (forL_forq (fun a : arr => a [e;q;i]) _ (fun _ => sumn 4 (fun m => N [q;m] * u [e;m;i])) _ e q He Hq); [frame|].
  intros s. revert i Hi. apply lt2; blk; apply sum4_sumn.
Qed.

Definition grad4 (dNx u : arr) e q i j := sumn 4 (fun m => dNx [e;q;m;i] * u [e;m;j]).

Lemma Quad4_grad_spec dNx u old e q i j : (e < nelem)%nat -> (q < nip)%nat -> (i < 2)%nat -> (j < 2)%nat ->
  forL es (fun e => for_ nip (fun q => Quad4_grad_block dNx u e q)) old [e;q;i;j] = grad4 dNx u e q i j.
Proof.
  intros He Hq Hi Hj.
  apply (forL_forq (fun a : arr => a [e;q;i;j]) (fun e q => Quad4_grad_block dNx u e q) (fun _ => grad4 dNx u e q i j) _ e q He Hq);
    unfold Quad4_grad_block; [frame|].
  intros s. revert i Hi. apply lt2; revert j Hj; apply lt2; blk; apply sum4_sumn.
Qed.

Lemma Quad4_grad_T_spec dNx u old e q i j : (e < nelem)%nat -> (q < nip)%nat -> (i < 2)%nat -> (j < 2)%nat ->
  forL es (fun e => for_ nip (fun q => Quad4_grad_T_block dNx u e q)) old [e;q;j;i] = grad4 dNx u e q i j.
Proof.
  intros He Hq Hi Hj.
  apply (forL_forq (fun a : arr => a [e;q;j;i]) (fun e q => Quad4_grad_T_block dNx u e q) (fun _ => grad4 dNx u e q i j) _ e q He Hq);
    unfold Quad4_grad_T_block; [frame|].
  intros s. revert i Hi. apply lt2; revert j Hj; apply lt2; blk; apply sum4_sumn.
Qed.

Lemma Quad4_sym_spec dNx u old e q i j : (e < nelem)%nat -> (q < nip)%nat -> (i < 2)%nat -> (j < 2)%nat ->
  forL es (fun e => for_ nip (fun q => Quad4_sym_block dNx u e q)) old [e;q;i;j] = (grad4 dNx u e q i j + grad4 dNx u e q j i) / 2.
Proof.
  intros He Hq Hi Hj.
  apply (forL_forq (fun a : arr => a [e;q;i;j]) (fun e q => Quad4_sym_block dNx u e q)
           (fun _ => (grad4 dNx u e q i j + grad4 dNx u e q j i) / 2) _ e q He Hq);
    unfold Quad4_sym_block; [frame|].
  intros s. unfold grad4. revert i Hi. apply lt2; revert j Hj; apply lt2; blk; rewrite ?sum4_sumn, ?sumn4; lra.
Qed.

(** nothing is written outside of the in-plane components *)
Lemma Quad4_grad_out (body : arr -> arr -> nat -> nat -> arr -> arr) dNx u old e q i j :
  body = Quad4_grad_block \/ body = Quad4_grad_T_block \/ body = Quad4_sym_block ->
  (i = 2%nat \/ j = 2%nat) ->
  forL es (fun e => for_ nip (fun q => body dNx u e q)) old [e;q;i;j] = old [e;q;i;j].
Proof.
  intros Hb Hij. apply (forL_frame (fun a : arr => a [e;q;i;j])). intros e' s _.
  apply (for_frame (fun a : arr => a [e;q;i;j])). intros q' s' _.
  destruct Hb as [-> | [-> | ->]]; unfold Quad4_grad_block, Quad4_grad_T_block, Quad4_sym_block;
  destruct Hij as [->| ->]; blk; reflexivity.
Qed.


Lemma Quad4_mass_spec N vol rho old e m i n j :
  (e < nelem)%nat -> (m < 4)%nat -> (n < 4)%nat -> (i < 2)%nat -> (j < 2)%nat ->
  Quad4_int_N_scalar_NT_dV_impl es nip N vol rho old [e; m * 2 + i; n * 2 + j]%nat =
  if (i =? j)%nat then sumn nip (fun q => N [q;m] * rho [e;q] * N [q;n] * vol [e;q]) else 0.
Proof.
  intros He Hm Hn Hi Hj. apply (acc_es nelem es _ _ e _ Hes He).
  - intros e' He'. acc0.
  - destruct (Nat.eqb_spec i j) as [->|Hij].
    + apply acc_for. intros q Hq.
      apply (acc_for_once _ _ _ m _ Hm).
      { intros m' Hm'. acc0; apply acc_neq; intros E; injection E as E1 E2; lia. }
      apply (acc_for_once _ _ _ n _ Hn).
      { intros n' Hn'. acc0; apply acc_neq; intros E; injection E as E1; lia. }
      revert j Hj Hi. apply (lt2 (fun j => (j < 2)%nat -> acc [e; m * 2 + j; n * 2 + j]%nat _ _)); intros _.
      * apply acc_cons1; [apply acc_eq|]. apply acc_cons0; [|apply acc_nil]. apply acc_neq. intros E; injection E as E1; lia.
      * apply acc_cons0; [apply acc_neq; intros E; injection E as E1; lia|]. apply acc_cons1; [apply acc_eq|apply acc_nil].
    + acc0; apply acc_neq; intros E; injection E as E1 E2; lia.
Qed.

Lemma Quad4_force_spec dNx vol sig old e m j : (e < nelem)%nat -> (m < 4)%nat -> (j < 2)%nat ->
  Quad4_int_gradN_dot_tensor2_dV_impl es nip dNx vol sig old [e;m;j] =
  sumn nip (fun q => sumn 2 (fun i => dNx [e;q;m;i] * sig [e;q;i;j]) * vol [e;q]).
Proof.
  intros He Hm Hj. apply (acc_es nelem es _ _ e _ Hes He).
  - intros e' He'. acc0.
  - apply acc_for. intros q Hq. apply (acc_for_once _ _ _ m _ Hm); [intros m' Hm'; acc0|].
    revert j Hj. apply lt2; rewrite sumn2.
    + apply acc_cons1; [apply acc_eq|]. acc0.
    + apply acc_cons0; [acc0|]. apply acc_cons1; [apply acc_eq|acc0].
Qed.
End Loops.
