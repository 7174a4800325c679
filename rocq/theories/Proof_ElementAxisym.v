From Coq Require Import List Arith Reals Lra Lia Permutation.
From Coquelicot Require Import Hierarchy RInt.
From Verif Require Import Sums Model_Element Spec_Element Proof_Element Proof_ElementQuad4 Proof_ElementMath Proof_ElementThm Proof_ElementThm2.
Import ListNotations.
Local Open Scope R_scope.

(** weak form with a general B-matrix: H q m i a b is d(gradient_ab)/d(u(m,i)) *)
Section WeakB.
Variables (nip nne nd td : nat) (H : nat -> nat -> nat -> nat -> nat -> R) (vol : nat -> R).
Definition Hgrad (u : nat -> nat -> R) q a b := sumn nne (fun m => sumn nd (fun i => H q m i a b * u m i)).
Definition Hforce (sig : nat -> nat -> nat -> R) m i := sumn nip (fun q => sumn td (fun a => sumn td (fun b => H q m i a b * sig q a b)) * vol q).
Definition Hstiff (C : nat -> nat -> nat -> nat -> nat -> R) m i n j :=
  sumn nip (fun q => sumn td (fun a => sumn td (fun b => H q m i a b * sumn td (fun c => sumn td (fun d => C q a b c d * H q n j d c)))) * vol q).

Lemma Hvirtual_work sig u :
  sumn nne (fun m => sumn nd (fun i => Hforce sig m i * u m i))
  = sumn nip (fun q => sumn td (fun a => sumn td (fun b => sig q a b * Hgrad u q a b)) * vol q).
Proof.
  unfold Hforce, Hgrad.
  transitivity (sumn nip (fun q => sumn td (fun a => sumn td (fun b => sumn nne (fun m => sumn nd (fun i => H q m i a b * sig q a b * vol q * u m i)))))).
  - rewrite (sumn_ext nne _ (fun m => sumn nip (fun q => sumn td (fun a => sumn td (fun b => sumn nd (fun i => H q m i a b * sig q a b * vol q * u m i)))))).
    + rewrite sumn_swap. apply sumn_ext. intros q _. rewrite sumn_swap. apply sumn_ext. intros a _. apply sumn_swap.
    + intros m _.
      rewrite (sumn_ext nd _ (fun i => sumn nip (fun q => sumn td (fun a => sumn td (fun b => H q m i a b * sig q a b * vol q * u m i))))).
      * rewrite sumn_swap. apply sumn_ext. intros q _. rewrite sumn_swap. apply sumn_ext. intros a _. apply sumn_swap.
      * intros i _. rewrite <- sumn_scal_r. apply sumn_ext. intros q _. rewrite <- !sumn_scal_r. apply sumn_ext. intros a _.
        rewrite <- !sumn_scal_r. reflexivity.
  - apply sumn_ext. intros q _. rewrite <- sumn_scal_r. apply sumn_ext. intros a _. rewrite <- sumn_scal_r. apply sumn_ext. intros b _.
    rewrite <- sumn_scal, <- sumn_scal_r. apply sumn_ext. intros m _. rewrite <- sumn_scal, <- sumn_scal_r. apply sumn_ext. intros i _. ring.
Qed.

Lemma Hstiff_action C u m i :
  sumn nne (fun n => sumn nd (fun j => Hstiff C m i n j * u n j))
  = Hforce (fun q a b => sumn td (fun c => sumn td (fun d => C q a b c d * Hgrad u q d c))) m i.
Proof.
  unfold Hstiff, Hforce, Hgrad.
  transitivity (sumn nip (fun q => sumn td (fun a => sumn td (fun b => sumn td (fun c => sumn td (fun d => sumn nne (fun n => sumn nd (fun j =>
     H q m i a b * C q a b c d * H q n j d c * vol q * u n j)))))))).
  - rewrite (sumn_ext nne _ (fun n => sumn nip (fun q => sumn td (fun a => sumn td (fun b => sumn td (fun c => sumn td (fun d => sumn nd (fun j =>
     H q m i a b * C q a b c d * H q n j d c * vol q * u n j)))))))).
    + rewrite sumn_swap. apply sumn_ext. intros q _. rewrite sumn_swap. apply sumn_ext. intros a _. rewrite sumn_swap. apply sumn_ext. intros b _.
      rewrite sumn_swap. apply sumn_ext. intros c _. apply sumn_swap.
    + intros n _.
      rewrite (sumn_ext nd _ (fun j => sumn nip (fun q => sumn td (fun a => sumn td (fun b => sumn td (fun c => sumn td (fun d =>
        H q m i a b * C q a b c d * H q n j d c * vol q * u n j))))))).
      * rewrite sumn_swap. apply sumn_ext. intros q _. rewrite sumn_swap. apply sumn_ext. intros a _. rewrite sumn_swap. apply sumn_ext. intros b _.
        rewrite sumn_swap. apply sumn_ext. intros c _. apply sumn_swap.
      * intros j _. rewrite <- sumn_scal_r. apply sumn_ext. intros q _. rewrite <- !sumn_scal_r. apply sumn_ext. intros a _.
        rewrite <- !sumn_scal_r. apply sumn_ext. intros b _. rewrite <- sumn_scal, <- !sumn_scal_r. apply sumn_ext. intros c _.
        rewrite <- sumn_scal, <- !sumn_scal_r. apply sumn_ext. intros d _. ring.
  - apply sumn_ext. intros q _. rewrite <- sumn_scal_r. apply sumn_ext. intros a _. rewrite <- sumn_scal_r. apply sumn_ext. intros b _.
    rewrite <- sumn_scal, <- sumn_scal_r. apply sumn_ext. intros c _. rewrite <- sumn_scal, <- sumn_scal_r. apply sumn_ext. intros d _.
    rewrite <- !sumn_scal, <- sumn_scal_r. apply sumn_ext. intros n _. rewrite <- !sumn_scal, <- sumn_scal_r. apply sumn_ext. intros j _. ring.
Qed.

Lemma Hstiff_sym C m i n j :
  (forall q a b c d, (q < nip)%nat -> (a < td)%nat -> (b < td)%nat -> (c < td)%nat -> (d < td)%nat -> C q a b c d = C q d c b a) ->
  Hstiff C m i n j = Hstiff C n j m i.
Proof.
  intros HC. unfold Hstiff. apply sumn_ext. intros q Hq. f_equal.
  transitivity (sumn td (fun a => sumn td (fun b => sumn td (fun c => sumn td (fun d => H q m i a b * C q a b c d * H q n j d c))))).
  { apply sumn_ext. intros a _. apply sumn_ext. intros b _. rewrite <- sumn_scal. apply sumn_ext. intros c _. rewrite <- sumn_scal.
    apply sumn_ext. intros d _. ring. }
  transitivity (sumn td (fun d => sumn td (fun c => sumn td (fun b => sumn td (fun a => H q m i a b * C q a b c d * H q n j d c))))).
  { rewrite (sumn_ext td _ (fun a => sumn td (fun d => sumn td (fun c => sumn td (fun b => H q m i a b * C q a b c d * H q n j d c))))).
    - rewrite sumn_swap. apply sumn_ext. intros d _. rewrite sumn_swap. apply sumn_ext. intros c _. apply sumn_swap.
    - intros a _.
      rewrite (sumn_ext td _ (fun b => sumn td (fun d => sumn td (fun c => H q m i a b * C q a b c d * H q n j d c))))
        by (intros; apply sumn_swap).
      rewrite sumn_swap. apply sumn_ext. intros d _. apply sumn_swap. }
  apply sumn_ext. intros d Hd. apply sumn_ext. intros c Hc. rewrite <- sumn_scal. apply sumn_ext. intros b Hb. rewrite <- sumn_scal.
  apply sumn_ext. intros a Ha. rewrite (HC q a b c d) by assumption. ring.
Qed.
End WeakB.

(** component of the B-matrix that acts on component [i] of the nodal vectors (0: z, 1: r) *)
Definition axc (i : nat) : nat := match i with 0%nat => 2%nat | _ => 0%nat end.

Section Axi.
Variables (nelem nip : nat) (xi w x : arr) (A : Axisym).
Hypothesis F : axisym_facts nelem nip xi w x A.
Variable es : list nat.
Hypothesis Hes : schedule nelem es.
Set Default Proof Using "All".

Definition Bq (e q m i a b : nat) : R := a_B A [e;q;m;a;b;axc i].

Lemma Bq_at e q m i a b : (e < nelem)%nat -> (q < nip)%nat -> (m < 4)%nat -> (i < 2)%nat -> (a < 3)%nat -> (b < 3)%nat ->
  Bq e q m i a b = Bspec xi x e q m a b (axc i).
Proof. intros. unfold Bq. apply (a_f_B F); try assumption. revert i H2. apply lt2; cbn; lia. Qed.

(** the gradient, in terms of B *)
Definition agrad (u : arr) e q a b := Hgrad 4 2 (Bq e) (fun m i => u [e;m;i]) q a b.

Lemma agrad_at u e q a b : (e < nelem)%nat -> (q < nip)%nat -> (a < 3)%nat -> (b < 3)%nat ->
  agrad u e q a b =
  match a, b with
  | 0, 0 => (sumn 4 (fun m => gshape2 (nodes x e) m 1 (point xi q) * u [e;m;1]%nat))%R
  | 2, 2 => (sumn 4 (fun m => gshape2 (nodes x e) m 0 (point xi q) * u [e;m;0]%nat))%R
  | 0, 2 => (sumn 4 (fun m => gshape2 (nodes x e) m 1 (point xi q) * u [e;m;0]%nat))%R
  | 2, 0 => (sumn 4 (fun m => gshape2 (nodes x e) m 0 (point xi q) * u [e;m;1]%nat))%R
  | 1, 1 => (interp2 (comp u e 1) (point xi q) / radius xi x e q)%R
  | _, _ => 0%R
  end%nat.
Proof.
  intros He Hq Ha Hb. unfold agrad, Hgrad.
  rewrite (sumn_ext 4 _ (fun m => Bspec xi x e q m a b 2 * u [e;m;0]%nat + Bspec xi x e q m a b 0 * u [e;m;1]%nat)).
  2:{ intros m Hm. rewrite sumn2, !Bq_at by (assumption || lia). reflexivity. }
  unfold interp2, comp. rewrite !sumn4.
  revert a Ha. apply lt3; revert b Hb; apply lt3; cbn [Bspec]; unfold Rdiv; ring.
Qed.

Lemma sum4_Bq u e q a b i c : (e < nelem)%nat -> (q < nip)%nat -> (a < 3)%nat -> (b < 3)%nat -> (i < 2)%nat ->
  c = axc i -> (forall m, (m < 4)%nat -> Bspec xi x e q m a b (axc (1 - i)) = 0) ->
  sum4 (fun m => a_B A [e;q;m;a;b;c] * u [e;m;i]) = agrad u e q a b.
Proof.
  intros He Hq Ha Hb Hi -> H0. rewrite sum4_sumn. unfold agrad, Hgrad. apply sumn_ext. intros m Hm.
  rewrite sumn2, !Bq_at by (assumption || lia). rewrite (a_f_B F); try assumption.
  2:{ destruct i; cbn; lia. }
  destruct i as [|[|i]]; [| |lia]; cbn [axc Nat.sub] in *; rewrite H0 by assumption; ring.
Qed.

Ltac ent := apply sum4_Bq; (assumption || lia || reflexivity || (intros; reflexivity)).

Lemma axi_grad_spec u old e q a b : (e < nelem)%nat -> (q < nip)%nat -> (a < 3)%nat -> (b < 3)%nat ->
  Axisym_gradN_vector es A u old [e;q;a;b] = agrad u e q a b.
Proof.
  intros He Hq Ha Hb. unfold Axisym_gradN_vector. rewrite (a_f_nip F).
  set (G := fun v : R => match a, b with 0, 0 | 1, 1 | 2, 2 | 0, 2 | 2, 0 => agrad u e q a b | _, _ => v end%nat).
  assert (R1 : G 0 = agrad u e q a b).
  { unfold G. rewrite agrad_at by assumption. clear G. revert a Ha. apply lt3; revert b Hb; apply lt3; reflexivity. }
  rewrite <- R1. change 0 with (fill 0 old [e;q;a;b]).
  apply (forL_forq nelem es Hes nip (fun s : arr => s [e;q;a;b]) _ G _ e q He Hq).
  - intros e' q' s [Hn|Hn]; blk; reflexivity.
  - intros s. clear R1. subst G. cbv beta. revert a Ha. apply lt3; revert b Hb; apply lt3; blk; try reflexivity; ent.
Qed.

Lemma axi_grad_T_spec u old e q a b : (e < nelem)%nat -> (q < nip)%nat -> (a < 3)%nat -> (b < 3)%nat ->
  Axisym_gradN_vector_T es A u old [e;q;b;a] = agrad u e q a b.
Proof.
  intros He Hq Ha Hb. unfold Axisym_gradN_vector_T. rewrite (a_f_nip F).
  set (G := fun v : R => match a, b with 0, 0 | 1, 1 | 2, 2 | 0, 2 | 2, 0 => agrad u e q a b | _, _ => v end%nat).
  assert (R1 : G 0 = agrad u e q a b).
  { unfold G. rewrite agrad_at by assumption. clear G. revert a Ha. apply lt3; revert b Hb; apply lt3; reflexivity. }
  rewrite <- R1. change 0 with (fill 0 old [e;q;b;a]).
  apply (forL_forq nelem es Hes nip (fun s : arr => s [e;q;b;a]) _ G _ e q He Hq).
  - intros e' q' s [Hn|Hn]; blk; reflexivity.
  - intros s. clear R1. subst G. cbv beta. revert a Ha. apply lt3; revert b Hb; apply lt3; blk; try reflexivity; ent.
Qed.

Lemma axi_sym_spec u old e q a b : (e < nelem)%nat -> (q < nip)%nat -> (a < 3)%nat -> (b < 3)%nat ->
  Axisym_symGradN_vector es A u old [e;q;a;b] = (agrad u e q a b + agrad u e q b a) / 2.
Proof.
  intros He Hq Ha Hb. unfold Axisym_symGradN_vector. rewrite (a_f_nip F).
  set (G := fun v : R => match a, b with 0, 0 | 1, 1 | 2, 2 | 0, 2 | 2, 0 => ((agrad u e q a b + agrad u e q b a) / 2)%R | _, _ => v end%nat).
  assert (R1 : G 0 = (agrad u e q a b + agrad u e q b a) / 2).
  { unfold G. rewrite !agrad_at by assumption. clear G. revert a Ha. apply lt3; revert b Hb; apply lt3; try reflexivity; lra. }
  rewrite <- R1. change 0 with (fill 0 old [e;q;a;b]).
  apply (forL_forq nelem es Hes nip (fun s : arr => s [e;q;a;b]) _ G _ e q He Hq).
  - intros e' q' s [Hn|Hn]; blk; reflexivity.
  - intros s. clear R1. subst G. cbv beta.
    assert (E00 : sum4 (fun m => a_B A [e;q;m;0;0;0]%nat * u [e;m;1]%nat) = agrad u e q 0 0) by ent.
    assert (E11 : sum4 (fun m => a_B A [e;q;m;1;1;0]%nat * u [e;m;1]%nat) = agrad u e q 1 1) by ent.
    assert (E22 : sum4 (fun m => a_B A [e;q;m;2;2;2]%nat * u [e;m;0]%nat) = agrad u e q 2 2) by ent.
    assert (E02 : sum4 (fun m => a_B A [e;q;m;0;2;2]%nat * u [e;m;0]%nat) = agrad u e q 0 2) by ent.
    assert (E20 : sum4 (fun m => a_B A [e;q;m;2;0;0]%nat * u [e;m;1]%nat) = agrad u e q 2 0) by ent.
    unfold sum4 in E20.
    revert a Ha. apply lt3; revert b Hb; apply lt3; blk; try reflexivity;
      rewrite ?E00, ?E11, ?E22, ?E02, <- ?E20; lra.
Qed.

Lemma axi_force_spec sig old e m i : (e < nelem)%nat -> (m < 4)%nat -> (i < 2)%nat ->
  Axisym_int_gradN_dot_tensor2_dV es A sig old [e;m;i] =
  Hforce nip 3 (Bq e) (fun q => a_vol A [e;q]) (fun q a b => sig [e;q;a;b]) m i.
Proof.
  intros He Hm Hi. unfold Axisym_int_gradN_dot_tensor2_dV. rewrite (a_f_nip F).
  apply (acc_es nelem es _ _ e _ Hes He).
  - intros e' He'. acc0.
  - unfold Hforce. apply acc_for. intros q Hq. apply (acc_for_once _ _ _ m _ Hm); [intros m' Hm'; acc0|].
    eapply acc_ext.
    + revert i Hi. apply (lt2 (fun i => acc [e;m;i] _ (match i with
         | 0%nat => a_vol A [e;q] * (a_B A [e;q;m;2;2;2]%nat * sig [e;q;2;2]%nat + a_B A [e;q;m;0;2;2]%nat * sig [e;q;0;2]%nat)
         | _ => a_vol A [e;q] * (a_B A [e;q;m;0;0;0]%nat * sig [e;q;0;0]%nat + a_B A [e;q;m;1;1;0]%nat * sig [e;q;1;1]%nat + a_B A [e;q;m;2;0;0]%nat * sig [e;q;2;0]%nat)
         end))).
      * apply acc_cons1; [apply acc_eq|]. acc0.
      * apply acc_cons0; [acc0|]. apply acc_cons1; [apply acc_eq|acc0].
    + rewrite sumn3, !sumn3. rewrite !Bq_at by (assumption || lia). rewrite !(a_f_B F) by (assumption || lia).
      revert i Hi. apply lt2; cbn [axc Bspec]; ring.
Qed.

Lemma axi_stiff_spec C old e m i n j : (e < nelem)%nat -> (m < 4)%nat -> (i < 2)%nat -> (n < 4)%nat -> (j < 2)%nat ->
  Axisym_int_gradN_dot_tensor4_dot_gradNT_dV es A C old [e; m * 2 + i; n * 2 + j]%nat =
  Hstiff nip 3 (Bq e) (fun q => a_vol A [e;q]) (fun q a b c d => C [e;q;a;b;c;d]) m i n j.
Proof.
  intros He Hm Hi Hn Hj. unfold Axisym_int_gradN_dot_tensor4_dot_gradNT_dV. rewrite (a_f_nip F).
  apply (acc_es nelem es _ _ e _ Hes He).
  - intros e' He'. unfold K_plus. acc0.
  - unfold Hstiff. apply acc_for. intros q Hq.
    apply (acc_for_once _ _ _ m _ Hm).
    { intros m' Hm'. unfold K_plus. acc0; apply acc_neq; intros E; injection E as E1 E2; lia. }
    apply (acc_for_once _ _ _ n _ Hn).
    { intros n' Hn'. unfold K_plus. acc0; apply acc_neq; intros E; injection E as E1; lia. }
    rewrite !sumn3. rewrite !Bq_at by (assumption || lia).
    unfold K_plus, B_at, C_at. rewrite !(a_f_B F) by (assumption || lia).
    revert i Hi. apply lt2; revert j Hj; apply lt2; cbn [axc Bspec];
    (eapply acc_ext;
     [ repeat first [ apply acc_nil
                    | apply acc_cons0; [solve [apply acc_neq; intros E; injection E; lia]|]
                    | apply acc_cons; [apply acc_eq|] ]
     | ring ]).
Qed.
End Axi.
