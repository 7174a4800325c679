From Coq Require Import List Arith Reals Lra Lia Permutation.
From Verif Require Import Sums Model_Element Spec_Element.
Import ListNotations.
Local Open Scope R_scope.

(** ** updates *)
Lemma upd_eq k v a : upd k v a k = v.
Proof. unfold upd. destruct (list_eq_dec Nat.eq_dec k k); [reflexivity | congruence]. Qed.
Lemma upd_neq k k' v a : k' <> k -> upd k v a k' = a k'.
Proof. intros H. unfold upd. destruct (list_eq_dec Nat.eq_dec k' k); [congruence | reflexivity]. Qed.
Lemma plus_neq k k' v a : k' <> k -> plus k v a k' = a k'.
Proof. apply upd_neq. Qed.

Ltac upds := repeat (rewrite upd_eq || (rewrite upd_neq by congruence)).

(** ** loops *)
Lemma forL_cons {S} i is (body : nat -> S -> S) s : forL (i :: is) body s = forL is body (body i s).
Proof. reflexivity. Qed.

Lemma forL_frame {S T} (g : S -> T) is body s :
  (forall i s, In i is -> g (body i s) = g s) -> g (forL is body s) = g s.
Proof.
  revert s. induction is as [|i is IH]; intros s H; [reflexivity|].
  rewrite forL_cons, IH.
  - apply H. left; reflexivity.
  - intros i' s' Hi. apply H. right; exact Hi.
Qed.

(** only iteration [i0] changes the view [g], and it does so by [F] *)
Lemma forL_once {S T} (g : S -> T) (F : T -> T) is body s i0 :
  NoDup is -> In i0 is ->
  (forall i s, i <> i0 -> g (body i s) = g s) ->
  (forall s, g (body i0 s) = F (g s)) ->
  g (forL is body s) = F (g s).
Proof.
  intros ND Hin Hfr HF. revert s. induction is as [|i is IH]; intros s; [contradiction|].
  rewrite forL_cons. pose proof (proj1 (NoDup_cons_iff i is) ND) as [Hni ND'].
  destruct (Nat.eq_dec i i0) as [->|Hne].
  - rewrite forL_frame.
    + apply HF.
    + intros i' s' Hi'. apply Hfr. congruence.
  - destruct Hin as [->|Hin]; [congruence|].
    rewrite IH by assumption. rewrite Hfr by exact Hne. reflexivity.
Qed.

Lemma for_once {S T} (g : S -> T) (F : T -> T) n body s i0 :
  (i0 < n)%nat ->
  (forall i s, i <> i0 -> g (body i s) = g s) ->
  (forall s, g (body i0 s) = F (g s)) ->
  g (for_ n body s) = F (g s).
Proof. intros H. apply forL_once; [apply seq_NoDup | apply in_seq; lia]. Qed.

Lemma for_frame {S T} (g : S -> T) n body s :
  (forall i s, (i < n)%nat -> g (body i s) = g s) -> g (for_ n body s) = g s.
Proof. intros H. apply forL_frame. intros i s' Hi. apply H. apply in_seq in Hi. lia. Qed.

(** ** accumulation: statement [f] adds [d] to entry [k] *)
Definition acc (k : list nat) (f : arr -> arr) (d : R) : Prop := forall a, f a k = a k + d.

Lemma acc_eq k v : acc k (plus k v) v.
Proof. intros a. unfold plus. apply upd_eq. Qed.
Lemma acc_neq k k' v : k <> k' -> acc k (plus k' v) 0.
Proof. intros H a. rewrite plus_neq by exact H. lra. Qed.

Lemma acc_forL k is body d : (forall i, In i is -> acc k (body i) (d i)) -> acc k (forL is body) (sumL is d).
Proof.
  intros H a. revert a. induction is as [|i is IH]; intros a.
  - cbn. lra.
  - rewrite forL_cons, IH.
    + rewrite H by (left; reflexivity). cbn [sumL fold_right]. unfold sumL. lra.
    + intros i' Hi. apply H. right; exact Hi.
Qed.
Lemma acc_for k n body d : (forall i, (i < n)%nat -> acc k (body i) (d i)) -> acc k (for_ n body) (sumn n d).
Proof. intros H. apply acc_forL. intros i Hi. apply H. apply in_seq in Hi. lia. Qed.
Lemma acc_for0 k n body : (forall i, (i < n)%nat -> acc k (body i) 0) -> acc k (for_ n body) 0.
Proof.
  intros H. pose proof (acc_for k n body (fun _ => 0) H) as H'.
  rewrite sumn_zero in H' by reflexivity. exact H'.
Qed.
Lemma acc_forL_once k is body i0 d : NoDup is -> In i0 is ->
  (forall i, i <> i0 -> acc k (body i) 0) -> acc k (body i0) d -> acc k (forL is body) d.
Proof.
  intros ND Hin H0 H a.
  apply (forL_once (fun a : arr => a k) (fun v => v + d) is body a i0 ND Hin).
  - intros i s Hi. rewrite (H0 i Hi). lra.
  - exact H.
Qed.
Lemma acc_for_once k n body i0 d : (i0 < n)%nat ->
  (forall i, i <> i0 -> acc k (body i) 0) -> acc k (body i0) d -> acc k (for_ n body) d.
Proof. intros H. apply acc_forL_once; [apply seq_NoDup | apply in_seq; lia]. Qed.
Lemma acc_nil k : acc k (block []) 0.
Proof. intros a. cbn. lra. Qed.
Lemma acc_cons k f l d d' : acc k f d -> acc k (block l) d' -> acc k (block (f :: l)) (d + d').
Proof. intros H H' a. unfold block in *. cbn [fold_left]. rewrite H', H. lra. Qed.
Lemma acc_cons0 k f l d : acc k f 0 -> acc k (block l) d -> acc k (block (f :: l)) d.
Proof. intros H H' a. rewrite (acc_cons k f l 0 d H H'). lra. Qed.
Lemma acc_cons1 k f l d : acc k f d -> acc k (block l) 0 -> acc k (block (f :: l)) d.
Proof. intros H H' a. rewrite (acc_cons k f l d 0 H H'). lra. Qed.
Lemma acc_ext k f d d' : acc k f d -> d = d' -> acc k f d'.
Proof. intros H <-. exact H. Qed.

Lemma schedule_NoDup nelem es : schedule nelem es -> NoDup es.
Proof. intros H. apply (Permutation_NoDup (Permutation_sym H)), seq_NoDup. Qed.
Lemma schedule_In nelem es e : schedule nelem es -> (e < nelem)%nat -> In e es.
Proof. intros H He. apply (Permutation_in _ (Permutation_sym H)), in_seq. lia. Qed.

Lemma acc_es nelem es k body e d : schedule nelem es -> (e < nelem)%nat ->
  (forall i, i <> e -> acc k (body i) 0) -> acc k (body e) d -> forall old, forL es body (fill 0 old) k = d.
Proof.
  intros Hs He H0 H old.
  rewrite (acc_forL_once k es body e d (schedule_NoDup _ _ Hs) (schedule_In _ _ _ Hs He) H0 H).
  unfold fill. lra.
Qed.

(** nothing is added to the entry *)
Ltac acc0 := repeat first
  [ apply acc_for0; intros ? ? | apply acc_nil | apply acc_cons0 | apply acc_neq; congruence ].

Lemma sumn4 f : sumn 4 f = f 0%nat + f 1%nat + f 2%nat + f 3%nat.
Proof. unfold sumn. cbn [seq sumL fold_right]. ring. Qed.
Lemma sumn2 f : sumn 2 f = f 0%nat + f 1%nat.
Proof. unfold sumn. cbn [seq sumL fold_right]. ring. Qed.
Lemma sumn3 f : sumn 3 f = f 0%nat + f 1%nat + f 2%nat.
Proof. unfold sumn. cbn [seq sumL fold_right]. ring. Qed.
Lemma sumn1 f : sumn 1 f = f 0%nat.
Proof. unfold sumn. cbn [seq sumL fold_right]. ring. Qed.
Lemma sumn8 f : sumn 8 f = f 0%nat + f 1%nat + f 2%nat + f 3%nat + f 4%nat + f 5%nat + f 6%nat + f 7%nat.
Proof. unfold sumn. cbn [seq sumL fold_right]. ring. Qed.

(** position [m * d + i] of a flattened (node, direction) index *)
Lemma flat_inj d m i m' i' : (i < d)%nat -> (i' < d)%nat ->
  (m * d + i = m' * d + i')%nat -> m = m' /\ i = i'.
Proof.
  intros Hi Hi' E.
  assert (m = (m * d + i) / d)%nat by (rewrite Nat.div_add_l, Nat.div_small; lia).
  assert (m' = (m' * d + i') / d)%nat by (rewrite Nat.div_add_l, Nat.div_small; lia).
  assert (m = m') by congruence. subst m'. split; [reflexivity | lia].
Qed.

(** ** the generic loops of the base class *)
Section Base.
Variables (nelem : nat) (es : list nat).
Hypothesis Hes : schedule nelem es.
Variables (nip nne : nat).
Set Default Proof Using "All".

Lemma base_interp_spec n N u old e q i : (e < nelem)%nat -> (q < nip)%nat -> (i < n)%nat ->
  base_interpQuad_vector es nip nne n N u old [e;q;i] = sumn nne (fun m => N [q;m] * u [e;m;i]).
Proof.
  intros He Hq Hi. apply (acc_es nelem es _ _ e _ Hes He).
  - intros e' Hn. acc0.
  - apply (acc_for_once _ _ _ q _ Hq); [intros q' Hn; acc0|].
    apply acc_for. intros m Hm. apply (acc_for_once _ _ _ i _ Hi); [intros i' Hn; acc0|]. apply acc_eq.
Qed.

Lemma base_int_N_vector_spec n N vol t old e m i : (e < nelem)%nat -> (m < nne)%nat -> (i < n)%nat ->
  base_int_N_vector_dV es nip nne n N vol t old [e;m;i] = sumn nip (fun q => N [q;m] * t [e;q;i] * vol [e;q]).
Proof.
  intros He Hm Hi. apply (acc_es nelem es _ _ e _ Hes He).
  - intros e' Hn. acc0.
  - apply acc_for. intros q Hq. apply (acc_for_once _ _ _ m _ Hm); [intros m' Hn; acc0|].
    apply (acc_for_once _ _ _ i _ Hi); [intros i' Hn; acc0|]. apply acc_eq.
Qed.

Lemma base_gradN_spec nd dNx u old e q i j : (e < nelem)%nat -> (q < nip)%nat -> (i < nd)%nat -> (j < nd)%nat ->
  base_gradN_vector es nip nne nd dNx u old [e;q;i;j] = sumn nne (fun m => dNx [e;q;m;i] * u [e;m;j]).
Proof.
  intros He Hq Hi Hj. apply (acc_es nelem es _ _ e _ Hes He).
  - intros e' Hn. acc0.
  - apply (acc_for_once _ _ _ q _ Hq); [intros q' Hn; acc0|].
    apply acc_for. intros m Hm. apply (acc_for_once _ _ _ i _ Hi); [intros i' Hn; acc0|].
    apply (acc_for_once _ _ _ j _ Hj); [intros j' Hn; acc0|]. apply acc_eq.
Qed.

Lemma base_gradN_T_spec nd dNx u old e q i j : (e < nelem)%nat -> (q < nip)%nat -> (i < nd)%nat -> (j < nd)%nat ->
  base_gradN_vector_T es nip nne nd dNx u old [e;q;j;i] = sumn nne (fun m => dNx [e;q;m;i] * u [e;m;j]).
Proof.
  intros He Hq Hi Hj. apply (acc_es nelem es _ _ e _ Hes He).
  - intros e' Hn. acc0.
  - apply (acc_for_once _ _ _ q _ Hq); [intros q' Hn; acc0|].
    apply acc_for. intros m Hm. apply (acc_for_once _ _ _ i _ Hi); [intros i' Hn; acc0|].
    apply (acc_for_once _ _ _ j _ Hj); [intros j' Hn; acc0|]. apply acc_eq.
Qed.

Lemma base_sym_spec nd dNx u old e q i j : (e < nelem)%nat -> (q < nip)%nat -> (i < nd)%nat -> (j < nd)%nat ->
  base_symGradN_vector es nip nne nd dNx u old [e;q;i;j] =
  (sumn nne (fun m => dNx [e;q;m;i] * u [e;m;j]) + sumn nne (fun m => dNx [e;q;m;j] * u [e;m;i])) / 2.
Proof.
  intros He Hq Hi Hj.
  transitivity (sumn nne (fun m => 0.5 * dNx [e;q;m;i] * u [e;m;j] + 0.5 * dNx [e;q;m;j] * u [e;m;i])).
  - apply (acc_es nelem es _ _ e _ Hes He).
    + intros e' Hn. acc0.
    + apply (acc_for_once _ _ _ q _ Hq); [intros q' Hn; acc0|].
      apply acc_for. intros m Hm. intros a.
      (* the two statements are separate loops: split them *)
      assert (H : acc [e;q;i;j] (for_ nd (fun i' => for_ nd (fun j' =>
          block [ plus [e;q;i';j'] (0.5 * dNx [e;q;m;i'] * u [e;m;j']);
                  plus [e;q;j';i'] (0.5 * dNx [e;q;m;i'] * u [e;m;j']) ])))
        (sumn nd (fun i' => sumn nd (fun j' =>
           ind (i' =? i)%nat * (ind (j' =? j)%nat * (0.5 * dNx [e;q;m;i'] * u [e;m;j']))
           + (ind (j' =? i)%nat * (ind (i' =? j)%nat * (0.5 * dNx [e;q;m;i'] * u [e;m;j'])) + 0))))).
      { apply acc_for. intros i' _. apply acc_for. intros j' _.
        apply acc_cons; [|apply acc_cons; [|apply acc_nil]].
        - unfold ind. destruct (Nat.eqb_spec i' i) as [->|Hn]; [destruct (Nat.eqb_spec j' j) as [->|Hn]|].
          + eapply acc_ext; [apply acc_eq | lra].
          + eapply acc_ext; [apply acc_neq; congruence | lra].
          + eapply acc_ext; [apply acc_neq; congruence | lra].
        - unfold ind. destruct (Nat.eqb_spec j' i) as [->|Hn]; [destruct (Nat.eqb_spec i' j) as [->|Hn]|].
          + eapply acc_ext; [apply acc_eq | lra].
          + eapply acc_ext; [apply acc_neq; congruence | lra].
          + eapply acc_ext; [apply acc_neq; congruence | lra]. }
      rewrite H. f_equal.
      rewrite (sumn_ext nd _ (fun i' => ind (i' =? i)%nat * (0.5 * dNx [e;q;m;i'] * u [e;m;j])
                                     + ind (i' =? j)%nat * (0.5 * dNx [e;q;m;i'] * u [e;m;i]))).
      * rewrite sumn_plus. rewrite (sumn_delta nd i (fun i' => 0.5 * dNx [e;q;m;i'] * u [e;m;j]) Hi).
        rewrite (sumn_delta nd j (fun i' => 0.5 * dNx [e;q;m;i'] * u [e;m;i]) Hj). reflexivity.
      * intros i' _. rewrite sumn_plus. f_equal.
        -- rewrite sumn_scal. f_equal. apply (sumn_delta nd j (fun j' => 0.5 * dNx [e;q;m;i'] * u [e;m;j']) Hj).
        -- rewrite (sumn_ext nd _ (fun j' => ind (j' =? i)%nat * (ind (i' =? j)%nat * (0.5 * dNx [e;q;m;i'] * u [e;m;j']))))
             by (intros; ring).
           apply (sumn_delta nd i (fun j' => ind (i' =? j)%nat * (0.5 * dNx [e;q;m;i'] * u [e;m;j'])) Hi).
  - rewrite sumn_plus. rewrite (sumn_ext nne _ (fun m => 0.5 * (dNx [e;q;m;i] * u [e;m;j]))) by (intros; ring).
    rewrite (sumn_ext nne (fun m => 0.5 * dNx [e;q;m;j] * u [e;m;i]) (fun m => 0.5 * (dNx [e;q;m;j] * u [e;m;i]))) by (intros; ring).
    rewrite !sumn_scal. lra.
Qed.

Lemma base_tensor4_spec nd dNx vol C old e m j n k :
  (e < nelem)%nat -> (m < nne)%nat -> (n < nne)%nat -> (j < nd)%nat -> (k < nd)%nat ->
  base_int_gradN_dot_tensor4_dot_gradNT_dV es nip nne nd dNx vol C old [e; m * nd + j; n * nd + k]%nat =
  sumn nip (fun q => sumn nd (fun i => sumn nd (fun l =>
    dNx [e;q;m;i] * C [e;q;i;j;k;l] * dNx [e;q;n;l] * vol [e;q]))).
Proof.
  intros He Hm Hn Hj Hk. apply (acc_es nelem es _ _ e _ Hes He).
  - intros e' He'. acc0.
  - apply acc_for. intros q Hq.
    apply (acc_for_once _ _ _ m _ Hm).
    { intros m' Hm'. acc0. apply acc_neq. intros E. injection E as E1 E2.
      apply flat_inj in E1; [|assumption|assumption]. lia. }
    apply (acc_for_once _ _ _ n _ Hn).
    { intros n' Hn'. acc0. apply acc_neq. intros E. injection E as E1 E2.
      apply flat_inj in E2; [|assumption|assumption]. lia. }
    apply acc_for. intros i Hi.
    apply (acc_for_once _ _ _ j _ Hj).
    { intros j' Hj'. acc0. apply acc_neq. intros E. injection E as E1 E2. lia. }
    apply (acc_for_once _ _ _ k _ Hk).
    { intros k' Hk'. acc0. apply acc_neq. intros E. injection E as E1. lia. }
    apply acc_for. intros l Hl. apply acc_eq.
Qed.

End Base.
