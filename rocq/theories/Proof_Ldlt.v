From Coq Require Import Reals List Lra Lia.
From Verif Require Import Base Sums Spec Spec_Vector Spec_Matrix Spec_MatrixOps Spec_MatrixTyings Model_Sparse Spec_Spd Model_Ldlt.
Import ListNotations.
Local Open Scope R_scope.

Lemma sumn_first n f : sumn (S n) f = f O + sumn n (fun i => f (S i)).
Proof. change (S n) with (1 + n)%nat. rewrite sumn_app. unfold sumn at 1. cbn. ring. Qed.

Lemma spd_pivot n A : spd (S n) A -> 0 < A O O.
Proof.
  intros [_ H]. specialize (H (fun i => ind (i =? 0)%nat) (ex_intro _ O (conj (Nat.lt_0_succ n) R1_neq_R0))).
  unfold quad_form in H. rewrite sumn_delta in H by apply Nat.lt_0_succ. unfold mv in H.
  rewrite (sumn_ext (S n) _ (fun j => ind (j =? 0)%nat * A O j)) in H by (intros; ring). now rewrite sumn_delta in H by apply Nat.lt_0_succ.
Qed.

Lemma spd_schur n A : spd (S n) A -> spd n (fun i j => A (S i) (S j) - A (S i) O * A O (S j) / A O O).
Proof.
  intros HA. pose proof (spd_pivot n A HA) as Hd. destruct HA as [HS HP]. split.
  - intros i j Hi Hj. rewrite (HS (S i) (S j)), (HS (S i) O), (HS O (S j)) by lia. unfold Rdiv. ring.
  - intros x [k [Hk Hx]]. set (d := A O O) in *. set (s := sumn n (fun j => A O (S j) * x j)).
    set (y := fun i => match i with O => - s / d | S i => x i end).
    assert (HY : 0 < quad_form (S n) A y). { apply HP. exists (S k). split; [lia|exact Hx]. }
    replace (quad_form n (fun i j => A (S i) (S j) - A (S i) O * A O (S j) / d) x) with (quad_form (S n) A y); [exact HY|].
    unfold quad_form. rewrite sumn_first. cbn [y].
    assert (M0 : mv (S n) A y O = 0). { unfold mv. rewrite sumn_first. cbn [y]. fold d s. field. lra. }
    rewrite M0, Rmult_0_r, Rplus_0_l. apply sumn_ext. intros i Hi. f_equal. unfold mv. rewrite sumn_first. cbn [y].
    transitivity (sumn n (fun j => A (S i) (S j) * x j) + - (A (S i) O / d) * s); [field; lra|]. unfold s. rewrite <- sumn_scal, <- sumn_plus. apply sumn_ext. intros j Hj. unfold Rdiv. ring.
Qed.

Lemma ldlt_length n : forall A b, length (ldlt_rec n A b) = n.
Proof. induction n as [|n IH]; intros A b; [reflexivity|]. cbn [ldlt_rec length]. now rewrite IH. Qed.

Lemma ldlt_rec_solves n : forall A b, spd n A -> forall i, (i < n)%nat -> mv n A (val1 (ldlt_rec n A b)) i = b i.
Proof.
  induction n as [|n IH]; intros A b HA i Hi; [lia|]. pose proof (spd_pivot n A HA) as Hd. pose proof (spd_schur n A HA) as HS.
  cbn [ldlt_rec]. set (d := A O O) in *. set (x := ldlt_rec n _ _). assert (Hx : forall i, (i < n)%nat -> mv n (fun i j => A (S i) (S j) - A (S i) O * A O (S j) / d) (val1 x) i = b (S i) - A (S i) O * b O / d).
  { intros k Hk. exact (IH _ _ HS k Hk). }
  set (x0 := _ / d). unfold mv. rewrite sumn_first. unfold val1 at 1. cbn [nth].
  change (A i 0%nat * x0 + sumn n (fun j => A i (S j) * val1 x j) = b i). destruct i as [|i].
  - unfold x0. fold d. field. lra.
  - assert (Li : (i < n)%nat) by lia. specialize (Hx i Li). unfold mv in Hx.
    rewrite (sumn_ext n _ (fun j => A (S i) (S j) * val1 x j + - (A (S i) O / d) * (A O (S j) * val1 x j))) in Hx by (intros; unfold Rdiv; ring).
    rewrite sumn_plus, sumn_scal in Hx. unfold x0. set (s := sumn n (fun j => A O (S j) * val1 x j)) in *.
    transitivity (A (S i) O * b O / d + (sumn n (fun j => A (S i) (S j) * val1 x j) + - (A (S i) O / d) * s)); [field; lra|]. rewrite Hx. unfold Rdiv. ring.
Qed.

Lemma quad_ext n M N x y : (forall i j, (i < n)%nat -> (j < n)%nat -> M i j = N i j) -> (forall i, (i < n)%nat -> x i = y i) -> quad_form n M x = quad_form n N y.
Proof.
  intros H Hx. unfold quad_form, mv. apply sumn_ext. intros i Hi. rewrite Hx by exact Hi. f_equal. apply sumn_ext. intros j Hj. rewrite Hx by exact Hj. now rewrite H.
Qed.
Lemma spd_ext n M N : (forall i j, (i < n)%nat -> (j < n)%nat -> M i j = N i j) -> spd n M -> spd n N.
Proof.
  intros H [HS HP]. split.
  - intros i j Hi Hj. rewrite <- !H by assumption. now apply HS.
  - intros x Hx. rewrite <- (quad_ext n M N x x) by auto. now apply HP.
Qed.

Lemma ldlt_solves a : rows a = cols a -> spd (cols a) (ent a) -> solves ldlt a.
Proof.
  intros Hr Ha b Lb. unfold ldlt. rewrite <- Hr in *. split; [apply ldlt_length|]. intros i Hi. now apply ldlt_rec_solves.
Qed.

(** restriction to some of the indices, and congruence *)
Lemma spd_congruence n m A (T : nat -> nat -> R) : (forall i j, (i < n)%nat -> (j < n)%nat -> A i j = A j i) ->
  (forall x, (exists k, (k < m)%nat /\ x k <> 0) -> 0 < quad_form n A (fun a => sumn m (fun k => T a k * x k))) -> spd m (condensed n T A).
Proof.
  intros HS HP. split.
  - intros i j Hi Hj. unfold condensed. rewrite sumn_swap. apply sumn_ext. intros b Hb. apply sumn_ext. intros a Ha. rewrite (HS a b) by assumption. ring.
  - intros x Hx. specialize (HP x Hx). replace (quad_form m (condensed n T A) x) with (quad_form n A (fun a => sumn m (fun k => T a k * x k))); [exact HP|].
    unfold quad_form, mv, condensed.
    transitivity (sumn n (fun a => sumn m (fun k => sumn n (fun b => sumn m (fun l => T a k * x k * (A a b * (T b l * x l))))))).
    + apply sumn_ext. intros a Ha. rewrite <- sumn_scal_r. apply sumn_ext. intros k Hk. rewrite <- sumn_scal. apply sumn_ext. intros b Hb. rewrite <- !sumn_scal. apply sumn_ext. intros l Hl. ring.
    + rewrite sumn_swap. apply sumn_ext. intros k Hk. transitivity (sumn n (fun a => sumn m (fun l => sumn n (fun b => T a k * x k * (A a b * (T b l * x l)))))).
      { apply sumn_ext. intros a Ha. apply sumn_swap. }
      rewrite sumn_swap. rewrite <- sumn_scal. apply sumn_ext. intros l Hl. rewrite <- sumn_scal_r, <- sumn_scal. apply sumn_ext. intros a Ha.
      rewrite <- sumn_scal_r, <- sumn_scal. apply sumn_ext. intros b Hb. ring.
Qed.

Lemma spd_solver_matrix linsolve n M : spd_solver linsolve -> spd n M -> solves_matrix linsolve n M.
Proof.
  intros HL HM a Hr Hc He b Lb.
  assert (Ha : spd (cols a) (ent a)) by (rewrite Hc; apply (spd_ext n M); [|exact HM]; intros; symmetry; now apply He).
  destruct (HL a ltac:(congruence) Ha b ltac:(congruence)) as [L V]. rewrite Hc, Hr in *. split; [exact L|]. intros i Hi. rewrite <- V by exact Hi.
  unfold mv. apply sumn_ext. intros j Hj. now rewrite He.
Qed.
