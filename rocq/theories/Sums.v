(** Finite sums of reals. *)
From Coq Require Import Reals Lra List Arith Lia Permutation.
Import ListNotations.
Local Open Scope R_scope.

(** sum of [f a] over the members of a list *)
Definition sumL {A} (l : list A) (f : A -> R) : R := fold_right (fun a s => f a + s) 0 l.

(** sum of [f i] over i = 0, ..., n - 1 *)
Definition sumn (n : nat) (f : nat -> R) : R := sumL (seq 0 n) f.

(** 1 if the condition holds *)
Definition ind (b : bool) : R := if b then 1 else 0.

Section L.
Context {A B : Type}.
Implicit Types (l : list A) (f g : A -> R).

Lemma sumL_ext l f g : (forall a, In a l -> f a = g a) -> sumL l f = sumL l g.
Proof.
  induction l as [|a l IH]; intro H; simpl; [reflexivity|].
  rewrite H by now left. rewrite IH; [reflexivity|]. intros; apply H; now right.
Qed.

Lemma sumL_app l l' f : sumL (l ++ l') f = sumL l f + sumL l' f.
Proof. induction l as [|a l IH]; simpl; [lra|]. rewrite IH. lra. Qed.

Lemma sumL_plus l f g : sumL l (fun a => f a + g a) = sumL l f + sumL l g.
Proof. induction l as [|a l IH]; simpl; [lra|]. rewrite IH. lra. Qed.

Lemma sumL_minus l f g : sumL l (fun a => f a - g a) = sumL l f - sumL l g.
Proof. induction l as [|a l IH]; simpl; [lra|]. rewrite IH. lra. Qed.

Lemma sumL_scal l c f : sumL l (fun a => c * f a) = c * sumL l f.
Proof. induction l as [|a l IH]; simpl; [lra|]. rewrite IH. lra. Qed.

Lemma sumL_scal_r l c f : sumL l (fun a => f a * c) = sumL l f * c.
Proof. induction l as [|a l IH]; simpl; [lra|]. rewrite IH. lra. Qed.

Lemma sumL_zero l f : (forall a, In a l -> f a = 0) -> sumL l f = 0.
Proof.
  induction l as [|a l IH]; intro H; simpl; [reflexivity|].
  rewrite H by now left. rewrite IH; [lra|]. intros; apply H; now right.
Qed.

Lemma sumL_const l c : sumL l (fun _ => c) = INR (length l) * c.
Proof. induction l as [|a l IH]; [simpl; lra|]. simpl length. rewrite S_INR. simpl sumL. rewrite IH. lra. Qed.

Lemma sumL_perm l l' f : Permutation l l' -> sumL l f = sumL l' f.
Proof. induction 1; simpl; lra. Qed.

Lemma sumL_nonneg l f : (forall a, In a l -> 0 <= f a) -> 0 <= sumL l f.
Proof.
  induction l as [|a l IH]; intro H; simpl; [lra|].
  assert (0 <= f a) by (apply H; now left). assert (0 <= sumL l f) by (apply IH; intros; apply H; now right). lra.
Qed.

Lemma sumL_le l f g : (forall a, In a l -> f a <= g a) -> sumL l f <= sumL l g.
Proof.
  induction l as [|a l IH]; intro H; simpl; [lra|].
  assert (f a <= g a) by (apply H; now left). assert (sumL l f <= sumL l g) by (apply IH; intros; apply H; now right). lra.
Qed.

Lemma sumL_map (h : B -> A) (l : list B) f : sumL (map h l) f = sumL l (fun b => f (h b)).
Proof. induction l as [|b l IH]; simpl; [reflexivity|]. now rewrite IH. Qed.

Lemma sumL_flat_map (h : B -> list A) (l : list B) f :
  sumL (flat_map h l) f = sumL l (fun b => sumL (h b) f).
Proof. induction l as [|b l IH]; simpl; [reflexivity|]. now rewrite sumL_app, IH. Qed.

Lemma sumL_filter l (p : A -> bool) f : sumL (filter p l) f = sumL l (fun a => ind (p a) * f a).
Proof. induction l as [|a l IH]; simpl; [reflexivity|]. destruct (p a); simpl; rewrite IH; unfold ind; lra. Qed.
End L.

Lemma sumL_swap {A B} (l : list A) (l' : list B) (f : A -> B -> R) :
  sumL l (fun a => sumL l' (f a)) = sumL l' (fun b => sumL l (fun a => f a b)).
Proof.
  induction l as [|a l IH]; simpl.
  - induction l' as [|b l' IH']; simpl; [reflexivity|]. lra.
  - rewrite IH, <- sumL_plus. reflexivity.
Qed.


(** a single non-zero term *)
Lemma sumL_delta (l : list nat) k f : NoDup l -> In k l ->
  sumL l (fun i => ind (i =? k)%nat * f i) = f k.
Proof.
  induction l as [|a l IH]; intros Hn Hin; [inversion Hin|]. inversion Hn; subst. simpl.
  destruct (Nat.eqb_spec a k) as [->|Hne].
  - rewrite sumL_zero; [unfold ind; lra|]. intros x Hx. destruct (Nat.eqb_spec x k); [subst; contradiction|unfold ind; lra].
  - destruct Hin as [E|Hin]; [contradiction|]. rewrite IH by assumption. unfold ind. lra.
Qed.

Lemma sumn_ext n f g : (forall i, (i < n)%nat -> f i = g i) -> sumn n f = sumn n g.
Proof. intro H. apply sumL_ext. intros i Hi. apply in_seq in Hi. apply H. lia. Qed.

Lemma sumn_zero n f : (forall i, (i < n)%nat -> f i = 0) -> sumn n f = 0.
Proof. intro H. apply sumL_zero. intros i Hi. apply in_seq in Hi. apply H. lia. Qed.

Lemma sumn_delta n k f : (k < n)%nat -> sumn n (fun i => ind (i =? k)%nat * f i) = f k.
Proof. intro H. apply sumL_delta; [apply seq_NoDup|apply in_seq; lia]. Qed.

Lemma sumn_delta' n k f : (k < n)%nat -> sumn n (fun i => ind (k =? i)%nat * f i) = f k.
Proof.
  intro H. rewrite <- (sumn_delta n k f H). apply sumn_ext. intros i _. now rewrite Nat.eqb_sym.
Qed.

Lemma sumn_plus n f g : sumn n (fun i => f i + g i) = sumn n f + sumn n g.
Proof. apply sumL_plus. Qed.
Lemma sumn_scal n c f : sumn n (fun i => c * f i) = c * sumn n f.
Proof. apply sumL_scal. Qed.
Lemma sumn_scal_r n c f : sumn n (fun i => f i * c) = sumn n f * c.
Proof. apply sumL_scal_r. Qed.
Lemma sumn_swap n m (f : nat -> nat -> R) : sumn n (fun i => sumn m (f i)) = sumn m (fun j => sumn n (fun i => f i j)).
Proof. apply sumL_swap. Qed.

Lemma sumn_S n f : sumn (S n) f = sumn n f + f n.
Proof. unfold sumn. rewrite seq_S, sumL_app. simpl. lra. Qed.

Lemma sumn_app n m f : sumn (n + m) f = sumn n f + sumn m (fun i => f (n + i)%nat).
Proof.
  unfold sumn. rewrite seq_app, sumL_app. f_equal. simpl.
  replace (seq n m) with (map (fun i => (n + i)%nat) (seq 0 m)); [apply sumL_map|].
  apply (nth_ext _ _ 0%nat 0%nat); [now rewrite map_length, !seq_length|]. intros i Hi.
  rewrite map_length, seq_length in Hi. rewrite (nth_indep _ 0%nat (n + 0)%nat) by (rewrite map_length, seq_length; lia).
  rewrite (map_nth (fun i => (n + i)%nat)), !seq_nth; lia.
Qed.

(** sum over a list by position *)
Lemma sumL_nth {A} (l : list A) (d : A) f : sumL l f = sumn (length l) (fun i => f (nth i l d)).
Proof.
  induction l as [|a l IH] using rev_ind; [reflexivity|].
  rewrite sumL_app, app_length. simpl length. rewrite Nat.add_1_r, sumn_S. rewrite IH. f_equal.
  - apply sumn_ext. intros i Hi. now rewrite app_nth1.
  - simpl. rewrite app_nth2 by lia. rewrite Nat.sub_diag. simpl. lra.
Qed.

(** group a sum by a key *)
Lemma sumL_group {A} (l : list A) (key : A -> nat) n f (g : nat -> R) :
  (forall a, In a l -> (key a < n)%nat) ->
  sumn n (fun d => g d * sumL l (fun a => ind (key a =? d)%nat * f a)) = sumL l (fun a => g (key a) * f a).
Proof.
  intro H. unfold sumn.
  rewrite (sumL_ext _ _ (fun d => sumL l (fun a => g d * (ind (key a =? d)%nat * f a)))) by (intros; now rewrite sumL_scal).
  rewrite sumL_swap. apply sumL_ext. intros a Ha.
  rewrite (sumL_ext _ _ (fun d => ind (key a =? d)%nat * (g d * f a))) by (intros; ring).
  fold (sumn n (fun d => ind (key a =? d)%nat * (g d * f a))). now rewrite sumn_delta' by auto.
Qed.

(** reindexing by a bijection given as a list without duplicates *)
Lemma sumn_reindex n (l : list nat) f : Permutation l (seq 0 n) -> sumL l f = sumn n f.
Proof. intro H. unfold sumn. now apply sumL_perm. Qed.
