(** A conforming mesh with one outline is connected: from every element one can go to every other element across sides. *)
From Coq Require Import Reals Lra Lia List Arith Permutation Bool.
From Verif Require Import Base Spec Sums Spec_Conform Proof_Conform Proof_ConformMesh.
Import ListNotations.
Local Open Scope R_scope.

Definition step_dec (s t : nat * nat) : {s = t} + {s <> t}.
Proof. decide equality; apply Nat.eq_dec. Defined.
Definition mem (s : nat * nat) (l : list (nat * nat)) : bool := if in_dec step_dec s l then true else false.
Lemma mem_in s l : mem s l = true <-> In s l.
Proof. unfold mem. destruct (in_dec step_dec s l); split; auto; discriminate. Qed.

(** a polygon is closed *)
Lemma along_path (phi : nat -> R) l a z : along (fun p q => phi q - phi p) (combine (a :: l) (l ++ [z])) = phi z - phi a.
Proof.
  revert a. induction l as [|b l IH]; intros a; [unfold along; cbn; ring|]. specialize (IH b). unfold along in *. cbn [app combine sumL fold_right fst snd] in *.
  change (fold_right (fun a0 acc => phi (snd a0) - phi (fst a0) + acc) 0 (combine (b :: l) (l ++ [z]))) with (sumL (combine (b :: l) (l ++ [z])) (fun s => phi (snd s) - phi (fst s))). 
  unfold sumL in *. rewrite IH. ring.
Qed.
Lemma along_closed phi e : along (fun p q => phi q - phi p) (sides e) = 0.
Proof. destruct e as [|a e]; [reflexivity|]. unfold sides. cbn [tl hd]. rewrite along_path. ring. Qed.

Lemma pick (v : nat * nat -> R) (h : nat * nat -> nat) l t n : NoDup l -> In t l -> h t = n -> (forall a b, In a l -> In b l -> h a = h b -> a = b) -> sumL l (fun a => v a * ind (h a =? n)%nat) = v t.
Proof.
  intros ND Ht <- Hinj. revert ND Ht Hinj. induction l as [|a l IH]; intros ND Ht Hinj; [contradiction|].
  inversion ND as [|? ? N1 N2]. subst. change (sumL (a :: l) (fun a => v a * ind (h a =? h t)%nat)) with (v a * ind (h a =? h t)%nat + sumL l (fun a => v a * ind (h a =? h t)%nat)). destruct Ht as [->|Ht].
  - rewrite Nat.eqb_refl. cbn [ind]. rewrite sumL_zero; [ring|]. intros b Hb. destruct (Nat.eqb_spec (h b) (h t)) as [E|]; [|cbn; ring].
    exfalso. apply N1. assert (b = t) by (apply Hinj; auto; [now right|now left]). now subst.
  - rewrite IH by (auto; intros x y Hx Hy; apply Hinj; now right). destruct (Nat.eqb_spec (h a) (h t)) as [E|]; [|cbn [ind]; ring]. exfalso. apply N1. assert (a = t) by (apply Hinj; auto; [now left|now right]). now subst.
Qed.

Section C.
Variables (conn : list (list nat)) (bot rgt top lft : list nat) (g : nat -> nat -> R).
Notation O := (outline bot rgt top lft).
Notation row e := (nth e conn []).
Notation ne := (length conn).
Hypothesis HC : conforming_mesh conn bot rgt top lft.
Hypothesis Hg : odd g.
Hypothesis HA : forall e, In e conn -> 0 < along g (sides e).
Hypothesis U1 : forall s s', In s O -> In s' O -> fst s = fst s' -> s = s'.
Hypothesis U2 : forall s s', In s O -> In s' O -> snd s = snd s' -> s = s'.
Hypothesis Ch : forall w : nat * nat -> R, (forall s s', In s O -> In s' O -> snd s = fst s' -> w s = w s') -> forall s s', In s O -> In s' O -> w s = w s'.

Section P.
Variable c : nat -> bool.
Hypothesis Hc : forall e f s, (e < ne)%nat -> (f < ne)%nat -> In s (sides (row e)) -> In (back s) (sides (row f)) -> c e = c f.

Definition weight (p q : nat) : R := ind (existsb (fun e => c e && (mem (p, q) (sides (row e)) || mem (q, p) (sides (row e))))%bool (seq 0 ne)).
Lemma weight_sym p q : weight q p = weight p q.
Proof. unfold weight. f_equal. apply existsb_ext || idtac. induction (seq 0 ne) as [|e l IH]; [reflexivity|]. cbn [existsb]. rewrite IH. f_equal. f_equal. apply orb_comm. Qed.
Lemma weight_elem e s : (e < ne)%nat -> In s (sides (row e)) -> weight (fst s) (snd s) = ind (c e).
Proof.
  intros He Hs. unfold weight. f_equal. destruct s as [p q]. cbn [fst snd]. destruct (c e) eqn:Ec.
  - apply existsb_exists. exists e. split; [apply in_seq; lia|]. rewrite Ec. cbn. apply orb_true_iff. left. now apply mem_in.
  - apply not_true_iff_false. intros H. apply existsb_exists in H. destruct H as (f & Hf & H). apply in_seq in Hf. apply andb_true_iff in H. destruct H as [Ef H]. apply orb_true_iff in H. destruct H as [H|H]; apply mem_in in H.
    + assert (e = f); [|congruence]. assert (I : forall k, (k < ne)%nat -> In (row k) conn) by (intros; now apply nth_In).
      pose proof (cf_once _ _ _ _ _ HC) as ND. destruct (Nat.eq_dec e f) as [|N]; [assumption|exfalso].
      assert (G : forall l a b i j, NoDup (flat_map sides l) -> nth_error l i = Some a -> nth_error l j = Some b -> In (p, q) (sides a) -> In (p, q) (sides b) -> i <> j -> False).
      { clear. induction l as [|x l IH]; intros a b i j ND Ei Ej Ha Hb N; [now destruct i|]. cbn [flat_map] in ND.
        assert (A : forall (x y : list (nat * nat)) z, NoDup (x ++ y) -> In z x -> In z y -> False).
        { clear. induction x as [|t x IH]; intros y z ND Hx Hy; [contradiction|]. cbn in ND. inversion ND as [|? ? N1 N2]. subst. destruct Hx as [->|Hx]; [apply N1, in_or_app; now right|now apply (IH y z)]. }
        destruct i as [|i], j as [|j]; cbn in Ei, Ej; try (now apply N).
        - injection Ei as ->. apply (A _ _ (p, q) ND Ha). apply in_flat_map. exists b. split; [now apply nth_error_In in Ej|exact Hb].
        - injection Ej as ->. apply (A _ _ (p, q) ND Hb). apply in_flat_map. exists a. split; [now apply nth_error_In in Ei|exact Ha].
        - apply (IH a b i j); auto. clear - ND. induction (sides x) as [|y t IHt]; [exact ND|]. inversion ND. auto. }
      apply (G conn (row e) (row f) e f ND); auto; apply nth_error_nth'; lia.
    + rewrite (Hc e f (p, q) He ltac:(lia) Hs H) in Ec. congruence.
Qed.

Lemma weighted_sum f : odd f -> sumn ne (fun e => ind (c e) * along f (sides (row e))) = along (fun p q => weight p q * f p q) O.
Proof.
  intros Hf. rewrite <- (conforming_sum conn bot rgt top lft (fun p q => weight p q * f p q) HC).
  2:{ intros p q. rewrite (Hf p q), weight_sym. ring. }
  rewrite along_flat, (sumL_nth conn []). apply sumn_ext. intros e He. unfold along. rewrite <- sumL_scal. apply sumL_ext. intros s Hs. now rewrite (weight_elem e s He Hs).
Qed.

Lemma weight_outline s s' : In s O -> In s' O -> weight (fst s) (snd s) = weight (fst s') (snd s').
Proof.
  apply (Ch (fun s => weight (fst s) (snd s))). clear s s'. intros s s' Hs Hs' E. set (n := snd s).
  set (phi := fun p => ind (p =? n)%nat).
  pose proof (weighted_sum (fun p q => phi q - phi p) ltac:(intros p q; ring)) as W. rewrite sumn_zero in W by (intros; rewrite along_closed; ring).
  assert (D : forall t (h : nat * nat -> nat), In t O -> h t = n -> (forall a b, In a O -> In b O -> h a = h b -> a = b) -> sumL O (fun a => weight (fst a) (snd a) * ind (h a =? n)%nat) = weight (fst t) (snd t)).
  { intros t h Ht En Hinj. apply (pick (fun a => weight (fst a) (snd a)) h O t n); auto. exact (cf_outline_once _ _ _ _ _ HC). }
  unfold along in W. rewrite (sumL_ext O (fun a => weight (fst a) (snd a) * (phi (snd a) - phi (fst a))) (fun a => weight (fst a) (snd a) * ind (snd a =? n)%nat - weight (fst a) (snd a) * ind (fst a =? n)%nat)) in W by (intros; unfold phi; ring).
  rewrite sumL_minus in W. rewrite (D s snd Hs eq_refl U2), (D s' fst Hs' (eq_sym E) U1) in W. cbv beta. unfold n in *. lra.
Qed.

Lemma connected e f : (e < ne)%nat -> (f < ne)%nat -> c e = true -> c f = true.
Proof.
  intros He Hf Ee. destruct (c f) eqn:Ef; [reflexivity|exfalso].
  assert (Pos : forall k, (k < ne)%nat -> 0 < along g (sides (row k))) by (intros; now apply HA, nth_In).
  assert (S1 : 0 < sumn ne (fun e => ind (c e) * along g (sides (row e)))).
  { apply Rlt_le_trans with (along g (sides (row e))); [now apply Pos|]. rewrite <- (sumn_delta ne e (fun k => along g (sides (row k)))) by assumption. apply sumL_le. intros k Hk. apply in_seq in Hk. pose proof (Pos k ltac:(lia)).
    destruct (Nat.eqb_spec k e) as [->|]; [rewrite Ee; lra|]. cbn [ind]. destruct (c k); cbn [ind]; lra. }
  assert (S2 : 0 < sumn ne (fun e => along g (sides (row e))) - sumn ne (fun e => ind (c e) * along g (sides (row e)))).
  { unfold sumn. rewrite <- sumL_minus. fold (sumn ne (fun e => along g (sides (row e)) - ind (c e) * along g (sides (row e)))).
    apply Rlt_le_trans with (along g (sides (row f))); [now apply Pos|]. rewrite <- (sumn_delta ne f (fun k => along g (sides (row k)))) by assumption. apply sumL_le. intros k Hk. apply in_seq in Hk. pose proof (Pos k ltac:(lia)).
    destruct (Nat.eqb_spec k f) as [->|]; [rewrite Ef; cbn [ind]; lra|]. cbn [ind]. destruct (c k); cbn [ind]; lra. }
  rewrite weighted_sum in S1, S2 by assumption. replace (sumn ne (fun e => along g (sides (row e)))) with (along g O) in S2.
  2:{ rewrite <- (conforming_sum conn bot rgt top lft g HC Hg), along_flat. apply (sumL_nth conn [] (fun e => along g (sides e))). }
  destruct (list_eq_dec step_dec O []) as [E0|N0]; [rewrite E0 in S1; cbn in S1; unfold along in S1; cbn in S1; lra|].
  destruct O as [|s l] eqn:EO; [congruence|]. rewrite <- EO in *.
  assert (K : along (fun p q => weight p q * g p q) O = weight (fst s) (snd s) * along g O).
  { unfold along. rewrite <- sumL_scal. apply sumL_ext. intros a Ha. f_equal. apply weight_outline; [exact Ha|]. rewrite EO. now left. }
  rewrite K in *. unfold weight in *. destruct (existsb _ _); cbn [ind] in *; lra.
Qed.
End P.
End C.
