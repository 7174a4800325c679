(** Sides of the elements: from the sum over all elements, and the tiling, to a conforming mesh. *)
From Coq Require Import Reals Lra Lia List Arith Permutation.
From Verif Require Import Base Spec Spec2d Sums Spec_Tiling Spec_Conform.
Import ListNotations.
Local Open Scope R_scope.

Definition odd (f : nat -> nat -> R) : Prop := forall p q, f p q = - f q p.
Definition along (f : nat -> nat -> R) (l : list (nat * nat)) : R := sumL l (fun s => f (fst s) (snd s)).

Lemma along_app f l l' : along f (l ++ l') = along f l + along f l'.
Proof. apply sumL_app. Qed.
Lemma along_back f l : odd f -> along f (map back l) = - along f l.
Proof.
  intros Hf. unfold along. rewrite sumL_map. unfold back. cbn [fst snd]. rewrite (sumL_ext _ _ (fun s => -1 * f (fst s) (snd s))).
  - rewrite sumL_scal. ring.
  - intros s _. rewrite (Hf (snd s) (fst s)). ring.
Qed.
Lemma along_outline f bot rgt top lft : odd f -> along f (outline bot rgt top lft) = along f (steps bot) + along f (steps rgt) - along f (steps top) - along f (steps lft).
Proof. intros Hf. unfold outline. rewrite !along_app, !along_back by assumption. ring. Qed.

(** counting *)
Definition is (s t : nat * nat) : bool := ((fst s =? fst t) && (snd s =? snd t))%nat%bool.
Lemma is_spec s t : reflect (s = t) (is s t).
Proof.
  destruct s as [a b], t as [c d]. unfold is. cbn [fst snd]. destruct (Nat.eqb_spec a c), (Nat.eqb_spec b d); cbn; constructor; congruence.
Qed.
Definition cnt (l : list (nat * nat)) (t : nat * nat) : R := sumL l (fun s => ind (is s t)).
Lemma cnt_notin l t : ~ In t l -> cnt l t = 0.
Proof. intros H. apply sumL_zero. intros s Hs. destruct (is_spec s t) as [->|]; [contradiction|reflexivity]. Qed.
Lemma cnt_in l t : NoDup l -> In t l -> cnt l t = 1.
Proof.
  induction 1 as [|s l Hn Hd IH]; intros Ht; [contradiction|]. unfold cnt in *. cbn [sumL fold_right]. change (fold_right _ 0 l) with (cnt l t). destruct (is_spec s t) as [->|Hne].
  - rewrite (cnt_notin l t Hn). cbn [ind]. ring.
  - destruct Ht as [->|Ht]; [contradiction|]. unfold cnt. rewrite IH by assumption. cbn [ind]. ring.
Qed.
Lemma in_dec2 (t : nat * nat) l : {In t l} + {~ In t l}.
Proof. apply in_dec. decide equality; apply Nat.eq_dec. Qed.

Definition test (t : nat * nat) (p q : nat) : R := ind (is (p, q) t) - ind (is (q, p) t).
Lemma test_odd t : odd (test t).
Proof. intros p q. unfold test. ring. Qed.
Lemma along_test l t : along (test t) l = cnt l t - cnt l (back t).
Proof.
  unfold along, cnt. rewrite <- sumL_minus. apply sumL_ext. intros [p q] _. unfold test. f_equal. cbn [fst snd]. unfold is, back. cbn [fst snd]. now rewrite andb_comm.
Qed.

Lemma along_cnt N f l : (forall s, In s l -> (fst s < N)%nat /\ (snd s < N)%nat) -> along f l = sumn N (fun p => sumn N (fun q => cnt l (p, q) * f p q)).
Proof.
  intros HN. unfold along, cnt. symmetry.
  transitivity (sumn N (fun p => sumn N (fun q => sumL l (fun s => ind (is s (p, q)) * f p q)))).
  { apply sumn_ext. intros p _. apply sumn_ext. intros q _. now rewrite sumL_scal_r. }
  transitivity (sumn N (fun p => sumL l (fun s => sumn N (fun q => ind (is s (p, q)) * f p q)))).
  { apply sumn_ext. intros p _. unfold sumn. now rewrite sumL_swap. }
  unfold sumn at 1. rewrite sumL_swap. apply sumL_ext. intros [a b] Hs. destruct (HN _ Hs) as [Ha Hb]. cbn [fst snd] in *.
  change (sumn N (fun p => sumn N (fun q => ind (is (a, b) (p, q)) * f p q)) = f a b).
  rewrite (sumn_ext N _ (fun p => ind (a =? p)%nat * f p b)).
  - now rewrite sumn_delta'.
  - intros p _. unfold is. cbn [fst snd]. destruct (a =? p)%nat; cbn [andb].
    + rewrite <- (sumn_delta' N b (fun q => ind true * f p q) Hb). apply sumn_ext. intros q _. cbn [ind]. destruct (b =? q)%nat; cbn [ind]; ring.
    + cbn [ind]. rewrite sumn_zero; [ring|]. intros; ring.
Qed.

(** the sum over all sides of a conforming mesh of an odd function is the sum over the outline *)
Lemma conforming_sum conn bot rgt top lft f : conforming_mesh conn bot rgt top lft -> odd f ->
  along f (flat_map sides conn) = along f (outline bot rgt top lft).
Proof.
  intros [H1 H2 H3 H4] Hf. set (S := flat_map sides conn) in *. set (O := outline bot rgt top lft) in *.
  set (N := Datatypes.S (fold_right Nat.max 0%nat (map fst (S ++ O) ++ map snd (S ++ O)))).
  assert (LN : forall s, In s (S ++ O) -> (fst s < N)%nat /\ (snd s < N)%nat).
  { assert (LM : forall k l, In k l -> (k <= fold_right Nat.max 0%nat l)%nat) by (induction l as [|a l IH]; [contradiction|]; intros [->|K]; cbn; [lia|specialize (IH K); lia]).
    intros s Hs. unfold N. split; apply Nat.lt_succ_r, LM; apply in_or_app; [left|right]; now apply in_map. }
  assert (D : forall l, (forall s, In s l -> In s (S ++ O)) -> 2 * along f l = sumn N (fun p => sumn N (fun q => (cnt l (p, q) - cnt l (q, p)) * f p q))).
  { intros l Hl. assert (A := along_cnt N f l (fun s K => LN s (Hl s K))).
    assert (B : along f l = sumn N (fun p => sumn N (fun q => - (cnt l (q, p) * f p q)))).
    { rewrite A. rewrite sumn_swap. apply sumn_ext. intros p _. apply sumn_ext. intros q _. rewrite (Hf q p). ring. }
    replace (2 * along f l) with (along f l + along f l) by ring. rewrite A at 1. rewrite B, <- sumn_plus. apply sumn_ext. intros p _. rewrite <- sumn_plus. apply sumn_ext. intros q _. ring. }
  assert (E : forall s, cnt S s - cnt S (back s) = cnt O s - cnt O (back s)).
  { intros s. assert (Bb : back (back s) = s) by (now destruct s).
    destruct (in_dec2 s O) as [K|K], (in_dec2 (back s) O) as [K'|K'].
    - exfalso. pose proof (H3 _ K) as Q. pose proof (H3 _ K') as Q'. now apply (H2 _ Q) in Q'.
    - pose proof (H3 _ K) as Q. rewrite (cnt_in S s H1 Q), (cnt_in O s H4 K), (cnt_notin O _ K'), cnt_notin; [ring|]. intros Q'. now apply (H2 _ Q) in Q'.
    - pose proof (H3 _ K') as Q. rewrite (cnt_in S _ H1 Q), (cnt_in O _ H4 K'), (cnt_notin O _ K), cnt_notin; [ring|]. intros Q'. rewrite <- Bb in Q'. now apply (H2 _ Q) in Q'.
    - rewrite (cnt_notin O _ K), (cnt_notin O _ K'). destruct (in_dec2 s S) as [Q|Q].
      + assert (Q' : In (back s) S) by (now apply (H2 _ Q)). rewrite !cnt_in by assumption. ring.
      + assert (Q' : ~ In (back s) S). { intros Q'. apply Q. rewrite <- Bb. now apply (H2 _ Q'). } rewrite !cnt_notin by assumption. ring. }
  assert (2 * along f S = 2 * along f O); [|lra].
  rewrite !D by (intros; apply in_or_app; auto). apply sumn_ext. intros p _. apply sumn_ext. intros q _. f_equal. exact (E (p, q)).
Qed.

(** conversely *)
Lemma sum_conforming conn bot rgt top lft : NoDup (flat_map sides conn) -> NoDup (outline bot rgt top lft) ->
  (forall s, In s (outline bot rgt top lft) -> ~ In (back s) (outline bot rgt top lft)) ->
  (forall f, odd f -> along f (flat_map sides conn) = along f (outline bot rgt top lft)) -> conforming_mesh conn bot rgt top lft.
Proof.
  set (S := flat_map sides conn). set (O := outline bot rgt top lft). intros H1 H4 HO HS.
  assert (E : forall s, cnt S s - cnt S (back s) = cnt O s - cnt O (back s)). { intros s. rewrite <- !along_test. apply HS, test_odd. }
  assert (OS : forall s, In s O -> In s S /\ ~ In (back s) S).
  { intros s K. specialize (E s). rewrite (cnt_in O s H4 K), (cnt_notin O _ (HO s K)) in E.
    destruct (in_dec2 s S) as [Q|Q], (in_dec2 (back s) S) as [Q'|Q']; [| now split | |]; exfalso;
    rewrite ?(cnt_in S _ H1 Q), ?(cnt_in S _ H1 Q'), ?(cnt_notin S _ Q), ?(cnt_notin S _ Q') in E; lra. }
  constructor; try assumption.
  - intros s Q. split.
    + intros Q' K. now apply (OS s K).
    + intros K. destruct (in_dec2 (back s) S) as [Q'|Q']; [exact Q'|]. exfalso. specialize (E s).
      rewrite (cnt_in S s H1 Q), (cnt_notin S _ Q'), (cnt_notin O _ K) in E.
      destruct (in_dec2 (back s) O) as [K'|K']; [rewrite (cnt_in O _ H4 K') in E|rewrite (cnt_notin O _ K') in E]; lra.
  - intros s K. now apply OS.
Qed.
