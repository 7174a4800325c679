(** In a conforming mesh of quadrilaterals the elements close up around every node that is not on the outline. *)
From Coq Require Import Reals Lra Lia List Arith Permutation.
From Verif Require Import Model_Element Spec_Element Base Spec Sums Spec_Vector Spec_Conform Spec_Patch Proof_Conform.
Import ListNotations.

Section C.
Variables (conn : list (list nat)) (nelem : nat).
Hypothesis Sc : Spec.shape2 conn nelem 4.

Lemma row4 e : e < nelem -> nth_error conn e = Some [idx2 conn e 0; idx2 conn e 1; idx2 conn e 2; idx2 conn e 3].
Proof.
  intros He. destruct (nth_error conn e) as [r|] eqn:Er; [|apply nth_error_None in Er; rewrite (proj1 Sc) in Er; lia].
  pose proof (proj2 Sc r (nth_error_In _ _ Er)) as Lr. destruct r as [|a [|b [|c [|d [|]]]]]; try discriminate Lr.
  unfold idx2, nth2. now rewrite (nth_error_nth _ _ [] Er).
Qed.
Lemma sides_at e m : e < nelem -> m < 4 -> nth_error (sides [idx2 conn e 0; idx2 conn e 1; idx2 conn e 2; idx2 conn e 3]) m = Some (idx2 conn e m, idx2 conn e ((m + 1) mod 4)).
Proof. intros He Hm. destruct m as [|[|[|[|]]]]; try lia; reflexivity. Qed.
Lemma in_sides p q : In (p, q) (flat_map sides conn) <-> exists e m, e < nelem /\ m < 4 /\ p = idx2 conn e m /\ q = idx2 conn e ((m + 1) mod 4).
Proof.
  rewrite in_flat_map. split.
  - intros (r & Hr & Hs). apply In_nth_error in Hr. destruct Hr as [e Er]. assert (He : e < nelem) by (rewrite <- (proj1 Sc); apply nth_error_Some; congruence).
    rewrite (row4 e He) in Er. injection Er as <-. apply In_nth_error in Hs. destruct Hs as [m Em].
    assert (Hm : m < 4). { assert (m < length (sides [idx2 conn e 0; idx2 conn e 1; idx2 conn e 2; idx2 conn e 3])) by (apply nth_error_Some; congruence). exact H. }
    rewrite sides_at in Em by assumption. injection Em as <- <-. now exists e, m.
  - intros (e & m & He & Hm & -> & ->). exists [idx2 conn e 0; idx2 conn e 1; idx2 conn e 2; idx2 conn e 3]. split.
    + exact (nth_error_In _ _ (row4 e He)).
    + exact (nth_error_In _ _ (sides_at e m He Hm)).
Qed.

(** all sides, by corner *)
Definition corner_side (c : nat * nat) : nat * nat := (idx2 conn (fst c) (snd c), next_node conn c).
Lemma all_sides : flat_map sides conn = map corner_side (list_prod (seq 0 nelem) (seq 0 4)).
Proof.
  assert (G : forall l, (forall e, In e l -> e < nelem) -> flat_map sides (map (fun e => nth e conn []) l) = map corner_side (list_prod l (seq 0 4))).
  { induction l as [|e l IH]; intros Hl; [reflexivity|]. cbn [map flat_map list_prod]. rewrite map_app, map_map, <- IH by (intros; apply Hl; now right). f_equal.
    rewrite (nth_error_nth _ _ [] (row4 e (Hl e (or_introl eq_refl)))). reflexivity. }
  rewrite <- (G (seq 0 nelem)) by (intros e He; apply in_seq in He; lia). f_equal.
  rewrite <- (proj1 Sc). clear. induction conn as [|r l IH]; [reflexivity|]. cbn [length seq map]. f_equal. rewrite <- seq_shift, map_map. exact IH.
Qed.
Lemma corner_side_inj : NoDup (flat_map sides conn) -> forall c c', In c (list_prod (seq 0 nelem) (seq 0 4)) -> In c' (list_prod (seq 0 nelem) (seq 0 4)) -> corner_side c = corner_side c' -> c = c'.
Proof.
  rewrite all_sides. generalize (list_prod (seq 0 nelem) (seq 0 4)). intros l. induction l as [|a l IH]; cbn; [contradiction|]. intros N c c' H H' E. inversion N as [|? ? N1 N2]. subst.
  destruct H as [->|H], H' as [->|H']; auto; exfalso; apply N1; [rewrite E|rewrite <- E]; now apply in_map.
Qed.

Lemma mod4 m : m < 4 -> ((m + 1) mod 4 + 3) mod 4 = m /\ ((m + 3) mod 4 + 1) mod 4 = m.
Proof. intros H. destruct m as [|[|[|[|]]]]; try lia; split; reflexivity. Qed.
Lemma mod4_lt m : m mod 4 < 4.
Proof. apply Nat.mod_upper_bound. lia. Qed.

Lemma conforming_closed bot rgt top lft n : conforming_mesh conn bot rgt top lft -> (forall q, ~ In (n, q) (outline bot rgt top lft)) -> (forall q, ~ In (q, n) (outline bot rgt top lft)) ->
  closed_around conn nelem n.
Proof.
  intros HC H1 H2. unfold closed_around. pose proof (cf_once _ _ _ _ _ HC) as ND. pose proof (corner_side_inj ND) as Inj.
  assert (NP : NoDup (list_prod (seq 0 nelem) (seq 0 4))) by (apply (NoDup_map_inv corner_side); now rewrite <- all_sides).
  assert (NC : NoDup (corners_at conn nelem n)) by (now apply NoDup_filter).
  assert (InC : forall c, In c (corners_at conn nelem n) <-> fst c < nelem /\ snd c < 4 /\ idx2 conn (fst c) (snd c) = n).
  { intros [e m]. unfold corners_at. rewrite filter_In, in_prod_iff, !in_seq. cbn [fst snd]. rewrite Nat.eqb_eq. intuition lia. }
  assert (InP : forall e m, e < nelem -> m < 4 -> In (e, m) (list_prod (seq 0 nelem) (seq 0 4))) by (intros; apply in_prod; apply in_seq; lia).
  apply NoDup_Permutation.
  - apply NoDup_map_inj; [exact NC|]. intros [e m] [e' m'] K K' E. apply InC in K, K'. cbn [fst snd] in *. destruct K as (A1 & A2 & A3), K' as (B1 & B2 & B3).
    apply Inj; [now apply InP|now apply InP|]. unfold corner_side. rewrite E. cbn [fst snd]. congruence.
  - apply NoDup_map_inj; [exact NC|]. intros [e m] [e' m'] K K' E. apply InC in K, K'. cbn [fst snd] in *. destruct K as (A1 & A2 & A3), K' as (B1 & B2 & B3).
    unfold prev_node in E. cbn [fst snd] in E.
    assert (Q : (e, (m + 3) mod 4) = (e', (m' + 3) mod 4)).
    { apply Inj; [apply InP; [assumption|apply mod4_lt]|apply InP; [assumption|apply mod4_lt]|]. unfold corner_side, next_node. cbn [fst snd].
      rewrite (proj2 (mod4 m A2)), (proj2 (mod4 m' B2)). congruence. }
    pose proof (f_equal fst Q) as Q1. pose proof (f_equal snd Q) as Q2. cbn [fst snd] in Q1, Q2. f_equal; [exact Q1|]. rewrite <- (proj2 (mod4 m A2)), Q2. apply (mod4 m' B2).
  - intros q. rewrite !in_map_iff. split.
    + intros ([e m] & <- & K). apply InC in K. cbn [fst snd] in K. destruct K as (A1 & A2 & A3).
      assert (S : In (n, next_node conn (e, m)) (flat_map sides conn)) by (apply in_sides; exists e, m; repeat split; auto).
      apply (cf_shared _ _ _ _ _ HC _ S) in H1 as S'. unfold back in S'. cbn [fst snd] in S'. apply in_sides in S'. destruct S' as (e' & m' & B1 & B2 & B3 & B4).
      exists (e', (m' + 1) mod 4). split; [|apply InC; cbn [fst snd]; split; [assumption|]; split; [apply mod4_lt|congruence]].
      unfold prev_node. cbn [fst snd]. rewrite (proj1 (mod4 m' B2)). congruence.
    + intros ([e m] & <- & K). apply InC in K. cbn [fst snd] in K. destruct K as (A1 & A2 & A3). unfold prev_node. cbn [fst snd].
      assert (S : In (idx2 conn e ((m + 3) mod 4), n) (flat_map sides conn)). { apply in_sides. exists e, ((m + 3) mod 4). rewrite (proj2 (mod4 m A2)). repeat split; auto. apply mod4_lt. }
      apply (cf_shared _ _ _ _ _ HC _ S) in H2 as S'. unfold back in S'. cbn [fst snd] in S'. apply in_sides in S'. destruct S' as (e' & m' & B1 & B2 & B3 & B4).
      exists (e', m'). split; [|apply InC; cbn [fst snd]; repeat split; auto]. unfold next_node. cbn [fst snd]. congruence.
Qed.
End C.

(** nodes that are not on one of the sides *)
Lemma steps_in l p q : In (p, q) (steps l) -> In p l /\ In q l.
Proof. intros H. split; [exact (in_combine_l _ _ _ _ H)|]. apply in_combine_r in H. destruct l; [contradiction|now right]. Qed.
Lemma off_outline bot rgt top lft n : ~ In n bot -> ~ In n rgt -> ~ In n top -> ~ In n lft -> forall q, ~ In (n, q) (outline bot rgt top lft) /\ ~ In (q, n) (outline bot rgt top lft).
Proof.
  intros Hb Hr Ht Hl q. unfold outline. rewrite !in_app_iff, !in_map_iff.
  split; intros [H|[H|[([a b] & E & H)|([a b] & E & H)]]]; try (unfold back in E; cbn in E; injection E as -> ->); apply steps_in in H; tauto.
Qed.
