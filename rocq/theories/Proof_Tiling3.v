(** Hexahedra that are a scaled and translated template: the image of the isoparametric map. *)
From Coq Require Import Reals ZArith Lra.
From Verif Require Import Base Sums Spec Spec2d Spec3d Spec_Element Spec_Tiling Spec_Tiling3 Proof_FineLayerMesh Proof_FineLayerTiling Proof_Hex8FineLayerMesh.
Local Open Scope R_scope.

(** ** bilinear maps of the unit square *)
Definition bil (f0 f1 f2 f3 a b : R) : R := (1 - a) * (1 - b) * f0 + a * (1 - b) * f1 + a * b * f2 + (1 - a) * b * f3.
Definition ba (f0 f1 f2 f3 b : R) : R := (1 - b) * (f1 - f0) + b * (f2 - f3).
Definition bb (f0 f1 f2 f3 a : R) : R := (1 - a) * (f3 - f0) + a * (f2 - f1).
Definition tU (T : tmpl) (a b : R) : R := match T with (t0, t1, t2, t3) => bil (INR (fst t0)) (INR (fst t1)) (INR (fst t2)) (INR (fst t3)) a b end.
Definition tV (T : tmpl) (a b : R) : R := match T with (t0, t1, t2, t3) => bil (INR (snd t0)) (INR (snd t1)) (INR (snd t2)) (INR (snd t3)) a b end.
Definition tJ (T : tmpl) (a b : R) : R := match T with (t0, t1, t2, t3) =>
  ba (INR (fst t0)) (INR (fst t1)) (INR (fst t2)) (INR (fst t3)) b * bb (INR (snd t0)) (INR (snd t1)) (INR (snd t2)) (INR (snd t3)) a
  - bb (INR (fst t0)) (INR (fst t1)) (INR (fst t2)) (INR (fst t3)) a * ba (INR (snd t0)) (INR (snd t1)) (INR (snd t2)) (INR (snd t3)) b end.
Notation templates := (sq :: lows ++ ups).

Ltac bopen := cbv [sq tin tint inside strictly_inside area2 tU tV tJ bil ba bb fst snd] in *; rewrite ?I0, ?I1, ?I2, ?I3 in *.

Lemma tmpl_in T a b : In T templates -> 0 <= a <= 1 -> 0 <= b <= 1 -> tin T (tU T a b) (tV T a b).
Proof.
  intros H Ha Hb. assert (P1 : 0 <= a * b) by nra. assert (P2 : 0 <= a * (1 - b)) by nra. assert (P3 : 0 <= (1 - a) * b) by nra. assert (P4 : 0 <= (1 - a) * (1 - b)) by nra.
  cbn in H. repeat (destruct H as [<-|H]; [bopen; repeat split; nra|]). destruct H.
Qed.
Lemma tmpl_int T a b : In T templates -> 0 < a < 1 -> 0 < b < 1 -> tint T (tU T a b) (tV T a b).
Proof.
  intros H Ha Hb. assert (P1 : 0 < a * b) by nra. assert (P2 : 0 < a * (1 - b)) by nra. assert (P3 : 0 < (1 - a) * b) by nra. assert (P4 : 0 < (1 - a) * (1 - b)) by nra.
  cbn in H. repeat (destruct H as [<-|H]; [bopen; repeat split; nra|]). destruct H.
Qed.
Lemma tmpl_J T a b : In T templates -> 0 <= a <= 1 -> 0 <= b <= 1 -> 0 < tJ T a b.
Proof.
  intros H Ha Hb. cbn in H. repeat (destruct H as [<-|H]; [bopen; nra|]). destruct H.
Qed.

Lemma frac01 N D : 0 < D -> 0 <= N -> N <= D -> 0 <= N / D <= 1.
Proof.
  intros HD H0 H1. split; [apply Rmult_le_pos; [assumption|left; now apply Rinv_0_lt_compat]|].
  apply (Rmult_le_reg_r D); [assumption|]. unfold Rdiv. rewrite Rmult_assoc, Rinv_l by lra. lra.
Qed.
Ltac wit a b := exists a, b; bopen; split; [try apply frac01; lra|split; [try apply frac01; lra|split; field; lra]].
Lemma tmpl_onto T u v : In T templates -> tin T u v -> exists a b, 0 <= a <= 1 /\ 0 <= b <= 1 /\ tU T a b = u /\ tV T a b = v.
Proof.
  intros H I. cbn in H.
  destruct H as [<-|H]; [wit u v|].
  destruct H as [<-|H]; [wit ((u - v) / (3 - 2 * v)) v|].
  destruct H as [<-|H]; [wit ((v - (3 - u)) / (2 - (3 - u))) (3 - u)|].
  destruct H as [<-|H]; [wit (u - 1) (v - 1)|].
  destruct H as [<-|H]; [wit u ((v - u) / (2 - u))|].
  destruct H as [<-|H]; [wit u (v / (2 - u))|].
  destruct H as [<-|H]; [wit (u - 1) v|].
  destruct H as [<-|H]; [wit (u - 2) (v / (1 + (u - 2)))|].
  destruct H as [<-|H]; [wit ((u - 1 + (v - 1)) / (1 + 2 * (v - 1))) (v - 1)|].
  destruct H.
Qed.

(** ** trilinear maps of the reference cube *)
Definition tc (t : nat * nat * nat) (j : nat) : R := let '(u, v, w) := t in INR (match j with 0 => u | 1 => v | _ => w end).
Definition lc (K : tmpl3) (j m : nat) : R := tc (nth m (corners3 K) (0, 0, 0)%nat) j.
Definition half (x : R) : R := (1 + x) / 2.

(** local point of the two-dimensional template, and the third coordinate *)
Definition la (k : kind) (p : nat -> R) : R := match k with KX => half (p 0%nat) | K1 => half (p 0%nat) | K2 => half (p 2%nat) | K3 => half (p 1%nat) end.
Definition lb (k : kind) (p : nat -> R) : R := match k with KX => half (p 1%nat) | K1 => half (p 2%nat) | K2 => half (p 1%nat) | K3 => 1 - half (p 2%nat) end.
Definition ls (k : kind) (p : nat -> R) : R := match k with KX => half (p 2%nat) | K1 => half (p 1%nat) | K2 => half (p 0%nat) | K3 => half (p 0%nat) end.

Ltac expand3 := cbv [interp3 dinterp3 sumn sumL seq fold_right shape3 dshape3 corner3 corner2 Nat.ltb Nat.leb Nat.modulo Nat.divmod fst snd Nat.sub lc nth corners3 tX tZ tc half la lb ls bil ba bb];
  rewrite ?I0, ?I1.

Lemma interp3_tmpl k T p :
  interp3 (lc (k, T) (match k with KX => 0 | _ => 2 end)) p = tU T (la k p) (lb k p) /\
  interp3 (lc (k, T) 1) p = tV T (la k p) (lb k p) /\
  interp3 (lc (k, T) (match k with KX => 2 | _ => 0 end)) p = ls k p.
Proof.
  destruct T as [[[t0 t1] t2] t3]. unfold tU, tV. destruct k; (split; [|split]); expand3; field.
Qed.

Lemma jac3_tmpl k T p : jac3 (fun m j => lc (k, T) j m) p = / 8 * tJ T (la k p) (lb k p).
Proof.
  destruct T as [[[t0 t1] t2] t3]. unfold tJ, jac3. destruct k.
  - assert (D : forall i, dinterp3 (fun m => lc (KX, (t0, t1, t2, t3)) 2 m) i p = match i with 0%nat => 0 | 1%nat => 0 | _ => /2 end) by (intros [|[|i]]; expand3; field).
    assert (E : forall i, dinterp3 (fun m => lc (KX, (t0, t1, t2, t3)) 0 m) i p = match i with 0%nat => /2 * ba (INR (fst t0)) (INR (fst t1)) (INR (fst t2)) (INR (fst t3)) (lb KX p) | 1%nat => /2 * bb (INR (fst t0)) (INR (fst t1)) (INR (fst t2)) (INR (fst t3)) (la KX p) | _ => 0 end) by (intros [|[|i]]; expand3; field).
    assert (F : forall i, dinterp3 (fun m => lc (KX, (t0, t1, t2, t3)) 1 m) i p = match i with 0%nat => /2 * ba (INR (snd t0)) (INR (snd t1)) (INR (snd t2)) (INR (snd t3)) (lb KX p) | 1%nat => /2 * bb (INR (snd t0)) (INR (snd t1)) (INR (snd t2)) (INR (snd t3)) (la KX p) | _ => 0 end) by (intros [|[|i]]; expand3; field).
    rewrite !D, !E, !F. field.
  - assert (D : forall i, dinterp3 (fun m => lc (K1, (t0, t1, t2, t3)) 0 m) i p = match i with 0%nat => 0 | 1%nat => /2 | _ => 0 end) by (intros [|[|i]]; expand3; field).
    assert (E : forall i, dinterp3 (fun m => lc (K1, (t0, t1, t2, t3)) 2 m) i p = match i with 0%nat => /2 * ba (INR (fst t0)) (INR (fst t1)) (INR (fst t2)) (INR (fst t3)) (lb K1 p) | 1%nat => 0 | _ => /2 * bb (INR (fst t0)) (INR (fst t1)) (INR (fst t2)) (INR (fst t3)) (la K1 p) end) by (intros [|[|i]]; expand3; field).
    assert (F : forall i, dinterp3 (fun m => lc (K1, (t0, t1, t2, t3)) 1 m) i p = match i with 0%nat => /2 * ba (INR (snd t0)) (INR (snd t1)) (INR (snd t2)) (INR (snd t3)) (lb K1 p) | 1%nat => 0 | _ => /2 * bb (INR (snd t0)) (INR (snd t1)) (INR (snd t2)) (INR (snd t3)) (la K1 p) end) by (intros [|[|i]]; expand3; field).
    rewrite !D, !E, !F. field.
  - assert (D : forall i, dinterp3 (fun m => lc (K2, (t0, t1, t2, t3)) 0 m) i p = match i with 0%nat => /2 | 1%nat => 0 | _ => 0 end) by (intros [|[|i]]; expand3; field).
    assert (E : forall i, dinterp3 (fun m => lc (K2, (t0, t1, t2, t3)) 2 m) i p = match i with 0%nat => 0 | 1%nat => /2 * bb (INR (fst t0)) (INR (fst t1)) (INR (fst t2)) (INR (fst t3)) (la K2 p) | _ => /2 * ba (INR (fst t0)) (INR (fst t1)) (INR (fst t2)) (INR (fst t3)) (lb K2 p) end) by (intros [|[|i]]; expand3; field).
    assert (F : forall i, dinterp3 (fun m => lc (K2, (t0, t1, t2, t3)) 1 m) i p = match i with 0%nat => 0 | 1%nat => /2 * bb (INR (snd t0)) (INR (snd t1)) (INR (snd t2)) (INR (snd t3)) (la K2 p) | _ => /2 * ba (INR (snd t0)) (INR (snd t1)) (INR (snd t2)) (INR (snd t3)) (lb K2 p) end) by (intros [|[|i]]; expand3; field).
    rewrite !D, !E, !F. field.
  - assert (D : forall i, dinterp3 (fun m => lc (K3, (t0, t1, t2, t3)) 0 m) i p = match i with 0%nat => /2 | 1%nat => 0 | _ => 0 end) by (intros [|[|i]]; expand3; field).
    assert (E : forall i, dinterp3 (fun m => lc (K3, (t0, t1, t2, t3)) 2 m) i p = match i with 0%nat => 0 | 1%nat => /2 * ba (INR (fst t0)) (INR (fst t1)) (INR (fst t2)) (INR (fst t3)) (lb K3 p) | _ => - (/2 * bb (INR (fst t0)) (INR (fst t1)) (INR (fst t2)) (INR (fst t3)) (la K3 p)) end) by (intros [|[|i]]; expand3; field).
    assert (F : forall i, dinterp3 (fun m => lc (K3, (t0, t1, t2, t3)) 1 m) i p = match i with 0%nat => 0 | 1%nat => /2 * ba (INR (snd t0)) (INR (snd t1)) (INR (snd t2)) (INR (snd t3)) (lb K3 p) | _ => - (/2 * bb (INR (snd t0)) (INR (snd t1)) (INR (snd t2)) (INR (snd t3)) (la K3 p)) end) by (intros [|[|i]]; expand3; field).
    rewrite !D, !E, !F. field.
Qed.

Lemma interp3_affine U o s p : interp3 (fun m => o + s * U m) p = o + s * interp3 U p.
Proof. expand3. field. Qed.
Lemma dinterp3_affine U o s i p : dinterp3 (fun m => o + s * U m) i p = s * dinterp3 U i p.
Proof. destruct i as [|[|i]]; expand3; field. Qed.
Lemma interp3_ext U V p : (forall m, (m < 8)%nat -> U m = V m) -> interp3 U p = interp3 V p.
Proof. intros H. unfold interp3. apply sumn_ext. intros i Hi. now rewrite H. Qed.
Lemma dinterp3_ext U V i p : (forall m, (m < 8)%nat -> U m = V m) -> dinterp3 U i p = dinterp3 V i p.
Proof. intros H. unfold dinterp3. apply sumn_ext. intros j Hj. now rewrite H. Qed.

Definition tin3 (K : tmpl3) (u v w : R) : Prop := match fst K with KX => tin (snd K) u v /\ 0 <= w <= 1 | _ => tin (snd K) w v /\ 0 <= u <= 1 end.
Definition tint3 (K : tmpl3) (u v w : R) : Prop := match fst K with KX => tint (snd K) u v /\ 0 < w < 1 | _ => tint (snd K) w v /\ 0 < u < 1 end.

Lemma length_corners3 K : length (corners3 K) = 8%nat.
Proof. destruct K as [[] [[[? ?] ?] ?]]; reflexivity. Qed.

Section Element.
Variables (X : list (list R)) (f : nat * nat * nat -> nat) (k : kind) (T : tmpl) (o s : nat -> R).
Notation K := (k, T).
Hypothesis HT : In T templates.
Hypothesis Hs : forall j, 0 < s j.
Hypothesis Hf : forall t, In t (corners3 K) -> node_at3 X (f t) (o 0%nat + s 0%nat * tc t 0) (o 1%nat + s 1%nat * tc t 1) (o 2%nat + s 2%nat * tc t 2).
Notation E := (map f (corners3 K)).

Lemma hex_tmpl : hex X E (fun m j => o j + s j * lc K j m).
Proof.
  split; [rewrite map_length; apply length_corners3|]. intros m p H. rewrite nth_error_map in H. destruct (nth_error (corners3 K) m) as [t|] eqn:Et; [|discriminate].
  injection H as <-. unfold lc. rewrite (nth_error_nth _ _ _ Et). apply Hf. eapply nth_error_In; eassumption.
Qed.
Lemma hex_fun x x' m j : hex X E x -> hex X E x' -> (m < 8)%nat -> (j < 3)%nat -> x m j = x' m j.
Proof.
  intros [L1 H1] [L2 H2] Hm Hj. destruct (nth_error E m) as [p|] eqn:Ep; [|apply nth_error_None in Ep; lia].
  pose proof (H1 _ _ Ep) as A. pose proof (H2 _ _ Ep) as B. unfold node_at3 in *. rewrite A in B. injection B as B1 B2 B3.
  destruct j as [|[|[|j]]]; try assumption; lia.
Qed.
Lemma maps_hex x p a b c : hex X E x -> maps_to x p a b c -> maps_to (fun m j => o j + s j * lc K j m) p a b c.
Proof.
  intros H (A & B & C). repeat split; [rewrite <- A|rewrite <- B|rewrite <- C]; apply interp3_ext; intros m Hm;
  rewrite (hex_fun _ _ m _ H hex_tmpl Hm) by lia; reflexivity.
Qed.

Lemma half_in x : -1 <= x <= 1 <-> 0 <= half x <= 1.
Proof. unfold half. split; lra. Qed.
Lemma half_int x : -1 < x < 1 <-> 0 < half x < 1.
Proof. unfold half. split; lra. Qed.
Lemma aff_inj j a b : o j + s j * a = o j + s j * b -> a = b.
Proof. intros H. apply (Rmult_eq_reg_l (s j)); [lra|]. pose proof (Hs j). lra. Qed.

Lemma maps_local p u v w : maps_to (fun m j => o j + s j * lc K j m) p (o 0%nat + s 0%nat * u) (o 1%nat + s 1%nat * v) (o 2%nat + s 2%nat * w) <->
  interp3 (lc K 0) p = u /\ interp3 (lc K 1) p = v /\ interp3 (lc K 2) p = w.
Proof.
  unfold maps_to. rewrite !interp3_affine. split.
  - intros (A & B & C). apply aff_inj in A, B, C. auto.
  - intros (-> & -> & ->). auto.
Qed.

Lemma el_in u v w : in_element3 X E (o 0%nat + s 0%nat * u) (o 1%nat + s 1%nat * v) (o 2%nat + s 2%nat * w) <-> tin3 K u v w.
Proof.
  split.
  - intros (x & p & H & Hp & M). apply (maps_hex x p _ _ _ H) in M. apply maps_local in M. destruct M as (M0 & M1 & M2).
    destruct (interp3_tmpl k T p) as (A & B & C). pose proof (Hp 0%nat ltac:(lia)) as P0. pose proof (Hp 1%nat ltac:(lia)) as P1. pose proof (Hp 2%nat ltac:(lia)) as P2.
    apply half_in in P0, P1, P2.
    assert (G : tin T (tU T (la k p) (lb k p)) (tV T (la k p) (lb k p))).
    { apply tmpl_in; [exact HT| |]; destruct k; cbn [la lb]; try assumption. lra. }
    assert (G' : 0 <= ls k p <= 1) by (destruct k; assumption).
    destruct k; unfold tin3; cbn [fst snd]; cbv beta iota in A, B, C; (split; [|]);
    first [rewrite <- M0, <- M1, A, B; exact G | rewrite <- M2, <- M1, A, B; exact G | rewrite <- M2, C; exact G' | rewrite <- M0, C; exact G'].
  - intros H. assert (G : exists a b c, (0 <= a <= 1 /\ 0 <= b <= 1 /\ 0 <= c <= 1) /\ tU T a b = (match k with KX => u | _ => w end) /\ tV T a b = v /\ c = (match k with KX => w | _ => u end)).
    { unfold tin3 in H. cbn [fst snd] in H. destruct k; destruct H as [H H']; destruct (tmpl_onto T _ _ HT H) as (a & b & Ha & Hb & E1 & E2); exists a, b; eexists; repeat split; try eassumption; lra. }
    destruct G as (a & b & c & (Ha & Hb & Hc) & E1 & E2 & E3).
    pose (p := fun i : nat => match k with
      | KX => match i with 0%nat => 2 * a - 1 | 1%nat => 2 * b - 1 | _ => 2 * c - 1 end
      | K1 => match i with 0%nat => 2 * a - 1 | 1%nat => 2 * c - 1 | _ => 2 * b - 1 end
      | K2 => match i with 0%nat => 2 * c - 1 | 1%nat => 2 * b - 1 | _ => 2 * a - 1 end
      | K3 => match i with 0%nat => 2 * c - 1 | 1%nat => 2 * a - 1 | _ => 1 - 2 * b end end).
    exists (fun m j => o j + s j * lc (k, T) j m), p. split; [exact hex_tmpl|]. split.
    + intros i Hi. unfold p. destruct k; destruct i as [|[|[|i]]]; lra || lia.
    + apply maps_local. destruct (interp3_tmpl k T p) as (A & B & C).
      assert (Ea : la k p = a) by (unfold p, la, half; destruct k; field). assert (Eb : lb k p = b) by (unfold p, lb, half; destruct k; field). assert (Ec : ls k p = c) by (unfold p, ls, half; destruct k; field).
      rewrite Ea, Eb in A, B. rewrite Ec in C. rewrite E1 in A. rewrite E2 in B. rewrite E3 in C. destruct k; cbv beta iota in A, B, C; auto.
Qed.

Lemma el_int u v w : in_interior3 X E (o 0%nat + s 0%nat * u) (o 1%nat + s 1%nat * v) (o 2%nat + s 2%nat * w) -> tint3 K u v w.
Proof.
  intros (x & p & H & Hp & M). apply (maps_hex x p _ _ _ H) in M. apply maps_local in M. destruct M as (M0 & M1 & M2).
  destruct (interp3_tmpl k T p) as (A & B & C). pose proof (Hp 0%nat ltac:(lia)) as P0. pose proof (Hp 1%nat ltac:(lia)) as P1. pose proof (Hp 2%nat ltac:(lia)) as P2.
  apply half_int in P0, P1, P2.
  assert (G : tint T (tU T (la k p) (lb k p)) (tV T (la k p) (lb k p))).
  { apply tmpl_int; [exact HT| |]; destruct k; cbn [la lb]; try assumption. lra. }
  assert (G' : 0 < ls k p < 1) by (destruct k; assumption).
  destruct k; unfold tint3; cbn [fst snd]; cbv beta iota in A, B, C; (split; [|]);
  first [rewrite <- M0, <- M1, A, B; exact G | rewrite <- M2, <- M1, A, B; exact G | rewrite <- M2, C; exact G' | rewrite <- M0, C; exact G'].
Qed.

Lemma el_jac : exists x, hex X E x /\ forall p, cube p -> 0 < jac3 x p.
Proof.
  exists (fun m j => o j + s j * lc K j m). split; [exact hex_tmpl|]. intros p Hp.
  assert (Q : jac3 (fun m j => o j + s j * lc (k, T) j m) p = s 0%nat * s 1%nat * s 2%nat * jac3 (fun m j => lc (k, T) j m) p).
  { assert (D : forall j i, dinterp3 (fun m => o j + s j * lc (k, T) j m) i p = s j * dinterp3 (fun m => lc (k, T) j m) i p) by (intros; apply dinterp3_affine). unfold jac3. cbv zeta beta. rewrite !D. ring. }
  rewrite Q, jac3_tmpl. pose proof (Hp 0%nat ltac:(lia)) as P0. pose proof (Hp 1%nat ltac:(lia)) as P1. pose proof (Hp 2%nat ltac:(lia)) as P2. apply half_in in P0, P1, P2.
  assert (G : 0 < tJ T (la k p) (lb k p)). { apply tmpl_J; [exact HT| |]; destruct k; cbn [la lb]; try assumption. lra. }
  repeat apply Rmult_lt_0_compat; auto; lra.
Qed.
End Element.
