(** Quad4::FineLayer: the elements tile the domain. *)
From Coq Require Import Reals ZArith Lra.
From Verif Require Import Base Spec Spec2d Spec_Tiling Model_Numbering Model_Regular2d Model_FineLayer Proof_Vector Proof_Regular2d Proof_FineLayer Proof_FineLayerMesh.

(** ** generic facts *)
Lemma area2_scale h a b S x0 y0 x1 y1 x y :
  area2 (h * (a + S * x0)) (h * (b + S * y0)) (h * (a + S * x1)) (h * (b + S * y1)) (h * (a + S * x)) (h * (b + S * y)) = ((h * S) * (h * S) * area2 x0 y0 x1 y1 x y)%R.
Proof. unfold area2. ring. Qed.

Lemma pos_scale c a : (0 < c -> (0 <= c * c * a <-> 0 <= a) /\ (0 < c * c * a <-> 0 < a))%R.
Proof.
  intros Hc. assert (H : (0 < c * c)%R) by nra. split; split; intros G.
  - apply (Rmult_le_reg_l (c * c)); lra.
  - apply Rmult_le_pos; lra.
  - apply (Rmult_lt_reg_l (c * c)); lra.
  - now apply Rmult_lt_0_compat.
Qed.

Lemma quad_fun X e x0 y0 x1 y1 x2 y2 x3 y3 x0' y0' x1' y1' x2' y2' x3' y3' :
  quad X e x0 y0 x1 y1 x2 y2 x3 y3 -> quad X e x0' y0' x1' y1' x2' y2' x3' y3' ->
  (x0' = x0 /\ y0' = y0 /\ x1' = x1 /\ y1' = y1) /\ x2' = x2 /\ y2' = y2 /\ x3' = x3 /\ y3' = y3.
Proof.
  intros (n0 & n1 & n2 & n3 & E & A0 & A1 & A2 & A3) (m0 & m1 & m2 & m3 & E' & B0 & B1 & B2 & B3).
  rewrite E in E'. injection E' as <- <- <- <-.
  destruct (node_at_fun _ _ _ _ _ _ A0 B0), (node_at_fun _ _ _ _ _ _ A1 B1), (node_at_fun _ _ _ _ _ _ A2 B2), (node_at_fun _ _ _ _ _ _ A3 B3). auto 10.
Qed.

(** the interval of a sequence that contains [t] *)
Lemma interval (f : nat -> R) t : forall k, (f 0%nat <= t)%R -> (t <= f (S k))%R -> exists i, i <= k /\ (f i <= t <= f (i + 1)%nat)%R.
Proof.
  induction k as [|k IH]; intros H0 Hk.
  - exists 0. split; [lia|]. split; assumption.
  - destruct (Rle_dec t (f (S k))) as [G|G].
    + destruct (IH H0 G) as (i & A & B). exists i. split; [lia|exact B].
    + exists (S k). split; [lia|]. rewrite Nat.add_1_r. lra.
Qed.

(** ** the templates *)
Definition tin (T : tmpl) (u v : R) : Prop :=
  match T with (a, b, c, d) => inside (INR (fst a)) (INR (snd a)) (INR (fst b)) (INR (snd b)) (INR (fst c)) (INR (snd c)) (INR (fst d)) (INR (snd d)) u v end.
Definition tint (T : tmpl) (u v : R) : Prop :=
  match T with (a, b, c, d) => strictly_inside (INR (fst a)) (INR (snd a)) (INR (fst b)) (INR (snd b)) (INR (fst c)) (INR (snd c)) (INR (fst d)) (INR (snd d)) u v end.
Definition tconv (T : tmpl) : Prop :=
  match T with (a, b, c, d) => convex_ccw (INR (fst a)) (INR (snd a)) (INR (fst b)) (INR (snd b)) (INR (fst c)) (INR (snd c)) (INR (fst d)) (INR (snd d)) end.
Definition tcorners (T : tmpl) : list (nat * nat) := match T with (a, b, c, d) => [a; b; c; d] end.

Lemma I0 : INR 0 = 0%R. Proof. reflexivity. Qed.
Lemma I1 : INR 1 = 1%R. Proof. reflexivity. Qed.
Lemma I2 : INR 2 = 2%R. Proof. reflexivity. Qed.
Lemma I3 : INR 3 = 3%R. Proof. cbn. ring. Qed.
Ltac open := cbv [sq tin tint tconv inside strictly_inside convex_ccw area2 fst snd] in *; rewrite ?I0, ?I1, ?I2, ?I3 in *.

Lemma tconv_all T : In T (sq :: lows ++ ups) -> tconv T.
Proof. cbn. intros H. repeat (destruct H as [<-|H]; [open; lra|]). destruct H. Qed.

(** size of the block *)
Definition bw (ts : list tmpl) : nat := match ts with [_] => 1 | _ => 3 end.
Definition bh (ts : list tmpl) : nat := match ts with [_] => 1 | _ => 2 end.

Section Kinds.
Variable ts : list tmpl.
Hypothesis Hts : ts = [sq] \/ ts = lows \/ ts = ups.

Lemma t_box T u v : In T ts -> tin T u v -> (0 <= u <= INR (bw ts) /\ 0 <= v <= INR (bh ts))%R.
Proof.
  destruct Hts as [->|[->| ->]]; cbn [bw bh lows ups In]; intros H; repeat (destruct H as [<-|H]; [open; lra|]); destruct H.
Qed.
Lemma t_box_strict T u v : In T ts -> tint T u v -> (0 < u < INR (bw ts) /\ 0 < v < INR (bh ts))%R.
Proof.
  destruct Hts as [->|[->| ->]]; cbn [bw bh lows ups In]; intros H; repeat (destruct H as [<-|H]; [open; lra|]); destruct H.
Qed.
Lemma tcover u v : (0 <= u <= INR (bw ts))%R -> (0 <= v <= INR (bh ts))%R -> exists T, In T ts /\ tin T u v.
Proof.
  intros Hu Hv. destruct Hts as [Ht|[Ht|Ht]]; rewrite Ht in *; cbn [bw bh lows ups In] in *.
  - exists sq. split; [now left|]. unfold sq. open. lra.
  - assert (G : exists k T, nth_error lows k = Some T /\ tin T u v).
    { destruct (Rle_dec v 1) as [V|V].
      - destruct (Rlt_dec u v) as [U|U]; [exists 3; eexists; split; [reflexivity|]; open; lra|].
        destruct (Rlt_dec (3 - v) u) as [U'|U']; [exists 1|exists 0]; eexists; (split; [reflexivity|]); open; lra.
      - destruct (Rle_dec u 1) as [U|U]; [exists 3; eexists; split; [reflexivity|]; open; lra|].
        destruct (Rle_dec 2 u) as [U'|U']; [exists 1|exists 2]; eexists; (split; [reflexivity|]); open; lra. }
    destruct G as (k & T & G & G'). exists T. split; [apply nth_error_In in G; exact G|exact G'].
  - assert (G : exists k T, nth_error ups k = Some T /\ tin T u v).
    { destruct (Rle_dec v 1) as [V|V].
      - destruct (Rle_dec u 1) as [U|U]; [exists 0; eexists; split; [reflexivity|]; open; lra|].
        destruct (Rle_dec 2 u) as [U'|U']; [exists 2|exists 1]; eexists; (split; [reflexivity|]); open; lra.
      - destruct (Rle_dec (u + v) 2) as [U|U]; [exists 0; eexists; split; [reflexivity|]; open; lra|].
        destruct (Rle_dec v (u - 1)) as [U'|U']; [exists 2|exists 3]; eexists; (split; [reflexivity|]); open; lra. }
    destruct G as (k & T & G & G'). exists T. split; [apply nth_error_In in G; exact G|exact G'].
Qed.
Lemma tdisjoint k k' T T' u v : nth_error ts k = Some T -> nth_error ts k' = Some T' -> tint T u v -> tin T' u v -> k = k'.
Proof.
  intros H H' I J. destruct Hts as [Ht|[Ht|Ht]]; rewrite Ht in *.
  - destruct k as [|k]; [|destruct k; discriminate H]. destruct k' as [|k']; [reflexivity|destruct k'; discriminate H'].
  - destruct k as [|[|[|[|k]]]]; cbn in H; [| | | |destruct k; discriminate H]; injection H as <-;
    (destruct k' as [|[|[|[|k']]]]; cbn in H'; [| | | |destruct k'; discriminate H']; injection H' as <-; try reflexivity; exfalso; open; lra).
  - destruct k as [|[|[|[|k]]]]; cbn in H; [| | | |destruct k; discriminate H]; injection H as <-;
    (destruct k' as [|[|[|[|k']]]]; cbn in H'; [| | | |destruct k'; discriminate H']; injection H' as <-; try reflexivity; exfalso; open; lra).
Qed.
End Kinds.

Section Tiling.
Variables (nelx n : nat) (w y : nat -> nat) (r : nat -> bool) (h : R).
Hypothesis HL : layered nelx n w y r.
Hypothesis Hh : (0 < h)%R.
Notation L := (L n).
Notation W := (W n w).
Notation Hy := (Hy n y).
Notation Rf := (Rf n r).
Notation NX := (NX nelx n w).
Notation WN := (WN n w).
Notation NN := (NN nelx n w).
Notation SN := (SN nelx n w r).
Notation SE := (SE nelx n w r).
Notation Y := (Y n y).
Notation X := (coorl nelx n w y r h).
Notation C := (connl nelx n w r).
Notation sz := (sz n w r).
Notation tm := (tm n r).
Notation elem_case := (elem_case nelx n w r).
Notation node_case := (node_case nelx n w y r).

Lemma tm_kinds iy : tm iy = [sq] \/ tm iy = lows \/ tm iy = ups.
Proof. unfold Proof_FineLayerMesh.tm. destruct (Rf iy); [destruct (iy <? n)|]; auto. Qed.
Lemma block_size iy : iy < L -> 1 <= sz iy /\ W iy = sz iy * bw (tm iy) /\ Hy iy = sz iy * bh (tm iy).
Proof.
  intros H. unfold Proof_FineLayerMesh.tm. destruct (sz_facts _ _ _ _ _ HL iy H) as [(-> & E1 & E2 & E3)|(-> & E1 & E2 & E3)]; [cbn; lia|].
  destruct (iy <? n); cbn [lows ups bw bh]; lia.
Qed.

Definition px (iy ix : nat) (u : R) : R := (h * (INR (W iy * ix) + INR (sz iy) * u))%R.
Definition py (iy : nat) (v : R) : R := (h * (INR (Y iy) + INR (sz iy) * v))%R.

Lemma sz_pos iy : iy < L -> (0 < INR (sz iy))%R.
Proof. intros H. apply lt_0_INR. destruct (block_size iy H). lia. Qed.
Lemma local iy ix x z : iy < L -> exists u v, x = px iy ix u /\ z = py iy v.
Proof.
  intros H. pose proof (sz_pos iy H). exists ((x / h - INR (W iy * ix)) / INR (sz iy))%R, ((z / h - INR (Y iy)) / INR (sz iy))%R.
  unfold px, py. split; field; split; lra.
Qed.
Lemma corner_at p iy ix t : corner nelx n w y r p iy ix t -> node_at X p (px iy ix (INR (fst t))) (py iy (INR (snd t))).
Proof.
  intros H. apply (node_case_pos _ _ _ _ _ h) in H. unfold pos, rowc, cx, cy in H. unfold node_at, px, py. rewrite H, !plus_INR, !mult_INR. reflexivity.
Qed.

Definition tquad (T : tmpl) (P : R -> R -> R -> R -> R -> R -> R -> R -> Prop) (fx fy : R -> R) : Prop :=
  match T with (a, b, c, d) => P (fx (INR (fst a))) (fy (INR (snd a))) (fx (INR (fst b))) (fy (INR (snd b)))
    (fx (INR (fst c))) (fy (INR (snd c))) (fx (INR (fst d))) (fy (INR (snd d))) end.

Lemma elem_quad e iy ix T : elem_case e iy ix T -> exists E, nth_error C e = Some E /\ tquad T (quad X E) (px iy ix) (py iy) /\
  (forall t, In t (tcorners T) -> exists p, In p E /\ corner nelx n w y r p iy ix t) /\
  (forall p, In p E -> exists t, In t (tcorners T) /\ corner nelx n w y r p iy ix t).
Proof.
  destruct T as [[[t0 t1] t2] t3]. intros H. destruct (elem_at _ _ _ _ _ HL _ _ _ _ _ _ _ H) as (p0 & p1 & p2 & p3 & E & C0 & C1 & C2 & C3).
  exists [p0; p1; p2; p3]. split; [exact E|]. split; [|split].
  - cbn. exists p0, p1, p2, p3. split; [reflexivity|]. repeat split; now apply corner_at.
  - cbn. intros t [<-|[<-|[<-|[<-|[]]]]]; eexists; (split; [|eassumption]); auto.
  - cbn. intros t [<-|[<-|[<-|[<-|[]]]]]; eexists; (split; [|eassumption]); auto.
Qed.

Lemma scale_edge iy ix x0 y0 x1 y1 u v : iy < L ->
  ((0 <= area2 (px iy ix x0) (py iy y0) (px iy ix x1) (py iy y1) (px iy ix u) (py iy v) <-> 0 <= area2 x0 y0 x1 y1 u v) /\
   (0 < area2 (px iy ix x0) (py iy y0) (px iy ix x1) (py iy y1) (px iy ix u) (py iy v) <-> 0 < area2 x0 y0 x1 y1 u v))%R.
Proof.
  intros H. unfold px, py. rewrite area2_scale. apply pos_scale. apply Rmult_lt_0_compat; [exact Hh|now apply sz_pos].
Qed.

Lemma elem_inside e iy ix T E u v : elem_case e iy ix T -> nth_error C e = Some E ->
  (in_element X E (px iy ix u) (py iy v) <-> tin T u v) /\ (in_interior X E (px iy ix u) (py iy v) <-> tint T u v).
Proof.
  intros H HE. destruct (elem_quad _ _ _ _ H) as (E' & HE' & Q & _). rewrite HE in HE'. injection HE' as <-.
  assert (Hi : iy < L) by now destruct H. destruct T as [[[t0 t1] t2] t3]. cbn in Q. unfold tin, tint, inside, strictly_inside.
  split; split.
  - intros (x0 & y0 & x1 & y1 & x2 & y2 & x3 & y3 & Q' & I). destruct (quad_fun _ _ _ _ _ _ _ _ _ _ _ _ _ _ _ _ _ _ Q Q') as ((-> & -> & -> & ->) & -> & -> & -> & ->).
    unfold inside in I. rewrite !(proj1 (scale_edge iy ix _ _ _ _ _ _ Hi)) in I. exact I.
  - intros I. do 8 eexists. split; [exact Q|]. unfold inside. rewrite !(proj1 (scale_edge iy ix _ _ _ _ _ _ Hi)). exact I.
  - intros (x0 & y0 & x1 & y1 & x2 & y2 & x3 & y3 & Q' & I). destruct (quad_fun _ _ _ _ _ _ _ _ _ _ _ _ _ _ _ _ _ _ Q Q') as ((-> & -> & -> & ->) & -> & -> & -> & ->).
    unfold strictly_inside in I. rewrite !(proj2 (scale_edge iy ix _ _ _ _ _ _ Hi)) in I. exact I.
  - intros I. do 8 eexists. split; [exact Q|]. unfold strictly_inside. rewrite !(proj2 (scale_edge iy ix _ _ _ _ _ _ Hi)). exact I.
Qed.

Lemma T_kind e iy ix T : elem_case e iy ix T -> iy < L /\ ix < NX iy /\ In T (tm iy) /\ In T (sq :: lows ++ ups).
Proof.
  intros [k A B D E]. apply nth_error_In in D. repeat split; auto. destruct (tm_kinds iy) as [Q|[Q|Q]]; rewrite Q in D; cbn in D |- *; tauto.
Qed.

Lemma elem_convex e iy ix T E : elem_case e iy ix T -> nth_error C e = Some E -> exists x0 y0 x1 y1 x2 y2 x3 y3,
  quad X E x0 y0 x1 y1 x2 y2 x3 y3 /\ convex_ccw x0 y0 x1 y1 x2 y2 x3 y3.
Proof.
  intros H HE. destruct (elem_quad _ _ _ _ H) as (E' & HE' & Q & _). rewrite HE in HE'. injection HE' as <-.
  destruct (T_kind _ _ _ _ H) as (Hi & _ & _ & Hk). apply tconv_all in Hk. destruct T as [[[t0 t1] t2] t3]. cbn in Q, Hk.
  do 8 eexists. split; [exact Q|]. unfold convex_ccw in *. rewrite !(proj2 (scale_edge iy ix _ _ _ _ _ _ Hi)). exact Hk.
Qed.

(** blocks as boxes *)
Lemma in_box e iy ix T E a b : elem_case e iy ix T -> nth_error C e = Some E -> in_element X E a b ->
  (h * INR (W iy * ix) <= a <= h * INR (W iy * (ix + 1)) /\ h * INR (Y iy) <= b <= h * INR (Y (iy + 1)%nat))%R.
Proof.
  intros H HE I. destruct (T_kind _ _ _ _ H) as (Hi & _ & Hk & _). destruct (local iy ix a b Hi) as (u & v & -> & ->).
  apply (elem_inside _ _ _ _ _ u v H HE) in I. apply (t_box _ (tm_kinds iy)) in I; [|assumption]. destruct (block_size iy Hi) as (S1 & S2 & S3).
  replace (Y (iy + 1)%nat) with (Y iy + Hy iy) by (rewrite Nat.add_1_r; reflexivity).
  rewrite Nat.mul_add_distr_l, Nat.mul_1_r. rewrite !plus_INR. replace (INR (W iy)) with (INR (sz iy) * INR (bw (tm iy)))%R by (rewrite <- mult_INR; now f_equal).
  replace (INR (Hy iy)) with (INR (sz iy) * INR (bh (tm iy)))%R by (rewrite <- mult_INR; now f_equal).
  pose proof (sz_pos iy Hi) as P. unfold px, py. destruct I as [Iu Iv].
  assert (A1 : (0 <= INR (sz iy) * u <= INR (sz iy) * INR (bw (tm iy)))%R) by (split; [apply Rmult_le_pos; lra|apply Rmult_le_compat_l; lra]).
  assert (A2 : (0 <= INR (sz iy) * v <= INR (sz iy) * INR (bh (tm iy)))%R) by (split; [apply Rmult_le_pos; lra|apply Rmult_le_compat_l; lra]).
  split; split; apply Rmult_le_compat_l; lra.
Qed.
Lemma in_box_strict e iy ix T E a b : elem_case e iy ix T -> nth_error C e = Some E -> in_interior X E a b ->
  (h * INR (W iy * ix) < a < h * INR (W iy * (ix + 1)) /\ h * INR (Y iy) < b < h * INR (Y (iy + 1)%nat))%R.
Proof.
  intros H HE I. destruct (T_kind _ _ _ _ H) as (Hi & _ & Hk & _). destruct (local iy ix a b Hi) as (u & v & -> & ->).
  apply (elem_inside _ _ _ _ _ u v H HE) in I. apply (t_box_strict _ (tm_kinds iy)) in I; [|assumption]. destruct (block_size iy Hi) as (S1 & S2 & S3).
  replace (Y (iy + 1)%nat) with (Y iy + Hy iy) by (rewrite Nat.add_1_r; reflexivity).
  rewrite Nat.mul_add_distr_l, Nat.mul_1_r. rewrite !plus_INR. replace (INR (W iy)) with (INR (sz iy) * INR (bw (tm iy)))%R by (rewrite <- mult_INR; now f_equal).
  replace (INR (Hy iy)) with (INR (sz iy) * INR (bh (tm iy)))%R by (rewrite <- mult_INR; now f_equal).
  pose proof (sz_pos iy Hi) as P. unfold px, py. destruct I as [Iu Iv].
  assert (A1 : (0 < INR (sz iy) * u < INR (sz iy) * INR (bw (tm iy)))%R) by (split; [apply Rmult_lt_0_compat; lra|apply Rmult_lt_compat_l; lra]).
  assert (A2 : (0 < INR (sz iy) * v < INR (sz iy) * INR (bh (tm iy)))%R) by (split; [apply Rmult_lt_0_compat; lra|apply Rmult_lt_compat_l; lra]).
  split; split; apply Rmult_lt_compat_l; lra.
Qed.

Lemma INR_lt_h a b x : (h * INR a < x)%R -> (x <= h * INR b)%R -> a < b.
Proof. intros A B. apply INR_lt. apply (Rmult_lt_reg_l h); lra. Qed.
Lemma INR_le_h a b x : (h * INR a <= x)%R -> (x <= h * INR b)%R -> a <= b.
Proof. intros A B. apply INR_le. apply (Rmult_le_reg_l h); lra. Qed.

Lemma elem_get E : In E C -> exists e iy ix T, nth_error C e = Some E /\ elem_case e iy ix T.
Proof.
  intros H. apply In_nth_error in H. destruct H as [e He].
  assert (e < SE L).
  { unfold Proof_FineLayer.SE. rewrite <- (length_blocks (lconn nelx n w r)) by (intros; apply lconn_length). apply nth_error_Some. unfold connl in He. congruence. }
  destruct (elem_cases nelx n w r e H) as (iy & ix & T & K). now exists e, iy, ix, T.
Qed.

Lemma cover a b : (0 <= a <= h * INR nelx)%R -> (0 <= b <= h * INR (Y L))%R -> exists E, In E C /\ in_element X E a b.
Proof.
  intros Ha Hb. pose proof (n_L _ _ _ _ _ HL) as HnL.
  destruct (interval (fun i => h * INR (Y i))%R b (L - 1)) as (iy & Hi & Bi).
  { unfold Proof_FineLayer.Y. cbn. lra. } { replace (S (L - 1)) with L by lia. lra. }
  assert (Hi' : iy < L) by lia. pose proof (NX_pos _ _ _ _ _ HL iy Hi') as HX. pose proof (W_NX _ _ _ _ _ HL iy Hi') as EX.
  destruct (interval (fun i => h * INR (W iy * i))%R a (NX iy - 1)) as (ix & Hx & Ax).
  { rewrite Nat.mul_0_r. cbn. lra. } { replace (S (NX iy - 1)) with (NX iy) by lia. rewrite EX. lra. }
  destruct (local iy ix a b Hi') as (u & v & Eu & Ev). destruct (block_size iy Hi') as (S1 & S2 & S3). pose proof (sz_pos iy Hi') as P.
  assert (Hu : (0 <= u <= INR (bw (tm iy)))%R).
  { rewrite Eu in Ax. unfold px in Ax. destruct Ax as [A1 A2]. apply Rmult_le_reg_l in A1, A2; try lra.
    rewrite Nat.mul_add_distr_l, Nat.mul_1_r, plus_INR in A2. replace (INR (W iy)) with (INR (sz iy) * INR (bw (tm iy)))%R in A2 by (rewrite <- mult_INR; now f_equal).
    split; apply (Rmult_le_reg_l (INR (sz iy))); lra. }
  assert (Hv : (0 <= v <= INR (bh (tm iy)))%R).
  { rewrite Ev in Bi. unfold py in Bi. destruct Bi as [A1 A2]. apply Rmult_le_reg_l in A1, A2; try lra.
    replace (Y (iy + 1)%nat) with (Y iy + Hy iy) in A2 by (rewrite Nat.add_1_r; reflexivity). rewrite plus_INR in A2.
    replace (INR (Hy iy)) with (INR (sz iy) * INR (bh (tm iy)))%R in A2 by (rewrite <- mult_INR; now f_equal).
    split; apply (Rmult_le_reg_l (INR (sz iy))); lra. }
  destruct (tcover _ (tm_kinds iy) u v Hu Hv) as (T & HT & I). apply In_nth_error in HT. destruct HT as [k Hk].
  assert (K : elem_case (SE iy + (ix * length (tm iy) + k)) iy ix T) by (apply (Elem_case _ _ _ _ _ _ _ _ k); auto; lia).
  destruct (elem_quad _ _ _ _ K) as (E & HE & _). exists E. split; [eapply nth_error_In; exact HE|]. rewrite Eu, Ev. now apply (elem_inside _ _ _ _ _ u v K HE).
Qed.

Lemma domain E a b : In E C -> in_element X E a b -> (0 <= a <= h * INR nelx /\ 0 <= b <= h * INR (Y L))%R.
Proof.
  intros H I. destruct (elem_get E H) as (e & iy & ix & T & HE & K). destruct (in_box _ _ _ _ _ _ _ K HE I) as [A B].
  destruct (T_kind _ _ _ _ K) as (Hi & Hx & _). pose proof (W_NX _ _ _ _ _ HL iy Hi) as EX.
  assert (A1 : W iy * (ix + 1) <= nelx) by (rewrite <- EX; apply Nat.mul_le_mono_l; lia).
  assert (A2 : Y (iy + 1) <= Y L) by (apply Y_mono; lia). apply le_INR in A1, A2.
  apply (Rmult_le_compat_l h) in A1, A2; try lra. pose proof (pos_INR (W iy * ix)) as P1. pose proof (pos_INR (Y iy)) as P2.
  apply (Rmult_le_compat_l h) in P1, P2; lra.
Qed.

Lemma disjoint k k' E E' a b : nth_error C k = Some E -> nth_error C k' = Some E' -> in_interior X E a b -> in_element X E' a b -> k = k'.
Proof.
  intros H H' I I'.
  assert (G : forall e E, nth_error C e = Some E -> exists iy ix T, elem_case e iy ix T).
  { intros e F HF. apply elem_cases. unfold Proof_FineLayer.SE. rewrite <- (length_blocks (lconn nelx n w r)) by (intros; apply lconn_length). apply nth_error_Some. unfold connl in HF. congruence. }
  destruct (G _ _ H) as (iy & ix & T & K). destruct (G _ _ H') as (iy' & ix' & T' & K'). clear G.
  destruct (in_box_strict _ _ _ _ _ _ _ K H I) as [[A1 A2] [B1 B2]]. destruct (in_box _ _ _ _ _ _ _ K' H' I') as [[A1' A2'] [B1' B2']].
  destruct (T_kind _ _ _ _ K) as (Hi & Hx & Hk & _). destruct (T_kind _ _ _ _ K') as (Hi' & Hx' & Hk' & _).
  assert (iy = iy').
  { assert (Y iy < Y (iy' + 1)) by (eapply INR_lt_h; eassumption).
    assert (Y iy' < Y (iy + 1)) by (apply INR_lt; apply (Rmult_lt_reg_l h); lra).
    destruct (lt_eq_lt_dec iy iy') as [[Q|Q]|Q]; [|assumption|].
    - pose proof (Y_mono n y (iy + 1) iy' ltac:(lia)). lia.
    - pose proof (Y_mono n y (iy' + 1) iy ltac:(lia)). lia. }
  subst iy'. assert (ix = ix').
  { assert (W iy * ix < W iy * (ix' + 1)) by (eapply INR_lt_h; eassumption).
    assert (W iy * ix' < W iy * (ix + 1)) by (apply INR_lt; apply (Rmult_lt_reg_l h); lra).
    apply Nat.mul_lt_mono_pos_l in H0, H1; try (apply (W_pos _ _ _ _ _ HL); assumption). lia. }
  subst ix'. destruct (local iy ix a b Hi) as (u & v & Eu & Ev). rewrite Eu, Ev in *.
  apply (elem_inside _ _ _ _ _ u v K H) in I. apply (elem_inside _ _ _ _ _ u v K' H') in I'.
  destruct K as [j _ _ Hj ->], K' as [j' _ _ Hj' ->]. now rewrite (tdisjoint _ (tm_kinds iy) _ _ _ _ u v Hj Hj' I I').
Qed.

(** nodes in a block *)
Lemma local_nodes p iy ix a b : node_case p a b -> iy < L -> ix < NX iy ->
  W iy * ix <= a <= W iy * (ix + 1) -> Y iy <= b <= Y (iy + 1) ->
  exists u v, In (u, v) (flat_map tcorners (tm iy)) /\ a = W iy * ix + sz iy * u /\ b = Y iy + sz iy * v.
Proof.
  intros K Hi Hx Ha Hb. pose proof (Hy_pos _ _ _ _ _ HL iy Hi) as HP. pose proof (Y_lt n y iy (iy + 1) ltac:(lia) ltac:(lia)) as _.
  assert (EY : Y (iy + 1) = Y iy + Hy iy) by (rewrite Nat.add_1_r; reflexivity).
  rewrite Nat.mul_add_distr_l, Nat.mul_1_r in Ha. unfold Proof_FineLayerMesh.tm, Proof_FineLayerMesh.sz.
  destruct K as [i j Hi' Hj Hp|i j k s Hi' Hr Hj Hk Hs Ew Eh Hp].
  - assert (Q : i = iy \/ i = iy + 1).
    { destruct (le_lt_dec i iy) as [G|G].
      - destruct (Nat.eq_dec i iy); [now left|]. pose proof (Y_lt n y i iy ltac:(lia) ltac:(lia)). pose proof (Hy_pos _ _ _ _ _ HL i ltac:(lia)). lia.
      - destruct (Nat.eq_dec i (iy + 1)); [now right|]. pose proof (Y_lt n y (iy + 1) i ltac:(lia) ltac:(lia)). pose proof (Hy_pos _ _ _ _ _ HL (iy + 1) ltac:(lia)). lia. }
    destruct (WN_layer _ _ _ _ _ HL iy Hi) as [(-> & E1 & E2 & E3)|(-> & s & Hs & Ew & Eh & Ec)].
    + assert (EW : WN i = W iy) by (destruct Q as [-> | ->]; assumption). rewrite EW in *. pose proof (W_pos _ _ _ _ _ HL iy Hi).
      assert (j = ix \/ j = ix + 1) by nia. cbn [flat_map tcorners sq app].
      exists (j - ix), (i - iy). split; [|split].
      * destruct H0 as [-> | ->], Q as [-> | ->]; rewrite ?Nat.sub_diag, ?(Nat.add_comm _ 1), ?Nat.add_sub; cbn; auto 10.
      * destruct H0 as [-> | ->]; nia.
      * destruct Q as [-> | ->]; rewrite ?Nat.sub_diag; [lia|]. replace (iy + 1 - iy) with 1 by lia. lia.
    + assert (ES : W iy / 3 = s) by (rewrite Ew, (Nat.mul_comm 3 s), Nat.div_mul; lia). rewrite ES, Ew in *. destruct Ec as [(Hc & E1 & E2)|(Hc & E1 & E2)].
      * destruct (Nat.ltb_spec iy n) as [_|]; [|lia]. destruct Q as [-> | ->]; rewrite ?E1, ?E2 in *.
        -- assert (j = ix \/ j = ix + 1) by nia. exists (3 * (j - ix)), 0. split; [|split; [destruct H as [-> | ->]; nia|lia]].
           destruct H as [-> | ->]; [replace (3 * (ix - ix)) with 0 by lia|replace (3 * (ix + 1 - ix)) with 3 by lia]; cbn; auto 20.
        -- assert (j = 3 * ix \/ j = 3 * ix + 1 \/ j = 3 * ix + 2 \/ j = 3 * ix + 3) by nia. exists (j - 3 * ix), 2.
           split; [|split; [nia|lia]].
           destruct H as [-> |[-> |[-> | ->]]]; [replace (3 * ix - 3 * ix) with 0 by lia|replace (3 * ix + 1 - 3 * ix) with 1 by lia|replace (3 * ix + 2 - 3 * ix) with 2 by lia|replace (3 * ix + 3 - 3 * ix) with 3 by lia]; cbn; auto 20.
      * destruct (Nat.ltb_spec iy n) as [|_]; [lia|]. destruct Q as [-> | ->]; rewrite ?E1, ?E2 in *.
        -- assert (j = 3 * ix \/ j = 3 * ix + 1 \/ j = 3 * ix + 2 \/ j = 3 * ix + 3) by nia. exists (j - 3 * ix), 0.
           split; [|split; [nia|lia]].
           destruct H as [-> |[-> |[-> | ->]]]; [replace (3 * ix - 3 * ix) with 0 by lia|replace (3 * ix + 1 - 3 * ix) with 1 by lia|replace (3 * ix + 2 - 3 * ix) with 2 by lia|replace (3 * ix + 3 - 3 * ix) with 3 by lia]; cbn; auto 20.
        -- assert (j = ix \/ j = ix + 1) by nia. exists (3 * (j - ix)), 2. split; [|split; [destruct H as [-> | ->]; nia|lia]].
           destruct H as [-> | ->]; [replace (3 * (ix - ix)) with 0 by lia|replace (3 * (ix + 1 - ix)) with 3 by lia]; cbn; auto 20.
  - assert (i = iy).
    { destruct (lt_eq_lt_dec i iy) as [[G|G]|G]; [|assumption|].
      - pose proof (Y_lt n y i iy G ltac:(lia)). lia.
      - pose proof (Y_mono n y (iy + 1) i ltac:(lia)). lia. }
    subst i. rewrite Hr. assert (ES : W iy / 3 = s) by (rewrite Ew, (Nat.mul_comm 3 s), Nat.div_mul; lia). rewrite ES, Ew in *.
    assert (j = ix) by nia. subst j. exists (k + 1), 1. split; [|lia].
    destruct (iy <? n); (destruct k as [|[|k]]; [| |lia]); cbn; auto 20.
Qed.

Definition local_ok (ts : list tmpl) : Prop := forall T u v, In T ts -> In (u, v) (flat_map tcorners ts) -> tin T (INR u) (INR v) -> In (u, v) (tcorners T).
Ltac peel H := cbn [flat_map tcorners lows ups sq app In] in H.
Ltac uv_case := cbn [tcorners In]; first [solve [auto 10] | intros I; exfalso; open; lra].
Ltac each_uv H := repeat (let E := fresh in destruct H as [E|H]; [injection E as <- <-; uv_case|]); destruct H.
Lemma local_all iy : local_ok (tm iy).
Proof.
  intros T u v HT Huv. destruct (tm_kinds iy) as [Q|[Q|Q]]; rewrite Q in *.
  - destruct HT as [<-|[]]. peel Huv. intros _. exact Huv.
  - peel HT. peel Huv.
    repeat (destruct HT as [<-|HT]; [each_uv Huv|]); destruct HT.
  - peel HT. peel Huv.
    repeat (destruct HT as [<-|HT]; [each_uv Huv|]); destruct HT.
Qed.

Lemma conforming E p a b : In E C -> node_at X p a b -> in_element X E a b -> In p E.
Proof.
  intros H Hp I. destruct (elem_get E H) as (e & iy & ix & T & HE & K). destruct (in_box _ _ _ _ _ _ _ K HE I) as [[A1 A2] [B1 B2]].
  destruct (T_kind _ _ _ _ K) as (Hi & Hx & HT & _).
  destruct (node_at_pos _ _ _ _ _ h HL p a b Hp) as (a' & b' & Ea & Eb & Kp). rewrite Ea, Eb in *.
  apply Rmult_le_reg_l in A1, A2, B1, B2; try exact Hh. apply INR_le in A1, A2, B1, B2.
  destruct (local_nodes _ _ _ _ _ Kp Hi Hx (conj A1 A2) (conj B1 B2)) as (u & v & Huv & Eu & Ev).
  assert (Ep : (h * INR a')%R = px iy ix (INR u) /\ (h * INR b')%R = py iy (INR v)).
  { rewrite Eu, Ev. unfold px, py. rewrite !plus_INR, !mult_INR. split; reflexivity. }
  destruct Ep as [Ep1 Ep2]. rewrite Ep1, Ep2 in I. apply (elem_inside _ _ _ _ _ _ _ K HE) in I.
  apply (local_all iy) in I; try assumption. destruct (elem_quad _ _ _ _ K) as (E' & HE' & _ & Q & _). rewrite HE in HE'. injection HE' as <-.
  destruct (Q _ I) as (p' & Hp' & C'). unfold corner, cx, cy in C'. cbn [fst snd] in C'. rewrite <- Eu, <- Ev in C'.
  now rewrite (case_inj _ _ _ _ _ HL _ _ _ _ Kp C').
Qed.

Lemma used p : p < length X -> exists E, In E C /\ In p E.
Proof.
  intros Hp. destruct (FL_in_domain _ _ _ _ _ h HL Hh) as (D1 & D2 & _). destruct (D1 p Hp) as (a & b & N). destruct (D2 _ _ _ N) as [A B].
  destruct (cover a b A B) as (E & HE & I). exists E. split; [exact HE|]. eapply conforming; eassumption.
Qed.

Lemma FL_tiles : tiles X C (h * INR nelx) (h * INR (Y L)).
Proof.
  constructor.
  - intros E H. destruct (elem_get E H) as (e & iy & ix & T & HE & K). eapply elem_convex; eassumption.
  - exact cover.
  - exact domain.
  - intros k k' E E' a b H H' Hne I I'. apply Hne. eapply disjoint; eassumption.
  - exact conforming.
  - exact used.
Qed.
End Tiling.
