(** A tiling has every side once; the outline of a rectangle has every step once and in one direction. *)
From Coq Require Import Reals Lra Lia List Arith Permutation.
From Verif Require Import Base Spec Spec2d Sums Spec_Tiling Spec_Conform Proof_RegularTiling Proof_Conform.
Import ListNotations.
Local Open Scope R_scope.

Lemma eps1 a b : 0 < a -> exists t0, 0 < t0 /\ forall t, 0 < t < t0 -> 0 < a + t * b.
Proof.
  intros Ha. destruct (Rle_dec 0 b) as [Hb|Hb].
  - exists 1. split; [lra|]. intros t [Ht _]. pose proof (Rmult_le_pos t b ltac:(lra) Hb). lra.
  - exists (a / - b). assert (0 < - b) by lra. split; [now apply Rdiv_lt_0_compat|]. intros t [Ht Ht'].
    apply (Rmult_lt_compat_r (- b)) in Ht'; [|assumption]. unfold Rdiv in Ht'. rewrite Rmult_assoc, Rinv_l in Ht' by lra. lra.
Qed.
Lemma eps2 (P Q : R -> Prop) : (exists t0, 0 < t0 /\ forall t, 0 < t < t0 -> P t) -> (exists t0, 0 < t0 /\ forall t, 0 < t < t0 -> Q t) ->
  exists t0, 0 < t0 /\ forall t, 0 < t < t0 -> P t /\ Q t.
Proof.
  intros (a & Ha & HP) (b & Hb & HQ). exists (Rmin a b). split; [now apply Rmin_pos|]. intros t Ht.
  pose proof (Rmin_l a b). pose proof (Rmin_r a b). split; [apply HP|apply HQ]; lra.
Qed.
Lemma eps_ex (P : R -> Prop) : (exists t0, 0 < t0 /\ forall t, 0 < t < t0 -> P t) -> exists t, P t.
Proof. intros (a & Ha & H). exists (a / 2). apply H. lra. Qed.
Lemma eps_aff a b (g : R -> R) : 0 < a -> (forall t, g t = a + t * b) -> exists t0, 0 < t0 /\ forall t, 0 < t < t0 -> 0 < g t.
Proof. intros Ha Hg. destruct (eps1 a b Ha) as (t0 & H0 & H). exists t0. split; [exact H0|]. intros t Ht. rewrite Hg. now apply H. Qed.

(** a point just left of the middle of a step from (a, b) to (c, d) *)
Definition lx (a b c d t : R) : R := (a + c) / 2 - t * (d - b).
Definition ly (a b c d t : R) : R := (b + d) / 2 + t * (c - a).

Lemma area2_pos_distinct a b c d e f : 0 < area2 a b c d e f -> 0 < (c - a) * (c - a) + (d - b) * (d - b).
Proof.
  unfold area2. intros H. destruct (Req_dec (c - a) 0) as [E1|E1].
  - destruct (Req_dec (d - b) 0) as [E2|E2]; [rewrite E1, E2 in H; lra|]. pose proof (Rsqr_pos_lt _ E2). unfold Rsqr in *. rewrite E1. lra.
  - pose proof (Rsqr_pos_lt _ E1). pose proof (Rle_0_sqr (d - b)). unfold Rsqr in *. lra.
Qed.

Lemma near_side X C Lx Ly e p q : tiles X C Lx Ly -> In e C -> In (p, q) (sides e) ->
  exists a b c d, node_at X p a b /\ node_at X q c d /\ exists t0, 0 < t0 /\ forall t, 0 < t < t0 -> in_interior X e (lx a b c d t) (ly a b c d t).
Proof.
  intros HT He Hs. destruct (t_convex _ _ _ _ HT e He) as (x0 & y0 & x1 & y1 & x2 & y2 & x3 & y3 & HQ & HC). pose proof HQ as (n0 & n1 & n2 & n3 & -> & A0 & A1 & A2 & A3).
  destruct HC as (K0 & K1 & K2 & K3).
  pose proof (area2_pos_distinct _ _ _ _ _ _ K0) as D0. pose proof (area2_pos_distinct _ _ _ _ _ _ K1) as D1. pose proof (area2_pos_distinct _ _ _ _ _ _ K2) as D2. pose proof (area2_pos_distinct _ _ _ _ _ _ K3) as D3.
  assert (G : forall t, strictly_inside x0 y0 x1 y1 x2 y2 x3 y3 t = strictly_inside x0 y0 x1 y1 x2 y2 x3 y3 t) by reflexivity. clear G.
  assert (I : forall a b c d, (exists t0, 0 < t0 /\ forall t, 0 < t < t0 -> strictly_inside x0 y0 x1 y1 x2 y2 x3 y3 (lx a b c d t) (ly a b c d t)) ->
    exists t0, 0 < t0 /\ forall t, 0 < t < t0 -> in_interior X [n0; n1; n2; n3] (lx a b c d t) (ly a b c d t)).
  { intros a b c d (t0 & H0 & H). exists t0. split; [exact H0|]. intros t Ht. exists x0, y0, x1, y1, x2, y2, x3, y3. split; [exact HQ|]. now apply H. }
  unfold sides in Hs. cbn in Hs. destruct Hs as [E|[E|[E|[E|[]]]]]; injection E as <- <-.
  - exists x0, y0, x1, y1. split; [exact A0|]. split; [exact A1|]. apply I. repeat apply eps2.
    + exists 1. split; [lra|]. intros t Ht. replace (area2 _ _ _ _ _ _) with (t * ((x1 - x0) * (x1 - x0) + (y1 - y0) * (y1 - y0))) by (unfold area2, lx, ly; field). apply Rmult_lt_0_compat; lra.
    + apply (eps_aff (area2 x0 y0 x1 y1 x2 y2 / 2) ((x2 - x1) * (x1 - x0) + (y2 - y1) * (y1 - y0))); [lra|]. intros t. unfold area2, lx, ly. field.
    + apply (eps_aff ((area2 x1 y1 x2 y2 x3 y3 + area2 x2 y2 x3 y3 x0 y0) / 2) ((x3 - x2) * (x1 - x0) + (y3 - y2) * (y1 - y0))); [lra|]. intros t. unfold area2, lx, ly. field.
    + apply (eps_aff (area2 x3 y3 x0 y0 x1 y1 / 2) ((x0 - x3) * (x1 - x0) + (y0 - y3) * (y1 - y0))); [lra|]. intros t. unfold area2, lx, ly. field.
  - exists x1, y1, x2, y2. split; [exact A1|]. split; [exact A2|]. apply I. repeat apply eps2.
    + apply (eps_aff (area2 x0 y0 x1 y1 x2 y2 / 2) ((x1 - x0) * (x2 - x1) + (y1 - y0) * (y2 - y1))); [lra|]. intros t. unfold area2, lx, ly. field.
    + exists 1. split; [lra|]. intros t Ht. replace (area2 _ _ _ _ _ _) with (t * ((x2 - x1) * (x2 - x1) + (y2 - y1) * (y2 - y1))) by (unfold area2, lx, ly; field). apply Rmult_lt_0_compat; lra.
    + apply (eps_aff (area2 x1 y1 x2 y2 x3 y3 / 2) ((x3 - x2) * (x2 - x1) + (y3 - y2) * (y2 - y1))); [lra|]. intros t. unfold area2, lx, ly. field.
    + apply (eps_aff ((area2 x2 y2 x3 y3 x0 y0 + area2 x3 y3 x0 y0 x1 y1) / 2) ((x0 - x3) * (x2 - x1) + (y0 - y3) * (y2 - y1))); [lra|]. intros t. unfold area2, lx, ly. field.
  - exists x2, y2, x3, y3. split; [exact A2|]. split; [exact A3|]. apply I. repeat apply eps2.
    + apply (eps_aff ((area2 x0 y0 x1 y1 x2 y2 + area2 x3 y3 x0 y0 x1 y1) / 2) ((x1 - x0) * (x3 - x2) + (y1 - y0) * (y3 - y2))); [lra|]. intros t. unfold area2, lx, ly. field.
    + apply (eps_aff (area2 x1 y1 x2 y2 x3 y3 / 2) ((x2 - x1) * (x3 - x2) + (y2 - y1) * (y3 - y2))); [lra|]. intros t. unfold area2, lx, ly. field.
    + exists 1. split; [lra|]. intros t Ht. replace (area2 _ _ _ _ _ _) with (t * ((x3 - x2) * (x3 - x2) + (y3 - y2) * (y3 - y2))) by (unfold area2, lx, ly; field). apply Rmult_lt_0_compat; lra.
    + apply (eps_aff (area2 x2 y2 x3 y3 x0 y0 / 2) ((x0 - x3) * (x3 - x2) + (y0 - y3) * (y3 - y2))); [lra|]. intros t. unfold area2, lx, ly. field.
  - exists x3, y3, x0, y0. split; [exact A3|]. split; [exact A0|]. apply I. repeat apply eps2.
    + apply (eps_aff (area2 x3 y3 x0 y0 x1 y1 / 2) ((x1 - x0) * (x0 - x3) + (y1 - y0) * (y0 - y3))); [lra|]. intros t. unfold area2, lx, ly. field.
    + apply (eps_aff ((area2 x0 y0 x1 y1 x2 y2 + area2 x1 y1 x2 y2 x3 y3) / 2) ((x2 - x1) * (x0 - x3) + (y2 - y1) * (y0 - y3))); [lra|]. intros t. unfold area2, lx, ly. field.
    + apply (eps_aff (area2 x2 y2 x3 y3 x0 y0 / 2) ((x3 - x2) * (x0 - x3) + (y3 - y2) * (y0 - y3))); [lra|]. intros t. unfold area2, lx, ly. field.
    + exists 1. split; [lra|]. intros t Ht. replace (area2 _ _ _ _ _ _) with (t * ((x0 - x3) * (x0 - x3) + (y0 - y3) * (y0 - y3))) by (unfold area2, lx, ly; field). apply Rmult_lt_0_compat; lra.
Qed.

Lemma interior_in X e x y : in_interior X e x y -> in_element X e x y.
Proof.
  intros (x0 & y0 & x1 & y1 & x2 & y2 & x3 & y3 & Q & A & B & C & D). exists x0, y0, x1, y1, x2, y2, x3, y3. split; [exact Q|]. repeat split; lra.
Qed.

Lemma NoDup_flat_map {A B} (g : A -> list B) l : (forall a, In a l -> NoDup (g a)) ->
  (forall k k' a a' b, nth_error l k = Some a -> nth_error l k' = Some a' -> In b (g a) -> In b (g a') -> k = k') -> NoDup (flat_map g l).
Proof.
  induction l as [|a l IH]; intros H1 H2; cbn; [constructor|]. apply NoDup_app_intro.
  - apply H1. now left.
  - apply IH; [intros; apply H1; now right|]. intros k k' b b' z K K' Z Z'. assert (S k = S k'); [|lia]. eapply H2; [exact K|exact K'|exact Z|exact Z'].
  - intros z Z Z'. apply in_flat_map in Z'. destruct Z' as (b & Hb & Z'). apply In_nth_error in Hb. destruct Hb as [k K].
    assert (O = S k); [|lia]. eapply H2; [reflexivity|exact K|exact Z|exact Z'].
Qed.
Lemma combine_NoDup {A B} : forall (l : list A) (l' : list B), NoDup l -> NoDup (combine l l').
Proof.
  induction l as [|a l IH]; intros [|b l'] H; cbn; try constructor; inversion H; subst.
  - intros K. apply in_combine_l in K. contradiction.
  - now apply IH.
Qed.

Lemma convex_NoDup X e x0 y0 x1 y1 x2 y2 x3 y3 : quad X e x0 y0 x1 y1 x2 y2 x3 y3 -> convex_ccw x0 y0 x1 y1 x2 y2 x3 y3 -> NoDup e.
Proof.
  intros (n0 & n1 & n2 & n3 & -> & A0 & A1 & A2 & A3) (K0 & K1 & K2 & K3). unfold node_at in *. unfold area2 in *.
  assert (N : n0 <> n1 /\ n0 <> n2 /\ n0 <> n3 /\ n1 <> n2 /\ n1 <> n3 /\ n2 <> n3).
  { repeat split; intros ->; rewrite ?A0, ?A1, ?A2, ?A3 in *; repeat match goal with H : Some _ = Some _ |- _ => injection H; clear H; intros; subst end; lra. }
  destruct N as (N1 & N2 & N3 & N4 & N5 & N6). repeat constructor; cbn; intuition congruence.
Qed.

(** quadrilaterals *)
Lemma tiles_sides X C Lx Ly : tiles X C Lx Ly -> NoDup (flat_map sides C).
Proof.
  intros HT. apply NoDup_flat_map.
  - intros e He. apply combine_NoDup. destruct (t_convex _ _ _ _ HT e He) as (x0 & y0 & x1 & y1 & x2 & y2 & x3 & y3 & HQ & HC). eapply convex_NoDup; eassumption.
  - intros k k' e e' [p q] K K' S S'. destruct (Nat.eq_dec k k') as [->|Hne]; [reflexivity|]. exfalso.
    destruct (near_side X C Lx Ly e p q HT (nth_error_In _ _ K) S) as (a & b & c & d & P1 & P2 & I).
    destruct (near_side X C Lx Ly e' p q HT (nth_error_In _ _ K') S') as (a' & b' & c' & d' & P1' & P2' & I').
    unfold node_at in *. rewrite P1 in P1'. rewrite P2 in P2'. injection P1' as <- <-. injection P2' as <- <-.
    destruct (eps_ex _ (eps2 _ _ I I')) as [t [G G']]. exact (t_disjoint _ _ _ _ HT k k' e e' _ _ K K' Hne G (interior_in _ _ _ _ G')).
Qed.

(** triangles *)
Lemma near_side3 X C Lx Ly e p q : tri_tiles X C Lx Ly -> In e C -> In (p, q) (sides e) ->
  exists a b c d, node_at X p a b /\ node_at X q c d /\ exists t0, 0 < t0 /\ forall t, 0 < t < t0 -> in_triangle_interior X e (lx a b c d t) (ly a b c d t).
Proof.
  intros HT He Hs. destruct (tt_ccw _ _ _ _ HT e He) as (x0 & y0 & x1 & y1 & x2 & y2 & HQ & K0). pose proof HQ as (n0 & n1 & n2 & -> & A0 & A1 & A2).
  assert (K1 : 0 < area2 x1 y1 x2 y2 x0 y0) by (unfold area2 in *; lra). assert (K2 : 0 < area2 x2 y2 x0 y0 x1 y1) by (unfold area2 in *; lra).
  pose proof (area2_pos_distinct _ _ _ _ _ _ K0) as D0. pose proof (area2_pos_distinct _ _ _ _ _ _ K1) as D1. pose proof (area2_pos_distinct _ _ _ _ _ _ K2) as D2.
  assert (I : forall a b c d, (exists t0, 0 < t0 /\ forall t, 0 < t < t0 -> 0 < area2 x0 y0 x1 y1 (lx a b c d t) (ly a b c d t) /\ 0 < area2 x1 y1 x2 y2 (lx a b c d t) (ly a b c d t) /\ 0 < area2 x2 y2 x0 y0 (lx a b c d t) (ly a b c d t)) ->
    exists t0, 0 < t0 /\ forall t, 0 < t < t0 -> in_triangle_interior X [n0; n1; n2] (lx a b c d t) (ly a b c d t)).
  { intros a b c d (t0 & H0 & H). exists t0. split; [exact H0|]. intros t Ht. exists x0, y0, x1, y1, x2, y2. split; [exact HQ|]. now apply H. }
  unfold sides in Hs. cbn in Hs. destruct Hs as [E|[E|[E|[]]]]; injection E as <- <-.
  - exists x0, y0, x1, y1. split; [exact A0|]. split; [exact A1|]. apply I. repeat apply eps2.
    + exists 1. split; [lra|]. intros t Ht. replace (area2 _ _ _ _ _ _) with (t * ((x1 - x0) * (x1 - x0) + (y1 - y0) * (y1 - y0))) by (unfold area2, lx, ly; field). apply Rmult_lt_0_compat; lra.
    + apply (eps_aff (area2 x0 y0 x1 y1 x2 y2 / 2) ((x2 - x1) * (x1 - x0) + (y2 - y1) * (y1 - y0))); [lra|]. intros t. unfold area2, lx, ly. field.
    + apply (eps_aff (area2 x0 y0 x1 y1 x2 y2 / 2) ((x0 - x2) * (x1 - x0) + (y0 - y2) * (y1 - y0))); [lra|]. intros t. unfold area2, lx, ly. field.
  - exists x1, y1, x2, y2. split; [exact A1|]. split; [exact A2|]. apply I. repeat apply eps2.
    + apply (eps_aff (area2 x0 y0 x1 y1 x2 y2 / 2) ((x1 - x0) * (x2 - x1) + (y1 - y0) * (y2 - y1))); [lra|]. intros t. unfold area2, lx, ly. field.
    + exists 1. split; [lra|]. intros t Ht. replace (area2 _ _ _ _ _ _) with (t * ((x2 - x1) * (x2 - x1) + (y2 - y1) * (y2 - y1))) by (unfold area2, lx, ly; field). apply Rmult_lt_0_compat; lra.
    + apply (eps_aff (area2 x0 y0 x1 y1 x2 y2 / 2) ((x0 - x2) * (x2 - x1) + (y0 - y2) * (y2 - y1))); [lra|]. intros t. unfold area2, lx, ly. field.
  - exists x2, y2, x0, y0. split; [exact A2|]. split; [exact A0|]. apply I. repeat apply eps2.
    + apply (eps_aff (area2 x0 y0 x1 y1 x2 y2 / 2) ((x1 - x0) * (x0 - x2) + (y1 - y0) * (y0 - y2))); [lra|]. intros t. unfold area2, lx, ly. field.
    + apply (eps_aff (area2 x0 y0 x1 y1 x2 y2 / 2) ((x2 - x1) * (x0 - x2) + (y2 - y1) * (y0 - y2))); [lra|]. intros t. unfold area2, lx, ly. field.
    + exists 1. split; [lra|]. intros t Ht. replace (area2 _ _ _ _ _ _) with (t * ((x0 - x2) * (x0 - x2) + (y0 - y2) * (y0 - y2))) by (unfold area2, lx, ly; field). apply Rmult_lt_0_compat; lra.
Qed.
Lemma tri_sides X C Lx Ly : tri_tiles X C Lx Ly -> NoDup (flat_map sides C).
Proof.
  intros HT. apply NoDup_flat_map.
  - intros e He. apply combine_NoDup. destruct (tt_ccw _ _ _ _ HT e He) as (x0 & y0 & x1 & y1 & x2 & y2 & HQ & HC).
    destruct HQ as (n0 & n1 & n2 & -> & A0 & A1 & A2). unfold node_at, area2 in *.
    assert (N : n0 <> n1 /\ n0 <> n2 /\ n1 <> n2).
    { repeat split; intros ->; rewrite ?A0, ?A1, ?A2 in *; repeat match goal with H : Some _ = Some _ |- _ => injection H; clear H; intros; subst end; lra. }
    destruct N as (N1 & N2 & N3). repeat constructor; cbn; intuition congruence.
  - intros k k' e e' [p q] K K' S S'. destruct (Nat.eq_dec k k') as [->|Hne]; [reflexivity|]. exfalso.
    destruct (near_side3 X C Lx Ly e p q HT (nth_error_In _ _ K) S) as (a & b & c & d & P1 & P2 & I).
    destruct (near_side3 X C Lx Ly e' p q HT (nth_error_In _ _ K') S') as (a' & b' & c' & d' & P1' & P2' & I').
    unfold node_at in *. rewrite P1 in P1'. rewrite P2 in P2'. injection P1' as <- <-. injection P2' as <- <-.
    destruct (eps_ex _ (eps2 _ _ I I')) as [t [G G']]. apply (tt_disjoint _ _ _ _ HT k k' e e' _ _ K K' Hne G).
    destruct G' as (x0 & y0 & x1 & y1 & x2 & y2 & Q & A & B & D). exists x0, y0, x1, y1, x2, y2. split; [exact Q|]. repeat split; lra.
Qed.

(** ** the outline *)
Lemma steps_nth l p q : In (p, q) (steps l) -> exists i, nth_error l i = Some p /\ nth_error l (S i) = Some q.
Proof.
  unfold steps. induction l as [|a l IH]; [contradiction|]. cbn [tl combine]. destruct l as [|b l]; [contradiction|]. cbn [combine]. intros [E|H].
  - injection E as <- <-. now exists O.
  - destruct (IH H) as [i [A B]]. now exists (S i).
Qed.

Lemma boundary_outline X Lx Ly bot top lft rgt obot otop olft orgt bl br tl tr : 0 < Lx -> 0 < Ly ->
  boundary_sets X Lx Ly bot top lft rgt obot otop olft orgt bl br tl tr ->
  NoDup (outline bot rgt top lft) /\ forall s, In s (outline bot rgt top lft) -> ~ In (back s) (outline bot rgt top lft).
Proof.
  intros HLx HLy B. destruct B as [[Ab Ib] [At It] [Al Il] [Ar Ir] _ _ _ _ _ _ _ _].
  assert (PS : forall l P c, lists_nodes X l P -> increasing_along X l c -> forall p q, In (p, q) (steps l) -> exists x y x' y', node_at X p x y /\ node_at X q x' y' /\ P x y /\ P x' y' /\ c x y < c x' y').
  { intros l P c [_ HP] HI p q Hs. destruct (steps_nth l p q Hs) as [i [N N']].
    destruct (proj1 (HP p) (nth_error_In _ _ N)) as (x & y & K & Q). destruct (proj1 (HP q) (nth_error_In _ _ N')) as (x' & y' & K' & Q').
    exists x, y, x', y'. repeat (split; [assumption|]). exact (HI i (S i) p q x y x' y' ltac:(lia) N N' K K'). }
  assert (ND : forall l P, lists_nodes X l P -> NoDup (steps l)) by (intros l P [N _]; now apply combine_NoDup).
  assert (NB : forall l, NoDup l -> NoDup (map back l)).
  { intros l Nl. apply NoDup_map_inj; [exact Nl|]. intros [a b] [c d] _ _ E. unfold back in E. cbn in E. congruence. }
  assert (Back : forall s l, In s (map back l) -> In (back s) l) by (intros s l H; apply in_map_iff in H; destruct H as [[a b] [<- H]]; exact H).
  pose proof (PS _ _ _ Ab Ib) as Sb. pose proof (PS _ _ _ At It) as St. pose proof (PS _ _ _ Al Il) as Sl. pose proof (PS _ _ _ Ar Ir) as Sr. clear PS.
  assert (Dir : forall p q, In (p, q) (outline bot rgt top lft) -> exists x y x' y', node_at X p x y /\ node_at X q x' y' /\
     ((In (p, q) (steps bot) /\ x < x' /\ y = 0 /\ y' = 0) \/ (In (p, q) (steps rgt) /\ y < y' /\ x = Lx /\ x' = Lx) \/
      (In (p, q) (map back (steps top)) /\ x' < x /\ y = Ly /\ y' = Ly) \/ (In (p, q) (map back (steps lft)) /\ y' < y /\ x = 0 /\ x' = 0))).
  { intros p q H. unfold outline in H. rewrite !in_app_iff in H. destruct H as [H|[H|[H|H]]].
    - destruct (Sb p q H) as (x & y & x' & y' & K & K' & E & E' & L). exists x, y, x', y'. auto 10.
    - destruct (Sr p q H) as (x & y & x' & y' & K & K' & E & E' & L). exists x, y, x', y'. auto 10.
    - destruct (St q p (Back _ _ H)) as (x & y & x' & y' & K & K' & E & E' & L). exists x', y', x, y. auto 10.
    - destruct (Sl q p (Back _ _ H)) as (x & y & x' & y' & K & K' & E & E' & L). exists x', y', x, y. auto 12. }
  split.
  - unfold outline. repeat apply NoDup_app_intro; eauto; intros [p q] H H'; rewrite ?in_app_iff in H';
    repeat match goal with H : In _ (map back _) |- _ => apply Back in H; unfold back in H; cbn [fst snd] in H end;
    repeat match goal with H : _ \/ _ |- _ => destruct H end;
    repeat match goal with H : In _ (map back _) |- _ => apply Back in H; unfold back in H; cbn [fst snd] in H end;
    repeat match goal with
    | H : In _ (steps bot) |- _ => apply Sb in H; destruct H as (? & ? & ? & ? & ? & ? & ? & ? & ?)
    | H : In _ (steps rgt) |- _ => apply Sr in H; destruct H as (? & ? & ? & ? & ? & ? & ? & ? & ?)
    | H : In _ (steps top) |- _ => apply St in H; destruct H as (? & ? & ? & ? & ? & ? & ? & ? & ?)
    | H : In _ (steps lft) |- _ => apply Sl in H; destruct H as (? & ? & ? & ? & ? & ? & ? & ? & ?)
    end; unfold node_at in *;
    repeat match goal with H : nth_error X ?p = Some _, H' : nth_error X ?p = Some _ |- _ => rewrite H in H'; injection H'; clear H'; intros end; lra.
  - intros [p q] H H'. unfold back in H'. cbn [fst snd] in H'. destruct (Dir p q H) as (x & y & x' & y' & K & K' & Q). destruct (Dir q p H') as (a & b & a' & b' & N & N' & Q').
    unfold node_at in *. rewrite K in N'. rewrite K' in N. injection N' as <- <-. injection N as <- <-. intuition lra.
Qed.
