(** The elements of the planar meshes are joined by common sides. *)
From Coq Require Import Reals Lra Lia List Arith Permutation Bool.
From Verif Require Import Base Spec Spec2d Sums Spec_Tiling Spec_Conform Proof_Conform Proof_ConformTiles Proof_ConformMesh Proof_Connected.
Import ListNotations.

(** ** reachability in a finite graph *)
Section G.
Variable conn : list (list nat).
Notation ne := (length conn).
Notation row e := (nth e conn []).
Hypothesis HC : forall c : nat -> bool, (forall e f s, e < ne -> f < ne -> In s (sides (row e)) -> In (back s) (sides (row f)) -> c e = c f) ->
  forall e f, e < ne -> f < ne -> c e = true -> c f = true.

Definition adj (f g : nat) : bool := existsb (fun s => mem (back s) (sides (row g))) (sides (row f)).
Lemma adj_spec f g : adj f g = true <-> exists s, In s (sides (row f)) /\ In (back s) (sides (row g)).
Proof. unfold adj. rewrite existsb_exists. split; intros (s & H & K); exists s; (split; [exact H|]); now apply mem_in. Qed.

Lemma grow e : e < ne -> forall k L, NoDup L -> In e L -> (forall f, In f L -> f < ne /\ joined conn e f) -> ne <= length L + k -> forall f, f < ne -> joined conn e f.
Proof.
  intros He. induction k as [|k IH]; intros L ND HL HJ Hk f Hf.
  - apply HJ. assert (incl (seq 0 ne) L); [|apply H, in_seq; lia].
    apply NoDup_length_incl; [exact ND|rewrite seq_length; lia|]. intros x Hx. apply in_seq. pose proof (proj1 (HJ x Hx)). lia.
  - set (P := fun fg : nat * nat => (negb (if in_dec Nat.eq_dec (snd fg) L then true else false) && adj (fst fg) (snd fg))%bool).
    destruct (find P (list_prod L (seq 0 ne))) as [[a b]|] eqn:EF.
    + apply find_some in EF. destruct EF as [E1 E2]. apply in_prod_iff in E1. destruct E1 as [Ha Hb]. apply in_seq in Hb. unfold P in E2. cbn [fst snd] in E2.
      destruct (in_dec Nat.eq_dec b L) as [|Nb]; [discriminate|]. cbn in E2. apply adj_spec in E2. destruct E2 as (s & S1 & S2).
      apply (IH (b :: L)); [now constructor|now right| |cbn; lia|exact Hf]. intros x [<-|Hx]; [|now apply HJ]. split; [lia|]. apply (joined_step conn e a b s); [now apply HJ|lia|exact S1|exact S2].
    + apply HJ. set (c := fun x => if in_dec Nat.eq_dec x L then true else false).
      assert (Cl : forall x y s, x < ne -> y < ne -> In s (sides (row x)) -> In (back s) (sides (row y)) -> c x = true -> c y = true).
      { intros x y s Hx Hy S1 S2 Ex. unfold c in *. destruct (in_dec Nat.eq_dec x L) as [Ix|]; [|discriminate]. pose proof (find_none _ _ EF (x, y)) as N. unfold P in N. cbn [fst snd] in N.
        destruct (in_dec Nat.eq_dec y L) as [|Ny]; [reflexivity|]. cbn in N. rewrite (proj2 (adj_spec x y)) in N; [|now exists s]. symmetry. apply N. apply in_prod; [exact Ix|apply in_seq; lia]. }
      assert (Ef : c f = true).
      { apply (HC c) with (e := e); auto; [|unfold c; now destruct (in_dec Nat.eq_dec e L)]. intros x y s Hx Hy S1 S2. destruct (c x) eqn:Ex; [symmetry; exact (Cl x y s Hx Hy S1 S2 Ex)|].
        destruct (c y) eqn:Ey; [|reflexivity]. rewrite <- Ex. destruct s as [p q]. apply (Cl y x (back (p, q)) Hy Hx S2); [exact S1|exact Ey]. }
      unfold c in Ef. now destruct (in_dec Nat.eq_dec f L).
Qed.
Lemma all_joined e f : e < ne -> f < ne -> joined conn e f.
Proof.
  intros He Hf. apply (grow e He ne [e]); [repeat constructor; cbn; tauto|now left| |cbn; lia|exact Hf]. intros x [<-|[]]. split; [exact He|constructor].
Qed.
End G.

(** ** the outline of a rectangle is one cycle *)
Section O.
Variables (X : list (list R)) (Lx Ly : R) (bot top lft rgt obot otop olft orgt : list nat) (bl br tl tr : nat).
Hypothesis HLx : (0 < Lx)%R.
Hypothesis HLy : (0 < Ly)%R.
Hypothesis HB : boundary_sets X Lx Ly bot top lft rgt obot otop olft orgt bl br tl tr.
Hypothesis HD : forall n x y, node_at X n x y -> (0 <= x <= Lx)%R /\ (0 <= y <= Ly)%R.
Notation O := (outline bot rgt top lft).

Lemma step_positions l P c : lists_nodes X l P -> increasing_along X l c -> forall p q, In (p, q) (steps l) -> exists x y x' y', node_at X p x y /\ node_at X q x' y' /\ P x y /\ P x' y' /\ (c x y < c x' y')%R.
Proof.
  intros [_ HP] HI p q Hs. destruct (steps_nth l p q Hs) as [i [N N']].
  destruct (proj1 (HP p) (nth_error_In _ _ N)) as (x & y & K & Q). destruct (proj1 (HP q) (nth_error_In _ _ N')) as (x' & y' & K' & Q').
  exists x, y, x', y'. repeat (split; [assumption|]). exact (HI i (S i) p q x y x' y' ltac:(lia) N N' K K').
Qed.
Lemma in_back p q l : In (p, q) (map back l) <-> In (q, p) l.
Proof.
  rewrite in_map_iff. split; [intros ([a b] & E & H); unfold back in E; cbn in E; injection E as -> ->; exact H|]. intros H. now exists (q, p).
Qed.

(** the four parts of the outline, by the positions of the ends *)
Lemma outline_parts p q : In (p, q) O -> exists x y x' y', node_at X p x y /\ node_at X q x' y' /\
   ((In (p, q) (steps bot) /\ y = 0 /\ y' = 0 /\ x < Lx /\ 0 < x') \/ (In (p, q) (steps rgt) /\ x = Lx /\ x' = Lx /\ y < Ly /\ 0 < y') \/
    (In (q, p) (steps top) /\ y = Ly /\ y' = Ly /\ 0 < x /\ x' < Lx) \/ (In (q, p) (steps lft) /\ x = 0 /\ x' = 0 /\ 0 < y /\ y' < Ly))%R.
Proof.
  intros H. unfold outline in H. rewrite !in_app_iff, !in_back in H. destruct HB as [[Ab Ib] [At It] [Al Il] [Ar Ir] _ _ _ _ _ _ _ _]. destruct H as [H|[H|[H|H]]].
  - destruct (step_positions _ _ _ Ab Ib p q H) as (x & y & x' & y' & K & K' & E & E' & L). exists x, y, x', y'. pose proof (HD _ _ _ K). pose proof (HD _ _ _ K'). split; [exact K|]. split; [exact K'|]. left. repeat split; auto; lra.
  - destruct (step_positions _ _ _ Ar Ir p q H) as (x & y & x' & y' & K & K' & E & E' & L). exists x, y, x', y'. pose proof (HD _ _ _ K). pose proof (HD _ _ _ K'). split; [exact K|]. split; [exact K'|]. right. left. repeat split; auto; lra.
  - destruct (step_positions _ _ _ At It q p H) as (x & y & x' & y' & K & K' & E & E' & L). exists x', y', x, y. pose proof (HD _ _ _ K). pose proof (HD _ _ _ K'). split; [exact K'|]. split; [exact K|]. right. right. left. repeat split; auto; lra.
  - destruct (step_positions _ _ _ Al Il q p H) as (x & y & x' & y' & K & K' & E & E' & L). exists x', y', x, y. pose proof (HD _ _ _ K). pose proof (HD _ _ _ K'). split; [exact K'|]. split; [exact K|]. right. right. right. repeat split; auto; lra.
Qed.

Lemma steps_fun l : NoDup l -> forall p q q', In (p, q) (steps l) -> In (p, q') (steps l) -> q = q'.
Proof.
  intros ND p q q' H H'. apply steps_nth in H, H'. destruct H as (i & A & B), H' as (j & A' & B'). assert (i = j); [|subst; congruence].
  apply (proj1 (NoDup_nth_error l) ND); [apply nth_error_Some|]; congruence.
Qed.
Lemma steps_inj l : NoDup l -> forall p p' q, In (p, q) (steps l) -> In (p', q) (steps l) -> p = p'.
Proof.
  intros ND p p' q H H'. apply steps_nth in H, H'. destruct H as (i & A & B), H' as (j & A' & B'). assert (S i = S j); [|replace j with i in * by lia; congruence].
  apply (proj1 (NoDup_nth_error l) ND); [apply nth_error_Some|]; congruence.
Qed.

Lemma outline_from s s' : In s O -> In s' O -> fst s = fst s' -> s = s'.
Proof.
  destruct s as [p q], s' as [p' q']. cbn [fst]. intros H H' <-. destruct (outline_parts _ _ H) as (x & y & x1 & y1 & K & _ & Q). destruct (outline_parts _ _ H') as (x' & y' & x1' & y1' & K' & _ & Q').
  unfold node_at in *. rewrite K in K'. injection K' as <- <-. f_equal.
  destruct HB as [[[Nb _] _] [[Nt _] _] [[Nl _] _] [[Nr _] _] _ _ _ _ _ _ _ _].
  destruct Q as [Q|[Q|[Q|Q]]], Q' as [Q'|[Q'|[Q'|Q']]]; destruct Q as (S & Q), Q' as (S' & Q');
    first [exfalso; lra|exact (steps_fun _ Nb _ _ _ S S')|exact (steps_fun _ Nr _ _ _ S S')|exact (steps_inj _ Nt _ _ _ S S')|exact (steps_inj _ Nl _ _ _ S S')].
Qed.
Lemma outline_to s s' : In s O -> In s' O -> snd s = snd s' -> s = s'.
Proof.
  destruct s as [p q], s' as [p' q']. cbn [snd]. intros H H' <-. destruct (outline_parts _ _ H) as (x & y & x1 & y1 & _ & K & Q). destruct (outline_parts _ _ H') as (x' & y' & x1' & y1' & _ & K' & Q').
  unfold node_at in *. rewrite K in K'. injection K' as <- <-. f_equal.
  destruct HB as [[[Nb _] _] [[Nt _] _] [[Nl _] _] [[Nr _] _] _ _ _ _ _ _ _ _].
  destruct Q as [Q|[Q|[Q|Q]]], Q' as [Q'|[Q'|[Q'|Q']]]; destruct Q as (S & Q), Q' as (S' & Q');
    first [exfalso; lra|exact (steps_inj _ Nb _ _ _ S S')|exact (steps_inj _ Nr _ _ _ S S')|exact (steps_fun _ Nt _ _ _ S S')|exact (steps_fun _ Nl _ _ _ S S')].
Qed.

(** what is constant along consecutive steps is constant along a path *)
Lemma path_constant (w : nat * nat -> R) l : (forall s s', In s (steps l) -> In s' (steps l) -> snd s = fst s' -> w s = w s') ->
  forall a b t, l = a :: b :: t -> forall s, In s (steps l) -> w s = w (a, b).
Proof.
  induction l as [|x l IH]; [discriminate|]. intros H a b t E s Hs. injection E as -> ->. destruct Hs as [<-|Hs]; [reflexivity|]. destruct t as [|d t]; [contradiction|].
  rewrite (IH) with (a := b) (b := d) (t := t); [|intros; apply H; try (now right); assumption|reflexivity|exact Hs]. symmetry. apply H; [now left|right; now left|reflexivity].
Qed.
Lemma last_step (x z : nat) m : exists y, In (y, z) (steps (x :: m ++ [z])).
Proof.
  revert x. induction m as [|y m IH]; intros x; [exists x; now left|]. destruct (IH y) as [u Hu]. exists u. right. exact Hu.
Qed.

Lemma outline_chain (w : nat * nat -> R) : (forall s s', In s O -> In s' O -> snd s = fst s' -> w s = w s') -> forall s s', In s O -> In s' O -> w s = w s'.
Proof.
  intros H. pose proof (bs_obot _ _ _ _ _ _ _ _ _ _ _ _ _ _ _ HB) as Eb. pose proof (bs_otop _ _ _ _ _ _ _ _ _ _ _ _ _ _ _ HB) as Et. pose proof (bs_olft _ _ _ _ _ _ _ _ _ _ _ _ _ _ _ HB) as El. pose proof (bs_orgt _ _ _ _ _ _ _ _ _ _ _ _ _ _ _ HB) as Er.
  assert (I : forall p q, In (p, q) O <-> In (p, q) (steps bot) \/ In (p, q) (steps rgt) \/ In (q, p) (steps top) \/ In (q, p) (steps lft)) by (intros; unfold outline; now rewrite !in_app_iff, !in_back).
  assert (F : forall (l : list nat) a m z, l = a :: m ++ [z] -> exists b t, l = a :: b :: t) by (intros l a m z ->; destruct m as [|y m]; [now exists z, []|now exists y, (m ++ [z])]).
  destruct (F _ _ _ _ Eb) as (b1 & tb & Fb). destruct (F _ _ _ _ Et) as (t1 & tt & Ft). destruct (F _ _ _ _ El) as (l1 & tl' & Fl). destruct (F _ _ _ _ Er) as (r1 & tr' & Fr). clear F.
  destruct (last_step bl br obot) as (zb & Lb). destruct (last_step tl tr otop) as (zt & Lt). destruct (last_step bl tl olft) as (zl & Ll). destruct (last_step br tr orgt) as (zr & Lr). rewrite <- Eb in Lb. rewrite <- Et in Lt. rewrite <- El in Ll. rewrite <- Er in Lr.
  assert (Cb : forall s, In s (steps bot) -> w s = w (bl, b1)).
  { apply (path_constant w bot) with (t := tb); [|exact Fb]. intros [p q] [p' q'] A B. apply H; apply I; auto. }
  assert (Cr : forall s, In s (steps rgt) -> w s = w (br, r1)).
  { apply (path_constant w rgt) with (t := tr'); [|exact Fr]. intros [p q] [p' q'] A B. apply H; apply I; auto. }
  assert (Ct : forall s, In s (steps top) -> w (back s) = w (t1, tl)).
  { apply (path_constant (fun s => w (back s)) top) with (t := tt); [|exact Ft]. intros [p q] [p' q'] A B E. cbn [snd fst] in E. symmetry. apply H; [apply I; auto|apply I; auto|cbn; auto]. }
  assert (Cl : forall s, In s (steps lft) -> w (back s) = w (l1, bl)).
  { apply (path_constant (fun s => w (back s)) lft) with (t := tl'); [|exact Fl]. intros [p q] [p' q'] A B E. cbn [snd fst] in E. symmetry. apply H; [apply I; auto|apply I; auto|cbn; auto]. }
  assert (Sb : In (bl, b1) (steps bot)) by (rewrite Fb; now left). assert (Sr : In (br, r1) (steps rgt)) by (rewrite Fr; now left). assert (St : In (tl, t1) (steps top)) by (rewrite Ft; now left). assert (Sl : In (bl, l1) (steps lft)) by (rewrite Fl; now left).
  assert (E1 : w (bl, b1) = w (br, r1)). { rewrite <- (Cb _ Lb). apply H; [apply I; auto|apply I; auto|reflexivity]. }
  assert (E2 : w (br, r1) = w (t1, tl)). { rewrite <- (Cr _ Lr), <- (Ct _ Lt). apply H; [apply I; auto|apply I; auto|reflexivity]. }
  assert (E3 : w (t1, tl) = w (l1, bl)). { rewrite <- (Cl _ Ll). apply H; [apply I; auto|apply I; cbn; auto|reflexivity]. }
  assert (A : forall s, In s O -> w s = w (bl, b1)).
  { intros [p q] Hs. apply I in Hs. destruct Hs as [Hs|[Hs|[Hs|Hs]]]; [now apply Cb|rewrite (Cr _ Hs)|pose proof (Ct _ Hs) as K; unfold back in K; cbn [fst snd] in K; rewrite K|pose proof (Cl _ Hs) as K; unfold back in K; cbn [fst snd] in K; rewrite K]; congruence. }
  intros s s' Hs Hs'. now rewrite (A s Hs), (A s' Hs').
Qed.
End O.

(** ** twice the area of an element *)
Definition cross (X : list (list R)) (p q : nat) : R := (nth 0 (nth p X []) 0 * nth 1 (nth q X []) 0 - nth 0 (nth q X []) 0 * nth 1 (nth p X []) 0)%R.
Lemma cross_odd X : odd (cross X).
Proof. intros p q. unfold cross. ring. Qed.
Lemma cross_at X p q x y x' y' : node_at X p x y -> node_at X q x' y' -> cross X p q = (x * y' - x' * y)%R.
Proof. intros H H'. unfold cross. now rewrite (nth_error_nth _ _ [] H), (nth_error_nth _ _ [] H'). Qed.
Lemma quad_cross X C Lx Ly : tiles X C Lx Ly -> forall e, In e C -> (0 < along (cross X) (sides e))%R.
Proof.
  intros HT e He. destruct (t_convex _ _ _ _ HT e He) as (x0 & y0 & x1 & y1 & x2 & y2 & x3 & y3 & (n0 & n1 & n2 & n3 & -> & N0 & N1 & N2 & N3) & (A1 & A2 & A3 & A4)).
  rewrite along_quad. rewrite (cross_at _ _ _ _ _ _ _ N0 N1), (cross_at _ _ _ _ _ _ _ N1 N2), (cross_at _ _ _ _ _ _ _ N2 N3), (cross_at _ _ _ _ _ _ _ N3 N0). unfold area2 in *. lra.
Qed.
Lemma tri_cross X C Lx Ly : tri_tiles X C Lx Ly -> forall e, In e C -> (0 < along (cross X) (sides e))%R.
Proof.
  intros HT e He. destruct (tt_ccw _ _ _ _ HT e He) as (x0 & y0 & x1 & y1 & x2 & y2 & (n0 & n1 & n2 & -> & N0 & N1 & N2) & A).
  rewrite along_tri. rewrite (cross_at _ _ _ _ _ _ _ N0 N1), (cross_at _ _ _ _ _ _ _ N1 N2), (cross_at _ _ _ _ _ _ _ N2 N0). unfold area2 in *. lra.
Qed.

Lemma mesh_joined X C Lx Ly bot top lft rgt obot otop olft orgt bl br tl tr : (0 < Lx)%R -> (0 < Ly)%R -> boundary_sets X Lx Ly bot top lft rgt obot otop olft orgt bl br tl tr ->
  (forall n x y, node_at X n x y -> (0 <= x <= Lx)%R /\ (0 <= y <= Ly)%R) -> conforming_mesh C bot rgt top lft -> (forall e, In e C -> (0 < along (cross X) (sides e))%R) ->
  forall e f, e < length C -> f < length C -> joined C e f.
Proof.
  intros HLx HLy HB HD HC HA. apply all_joined. intros c Hc e f He Hf. apply (connected C bot rgt top lft (cross X) HC (cross_odd X) HA) with (c := c); try assumption.
  - exact (outline_from X Lx Ly bot top lft rgt obot otop olft orgt bl br tl tr HLx HLy HB HD).
  - exact (outline_to X Lx Ly bot top lft rgt obot otop olft orgt bl br tl tr HLx HLy HB HD).
  - exact (outline_chain X Lx Ly bot top lft rgt obot otop olft orgt bl br tl tr HB).
Qed.
