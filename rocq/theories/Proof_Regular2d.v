From Coq Require Import Reals ZArith Lra.
From Verif Require Import Base Spec Spec2d Model_Numbering Proof_Numbering Model_Regular2d.

(** ** generic lemmas on planar meshes *)
Lemma node_at_fun X n x y x' y' : node_at X n x y -> node_at X n x' y' -> x = x' /\ y = y'.
Proof. unfold node_at. intros H1 H2. rewrite H1 in H2. inversion H2. auto. Qed.

Lemma node_at_lt X n x y : node_at X n x y -> n < length X.
Proof. unfold node_at. intro H. apply nth_error_Some. congruence. Qed.

Local Open Scope R_scope.
(** reals in the half-open interval [0,L) that agree modulo L are equal *)
Lemma mod_unique L x x' (p : Z) : 0 <= x < L -> 0 <= x' < L -> x' = x + IZR p * L -> x' = x.
Proof.
  intros H H' E. destruct (Z.lt_trichotomy p 0) as [Hp|[Hp|Hp]].
  - assert (IZR p <= -1) by (apply IZR_le; lia). nra.
  - subst p. lra.
  - assert (1 <= IZR p) by (apply IZR_le; lia). nra.
Qed.

Lemma congruent_refl Lx Ly x y : congruent Lx Ly x y x y.
Proof. exists 0%Z, 0%Z. lra. Qed.

Lemma congruent_sym Lx Ly x y x' y' : congruent Lx Ly x y x' y' -> congruent Lx Ly x' y' x y.
Proof. intros [p [q [-> ->]]]. exists (-p)%Z, (-q)%Z. rewrite !opp_IZR. lra. Qed.

Lemma congruent_trans Lx Ly x y x' y' x2 y2 : congruent Lx Ly x y x' y' -> congruent Lx Ly x' y' x2 y2 ->
  congruent Lx Ly x y x2 y2.
Proof.
  intros [p [q [-> ->]]] [p' [q' [-> ->]]]. exists (p+p')%Z, (q+q')%Z. rewrite !plus_IZR. lra.
Qed.
Close Scope R_scope.


Lemma periodic_dofs_generic X Lx Ly ndim ties : in_domain X Lx Ly -> periodic_ties X Lx Ly ties ->
  exists D, dofsPeriodic (length X) ndim ties = Ok D /\
    periodic_dofs X Lx Ly ndim D ((length X - length ties) * ndim).
Proof.
  intros [Hpos [Hdom Hinj]] [Hwf [Hcong [Hnd Hdep]]].
  destruct (dofsPeriodic_spec (length X) ndim ties Hwf) as [D [HD [HS [Heq Hcount]]]].
  exists D. split; [exact HD|]. split; [exact HS|]. split; [|exact Hcount].
  assert (Hrep : forall m x y, node_at X m x y -> exists r u v, represents ties m r /\ node_at X r u v /\
            congruent Lx Ly u v x y /\ (0 <= u < Lx)%R /\ (0 <= v < Ly)%R).
  { intros m x y Hm. destruct (represents_exists ties m) as [r Hr].
    assert (Hrl : r < length X).
    { eapply represents_lt; eauto. eapply node_at_lt; eauto. }
    destruct (Hpos r Hrl) as [u [v Hu]]. exists r, u, v. split; [exact Hr|]. split; [exact Hu|].
    assert (Hnr : ~ In r (map snd ties)).
    { destruct Hr as [Hr|[-> Hr]]; [|exact Hr]. destruct Hwf as [_ [_ Hind]]. apply Hind.
      apply in_map_iff. exists (r, m). auto. }
    assert (Hb : ~ (u = Lx \/ v = Ly)).
    { intro Hc. apply Hnr. apply Hdep. exists u, v. auto. }
    pose proof (Hdom _ _ _ Hu) as Hd.
    split.
    - destruct Hr as [Hr|[-> _]].
      + eapply Hcong; eauto.
      + destruct (node_at_fun _ _ _ _ _ _ Hu Hm) as [-> ->]. apply congruent_refl.
    - assert (u <> Lx /\ v <> Ly) by tauto. lra. }
  intros m i v x y m' i' v' x' y' Hv Hv' Hm Hm'.
  destruct (Hrep m x y Hm) as [r [a [b [Hr [Hra [Hc [Ha Hb]]]]]]].
  destruct (Hrep m' x' y' Hm') as [r' [a' [b' [Hr' [Hra' [Hc' [Ha' Hb']]]]]]].
  destruct (Heq m i r v m' i' r' v' Hr Hv Hr' Hv') as [E _]. rewrite E. split.
  - intros [-> ->]. split; [reflexivity|].
    destruct (node_at_fun _ _ _ _ _ _ Hra Hra') as [-> ->].
    eapply congruent_trans; [|exact Hc']. apply congruent_sym. exact Hc.
  - intros [-> Hcc]. split; [|reflexivity].
    assert (HH : congruent Lx Ly a b a' b').
    { eapply congruent_trans; [exact Hc|]. eapply congruent_trans; [exact Hcc|]. now apply congruent_sym. }
    destruct HH as [p [q [Hp Hq]]].
    apply mod_unique in Hp; [|lra|lra]. apply mod_unique in Hq; [|lra|lra]. subst.
    eapply Hinj; eauto.
Qed.

(** ** index arithmetic of a grid with [w] columns *)
Lemma grid_split w n : w <> 0 -> exists i j, j < w /\ n = i * w + j.
Proof.
  intro Hw. exists (n / w), (n mod w). split; [apply Nat.mod_upper_bound; exact Hw|].
  rewrite Nat.mul_comm. apply Nat.div_mod; exact Hw.
Qed.

Lemma grid_inj w i j i' j' : j < w -> j' < w -> i * w + j = i' * w + j' -> i = i' /\ j = j'.
Proof.
  intros Hj Hj' E. assert (i = i').
  { destruct (lt_eq_lt_dec i i') as [[H|H]|H]; [|exact H|]; exfalso; nia. }
  subst. lia.
Qed.

Lemma grid_lt w h i j : j < w -> i < h -> i * w + j < h * w.
Proof. intros. nia. Qed.

Lemma grid_lt_inv w h i j : i * w + j < h * w -> i < h.
Proof. intros. nia. Qed.

Lemma linspace_INR h n i : i <= n -> linspace 0 (h * INR n) (n + 1) i = (h * INR i)%R.
Proof.
  intro Hi. unfold linspace. replace (n + 1 - 1) with n by lia.
  destruct n as [|n].
  - assert (i = 0) by lia. subst. simpl. field.
  - rewrite Nat.max_r by lia. field. apply not_0_INR. lia.
Qed.

Section Reg.
Variable m : Regular.
Notation nx := (nelx m).
Notation ny := (nely m).
Notation h := (hh m).

Lemma coor_length : length (coor m) = nnode m.
Proof.
  unfold coor, nnode. rewrite (length_flat_map_const _ (nx + 1)).
  - rewrite seq_length. lia.
  - intros. now rewrite map_length, seq_length.
Qed.

Lemma coor_at ix iy : ix <= nx -> iy <= ny ->
  nth_error (coor m) (iy * (nx + 1) + ix) = Some [(h * INR ix)%R; (h * INR iy)%R].
Proof.
  intros Hx Hy. unfold coor. rewrite nth_error_flat_map_const.
  2: { intros. now rewrite map_length, seq_length. }
  2: lia.
  rewrite nth_error_seq. destruct (Nat.ltb_spec iy (ny + 1)); [|lia].
  rewrite nth_error_map, nth_error_seq. destruct (Nat.ltb_spec ix (nx + 1)); [|lia].
  simpl option_map. rewrite ?Nat.add_0_l. now rewrite !linspace_INR by lia.
Qed.

Lemma coor_shape : shape2 (coor m) (nnode m) 2.
Proof.
  split; [apply coor_length|]. intros r Hr. unfold coor in Hr.
  apply in_flat_map in Hr. destruct Hr as [iy [_ Hr]]. apply in_map_iff in Hr.
  destruct Hr as [ix [<- _]]. reflexivity.
Qed.

Lemma node_at_iff n x y : node_at (coor m) n x y <->
  exists ix iy, ix <= nx /\ iy <= ny /\ n = iy * (nx + 1) + ix /\ x = (h * INR ix)%R /\ y = (h * INR iy)%R.
Proof.
  split.
  - intro H. pose proof (node_at_lt _ _ _ _ H) as Hl. rewrite coor_length in Hl. unfold nnode in Hl.
    destruct (grid_split (nx + 1) n) as [iy [ix [Hx E]]]; [lia|].
    exists ix, iy. assert (iy <= ny) by nia. assert (ix <= nx) by lia.
    unfold node_at in H. rewrite E, coor_at in H by assumption. inversion H. auto.
  - intros [ix [iy [Hx [Hy [-> [-> ->]]]]]]. apply coor_at; assumption.
Qed.

Lemma conn_shape : shape2 (conn m) (nelem m) 4.
Proof.
  split.
  - unfold conn, nelem. rewrite (length_flat_map_const _ nx).
    + rewrite seq_length. lia.
    + intros. now rewrite map_length, seq_length.
  - intros r Hr. unfold conn in Hr. apply in_flat_map in Hr. destruct Hr as [iy [_ Hr]].
    apply in_map_iff in Hr. destruct Hr as [ix [<- _]]. reflexivity.
Qed.

Lemma conn_at ix iy : ix < nx -> iy < ny -> nth_error (conn m) (iy * nx + ix) = Some
  [ iy * (nx + 1) + ix; iy * (nx + 1) + (ix + 1); (iy + 1) * (nx + 1) + (ix + 1); (iy + 1) * (nx + 1) + ix ].
Proof.
  intros Hx Hy. unfold conn. rewrite nth_error_flat_map_const.
  2: { intros. now rewrite map_length, seq_length. }
  2: lia.
  rewrite nth_error_seq. destruct (Nat.ltb_spec iy ny); [|lia].
  rewrite nth_error_map, nth_error_seq. destruct (Nat.ltb_spec ix nx); [|lia]. reflexivity.
Qed.

Lemma in_conn e : In e (conn m) -> exists ix iy, ix < nx /\ iy < ny /\
  e = [ iy * (nx + 1) + ix; iy * (nx + 1) + (ix + 1); (iy + 1) * (nx + 1) + (ix + 1); (iy + 1) * (nx + 1) + ix ].
Proof.
  intro Hr. unfold conn in Hr. apply in_flat_map in Hr. destruct Hr as [iy [Hy Hr]].
  apply in_map_iff in Hr. destruct Hr as [ix [<- Hx]]. apply in_seq in Hx. apply in_seq in Hy.
  exists ix, iy. repeat split; lia.
Qed.

Lemma conn_range e n : In e (conn m) -> In n e -> n < nnode m.
Proof.
  intros He Hn. destruct (in_conn e He) as [ix [iy [Hx [Hy ->]]]]. unfold nnode.
  simpl in Hn. destruct Hn as [<-|[<-|[<-|[<-|[]]]]]; nia.
Qed.

Lemma conn_used n : 1 <= nx -> 1 <= ny -> n < nnode m -> exists e, In e (conn m) /\ In n e.
Proof.
  intros Hx1 Hy1 Hn. unfold nnode in Hn.
  destruct (grid_split (nx + 1) n) as [iy [ix [Hx E]]]; [lia|].
  assert (Hy : iy <= ny) by nia.
  set (jx := if ix <? nx then ix else ix - 1). set (jy := if iy <? ny then iy else iy - 1).
  assert (H : jx < nx /\ (ix = jx \/ ix = jx + 1)) by (unfold jx; destruct (Nat.ltb_spec ix nx); lia).
  assert (H0 : jy < ny /\ (iy = jy \/ iy = jy + 1)) by (unfold jy; destruct (Nat.ltb_spec iy ny); lia).
  eexists. split; [eapply nth_error_In, (conn_at jx jy); tauto|].
  destruct H as [_ H], H0 as [_ H0]. clearbody jx jy. simpl.
  destruct H as [?|?], H0 as [?|?]; subst ix iy n; auto.
Qed.

(** *** boundary *)
Lemma INR_mult_inj a b : (0 < h)%R -> (h * INR a = h * INR b)%R -> a = b.
Proof. intros Hh E. apply INR_eq. nra. Qed.

Lemma INR_mult_lt a b : (0 < h)%R -> a < b -> (h * INR a < h * INR b)%R.
Proof. intros Hh E. apply lt_INR in E. nra. Qed.

(** a row of the grid: nodes f(0), f(1), ..., f(n) *)
Lemma line_x (f : nat -> nat) iy0 : (0 < h)%R -> iy0 <= ny -> (forall ix, f ix = iy0 * (nx + 1) + ix) ->
  lists_nodes (coor m) (map f (seq 0 (nx + 1))) (fun x y => y = (h * INR iy0)%R) /\
  increasing_along (coor m) (map f (seq 0 (nx + 1))) (fun x y => x).
Proof.
  intros Hh Hy0 Hf. split; [split|].
  - apply NoDup_map_inj; [apply seq_NoDup|]. intros a b _ _ E. rewrite !Hf in E. lia.
  - intro n. rewrite in_map_iff. split.
    + intros [ix [<- Hx]]. apply in_seq in Hx. rewrite Hf. exists (h * INR ix)%R, (h * INR iy0)%R.
      split; [|reflexivity]. apply coor_at; lia.
    + intros [x [y [Hn Hy]]]. apply node_at_iff in Hn. destruct Hn as [ix [iy [Hx [Hyl [-> [-> ->]]]]]].
      apply INR_mult_inj in Hy; [|exact Hh]. subst iy. exists ix. rewrite Hf, in_seq. lia.
  - intros i j n n' x y x' y' Hij Hi Hj Hn Hn'.
    rewrite nth_error_map, nth_error_seq in Hi, Hj.
    destruct (Nat.ltb_spec i (nx + 1)); [|discriminate]. destruct (Nat.ltb_spec j (nx + 1)); [|discriminate].
    simpl in Hi, Hj. inversion Hi; inversion Hj; subst n n'. rewrite Hf in Hn, Hn'.
    unfold node_at in Hn, Hn'. rewrite coor_at in Hn, Hn' by lia. inversion Hn; inversion Hn'; subst.
    now apply INR_mult_lt.
Qed.

Lemma line_y (f : nat -> nat) ix0 : (0 < h)%R -> ix0 <= nx -> (forall iy, f iy = iy * (nx + 1) + ix0) ->
  lists_nodes (coor m) (map f (seq 0 (ny + 1))) (fun x y => x = (h * INR ix0)%R) /\
  increasing_along (coor m) (map f (seq 0 (ny + 1))) (fun x y => y).
Proof.
  intros Hh Hy0 Hf. split; [split|].
  - apply NoDup_map_inj; [apply seq_NoDup|]. intros a b _ _ E. rewrite !Hf in E. nia.
  - intro n. rewrite in_map_iff. split.
    + intros [iy [<- Hx]]. apply in_seq in Hx. rewrite Hf. exists (h * INR ix0)%R, (h * INR iy)%R.
      split; [|reflexivity]. apply coor_at; lia.
    + intros [x [y [Hn Hy]]]. apply node_at_iff in Hn. destruct Hn as [ix [iy [Hx [Hyl [-> [-> ->]]]]]].
      apply INR_mult_inj in Hy; [|exact Hh]. subst ix. exists iy. rewrite Hf, in_seq. lia.
  - intros i j n n' x y x' y' Hij Hi Hj Hn Hn'.
    rewrite nth_error_map, nth_error_seq in Hi, Hj.
    destruct (Nat.ltb_spec i (ny + 1)); [|discriminate]. destruct (Nat.ltb_spec j (ny + 1)); [|discriminate].
    simpl in Hi, Hj. inversion Hi; inversion Hj; subst n n'. rewrite Hf in Hn, Hn'.
    unfold node_at in Hn, Hn'. rewrite coor_at in Hn, Hn' by lia. inversion Hn; inversion Hn'; subst.
    now apply INR_mult_lt.
Qed.

Lemma seq_open n : 1 <= n -> seq 0 (n + 1) = 0 :: seq 1 (n - 1) ++ [n].
Proof.
  intro H. replace (n + 1) with (S ((n - 1) + 1)) by lia.
  rewrite <- cons_seq, seq_app. simpl. do 2 f_equal. f_equal. lia.
Qed.

Lemma map_open (f : nat -> nat) n : 1 <= n -> map f (seq 0 (n + 1)) = f 0 :: map f (seq 1 (n - 1)) ++ [f n].
Proof. intro H. rewrite seq_open by exact H. simpl. now rewrite map_app. Qed.

Lemma lists_nodes_ext X l (P Q : R -> R -> Prop) : (forall x y, P x y <-> Q x y) -> lists_nodes X l P -> lists_nodes X l Q.
Proof.
  intros E [H1 H2]. split; [exact H1|]. intro n. rewrite H2.
  split; intros [x [y [H P0]]]; exists x, y; split; auto; now apply E.
Qed.

Lemma Regular_boundary_sets : 1 <= nx -> 1 <= ny -> (0 < h)%R ->
  boundary_sets (coor m) (h * INR nx) (h * INR ny)
    (nodesBottomEdge m) (nodesTopEdge m) (nodesLeftEdge m) (nodesRightEdge m)
    (nodesBottomOpenEdge m) (nodesTopOpenEdge m) (nodesLeftOpenEdge m) (nodesRightOpenEdge m)
    (nodesBottomLeftCorner m) (nodesBottomRightCorner m) (nodesTopLeftCorner m) (nodesTopRightCorner m).
Proof.
  intros Hx Hy Hh.
  assert (E0 : (h * INR 0 = 0)%R) by (simpl; lra).
  unfold nodesBottomEdge, nodesTopEdge, nodesLeftEdge, nodesRightEdge,
    nodesBottomOpenEdge, nodesTopOpenEdge, nodesLeftOpenEdge, nodesRightOpenEdge,
    nodesBottomLeftCorner, nodesBottomRightCorner, nodesTopLeftCorner, nodesTopRightCorner, arange.
  rewrite !Nat.sub_0_r.
  constructor.
  - rewrite <- (map_id (seq 0 (nx + 1))). destruct (line_x (fun i => i) 0 Hh) as [H1 H2]; [lia|reflexivity|].
    rewrite E0 in H1. auto.
  - apply line_x; auto. intros; lia.
  - destruct (line_y (fun i => i * (nx + 1)) 0 Hh) as [H1 H2]; [lia|intros; lia|]. rewrite E0 in H1. auto.
  - apply line_y; auto.
  - now apply seq_open.
  - rewrite map_open by exact Hx. f_equal. f_equal. f_equal. lia.
  - rewrite map_open by exact Hy. reflexivity.
  - rewrite map_open by exact Hy. reflexivity.
  - unfold node_at. change 0 with (0 * (nx + 1) + 0) at 1. rewrite coor_at by lia. now rewrite E0.
  - unfold node_at. change (nelx m) with (0 * (nx + 1) + nx) at 1. rewrite coor_at by lia. now rewrite E0.
  - unfold node_at. replace (ny * (nx + 1)) with (ny * (nx + 1) + 0) by lia.
    rewrite coor_at by lia. now rewrite E0.
  - unfold node_at. now rewrite coor_at by lia.
Qed.

(** *** periodicity *)
Lemma In_combine_map {A} (f g : nat -> A) l a b : In (a, b) (combine (map f l) (map g l)) <->
  exists i, In i l /\ a = f i /\ b = g i.
Proof.
  induction l as [|i l IH]; simpl.
  - split; [tauto|intros [i [[] _]]].
  - rewrite IH. split.
    + intros [E|[j [Hj E]]]; [inversion E; exists i; auto|exists j; auto].
    + intros [j [[->|Hj] [-> ->]]]; [left; reflexivity|right; exists j; auto].
Qed.

Lemma map_snd_combine {A B} : forall (a : list A) (b : list B), length a = length b -> map snd (combine a b) = b.
Proof. induction a as [|x a IH]; intros [|y b] H; simpl in *; try discriminate; auto. f_equal. auto. Qed.

Lemma nodesPeriodic_In a b : 1 <= nx -> 1 <= ny -> In (a, b) (nodesPeriodic m) <->
  exists ix iy jx jy, a = iy * (nx + 1) + ix /\ b = jy * (nx + 1) + jx /\ ix < nx /\ iy < ny /\
    jx <= nx /\ jy <= ny /\ (jx = nx \/ jy = ny) /\
    (jx = ix \/ jx = nx /\ ix = 0) /\ (jy = iy \/ jy = ny /\ iy = 0).
Proof.
  intros Hx Hy. unfold nodesPeriodic, nodesPeriodic2d, Regular_boundary. simpl.
  unfold nodesBottomOpenEdge, nodesTopOpenEdge, nodesLeftOpenEdge, nodesRightOpenEdge,
    nodesBottomLeftCorner, nodesBottomRightCorner, nodesTopLeftCorner, nodesTopRightCorner, arange.
  rewrite <- (map_id (seq 1 (nx - 1))) at 1. rewrite in_app_iff, !In_combine_map. split.
  - intros [E|[E|[E|[[i [Hi [E1 E2]]]|[i [Hi [E1 E2]]]]]]]; try (inversion E; subst a b).
    + exists 0, 0, nx, 0. repeat split; lia.
    + exists 0, 0, nx, ny. repeat split; lia.
    + exists 0, 0, 0, ny. repeat split; lia.
    + subst. apply in_seq in Hi. exists i, 0, i, ny. repeat split; lia.
    + subst. apply in_seq in Hi. exists 0, i, nx, i. repeat split; lia.
  - intros [ix [iy [jx [jy [-> [-> [H1 [H2 [H3 [H4 [H5 [H6 H7]]]]]]]]]]]].
    destruct H6 as [->|[-> ->]], H7 as [->|[-> ->]].
    + exfalso. lia.
    + destruct (Nat.eq_dec ix 0) as [->|Hi].
      * right; right; left. f_equal; lia.
      * right; right; right; left. exists ix. rewrite in_seq. repeat split; lia.
    + destruct (Nat.eq_dec iy 0) as [->|Hi].
      * left. f_equal; lia.
      * right; right; right; right. exists iy. rewrite in_seq. repeat split; lia.
    + right; left. f_equal; lia.
Qed.

Lemma nodesPeriodic_snd : map snd (nodesPeriodic m) =
  [nodesBottomRightCorner m; nodesTopRightCorner m; nodesTopLeftCorner m] ++ nodesTopOpenEdge m ++ nodesRightOpenEdge m.
Proof.
  unfold nodesPeriodic, nodesPeriodic2d, Regular_boundary. simpl. rewrite map_app, !map_snd_combine; [reflexivity| |].
  - unfold nodesLeftOpenEdge, nodesRightOpenEdge. now rewrite !map_length.
  - unfold nodesBottomOpenEdge, nodesTopOpenEdge. now rewrite map_length.
Qed.

Lemma nodesPeriodic_length : 1 <= nx -> 1 <= ny -> length (nodesPeriodic m) = nx + ny + 1.
Proof.
  intros Hx Hy. rewrite <- (map_length snd), nodesPeriodic_snd.
  unfold nodesTopOpenEdge, nodesRightOpenEdge, arange. simpl. rewrite app_length, !map_length, !seq_length. lia.
Qed.

Lemma nodesPeriodic_NoDup : 1 <= nx -> 1 <= ny -> NoDup (map snd (nodesPeriodic m)).
Proof.
  intros Hx Hy. rewrite nodesPeriodic_snd.
  unfold nodesTopOpenEdge, nodesRightOpenEdge, nodesBottomRightCorner, nodesTopRightCorner, nodesTopLeftCorner, arange.
  apply NoDup_app_intro; [|apply NoDup_app_intro|].
  - repeat constructor; simpl; intuition nia.
  - apply NoDup_map_inj; [apply seq_NoDup|]. intros; lia.
  - apply NoDup_map_inj; [apply seq_NoDup|]. intros; nia.
  - intros x Hin Hin2. rewrite in_map_iff in Hin, Hin2.
    destruct Hin as [i [E1 Hi]], Hin2 as [j [E2 Hj]]. rewrite in_seq in Hi, Hj. nia.
  - intros x Hin Hin2. rewrite in_app_iff, !in_map_iff in Hin2. simpl in Hin.
    destruct Hin2 as [[i [E1 Hi]]|[i [E1 Hi]]]; rewrite in_seq in Hi;
    destruct Hin as [<-|[<-|[<-|[]]]]; nia.
Qed.

Lemma Regular_periodic_ties : 1 <= nx -> 1 <= ny -> (0 < h)%R ->
  periodic_ties (coor m) (h * INR nx) (h * INR ny) (nodesPeriodic m).
Proof.
  intros Hx Hy Hh. split; [split; [|split]|split].
  - intros a b Hab. rewrite coor_length. unfold nnode. apply nodesPeriodic_In in Hab; auto.
    destruct Hab as [ix [iy [jx [jy [-> [-> [H1 [H2 [H3 [H4 _]]]]]]]]]]. nia.
  - now apply nodesPeriodic_NoDup.
  - intros a Ha Hb. apply in_map_iff in Ha. destruct Ha as [[a' b] [E Hab]]. simpl in E. subst a'.
    apply in_map_iff in Hb. destruct Hb as [[c a'] [E Hca]]. simpl in E. subst a'.
    apply nodesPeriodic_In in Hab; auto. apply nodesPeriodic_In in Hca; auto.
    destruct Hab as [ix [iy [jx [jy [Ea [_ [H1 [H2 _]]]]]]]].
    destruct Hca as [ix' [iy' [jx' [jy' [_ [Ea' [_ [_ [H3 [H4 [H5 _]]]]]]]]]]].
    rewrite Ea in Ea'. apply grid_inj in Ea'; lia.
  - intros a b x y x' y' Hab Ha Hb. apply nodesPeriodic_In in Hab; auto.
    destruct Hab as [ix [iy [jx [jy [-> [-> [H1 [H2 [H3 [H4 [H5 [H6 H7]]]]]]]]]]]].
    unfold node_at in Ha, Hb. rewrite coor_at in Ha, Hb by lia.
    assert (x = h * INR ix /\ y = h * INR iy /\ x' = h * INR jx /\ y' = h * INR jy)%R
      as [-> [-> [-> ->]]] by (inversion Ha; inversion Hb; auto).
    exists (if jx =? ix then 0%Z else 1%Z), (if jy =? iy then 0%Z else 1%Z). split.
    + destruct (Nat.eqb_spec jx ix) as [->|Hn]; [lra|]. destruct H6 as [|[-> ->]]; [contradiction|]. simpl INR. lra.
    + destruct (Nat.eqb_spec jy iy) as [->|Hn]; [lra|]. destruct H7 as [|[-> ->]]; [contradiction|]. simpl INR. lra.
  - split; [now apply nodesPeriodic_NoDup|]. intro n. split.
    + intro Hn. apply in_map_iff in Hn. destruct Hn as [[a b] [E Hab]]. simpl in E. subst n.
      apply nodesPeriodic_In in Hab; auto.
      destruct Hab as [ix [iy [jx [jy [-> [-> [H1 [H2 [H3 [H4 [H5 _]]]]]]]]]]].
      exists (h * INR jx)%R, (h * INR jy)%R. split; [apply coor_at; lia|]. destruct H5 as [->| ->]; auto.
    + intros [x [y [Hn Hxy]]]. apply node_at_iff in Hn. destruct Hn as [jx [jy [H3 [H4 [-> [-> ->]]]]]].
      assert (H5 : jx = nx \/ jy = ny) by (destruct Hxy as [E|E]; apply INR_mult_inj in E; auto).
      apply in_map_iff. exists ((if jy =? ny then 0 else jy) * (nx + 1) + (if jx =? nx then 0 else jx), jy * (nx + 1) + jx).
      split; [reflexivity|]. apply nodesPeriodic_In; auto.
      exists (if jx =? nx then 0 else jx), (if jy =? ny then 0 else jy), jx, jy.
      destruct (Nat.eqb_spec jx nx), (Nat.eqb_spec jy ny); repeat split; lia.
Qed.

Lemma Regular_in_domain : (0 < h)%R -> in_domain (coor m) (h * INR nx) (h * INR ny).
Proof.
  intro Hh. split; [|split].
  - intros n Hn. rewrite coor_length in Hn. unfold nnode in Hn.
    destruct (grid_split (nx + 1) n) as [iy [ix [Hx E]]]; [lia|]. subst n.
    do 2 eexists. apply coor_at; nia.
  - intros n x y Hn. apply node_at_iff in Hn. destruct Hn as [ix [iy [Hx [Hy [_ [-> ->]]]]]].
    apply le_INR in Hx. apply le_INR in Hy. pose proof (pos_INR ix). pose proof (pos_INR iy). nra.
  - intros n n' x y Hn Hn'. apply node_at_iff in Hn. apply node_at_iff in Hn'.
    destruct Hn as [ix [iy [Hx [Hy [-> [-> ->]]]]]]. destruct Hn' as [ix' [iy' [Hx' [Hy' [-> [E1 E2]]]]]].
    apply INR_mult_inj in E1; [|exact Hh]. apply INR_mult_inj in E2; [|exact Hh]. now subst.
Qed.

Lemma Regular_periodic_dofs : 1 <= nx -> 1 <= ny -> (0 < h)%R -> exists D,
  Regular_dofsPeriodic m = Ok D /\
  periodic_dofs (coor m) (h * INR nx) (h * INR ny) 2 D (nx * ny * 2).
Proof.
  intros Hx Hy Hh. unfold Regular_dofsPeriodic. rewrite <- coor_length.
  destruct (periodic_dofs_generic (coor m) (h * INR nx) (h * INR ny) 2 (nodesPeriodic m)) as [D [E H]].
  - now apply Regular_in_domain.
  - now apply Regular_periodic_ties.
  - exists D. split; [exact E|]. rewrite nodesPeriodic_length, coor_length in H by assumption. unfold nnode in H.
    replace (nx * ny) with ((nx + 1) * (ny + 1) - (nx + ny + 1)) by nia. exact H.
Qed.

(** *** elementgrid *)
Lemma elementgrid_shape : shape2 (elementgrid m) ny nx.
Proof. apply reshape2_shape. rewrite seq_length. unfold nelem. lia. Qed.

Lemma elementgrid_at ix iy : ix < nx -> iy < ny -> at2 (elementgrid m) iy ix = Some (iy * nx + ix).
Proof.
  intros Hx Hy. unfold elementgrid. rewrite at2_reshape2 by assumption. rewrite nth_error_seq. unfold nelem.
  destruct (Nat.ltb_spec (iy * nx + ix) (nx * ny)); [reflexivity|nia].
Qed.

Lemma skipn_skipn {A} (l : list A) a b : skipn a (skipn b l) = skipn (a + b) l.
Proof. apply nth_error_ext. intro i. rewrite !nth_error_skipn. f_equal. lia. Qed.

Lemma concat_reshape2 {A} n d : forall (l : list A), length l = n * d -> concat (reshape2 n d l) = l.
Proof.
  unfold reshape2. intros l Hl.
  enough (H : forall k s, s + k <= n -> concat (map (fun r => firstn d (skipn (r * d) l)) (seq s k)) = firstn (k * d) (skipn (s * d) l)).
  { rewrite (H n 0) by lia. simpl. apply firstn_all2. lia. }
  induction k as [|k IH]; intros s Hs; [reflexivity|].
  simpl. rewrite IH by lia. replace (d + k * d) with (S k * d) by lia.
  rewrite <- (firstn_skipn d (firstn (S k * d) (skipn (s * d) l))). f_equal.
  - rewrite firstn_firstn. f_equal. nia.
  - rewrite skipn_firstn_comm, skipn_skipn. replace (S k * d - d) with (k * d) by lia.
    replace (S s * d) with (d + s * d) by lia. reflexivity.
Qed.

Lemma concat_elementgrid : concat (elementgrid m) = seq 0 (nelem m).
Proof. apply concat_reshape2. rewrite seq_length. unfold nelem. lia. Qed.

End Reg.

(** ** areas *)

Lemma nth_of_nth_error {A} (l : list A) n a d : nth_error l n = Some a -> nth n l d = a.
Proof. revert n. induction l as [|b l IH]; intros [|n] H; simpl in *; inversion H; auto. Qed.

Lemma conn_area m e : In e (conn m) -> element_area (coor m) e = (hh m * hh m)%R.
Proof.
  intro He. destruct (in_conn m e He) as [ix [iy [Hx [Hy ->]]]]. unfold element_area. simpl map.
  rewrite (nth_of_nth_error _ _ _ _ (coor_at m ix iy ltac:(lia) ltac:(lia))).
  rewrite (nth_of_nth_error _ _ _ _ (coor_at m (ix + 1) iy ltac:(lia) ltac:(lia))).
  rewrite (nth_of_nth_error _ _ _ _ (coor_at m (ix + 1) (iy + 1) ltac:(lia) ltac:(lia))).
  rewrite (nth_of_nth_error _ _ _ _ (coor_at m ix (iy + 1) ltac:(lia) ltac:(lia))).
  rewrite !plus_INR. simpl INR. unfold quad_area. field.
Qed.

Lemma sumR_const c l : (forall x, In x l -> x = c) -> sumR l = (INR (length l) * c)%R.
Proof.
  induction l as [|x l IH]; intro H; [simpl; lra|].
  change (sumR (x :: l)) with (x + sumR l)%R. rewrite IH by (intros; apply H; now right).
  rewrite (H x) at 1 by now left. change (length (x :: l)) with (S (length l)). rewrite S_INR. lra.
Qed.

Lemma total_area m : sumR (map (element_area (coor m)) (conn m)) = ((hh m * INR (nelx m)) * (hh m * INR (nely m)))%R.
Proof.
  rewrite (sumR_const (hh m * hh m)).
  - rewrite map_length. rewrite (proj1 (conn_shape m)). unfold nelem. rewrite mult_INR. lra.
  - intros x Hx. apply in_map_iff in Hx. destruct Hx as [e [<- He]]. now apply conn_area.
Qed.

(** ** tiling *)
Lemma nat_floor t : (0 <= t)%R -> exists n, (INR n <= t < INR n + 1)%R.
Proof.
  intro H. destruct (archimed t) as [H1 H2]. assert (Hp : (1 <= up t)%Z).
  { assert ((0 < IZR (up t))%R) by lra. apply lt_IZR in H0. lia. }
  exists (Z.to_nat (up t - 1)). rewrite INR_IZR_INZ, Z2Nat.id by lia. rewrite minus_IZR. lra.
Qed.

Lemma cell_floor h n x : (0 < h)%R -> (0 <= x < h * INR n)%R -> exists i, i < n /\ (h * INR i <= x < h * INR (i + 1))%R.
Proof.
  intros Hh [H0 H1]. destruct (nat_floor (x / h)) as [i [Hi Hi2]].
  { apply Rmult_le_pos; [lra|]. left. now apply Rinv_0_lt_compat. }
  assert (Hx : (h * (x / h) = x)%R) by (field; lra).
  exists i. assert ((h * INR i <= x)%R) by (rewrite <- Hx; apply Rmult_le_compat_l; lra).
  assert ((x < h * (INR i + 1))%R) by (rewrite <- Hx; apply Rmult_lt_compat_l; lra).
  split.
  - apply INR_lt. apply (Rmult_lt_reg_l h); [exact Hh|]. lra.
  - rewrite plus_INR. simpl (INR 1). lra.
Qed.

Lemma cell_unique h i j x : (0 < h)%R -> (h * INR i <= x < h * INR (i + 1))%R -> (h * INR j <= x < h * INR (j + 1))%R -> i = j.
Proof.
  intros Hh [H1 H2] [H3 H4]. destruct (lt_eq_lt_dec i j) as [[H|H]|H]; [|exact H|].
  - exfalso. assert (E : (i + 1 <= j)%nat) by lia. apply le_INR in E. nra.
  - exfalso. assert (E : (j + 1 <= i)%nat) by lia. apply le_INR in E. nra.
Qed.

Lemma Regular_tiling m x y : (0 < hh m)%R -> (0 <= x < hh m * INR (nelx m))%R -> (0 <= y < hh m * INR (nely m))%R ->
  exists! k, exists n0 n1 n2 n3 x0 y0 x1 y1, nth_error (conn m) k = Some [n0; n1; n2; n3] /\
    node_at (coor m) n0 x0 y0 /\ node_at (coor m) n1 x1 y0 /\ node_at (coor m) n2 x1 y1 /\ node_at (coor m) n3 x0 y1 /\
    (x0 <= x < x1)%R /\ (y0 <= y < y1)%R.
Proof.
  intros Hh Hx Hy. destruct (cell_floor _ _ _ Hh Hx) as [ix [Hix Ex]]. destruct (cell_floor _ _ _ Hh Hy) as [iy [Hiy Ey]].
  exists (iy * nelx m + ix). split.
  - do 8 eexists. split; [now apply conn_at|]. split; [apply coor_at; lia|]. split; [apply coor_at; lia|].
    split; [apply coor_at; lia|]. split; [apply coor_at; lia|]. auto.
  - intros k [n0 [n1 [n2 [n3 [x0 [y0 [x1 [y1 [E [H0 [H1 [H2 [H3 [Kx Ky]]]]]]]]]]]]]].
    assert (Hk : k < nelem m). { rewrite <- (proj1 (conn_shape m)). apply nth_error_Some. congruence. }
    unfold nelem in Hk. destruct (grid_split (nelx m) k) as [jy [jx [Hj Ek]]]; [lia|].
    assert (jy < nely m) by nia. rewrite Ek in E. rewrite conn_at in E by assumption. inversion E; subst n0 n1 n2 n3.
    unfold node_at in *. rewrite coor_at in H0, H2 by lia. inversion H0; inversion H2. subst x0 y0 x1 y1.
    rewrite Ek. f_equal; [f_equal|]; eapply cell_unique; eauto.
Qed.

(** ** Tri3 *)
Section Tri.
Variable m : Regular.
Notation nx := (nelx m).
Notation ny := (nely m).
Notation h := (hh m).

Lemma flat_map_flat_map_seq {B} (f : nat -> nat -> list B) a b k :
  (forall i j, length (f i j) = k) -> forall i j l, i < a -> j < b -> l < k ->
  nth_error (flat_map (fun i => flat_map (fun j => f i j) (seq 0 b)) (seq 0 a)) ((i * b + j) * k + l) = nth_error (f i j) l.
Proof.
  intros Hk i j l Hi Hj Hl.
  replace ((i * b + j) * k + l) with (i * (b * k) + (j * k + l)) by lia.
  rewrite nth_error_flat_map_const.
  2: { intros. rewrite (length_flat_map_const _ k); [now rewrite seq_length|]. auto. }
  2: nia.
  rewrite nth_error_seq. destruct (Nat.ltb_spec i a); [|lia]. simpl (0 + i).
  rewrite nth_error_flat_map_const by auto. rewrite nth_error_seq. destruct (Nat.ltb_spec j b); [|lia]. reflexivity.
Qed.

Lemma tri_conn_shape : shape2 (tri_conn m) (tri_nelem m) 3.
Proof.
  split.
  - unfold tri_conn, tri_nelem. rewrite (length_flat_map_const _ (nx * 2)).
    + rewrite seq_length. lia.
    + intros. rewrite (length_flat_map_const _ 2); [now rewrite seq_length|reflexivity].
  - intros r Hr. unfold tri_conn in Hr. apply in_flat_map in Hr. destruct Hr as [iy [_ Hr]].
    apply in_flat_map in Hr. destruct Hr as [ix [_ Hr]]. simpl in Hr. destruct Hr as [<-|[<-|[]]]; reflexivity.
Qed.

Lemma tri_conn_at ix iy : ix < nx -> iy < ny ->
  nth_error (tri_conn m) ((iy * nx + ix) * 2) = Some
   [ iy * (nx + 1) + ix; iy * (nx + 1) + (ix + 1); (iy + 1) * (nx + 1) + ix ] /\
  nth_error (tri_conn m) ((iy * nx + ix) * 2 + 1) = Some
   [ iy * (nx + 1) + (ix + 1); (iy + 1) * (nx + 1) + (ix + 1); (iy + 1) * (nx + 1) + ix ].
Proof.
  intros Hx Hy. unfold tri_conn. split.
  - rewrite <- (Nat.add_0_r ((iy * nx + ix) * 2)). rewrite flat_map_flat_map_seq; auto.
  - rewrite flat_map_flat_map_seq; auto.
Qed.

Lemma tri_in_conn e : In e (tri_conn m) -> exists ix iy, ix < nx /\ iy < ny /\
  (e = [ iy * (nx + 1) + ix; iy * (nx + 1) + (ix + 1); (iy + 1) * (nx + 1) + ix ] \/
   e = [ iy * (nx + 1) + (ix + 1); (iy + 1) * (nx + 1) + (ix + 1); (iy + 1) * (nx + 1) + ix ]).
Proof.
  intro Hr. unfold tri_conn in Hr. apply in_flat_map in Hr. destruct Hr as [iy [Hy Hr]].
  apply in_flat_map in Hr. destruct Hr as [ix [Hx Hr]]. apply in_seq in Hx. apply in_seq in Hy.
  exists ix, iy. split; [lia|]. split; [lia|]. simpl in Hr. destruct Hr as [<-|[<-|[]]]; auto.
Qed.

Lemma tri_coor_eq : tri_coor m = coor m. Proof. reflexivity. Qed.

Lemma tri_conn_ccw e : In e (tri_conn m) -> exists n0 n1 n2 x0 y0 x1 y1 x2 y2, e = [n0; n1; n2] /\
  node_at (tri_coor m) n0 x0 y0 /\ node_at (tri_coor m) n1 x1 y1 /\ node_at (tri_coor m) n2 x2 y2 /\
  (area2 x0 y0 x1 y1 x2 y2 / 2 = h * h / 2)%R.
Proof.
  intro He. destruct (tri_in_conn e He) as [ix [iy [Hx [Hy [->| ->]]]]]; do 9 eexists; (split; [reflexivity|]);
    (split; [apply coor_at; lia|]); (split; [apply coor_at; lia|]); (split; [apply coor_at; lia|]);
    unfold area2; rewrite ?plus_INR; simpl (INR 1); field.
Qed.

Lemma tri_conn_range e n : In e (tri_conn m) -> In n e -> n < tri_nnode m.
Proof.
  intros He Hn. destruct (tri_in_conn e He) as [ix [iy [Hx [Hy E]]]]. unfold tri_nnode.
  destruct E as [->| ->]; simpl in Hn; destruct Hn as [<-|[<-|[<-|[]]]]; nia.
Qed.

Lemma tri_conn_used n : 1 <= nx -> 1 <= ny -> n < tri_nnode m -> exists e, In e (tri_conn m) /\ In n e.
Proof.
  intros Hx Hy Hn. destruct (conn_used m n Hx Hy Hn) as [e [He Hin]].
  destruct (in_conn m e He) as [ix [iy [Hix [Hiy ->]]]].
  destruct (tri_conn_at ix iy Hix Hiy) as [E1 E2]. apply nth_error_In in E1. apply nth_error_In in E2.
  simpl in Hin. destruct Hin as [<-|[<-|[<-|[<-|[]]]]].
  - eexists; split; [exact E1|simpl; auto].
  - eexists; split; [exact E1|simpl; auto].
  - eexists; split; [exact E2|simpl; auto].
  - eexists; split; [exact E1|simpl; auto].
Qed.

Lemma tri_boundary_eq : tri_boundary m = Regular_boundary m.
Proof.
  unfold tri_boundary, Regular_boundary, tri_nodesBottomOpenEdge, tri_nodesTopOpenEdge, tri_nodesLeftOpenEdge,
    tri_nodesRightOpenEdge, nodesBottomOpenEdge, nodesTopOpenEdge, nodesLeftOpenEdge, nodesRightOpenEdge, arange.
  rewrite map_id. reflexivity.
Qed.

Lemma tri_periodic_eq : tri_nodesPeriodic m = nodesPeriodic m.
Proof. unfold tri_nodesPeriodic. now rewrite tri_boundary_eq. Qed.

Lemma tri_boundary_sets : 1 <= nx -> 1 <= ny -> (0 < h)%R ->
  boundary_sets (tri_coor m) (h * INR nx) (h * INR ny)
    (tri_nodesBottomEdge m) (tri_nodesTopEdge m) (tri_nodesLeftEdge m) (tri_nodesRightEdge m)
    (tri_nodesBottomOpenEdge m) (tri_nodesTopOpenEdge m) (tri_nodesLeftOpenEdge m) (tri_nodesRightOpenEdge m)
    (tri_nodesBottomLeftCorner m) (tri_nodesBottomRightCorner m) (tri_nodesTopLeftCorner m) (tri_nodesTopRightCorner m).
Proof.
  intros Hx Hy Hh. pose proof (Regular_boundary_sets m Hx Hy Hh) as H.
  unfold nodesBottomEdge, nodesTopEdge, nodesLeftEdge, nodesRightEdge,
    nodesBottomOpenEdge, nodesTopOpenEdge, nodesLeftOpenEdge, nodesRightOpenEdge, arange in H. rewrite !Nat.sub_0_r in H.
  unfold tri_nodesBottomEdge, tri_nodesBottomOpenEdge. rewrite !map_id. exact H.
Qed.

Lemma tri_periodic_ties : 1 <= nx -> 1 <= ny -> (0 < h)%R ->
  periodic_ties (tri_coor m) (h * INR nx) (h * INR ny) (tri_nodesPeriodic m).
Proof. rewrite tri_periodic_eq. apply Regular_periodic_ties. Qed.

Lemma tri_periodic_dofs : 1 <= nx -> 1 <= ny -> (0 < h)%R -> exists D,
  tri_dofsPeriodic m = Ok D /\ periodic_dofs (tri_coor m) (h * INR nx) (h * INR ny) 2 D (nx * ny * 2).
Proof. unfold tri_dofsPeriodic. rewrite tri_periodic_eq. apply Regular_periodic_dofs. Qed.
End Tri.

(** ** orientation *)

Definition sgn_orient (x0 y0 x1 y1 x2 y2 : R) : Z := if Rlt_dec 0 (area2 x0 y0 x1 y1 x2 y2) then (-1)%Z else 1%Z.

Lemma orientation_row X e x0 y0 x1 y1 x2 y2 : triangle X e x0 y0 x1 y1 x2 y2 ->
  (do n0 <- get e 0; do n1 <- get e 1; do n2 <- get e 2;
   do p0 <- get X n0; do p1 <- get X n1; do p2 <- get X n2;
   orientation_of p0 p1 p2) = Ok (sgn_orient x0 y0 x1 y1 x2 y2).
Proof.
  intros [n0 [n1 [n2 [-> [H0 [H1 H2]]]]]]. simpl. unfold get. rewrite H0, H1, H2. simpl.
  unfold orientation_of. simpl. unfold sgn_orient, area2. f_equal.
  destruct (Rlt_dec _ 0), (Rlt_dec 0 _); try reflexivity; exfalso; nra.
Qed.

Lemma getOrientation_spec X C :
  (forall e, In e C -> exists x0 y0 x1 y1 x2 y2, triangle X e x0 y0 x1 y1 x2 y2) ->
  exists val, getOrientation X C = Ok val /\ length val = length C /\
   forall k e v x0 y0 x1 y1 x2 y2, nth_error C k = Some e -> nth_error val k = Some v -> triangle X e x0 y0 x1 y1 x2 y2 ->
     v = sgn_orient x0 y0 x1 y1 x2 y2.
Proof.
  intro H. induction C as [|e C IH].
  - exists []. split; [reflexivity|]. split; [reflexivity|]. intros [|k]; discriminate.
  - destruct IH as [val [E [Hl Hn]]]; [intros; apply H; now right|].
    destruct (H e) as [x0 [y0 [x1 [y1 [x2 [y2 Ht]]]]]]; [now left|].
    exists (sgn_orient x0 y0 x1 y1 x2 y2 :: val). split; [|split].
    + unfold getOrientation in *. cbn [mapM]. rewrite (orientation_row _ _ _ _ _ _ _ _ Ht). cbn [bind]. now rewrite E.
    + simpl. now f_equal.
    + intros [|k] e' v a0 b0 a1 b1 a2 b2 He Hv Ht'; simpl in He, Hv.
      * inversion He; inversion Hv; subst. destruct Ht as [n0 [n1 [n2 [-> [H0 [H1 H2]]]]]].
        destruct Ht' as [m0 [m1 [m2 [Em [K0 [K1 K2]]]]]]. inversion Em; subst.
        destruct (node_at_fun _ _ _ _ _ _ H0 K0), (node_at_fun _ _ _ _ _ _ H1 K1), (node_at_fun _ _ _ _ _ _ H2 K2).
        now subst.
      * eapply Hn; eauto.
Qed.

Lemma setOrientation_val_spec o : forall C val s (pre : list Z), length val = length C -> length pre = s ->
  (forall e, In e C -> length e = 3) ->
  exists C', mapM (fun iv => do v <- get (pre ++ val) (fst iv); orient_row (snd iv) v o) (combine (seq s (length C)) C) = Ok C' /\
   length C' = length C /\
   forall k e e' v, nth_error C k = Some e -> nth_error C' k = Some e' -> nth_error val k = Some v ->
     exists a b c, e = [a; b; c] /\
     ((o = -1 /\ 0 < v \/ o = 1 /\ v < 0) -> e' = [a; c; b])%Z /\
     (~(o = -1 /\ 0 < v \/ o = 1 /\ v < 0) -> e' = e)%Z.
Proof.
  induction C as [|e C IH]; intros val s pre Hl Hp H3.
  - exists []. split; [reflexivity|]. split; [reflexivity|]. intros [|k]; discriminate.
  - destruct val as [|v val]; [discriminate|]. simpl in Hl.
    destruct (IH val (S s) (pre ++ [v])) as [C' [E [HC' Hk]]]; [lia|rewrite app_length; simpl; lia|intros; apply H3; now right|].
    rewrite <- app_assoc in E. simpl app in E.
    assert (Hv : get (pre ++ v :: val) s = Ok v).
    { apply get_Ok. rewrite nth_error_app2 by lia. rewrite Hp, Nat.sub_diag. reflexivity. }
    assert (He : length e = 3) by (apply H3; now left).
    destruct e as [|a [|b [|c [|? ?]]]]; try discriminate.
    set (cond := ((o =? -1) && (0 <? v) || (o =? 1) && (v <? 0))%Z).
    assert (Hc : cond = true <-> (o = -1 /\ 0 < v \/ o = 1 /\ v < 0)%Z).
    { unfold cond. rewrite orb_true_iff, !andb_true_iff, !Z.eqb_eq, !Z.ltb_lt. tauto. }
    exists ((if cond then [a; c; b] else [a; b; c]) :: C'). split; [|split].
    + cbn [length seq combine mapM fst snd]. rewrite Hv. cbn [bind]. unfold orient_row at 1. fold cond.
      destruct cond; cbn; rewrite E; reflexivity.
    + simpl. now f_equal.
    + intros [|k] f f' w Hf Hf' Hw; simpl in Hf, Hf', Hw.
      * inversion Hf; inversion Hf'; inversion Hw; subst. exists a, b, c. split; [reflexivity|].
        rewrite <- Hc. split; [intros ->; reflexivity|]. intro Hn. destruct cond; [tauto|reflexivity].
      * eapply Hk; eauto.
Qed.

Lemma setOrientation_spec X C o : (o = 1 \/ o = -1)%Z ->
  (forall e, In e C -> exists x0 y0 x1 y1 x2 y2, triangle X e x0 y0 x1 y1 x2 y2) ->
  exists C', setOrientation X C o = Ok C' /\ length C' = length C /\
   forall k e e' x0 y0 x1 y1 x2 y2, nth_error C k = Some e -> nth_error C' k = Some e' ->
     triangle X e x0 y0 x1 y1 x2 y2 ->
     exists n0 n1 n2, e = [n0; n1; n2] /\
      ((o = -1)%Z -> (0 < area2 x0 y0 x1 y1 x2 y2)%R -> e' = [n0; n1; n2]) /\
      ((o = -1)%Z -> (area2 x0 y0 x1 y1 x2 y2 <= 0)%R -> e' = [n0; n2; n1]) /\
      ((o = 1)%Z -> (0 < area2 x0 y0 x1 y1 x2 y2)%R -> e' = [n0; n2; n1]) /\
      ((o = 1)%Z -> (area2 x0 y0 x1 y1 x2 y2 <= 0)%R -> e' = [n0; n1; n2]).
Proof.
  intros Ho Ht. destruct (getOrientation_spec X C Ht) as [val [E [Hl Hv]]].
  destruct (setOrientation_val_spec o C val 0 [] Hl eq_refl) as [C' [E' [Hl' Hk]]].
  { intros e He. destruct (Ht e He) as [x0 [y0 [x1 [y1 [x2 [y2 [n0 [n1 [n2 [-> _]]]]]]]]]]. reflexivity. }
  exists C'. split; [|split; [exact Hl'|]].
  - unfold setOrientation. rewrite E. simpl bind. exact E'.
  - intros k e e' x0 y0 x1 y1 x2 y2 He He' Htri.
    destruct (nth_error val k) as [v|] eqn:Ev.
    2: { apply nth_error_None in Ev. assert (k < length C) by (apply nth_error_Some; congruence). lia. }
    destruct (Hk k e e' v He He' Ev) as [a [b [c [Ee [H1 H2]]]]].
    exists a, b, c. split; [exact Ee|].
    rewrite (Hv k e v _ _ _ _ _ _ He Ev Htri) in H1, H2. unfold sgn_orient in *. rewrite Ee in H2.
    destruct (Rlt_dec 0 (area2 x0 y0 x1 y1 x2 y2)); repeat split; intros; try lra; (apply H1; lia) || (apply H2; lia).
Qed.

(** ** statements used in Prop_Regular2d *)
Lemma conn_spec : forall m,
  shape2 (conn m) (nelem m) 4 /\ nelem m = nelx m * nely m /\
  (forall ix iy, ix < nelx m -> iy < nely m -> exists n0 n1 n2 n3,
    nth_error (conn m) (iy * nelx m + ix) = Some [n0; n1; n2; n3] /\
    node_at (coor m) n0 (hh m * INR ix) (hh m * INR iy) /\
    node_at (coor m) n1 (hh m * INR (ix + 1)) (hh m * INR iy) /\
    node_at (coor m) n2 (hh m * INR (ix + 1)) (hh m * INR (iy + 1)) /\
    node_at (coor m) n3 (hh m * INR ix) (hh m * INR (iy + 1))) /\
  (forall e n, In e (conn m) -> In n e -> n < nnode m) /\
  (1 <= nelx m -> 1 <= nely m -> forall n, n < nnode m -> exists e, In e (conn m) /\ In n e).
Proof.
  intro m. split; [apply conn_shape|]. split; [reflexivity|]. split; [|split].
  - intros ix iy Hx Hy. do 4 eexists. split; [apply conn_at; assumption|].
    repeat split; apply coor_at; lia.
  - apply conn_range.
  - intros; now apply conn_used.
Qed.

Lemma elementgrid_spec : forall m,
  shape2 (elementgrid m) (nely m) (nelx m) /\
  (forall ix iy, ix < nelx m -> iy < nely m -> exists e n0 n1 n2 n3,
      at2 (elementgrid m) iy ix = Some e /\ nth_error (conn m) e = Some [n0; n1; n2; n3] /\
      node_at (coor m) n0 (hh m * INR ix) (hh m * INR iy) /\
      node_at (coor m) n2 (hh m * INR (ix + 1)) (hh m * INR (iy + 1))) /\
  concat (elementgrid m) = seq 0 (nelem m).
Proof.
  intro m. split; [apply elementgrid_shape|]. split; [|apply concat_elementgrid].
  intros ix iy Hx Hy. do 5 eexists. split; [apply elementgrid_at; assumption|].
  split; [apply conn_at; assumption|]. split; apply coor_at; lia.
Qed.

Lemma tri_spec : forall m,
  shape2 (tri_coor m) (tri_nnode m) 2 /\ tri_nnode m = (nelx m + 1) * (nely m + 1) /\
  shape2 (tri_conn m) (tri_nelem m) 3 /\ tri_nelem m = nelx m * nely m * 2 /\
  (forall ix iy, ix < nelx m -> iy < nely m -> exists n0 n1 n2 n3,
    nth_error (tri_conn m) ((iy * nelx m + ix) * 2) = Some [n0; n1; n3] /\
    nth_error (tri_conn m) ((iy * nelx m + ix) * 2 + 1) = Some [n1; n2; n3] /\
    node_at (tri_coor m) n0 (hh m * INR ix) (hh m * INR iy) /\
    node_at (tri_coor m) n1 (hh m * INR (ix + 1)) (hh m * INR iy) /\
    node_at (tri_coor m) n2 (hh m * INR (ix + 1)) (hh m * INR (iy + 1)) /\
    node_at (tri_coor m) n3 (hh m * INR ix) (hh m * INR (iy + 1))) /\
  (forall e, In e (tri_conn m) -> exists x0 y0 x1 y1 x2 y2,
     triangle (tri_coor m) e x0 y0 x1 y1 x2 y2 /\ (area2 x0 y0 x1 y1 x2 y2 / 2 = hh m * hh m / 2)%R) /\
  (forall e n, In e (tri_conn m) -> In n e -> n < tri_nnode m) /\
  (1 <= nelx m -> 1 <= nely m -> forall n, n < tri_nnode m -> exists e, In e (tri_conn m) /\ In n e).
Proof.
  intro m. split; [apply coor_shape|]. split; [reflexivity|]. split; [apply tri_conn_shape|].
  split; [reflexivity|]. split; [|split; [|split]].
  - intros ix iy Hx Hy. do 4 eexists. destruct (tri_conn_at m ix iy Hx Hy) as [E1 E2].
    split; [exact E1|]. split; [exact E2|]. repeat split; apply coor_at; lia.
  - intros e He. destruct (tri_conn_ccw m e He) as [n0 [n1 [n2 [x0 [y0 [x1 [y1 [x2 [y2 [-> [H0 [H1 [H2 Ha]]]]]]]]]]]]].
    exists x0, y0, x1, y1, x2, y2. split; [|exact Ha]. exists n0, n1, n2. auto.
  - apply tri_conn_range.
  - intros; now apply tri_conn_used.
Qed.

Lemma getOrientation_thm : forall X C,
  (forall e, In e C -> exists x0 y0 x1 y1 x2 y2, triangle X e x0 y0 x1 y1 x2 y2) ->
  exists val, getOrientation X C = Ok val /\ length val = length C /\
   forall k e v x0 y0 x1 y1 x2 y2,
     nth_error C k = Some e -> nth_error val k = Some v -> triangle X e x0 y0 x1 y1 x2 y2 ->
     (v = -1 \/ v = 1)%Z /\ (v = (-1)%Z <-> (0 < area2 x0 y0 x1 y1 x2 y2)%R).
Proof.
  intros X C H. destruct (getOrientation_spec X C H) as [val [E [Hl Hk]]].
  exists val. split; [exact E|]. split; [exact Hl|]. intros k e v x0 y0 x1 y1 x2 y2 He Hv Ht.
  rewrite (Hk k e v _ _ _ _ _ _ He Hv Ht). unfold sgn_orient.
  destruct (Rlt_dec 0 (area2 x0 y0 x1 y1 x2 y2)); split; auto; split; intros; auto; try lra; discriminate.
Qed.

Lemma setOrientation_thm : forall X C o, (o = 1 \/ o = -1)%Z ->
  (forall e, In e C -> exists x0 y0 x1 y1 x2 y2, triangle X e x0 y0 x1 y1 x2 y2) ->
  exists C', setOrientation X C o = Ok C' /\ length C' = length C /\
   (forall k e e', nth_error C k = Some e -> nth_error C' k = Some e' -> Permutation e e') /\
   (forall k e e' x0 y0 x1 y1 x2 y2 x0' y0' x1' y1' x2' y2',
     nth_error C k = Some e -> nth_error C' k = Some e' ->
     triangle X e x0 y0 x1 y1 x2 y2 -> triangle X e' x0' y0' x1' y1' x2' y2' ->
     area2 x0 y0 x1 y1 x2 y2 <> 0%R ->
     (o = (-1)%Z <-> (0 < area2 x0' y0' x1' y1' x2' y2')%R) /\
     ((o = (-1)%Z <-> (0 < area2 x0 y0 x1 y1 x2 y2)%R) -> e' = e)).
Proof.
  intros X C o Ho H. destruct (setOrientation_spec X C o Ho H) as [C' [E [Hl Hk]]].
  exists C'. split; [exact E|]. split; [exact Hl|]. split.
  - intros k e e' He He'. destruct (H e (nth_error_In _ _ He)) as [x0 [y0 [x1 [y1 [x2 [y2 Ht]]]]]].
    destruct (Hk k e e' _ _ _ _ _ _ He He' Ht) as [a [b [c [-> [H1 [H2 [H3 H4]]]]]]].
    destruct (Rlt_dec 0 (area2 x0 y0 x1 y1 x2 y2)) as [Hp|Hp].
    + destruct Ho as [Ho|Ho]; [rewrite H3 by auto|rewrite H1 by auto]; [apply perm_skip, perm_swap|reflexivity].
    + apply Rnot_lt_le in Hp.
      destruct Ho as [Ho|Ho]; [rewrite H4 by auto|rewrite H2 by auto]; [reflexivity|apply perm_skip, perm_swap].
  - intros k e e' x0 y0 x1 y1 x2 y2 a0 b0 a1 b1 a2 b2 He He' Ht Ht' Hnz.
    destruct (Hk k e e' _ _ _ _ _ _ He He' Ht) as [n0 [n1 [n2 [Ee [H1 [H2 [H3 H4]]]]]]].
    destruct Ht as [m0 [m1 [m2 [Em [K0 [K1 K2]]]]]]. rewrite Ee in Em. inversion Em; subst m0 m1 m2.
    destruct Ht' as [m0 [m1 [m2 [Em' [L0 [L1 L2]]]]]].
    assert (Hsame : e' = [n0; n1; n2] -> area2 a0 b0 a1 b1 a2 b2 = area2 x0 y0 x1 y1 x2 y2).
    { intro Hs. rewrite Hs in Em'. inversion Em'; subst m0 m1 m2.
      destruct (node_at_fun _ _ _ _ _ _ L0 K0), (node_at_fun _ _ _ _ _ _ L1 K1), (node_at_fun _ _ _ _ _ _ L2 K2).
      now subst. }
    assert (Hswap : e' = [n0; n2; n1] -> area2 a0 b0 a1 b1 a2 b2 = (- area2 x0 y0 x1 y1 x2 y2)%R).
    { intro Hs. rewrite Hs in Em'. inversion Em'; subst m0 m1 m2.
      destruct (node_at_fun _ _ _ _ _ _ L0 K0), (node_at_fun _ _ _ _ _ _ L1 K2), (node_at_fun _ _ _ _ _ _ L2 K1).
      subst. unfold area2. ring. }
    destruct (Rlt_dec 0 (area2 x0 y0 x1 y1 x2 y2)) as [Hp|Hp].
    + destruct Ho as [Ho|Ho].
      * rewrite (Hswap (H3 Ho Hp)). split; [split; intro; [subst; discriminate|lra]|].
        intros [_ Hb]. rewrite (Hb Hp) in Ho. discriminate.
      * rewrite (Hsame (H1 Ho Hp)). split; [tauto|]. intros _. rewrite (H1 Ho Hp). now subst.
    + assert (Hn : (area2 x0 y0 x1 y1 x2 y2 < 0)%R) by lra. assert (Hn' : (area2 x0 y0 x1 y1 x2 y2 <= 0)%R) by lra.
      destruct Ho as [Ho|Ho].
      * rewrite (Hsame (H4 Ho Hn')). split; [split; intro; [subst; discriminate|lra]|].
        intros _. rewrite (H4 Ho Hn'). now subst.
      * rewrite (Hswap (H2 Ho Hn')). split; [split; intro; [lra|exact Ho]|].
        intros [Ha _]. specialize (Ha Ho). lra.
Qed.
