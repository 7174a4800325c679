From Coq Require Import Reals ZArith Lra.
From Verif Require Import Base Spec Spec2d Spec3d Model_Numbering Proof_Numbering Model_Regular2d Proof_Regular2d Model_Hex8Regular.

(** ** generic *)
Lemma node_at3_fun X n x y z x' y' z' : node_at3 X n x y z -> node_at3 X n x' y' z' -> x = x' /\ y = y' /\ z = z'.
Proof. unfold node_at3. intros H1 H2. rewrite H1 in H2. inversion H2. auto. Qed.

Lemma node_at3_lt X n x y z : node_at3 X n x y z -> n < length X.
Proof. unfold node_at3. intro H. apply nth_error_Some. congruence. Qed.

Lemma congruent3_refl Lx Ly Lz x y z : congruent3 Lx Ly Lz x y z x y z.
Proof. exists 0%Z, 0%Z, 0%Z. lra. Qed.

Lemma congruent3_sym Lx Ly Lz x y z x' y' z' : congruent3 Lx Ly Lz x y z x' y' z' -> congruent3 Lx Ly Lz x' y' z' x y z.
Proof. intros [p [q [r [-> [-> ->]]]]]. exists (-p)%Z, (-q)%Z, (-r)%Z. rewrite !opp_IZR. lra. Qed.

Lemma congruent3_trans Lx Ly Lz x y z x' y' z' x2 y2 z2 : congruent3 Lx Ly Lz x y z x' y' z' ->
  congruent3 Lx Ly Lz x' y' z' x2 y2 z2 -> congruent3 Lx Ly Lz x y z x2 y2 z2.
Proof.
  intros [p [q [r [-> [-> ->]]]]] [p' [q' [r' [-> [-> ->]]]]].
  exists (p+p')%Z, (q+q')%Z, (r+r')%Z. rewrite !plus_IZR. lra.
Qed.

Lemma periodic_dofs3_generic X Lx Ly Lz ndim ties : in_domain3 X Lx Ly Lz -> periodic_ties3 X Lx Ly Lz ties ->
  exists D, dofsPeriodic (length X) ndim ties = Ok D /\
    periodic_dofs3 X Lx Ly Lz ndim D ((length X - length ties) * ndim).
Proof.
  intros [Hpos [Hdom Hinj]] [Hwf [Hcong [Hnd Hdep]]].
  destruct (dofsPeriodic_spec (length X) ndim ties Hwf) as [D [HD [HS [Heq Hcount]]]].
  exists D. split; [exact HD|]. split; [exact HS|]. split; [|exact Hcount].
  assert (Hrep : forall m x y z, node_at3 X m x y z -> exists r u v w, represents ties m r /\ node_at3 X r u v w /\
            congruent3 Lx Ly Lz u v w x y z /\ (0 <= u < Lx)%R /\ (0 <= v < Ly)%R /\ (0 <= w < Lz)%R).
  { intros m x y z Hm. destruct (represents_exists ties m) as [r Hr].
    assert (Hrl : r < length X).
    { eapply represents_lt; eauto. eapply node_at3_lt; eauto. }
    destruct (Hpos r Hrl) as [u [v [w Hu]]]. exists r, u, v, w. split; [exact Hr|]. split; [exact Hu|].
    assert (Hnr : ~ In r (map snd ties)).
    { destruct Hr as [Hr|[-> Hr]]; [|exact Hr]. destruct Hwf as [_ [_ Hind]]. apply Hind.
      apply in_map_iff. exists (r, m). auto. }
    assert (Hb : ~ (u = Lx \/ v = Ly \/ w = Lz)).
    { intro Hc. apply Hnr. apply Hdep. exists u, v, w. auto. }
    pose proof (Hdom _ _ _ _ Hu) as Hd.
    split.
    - destruct Hr as [Hr|[-> _]].
      + eapply Hcong; eauto.
      + destruct (node_at3_fun _ _ _ _ _ _ _ _ Hu Hm) as [-> [-> ->]]. apply congruent3_refl.
    - assert (u <> Lx /\ v <> Ly /\ w <> Lz) by tauto. lra. }
  intros m i v x y z m' i' v' x' y' z' Hv Hv' Hm Hm'.
  destruct (Hrep m x y z Hm) as [r [a [b [c [Hr [Hra [Hc [Ha [Hb Hcc0]]]]]]]]].
  destruct (Hrep m' x' y' z' Hm') as [r' [a' [b' [c' [Hr' [Hra' [Hc' [Ha' [Hb' Hcc1]]]]]]]]].
  destruct (Heq m i r v m' i' r' v' Hr Hv Hr' Hv') as [E _]. rewrite E. split.
  - intros [-> ->]. split; [reflexivity|].
    destruct (node_at3_fun _ _ _ _ _ _ _ _ Hra Hra') as [-> [-> ->]].
    eapply congruent3_trans; [|exact Hc']. apply congruent3_sym. exact Hc.
  - intros [-> Hcc]. split; [|reflexivity].
    assert (HH : congruent3 Lx Ly Lz a b c a' b' c').
    { eapply congruent3_trans; [exact Hc|]. eapply congruent3_trans; [exact Hcc|]. now apply congruent3_sym. }
    destruct HH as [p [q [s [Hp [Hq Hs]]]]].
    apply mod_unique in Hp; [|lra|lra]. apply mod_unique in Hq; [|lra|lra]. apply mod_unique in Hs; [|lra|lra]. subst.
    eapply Hinj; eauto.
Qed.

Lemma forin2_length {A} la lb (f : nat -> nat -> A) : length (forin2 la lb f) = length la * length lb.
Proof. unfold forin2. apply length_flat_map_const. intros. apply map_length. Qed.

Lemma forin3_length {A} la lb lc (f : nat -> nat -> nat -> A) :
  length (forin3 la lb lc f) = length la * (length lb * length lc).
Proof. unfold forin3. apply length_flat_map_const. intros. apply forin2_length. Qed.

Lemma In_forin2 {A} la lb (f : nat -> nat -> A) x : In x (forin2 la lb f) <-> exists i j, In i la /\ In j lb /\ x = f i j.
Proof.
  unfold forin2. rewrite in_flat_map. split.
  - intros [i [Hi Hx]]. apply in_map_iff in Hx. destruct Hx as [j [<- Hj]]. eauto.
  - intros [i [j [Hi [Hj ->]]]]. exists i. split; [exact Hi|]. apply in_map. exact Hj.
Qed.

Lemma In_forin3 {A} la lb lc (f : nat -> nat -> nat -> A) x : In x (forin3 la lb lc f) <->
  exists i j k, In i la /\ In j lb /\ In k lc /\ x = f i j k.
Proof.
  unfold forin3. rewrite in_flat_map. split.
  - intros [i [Hi Hx]]. apply In_forin2 in Hx. destruct Hx as [j [k [Hj [Hk ->]]]]. exists i, j, k. auto.
  - intros [i [j [k [Hi [Hj [Hk ->]]]]]]. exists i. split; [exact Hi|]. apply In_forin2. eauto.
Qed.

Lemma nth_forin2 {A} a b (f : nat -> nat -> A) i j : i < a -> j < b ->
  nth_error (forin2 (seq 0 a) (seq 0 b) f) (i * b + j) = Some (f i j).
Proof.
  intros Hi Hj. unfold forin2. rewrite nth_error_flat_map_const; [|intros; now rewrite map_length, seq_length|exact Hj].
  rewrite nth_error_seq. destruct (Nat.ltb_spec i a); [|lia]. rewrite nth_error_map, nth_error_seq.
  destruct (Nat.ltb_spec j b); [|lia]. reflexivity.
Qed.

Lemma nth_forin3 {A} a b c (f : nat -> nat -> nat -> A) i j k : i < a -> j < b -> k < c ->
  nth_error (forin3 (seq 0 a) (seq 0 b) (seq 0 c) f) (i * (b * c) + (j * c + k)) = Some (f i j k).
Proof.
  intros Hi Hj Hk. unfold forin3.
  rewrite nth_error_flat_map_const; [|intros; now rewrite forin2_length, !seq_length|nia].
  rewrite nth_error_seq. destruct (Nat.ltb_spec i a); [|lia]. simpl (0 + i). now apply nth_forin2.
Qed.

Lemma combine_map_map {A B C} (f : A -> B) (g : A -> C) l : combine (map f l) (map g l) = map (fun x => (f x, g x)) l.
Proof. induction l; simpl; [reflexivity|]. now f_equal. Qed.

Lemma combine_app {A B} (a1 a2 : list A) : forall (b1 b2 : list B), length a1 = length b1 ->
  combine (a1 ++ a2) (b1 ++ b2) = combine a1 b1 ++ combine a2 b2.
Proof. induction a1 as [|x a1 IH]; intros [|y b1] b2 H; simpl in *; try discriminate; [reflexivity|]. f_equal. apply IH. lia. Qed.

Lemma combine_forin2 {A B} la lb (f : nat -> nat -> A) (g : nat -> nat -> B) :
  combine (forin2 la lb f) (forin2 la lb g) = forin2 la lb (fun i j => (f i j, g i j)).
Proof.
  unfold forin2. induction la as [|i la IH]; simpl; [reflexivity|].
  rewrite combine_app by now rewrite !map_length. now rewrite combine_map_map, IH.
Qed.

Lemma NoDup_forin2 {A} la lb (f : nat -> nat -> A) : NoDup la -> NoDup lb ->
  (forall i j i' j', In i la -> In j lb -> In i' la -> In j' lb -> f i j = f i' j' -> i = i' /\ j = j') ->
  NoDup (forin2 la lb f).
Proof.
  intros Ha Hb Hf. unfold forin2. apply NoDup_flat_map; [exact Ha| |].
  - intros i Hi. apply NoDup_map_inj; [exact Hb|]. intros j j' Hj Hj' E. eapply Hf in E; tauto.
  - intros i i' x Hi Hi' Hx Hx'. apply in_map_iff in Hx. apply in_map_iff in Hx'.
    destruct Hx as [j [E Hj]], Hx' as [j' [E' Hj']]. rewrite <- E in E'. symmetry in E'. eapply Hf in E'; tauto.
Qed.

Section Hex.
Variable m : HexRegular.
Notation nx := (hx_nelx m).
Notation ny := (hx_nely m).
Notation nz := (hx_nelz m).
Notation h := (hx_h m).

(** number of the node at grid position (ix, iy, iz) *)
Definition N3 (ix iy iz : nat) : nat := iz * ((ny + 1) * (nx + 1)) + (iy * (nx + 1) + ix).

Lemma N3_inj ix iy iz jx jy jz : ix <= nx -> iy <= ny -> jx <= nx -> jy <= ny ->
  N3 ix iy iz = N3 jx jy jz -> ix = jx /\ iy = jy /\ iz = jz.
Proof.
  unfold N3. intros H1 H2 H3 H4 E. apply grid_inj in E; [|nia|nia]. destruct E as [-> E].
  apply grid_inj in E; [|lia|lia]. tauto.
Qed.

Lemma N3_lt ix iy iz : ix <= nx -> iy <= ny -> iz <= nz -> N3 ix iy iz < hex_nnode m.
Proof. unfold N3, hex_nnode. intros. assert (iy * (nx + 1) + ix < (ny + 1) * (nx + 1)) by nia. nia. Qed.

Lemma N3_surj n : n < hex_nnode m -> exists ix iy iz, ix <= nx /\ iy <= ny /\ iz <= nz /\ n = N3 ix iy iz.
Proof.
  unfold hex_nnode, N3. intro H. destruct (grid_split ((ny + 1) * (nx + 1)) n) as [iz [r [Hr E]]]; [lia|].
  destruct (grid_split (nx + 1) r) as [iy [ix [Hx E']]]; [lia|]. subst r.
  exists ix, iy, iz. assert (iy <= ny) by nia. assert (iz <= nz) by nia. repeat split; lia.
Qed.

Lemma hex_coor_length : length (hex_coor m) = hex_nnode m.
Proof. unfold hex_coor. rewrite forin3_length, !seq_length. unfold hex_nnode. lia. Qed.

Lemma hex_coor_shape : shape2 (hex_coor m) (hex_nnode m) 3.
Proof.
  split; [apply hex_coor_length|]. intros r Hr. unfold hex_coor in Hr. apply In_forin3 in Hr.
  destruct Hr as [i [j [k [_ [_ [_ ->]]]]]]. reflexivity.
Qed.

Lemma hex_coor_at ix iy iz : ix <= nx -> iy <= ny -> iz <= nz ->
  node_at3 (hex_coor m) (N3 ix iy iz) (h * INR ix) (h * INR iy) (h * INR iz).
Proof.
  intros Hx Hy Hz. unfold node_at3, N3, hex_coor. rewrite nth_forin3 by lia. now rewrite !linspace_INR by lia.
Qed.

Lemma node_at3_iff n x y z : node_at3 (hex_coor m) n x y z <->
  exists ix iy iz, ix <= nx /\ iy <= ny /\ iz <= nz /\ n = N3 ix iy iz /\
    x = (h * INR ix)%R /\ y = (h * INR iy)%R /\ z = (h * INR iz)%R.
Proof.
  split.
  - intro H. pose proof (node_at3_lt _ _ _ _ _ H) as Hl. rewrite hex_coor_length in Hl.
    destruct (N3_surj n Hl) as [ix [iy [iz [Hx [Hy [Hz ->]]]]]]. exists ix, iy, iz.
    pose proof (hex_coor_at ix iy iz Hx Hy Hz) as H'.
    destruct (node_at3_fun _ _ _ _ _ _ _ _ H H') as [-> [-> ->]]. repeat split; assumption.
  - intros [ix [iy [iz [Hx [Hy [Hz [-> [-> [-> ->]]]]]]]]]. now apply hex_coor_at.
Qed.

Lemma hex_conn_shape : shape2 (hex_conn m) (hex_nelem m) 8.
Proof.
  split.
  - unfold hex_conn. rewrite forin3_length, !seq_length. unfold hex_nelem. lia.
  - intros r Hr. unfold hex_conn in Hr. apply In_forin3 in Hr. destruct Hr as [i [j [k [_ [_ [_ ->]]]]]]. reflexivity.
Qed.

Lemma hex_row ix iy iz :
  [ iy * (nx + 1) + ix + iz * (ny + 1) * (nx + 1);
      iy * (nx + 1) + (ix + 1) + iz * (ny + 1) * (nx + 1);
      (iy + 1) * (nx + 1) + (ix + 1) + iz * (ny + 1) * (nx + 1);
      (iy + 1) * (nx + 1) + ix + iz * (ny + 1) * (nx + 1);
      iy * (nx + 1) + ix + (iz + 1) * (ny + 1) * (nx + 1);
      iy * (nx + 1) + (ix + 1) + (iz + 1) * (ny + 1) * (nx + 1);
      (iy + 1) * (nx + 1) + (ix + 1) + (iz + 1) * (ny + 1) * (nx + 1);
      (iy + 1) * (nx + 1) + ix + (iz + 1) * (ny + 1) * (nx + 1) ] =
  [ N3 ix iy iz; N3 (ix+1) iy iz; N3 (ix+1) (iy+1) iz; N3 ix (iy+1) iz;
    N3 ix iy (iz+1); N3 (ix+1) iy (iz+1); N3 (ix+1) (iy+1) (iz+1); N3 ix (iy+1) (iz+1) ].
Proof. unfold N3. repeat (f_equal; try ring). Qed.

Lemma hex_conn_at ix iy iz : ix < nx -> iy < ny -> iz < nz ->
  nth_error (hex_conn m) (iz * (ny * nx) + (iy * nx + ix)) = Some
  [ N3 ix iy iz; N3 (ix+1) iy iz; N3 (ix+1) (iy+1) iz; N3 ix (iy+1) iz;
    N3 ix iy (iz+1); N3 (ix+1) iy (iz+1); N3 (ix+1) (iy+1) (iz+1); N3 ix (iy+1) (iz+1) ].
Proof. intros Hx Hy Hz. unfold hex_conn. rewrite nth_forin3 by assumption. f_equal. apply hex_row. Qed.

Lemma hex_in_conn e : In e (hex_conn m) -> exists ix iy iz, ix < nx /\ iy < ny /\ iz < nz /\ e =
  [ N3 ix iy iz; N3 (ix+1) iy iz; N3 (ix+1) (iy+1) iz; N3 ix (iy+1) iz;
    N3 ix iy (iz+1); N3 (ix+1) iy (iz+1); N3 (ix+1) (iy+1) (iz+1); N3 ix (iy+1) (iz+1) ].
Proof.
  intro H. unfold hex_conn in H. apply In_forin3 in H. destruct H as [iz [iy [ix [Hz [Hy [Hx ->]]]]]].
  apply in_seq in Hx, Hy, Hz. exists ix, iy, iz. rewrite hex_row. repeat split; lia.
Qed.

Lemma hex_conn_range e n : In e (hex_conn m) -> In n e -> n < hex_nnode m.
Proof.
  intros He Hn. destruct (hex_in_conn e He) as [ix [iy [iz [Hx [Hy [Hz ->]]]]]]. simpl in Hn.
  destruct Hn as [<-|[<-|[<-|[<-|[<-|[<-|[<-|[<-|[]]]]]]]]]; apply N3_lt; lia.
Qed.

Lemma cell_of n i : 1 <= n -> i <= n -> exists j, j < n /\ (i = j \/ i = j + 1).
Proof. intros Hn Hi. destruct (Nat.eq_dec i n); [exists (i - 1)|exists i]; lia. Qed.

Lemma hex_conn_used n : 1 <= nx -> 1 <= ny -> 1 <= nz -> n < hex_nnode m -> exists e, In e (hex_conn m) /\ In n e.
Proof.
  intros H1 H2 H3 Hn. destruct (N3_surj n Hn) as [ix [iy [iz [Hx [Hy [Hz ->]]]]]].
  destruct (cell_of _ _ H1 Hx) as [jx [Jx Ex]]. destruct (cell_of _ _ H2 Hy) as [jy [Jy Ey]].
  destruct (cell_of _ _ H3 Hz) as [jz [Jz Ez]].
  eexists. split; [eapply nth_error_In, (hex_conn_at jx jy jz); assumption|].
  simpl. destruct Ex as [->| ->], Ey as [->| ->], Ez as [->| ->]; tauto.
Qed.

(** *** boundary lists in terms of grid positions *)
Definition lists_idx (l : list nat) (Q : nat -> nat -> nat -> Prop) : Prop :=
  NoDup l /\ forall n, In n l <-> exists ix iy iz, ix <= nx /\ iy <= ny /\ iz <= nz /\ Q ix iy iz /\ n = N3 ix iy iz.

Lemma lists_idx_nodes l (Q : nat -> nat -> nat -> Prop) (P : R -> R -> R -> Prop) : lists_idx l Q ->
  (forall ix iy iz, ix <= nx -> iy <= ny -> iz <= nz -> (Q ix iy iz <-> P (h * INR ix) (h * INR iy) (h * INR iz))%R) ->
  lists_nodes3 (hex_coor m) l P.
Proof.
  intros [Hn HQ] E. split; [exact Hn|]. intro n. rewrite HQ. split.
  - intros [ix [iy [iz [Hx [Hy [Hz [Hq ->]]]]]]]. do 3 eexists. split; [apply hex_coor_at; assumption|]. now apply E.
  - intros [x [y [z [H HP]]]]. apply node_at3_iff in H. destruct H as [ix [iy [iz [Hx [Hy [Hz [-> [-> [-> ->]]]]]]]]].
    exists ix, iy, iz. repeat split; auto. now apply E.
Qed.

Lemma lists2 la lb (f gx gy gz : nat -> nat -> nat) (Q : nat -> nat -> nat -> Prop) : NoDup la -> NoDup lb ->
  (forall i j, In i la -> In j lb -> f i j = N3 (gx i j) (gy i j) (gz i j) /\ gx i j <= nx /\ gy i j <= ny /\ gz i j <= nz) ->
  (forall i j i' j', gx i j = gx i' j' -> gy i j = gy i' j' -> gz i j = gz i' j' -> i = i' /\ j = j') ->
  (forall ix iy iz, ix <= nx -> iy <= ny -> iz <= nz -> (Q ix iy iz <->
     exists i j, In i la /\ In j lb /\ ix = gx i j /\ iy = gy i j /\ iz = gz i j)) ->
  lists_idx (forin2 la lb f) Q.
Proof.
  intros Ha Hb Hf Hg HQ. split.
  - apply NoDup_forin2; auto. intros i j i' j' Hi Hj Hi' Hj' E.
    destruct (Hf i j Hi Hj) as [E1 [B1 [B2 B3]]]. destruct (Hf i' j' Hi' Hj') as [E2 [C1 [C2 C3]]].
    rewrite E1, E2 in E. apply N3_inj in E; try assumption. apply Hg; tauto.
  - intro n. rewrite In_forin2. split.
    + intros [i [j [Hi [Hj ->]]]]. destruct (Hf i j Hi Hj) as [E1 [B1 [B2 B3]]].
      exists (gx i j), (gy i j), (gz i j). repeat split; try assumption. apply HQ; auto. exists i, j. auto.
    + intros [ix [iy [iz [Hx [Hy [Hz [Hq ->]]]]]]]. apply HQ in Hq; try assumption.
      destruct Hq as [i [j [Hi [Hj [-> [-> ->]]]]]]. exists i, j. repeat split; auto.
      symmetry. now apply Hf.
Qed.

Lemma lists1 la (f gx gy gz : nat -> nat) (Q : nat -> nat -> nat -> Prop) : NoDup la ->
  (forall i, In i la -> f i = N3 (gx i) (gy i) (gz i) /\ gx i <= nx /\ gy i <= ny /\ gz i <= nz) ->
  (forall i i', gx i = gx i' -> gy i = gy i' -> gz i = gz i' -> i = i') ->
  (forall ix iy iz, ix <= nx -> iy <= ny -> iz <= nz -> (Q ix iy iz <->
     exists i, In i la /\ ix = gx i /\ iy = gy i /\ iz = gz i)) ->
  lists_idx (map f la) Q.
Proof.
  intros Ha Hf Hg HQ. split.
  - apply NoDup_map_inj; auto. intros i i' Hi Hi' E.
    destruct (Hf i Hi) as [E1 [B1 [B2 B3]]]. destruct (Hf i' Hi') as [E2 [C1 [C2 C3]]].
    rewrite E1, E2 in E. apply N3_inj in E; try assumption. apply Hg; tauto.
  - intro n. rewrite in_map_iff. split.
    + intros [i [<- Hi]]. destruct (Hf i Hi) as [E1 [B1 [B2 B3]]].
      exists (gx i), (gy i), (gz i). repeat split; try assumption. apply HQ; auto. exists i. auto.
    + intros [ix [iy [iz [Hx [Hy [Hz [Hq ->]]]]]]]. apply HQ in Hq; try assumption.
      destruct Hq as [i [Hi [-> [-> ->]]]]. exists i. split; [|exact Hi]. now apply Hf.
Qed.

Lemma cx_eq i k : (0 < h)%R -> (i = k <-> (h * INR i = h * INR k)%R).
Proof. intro Hh. split; [intros ->; reflexivity|]. intro E. apply INR_eq. nra. Qed.

Lemma cx_0 i : (0 < h)%R -> (i = 0 <-> (h * INR i = 0)%R).
Proof. intro Hh. rewrite (cx_eq i 0 Hh). simpl INR. now rewrite Rmult_0_r. Qed.

Lemma cx_in i n : (0 < h)%R -> (0 < i < n <-> inside (h * INR n) (h * INR i)).
Proof.
  intro Hh. unfold inside. split.
  - intros [H1 H2]. apply lt_INR in H1. apply lt_INR in H2. simpl INR in H1. nra.
  - intros [H1 H2]. split; apply INR_lt; simpl INR; nra.
Qed.

Ltac cx Hh ix iy iz :=
  cbv beta; pose proof (cx_0 ix Hh); pose proof (cx_0 iy Hh); pose proof (cx_0 iz Hh);
  pose proof (cx_eq ix nx Hh); pose proof (cx_eq iy ny Hh); pose proof (cx_eq iz nz Hh);
  pose proof (cx_in ix nx Hh); pose proof (cx_in iy ny Hh); pose proof (cx_in iz nz Hh); tauto.

Ltac hexlist2 Hh gx gy gz Q :=
  apply (lists_idx_nodes _ Q);
  [ apply (lists2 _ _ _ gx gy gz);
    [ apply seq_NoDup | apply seq_NoDup
    | intros i j Hi Hj; rewrite in_seq in Hi, Hj; cbv beta; split; [unfold N3; ring | lia]
    | intros i j i' j'; cbv beta; lia
    | intros ix iy iz Hx Hy Hz; cbv beta; split;
      [ intro; (exists iy, ix; rewrite !in_seq; lia) || (exists iz, iy; rewrite !in_seq; lia) || (exists iz, ix; rewrite !in_seq; lia)
      | intros [i [j [Hi [Hj [? [? ?]]]]]]; rewrite in_seq in Hi, Hj; lia ] ]
  | intros ix iy iz Hx Hy Hz; cx Hh ix iy iz ].

Ltac hexlist1 Hh gx gy gz Q :=
  apply (lists_idx_nodes _ Q);
  [ apply (lists1 _ _ gx gy gz);
    [ apply seq_NoDup
    | intros i Hi; rewrite in_seq in Hi; cbv beta; split; [unfold N3; ring | lia]
    | intros i i'; cbv beta; lia
    | intros ix iy iz Hx Hy Hz; cbv beta; split;
      [ intro; (exists ix; rewrite !in_seq; lia) || (exists iy; rewrite !in_seq; lia) || (exists iz; rewrite !in_seq; lia)
      | intros [i [Hi [? [? ?]]]]; rewrite in_seq in Hi; lia ] ]
  | intros ix iy iz Hx Hy Hz; cx Hh ix iy iz ].

Notation Lx := (h * INR nx)%R.
Notation Ly := (h * INR ny)%R.
Notation Lz := (h * INR nz)%R.

Lemma hex_faces : (0 < h)%R ->
  Forall (fun lP => lists_nodes3 (hex_coor m) (fst lP) (snd lP))
   [ (nodesFront m, fun x y z => z = 0%R); (nodesBack m, fun x y z => z = Lz);
     (nodesLeft m, fun x y z => x = 0%R); (nodesRight m, fun x y z => x = Lx);
     (nodesBottom m, fun x y z => y = 0%R); (nodesTop m, fun x y z => y = Ly) ].
Proof.
  intro Hh. repeat apply Forall_cons; try apply Forall_nil; cbn [fst snd].
  - hexlist2 Hh (fun i j : nat => j) (fun i j : nat => i) (fun i j : nat => 0) (fun ix iy iz : nat => iz = 0).
  - hexlist2 Hh (fun i j : nat => j) (fun i j : nat => i) (fun i j : nat => nz) (fun ix iy iz : nat => iz = nz).
  - hexlist2 Hh (fun i j : nat => 0) (fun i j : nat => j) (fun i j : nat => i) (fun ix iy iz : nat => ix = 0).
  - hexlist2 Hh (fun i j : nat => nx) (fun i j : nat => j) (fun i j : nat => i) (fun ix iy iz : nat => ix = nx).
  - hexlist2 Hh (fun i j : nat => j) (fun i j : nat => 0) (fun i j : nat => i) (fun ix iy iz : nat => iy = 0).
  - hexlist2 Hh (fun i j : nat => j) (fun i j : nat => ny) (fun i j : nat => i) (fun ix iy iz : nat => iy = ny).
Qed.

Lemma hex_open_faces : (0 < h)%R ->
  Forall (fun lP => lists_nodes3 (hex_coor m) (fst lP) (snd lP))
   [ (nodesFrontFace m, fun x y z => z = 0%R /\ inside Lx x /\ inside Ly y);
     (nodesBackFace m, fun x y z => z = Lz /\ inside Lx x /\ inside Ly y);
     (nodesLeftFace m, fun x y z => x = 0%R /\ inside Ly y /\ inside Lz z);
     (nodesRightFace m, fun x y z => x = Lx /\ inside Ly y /\ inside Lz z);
     (nodesBottomFace m, fun x y z => y = 0%R /\ inside Lx x /\ inside Lz z);
     (nodesTopFace m, fun x y z => y = Ly /\ inside Lx x /\ inside Lz z) ].
Proof.
  intro Hh. repeat apply Forall_cons; try apply Forall_nil; cbn [fst snd].
  - hexlist2 Hh (fun i j : nat => j) (fun i j : nat => i) (fun i j : nat => 0) (fun ix iy iz : nat => iz = 0 /\ 0 < ix < nx /\ 0 < iy < ny).
  - hexlist2 Hh (fun i j : nat => j) (fun i j : nat => i) (fun i j : nat => nz) (fun ix iy iz : nat => iz = nz /\ 0 < ix < nx /\ 0 < iy < ny).
  - hexlist2 Hh (fun i j : nat => 0) (fun i j : nat => j) (fun i j : nat => i) (fun ix iy iz : nat => ix = 0 /\ 0 < iy < ny /\ 0 < iz < nz).
  - hexlist2 Hh (fun i j : nat => nx) (fun i j : nat => j) (fun i j : nat => i) (fun ix iy iz : nat => ix = nx /\ 0 < iy < ny /\ 0 < iz < nz).
  - hexlist2 Hh (fun i j : nat => j) (fun i j : nat => 0) (fun i j : nat => i) (fun ix iy iz : nat => iy = 0 /\ 0 < ix < nx /\ 0 < iz < nz).
  - hexlist2 Hh (fun i j : nat => j) (fun i j : nat => ny) (fun i j : nat => i) (fun ix iy iz : nat => iy = ny /\ 0 < ix < nx /\ 0 < iz < nz).
Qed.

Lemma hex_edges : (0 < h)%R ->
  Forall (fun lP => lists_nodes3 (hex_coor m) (fst lP) (snd lP))
   [ (nodesFrontBottomEdge m, fun x y z => z = 0%R /\ y = 0%R); (nodesFrontTopEdge m, fun x y z => z = 0%R /\ y = Ly);
     (nodesFrontLeftEdge m, fun x y z => z = 0%R /\ x = 0%R); (nodesFrontRightEdge m, fun x y z => z = 0%R /\ x = Lx);
     (nodesBackBottomEdge m, fun x y z => z = Lz /\ y = 0%R); (nodesBackTopEdge m, fun x y z => z = Lz /\ y = Ly);
     (nodesBackLeftEdge m, fun x y z => z = Lz /\ x = 0%R); (nodesBackRightEdge m, fun x y z => z = Lz /\ x = Lx);
     (nodesBottomLeftEdge m, fun x y z => y = 0%R /\ x = 0%R); (nodesBottomRightEdge m, fun x y z => y = 0%R /\ x = Lx);
     (nodesTopLeftEdge m, fun x y z => y = Ly /\ x = 0%R); (nodesTopRightEdge m, fun x y z => y = Ly /\ x = Lx) ].
Proof.
  intro Hh. repeat apply Forall_cons; try apply Forall_nil; cbn [fst snd].
  - hexlist1 Hh (fun i : nat => i) (fun i : nat => 0) (fun i : nat => 0) (fun ix iy iz : nat => iz = 0 /\ iy = 0).
  - hexlist1 Hh (fun i : nat => i) (fun i : nat => ny) (fun i : nat => 0) (fun ix iy iz : nat => iz = 0 /\ iy = ny).
  - hexlist1 Hh (fun i : nat => 0) (fun i : nat => i) (fun i : nat => 0) (fun ix iy iz : nat => iz = 0 /\ ix = 0).
  - hexlist1 Hh (fun i : nat => nx) (fun i : nat => i) (fun i : nat => 0) (fun ix iy iz : nat => iz = 0 /\ ix = nx).
  - hexlist1 Hh (fun i : nat => i) (fun i : nat => 0) (fun i : nat => nz) (fun ix iy iz : nat => iz = nz /\ iy = 0).
  - hexlist1 Hh (fun i : nat => i) (fun i : nat => ny) (fun i : nat => nz) (fun ix iy iz : nat => iz = nz /\ iy = ny).
  - hexlist1 Hh (fun i : nat => 0) (fun i : nat => i) (fun i : nat => nz) (fun ix iy iz : nat => iz = nz /\ ix = 0).
  - hexlist1 Hh (fun i : nat => nx) (fun i : nat => i) (fun i : nat => nz) (fun ix iy iz : nat => iz = nz /\ ix = nx).
  - hexlist1 Hh (fun i : nat => 0) (fun i : nat => 0) (fun i : nat => i) (fun ix iy iz : nat => iy = 0 /\ ix = 0).
  - hexlist1 Hh (fun i : nat => nx) (fun i : nat => 0) (fun i : nat => i) (fun ix iy iz : nat => iy = 0 /\ ix = nx).
  - hexlist1 Hh (fun i : nat => 0) (fun i : nat => ny) (fun i : nat => i) (fun ix iy iz : nat => iy = ny /\ ix = 0).
  - hexlist1 Hh (fun i : nat => nx) (fun i : nat => ny) (fun i : nat => i) (fun ix iy iz : nat => iy = ny /\ ix = nx).
Qed.

Lemma hex_open_edges : (0 < h)%R ->
  Forall (fun lP => lists_nodes3 (hex_coor m) (fst lP) (snd lP))
   [ (nodesFrontBottomOpenEdge m, fun x y z => z = 0%R /\ y = 0%R /\ inside Lx x);
     (nodesFrontTopOpenEdge m, fun x y z => z = 0%R /\ y = Ly /\ inside Lx x);
     (nodesFrontLeftOpenEdge m, fun x y z => z = 0%R /\ x = 0%R /\ inside Ly y);
     (nodesFrontRightOpenEdge m, fun x y z => z = 0%R /\ x = Lx /\ inside Ly y);
     (nodesBackBottomOpenEdge m, fun x y z => z = Lz /\ y = 0%R /\ inside Lx x);
     (nodesBackTopOpenEdge m, fun x y z => z = Lz /\ y = Ly /\ inside Lx x);
     (nodesBackLeftOpenEdge m, fun x y z => z = Lz /\ x = 0%R /\ inside Ly y);
     (nodesBackRightOpenEdge m, fun x y z => z = Lz /\ x = Lx /\ inside Ly y);
     (nodesBottomLeftOpenEdge m, fun x y z => y = 0%R /\ x = 0%R /\ inside Lz z);
     (nodesBottomRightOpenEdge m, fun x y z => y = 0%R /\ x = Lx /\ inside Lz z);
     (nodesTopLeftOpenEdge m, fun x y z => y = Ly /\ x = 0%R /\ inside Lz z);
     (nodesTopRightOpenEdge m, fun x y z => y = Ly /\ x = Lx /\ inside Lz z) ].
Proof.
  intro Hh. repeat apply Forall_cons; try apply Forall_nil; cbn [fst snd].
  - hexlist1 Hh (fun i : nat => i) (fun i : nat => 0) (fun i : nat => 0) (fun ix iy iz : nat => iz = 0 /\ iy = 0 /\ 0 < ix < nx).
  - hexlist1 Hh (fun i : nat => i) (fun i : nat => ny) (fun i : nat => 0) (fun ix iy iz : nat => iz = 0 /\ iy = ny /\ 0 < ix < nx).
  - hexlist1 Hh (fun i : nat => 0) (fun i : nat => i) (fun i : nat => 0) (fun ix iy iz : nat => iz = 0 /\ ix = 0 /\ 0 < iy < ny).
  - hexlist1 Hh (fun i : nat => nx) (fun i : nat => i) (fun i : nat => 0) (fun ix iy iz : nat => iz = 0 /\ ix = nx /\ 0 < iy < ny).
  - hexlist1 Hh (fun i : nat => i) (fun i : nat => 0) (fun i : nat => nz) (fun ix iy iz : nat => iz = nz /\ iy = 0 /\ 0 < ix < nx).
  - hexlist1 Hh (fun i : nat => i) (fun i : nat => ny) (fun i : nat => nz) (fun ix iy iz : nat => iz = nz /\ iy = ny /\ 0 < ix < nx).
  - hexlist1 Hh (fun i : nat => 0) (fun i : nat => i) (fun i : nat => nz) (fun ix iy iz : nat => iz = nz /\ ix = 0 /\ 0 < iy < ny).
  - hexlist1 Hh (fun i : nat => nx) (fun i : nat => i) (fun i : nat => nz) (fun ix iy iz : nat => iz = nz /\ ix = nx /\ 0 < iy < ny).
  - hexlist1 Hh (fun i : nat => 0) (fun i : nat => 0) (fun i : nat => i) (fun ix iy iz : nat => iy = 0 /\ ix = 0 /\ 0 < iz < nz).
  - hexlist1 Hh (fun i : nat => nx) (fun i : nat => 0) (fun i : nat => i) (fun ix iy iz : nat => iy = 0 /\ ix = nx /\ 0 < iz < nz).
  - hexlist1 Hh (fun i : nat => 0) (fun i : nat => ny) (fun i : nat => i) (fun ix iy iz : nat => iy = ny /\ ix = 0 /\ 0 < iz < nz).
  - hexlist1 Hh (fun i : nat => nx) (fun i : nat => ny) (fun i : nat => i) (fun ix iy iz : nat => iy = ny /\ ix = nx /\ 0 < iz < nz).
Qed.

Lemma hex_corner n ix iy iz x y z : n = N3 ix iy iz -> ix <= nx -> iy <= ny -> iz <= nz ->
  x = (h * INR ix)%R -> y = (h * INR iy)%R -> z = (h * INR iz)%R -> node_at3 (hex_coor m) n x y z.
Proof. intros -> H1 H2 H3 -> -> ->. now apply hex_coor_at. Qed.

Ltac hexcorner ix iy iz :=
  apply (hex_corner _ ix iy iz);
  [ unfold N3, nodesFrontBottomLeftCorner, nodesFrontBottomRightCorner, nodesFrontTopLeftCorner, nodesFrontTopRightCorner,
      nodesBackBottomLeftCorner, nodesBackBottomRightCorner, nodesBackTopLeftCorner, nodesBackTopRightCorner; ring
  | lia | lia | lia | simpl; lra | simpl; lra | simpl; lra ].

Lemma hex_corners :
  node_at3 (hex_coor m) nodesFrontBottomLeftCorner 0 0 0 /\ node_at3 (hex_coor m) (nodesFrontBottomRightCorner m) Lx 0 0 /\
  node_at3 (hex_coor m) (nodesFrontTopLeftCorner m) 0 Ly 0 /\ node_at3 (hex_coor m) (nodesFrontTopRightCorner m) Lx Ly 0 /\
  node_at3 (hex_coor m) (nodesBackBottomLeftCorner m) 0 0 Lz /\ node_at3 (hex_coor m) (nodesBackBottomRightCorner m) Lx 0 Lz /\
  node_at3 (hex_coor m) (nodesBackTopLeftCorner m) 0 Ly Lz /\ node_at3 (hex_coor m) (nodesBackTopRightCorner m) Lx Ly Lz.
Proof.
  repeat split.
  - hexcorner 0 0 0. - hexcorner (hx_nelx m) 0 0. - hexcorner 0 (hx_nely m) 0. - hexcorner (hx_nelx m) (hx_nely m) 0.
  - hexcorner 0 0 (hx_nelz m). - hexcorner (hx_nelx m) 0 (hx_nelz m). - hexcorner 0 (hx_nely m) (hx_nelz m). - hexcorner (hx_nelx m) (hx_nely m) (hx_nelz m).
Qed.

(** *** periodicity *)
Definition ties_of (l : list (nat * nat)) : Prop := forall a b, In (a, b) l ->
  exists ix iy iz jx jy jz, a = N3 ix iy iz /\ b = N3 jx jy jz /\ ix < nx /\ iy < ny /\ iz < nz /\
    jx <= nx /\ jy <= ny /\ jz <= nz /\ (jx = nx \/ jy = ny \/ jz = nz) /\
    (jx = ix \/ jx = nx /\ ix = 0) /\ (jy = iy \/ jy = ny /\ iy = 0) /\ (jz = iz \/ jz = nz /\ iz = 0).

Lemma In_combine_map' {A} (f g : nat -> A) l a b : In (a, b) (combine (map f l) (map g l)) <->
  exists i, In i l /\ a = f i /\ b = g i.
Proof. apply In_combine_map. Qed.

Lemma In_combine_forin2 (f g : nat -> nat -> nat) la lb a b :
  In (a, b) (combine (forin2 la lb f) (forin2 la lb g)) <-> exists i j, In i la /\ In j lb /\ a = f i j /\ b = g i j.
Proof.
  rewrite combine_forin2, In_forin2. split; intros [i [j [Hi [Hj E]]]]; exists i, j.
  - inversion E. auto.
  - destruct E as [-> ->]. auto.
Qed.

Ltac tie2 i1 i2 i3 j1 j2 j3 :=
  exists i1, i2, i3, j1, j2, j3; unfold N3,
      nodesFrontBottomLeftCorner, nodesFrontBottomRightCorner, nodesFrontTopLeftCorner, nodesFrontTopRightCorner,
      nodesBackBottomLeftCorner, nodesBackBottomRightCorner, nodesBackTopLeftCorner, nodesBackTopRightCorner;
  (split; [subst; ring|]); (split; [subst; ring|]); repeat split; lia.

Lemma hex_ties_fwd : 1 <= nx -> 1 <= ny -> 1 <= nz -> ties_of (hex_nodesPeriodic m).
Proof.
  intros Hx Hy Hz a b H. unfold hex_nodesPeriodic, nodesPeriodic3d, hex_boundary in H.
  cbn [f_fro f_bck f_lft f_rgt f_bot f_top e_froBot e_froTop e_froLft e_froRgt e_bckBot e_bckTop e_bckLft e_bckRgt
    e_botLft e_botRgt e_topLft e_topRgt n_fbl n_fbr n_ftl n_ftr n_bbl n_bbr n_btl n_btr] in H.
  rewrite !in_app_iff in H. destruct H as [H|[H|[H|[H|[H|[H|[H|[H|[H|[H|[H|[H|H]]]]]]]]]]]].
  - simpl in H. destruct H as [H|[H|[H|[H|[H|[H|[H|[]]]]]]]]; inversion H; clear H.
    + tie2 0 0 0 (hx_nelx m) 0 0. + tie2 0 0 0 (hx_nelx m) 0 (hx_nelz m). + tie2 0 0 0 0 0 (hx_nelz m). + tie2 0 0 0 0 (hx_nely m) 0.
    + tie2 0 0 0 (hx_nelx m) (hx_nely m) 0. + tie2 0 0 0 (hx_nelx m) (hx_nely m) (hx_nelz m). + tie2 0 0 0 0 (hx_nely m) (hx_nelz m).
  - apply In_combine_map' in H. destruct H as [i [Hi [E1 E2]]]. apply in_seq in Hi. tie2 i 0 0 i 0 (hx_nelz m).
  - apply In_combine_map' in H. destruct H as [i [Hi [E1 E2]]]. apply in_seq in Hi. tie2 i 0 0 i (hx_nely m) (hx_nelz m).
  - apply In_combine_map' in H. destruct H as [i [Hi [E1 E2]]]. apply in_seq in Hi. tie2 i 0 0 i (hx_nely m) 0.
  - apply In_combine_map' in H. destruct H as [i [Hi [E1 E2]]]. apply in_seq in Hi. tie2 0 0 i (hx_nelx m) 0 i.
  - apply In_combine_map' in H. destruct H as [i [Hi [E1 E2]]]. apply in_seq in Hi. tie2 0 0 i (hx_nelx m) (hx_nely m) i.
  - apply In_combine_map' in H. destruct H as [i [Hi [E1 E2]]]. apply in_seq in Hi. tie2 0 0 i 0 (hx_nely m) i.
  - apply In_combine_map' in H. destruct H as [i [Hi [E1 E2]]]. apply in_seq in Hi. tie2 0 i 0 (hx_nelx m) i 0.
  - apply In_combine_map' in H. destruct H as [i [Hi [E1 E2]]]. apply in_seq in Hi. tie2 0 i 0 (hx_nelx m) i (hx_nelz m).
  - apply In_combine_map' in H. destruct H as [i [Hi [E1 E2]]]. apply in_seq in Hi. tie2 0 i 0 0 i (hx_nelz m).
  - apply In_combine_forin2 in H. destruct H as [i [j [Hi [Hj [E1 E2]]]]]. apply in_seq in Hi, Hj. tie2 j i 0 j i (hx_nelz m).
  - apply In_combine_forin2 in H. destruct H as [i [j [Hi [Hj [E1 E2]]]]]. apply in_seq in Hi, Hj. tie2 0 j i (hx_nelx m) j i.
  - apply In_combine_forin2 in H. destruct H as [i [j [Hi [Hj [E1 E2]]]]]. apply in_seq in Hi, Hj. tie2 j 0 i j (hx_nely m) i.
Qed.

Ltac in1 := rewrite !in_app_iff; rewrite ?In_combine_map', ?In_combine_forin2.

Ltac pick k := match k with
  | 0 => left
  | S ?k' => right; pick k'
  end.

Lemma hex_ties_bwd jx jy jz : 1 <= nx -> 1 <= ny -> 1 <= nz -> jx <= nx -> jy <= ny -> jz <= nz ->
  (jx = nx \/ jy = ny \/ jz = nz) -> In (N3 jx jy jz) (map snd (hex_nodesPeriodic m)).
Proof.
  intros Hx Hy Hz Bx By Bz Hb.
  set (w := fun j n : nat => if j =? n then 0 else j).
  apply in_map_iff. exists (N3 (w jx nx) (w jy ny) (w jz nz), N3 jx jy jz). split; [reflexivity|].
  unfold hex_nodesPeriodic, nodesPeriodic3d, hex_boundary.
  cbn [f_fro f_bck f_lft f_rgt f_bot f_top e_froBot e_froTop e_froLft e_froRgt e_bckBot e_bckTop e_bckLft e_bckRgt
    e_botLft e_botRgt e_topLft e_topRgt n_fbl n_fbr n_ftl n_ftr n_bbl n_bbr n_btl n_btr].
  unfold nodesFrontFace, nodesBackFace, nodesLeftFace, nodesRightFace, nodesBottomFace, nodesTopFace,
   nodesFrontBottomOpenEdge, nodesFrontTopOpenEdge, nodesFrontLeftOpenEdge, nodesFrontRightOpenEdge, nodesBackBottomOpenEdge,
   nodesBackTopOpenEdge, nodesBackLeftOpenEdge, nodesBackRightOpenEdge, nodesBottomLeftOpenEdge, nodesBottomRightOpenEdge,
   nodesTopLeftOpenEdge, nodesTopRightOpenEdge, nodesFrontBottomLeftCorner, nodesFrontBottomRightCorner, nodesFrontTopLeftCorner,
   nodesFrontTopRightCorner, nodesBackBottomLeftCorner, nodesBackBottomRightCorner, nodesBackTopLeftCorner, nodesBackTopRightCorner.
  rewrite !in_app_iff, !In_combine_map', !In_combine_forin2. cbn [In]. unfold N3.
  assert (Cx : jx = nx /\ w jx nx = 0 \/ jx = 0 /\ w jx nx = 0 \/ 0 < jx < nx /\ w jx nx = jx)
    by (unfold w; destruct (Nat.eqb_spec jx nx); lia).
  assert (Cy : jy = ny /\ w jy ny = 0 \/ jy = 0 /\ w jy ny = 0 \/ 0 < jy < ny /\ w jy ny = jy)
    by (unfold w; destruct (Nat.eqb_spec jy ny); lia).
  assert (Cz : jz = nz /\ w jz nz = 0 \/ jz = 0 /\ w jz nz = 0 \/ 0 < jz < nz /\ w jz nz = jz)
    by (unfold w; destruct (Nat.eqb_spec jz nz); lia).
  clearbody w.
  destruct Cx as [[Ex ->]|[[Ex ->]|[Ex ->]]], Cy as [[Ey ->]|[[Ey ->]|[Ey ->]]], Cz as [[Ez ->]|[[Ez ->]|[Ez ->]]];
    try (exfalso; lia); try subst jx; try subst jy; try subst jz.
  - left. pick 5. f_equal; ring.
  - left. pick 4. f_equal; ring.
  - pick 5. exists jz. rewrite in_seq. repeat split; try lia; ring.
  - left. pick 1. f_equal; ring.
  - left. pick 0. f_equal; ring.
  - pick 4. exists jz. rewrite in_seq. repeat split; try lia; ring.
  - pick 8. exists jy. rewrite in_seq. repeat split; try lia; ring.
  - pick 7. exists jy. rewrite in_seq. repeat split; try lia; ring.
  - pick 11. exists jz, jy. rewrite !in_seq. repeat split; try lia; ring.
  - left. pick 6. f_equal; ring.
  - left. pick 3. f_equal; ring.
  - pick 6. exists jz. rewrite in_seq. repeat split; try lia; ring.
  - left. pick 2. f_equal; ring.
  - pick 9. exists jy. rewrite in_seq. repeat split; try lia; ring.
  - pick 2. exists jx. rewrite in_seq. repeat split; try lia; ring.
  - pick 3. exists jx. rewrite in_seq. repeat split; try lia; ring.
  - do 12 right. exists jz, jx. rewrite !in_seq. repeat split; try lia; ring.
  - pick 1. exists jx. rewrite in_seq. repeat split; try lia; ring.
  - pick 10. exists jy, jx. rewrite !in_seq. repeat split; try lia; ring.
Qed.

Lemma hex_ties_length : 1 <= nx -> 1 <= ny -> 1 <= nz ->
  length (hex_nodesPeriodic m) + nx * ny * nz = hex_nnode m.
Proof.
  intros Hx Hy Hz. unfold hex_nodesPeriodic, nodesPeriodic3d, hex_boundary.
  cbn [f_fro f_bck f_lft f_rgt f_bot f_top e_froBot e_froTop e_froLft e_froRgt e_bckBot e_bckTop e_bckLft e_bckRgt
    e_botLft e_botRgt e_topLft e_topRgt n_fbl n_fbr n_ftl n_ftr n_bbl n_bbr n_btl n_btr].
  unfold nodesFrontFace, nodesBackFace, nodesLeftFace, nodesRightFace, nodesBottomFace, nodesTopFace,
   nodesFrontBottomOpenEdge, nodesFrontTopOpenEdge, nodesFrontLeftOpenEdge, nodesFrontRightOpenEdge, nodesBackBottomOpenEdge,
   nodesBackTopOpenEdge, nodesBackLeftOpenEdge, nodesBackRightOpenEdge, nodesBottomLeftOpenEdge, nodesBottomRightOpenEdge,
   nodesTopLeftOpenEdge, nodesTopRightOpenEdge.
  rewrite !app_length, !combine_length, !map_length, !forin2_length, !seq_length, !Nat.min_id. cbn [length].
  unfold hex_nnode. destruct nx as [|a]; [lia|]. destruct ny as [|b]; [lia|]. destruct nz as [|c]; [lia|].
  replace (S a - 1) with a by lia. replace (S b - 1) with b by lia. replace (S c - 1) with c by lia. ring.
Qed.

Definition untied : list nat := forin3 (seq 0 nz) (seq 0 ny) (seq 0 nx) (fun iz iy ix => N3 ix iy iz).

Lemma hex_ties_NoDup : 1 <= nx -> 1 <= ny -> 1 <= nz -> NoDup (map snd (hex_nodesPeriodic m)).
Proof.
  intros Hx Hy Hz.
  assert (H : NoDup (untied ++ map snd (hex_nodesPeriodic m))).
  { apply NoDup_incl_NoDup with (l := seq 0 (hex_nnode m)).
    - apply seq_NoDup.
    - rewrite app_length, map_length, seq_length. unfold untied. rewrite forin3_length, !seq_length.
      pose proof (hex_ties_length Hx Hy Hz). lia.
    - intros n Hn. apply in_seq in Hn. destruct (N3_surj n) as [ix [iy [iz [Bx [By [Bz ->]]]]]]; [lia|].
      rewrite in_app_iff.
      destruct (Nat.eq_dec ix nx); [right; apply hex_ties_bwd; auto|].
      destruct (Nat.eq_dec iy ny); [right; apply hex_ties_bwd; auto|].
      destruct (Nat.eq_dec iz nz); [right; apply hex_ties_bwd; auto|].
      left. unfold untied. apply In_forin3. exists iz, iy, ix. rewrite !in_seq. repeat split; lia. }
  apply NoDup_app_inv in H. tauto.
Qed.

Lemma hex_periodic_ties : 1 <= nx -> 1 <= ny -> 1 <= nz -> (0 < h)%R ->
  periodic_ties3 (hex_coor m) Lx Ly Lz (hex_nodesPeriodic m).
Proof.
  intros Hx Hy Hz Hh. pose proof (hex_ties_fwd Hx Hy Hz) as F. split; [split; [|split]|split].
  - intros a b Hab. rewrite hex_coor_length.
    destruct (F a b Hab) as [ix [iy [iz [jx [jy [jz [-> [-> [H1 [H2 [H3 [H4 [H5 [H6 _]]]]]]]]]]]]]].
    split; apply N3_lt; lia.
  - now apply hex_ties_NoDup.
  - intros a Ha Hb. apply in_map_iff in Ha. destruct Ha as [[a' b] [E Hab]]. simpl in E. subst a'.
    apply in_map_iff in Hb. destruct Hb as [[c a'] [E Hca]]. simpl in E. subst a'.
    destruct (F a b Hab) as [ix [iy [iz [jx [jy [jz [Ea [_ [H1 [H2 [H3 _]]]]]]]]]]].
    destruct (F c a Hca) as [ix' [iy' [iz' [jx' [jy' [jz' [_ [Ea' [_ [_ [_ [H4 [H5 [H6 [H7 _]]]]]]]]]]]]]]].
    rewrite Ea in Ea'. apply N3_inj in Ea'; lia.
  - intros a b x y z x' y' z' Hab Ha Hb.
    destruct (F a b Hab) as [ix [iy [iz [jx [jy [jz [-> [-> [H1 [H2 [H3 [H4 [H5 [H6 [H7 [H8 [H9 H10]]]]]]]]]]]]]]]]].
    assert (Ha' := hex_coor_at ix iy iz ltac:(lia) ltac:(lia) ltac:(lia)).
    assert (Hb' := hex_coor_at jx jy jz ltac:(lia) ltac:(lia) ltac:(lia)).
    destruct (node_at3_fun _ _ _ _ _ _ _ _ Ha Ha') as [-> [-> ->]].
    destruct (node_at3_fun _ _ _ _ _ _ _ _ Hb Hb') as [-> [-> ->]].
    exists (if jx =? ix then 0%Z else 1%Z), (if jy =? iy then 0%Z else 1%Z), (if jz =? iz then 0%Z else 1%Z).
    repeat split.
    + destruct (Nat.eqb_spec jx ix) as [->|Hn]; [lra|]. destruct H8 as [|[-> ->]]; [contradiction|]. simpl INR. lra.
    + destruct (Nat.eqb_spec jy iy) as [->|Hn]; [lra|]. destruct H9 as [|[-> ->]]; [contradiction|]. simpl INR. lra.
    + destruct (Nat.eqb_spec jz iz) as [->|Hn]; [lra|]. destruct H10 as [|[-> ->]]; [contradiction|]. simpl INR. lra.
  - split; [now apply hex_ties_NoDup|]. intro n. split.
    + intro Hn. apply in_map_iff in Hn. destruct Hn as [[a b] [E Hab]]. simpl in E. subst n.
      destruct (F a b Hab) as [ix [iy [iz [jx [jy [jz [-> [-> [H1 [H2 [H3 [H4 [H5 [H6 [H7 _]]]]]]]]]]]]]]].
      do 3 eexists. split; [apply hex_coor_at; assumption|]. destruct H7 as [->|[->| ->]]; auto.
    + intros [x [y [z [Hn Hxyz]]]]. apply node_at3_iff in Hn.
      destruct Hn as [jx [jy [jz [H4 [H5 [H6 [-> [-> [-> ->]]]]]]]]]. apply hex_ties_bwd; auto.
      rewrite (cx_eq jx nx Hh), (cx_eq jy ny Hh), (cx_eq jz nz Hh). exact Hxyz.
Qed.

Lemma hex_in_domain : (0 < h)%R -> in_domain3 (hex_coor m) Lx Ly Lz.
Proof.
  intro Hh. split; [|split].
  - intros n Hn. rewrite hex_coor_length in Hn. destruct (N3_surj n Hn) as [ix [iy [iz [Hx [Hy [Hz ->]]]]]].
    do 3 eexists. now apply hex_coor_at.
  - intros n x y z Hn. apply node_at3_iff in Hn. destruct Hn as [ix [iy [iz [Hx [Hy [Hz [_ [-> [-> ->]]]]]]]]].
    apply le_INR in Hx, Hy, Hz. pose proof (pos_INR ix). pose proof (pos_INR iy). pose proof (pos_INR iz).
    repeat split; nra.
  - intros n n' x y z Hn Hn'. apply node_at3_iff in Hn, Hn'.
    destruct Hn as [ix [iy [iz [Hx [Hy [Hz [-> [-> [-> ->]]]]]]]]].
    destruct Hn' as [jx [jy [jz [Jx [Jy [Jz [-> [E1 [E2 E3]]]]]]]]].
    apply (cx_eq _ _ Hh) in E1. apply (cx_eq _ _ Hh) in E2. apply (cx_eq _ _ Hh) in E3. now subst.
Qed.

Lemma hex_periodic_dofs : 1 <= nx -> 1 <= ny -> 1 <= nz -> (0 < h)%R -> exists D,
  hex_dofsPeriodic m = Ok D /\ periodic_dofs3 (hex_coor m) Lx Ly Lz 3 D (nx * ny * nz * 3).
Proof.
  intros Hx Hy Hz Hh. unfold hex_dofsPeriodic. rewrite <- hex_coor_length.
  destruct (periodic_dofs3_generic (hex_coor m) Lx Ly Lz 3 (hex_nodesPeriodic m)) as [D [E H]].
  - now apply hex_in_domain.
  - now apply hex_periodic_ties.
  - exists D. split; [exact E|]. rewrite hex_coor_length in H.
    pose proof (hex_ties_length Hx Hy Hz). replace (nx * ny * nz) with (hex_nnode m - length (hex_nodesPeriodic m)) by lia.
    exact H.
Qed.

Lemma hex_conn_spec :
  shape2 (hex_conn m) (hex_nelem m) 8 /\ hex_nelem m = nx * ny * nz /\
  (forall ix iy iz, ix < nx -> iy < ny -> iz < nz -> exists n0 n1 n2 n3 n4 n5 n6 n7,
    nth_error (hex_conn m) (iz * (ny * nx) + (iy * nx + ix)) = Some [n0; n1; n2; n3; n4; n5; n6; n7] /\
    node_at3 (hex_coor m) n0 (h * INR ix) (h * INR iy) (h * INR iz) /\
    node_at3 (hex_coor m) n1 (h * INR (ix + 1)) (h * INR iy) (h * INR iz) /\
    node_at3 (hex_coor m) n2 (h * INR (ix + 1)) (h * INR (iy + 1)) (h * INR iz) /\
    node_at3 (hex_coor m) n3 (h * INR ix) (h * INR (iy + 1)) (h * INR iz) /\
    node_at3 (hex_coor m) n4 (h * INR ix) (h * INR iy) (h * INR (iz + 1)) /\
    node_at3 (hex_coor m) n5 (h * INR (ix + 1)) (h * INR iy) (h * INR (iz + 1)) /\
    node_at3 (hex_coor m) n6 (h * INR (ix + 1)) (h * INR (iy + 1)) (h * INR (iz + 1)) /\
    node_at3 (hex_coor m) n7 (h * INR ix) (h * INR (iy + 1)) (h * INR (iz + 1))) /\
  (forall e n, In e (hex_conn m) -> In n e -> n < hex_nnode m) /\
  (1 <= nx -> 1 <= ny -> 1 <= nz -> forall n, n < hex_nnode m -> exists e, In e (hex_conn m) /\ In n e).
Proof.
  split; [apply hex_conn_shape|]. split; [reflexivity|]. split; [|split].
  - intros ix iy iz Hx Hy Hz. do 8 eexists. split; [apply hex_conn_at; assumption|].
    repeat split; apply hex_coor_at; lia.
  - apply hex_conn_range.
  - intros; now apply hex_conn_used.
Qed.
End Hex.
