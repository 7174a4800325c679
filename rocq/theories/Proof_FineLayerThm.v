(** Quad4::FineLayer: the theorems. *)
From Coq Require Import Reals ZArith Lra.
From Verif Require Import Base Spec Spec2d Spec_Tiling Spec_FineLayer Model_Numbering Model_Regular2d Model_FineLayer Proof_Vector Proof_Regular2d Proof_FineLayer Proof_FineLayerMesh Proof_FineLayerTiling Proof_FineLayerArea Proof_FineLayerBoundary Proof_FineLayerRoll.

Lemma skipn_tab1 {A} k N (f : nat -> A) : k <= N -> skipn k (tab1 N f) = tab1 (N - k) (fun i => f (k + i)).
Proof.
  intros H. unfold tab1. rewrite skipn_map. replace N with (k + (N - k)) at 1 by lia. rewrite seq_app, skipn_app, seq_length, Nat.sub_diag. rewrite skipn_all2 by (rewrite seq_length; lia).
  cbn [skipn app Nat.add]. replace (seq k (N - k)) with (seq (0 + k) (N - k)) by reflexivity. rewrite <- map_add_seq, map_map. apply map_ext. intros i. f_equal. lia.
Qed.
Lemma rev_tab1 {A} N (f : nat -> A) : (forall i, i < N -> f (N - 1 - i) = f i) -> rev (tab1 N f) = tab1 N f.
Proof.
  intros H. destruct N as [|N]; [reflexivity|]. apply (nth_ext _ _ (f 0) (f 0)); [now rewrite rev_length|].
  intros i Hi. rewrite rev_length, tab1_len in Hi. rewrite rev_nth by (rewrite tab1_len; lia). rewrite tab1_len. unfold tab1. rewrite !nth_map_seq by lia.
  rewrite <- (H i Hi). f_equal. lia.
Qed.
Lemma tab1_some {A} N (f : nat -> A) i a : nth_error (tab1 N f) i = Some a -> i < N /\ a = f i.
Proof.
  intros H. assert (i < N) by (rewrite <- (tab1_len N f); apply nth_error_Some; congruence). split; [assumption|].
  rewrite tab1_nth_error in H by assumption. congruence.
Qed.

Section Thm.
Variables (nelx nely nfine n : nat) (w y : nat -> nat) (r : nat -> bool) (h : R).
Hypothesis G : greedy nelx nely nfine n w y r.
Let HL := g_layered _ _ _ _ _ _ _ G.
Notation L := (L n).
Notation W := (W n w).
Notation Hy := (Hy n y).
Notation Rf := (Rf n r).
Notation NX := (NX nelx n w).
Notation NE := (NE nelx n w r).
Notation SE := (SE nelx n w r).
Notation Y := (Y n y).
Notation X := (coorl nelx n w y r h).
Notation C := (connl nelx n w r).
Notation m := (FL_of nelx n w y r h).

Lemma dist_sym i : i < L -> dist n (L - 1 - i) = dist n i.
Proof. intros H. unfold L, dist in *. destruct (Nat.ltb_spec i n), (Nat.ltb_spec (n * 2 - 1 - 1 - i) n); lia. Qed.

Lemma upper_heights k : k <= n -> total (firstn k (skipn (n - 1) (f_nhy m))) = nsum k y.
Proof.
  intros H. pose proof (n_L _ _ _ _ _ HL). cbn [f_nhy FL_of]. rewrite skipn_tab1 by lia. rewrite firstn_tab1 by (unfold L; lia). unfold total. rewrite sum_tab1.
  apply nsum_ext. intros i Hi. unfold Proof_FineLayer.Hy. rewrite (dist_up _ _ _ _ _ HL) by lia. f_equal. lia.
Qed.

Lemma layer_inv i x u k t : layer_is (f_nhx m) (f_nhy m) (f_layer_nelx m) (f_refine m) i x u k t -> i < L /\ x = W i /\ u = Hy i /\ k = NX i /\ t = Zr (Rf i).
Proof.
  intros (A1 & A2 & A3 & A4). cbn [f_nhx f_nhy f_layer_nelx f_refine FL_of] in *.
  apply tab1_some in A1, A2, A3, A4. intuition.
Qed.
Lemma layer_intro i : i < L -> layer_is (f_nhx m) (f_nhy m) (f_layer_nelx m) (f_refine m) i (W i) (Hy i) (NX i) (Zr (Rf i)).
Proof. intros H. unfold layer_is. cbn [f_nhx f_nhy f_layer_nelx f_refine FL_of]. rewrite !tab1_nth_error by assumption. repeat split. Qed.

Lemma structure : layer_structure nelx nely nfine (n - 1) (f_nhx m) (f_nhy m) (f_layer_nelx m) (f_refine m).
Proof.
  pose proof (l_n _ _ _ _ _ HL) as Hn. pose proof (n_L _ _ _ _ _ HL) as HnL. constructor.
  - cbn [f_nhx f_nhy f_layer_nelx f_refine FL_of]. rewrite !tab1_len. unfold L. lia.
  - cbn [f_nhx f_nhy f_layer_nelx f_refine FL_of]. unfold Proof_FineLayer.NX, Proof_FineLayer.W, Proof_FineLayer.Hy, Proof_FineLayer.Rf.
    repeat split; apply rev_tab1; intros i Hi; now rewrite dist_sym.
  - pose proof (layer_intro (n - 1) HnL) as E. pose proof (W_mid _ _ _ _ _ HL) as E1. pose proof (W_NX _ _ _ _ _ HL (n - 1) HnL) as E2. rewrite E1 in *.
    rewrite (Rf_mid _ _ _ _ _ HL) in E. replace (NX (n - 1)) with nelx in E by lia. replace (Hy (n - 1)) with 1 in E; [exact E|].
    unfold Proof_FineLayer.Hy. rewrite dist_low by lia. rewrite Nat.sub_diag. symmetry. apply HL.
  - intros i x u k t H. apply layer_inv in H. destruct H as (Hi & -> & -> & -> & ->). split; [|now apply (W_NX _ _ _ _ _ HL)].
    apply (w_pow _ _ _ _ _ HL). now apply (dist_lt _ _ _ _ _ HL).
  - intros i x u k t H. apply layer_inv in H. destruct H as (Hi & -> & -> & -> & ->).
    destruct (WN_layer _ _ _ _ _ HL i Hi) as [(-> & _ & _ & E)|(-> & s & _ & E1 & E2 & _)]; [left|right]; (split; [reflexivity|lia]).
  - intros i x u k t x' u' k' t' Hc H H'. apply layer_inv in H, H'. destruct H as (Hi & -> & -> & -> & ->). destruct H' as (Hi' & -> & -> & -> & ->).
    destruct (step_up _ _ _ _ _ HL (i + 1) ltac:(lia) Hi') as [(-> & E)|(-> & E)]; [left|right]; (split; [reflexivity|]); rewrite E; replace (i + 1 - 1) with i by lia; reflexivity.
  - intros i x u k t x' u' k' t' Hc H H'. apply layer_inv in H, H'. destruct H as (Hi & -> & -> & -> & ->). destruct H' as (Hi' & -> & -> & -> & ->). cbv zeta.
    assert (HiL : i + 1 - (n - 1) < n) by (unfold L in Hi'; lia).
    rewrite upper_heights by lia. replace (i + 1 - (n - 1)) with (S (i - (n - 1))) by lia.
    assert (Ed : dist n (i + 1) = S (i - (n - 1))) by (rewrite (dist_up _ _ _ _ _ HL) by lia; lia).
    assert (Ed' : dist n i = i - (n - 1)) by (rewrite (dist_up _ _ _ _ _ HL) by lia; lia).
    unfold Proof_FineLayer.Rf, Proof_FineLayer.W. rewrite Ed, Ed'. rewrite <- (g_rule _ _ _ _ _ _ _ G (i - (n - 1)) ltac:(lia)).
    unfold Zr. destruct (r (S (i - (n - 1)))); split; intros Q; try reflexivity; discriminate Q.
  - rewrite <- (firstn_all (skipn (n - 1) (f_nhy m))). replace (length (skipn (n - 1) (f_nhy m))) with n.
    + rewrite upper_heights by lia. apply G.
    + rewrite skipn_length. cbn [f_nhy FL_of]. rewrite tab1_len. unfold L. lia.
  - rewrite upper_heights by lia. apply G.
Qed.

(** total height *)
Lemma Y_half : Y L + 1 = 2 * nsum n y.
Proof.
  pose proof (l_n _ _ _ _ _ HL) as Hn.
  assert (A : forall j, j <= n - 1 -> nsum j Hy + nsum (n - j) y = nsum n y).
  { induction j as [|j IHj]; intros Hj; [now rewrite Nat.sub_0_r|]. rewrite <- IHj by lia. replace (n - j) with (S (n - S j)) by lia. cbn [nsum].
    replace (Hy j) with (y (n - S j)); [lia|]. unfold Proof_FineLayer.Hy. rewrite dist_low by lia. f_equal. lia. }
  specialize (A (n - 1) ltac:(lia)). replace (n - (n - 1)) with 1 in A by lia. cbn [nsum Nat.add] in A. pose proof (l_y0 _ _ _ _ _ HL) as E0. rewrite E0 in A.
  assert (B : forall k, nsum (n - 1 + k) Hy = nsum (n - 1) Hy + nsum k y).
  { induction k as [|k IH]; [rewrite Nat.add_0_r; cbn; lia|]. replace (n - 1 + S k) with (S (n - 1 + k)) by lia. cbn [nsum]. rewrite IH.
    unfold Proof_FineLayer.Hy at 2. rewrite (dist_up _ _ _ _ _ HL) by lia. replace (n - 1 + k - (n - 1)) with k by lia. lia. }
  unfold Proof_FineLayer.Y. replace L with (n - 1 + n) by (unfold L; lia). rewrite B. lia.
Qed.
Lemma Y_mid : Y (n - 1) + 1 = nsum n y.
Proof.
  pose proof (l_n _ _ _ _ _ HL) as Hn.
  assert (A : forall j, j <= n - 1 -> nsum j Hy + nsum (n - j) y = nsum n y).
  { induction j as [|j IHj]; intros Hj; [now rewrite Nat.sub_0_r|]. rewrite <- IHj by lia. replace (n - j) with (S (n - S j)) by lia. cbn [nsum].
    replace (Hy j) with (y (n - S j)); [lia|]. unfold Proof_FineLayer.Hy. rewrite dist_low by lia. f_equal. lia. }
  specialize (A (n - 1) ltac:(lia)). replace (n - (n - 1)) with 1 in A by lia. cbn [nsum Nat.add] in A. pose proof (l_y0 _ _ _ _ _ HL) as E0. rewrite E0 in A. exact A.
Qed.
Lemma nely_spec : f_nely m = Y L.
Proof. unfold f_nely. cbn [f_nhy FL_of]. apply sum_tab1. Qed.
Lemma amax_tab1 N (f : nat -> nat) k : k < N -> (forall i, i < N -> f i <= f k) -> amax (tab1 N f) = f k.
Proof.
  intros Hk H. apply Nat.le_antisymm.
  - apply amax_lub. intros x Hx. unfold tab1 in Hx. apply in_map_iff in Hx. destruct Hx as (i & <- & Hi). apply in_seq in Hi. apply H. lia.
  - apply amax_ge. apply in_map, in_seq. lia.
Qed.
Lemma nelx_spec : f_nelx m = nelx.
Proof.
  pose proof (n_L _ _ _ _ _ HL) as HnL. unfold f_nelx. cbn [f_layer_nelx FL_of]. pose proof (W_NX _ _ _ _ _ HL (n - 1) HnL) as E. rewrite (W_mid _ _ _ _ _ HL) in E.
  rewrite (amax_tab1 _ _ (n - 1)); [lia|assumption|]. intros i Hi. pose proof (W_NX _ _ _ _ _ HL i Hi). pose proof (W_pos _ _ _ _ _ HL i Hi). nia.
Qed.

Lemma height : nely <= f_nely m + 1 /\ (Nat.Odd nely -> nely <= f_nely m) /\
  ((forall t, In t (f_refine m) -> t = (-1)%Z) -> f_nely m = (nely + 1) / 2 * 2 - 1).
Proof.
  pose proof (l_n _ _ _ _ _ HL) as Hn.
  rewrite nely_spec. pose proof Y_half as E. pose proof (g_enough _ _ _ _ _ _ _ G) as E1. pose proof (g_last _ _ _ _ _ _ _ G) as E2.
  pose proof (Nat.div_mod (nely + 1) 2 ltac:(lia)) as D. pose proof (Nat.mod_upper_bound (nely + 1) 2 ltac:(lia)) as M. split; [lia|]. split.
  - intros [k Hk]. replace ((nely + 1) mod 2) with 0 in D; [lia|]. symmetry. rewrite Hk. replace (2 * k + 1 + 1) with ((k + 1) * 2) by lia. now apply Nat.mod_mul.
  - intros Hr. assert (R0 : forall d, d < n -> r d = false /\ w d = 1 /\ y d = 1).
    { induction d as [|d IH]; intros Hd; [destruct HL; auto|]. destruct (IH ltac:(lia)) as (_ & I2 & _). destruct (l_step _ _ _ _ _ HL d Hd) as [(B1 & B2 & B3)|(B1 & _)]; [split; [assumption|lia]|exfalso].
      assert (Q : (Zr (Rf (n - 1 + S d)) = -1)%Z).
      { apply Hr. cbn [f_refine FL_of]. apply (in_map (fun iy => Zr (Rf iy))), in_seq. unfold L. lia. }
      unfold Proof_FineLayer.Rf in Q. rewrite (dist_up _ _ _ _ _ HL) in Q by lia. replace (n - 1 + S d - (n - 1)) with (S d) in Q by lia. rewrite B1 in Q. discriminate Q. }
    assert (S0 : forall k, k <= n -> nsum k y = k).
    { induction k as [|k IH]; intros Hk; [reflexivity|]. cbn. rewrite IH by lia. destruct (R0 k ltac:(lia)) as (_ & _ & ->). lia. }
    rewrite S0 in E, E1 by lia. rewrite S0 in E2 by lia. lia.
Qed.

Lemma roll_translates k e : e < SE L -> (0 < h)%R -> exists e' E E' z, nth_error (rolll nelx n w r k) e = Some e' /\ nth_error C e = Some E /\ nth_error C e' = Some E' /\
  translated X E E' (INR k * (h * INR nelx / INR (NX 0)) - INR z * (h * INR nelx))%R.
Proof.
  intros He Hh. destruct (elem_cases nelx n w r e He) as (iy & ix & T & K). assert (Hi : iy < L) by now destruct K.
  destruct (roll_nth _ _ _ _ _ HL k e iy ix T K) as (e' & ix' & z & E1 & K' & Ez).
  destruct (elem_quad _ _ _ _ _ h HL e iy ix T K) as (E & HE & Q & _). destruct (elem_quad _ _ _ _ _ h HL e' iy ix' T K') as (E' & HE' & Q' & _).
  exists e', E, E', z. split; [exact E1|]. split; [exact HE|]. split; [exact HE'|].
  pose proof (n_L _ _ _ _ _ HL) as HnL. pose proof (l_n _ _ _ _ _ HL) as Hn.
  pose proof (W_NX _ _ _ _ _ HL 0 ltac:(lia)) as E0. pose proof (W_NX _ _ _ _ _ HL iy Hi) as Ei. destruct (q_spec _ _ _ _ _ HL iy Hi) as [_ Eq].
  assert (P0 : NX 0 <> 0).
  { intros Q0. rewrite Q0 in E0. assert (NX iy = 0) by (pose proof (W_pos _ _ _ _ _ HL iy Hi); nia). destruct K. lia. }
  assert (ED : (INR k * (h * INR nelx / INR (NX 0)) - INR z * (h * INR nelx) = h * INR (W iy * ix) - h * INR (W iy * ix'))%R).
  { replace (h * INR nelx / INR (NX 0))%R with (h * INR (W 0))%R.
    2:{ rewrite <- E0 at 1. rewrite mult_INR. field. now apply not_0_INR. }
    replace (INR nelx) with (INR (W iy) * INR (NX iy))%R by (rewrite <- mult_INR; now f_equal). rewrite Eq. assert (Q0 : (INR ix' + INR k * INR (q nelx n w iy) = INR ix + INR z * INR (NX iy))%R) by (rewrite <- !mult_INR, <- !plus_INR; now f_equal).
    rewrite !mult_INR. transitivity (h * INR (W iy) * (INR k * INR (q nelx n w iy) - INR z * INR (NX iy)))%R; [ring|]. replace (INR k * INR (q nelx n w iy) - INR z * INR (NX iy))%R with (INR ix - INR ix')%R by lra. ring. }
  rewrite ED. intros x0 y0 x1 y1 x2 y2 x3 y3 H0. destruct T as [[[t0 t1] t2] t3]. cbn in Q, Q'.
  destruct (quad_fun _ _ _ _ _ _ _ _ _ _ _ _ _ _ _ _ _ _ Q' H0) as ((-> & -> & -> & ->) & -> & -> & -> & ->).
  assert (PX : forall u, (px n w r h iy ix' u + (h * INR (W iy * ix) - h * INR (W iy * ix')) = px n w r h iy ix u)%R) by (intros; unfold px; ring).
  rewrite !PX. exact Q.
Qed.
End Thm.

Lemma T_terminates : forall nelx nely h nfine, 1 <= nelx -> 1 <= nely -> exists m, FineLayer_init nelx nely h nfine = Some (Ok m).
Proof. intros nelx nely h nfine Hx Hy. destruct (FineLayer_init_spec nelx nely h nfine Hx Hy) as (n & w & y & r & E & _). eauto. Qed.

(** the statements of the theorems, for the object that the constructor returns *)
Section Init.
Variables (nelx nely nfine : nat) (h : R) (m : FineLayer).
Hypothesis Hx : 1 <= nelx.
Hypothesis Hy1 : 1 <= nely.
Hypothesis E : FineLayer_init nelx nely h nfine = Some (Ok m).

Lemma the_mesh : exists n w y r, m = FL_of nelx n w y r h /\ greedy nelx nely nfine n w y r.
Proof. destruct (FineLayer_init_spec nelx nely h nfine Hx Hy1) as (n & w & y & r & E' & G). exists n, w, y, r. split; [congruence|exact G]. Qed.

Lemma T_structure : f_h m = h /\ f_nelx m = nelx /\ (exists c, layer_structure nelx nely nfine c (f_nhx m) (f_nhy m) (f_layer_nelx m) (f_refine m)) /\
  f_nely m = total (f_nhy m) /\ nely <= f_nely m + 1 /\ (Nat.Odd nely -> nely <= f_nely m) /\
  ((forall t, In t (f_refine m) -> t = (-1)%Z) -> f_nely m = (nely + 1) / 2 * 2 - 1).
Proof.
  destruct the_mesh as (n & w & y & r & -> & G). split; [reflexivity|]. split; [eapply nelx_spec; exact G|]. split; [exists (n - 1); exact (structure _ _ _ _ _ _ _ h G)|].
  split; [reflexivity|]. exact (height _ _ _ _ _ _ _ h G).
Qed.

Lemma T_mesh : exists X C, f_coor m = Ok X /\ f_conn m = Ok C /\ shape2 X (f_nnode m) 2 /\ shape2 C (f_nelem m) 4 /\
  (forall e p, In e C -> In p e -> p < f_nnode m) /\ (forall p, p < f_nnode m -> exists e, In e C /\ In p e).
Proof.
  destruct the_mesh as (n & w & y & r & -> & G). pose proof (g_layered _ _ _ _ _ _ _ G) as HL.
  set (h1 := 1%R). pose proof (FL_tiles nelx n w y r h1 HL ltac:(subst h1; lra)) as T.
  exists (coorl nelx n w y r h), (connl nelx n w r). split; [now apply coor_spec|]. split; [now apply conn_spec|].
  assert (EL : length (coorl nelx n w y r h) = length (coorl nelx n w y r h1)) by now rewrite !coorl_length.
  assert (EN : length (coorl nelx n w y r h) = f_nnode (FL_of nelx n w y r h)) by (rewrite coorl_length; reflexivity).
  split; [|split; [|split]].
  - split; [exact EN|]. intros x Hin. unfold coorl in Hin. apply in_app_iff in Hin. destruct Hin as [Hin|Hin].
    + apply in_flat_map in Hin. destruct Hin as (iy & _ & Hin). apply in_app_iff in Hin. unfold row, mid, tab1 in Hin.
      destruct Hin as [Hin|Hin]; [|destruct (Rf n r iy)]; try destruct Hin; apply in_map_iff in Hin; destruct Hin as (j & <- & _); reflexivity.
    + unfold row, tab1 in Hin. apply in_map_iff in Hin. destruct Hin as (j & <- & _). reflexivity.
  - split; [apply C_length|]. intros e He. destruct (t_convex _ _ _ _ T e He) as (x0 & y0 & x1 & y1 & x2 & y2 & x3 & y3 & (n0 & n1 & n2 & n3 & -> & _) & _). reflexivity.
  - intros e p He Hp. rewrite <- EN, EL. destruct (t_convex _ _ _ _ T e He) as (x0 & y0 & x1 & y1 & x2 & y2 & x3 & y3 & (n0 & n1 & n2 & n3 & -> & A0 & A1 & A2 & A3) & _).
    apply nth_error_Some. unfold node_at in *. destruct Hp as [<-|[<-|[<-|[<-|[]]]]]; congruence.
  - intros p Hp. apply (t_used _ _ _ _ T). now rewrite <- EL, EN.
Qed.

Lemma T_geometry : (0 < h)%R -> exists X C, f_coor m = Ok X /\ f_conn m = Ok C /\
  tiles X C (h * INR nelx) (h * INR (f_nely m)) /\ in_domain X (h * INR nelx) (h * INR (f_nely m)) /\
  sumR (map (element_area X) C) = ((h * INR nelx) * (h * INR (f_nely m)))%R.
Proof.
  intros Hh. destruct the_mesh as (n & w & y & r & -> & G). pose proof (g_layered _ _ _ _ _ _ _ G) as HL.
  exists (coorl nelx n w y r h), (connl nelx n w r). split; [now apply coor_spec|]. split; [now apply conn_spec|]. rewrite (nely_spec nelx n w y r h).
  split; [now apply FL_tiles|]. split; [now apply FL_in_domain|now apply FL_total_area].
Qed.

Lemma T_boundary : (0 < h)%R -> exists X bot top lft rgt obot otop olft orgt bl br tl tr, f_coor m = Ok X /\
  f_nodesBottomEdge m = Ok bot /\ f_nodesTopEdge m = Ok top /\ f_nodesLeftEdge m = Ok lft /\ f_nodesRightEdge m = Ok rgt /\
  f_nodesBottomOpenEdge m = Ok obot /\ f_nodesTopOpenEdge m = Ok otop /\ f_nodesLeftOpenEdge m = Ok olft /\ f_nodesRightOpenEdge m = Ok orgt /\
  f_nodesBottomLeftCorner m = Ok bl /\ f_nodesBottomRightCorner m = Ok br /\ f_nodesTopLeftCorner m = Ok tl /\ f_nodesTopRightCorner m = Ok tr /\
  boundary_sets X (h * INR nelx) (h * INR (f_nely m)) bot top lft rgt obot otop olft orgt bl br tl tr.
Proof.
  intros Hh. destruct the_mesh as (n & w & y & r & -> & G). pose proof (g_layered _ _ _ _ _ _ _ G) as HL. rewrite (nely_spec nelx n w y r h).
  destruct (corners _ _ _ _ _ h HL) as (C1 & C2 & C3 & C4).
  do 13 eexists. split; [now apply coor_spec|]. split; [now apply bottomEdge|]. split; [now apply topEdge|]. split; [now apply leftEdge|]. split; [now apply rightEdge|].
  split; [now apply bottomOpen|]. split; [now apply topOpen|]. split; [now apply leftOpen|]. split; [now apply rightOpen|].
  split; [exact C1|]. split; [exact C2|]. split; [exact C3|]. split; [exact C4|]. exact (FL_boundary _ _ _ _ _ h HL Hh).
Qed.

Lemma T_periodic : (0 < h)%R -> exists X ties D n0, f_coor m = Ok X /\ f_nodesPeriodic m = Ok ties /\ f_dofsPeriodic m = Ok D /\
  nth_error (f_layer_nelx m) 0 = Some n0 /\
  periodic_ties X (h * INR nelx) (h * INR (f_nely m)) ties /\
  periodic_dofs X (h * INR nelx) (h * INR (f_nely m)) 2 D ((f_nnode m - (n0 + length (f_nhy m) + 1)) * 2).
Proof.
  intros Hh. destruct the_mesh as (n & w & y & r & -> & G). pose proof (g_layered _ _ _ _ _ _ _ G) as HL. rewrite (nely_spec nelx n w y r h).
  destruct (FL_dofs _ _ _ _ _ h HL Hh) as (D & ED & P). pose proof (n_L _ _ _ _ _ HL).
  exists (coorl nelx n w y r h), (nodesPeriodic2d (bnd nelx n w r)), D, (NX nelx n w 0). split; [now apply coor_spec|]. split; [now apply FL_periodic|]. split; [exact ED|].
  split; [cbn [f_layer_nelx FL_of]; apply tab1_nth_error; lia|]. split; [now apply FL_ties|]. cbn [f_nhy FL_of]. rewrite tab1_len. exact P.
Qed.

Lemma T_layers : (0 < h)%R -> exists X C l, f_coor m = Ok X /\ f_conn m = Ok C /\
  mapM (elementsLayer m) (seq 0 (f_layers m)) = Ok l /\ concat l = seq 0 (f_nelem m) /\
  (forall i li, nth_error l i = Some li -> exists x u k t, layer_is (f_nhx m) (f_nhy m) (f_layer_nelx m) (f_refine m) i x u k t /\
     length li = (if (t =? -1)%Z then k else 4 * k) /\
     forall e E, In e li -> nth_error C e = Some E ->
       element_within X E 0 (h * INR nelx) (h * INR (total (firstn i (f_nhy m)))) (h * INR (total (firstn (i + 1) (f_nhy m))))).
Proof.
  intros Hh. destruct the_mesh as (n & w & y & r & -> & G). pose proof (g_layered _ _ _ _ _ _ _ G) as HL.
  exists (coorl nelx n w y r h), (connl nelx n w r), (map (fun iy => map (Nat.add (SE nelx n w r iy)) (seq 0 (NE nelx n w r iy))) (seq 0 (L n))).
  split; [now apply coor_spec|]. split; [now apply conn_spec|]. rewrite layers_m. split; [|split].
  - apply mapM_Ok. intros iy Hi. apply in_seq in Hi. apply elementsLayer_spec. lia.
  - cbn [f_nelem FL_of]. rewrite <- flat_map_concat_map. symmetry. apply seq_blocks.
  - intros i li Hli. rewrite nth_error_map, nth_error_seq in Hli. destruct (Nat.ltb_spec i (L n)) as [Hi|]; [|discriminate Hli]. cbn in Hli. injection Hli as <-.
    exists (W n w i), (Hy n y i), (NX nelx n w i), (Zr (Rf n r i)). split; [now apply layer_intro|]. split.
    { rewrite map_length, seq_length. unfold Proof_FineLayer.NE, Zr. destruct (Rf n r i); cbn; lia. }
    intros e El He HEl p px' py' Hp Hpos. apply in_map_iff in He. destruct He as (j & <- & Hj). apply in_seq in Hj.
    assert (HeL : SE nelx n w r i + j < SE nelx n w r (L n)).
    { unfold SE in *. assert (nsum (S i) (NE nelx n w r) <= nsum (L n) (NE nelx n w r)) by (apply nsum_le; lia). cbn [nsum] in *. lia. }
    destruct (elem_cases nelx n w r _ HeL) as (iy & ix & T & K).
    assert (iy = i).
    { destruct K as [j' Ki Kx Kj Ke]. rewrite NE_tl in Hj. assert (j' < tl n r iy) by (apply nth_error_Some; unfold tl; congruence).
      eapply (fun a b c => proj1 (blocks_inj (NE nelx n w r) iy (ix * tl n r iy + j') i j a b c)); [rewrite NE_tl; nia|rewrite NE_tl; lia|exact (eq_sym Ke)]. }
    subst iy. assert (IE : in_element (coorl nelx n w y r h) El px' py').
    { destruct (t_convex _ _ _ _ (FL_tiles nelx n w y r h HL Hh) El) as (x0 & y0 & x1 & y1 & x2 & y2 & x3 & y3 & Q & (V1 & V2 & V3 & V4)); [now apply nth_error_In with (SE nelx n w r i + j)|].
      exists x0, y0, x1, y1, x2, y2, x3, y3. split; [exact Q|]. destruct Q as (n0 & n1 & n2 & n3 & -> & A0 & A1 & A2 & A3). unfold inside, area2 in *.
      destruct Hp as [<-|[<-|[<-|[<-|[]]]]]; (match goal with A : node_at _ ?q _ _ |- _ => destruct (node_at_fun _ _ _ _ _ _ A Hpos) as [<- <-] end || idtac); repeat split; nra. }
    pose proof (in_box _ _ _ _ _ h HL Hh _ _ _ _ _ _ _ K HEl IE) as [B1 B2]. cbn [f_nhy FL_of]. rewrite !firstn_tab1 by lia. unfold total. rewrite !sum_tab1.
    split; [|exact B2]. destruct (t_domain _ _ _ _ (FL_tiles nelx n w y r h HL Hh) El px' py') as [D1 _]; [now apply nth_error_In with (SE nelx n w r i + j)|exact IE|exact D1].
Qed.

Lemma T_middle : exists X C l, f_coor m = Ok X /\ f_conn m = Ok C /\ elementsMiddleLayer m = Ok l /\ length l = nelx /\
  (forall i e, nth_error l i = Some e -> exists E, nth_error C e = Some E /\
     let x := INR i in let y := INR ((f_nely m - 1) / 2) in
     quad X E (h * x) (h * y) (h * (x + 1)) (h * y) (h * (x + 1)) (h * (y + 1)) (h * x) (h * (y + 1))).
Proof.
  destruct the_mesh as (n & w & y & r & -> & G). pose proof (g_layered _ _ _ _ _ _ _ G) as HL. pose proof (n_L _ _ _ _ _ HL) as HnL.
  exists (coorl nelx n w y r h), (connl nelx n w r). eexists. split; [now apply coor_spec|]. split; [now apply conn_spec|]. split; [now apply elementsMiddle_spec|].
  split; [now rewrite map_length, seq_length|]. intros i e He. rewrite nth_error_map, nth_error_seq in He. destruct (Nat.ltb_spec i nelx) as [Hi|]; [|discriminate He]. cbn in He. injection He as <-.
  assert (K : elem_case nelx n w r (SE nelx n w r (n - 1) + i) (n - 1) i sq).
  { pose proof (W_NX _ _ _ _ _ HL (n - 1) HnL) as EW. rewrite (W_mid _ _ _ _ _ HL) in EW. pose proof (Rf_mid _ _ _ _ _ HL) as Q.
    assert (Qt : tm n r (n - 1) = [sq]) by (unfold tm; now rewrite Q).
    apply (Elem_case _ _ _ _ _ _ _ _ 0); [exact HnL|lia|now rewrite Qt|rewrite Qt; cbn; lia]. }
  destruct (elem_quad _ _ _ _ _ h HL _ _ _ _ K) as (El & HEl & Q & _). exists El. split; [exact HEl|]. cbv zeta. unfold px, py, sq in Q. cbn in Q.
  assert (ES : sz n w r (n - 1) = 1) by (unfold sz; rewrite (Rf_mid _ _ _ _ _ HL), (W_mid _ _ _ _ _ HL); reflexivity).
  rewrite (W_mid _ _ _ _ _ HL), ES, Nat.mul_1_l in Q. rewrite (nely_spec nelx n w y r h).
  assert (EY : (Y n y (L n) - 1) / 2 = Y n y (n - 1)).
  { pose proof (Y_half _ _ _ _ _ _ _ G) as Q1. pose proof (Y_mid _ _ _ _ _ _ _ G) as Q2. replace (Y n y (L n) - 1) with (Y n y (n - 1) * 2) by lia. now apply Nat.div_mul. }
  rewrite EY. cbn [INR] in Q. replace (INR i + 1 * 0)%R with (INR i) in Q by ring. replace (INR i + 1 * 1)%R with (INR i + 1)%R in Q by ring.
  replace (INR (Y n y (n - 1)) + 1 * 0)%R with (INR (Y n y (n - 1))) in Q by ring. replace (INR (Y n y (n - 1)) + 1 * 1)%R with (INR (Y n y (n - 1)) + 1)%R in Q by ring. exact Q.
Qed.

Lemma T_roll : (0 < h)%R -> exists X C n0, f_coor m = Ok X /\ f_conn m = Ok C /\ nth_error (f_layer_nelx m) 0 = Some n0 /\
  (forall k, exists l, f_roll m k = Ok l /\ Permutation l (seq 0 (f_nelem m)) /\
     forall e, e < f_nelem m -> exists e' E E' z, nth_error l e = Some e' /\ nth_error C e = Some E /\ nth_error C e' = Some E' /\
       translated X E E' (INR k * (h * INR nelx / INR n0) - INR z * (h * INR nelx))%R) /\
  (forall z, f_roll m (z * n0) = Ok (seq 0 (f_nelem m))) /\
  (forall a b la lb lc, f_roll m a = Ok la -> f_roll m b = Ok lb -> f_roll m (a + b) = Ok lc ->
     forall e e1, nth_error lb e = Some e1 -> nth_error lc e = nth_error la e1).
Proof.
  intros Hh. destruct the_mesh as (n & w & y & r & -> & G). pose proof (g_layered _ _ _ _ _ _ _ G) as HL. pose proof (n_L _ _ _ _ _ HL) as HnL.
  exists (coorl nelx n w y r h), (connl nelx n w r), (NX nelx n w 0). split; [now apply coor_spec|]. split; [now apply conn_spec|].
  split; [cbn [f_layer_nelx FL_of]; apply tab1_nth_error; lia|]. split; [|split].
  - intros k. exists (rolll nelx n w r k). split; [now apply roll_spec|]. split; [now apply roll_perm|]. intros e He. exact (roll_translates _ _ _ _ _ _ _ h G k e He Hh).
  - intros z. rewrite roll_spec by assumption. f_equal. exact (roll_multiple _ _ _ _ _ HL z).
  - intros a b la lb lc. rewrite !roll_spec by assumption. intros Ea Eb Ec. injection Ea as <-. injection Eb as <-. injection Ec as <-. intros e e1. exact (roll_compose _ _ _ _ _ HL a b e e1).
Qed.
End Init.
