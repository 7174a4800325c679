(** Quad4::FineLayer: node sets on the boundary, and periodicity. *)
From Coq Require Import Reals ZArith Lra.
From Verif Require Import Base Spec Spec2d Spec_Tiling Model_Numbering Model_Regular2d Model_FineLayer Proof_Vector Proof_Regular2d Proof_FineLayer Proof_FineLayerMesh.

(** ** periodicity from the boundary sets *)
Lemma combine_nth_error {A B} : forall (a : list A) (b : list B) x z, In (x, z) (combine a b) -> exists i, nth_error a i = Some x /\ nth_error b i = Some z.
Proof.
  induction a as [|u a IH]; intros [|v b] x z H; cbn in H; try destruct H as []. 
  - injection H as -> ->. exists 0. split; reflexivity.
  - destruct (IH _ _ _ H) as (i & A1 & A2). exists (S i). split; assumption.
Qed.

Section Generic.
Variables (X : list (list R)) (Lx Ly : R) (bot top lft rgt : list nat) (b : boundary2d).
Hypothesis D : in_domain X Lx Ly.
Hypothesis HLx : (0 < Lx)%R.
Hypothesis HLy : (0 < Ly)%R.
Hypothesis B : boundary_sets X Lx Ly bot top lft rgt (b_bot b) (b_top b) (b_lft b) (b_rgt b) (c_bl b) (c_br b) (c_tl b) (c_tr b).
Hypothesis Lbt : length (b_bot b) = length (b_top b).
Hypothesis Llr : length (b_lft b) = length (b_rgt b).
Hypothesis Ebt : forall i p q x y x' y', nth_error (b_bot b) i = Some p -> nth_error (b_top b) i = Some q -> node_at X p x y -> node_at X q x' y' -> x = x'.
Hypothesis Elr : forall i p q x y x' y', nth_error (b_lft b) i = Some p -> nth_error (b_rgt b) i = Some q -> node_at X p x y -> node_at X q x' y' -> y = y'.

(** the nodes of an open edge *)
Lemma open_edge (l : list nat) c (P : R -> R -> Prop) first o last p : lists_nodes X l P -> increasing_along X l c -> l = first :: o ++ [last] -> In p o ->
  exists x y, node_at X p x y /\ P x y /\ (forall u v, node_at X first u v -> (c u v < c x y)%R) /\ (forall u v, node_at X last u v -> (c x y < c u v)%R).
Proof.
  intros [N H] I El Hp. assert (Hin : In p l) by (rewrite El; right; apply in_or_app; now left).
  destruct (proj1 (H p) Hin) as (x & y & A1 & A2). exists x, y. split; [exact A1|]. split; [exact A2|].
  apply In_nth_error in Hp. destruct Hp as [i Hi]. assert (Hil : i < length o) by (apply nth_error_Some; congruence).
  assert (Hi' : nth_error l (S i) = Some p) by (rewrite El; cbn; rewrite nth_error_app1; assumption).
  split; intros u v Hu.
  - apply (I 0 (S i) first p); auto; [lia|]. rewrite El. reflexivity.
  - apply (I (S i) (S (length o)) p last); auto; [lia|]. rewrite El. cbn. now rewrite nth_error_app2, Nat.sub_diag by lia.
Qed.

Let obot_at p : In p (b_bot b) -> exists x, node_at X p x 0 /\ (0 < x < Lx)%R.
Proof.
  intros H. destruct (open_edge _ _ _ _ _ _ p (proj1 (bs_bot _ _ _ _ _ _ _ _ _ _ _ _ _ _ _ B)) (proj2 (bs_bot _ _ _ _ _ _ _ _ _ _ _ _ _ _ _ B)) (bs_obot _ _ _ _ _ _ _ _ _ _ _ _ _ _ _ B) H)
    as (x & y & A1 & -> & A3 & A4). exists x. split; [exact A1|]. split; [exact (A3 _ _ (bs_bl _ _ _ _ _ _ _ _ _ _ _ _ _ _ _ B))|exact (A4 _ _ (bs_br _ _ _ _ _ _ _ _ _ _ _ _ _ _ _ B))].
Qed.
Let otop_at p : In p (b_top b) -> exists x, node_at X p x Ly /\ (0 < x < Lx)%R.
Proof.
  intros H. destruct (open_edge _ _ _ _ _ _ p (proj1 (bs_top _ _ _ _ _ _ _ _ _ _ _ _ _ _ _ B)) (proj2 (bs_top _ _ _ _ _ _ _ _ _ _ _ _ _ _ _ B)) (bs_otop _ _ _ _ _ _ _ _ _ _ _ _ _ _ _ B) H)
    as (x & y & A1 & -> & A3 & A4). exists x. split; [exact A1|]. split; [exact (A3 _ _ (bs_tl _ _ _ _ _ _ _ _ _ _ _ _ _ _ _ B))|exact (A4 _ _ (bs_tr _ _ _ _ _ _ _ _ _ _ _ _ _ _ _ B))].
Qed.
Let olft_at p : In p (b_lft b) -> exists y, node_at X p 0 y /\ (0 < y < Ly)%R.
Proof.
  intros H. destruct (open_edge _ _ _ _ _ _ p (proj1 (bs_lft _ _ _ _ _ _ _ _ _ _ _ _ _ _ _ B)) (proj2 (bs_lft _ _ _ _ _ _ _ _ _ _ _ _ _ _ _ B)) (bs_olft _ _ _ _ _ _ _ _ _ _ _ _ _ _ _ B) H)
    as (x & y & A1 & -> & A3 & A4). exists y. split; [exact A1|]. split; [exact (A3 _ _ (bs_bl _ _ _ _ _ _ _ _ _ _ _ _ _ _ _ B))|exact (A4 _ _ (bs_tl _ _ _ _ _ _ _ _ _ _ _ _ _ _ _ B))].
Qed.
Let orgt_at p : In p (b_rgt b) -> exists y, node_at X p Lx y /\ (0 < y < Ly)%R.
Proof.
  intros H. destruct (open_edge _ _ _ _ _ _ p (proj1 (bs_rgt _ _ _ _ _ _ _ _ _ _ _ _ _ _ _ B)) (proj2 (bs_rgt _ _ _ _ _ _ _ _ _ _ _ _ _ _ _ B)) (bs_orgt _ _ _ _ _ _ _ _ _ _ _ _ _ _ _ B) H)
    as (x & y & A1 & -> & A3 & A4). exists y. split; [exact A1|]. split; [exact (A3 _ _ (bs_br _ _ _ _ _ _ _ _ _ _ _ _ _ _ _ B))|exact (A4 _ _ (bs_tr _ _ _ _ _ _ _ _ _ _ _ _ _ _ _ B))].
Qed.

(** every tie *)
Lemma tie_at p q : In (p, q) (nodesPeriodic2d b) -> exists x y x' y', node_at X p x y /\ node_at X q x' y' /\
  (0 <= x < Lx /\ 0 <= y < Ly /\ (x' = Lx \/ y' = Ly))%R /\ congruent Lx Ly x y x' y'.
Proof.
  pose proof (bs_bl _ _ _ _ _ _ _ _ _ _ _ _ _ _ _ B) as Pbl. pose proof (bs_br _ _ _ _ _ _ _ _ _ _ _ _ _ _ _ B) as Pbr.
  pose proof (bs_tl _ _ _ _ _ _ _ _ _ _ _ _ _ _ _ B) as Ptl. pose proof (bs_tr _ _ _ _ _ _ _ _ _ _ _ _ _ _ _ B) as Ptr.
  unfold nodesPeriodic2d. cbn [app In]. intros [E|[E|[E|H]]].
  - injection E as <- <-. exists 0%R, 0%R, Lx, 0%R. repeat split; auto; try lra. exists 1%Z, 0%Z. split; ring.
  - injection E as <- <-. exists 0%R, 0%R, Lx, Ly. repeat split; auto; try lra. exists 1%Z, 1%Z. split; ring.
  - injection E as <- <-. exists 0%R, 0%R, 0%R, Ly. repeat split; auto; try lra. exists 0%Z, 1%Z. split; ring.
  - apply in_app_or in H. destruct H as [H|H]; apply combine_nth_error in H; destruct H as (i & H1 & H2).
    + destruct (obot_at p (nth_error_In _ _ H1)) as (x & A1 & A2). destruct (otop_at q (nth_error_In _ _ H2)) as (x' & A1' & A2').
      pose proof (Ebt _ _ _ _ _ _ _ H1 H2 A1 A1') as <-. exists x, 0%R, x, Ly. repeat split; auto; try lra. exists 0%Z, 1%Z. split; ring.
    + destruct (olft_at p (nth_error_In _ _ H1)) as (x & A1 & A2). destruct (orgt_at q (nth_error_In _ _ H2)) as (x' & A1' & A2').
      pose proof (Elr _ _ _ _ _ _ _ H1 H2 A1 A1') as <-. exists 0%R, x, Lx, x. repeat split; auto; try lra. exists 1%Z, 0%Z. split; ring.
Qed.

Lemma ties_snd : map snd (nodesPeriodic2d b) = [c_br b; c_tr b; c_tl b] ++ b_top b ++ b_rgt b.
Proof. unfold nodesPeriodic2d. rewrite !map_app, !map_snd_combine by assumption. reflexivity. Qed.

Lemma ties_of_boundary : periodic_ties X Lx Ly (nodesPeriodic2d b).
Proof.
  pose proof (bs_rgt _ _ _ _ _ _ _ _ _ _ _ _ _ _ _ B) as [[Nr Hr] _]. pose proof (bs_top _ _ _ _ _ _ _ _ _ _ _ _ _ _ _ B) as [[Nt Ht] _].
  pose proof (bs_orgt _ _ _ _ _ _ _ _ _ _ _ _ _ _ _ B) as Er. pose proof (bs_otop _ _ _ _ _ _ _ _ _ _ _ _ _ _ _ B) as Et.
  pose proof (bs_br _ _ _ _ _ _ _ _ _ _ _ _ _ _ _ B) as Pbr. pose proof (bs_tl _ _ _ _ _ _ _ _ _ _ _ _ _ _ _ B) as Ptl. pose proof (bs_tr _ _ _ _ _ _ _ _ _ _ _ _ _ _ _ B) as Ptr.
  assert (Ls : forall q, In q (map snd (nodesPeriodic2d b)) <-> In q rgt \/ In q top).
  { intros q. rewrite ties_snd, Er, Et. cbn [app In]. rewrite !in_app_iff. cbn. tauto. }
  assert (ND : NoDup (map snd (nodesPeriodic2d b))).
  { rewrite ties_snd. apply (Permutation_NoDup (l := (c_br b :: b_rgt b ++ [c_tr b]) ++ (c_tl b :: b_top b))).
    - apply Permutation_sym. cbn [app]. constructor. rewrite <- app_assoc. cbn [app].
      transitivity (c_tr b :: b_rgt b ++ c_tl b :: b_top b).
      + constructor. change (c_tl b :: b_top b ++ b_rgt b) with ((c_tl b :: b_top b) ++ b_rgt b). apply Permutation_app_comm.
      + apply Permutation_middle.
    - rewrite <- Er. apply NoDup_app_intro; [exact Nr| |].
      + rewrite Et in Nt. change (c_tl b :: b_top b ++ [c_tr b]) with ((c_tl b :: b_top b) ++ [c_tr b]) in Nt. now apply NoDup_app_inv in Nt.
      + intros q Hq Hq'. apply Hr in Hq. destruct Hq as (x & y & A1 & ->). destruct Hq' as [<-|Hq'].
        * destruct (node_at_fun _ _ _ _ _ _ A1 Ptl). lra.
        * destruct (otop_at q Hq') as (x' & A2 & A3). destruct (node_at_fun _ _ _ _ _ _ A1 A2). lra. }
  split; [split; [|split]|split].
  - intros p q H. destruct (tie_at p q H) as (x & y & x' & y' & A1 & A2 & _). split; eapply node_at_lt; eassumption.
  - exact ND.
  - intros p Hp Hq. apply in_map_iff in Hp. destruct Hp as ([p' q] & E & Hp). cbn in E. subst p'.
    apply in_map_iff in Hq. destruct Hq as ([p' q'] & E & Hq). cbn in E. subst q'.
    destruct (tie_at _ _ Hp) as (x & y & x1 & y1 & A1 & _ & A2 & _). destruct (tie_at _ _ Hq) as (x2 & y2 & x' & y' & _ & A1' & A2' & _).
    destruct (node_at_fun _ _ _ _ _ _ A1 A1'). subst. lra.
  - intros p q x y x' y' H A1 A2. destruct (tie_at p q H) as (u & v & u' & v' & B1 & B2 & _ & Co).
    destruct (node_at_fun _ _ _ _ _ _ A1 B1), (node_at_fun _ _ _ _ _ _ A2 B2). subst. exact Co.
  - split; [exact ND|]. intros q. rewrite Ls, Hr, Ht. split.
    + intros [(x & y & A1 & A2)|(x & y & A1 & A2)]; exists x, y; auto.
    + intros (x & y & A1 & [A2|A2]); [left|right]; exists x, y; auto.
Qed.
End Generic.

Lemma hINR_inj h a b : (0 < h)%R -> (h * INR a)%R = (h * INR b)%R -> a = b.
Proof. intros H E. apply Rmult_eq_reg_l in E; [|lra]. now apply INR_eq. Qed.
Lemma hINR_lt h a b : (0 < h)%R -> a < b -> (h * INR a < h * INR b)%R.
Proof. intros H E. apply Rmult_lt_compat_l; [exact H|now apply lt_INR]. Qed.

Section Boundary.
Variables (nelx n : nat) (w y : nat -> nat) (r : nat -> bool) (h : R).
Hypothesis HL : layered nelx n w y r.
Hypothesis Hh : (0 < h)%R.
Notation L := (L n).
Notation W := (W n w).
Notation Hy := (Hy n y).
Notation Rf := (Rf n r).
Notation NX := (NX nelx n w).
Notation WN := (WN n w).
Notation NN := (NN nelx n w).
Notation SN := (SN nelx n w r).
Notation SE := (SE nelx n w r).
Notation Y := (Y n y).
Notation X := (coorl nelx n w y r h).
Notation m := (FL_of nelx n w y r h).
Notation node_case := (node_case nelx n w y r).

Definition erow (iy : nat) : list nat := map (Nat.add (SN iy)) (seq 0 (NN iy)).
Definition lftl : list nat := map SN (seq 0 (L + 1)).
Definition rgtl : list nat := map (fun i => SN i + (NN i - 1)) (seq 0 (L + 1)).

Lemma NN_pos iy : iy <= L -> 2 <= NN iy.
Proof. intros H. destruct (WN_NN _ _ _ _ _ HL iy H) as (k & A1 & A2 & _). lia. Qed.
Lemma WN_last iy : iy <= L -> WN iy * (NN iy - 1) = nelx.
Proof. intros H. destruct (WN_NN _ _ _ _ _ HL iy H) as (k & A1 & A2 & A3 & _). rewrite A2. replace (k + 1 - 1) with k by lia. exact A3. Qed.
Lemma node_at_case p a b : node_case p a b -> node_at X p (h * INR a) (h * INR b).
Proof. intros H. exact (node_case_pos _ _ _ _ _ h _ _ _ H). Qed.
Lemma row_at iy j : iy <= L -> j < NN iy -> node_at X (SN iy + j) (h * INR (WN iy * j)) (h * INR (Y iy)).
Proof. intros A1 A2. apply node_at_case. now apply case_row. Qed.

Lemma SN_lt i j : i < j -> SN i + NN i <= SN j.
Proof. intros H. unfold Proof_FineLayer.SN. pose proof (nsum_le (S i) j (fun k => NN k + NM nelx n w r k) H) as G. cbn [nsum] in G. lia. Qed.

Lemma edge_row iy : iy <= L -> lists_nodes X (erow iy) (fun _ b => b = (h * INR (Y iy))%R) /\ increasing_along X (erow iy) (fun a _ => a).
Proof.
  intros Hi. split; [split|].
  - unfold erow. apply NoDup_map_inj; [apply seq_NoDup|]. intros. lia.
  - intros p. split.
    + intros H. apply in_map_iff in H. destruct H as (j & <- & Hj). apply in_seq in Hj. do 2 eexists. split; [apply row_at; lia|reflexivity].
    + intros (a & b & Hp & Hb). destruct (node_at_pos _ _ _ _ _ h HL _ _ _ Hp) as (a' & b' & -> & -> & K). apply hINR_inj in Hb; [|exact Hh].
      destruct K as [i j Hi' Hj E|i j k s Hi' Hr Hj Hk Hs Ew Eh E].
      * apply (Y_inj _ _ _ _ _ HL) in Hb; try assumption. subst i. rewrite E. apply in_map, in_seq. lia.
      * exfalso. revert Hb. apply (Y_between n y); try assumption; lia.
  - intros i j p p' a b a' b' Hij Hp Hp' N N'. unfold erow in *. rewrite nth_error_map, nth_error_seq in Hp, Hp'.
    destruct (Nat.ltb_spec i (NN iy)); [|discriminate]. destruct (Nat.ltb_spec j (NN iy)); [|discriminate]. injection Hp as <-. injection Hp' as <-. cbn [Nat.add] in *.
    destruct (node_at_fun _ _ _ _ _ _ N (row_at iy i Hi H)) as [-> _]. destruct (node_at_fun _ _ _ _ _ _ N' (row_at iy j Hi H0)) as [-> _].
    apply hINR_lt; [exact Hh|]. destruct (WN_NN _ _ _ _ _ HL iy Hi) as (_ & _ & _ & _ & Hw). nia.
Qed.

Lemma edge_col (f : nat -> nat) a : (forall i, i <= L -> f i < NN i /\ WN i * f i = a) -> (a = 0 \/ a = nelx) ->
  lists_nodes X (map (fun i => SN i + f i) (seq 0 (L + 1))) (fun x _ => x = (h * INR a)%R) /\ increasing_along X (map (fun i => SN i + f i) (seq 0 (L + 1))) (fun _ y => y).
Proof.
  intros Hf Ha. split; [split|].
  - apply NoDup_map_inj; [apply seq_NoDup|]. intros i j Hi Hj E. apply in_seq in Hi, Hj.
    destruct (Hf i ltac:(lia)) as [F1 _]. destruct (Hf j ltac:(lia)) as [F2 _].
    destruct (lt_eq_lt_dec i j) as [[G|G]|G]; [|assumption|]; pose proof (SN_lt _ _ G); lia.
  - intros p. split.
    + intros H. apply in_map_iff in H. destruct H as (i & <- & Hi). apply in_seq in Hi. destruct (Hf i ltac:(lia)) as [F1 F2].
      do 2 eexists. split; [apply row_at; [lia|exact F1]|]. now rewrite F2.
    + intros (u & v & Hp & Hb). destruct (node_at_pos _ _ _ _ _ h HL _ _ _ Hp) as (a' & b' & -> & -> & K). apply hINR_inj in Hb; [|exact Hh].
      destruct K as [i j Hi' Hj E|i j k s Hi' Hr Hj Hk Hs Ew Eh E].
      * destruct (Hf i Hi') as [F1 F2]. destruct (WN_NN _ _ _ _ _ HL i Hi') as (_ & _ & _ & _ & Hw).
        assert (j = f i) by (apply (Nat.mul_cancel_l _ _ (WN i)); lia). subst j. rewrite E. apply (in_map (fun i => SN i + f i)), in_seq. lia.
      * exfalso. pose proof (W_NX _ _ _ _ _ HL i Hi') as EX. rewrite Ew in *. destruct Ha as [-> | ->]; [nia|].
        assert (3 * s * j + s * (k + 1) < 3 * s * NX i); [|lia]. assert (s * (k + 1) <= s * 2) by nia. nia.
  - intros i j p p' u v u' v' Hij Hp Hp' N N'. rewrite nth_error_map, nth_error_seq in Hp, Hp'.
    destruct (Nat.ltb_spec i (L + 1)); [|discriminate]. destruct (Nat.ltb_spec j (L + 1)); [|discriminate]. injection Hp as <-. injection Hp' as <-. cbn [Nat.add] in *.
    destruct (Hf i ltac:(lia)) as [F1 _]. destruct (Hf j ltac:(lia)) as [F2 _].
    destruct (node_at_fun _ _ _ _ _ _ N (row_at i (f i) ltac:(lia) F1)) as [_ ->]. destruct (node_at_fun _ _ _ _ _ _ N' (row_at j (f j) ltac:(lia) F2)) as [_ ->].
    apply hINR_lt; [exact Hh|]. pose proof (Y_lt n y i j Hij ltac:(lia)). pose proof (Hy_pos _ _ _ _ _ HL i ltac:(lia)). lia.
Qed.

Lemma erow_open iy : iy <= L -> erow iy = SN iy :: map (Nat.add (SN iy)) (seq 1 (NN iy - 1 - 1)) ++ [SN iy + (NN iy - 1)].
Proof.
  intros H. pose proof (NN_pos iy H). unfold erow. replace (NN iy) with (NN iy - 1 + 1) at 1 by lia. rewrite map_open by lia. now rewrite Nat.add_0_r.
Qed.
Lemma col_open (f : nat -> nat) : map f (seq 0 (L + 1)) = f 0 :: map f (seq 1 (L - 1)) ++ [f L].
Proof. pose proof (n_L _ _ _ _ _ HL). apply map_open. lia. Qed.

(** *** the functions *)
Lemma NN_bot : NN 0 = NX 0 + 1.
Proof. pose proof (l_n _ _ _ _ _ HL). unfold Proof_FineLayer.NN. rewrite WN_low by lia. reflexivity. Qed.
Lemma NN_top : NN L = NX (L - 1) + 1.
Proof. pose proof (l_n _ _ _ _ _ HL). unfold Proof_FineLayer.NN. rewrite WN_up by (unfold L; lia). reflexivity. Qed.
Lemma get_SN i : i <= L -> get (f_startNode m) i = Ok (SN i).
Proof. intros H. cbn [f_startNode FL_of]. apply tab1_get. rewrite (L_S _ _ _ _ _ HL). lia. Qed.
Lemma get_NX i : i < L -> get (f_layer_nelx m) i = Ok (NX i).
Proof. intros H. cbn [f_layer_nelx FL_of]. now apply tab1_get. Qed.
Lemma NX_low i : i < n -> NX i = NN i - 1.
Proof. intros H. unfold Proof_FineLayer.NN. rewrite WN_low by lia. unfold Proof_FineLayer.NX. lia. Qed.
Lemma NX_up i : n - 1 <= i -> NX i = NN (i + 1) - 1.
Proof. intros H. unfold Proof_FineLayer.NN. rewrite WN_up by lia. replace (i + 1 - 1) with i by lia. unfold Proof_FineLayer.NX. lia. Qed.

Lemma bottomEdge : f_nodesBottomEdge m = Ok (erow 0).
Proof. pose proof (n_L _ _ _ _ _ HL). unfold f_nodesBottomEdge. rewrite get_SN, get_NX by lia. cbn [bind]. unfold arange, erow. now rewrite NN_bot, Nat.sub_0_r. Qed.
Lemma topEdge : f_nodesTopEdge m = Ok (erow L).
Proof. pose proof (n_L _ _ _ _ _ HL). unfold f_nodesTopEdge. rewrite layers_m, get_SN, get_NX by lia. cbn [bind]. unfold arange, erow. now rewrite NN_top, Nat.sub_0_r. Qed.
Lemma bottomOpen : f_nodesBottomOpenEdge m = Ok (map (Nat.add (SN 0)) (seq 1 (NN 0 - 1 - 1))).
Proof. pose proof (n_L _ _ _ _ _ HL). unfold f_nodesBottomOpenEdge. rewrite get_SN, get_NX by lia. cbn [bind]. unfold arange. rewrite NN_bot. do 3 f_equal. lia. Qed.
Lemma topOpen : f_nodesTopOpenEdge m = Ok (map (Nat.add (SN L)) (seq 1 (NN L - 1 - 1))).
Proof. pose proof (n_L _ _ _ _ _ HL). unfold f_nodesTopOpenEdge. rewrite layers_m, get_SN, get_NX by lia. cbn [bind]. unfold arange. rewrite NN_top. do 3 f_equal. lia. Qed.

Lemma range_writes_Ok a b c f g : (forall i, a <= i < b -> f i = Ok (g i)) -> range_writes a b c f = Ok (map (fun i => (c + (i - a), g i)) (seq a (b - a))).
Proof. intros H. unfold range_writes, arange. apply mapM_Ok. intros i Hi. apply in_seq in Hi. rewrite H by lia. reflexivity. Qed.
Lemma range_fst a k c (g : nat -> nat) : map fst (map (fun i => (c + (i - a), g i)) (seq a k)) = seq c k.
Proof.
  rewrite map_map. cbn [fst].
  assert (G : forall k b, a <= b -> map (fun i => c + (i - a)) (seq b k) = seq (c + (b - a)) k).
  { clear. induction k as [|k IH]; intros b Hb; [reflexivity|]. cbn. f_equal. rewrite IH by lia. f_equal. lia. }
  rewrite G by lia. f_equal. lia.
Qed.

(** a column of nodes, written in two parts *)
Lemma two_parts (g g1 g2 : nat -> res nat) (f : nat -> nat) a b : a < n -> n <= b ->
  (forall i, a <= i < n -> g1 i = Ok (f i)) -> (forall i, n <= i < b -> g2 i = Ok (f i)) ->
  (do w1 <- range_writes a n 0 g1; do w2 <- range_writes n b (n - a) g2; loop_fill (b - a) (w1 ++ w2)) = Ok (map f (seq a (b - a))).
Proof.
  intros Ha Hb H1 H2. rewrite (range_writes_Ok _ _ _ _ f H1). cbn [bind]. rewrite (range_writes_Ok _ _ _ _ f H2). cbn [bind].
  rewrite loop_fill_Ok.
  - rewrite map_app, !map_map. cbn [snd]. rewrite <- map_app. f_equal. f_equal. replace (seq n (b - n)) with (seq (a + (n - a)) (b - n)) by (f_equal; lia). rewrite <- seq_app. f_equal. lia.
  - rewrite map_app, !range_fst. change (n - a) with (0 + (n - a)) at 2. rewrite <- seq_app. f_equal. lia.
Qed.

Lemma halves : (L + 1) / 2 = n /\ (L - 1) / 2 + 1 = n /\ (L - 1) / 2 = n - 1.
Proof. pose proof (l_n _ _ _ _ _ HL). rewrite (L_half' _ _ _ _ _ HL), (L_half n). lia. Qed.

Lemma right_low i : i < n -> (do s <- get (f_startNode m) i; do k <- get (f_layer_nelx m) i; Ok (s + k)) = Ok (SN i + (NN i - 1)).
Proof. intros H. pose proof (n_L _ _ _ _ _ HL). rewrite get_SN, get_NX by (unfold L; lia). cbn [bind]. now rewrite NX_low. Qed.
Lemma right_up i : n <= i <= L -> (do s <- get (f_startNode m) i; do k <- get (f_layer_nelx m) (n - 1 + (i - n)); Ok (s + k)) = Ok (SN i + (NN i - 1)).
Proof.
  intros H. pose proof (l_n _ _ _ _ _ HL). rewrite get_SN, get_NX by lia. cbn [bind]. rewrite NX_up by lia. do 4 f_equal. lia.
Qed.

Lemma leftEdge : f_nodesLeftEdge m = Ok lftl.
Proof.
  pose proof (l_n _ _ _ _ _ HL). pose proof (n_L _ _ _ _ _ HL). destruct halves as (E1 & E2 & E3). unfold f_nodesLeftEdge. rewrite layers_m, E1, E2.
  pose proof (two_parts (fun _ => Ok 0) (get (f_startNode m)) (get (f_startNode m)) SN 0 (L + 1) ltac:(lia) ltac:(unfold L; lia)) as P.
  rewrite !Nat.sub_0_r in P. apply P; intros i Hi; apply get_SN; unfold L in *; lia.
Qed.
Lemma rightEdge : f_nodesRightEdge m = Ok rgtl.
Proof.
  pose proof (l_n _ _ _ _ _ HL). pose proof (n_L _ _ _ _ _ HL). destruct halves as (E1 & E2 & E3). unfold f_nodesRightEdge. rewrite layers_m, E1, E2, E3.
  epose proof (two_parts (fun _ => Ok 0) _ _ (fun i => SN i + (NN i - 1)) 0 (L + 1) ltac:(lia) ltac:(unfold L; lia)) as P.
  rewrite !Nat.sub_0_r in P. apply P; intros i Hi; [apply right_low|apply right_up]; lia.
Qed.
Lemma leftOpen : f_nodesLeftOpenEdge m = Ok (map SN (seq 1 (L - 1))).
Proof.
  pose proof (l_n _ _ _ _ _ HL). pose proof (n_L _ _ _ _ _ HL). destruct halves as (E1 & E2 & E3). unfold f_nodesLeftOpenEdge. rewrite layers_m, E1, E2, E3.
  destruct (Nat.eq_dec n 1) as [En|En].
  - unfold L. rewrite En. reflexivity.
  - apply (two_parts (fun _ => Ok 0)); try (unfold L; lia); intros i Hi; apply get_SN; unfold L in *; lia.
Qed.
Lemma rightOpen : f_nodesRightOpenEdge m = Ok (map (fun i => SN i + (NN i - 1)) (seq 1 (L - 1))).
Proof.
  pose proof (l_n _ _ _ _ _ HL). pose proof (n_L _ _ _ _ _ HL). destruct halves as (E1 & E2 & E3). unfold f_nodesRightOpenEdge. rewrite layers_m, E1, E2, E3.
  destruct (Nat.eq_dec n 1) as [En|En].
  - unfold L. rewrite En. reflexivity.
  - apply (two_parts (fun _ => Ok 0)); try (unfold L; lia); intros i Hi; [apply right_low|apply right_up]; lia.
Qed.
Lemma corners : f_nodesBottomLeftCorner m = Ok (SN 0) /\ f_nodesBottomRightCorner m = Ok (SN 0 + (NN 0 - 1)) /\
  f_nodesTopLeftCorner m = Ok (SN L) /\ f_nodesTopRightCorner m = Ok (SN L + (NN L - 1)).
Proof.
  pose proof (n_L _ _ _ _ _ HL). unfold f_nodesBottomLeftCorner, f_nodesBottomRightCorner, f_nodesTopLeftCorner, f_nodesTopRightCorner.
  rewrite layers_m, !get_SN, !get_NX by lia. cbn [bind]. rewrite NN_bot, NN_top, !Nat.add_sub. repeat split.
Qed.

Definition bnd : boundary2d := mkBoundary2d (map (Nat.add (SN 0)) (seq 1 (NN 0 - 1 - 1))) (map (Nat.add (SN L)) (seq 1 (NN L - 1 - 1)))
  (map SN (seq 1 (L - 1))) (map (fun i => SN i + (NN i - 1)) (seq 1 (L - 1))) (SN 0) (SN 0 + (NN 0 - 1)) (SN L) (SN L + (NN L - 1)).
Lemma boundary_spec : f_boundary m = Ok bnd.
Proof.
  destruct corners as (C1 & C2 & C3 & C4). unfold f_boundary. rewrite bottomOpen, topOpen, leftOpen, rightOpen, C1, C2, C3, C4. reflexivity.
Qed.

Lemma FL_boundary : boundary_sets X (h * INR nelx) (h * INR (Y L)) (erow 0) (erow L) lftl rgtl
  (b_bot bnd) (b_top bnd) (b_lft bnd) (b_rgt bnd) (c_bl bnd) (c_br bnd) (c_tl bnd) (c_tr bnd).
Proof.
  assert (Y0 : (h * INR (Y 0) = 0)%R) by (unfold Proof_FineLayer.Y; cbn; ring). pose proof (NN_pos 0 ltac:(lia)). pose proof (NN_pos L ltac:(lia)).
  assert (Z1 : forall p b, node_at X p (h * INR (WN p * 0)) b -> node_at X p 0 b) by (intros p b; rewrite Nat.mul_0_r; cbn [INR]; now rewrite Rmult_0_r).
  constructor; cbn [bnd b_bot b_top b_lft b_rgt c_bl c_br c_tl c_tr].
  - rewrite <- Y0. apply edge_row. lia.
  - apply edge_row. lia.
  - pose proof (edge_col (fun _ => 0) 0) as E. cbn [INR] in E. rewrite Rmult_0_r in E. unfold lftl.
    rewrite (map_ext SN (fun i => SN i + 0)) by (intros; lia). apply E; [|now left]. intros i Hi. pose proof (NN_pos i Hi). lia.
  - apply edge_col; [|now right]. intros i Hi. pose proof (NN_pos i Hi). split; [lia|]. now apply WN_last.
  - apply erow_open. lia.
  - apply erow_open. lia.
  - apply (col_open SN).
  - apply (col_open (fun i => SN i + (NN i - 1))).
  - pose proof (row_at 0 0 ltac:(lia) ltac:(lia)) as E. rewrite Y0, Nat.mul_0_r, Nat.add_0_r in E. cbn [INR] in E. now rewrite Rmult_0_r in E.
  - pose proof (row_at 0 (NN 0 - 1) ltac:(lia) ltac:(lia)) as E. rewrite Y0, WN_last in E by lia. exact E.
  - pose proof (row_at L 0 ltac:(lia) ltac:(lia)) as E. rewrite Nat.mul_0_r, Nat.add_0_r in E. cbn [INR] in E. now rewrite Rmult_0_r in E.
  - pose proof (row_at L (NN L - 1) ltac:(lia) ltac:(lia)) as E. rewrite WN_last in E by lia. exact E.
Qed.

Lemma WN_sym : WN 0 = WN L /\ NN 0 = NN L.
Proof.
  pose proof (l_n _ _ _ _ _ HL). assert (WN 0 = WN L); [|split; [assumption|unfold Proof_FineLayer.NN; congruence]].
  rewrite WN_low by lia. rewrite WN_up by (unfold L; lia). unfold Proof_FineLayer.W. rewrite dist_low by lia. rewrite (dist_up _ _ _ _ _ HL) by (unfold L; lia). f_equal. unfold L. lia.
Qed.
Lemma Y_L_pos : 1 <= Y L.
Proof. pose proof (n_L _ _ _ _ _ HL). pose proof (Y_lt n y 0 L ltac:(lia) ltac:(lia)). pose proof (Hy_pos _ _ _ _ _ HL 0 ltac:(lia)). lia. Qed.

Lemma FL_ties : periodic_ties X (h * INR nelx) (h * INR (Y L)) (nodesPeriodic2d bnd).
Proof.
  destruct WN_sym as [E1 E2]. pose proof Y_L_pos as HY. pose proof (l_nelx _ _ _ _ _ HL) as HX. pose proof (NN_pos 0 ltac:(lia)).
  apply (ties_of_boundary X _ _ (erow 0) (erow L) lftl rgtl).
  - apply Rmult_lt_0_compat; [exact Hh|apply lt_0_INR; lia].
  - apply Rmult_lt_0_compat; [exact Hh|apply lt_0_INR; lia].
  - exact FL_boundary.
  - cbn. now rewrite !map_length, !seq_length, E2.
  - cbn. now rewrite !map_length, !seq_length.
  - cbn [bnd b_bot b_top]. intros i p q a b a' b' Hp Hq Np Nq. rewrite nth_error_map, nth_error_seq in Hp, Hq. rewrite E2 in Hp.
    destruct (Nat.ltb_spec i (NN L - 1 - 1)); [|discriminate]. injection Hp as <-. injection Hq as <-.
    destruct (node_at_fun _ _ _ _ _ _ Np (row_at 0 (1 + i) ltac:(lia) ltac:(lia))) as [-> _]. destruct (node_at_fun _ _ _ _ _ _ Nq (row_at L (1 + i) ltac:(lia) ltac:(lia))) as [-> _].
    now rewrite E1.
  - cbn [bnd b_lft b_rgt]. intros i p q a b a' b' Hp Hq Np Nq. rewrite nth_error_map, nth_error_seq in Hp, Hq.
    destruct (Nat.ltb_spec i (L - 1)); [|discriminate]. injection Hp as <-. injection Hq as <-. pose proof (NN_pos (1 + i) ltac:(lia)).
    pose proof (row_at (1 + i) 0 ltac:(lia) ltac:(lia)) as R0. rewrite Nat.add_0_r in R0.
    destruct (node_at_fun _ _ _ _ _ _ Np R0) as [_ ->]. destruct (node_at_fun _ _ _ _ _ _ Nq (row_at (1 + i) (NN (1 + i) - 1) ltac:(lia) ltac:(lia))) as [_ ->]. reflexivity.
Qed.

Lemma FL_periodic : f_nodesPeriodic m = Ok (nodesPeriodic2d bnd).
Proof. unfold f_nodesPeriodic. now rewrite boundary_spec. Qed.

Lemma FL_dofs : exists D, f_dofsPeriodic m = Ok D /\
  periodic_dofs X (h * INR nelx) (h * INR (Y L)) 2 D ((f_nnode m - (NX 0 + L + 1)) * 2).
Proof.
  destruct (periodic_dofs_generic X _ _ 2 _ (FL_in_domain _ _ _ _ _ h HL Hh) FL_ties) as (D & E & P). exists D.
  unfold f_dofsPeriodic. rewrite FL_periodic. cbn [bind]. rewrite coorl_length in *. cbn [f_nnode FL_of]. split; [exact E|].
  replace (NX 0 + L + 1) with (length (nodesPeriodic2d bnd)); [exact P|].
  unfold nodesPeriodic2d. rewrite !app_length, !combine_length. cbn [bnd b_bot b_top b_lft b_rgt length]. rewrite !map_length, !seq_length.
  destruct WN_sym as [_ <-]. rewrite NN_bot. pose proof (n_L _ _ _ _ _ HL). pose proof (NX_pos _ _ _ _ _ HL 0 ltac:(lia)). lia.
Qed.
End Boundary.
