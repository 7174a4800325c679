(** Proofs about strips: the nodes and the DOFs. *)
From Coq Require Import Reals Lra Lia List Arith Permutation.
From Verif Require Import Model_Element Spec_Element Base Spec Spec2d Sums Spec_Vector Spec_Tiling Spec_Conform Model_Numbering Model_Regular2d Proof_Vector Proof_Numbering Proof_Regular2d Model_FineLayer
  Proof_FineLayerThm Spec_QuadMesh Proof_QuadMesh Model_VectorPartitioned Model_MatrixPartitioned Model_PartialPeriodic Spec_PartialPeriodic.
Import ListNotations.

Lemma strip_quad X C olft orgt bot top Lx Ly : strip_mesh X C olft orgt bot top Lx Ly ->
  exists ties rgt lft obot otop bl br tl tr, quad_mesh X C ties bot rgt top lft Lx Ly /\ boundary_sets X Lx Ly bot top lft rgt obot otop olft orgt bl br tl tr.
Proof.
  intros [m Hh Hx Hy|nelx nely h nfine m X' C' olft' orgt' bot' top' Hh Hx Hy E EX EC EL ER EB ET].
  - do 9 eexists. split; [now apply mesh_Regular|]. exact (Regular_boundary_sets m Hx Hy Hh).
  - destruct (T_boundary nelx nely nfine h m Hx Hy E Hh) as (X2 & b' & t' & l' & r' & obot & otop & ol & orr & bl & br & tl & tr & EX' & EB' & EP' & EL' & ER' & _ & _ & EO1 & EO2 & _ & _ & _ & _ & HB).
    rewrite EX in EX'. rewrite EB in EB'. rewrite ET in EP'. rewrite EL in EO1. rewrite ER in EO2. injection EX' as <-. injection EB' as <-. injection EP' as <-. injection EO1 as <-. injection EO2 as <-.
    destruct (T_periodic nelx nely nfine h m Hx Hy E Hh) as (X2 & ties & D & n0 & EX' & ETi & _).
    do 9 eexists. split; [|exact HB]. apply (mesh_FineLayer nelx nely h nfine m X' C' ties bot' r' top' l'); assumption.
Qed.

(** what a strip is, for the proofs *)
Record strip_facts (X : list (list R)) (olft orgt bot top : list nat) (Lx Ly : R) : Prop := {
  sf_Lx : (0 < Lx)%R; sf_Ly : (0 < Ly)%R;
  sf_len : length olft = length orgt;
  sf_wf : wf_ties (length X) (combine olft orgt);
  sf_across : forall a b, In (a, b) (combine olft orgt) <-> across X Lx Ly a b;
  sf_inj : forall a b c, across X Lx Ly a b -> across X Lx Ly a c -> b = c;
  sf_bot : enumerates bot (at_bottom X);
  sf_top : enumerates top (at_top X Ly);
  sf_nonempty : exists n, In n bot;
  sf_top_nonempty : exists n, In n top }.

Lemma in_combine_map2 {A} (f g : nat -> A) l p : In p (combine (map f l) (map g l)) <-> exists i, In i l /\ p = (f i, g i).
Proof.
  induction l as [|a l IH]; cbn; [split; [intros []|intros [i [[] _]]]|]. rewrite IH. split.
  - intros [<-|[i [H1 H2]]]; [exists a; auto|exists i; auto].
  - intros [i [[<-|H1] H2]]; [left; now symmetry|right; exists i; auto].
Qed.

Lemma node_fun X n x y x' y' : node_at X n x y -> node_at X n x' y' -> x = x' /\ y = y'.
Proof. unfold node_at. intros H1 H2. rewrite H1 in H2. injection H2. auto. Qed.

Lemma open_part (f : nat -> nat) k a l b : map f (seq 0 (k + 1)) = a :: l ++ [b] -> l = map f (seq 1 (k - 1)) /\ a = f 0 /\ b = f k.
Proof.
  destruct k as [|k].
  - cbn. intros H. injection H as H1 H2. destruct l; discriminate.
  - replace (S k + 1) with (1 + (k + 1)) by lia. rewrite seq_app, map_app. cbn [seq map app Nat.add]. intros H. injection H as H1 H2. rewrite seq_app, map_app in H2. cbn [seq map Nat.add] in H2. apply app_inj_tail in H2. destruct H2 as [H2 H3].
    replace (S k - 1) with k by lia. auto.
Qed.

Lemma strip_facts_of X C olft orgt bot top Lx Ly : strip_mesh X C olft orgt bot top Lx Ly -> strip_facts X olft orgt bot top Lx Ly.
Proof.
  intros H. destruct (strip_quad _ _ _ _ _ _ _ _ H) as (ties & rgt & lft & obot & otop & bl & br & tl & tr & Q & B).
  pose proof (quad_mesh_facts _ _ _ _ _ _ _ _ _ Q) as M. destruct (mf_opposite _ _ _ _ _ _ _ _ _ M) as (kx & ky & b & t & l & r & O).
  destruct (bs_lft _ _ _ _ _ _ _ _ _ _ _ _ _ _ _ B) as [Ll Il]. destruct (bs_rgt _ _ _ _ _ _ _ _ _ _ _ _ _ _ _ B) as [Lr Ir].
  pose proof (bs_olft _ _ _ _ _ _ _ _ _ _ _ _ _ _ _ B) as El. pose proof (bs_orgt _ _ _ _ _ _ _ _ _ _ _ _ _ _ _ B) as Er.
  pose proof (op_l _ _ _ _ _ _ _ _ _ _ _ _ _ _ O) as Ol. pose proof (op_r _ _ _ _ _ _ _ _ _ _ _ _ _ _ O) as Or.
  assert (El' := El). assert (Er' := Er). rewrite Ol in El'. rewrite Or in Er'. apply open_part in El', Er'. destruct El' as (Fl & Fl0 & Fl1). destruct Er' as (Fr & Fr0 & Fr1).
  pose proof (op_ky _ _ _ _ _ _ _ _ _ _ _ _ _ _ O) as Ky. pose proof (op_kx _ _ _ _ _ _ _ _ _ _ _ _ _ _ O) as Kx.
  assert (Nl : forall i, i <= ky -> nth_error lft i = Some (l i)) by (intros i Hi; rewrite Ol; rewrite nth_error_map, (nth_error_nth' _ 0) by (rewrite seq_length; lia); cbn; rewrite seq_nth by lia; reflexivity).
  assert (Nr : forall i, i <= ky -> nth_error rgt i = Some (r i)) by (intros i Hi; rewrite Or; rewrite nth_error_map, (nth_error_nth' _ 0) by (rewrite seq_length; lia); cbn; rewrite seq_nth by lia; reflexivity).
  assert (P : forall i, i <= ky -> exists y, node_at X (l i) 0 y /\ node_at X (r i) Lx y /\ (0 < i < ky -> (0 < y < Ly)%R)).
  { intros i Hi. destruct (op_ly _ _ _ _ _ _ _ _ _ _ _ _ _ _ O i Hi) as [y [Y1 Y2]]. exists y. split; [exact Y1|]. split; [exact Y2|]. intros Hi'.
    pose proof (bs_bl _ _ _ _ _ _ _ _ _ _ _ _ _ _ _ B) as Hbl. pose proof (bs_tl _ _ _ _ _ _ _ _ _ _ _ _ _ _ _ B) as Htl. rewrite Fl0 in Hbl. rewrite Fl1 in Htl. split.
    - exact (Il 0 i _ _ _ _ _ _ ltac:(lia) (Nl 0 ltac:(lia)) (Nl i Hi) Hbl Y1).
    - exact (Il i ky _ _ _ _ _ _ ltac:(lia) (Nl i Hi) (Nl ky ltac:(lia)) Y1 Htl). }
  assert (AC : forall a b, In (a, b) (combine olft orgt) <-> across X Lx Ly a b).
  { intros a c. rewrite Fl, Fr, in_combine_map2. split.
    - intros [i [Hi Ei]]. apply in_seq in Hi. injection Ei as -> ->. destruct (P i ltac:(lia)) as [y [Y1 [Y2 Y3]]]. exists y. split; [apply Y3; lia|]. auto.
    - intros [y [Hy [N1 N2]]]. assert (Ia : In a lft) by (apply Ll; exists 0%R, y; auto). assert (Ic : In c rgt) by (apply Lr; exists Lx, y; auto).
      rewrite Ol in Ia. rewrite Or in Ic. apply in_map_iff in Ia, Ic. destruct Ia as [i [<- Hi]]. destruct Ic as [j [<- Hj]]. apply in_seq in Hi, Hj.
      destruct (P i ltac:(lia)) as [yi [Y1 [Y2 _]]]. destruct (P j ltac:(lia)) as [yj [Z1 [Z2 _]]]. destruct (node_fun _ _ _ _ _ _ Y1 N1) as [_ ->]. destruct (node_fun _ _ _ _ _ _ Z2 N2) as [_ ->].
      assert (i = j). { destruct (Nat.lt_trichotomy i j) as [L|[L|L]]; [exfalso|exact L|exfalso].
        - pose proof (Il i j _ _ _ _ _ _ L (Nl i ltac:(lia)) (Nl j ltac:(lia)) Y1 Z1). cbn in H0. lra.
        - pose proof (Il j i _ _ _ _ _ _ L (Nl j ltac:(lia)) (Nl i ltac:(lia)) Z1 Y1). cbn in H0. lra. }
      subst j. exists i. split; [|reflexivity]. apply in_seq.
      pose proof (bs_bl _ _ _ _ _ _ _ _ _ _ _ _ _ _ _ B) as Hbl. pose proof (bs_tl _ _ _ _ _ _ _ _ _ _ _ _ _ _ _ B) as Htl. rewrite Fl0 in Hbl. rewrite Fl1 in Htl.
      assert (i <> 0) by (intros ->; destruct (node_fun _ _ _ _ _ _ Hbl Y1); lra). assert (i <> ky) by (intros ->; destruct (node_fun _ _ _ _ _ _ Htl Y1); lra). lia. }
  pose proof (proj1 (mf_ties _ _ _ _ _ _ _ _ _ M)) as [W1 [W2 W3]].
  assert (Sub : forall a c, In (a, c) (combine olft orgt) -> In (a, c) ties).
  { intros a c Hac. rewrite Fl, Fr, in_combine_map2 in Hac. destruct Hac as [i [Hi Ei]]. injection Ei as -> ->. apply in_seq in Hi. apply (op_ty _ _ _ _ _ _ _ _ _ _ _ _ _ _ O). lia. }
  constructor.
  - apply M.
  - apply M.
  - rewrite Fl, Fr. now rewrite !map_length.
  - split; [intros a c Hac; apply W1, Sub, Hac|]. split.
    + assert (Es : map snd (combine olft orgt) = orgt). { rewrite Fl, Fr. clear. induction (seq 1 (ky - 1)) as [|x s IH]; cbn; [reflexivity|now rewrite IH]. }
      rewrite Es. pose proof (proj1 Lr) as ND. rewrite Er in ND. apply NoDup_cons_iff in ND. destruct ND as [_ ND]. now apply NoDup_app_inv in ND.
    + intros a Ha Hb. apply in_map_iff in Ha, Hb. destruct Ha as [[a1 c1] [<- Ha]]. destruct Hb as [[a2 c2] [Eb Hb]]. cbn [fst snd] in *. subst c2.
      apply (W3 a1); apply in_map_iff; [exists (a1, c1)|exists (a2, a1)]; split; auto.
  - exact AC.
  - intros a c c' [y [Hy [N1 N2]]] [y' [Hy' [N1' N2']]]. destruct (node_fun _ _ _ _ _ _ N1 N1') as [_ <-].
    assert (I : In c rgt) by (apply Lr; exists Lx, y; auto). assert (I' : In c' rgt) by (apply Lr; exists Lx, y; auto).
    apply In_nth_error in I, I'. destruct I as [i Hi]. destruct I' as [j Hj]. destruct (Nat.lt_trichotomy i j) as [L|[L|L]].
    + pose proof (Ir i j _ _ _ _ _ _ L Hi Hj N2 N2') as K. cbn in K. lra.
    + congruence.
    + pose proof (Ir j i _ _ _ _ _ _ L Hj Hi N2' N2) as K. cbn in K. lra.
  - destruct (bs_bot _ _ _ _ _ _ _ _ _ _ _ _ _ _ _ B) as [[N I] _]. split; [exact N|]. intros n. rewrite I. unfold at_bottom. split; [intros [x [y [A ->]]]; now exists x|intros [x A]; exists x, 0%R; auto].
  - destruct (bs_top _ _ _ _ _ _ _ _ _ _ _ _ _ _ _ B) as [[N I] _]. split; [exact N|]. intros n. rewrite I. unfold at_top. split; [intros [x [y [A ->]]]; now exists x|intros [x A]; exists x, Ly; auto].
  - exists bl. rewrite (bs_obot _ _ _ _ _ _ _ _ _ _ _ _ _ _ _ B). now left.
  - exists tl. rewrite (bs_otop _ _ _ _ _ _ _ _ _ _ _ _ _ _ _ B). now left.
Qed.

(** ** the DOFs *)
Lemma set_rows {A} : forall (ws : list (nat * A)) (l : list A), (forall k v, In (k, v) ws -> k < length l) -> NoDup (map fst ws) ->
  exists l', foldM (fun a p => set a (fst p) (snd p)) ws l = Ok l' /\ length l' = length l /\ (forall k, ~ In k (map fst ws) -> nth_error l' k = nth_error l k) /\
    (forall k v, In (k, v) ws -> nth_error l' k = Some v).
Proof.
  induction ws as [|[k v] ws IH]; intros l Hk ND; cbn.
  - exists l. repeat split; auto. intros k v [].
  - cbn in ND. inversion ND as [|? ? N1 N2]; subst. destruct (set_Ok l k v (Hk k v (or_introl eq_refl))) as [l1 [E1 [L1 V1]]]. rewrite E1. cbn [bind].
    destruct (IH l1) as [l2 [E2 [L2 [A2 B2]]]]; [intros k' v' H; rewrite L1; apply (Hk k' v'); now right|exact N2|].
    exists l2. split; [exact E2|]. split; [congruence|]. split.
    + intros k' H. rewrite A2 by tauto. rewrite V1. destruct (Nat.eqb_spec k' k); [subst; tauto|reflexivity].
    + intros k' v' [H|H]; [|now apply B2]. injection H as -> ->. rewrite A2 by exact N1. rewrite V1. now rewrite Nat.eqb_refl.
Qed.

Lemma in_combine_map_r {A B C} (f : B -> C) (a : list A) : forall (b : list B) x y, In (x, y) (combine a (map f b)) <-> exists z, In (x, z) (combine a b) /\ y = f z.
Proof.
  induction a as [|k a IH]; intros [|z b] x y; cbn; try solve [split; [intros []|intros [w [[] _]]]]. rewrite IH. split.
  - intros [E|[w [H E]]]; [injection E as <- <-; exists z; auto|exists w; auto].
  - intros [w [[E|H] E2]]; [injection E as <- <-; left; now rewrite E2|right; exists w; auto].
Qed.
Lemma in_combine_swap {A B} (a : list A) : forall (b : list B) x y, In (x, y) (combine a b) <-> In (y, x) (combine b a).
Proof. induction a as [|k a IH]; intros [|z b] x y; cbn; try tauto. rewrite IH. split; (intros [E|H]; [injection E as -> ->; now left|now right]). Qed.

(** row by row or column by column: the same *)
Lemma tie_rows_periodic n lft rgt : wf_ties n (combine lft rgt) -> length lft = length rgt ->
  (do d <- tie_rows rgt lft (dofs n 2); renumber2 d) = dofsPeriodic n 2 (combine lft rgt).
Proof.
  intros W HL. pose proof (dofs_shape n 2) as S0. destruct (tie_all n 2 (combine lft rgt) W (seq 0 2) (dofs n 2)) as [l [E [S [_ [B C]]]]].
  { intros j Hj. apply in_seq in Hj. lia. } { apply seq_NoDup. } { exact S0. }
  unfold dofsPeriodic. rewrite E. cbn [bind]. assert (Es : map snd (combine lft rgt) = rgt).
  { clear -HL. revert rgt HL. induction lft as [|a lft IH]; intros [|b rgt] HL; cbn in *; try discriminate; [reflexivity|]. injection HL as HL. now rewrite (IH _ HL). }
  assert (HR : forall a, In a lft -> a < n).
  { intros a Ha. apply (In_nth _ _ 0) in Ha. destruct Ha as [i [Hi <-]]. destruct W as [W1 _]. apply (W1 _ (nth i rgt 0)). rewrite <- combine_nth by exact HL. apply nth_In. rewrite combine_length. lia. }
  unfold tie_rows. rewrite (mapM_Ok _ _ (fun a => nth a (dofs n 2) [])) by (intros a Ha; apply get_nth; rewrite (proj1 S0); now apply HR). cbn [bind]. rewrite HL, Nat.eqb_refl.
  assert (Ef : map fst (combine rgt (map (fun a => nth a (dofs n 2) []) lft)) = rgt) by (apply map_fst_combine; now rewrite map_length).
  destruct (set_rows (combine rgt (map (fun a => nth a (dofs n 2) []) lft)) (dofs n 2)) as [l' [E' [L' [A' B']]]].
  { intros k v Hk. apply in_combine_map_r in Hk. destruct Hk as [z [Hz _]]. apply in_combine_swap in Hz. rewrite (proj1 S0). apply (proj1 W z k Hz). }
  { rewrite Ef, <- Es. apply W. }
  rewrite E'. cbn [bind]. f_equal. rewrite Ef in A'.
  assert (S' : shape2 l' n 2).
  { split; [rewrite L'; apply S0|]. intros r Hr. apply In_nth_error in Hr. destruct Hr as [k Hk]. destruct (in_dec Nat.eq_dec k rgt) as [I|I].
    - rewrite <- Es in I. apply in_map_iff in I. destruct I as [[z k'] [Ek Hz]]. cbn in Ek. subst k'.
      rewrite (B' k (nth z (dofs n 2) [])) in Hk by (apply in_combine_map_r; exists z; split; [now apply in_combine_swap|reflexivity]). injection Hk as <-. apply (proj2 S0). apply nth_In. rewrite (proj1 S0). apply (proj1 W _ _ Hz).
    - rewrite A' in Hk by exact I. apply (proj2 S0). now apply nth_error_In in Hk. }
  apply (at2_ext l' l n 2 S' S). intros k j Hk Hj. assert (J : In j (seq 0 2)) by (apply in_seq; lia). destruct (in_dec Nat.eq_dec k rgt) as [I|I].
  - rewrite <- Es in I. apply in_map_iff in I. destruct I as [[z k'] [Ek Hz]]. cbn in Ek. subst k'. rewrite (C z k j J Hz). unfold at2.
    rewrite (B' k (nth z (dofs n 2) [])) by (apply in_combine_map_r; exists z; split; [now apply in_combine_swap|reflexivity]).
    rewrite (nth_error_nth' (dofs n 2) []); [reflexivity|]. rewrite (proj1 S0). apply (proj1 W _ _ Hz).
  - rewrite (B k j J) by (now rewrite Es). unfold at2. now rewrite A'.
Qed.

Lemma max_of_range l n : 0 < n -> (forall v, In v l <-> v < n) -> n = S (fold_right Nat.max 0 l).
Proof.
  intros N HD.
  assert (U : forall l b, (forall v, In v l -> v <= b) -> fold_right Nat.max 0 l <= b). { induction l0 as [|a l0 IH]; intros b Hb; cbn [fold_right]; [lia|]. apply Nat.max_lub; [apply Hb; now left|apply IH; intros; apply Hb; now right]. }
  assert (G : forall l v, In v l -> v <= fold_right Nat.max 0 l). { induction l0 as [|a l0 IH]; intros v []; cbn [fold_right]; [subst; lia|]. specialize (IH v H). lia. }
  assert (fold_right Nat.max 0 l <= n - 1) by (apply U; intros v Hv; apply HD in Hv; lia). assert (n - 1 <= fold_right Nat.max 0 l) by (apply G, HD; lia). lia.
Qed.

Lemma at2_idx D n d m i : shape2 D n d -> m < n -> i < d -> at2 D m i = Some (idx2 D m i).
Proof. intros S Hm Hi. unfold at2, idx2, nth2. rewrite (nth_error_nth' D []) by (rewrite (proj1 S); exact Hm). apply nth_error_nth'. now rewrite (shape2_row D n d m S Hm). Qed.

(** what the set-up gives *)
Record strip_system (X : list (list R)) (C : list (list nat)) (Lx Ly : R) (ndof : nat) (st : Strip) : Prop := {
  ss_mesh : mesh_dofs C (st_dofs st) (length C) 4 (length X) 2 ndof;
  ss_holes : no_holes (st_dofs st) ndof;
  ss_prescribed : prescribed ndof (st_iip st);
  ss_iip : forall m i, m < length X -> i < 2 -> In (idx2 (st_dofs st) m i) (st_iip st) <-> at_bottom X m \/ at_top X Ly m;
  ss_same : forall m i n j, m < length X -> i < 2 -> n < length X -> j < 2 -> idx2 (st_dofs st) m i = idx2 (st_dofs st) n j <-> same_node X Lx Ly m n /\ i = j;
  ss_K : new_MatrixPartitioned (Model_Vector.mkVector C 4 (st_dofs st) 2) (st_iip st) = Ok (st_K st);
  ss_p : new_VectorPartitioned (Model_Vector.mkVector C 4 (st_dofs st) 2) (st_iip st) = Ok (st_vector st);
  ss_Kp : MP_p (st_K st) = st_vector st }.

From Verif Require Import Proof_MatrixPartitioned.
Lemma strip_setup_ok X C olft orgt bot top Lx Ly : strip_mesh X C olft orgt bot top Lx Ly ->
  exists st, strip_setup (length X) C 4 olft orgt bot top = Ok st /\ strip_system X C Lx Ly ((length X - length olft) * 2) st.
Proof.
  intros H. pose proof (strip_facts_of _ _ _ _ _ _ _ _ H) as F. destruct (strip_quad _ _ _ _ _ _ _ _ H) as (ties & rgt & lft & obot & otop & bl & br & tl & tr & Q & B).
  pose proof (quad_mesh_facts _ _ _ _ _ _ _ _ _ Q) as M.
  pose proof (sf_wf _ _ _ _ _ _ _ F) as W. pose proof (sf_len _ _ _ _ _ _ _ F) as HL. set (nn := length X) in *.
  destruct (dofsPeriodic_spec nn 2 (combine olft orgt) W) as [D [ED [SD [HD HN]]]].
  assert (Lc : length (combine olft orgt) = length olft) by (rewrite combine_length; lia). rewrite Lc in HN.
  assert (Av : forall m i, m < nn -> i < 2 -> at2 D m i = Some (idx2 D m i)) by (intros; now apply (at2_idx D nn 2)).
  assert (NA : forall a x, across X Lx Ly a x -> a < nn /\ x < nn) by (intros a x [y [_ [A1 A2]]]; split; apply nth_error_Some; unfold node_at in *; congruence).
  assert (Same : forall m i n j, m < nn -> i < 2 -> n < nn -> j < 2 -> idx2 D m i = idx2 D n j <-> same_node X Lx Ly m n /\ i = j).
  { intros m i n j Hm Hi Hn Hj. destruct (represents_exists (combine olft orgt) m) as [r Hr]. destruct (represents_exists (combine olft orgt) n) as [s Hs].
    destruct (HD m i r _ n j s _ Hr (Av m i Hm Hi) Hs (Av n j Hn Hj)) as [E _]. rewrite E. split.
    - intros [<- <-]. split; [|reflexivity]. unfold same_node. destruct Hr as [Hr|[-> Hr]], Hs as [Hs|[-> Hs]].
      + apply (sf_across _ _ _ _ _ _ _ F) in Hr, Hs. left. exact (sf_inj _ _ _ _ _ _ _ F _ _ _ Hr Hs).
      + apply (sf_across _ _ _ _ _ _ _ F) in Hr. auto.
      + apply (sf_across _ _ _ _ _ _ _ F) in Hs. auto.
      + auto.
    - intros [S <-]. split; [|reflexivity].
      assert (U : forall a r s, a < nn -> represents (combine olft orgt) a r -> represents (combine olft orgt) a s -> r = s).
      { intros a r' s' Ha H1 H2. apply (proj1 (HD a 0 r' _ a 0 s' _ H1 (Av a 0 Ha ltac:(lia)) H2 (Av a 0 Ha ltac:(lia)))). reflexivity. }
      assert (T : forall a c r s, across X Lx Ly a c -> represents (combine olft orgt) a r -> represents (combine olft orgt) c s -> r = s).
      { intros a c r' s' A H1 H2. destruct (NA a c A) as [La Lc']. apply (sf_across _ _ _ _ _ _ _ F) in A. rewrite (U a r' a La H1); [apply (U c a s' Lc'); [now left|exact H2]|].
        right. split; [reflexivity|]. apply W. apply in_map_iff. now exists (a, c). }
      destruct S as [->|[S|S]]; [now apply (U n)|now apply (T m n)|symmetry; now apply (T n m)]. }
  assert (Bn : forall n, In n bot -> n < nn) by (intros n Hn; apply (sf_bot _ _ _ _ _ _ _ F) in Hn; destruct Hn as [x Hx]; apply nth_error_Some; unfold node_at in Hx; congruence).
  assert (Tn : forall n, In n top -> n < nn) by (intros n Hn; apply (sf_top _ _ _ _ _ _ _ F) in Hn; destruct Hn as [x Hx]; apply nth_error_Some; unfold node_at in Hx; congruence).
  pose proof (sf_Ly _ _ _ _ _ _ _ F) as PLy.
  assert (Edge : forall m n, (In m bot \/ In m top) -> same_node X Lx Ly m n -> m = n).
  { intros m n Hm [S|S]; [exact S|exfalso]. assert (E : exists x y, node_at X m x y /\ (y = 0 \/ y = Ly)%R).
    { destruct Hm as [Hm|Hm]; [apply (sf_bot _ _ _ _ _ _ _ F) in Hm|apply (sf_top _ _ _ _ _ _ _ F) in Hm]; destruct Hm as [x Hx]; do 2 eexists; split; eauto. }
    destruct E as (x & y & E1 & E2). destruct S as [[y' [Hy [N1 N2]]]|[y' [Hy [N1 N2]]]]; [destruct (node_fun _ _ _ _ _ _ E1 N1)|destruct (node_fun _ _ _ _ _ _ E1 N2)]; lra. }
  set (iip := map (fun n => idx2 D n 0) bot ++ map (fun n => idx2 D n 1) bot ++ map (fun n => idx2 D n 0) top ++ map (fun n => idx2 D n 1) top).
  assert (Ii : forall d, In d iip <-> exists m i, i < 2 /\ (In m bot \/ In m top) /\ d = idx2 D m i).
  { intros d. unfold iip. rewrite !in_app_iff, !in_map_iff. split.
    - intros [[m [<- K]]|[[m [<- K]]|[[m [<- K]]|[m [<- K]]]]]; [exists m, 0|exists m, 1|exists m, 0|exists m, 1]; repeat split; auto; lia.
    - intros (m & i & Hi & K & ->). destruct i as [|[|]]; [| |lia]; destruct K as [K|K]; [left|right; right; left|right; left|right; right; right]; now exists m. }
  assert (NDc : forall l j, NoDup l -> (forall n, In n l -> n < nn) -> (forall n, In n l -> In n bot \/ In n top) -> j < 2 -> NoDup (map (fun n => idx2 D n j) l)).
  { intros l j N1 N2 N3 Hj. induction l as [|a l IH]; cbn; [constructor|]. inversion N1 as [|? ? K1 K2]; subst. constructor; [|apply IH; auto; intros; [apply N2|apply N3]; now right].
    intros K. apply in_map_iff in K. destruct K as [a' [E K]]. apply Same in E; [|apply N2; now right|exact Hj|apply N2; now left|exact Hj]. destruct E as [E _]. apply (Edge a' a (N3 a' (or_intror K))) in E. now subst. }
  assert (BT : forall n, In n bot -> In n top -> False).
  { intros n H1 H2. apply (sf_bot _ _ _ _ _ _ _ F) in H1. apply (sf_top _ _ _ _ _ _ _ F) in H2. destruct H1 as [x Hx]. destruct H2 as [x' Hx']. destruct (node_fun _ _ _ _ _ _ Hx Hx'). lra. }
  assert (NDi : NoDup iip).
  { unfold iip. pose proof (proj1 (sf_bot _ _ _ _ _ _ _ F)) as Nb. pose proof (proj1 (sf_top _ _ _ _ _ _ _ F)) as Nt.
    assert (Dj : forall l l' j j', (forall n, In n l -> In n bot \/ In n top) -> (forall n, In n l' -> In n bot \/ In n top) -> j < 2 -> j' < 2 -> (j <> j' \/ (forall n, In n l -> In n l' -> False)) ->
       forall d, In d (map (fun n => idx2 D n j) l) -> In d (map (fun n => idx2 D n j') l') -> False).
    { intros l l' j j' Hl Hl' Hj Hj' K d K1 K2. apply in_map_iff in K1, K2. destruct K1 as [a [<- K1]]. destruct K2 as [a' [E K2]].
      assert (La : forall n, In n bot \/ In n top -> n < nn) by (intros n [|]; auto). symmetry in E. apply Same in E; auto. destruct E as [E1 E2]. apply (Edge a a' (Hl a K1)) in E1. subst. destruct K as [K|K]; [now apply K|now apply (K a')]. }
    apply NoDup_app_intro; [apply NDc; auto|apply NoDup_app_intro; [apply NDc; auto|apply NoDup_app_intro; [apply NDc; auto|apply NDc; auto|]|]|].
    - intros d K1 K2. revert d K1 K2. apply Dj; auto.
    - intros d K1 K2. apply in_app_iff in K2. destruct K2 as [K2|K2]; revert d K1 K2; apply Dj; auto.
    - intros d K1 K2. rewrite !in_app_iff in K2. destruct K2 as [K2|[K2|K2]]; revert d K1 K2; apply Dj; auto. }
  set (ndof := (nn - length olft) * 2) in *.
  assert (N0 : 0 < ndof). { destruct (sf_nonempty _ _ _ _ _ _ _ F) as [n Hn]. pose proof (at2_In_concat _ _ _ _ (Av n 0 (Bn n Hn) ltac:(lia))) as K. apply HN in K. lia. }
  assert (Md : mesh_dofs C D (length C) 4 nn 2 ndof).
  { constructor; [apply M|exact SD| |now apply max_of_range].
    intros e k He Hk. apply (mf_range _ _ _ _ _ _ _ _ _ M (nth e C [])); [now apply nth_In|]. unfold idx2, nth2. apply nth_In. rewrite (proj2 (mf_C _ _ _ _ _ _ _ _ _ M)); [exact Hk|]. now apply nth_In. }
  assert (Hh : no_holes D ndof) by (intros d Hd; now apply HN).
  assert (Pi : prescribed ndof iip).
  { split; [exact NDi|]. intros d Hd. apply Ii in Hd. destruct Hd as (m & i & Hi & K & ->). apply HN. apply (at2_In_concat D m i). apply Av; [destruct K; auto|exact Hi]. }
  destruct (mp_new (Model_Vector.mkVector C 4 D 2) (length C) 4 nn 2 ndof eq_refl eq_refl Md iip Pi Hh) as [K0 [E0 [[[Ep _] _] _]]].
  exists (mkStrip D iip (MP_p K0) K0). split.
  - pose proof (tie_rows_periodic nn olft orgt W HL) as ER. rewrite ED in ER. unfold strip_setup. destruct (tie_rows orgt olft (dofs nn 2)) as [d| | |]; cbn [bind] in ER |- *; try discriminate. rewrite ER. cbn [bind].
    assert (Col : forall l j, (forall n, In n l -> n < nn) -> j < 2 -> column D l j = Ok (map (fun n => idx2 D n j) l)).
    { intros l j Hl Hj. apply mapM_Ok. intros a Ha. apply (get2_nth 0 D nn 2); auto. }
    rewrite !Col by auto. cbn [bind]. fold iip. rewrite Ep. cbn [bind]. rewrite E0. reflexivity.
  - constructor; cbn [st_dofs st_iip st_vector st_K]; try assumption; try reflexivity.
    intros m i Hm Hi. rewrite Ii. split.
    + intros (n & j & Hj & K & E). apply Same in E; try assumption; [|destruct K; auto]. destruct E as [E _]. assert (n = m).
      { apply (Edge n m K). destruct E as [->|[E|E]]; [now left|right; now right|right; now left]. }
      subst n. destruct K as [K|K]; [left; now apply (sf_bot _ _ _ _ _ _ _ F)|right; now apply (sf_top _ _ _ _ _ _ _ F)].
    + intros K. exists m, i. split; [exact Hi|]. split; [|reflexivity]. destruct K as [K|K]; [left; now apply (sf_bot _ _ _ _ _ _ _ F)|right; now apply (sf_top _ _ _ _ _ _ _ F)].
Qed.
