(** Hex8::FineLayer: periodicity. *)
From Coq Require Import Reals ZArith Lra.
From Verif Require Import Base Spec Spec3d Model_Numbering Model_Regular2d Model_FineLayer Model_Hex8Regular Model_Hex8FineLayer
  Proof_Vector Proof_Regular2d Proof_Hex8Regular Proof_FineLayer Proof_FineLayerMesh Proof_FineLayerThm Proof_FineLayerBoundary Proof_Periodic3
  Proof_Hex8FineLayer Proof_Hex8FineLayerMesh Proof_Hex8FineLayerElem Proof_Hex8FineLayerSides Proof_Hex8FineLayerFaces Proof_Hex8FineLayerBoundary Proof_Hex8FineLayerLists.

Lemma paired_map {A} X (l : list A) f g d : (forall a, In a l -> exists x y z x' y' z', node_at3 X (f a) x y z /\ node_at3 X (g a) x' y' z' /\ d x y z x' y' z' : Prop) -> paired X (map f l) (map g l) d.
Proof.
  intros H. split; [now rewrite !map_length|]. intros p q x y z x' y' z' I B B'. rewrite combine_map_map in I. apply in_map_iff in I. destruct I as (a & E & Ha). injection E as <- <-.
  destruct (H a Ha) as (u & v & w & u' & v' & w' & A1 & A2 & A3).
  destruct (node_at3_fun _ _ _ _ _ _ _ _ B A1) as (-> & -> & ->), (node_at3_fun _ _ _ _ _ _ _ _ B' A2) as (-> & -> & ->). exact A3.
Qed.

Section Per.
Variables (nelx nelz n : nat) (wx wz y : nat -> nat) (r : nat -> Z) (h : R).
Hypothesis HL : layered3 nelx nelz n wx wz y r.
Hypothesis Hh : (0 < h)%R.
Notation HX := (l3_x _ _ _ _ _ _ _ HL).
Notation HZ := (l3_z _ _ _ _ _ _ _ HL).
Notation Hy := (Hy n y).
Notation Y := (Y n y).
Notation NNx := (NN nelx n wx).
Notation NNz := (NN nelz n wz).
Notation L := (L n).
Notation m := (HFL_of nelx nelz n wx wz y r h).
Notation X := (coorl3 nelx nelz n wx wz y r h).
Notation Ff := (Ff nelx nelz n wx wz r).
Notation Fb := (Fb nelx nelz n wx wz r).
Notation Fl := (Fl nelx nelz n wx wz r).
Notation Fr := (Fr nelx nelz n wx wz r).
Notation mcx := (mcx nelx n wx r).
Notation mcz := (mcz nelz n wz r).
Notation Lx := (h * INR nelx)%R.
Notation Ly := (h * INR (Y L))%R.
Notation Lz := (h * INR nelz)%R.
Notation PY := (pos_y _ _ _ _ _ _ _ HL).
Notation EX := (even_x _ _ _ _ _ _ _ HL).
Notation EZ := (even_z _ _ _ _ _ _ _ HL).
Notation wfx := (wfi nelx n wx (rx r)).
Notation wfz := (wfi nelz n wz (rz r)).
Notation alx := (along n wx).
Notation alz := (along n wz).
Notation hgt := (height n y).
Notation fl := (fl nelx nelz n wx wz r).
Notation fr := (fr nelx nelz n wx wz r).
Notation bl := (bl nelx nelz n wx wz r).
Notation br := (br nelx nelz n wx wz r).
Notation plane := (planel nelx nelz n wx wz r).
Notation win := (win n y h).

Definition bnd : boundary3d := {|
  f_fro := map Ff (oidx n NNx mcx); f_bck := map Fb (oidx n NNx mcx); f_lft := map Fl (oidx n NNz mcz); f_rgt := map Fr (oidx n NNz mcz);
  f_bot := plane true 0; f_top := plane true L;
  e_froBot := map Ff (irow NNx true 0); e_froTop := map Ff (irow NNx true L); e_froLft := map fl (range true (L + 1)); e_froRgt := map fr (range true (L + 1));
  e_bckBot := map Fb (irow NNx true 0); e_bckTop := map Fb (irow NNx true L); e_bckLft := map bl (range true (L + 1)); e_bckRgt := map br (range true (L + 1));
  e_botLft := map Fl (irow NNz true 0); e_botRgt := map Fr (irow NNz true 0); e_topLft := map Fl (irow NNz true L); e_topRgt := map Fr (irow NNz true L);
  n_fbl := fl 0; n_fbr := fr 0; n_ftl := fl L; n_ftr := fr L; n_bbl := bl 0; n_bbr := br 0; n_btl := bl L; n_btr := br L |}.

Lemma boundary_eq : g_boundary m = Ok bnd.
Proof.
  unfold g_boundary. rewrite (frontface_eq _ _ _ _ _ _ _ _ HL), (backface_eq _ _ _ _ _ _ _ _ HL), (leftface_eq _ _ _ _ _ _ _ _ HL), (rightface_eq _ _ _ _ _ _ _ _ HL), (bottomface_eq _ _ _ _ _ _ _ _ HL), (topface_eq _ _ _ _ _ _ _ _ HL). cbn [bind].
  unfold g_nodesFrontBottomOpenEdge, g_nodesFrontTopOpenEdge, g_nodesBackBottomOpenEdge, g_nodesBackTopOpenEdge, g_nodesBottomLeftOpenEdge, g_nodesBottomRightOpenEdge, g_nodesTopLeftOpenEdge, g_nodesTopRightOpenEdge.
  rewrite !(xbot _ _ _ _ _ _ _ _ HL), !(xtop _ _ _ _ _ _ _ _ HL), !(zbot _ _ _ _ _ _ _ _ HL), !(ztop _ _ _ _ _ _ _ _ HL). cbn [bind].
  pose proof (yedge_fl _ _ _ _ _ _ _ h HL true) as E1. pose proof (yedge_fr _ _ _ _ _ _ _ h HL true) as E2. pose proof (yedge_bl _ _ _ _ _ _ _ h HL true) as E3. pose proof (yedge_br _ _ _ _ _ _ _ h HL true) as E4.
  unfold yedge in E1, E2, E3, E4. unfold g_nodesFrontLeftOpenEdge, g_nodesFrontRightOpenEdge, g_nodesBackLeftOpenEdge, g_nodesBackRightOpenEdge. rewrite E1, E2, E3, E4. cbn [bind].
  unfold g_nodesFrontBottomLeftCorner, g_nodesFrontBottomRightCorner, g_nodesFrontTopLeftCorner, g_nodesFrontTopRightCorner, g_nodesBackBottomLeftCorner, g_nodesBackBottomRightCorner, g_nodesBackTopLeftCorner, g_nodesBackTopRightCorner.
  rewrite (corner_bot _ _ _ _ _ _ _ _ HL _ _ (at_fl_low _ _ _ _ _ _ _ HL)), (corner_bot _ _ _ _ _ _ _ _ HL _ _ (at_fr_low _ _ _ _ _ _ _ h HL)), (corner_bot _ _ _ _ _ _ _ _ HL _ _ (at_bl_low _ _ _ _ _ _ _ h HL)), (corner_bot _ _ _ _ _ _ _ _ HL _ _ (at_br_low _ _ _ _ _ _ _ h HL)).
  rewrite (corner_top _ _ _ _ _ _ _ _ HL _ _ (at_fl_up _ _ _ _ _ _ _ HL)), (corner_top _ _ _ _ _ _ _ _ HL _ _ (at_fr_up _ _ _ _ _ _ _ h HL)), (corner_top _ _ _ _ _ _ _ _ HL _ _ (at_bl_up _ _ _ _ _ _ _ h HL)), (corner_top _ _ _ _ _ _ _ _ HL _ _ (at_br_up _ _ _ _ _ _ _ h HL)).
  reflexivity.
Qed.
Lemma ties_eq : g_nodesPeriodic m = Ok (nodesPeriodic3d bnd).
Proof. unfold g_nodesPeriodic. now rewrite boundary_eq. Qed.

Lemma at_Ff x : wfx x -> node_at3 X (Ff x) (h * INR (alx x)) (h * INR (hgt x)) (h * INR 0).
Proof. intros H. exact (node_case3_pos _ _ _ _ _ _ _ h _ _ _ _ (Ff_case _ _ _ _ _ _ _ HL x H)). Qed.
Lemma at_Fb x : wfx x -> node_at3 X (Fb x) (h * INR (alx x)) (h * INR (hgt x)) (h * INR nelz).
Proof. intros H. exact (node_case3_pos _ _ _ _ _ _ _ h _ _ _ _ (Fb_case _ _ _ _ _ _ _ HL x H)). Qed.
Lemma at_Fl x : wfz x -> node_at3 X (Fl x) (h * INR 0) (h * INR (hgt x)) (h * INR (alz x)).
Proof. intros H. exact (node_case3_pos _ _ _ _ _ _ _ h _ _ _ _ (Fl_case _ _ _ _ _ _ _ HL x H)). Qed.
Lemma at_Fr x : wfz x -> node_at3 X (Fr x) (h * INR nelx) (h * INR (hgt x)) (h * INR (alz x)).
Proof. intros H. exact (node_case3_pos _ _ _ _ _ _ _ h _ _ _ _ (Fr_case _ _ _ _ _ _ _ HL x H)). Qed.

(** nodes of the same index, at the bottom and at the top *)
Lemma wfx_ends i : In i (range true (NNx 0)) -> wfx (Row 0 i) /\ wfx (Row L i) /\ alx (Row 0 i) = alx (Row L i).
Proof.
  intros H. apply In_range in H. destruct (Wsym _ _ _ _ _ _ _ HL) as (S1 & S2 & S3 & S4). cbn [wfi along]. rewrite S1, S3. repeat split; lia.
Qed.
Lemma wfz_ends i : In i (range true (NNz 0)) -> wfz (Row 0 i) /\ wfz (Row L i) /\ alz (Row 0 i) = alz (Row L i).
Proof.
  intros H. apply In_range in H. destruct (Wsym _ _ _ _ _ _ _ HL) as (S1 & S2 & S3 & S4). cbn [wfi along]. rewrite S2, S4. repeat split; lia.
Qed.
Lemma irow_ends (cnt : nat -> nat) : cnt L = cnt 0 -> irow cnt true L = map (Row L) (range true (cnt 0)).
Proof. intros E. unfold irow. now rewrite E. Qed.
Lemma wfx_col k : In k (range true (L + 1)) -> wfx (Row k 0) /\ wfx (Row k (NNx k - 1)).
Proof. intros H. apply In_range in H. assert (Hk : k <= L) by lia. pose proof (cnt_pos _ _ _ _ _ HX k Hk). cbn [wfi]. lia. Qed.

Lemma pairs : 
  paired X (e_froBot bnd) (e_bckBot bnd) (fun x y z x' y' z' => x = x') /\ paired X (e_froBot bnd) (e_bckTop bnd) (fun x y z x' y' z' => x = x') /\ paired X (e_froBot bnd) (e_froTop bnd) (fun x y z x' y' z' => x = x') /\
  paired X (e_botLft bnd) (e_botRgt bnd) (fun x y z x' y' z' => z = z') /\ paired X (e_botLft bnd) (e_topRgt bnd) (fun x y z x' y' z' => z = z') /\ paired X (e_botLft bnd) (e_topLft bnd) (fun x y z x' y' z' => z = z') /\
  paired X (e_froLft bnd) (e_froRgt bnd) (fun x y z x' y' z' => y = y') /\ paired X (e_froLft bnd) (e_bckRgt bnd) (fun x y z x' y' z' => y = y') /\ paired X (e_froLft bnd) (e_bckLft bnd) (fun x y z x' y' z' => y = y') /\
  paired X (f_fro bnd) (f_bck bnd) (fun x y z x' y' z' => x = x' /\ y = y') /\ paired X (f_lft bnd) (f_rgt bnd) (fun x y z x' y' z' => y = y' /\ z = z') /\ paired X (f_bot bnd) (f_top bnd) (fun x y z x' y' z' => x = x' /\ z = z').
Proof.
  destruct (Wsym _ _ _ _ _ _ _ HL) as (S1 & S2 & S3 & S4). cbn [bnd e_froBot e_froTop e_froLft e_froRgt e_bckBot e_bckTop e_bckLft e_bckRgt e_botLft e_botRgt e_topLft e_topRgt f_fro f_bck f_lft f_rgt f_bot f_top].
  rewrite (irow_ends NNx S3), (irow_ends NNz S4). unfold irow. rewrite !map_map.
  refine (conj _ (conj _ (conj _ (conj _ (conj _ (conj _ (conj _ (conj _ (conj _ (conj _ (conj _ _))))))))))); try apply paired_map.
  - intros i Hi. destruct (wfx_ends i Hi) as (W1 & W2 & E). do 6 eexists. split; [now apply at_Ff|]. split; [now apply at_Fb|]. reflexivity.
  - intros i Hi. destruct (wfx_ends i Hi) as (W1 & W2 & E). do 6 eexists. split; [now apply at_Ff|]. split; [now apply at_Fb|]. now rewrite E.
  - intros i Hi. destruct (wfx_ends i Hi) as (W1 & W2 & E). do 6 eexists. split; [now apply at_Ff|]. split; [now apply at_Ff|]. now rewrite E.
  - intros i Hi. destruct (wfz_ends i Hi) as (W1 & W2 & E). do 6 eexists. split; [now apply at_Fl|]. split; [now apply at_Fr|]. reflexivity.
  - intros i Hi. destruct (wfz_ends i Hi) as (W1 & W2 & E). do 6 eexists. split; [now apply at_Fl|]. split; [now apply at_Fr|]. now rewrite E.
  - intros i Hi. destruct (wfz_ends i Hi) as (W1 & W2 & E). do 6 eexists. split; [now apply at_Fl|]. split; [now apply at_Fl|]. now rewrite E.
  - intros k Hk. destruct (wfx_col k Hk) as (W1 & W2). do 6 eexists. split; [now apply at_Ff|]. split; [now apply at_Ff|]. reflexivity.
  - intros k Hk. destruct (wfx_col k Hk) as (W1 & W2). do 6 eexists. split; [now apply at_Ff|]. split; [now apply at_Fb|]. reflexivity.
  - intros k Hk. destruct (wfx_col k Hk) as (W1 & W2). do 6 eexists. split; [now apply at_Ff|]. split; [now apply at_Fb|]. reflexivity.
  - intros x Hx. pose proof (proj1 (proj2 (d_win nelx n wx _ y (rx r) HX PY EX)) x Hx) as W. do 6 eexists. split; [now apply at_Ff|]. split; [now apply at_Fb|]. split; reflexivity.
  - intros x Hx. pose proof (proj1 (proj2 (d_win nelz n wz _ y (rz r) HZ PY EZ)) x Hx) as W. do 6 eexists. split; [now apply at_Fl|]. split; [now apply at_Fr|]. split; reflexivity.
  - split; [unfold planel; rewrite S3, S4, !forin2_length; reflexivity|]. intros p q u v w u' v' w' H H0 H1. split.
    + unfold planel in *. rewrite S3, S4 in *. rewrite combine_forin2 in H. apply In_forin2 in H. destruct H as (i & j & Hi & Hj & E). injection E as -> ->. apply In_range in Hi, Hj.
    assert (A : node_at3 X (nP nelx nelz n wx wz r 0 i j) (h * INR (WN n wx 0 * i)) (h * INR (Y 0)) (h * INR (WN n wz 0 * j))) by (refine (node_case3_pos _ _ _ _ _ _ _ h _ _ _ _ (nP_case _ _ _ _ _ _ _ 0 i j _ _ _)); lia).
    destruct (node_at3_fun _ _ _ _ _ _ _ _ H0 A) as (-> & _ & _).
    assert (B : node_at3 X (nP nelx nelz n wx wz r L i j) (h * INR (WN n wx L * i)) (h * INR (Y L)) (h * INR (WN n wz L * j))) by (refine (node_case3_pos _ _ _ _ _ _ _ h _ _ _ _ (nP_case _ _ _ _ _ _ _ L i j _ _ _)); lia).
    destruct (node_at3_fun _ _ _ _ _ _ _ _ H1 B) as (-> & _ & _). now rewrite S1.
    + unfold planel in *. rewrite S3, S4 in *. rewrite combine_forin2 in H. apply In_forin2 in H. destruct H as (i & j & Hi & Hj & E). injection E as -> ->. apply In_range in Hi, Hj.
    assert (A : node_at3 X (nP nelx nelz n wx wz r 0 i j) (h * INR (WN n wx 0 * i)) (h * INR (Y 0)) (h * INR (WN n wz 0 * j))) by (refine (node_case3_pos _ _ _ _ _ _ _ h _ _ _ _ (nP_case _ _ _ _ _ _ _ 0 i j _ _ _)); lia).
    destruct (node_at3_fun _ _ _ _ _ _ _ _ H0 A) as (_ & _ & ->).
    assert (B : node_at3 X (nP nelx nelz n wx wz r L i j) (h * INR (WN n wx L * i)) (h * INR (Y L)) (h * INR (WN n wz L * j))) by (refine (node_case3_pos _ _ _ _ _ _ _ h _ _ _ _ (nP_case _ _ _ _ _ _ _ L i j _ _ _)); lia).
    destruct (node_at3_fun _ _ _ _ _ _ _ _ H1 B) as (_ & _ & ->). now rewrite S2.
Qed.

Lemma win_in u : win u -> inside Ly u.
Proof.
  intros [A B]. unfold inside. pose proof (PY 0 (L1 _ _ _ _ _ _ _ HL)) as P. apply le_INR in P. cbn [INR] in P. nra.
Qed.
Lemma win_dec u : win u \/ ~ win u.
Proof.
  unfold Proof_Hex8FineLayerLists.win. destruct (Rle_lt_dec (h * INR (Hy 0)) u), (Rle_lt_dec u (h * INR (Y L) - h * INR (Hy 0))); [left; lra|right; lra..].
Qed.
Lemma size_pos : (0 < Lx /\ 0 < Ly /\ 0 < Lz)%R.
Proof.
  pose proof (L1 _ _ _ _ _ _ _ HL) as H0. assert (A : 1 <= nelx /\ 1 <= Y L /\ 1 <= nelz).
  { pose proof (W_NX _ _ _ _ _ HX 0 H0). pose proof (NX_pos _ _ _ _ _ HX 0 H0). pose proof (W_pos _ _ _ _ _ HX 0 H0).
    pose proof (W_NX _ _ _ _ _ HZ 0 H0). pose proof (NX_pos _ _ _ _ _ HZ 0 H0). pose proof (W_pos _ _ _ _ _ HZ 0 H0).
    pose proof (PY 0 H0) as P. rewrite (YL_eq _ _ _ _ _ _ _ HL). repeat split; nia. }
  destruct A as (A & B & C). apply le_INR in A, B, C. cbn [INR] in A, B, C. nra.
Qed.

Lemma is_list_eq g P l : (exists l', fst (g, P) = Ok l' /\ lists_nodes3 X l' (snd (g, P))) -> g = Ok l -> lists_nodes3 X l P.
Proof. intros (l' & E & H) E'. cbn [fst snd] in *. rewrite E' in E. injection E as ->. exact H. Qed.
Lemma is_corner_eq g u v w p : (exists p', fst (g, (u, v, w)) = Ok p' /\ match snd (g, (u, v, w)) with (x, y, z) => node_at3 X p' x y z end) -> g = Ok p -> node_at3 X p u v w.
Proof. intros (l' & E & H) E'. cbn [fst snd] in *. rewrite E' in E. injection E as ->. exact H. Qed.

Lemma periodic_facts :
  wf_ties (length X) (nodesPeriodic3d bnd) /\
  (forall p q x y z x' y' z', In (p, q) (nodesPeriodic3d bnd) -> node_at3 X p x y z -> node_at3 X q x' y' z' -> congruent3 Lx Ly Lz x y z x' y' z') /\
  lists_nodes3 X (map snd (nodesPeriodic3d bnd)) (tied Lx Ly Lz win win) /\
  (Rf n (rx r) 0 = false -> Rf n (rz r) 0 = false -> periodic_ties3 X Lx Ly Lz (nodesPeriodic3d bnd)).
Proof.
  destruct size_pos as (Px & Py & Pz). pose proof (HFL_in_domain _ _ _ _ _ _ _ h HL Hh) as D. pose proof win_in as WI. pose proof win_dec as WD.
  destruct pairs as (C1 & C2 & C3 & C4 & C5 & C6 & C7 & C8 & C9 & C10 & C11 & C12).
  pose proof (win_faces3 _ _ _ _ _ _ _ h HL Hh) as F. repeat (apply Forall_cons_iff in F; destruct F as [?F F]).
  pose proof (open_edges3 _ _ _ _ _ _ _ h HL Hh) as E. repeat (apply Forall_cons_iff in E; destruct E as [?E E]).
  pose proof (corners3 _ _ _ _ _ _ _ h HL) as K. repeat (apply Forall_cons_iff in K; destruct K as [?K K]).
  eapply is_list_eq in F0; [|exact (frontface_eq _ _ _ _ _ _ _ _ HL)]. eapply is_list_eq in F1; [|exact (backface_eq _ _ _ _ _ _ _ _ HL)].
  eapply is_list_eq in F2; [|exact (leftface_eq _ _ _ _ _ _ _ _ HL)]. eapply is_list_eq in F3; [|exact (rightface_eq _ _ _ _ _ _ _ _ HL)].
  eapply is_list_eq in F4; [|exact (bottomface_eq _ _ _ _ _ _ _ _ HL)]. eapply is_list_eq in F5; [|exact (topface_eq _ _ _ _ _ _ _ _ HL)].
  eapply is_list_eq in E0; [|exact (xbot _ _ _ _ _ _ _ _ HL true false)]. eapply is_list_eq in E1; [|exact (xtop _ _ _ _ _ _ _ _ HL true false)].
  eapply is_list_eq in E2; [|exact (yedge_fl _ _ _ _ _ _ _ h HL true)]. eapply is_list_eq in E3; [|exact (yedge_fr _ _ _ _ _ _ _ h HL true)].
  eapply is_list_eq in E4; [|exact (xbot _ _ _ _ _ _ _ _ HL true true)]. eapply is_list_eq in E5; [|exact (xtop _ _ _ _ _ _ _ _ HL true true)].
  eapply is_list_eq in E6; [|exact (yedge_bl _ _ _ _ _ _ _ h HL true)]. eapply is_list_eq in E7; [|exact (yedge_br _ _ _ _ _ _ _ h HL true)].
  eapply is_list_eq in E8; [|exact (zbot _ _ _ _ _ _ _ _ HL true false)]. eapply is_list_eq in E9; [|exact (zbot _ _ _ _ _ _ _ _ HL true true)].
  eapply is_list_eq in E10; [|exact (ztop _ _ _ _ _ _ _ _ HL true false)]. eapply is_list_eq in E11; [|exact (ztop _ _ _ _ _ _ _ _ HL true true)].
  eapply is_corner_eq in K0; [|exact (corner_bot _ _ _ _ _ _ _ _ HL _ _ (at_fl_low _ _ _ _ _ _ _ HL))]. eapply is_corner_eq in K1; [|exact (corner_bot _ _ _ _ _ _ _ _ HL _ _ (at_fr_low _ _ _ _ _ _ _ h HL))].
  eapply is_corner_eq in K2; [|exact (corner_top _ _ _ _ _ _ _ _ HL _ _ (at_fl_up _ _ _ _ _ _ _ HL))]. eapply is_corner_eq in K3; [|exact (corner_top _ _ _ _ _ _ _ _ HL _ _ (at_fr_up _ _ _ _ _ _ _ h HL))].
  eapply is_corner_eq in K4; [|exact (corner_bot _ _ _ _ _ _ _ _ HL _ _ (at_bl_low _ _ _ _ _ _ _ h HL))]. eapply is_corner_eq in K5; [|exact (corner_bot _ _ _ _ _ _ _ _ HL _ _ (at_br_low _ _ _ _ _ _ _ h HL))].
  eapply is_corner_eq in K6; [|exact (corner_top _ _ _ _ _ _ _ _ HL _ _ (at_bl_up _ _ _ _ _ _ _ h HL))]. eapply is_corner_eq in K7; [|exact (corner_top _ _ _ _ _ _ _ _ HL _ _ (at_br_up _ _ _ _ _ _ _ h HL))].
  split; [|split; [|split]].
  - eapply (ties_wf X Lx Ly Lz bnd win win); eassumption.
  - intros p q x y' z x' y'' z' I A B. eapply (tie_congruent X Lx Ly Lz bnd win win); eassumption.
  - eapply (ties_lists X Lx Ly Lz bnd win win); eassumption.
  - intros Rx0 Rz0. eapply (ties_periodic X Lx Ly Lz bnd win win); try eassumption.
    intros p a b c N. destruct (node_at3_pos _ _ _ _ _ _ _ h HL _ _ _ _ N) as (a' & b' & c' & -> & -> & -> & Kc).
    rewrite !(e1 h Hh), !(ein h Hh), !(ewin nelx nelz n wx wz y r h HL Hh). split.
    + intros -> _ Hb. destruct (Fb_inv _ _ _ _ _ _ _ HL _ _ _ Kc) as (x & Hx & _ & _ & ->). exact (proj1 (d_win_full nelx n wx _ y (rx r) HX PY EX x Rx0 Hx) Hb).
    + intros -> _ Hb. destruct (Fr_inv _ _ _ _ _ _ _ HL _ _ _ Kc) as (x & Hx & _ & _ & ->). exact (proj1 (d_win_full nelz n wz _ y (rz r) HZ PY EZ x Rz0 Hx) Hb).
Qed.
End Per.
