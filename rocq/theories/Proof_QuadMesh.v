(** What Quad4::Regular and Quad4::FineLayer have in common. *)
From Coq Require Import Reals Lra Lia List Arith Permutation.
From Verif Require Import Base Spec Spec2d Sums Spec_Vector Spec_Tiling Spec_Conform Model_Numbering Model_Regular2d Proof_Vector Proof_Regular2d Proof_RegularTiling Model_FineLayer
  Proof_FineLayer Proof_FineLayerMesh Proof_FineLayerBoundary Proof_FineLayerTiling Proof_FineLayerThm Proof_Conform Proof_ConformTiles Proof_ConformMesh Spec_QuadMesh.
Import ListNotations.

Lemma node_val X p x y : node_at X p x y -> val2 X p 0 = x /\ val2 X p 1 = y.
Proof. intros H. unfold val2, nth2. now rewrite (nth_error_nth _ _ [] H). Qed.

(** opposite sides, and the ties between them *)
Record opposite (X : list (list R)) (ties : list (nat * nat)) (bot rgt top lft : list nat) (Lx Ly : R) (kx ky : nat) (b t l r : nat -> nat) : Prop := {
  op_b : bot = map b (seq 0 (kx + 1)); op_t : top = map t (seq 0 (kx + 1)); op_l : lft = map l (seq 0 (ky + 1)); op_r : rgt = map r (seq 0 (ky + 1));
  op_kx : 1 <= kx; op_ky : 1 <= ky;
  op_bx : forall i, i <= kx -> exists x, node_at X (b i) x 0 /\ node_at X (t i) x Ly;
  op_ly : forall i, i <= ky -> exists y, node_at X (l i) 0 y /\ node_at X (r i) Lx y;
  op_c1 : b 0 = l 0; op_c2 : b kx = r 0; op_c3 : t 0 = l ky; op_c4 : t kx = r ky;
  op_t0 : In (b 0, b kx) ties /\ In (b 0, t kx) ties /\ In (b 0, t 0) ties;
  op_tx : forall i, 1 <= i < kx -> In (b i, t i) ties;
  op_ty : forall i, 1 <= i < ky -> In (l i, r i) ties }.

Record mesh_facts (X : list (list R)) (C : list (list nat)) (ties : list (nat * nat)) (bot rgt top lft : list nat) (Lx Ly : R) : Prop := {
  mf_Lx : (0 < Lx)%R; mf_Ly : (0 < Ly)%R;
  mf_X : Spec.shape2 X (length X) 2; mf_C : Spec.shape2 C (length C) 4;
  mf_range : forall e p, In e C -> In p e -> p < length X;
  mf_nonempty : 1 <= length C;
  mf_tiles : tiles X C Lx Ly;
  mf_domain : in_domain X Lx Ly;
  mf_ties : periodic_ties X Lx Ly ties;
  mf_bounds : exists obot otop olft orgt bl br tl tr, boundary_sets X Lx Ly bot top lft rgt obot otop olft orgt bl br tl tr;
  mf_conforming : conforming_mesh C bot rgt top lft;
  mf_opposite : exists kx ky b t l r, opposite X ties bot rgt top lft Lx Ly kx ky b t l r }.

Lemma in_combine_map {A} (f g : nat -> A) k a i : i < k -> In (f (a + i), g (a + i)) (combine (map f (seq a k)) (map g (seq a k))).
Proof.
  revert a i. induction k as [|k IH]; intros a i H; [lia|]. cbn. destruct i as [|i]; [left; now rewrite Nat.add_0_r|]. right. replace (a + S i) with (S a + i) by lia. apply IH. lia.
Qed.

Section R.
Variable m : Regular.
Hypothesis Hh : (0 < hh m)%R.
Hypothesis Hx : 1 <= nelx m.
Hypothesis Hy : 1 <= nely m.
Notation nx := (nelx m). Notation ny := (nely m).

Lemma regular_facts : mesh_facts (coor m) (conn m) (nodesPeriodic m) (nodesBottomEdge m) (nodesRightEdge m) (nodesTopEdge m) (nodesLeftEdge m) (hh m * INR nx) (hh m * INR ny).
Proof.
  pose proof (lt_0_INR nx ltac:(lia)) as Px. pose proof (lt_0_INR ny ltac:(lia)) as Py.
  pose proof (coor_shape m) as SX. pose proof (conn_shape m) as SC. constructor.
  - now apply Rmult_lt_0_compat.
  - now apply Rmult_lt_0_compat.
  - now rewrite (proj1 SX).
  - now rewrite (proj1 SC).
  - intros e p He Hp. rewrite (proj1 SX). eapply conn_range; eassumption.
  - rewrite (proj1 SC). unfold nelem. nia.
  - now apply Regular_tiles.
  - now apply Regular_in_domain.
  - now apply Regular_periodic_ties.
  - do 8 eexists. exact (Regular_boundary_sets m Hx Hy Hh).
  - now apply Regular_conforming.
  - exists nx, ny, (fun i => i), (fun i => i + ny * (nx + 1)), (fun i => i * (nx + 1)), (fun i => i * (nx + 1) + nx).
    unfold nodesBottomEdge, nodesRightEdge, nodesTopEdge, nodesLeftEdge, arange. rewrite !Nat.sub_0_r.
    assert (P : forall ix iy, ix <= nx -> iy <= ny -> node_at (coor m) (iy * (nx + 1) + ix) (hh m * INR ix) (hh m * INR iy)) by (intros; unfold node_at; apply coor_at; lia).
    constructor; auto.
    + now rewrite map_id.
    + intros i Hi. exists (hh m * INR i)%R. split; [pose proof (P i 0 Hi ltac:(lia)) as Q; cbn [Nat.mul Nat.add INR] in Q; now rewrite Rmult_0_r in Q|]. rewrite Nat.add_comm. now apply P.
    + intros i Hi. exists (hh m * INR i)%R. split; [pose proof (P 0 i ltac:(lia) Hi) as Q; cbn [INR] in Q; now rewrite Rmult_0_r, Nat.add_0_r in Q|]. now apply P.
    + lia.
    + unfold nodesPeriodic, nodesPeriodic2d. cbn [Regular_boundary b_bot b_top b_lft b_rgt c_bl c_br c_tl c_tr].
      unfold nodesBottomLeftCorner, nodesBottomRightCorner, nodesTopLeftCorner, nodesTopRightCorner. repeat split; cbn; auto. right; left; f_equal; lia.
    + intros i Hi. unfold nodesPeriodic, nodesPeriodic2d. cbn [Regular_boundary b_bot b_top b_lft b_rgt c_bl c_br c_tl c_tr]. apply in_or_app. right. apply in_or_app. left.
      unfold nodesBottomOpenEdge, nodesTopOpenEdge, arange. rewrite <- (map_id (seq 1 (nx - 1))) at 1.
      pose proof (in_combine_map (fun i => i) (fun i => i + ny * (nx + 1)) (nx - 1) 1 (i - 1) ltac:(lia)) as Q. replace (1 + (i - 1)) with i in Q by lia. exact Q.
    + intros i Hi. unfold nodesPeriodic, nodesPeriodic2d. cbn [Regular_boundary b_bot b_top b_lft b_rgt c_bl c_br c_tl c_tr]. apply in_or_app. right. apply in_or_app. right.
      unfold nodesLeftOpenEdge, nodesRightOpenEdge, arange.
      pose proof (in_combine_map (fun i => i * (nx + 1)) (fun i => i * (nx + 1) + nx) (ny - 1) 1 (i - 1) ltac:(lia)) as Q. replace (1 + (i - 1)) with i in Q by lia. exact Q.
Qed.
End R.

Lemma finelayer_facts nelx nely h nfine m X C ties bot rgt top lft : (0 < h)%R -> 1 <= nelx -> 1 <= nely -> FineLayer_init nelx nely h nfine = Some (Ok m) ->
  f_coor m = Ok X -> f_conn m = Ok C -> f_nodesPeriodic m = Ok ties -> f_nodesBottomEdge m = Ok bot -> f_nodesRightEdge m = Ok rgt -> f_nodesTopEdge m = Ok top -> f_nodesLeftEdge m = Ok lft ->
  mesh_facts X C ties bot rgt top lft (h * INR nelx) (h * INR (f_nely m)).
Proof.
  intros Hh Hx Hy E EX EC ET EB ER EP EL.
  destruct (T_mesh nelx nely nfine h m Hx Hy E) as (X' & C' & EX' & EC' & SX & SC & HR & HU). rewrite EX in EX'. rewrite EC in EC'. injection EX' as <-. injection EC' as <-.
  destruct (T_geometry nelx nely nfine h m Hx Hy E Hh) as (X' & C' & EX' & EC' & HT & HD & _). rewrite EX in EX'. rewrite EC in EC'. injection EX' as <-. injection EC' as <-.
  destruct (T_periodic nelx nely nfine h m Hx Hy E Hh) as (X' & ties' & D & n0 & EX' & ET' & _ & _ & HP & _). rewrite EX in EX'. rewrite ET in ET'. injection EX' as <-. injection ET' as <-.
  destruct (T_boundary nelx nely nfine h m Hx Hy E Hh) as (X' & b' & t' & l' & r' & obot & otop & olft & orgt & bl & br & tl & tr & EX' & EB' & EP' & EL' & ER' & _ & _ & _ & _ & _ & _ & _ & _ & HB).
  rewrite EX in EX'. rewrite EB in EB'. rewrite EP in EP'. rewrite EL in EL'. rewrite ER in ER'. injection EX' as <-. injection EB' as <-. injection EP' as <-. injection EL' as <-. injection ER' as <-.
  destruct (the_mesh nelx nely nfine h m Hx Hy E) as (n & w & y & r & Em & G). pose proof (g_layered _ _ _ _ _ _ _ G) as HL. rewrite Em in *.
  rewrite (coor_spec _ _ _ _ _ h HL) in EX. rewrite (conn_spec _ _ _ _ _ h HL) in EC. rewrite (FL_periodic _ _ _ _ _ h HL) in ET.
  rewrite (bottomEdge _ _ _ _ _ h HL) in EB. rewrite (rightEdge _ _ _ _ _ h HL) in ER. rewrite (topEdge _ _ _ _ _ h HL) in EP. rewrite (leftEdge _ _ _ _ _ h HL) in EL.
  injection EX as EX. injection EC as EC. injection ET as ET. injection EB as EB. injection ER as ER. injection EP as EP. injection EL as EL. rewrite (nely_spec nelx n w y r h) in *.
  pose proof (Y_L_pos _ _ _ _ _ HL) as YL. assert (PLx : (0 < h * INR nelx)%R) by (apply Rmult_lt_0_compat; [assumption|apply lt_0_INR; lia]).
  assert (PLy : (0 < h * INR (Y n y (L n)))%R) by (apply Rmult_lt_0_compat; [assumption|apply lt_0_INR; lia]).
  destruct (boundary_outline _ _ _ _ _ _ _ _ _ _ _ _ _ _ _ PLx PLy HB) as [O1 O2].
  pose proof (n_L _ _ _ _ _ HL) as HnL. destruct (WN_sym _ _ _ _ _ HL) as [W0 N0]. pose proof (NN_pos _ _ _ _ _ HL 0 ltac:(lia)) as NN0.
  constructor; auto.
  - now rewrite (proj1 SX).
  - now rewrite (proj1 SC).
  - rewrite (proj1 SX). exact HR.
  - destruct C as [|e C]; [|cbn; lia]. exfalso. destruct (t_cover _ _ _ _ HT 0%R 0%R) as (e & He & _); [lra|lra|destruct He].
  - now exists obot, otop, olft, orgt, bl, br, tl, tr.
  - apply sum_conforming; auto; [eapply tiles_sides; exact HT|]. intros f Hf. rewrite <- EC, <- EB, <- ER, <- EP, <- EL. now apply (FL_sum _ _ _ _ _ HL).
  - exists (NN nelx n w 0 - 1), (L n), (Nat.add (SN nelx n w r 0)), (Nat.add (SN nelx n w r (L n))), (SN nelx n w r), (fun i => SN nelx n w r i + (NN nelx n w i - 1)).
    assert (P : forall iy j, iy <= L n -> j < NN nelx n w iy -> node_at X (SN nelx n w r iy + j) (h * INR (WN n w iy * j)) (h * INR (Y n y iy))) by (intros; rewrite <- EX; now apply row_at).
    constructor; auto; try lia; try (now rewrite N0).
    + rewrite <- EB. unfold erow. f_equal. f_equal. lia.
    + rewrite <- EP. unfold erow. f_equal. f_equal. lia.
    + intros i Hi. exists (h * INR (WN n w 0 * i))%R. split.
      * pose proof (P 0 i ltac:(lia) ltac:(lia)) as Q. replace (h * INR (Y n y 0))%R with 0%R in Q; [exact Q|]. unfold Y. cbn. ring.
      * rewrite W0. apply P; lia.
    + intros i Hi. exists (h * INR (Y n y i))%R. pose proof (NN_pos _ _ _ _ _ HL i ltac:(lia)). split.
      * pose proof (P i 0 Hi ltac:(lia)) as Q. now rewrite Nat.mul_0_r, Nat.add_0_r, Rmult_0_r in Q.
      * pose proof (P i (NN nelx n w i - 1) Hi ltac:(lia)) as Q. now rewrite (WN_last _ _ _ _ _ HL i Hi) in Q.
    + rewrite <- ET. unfold nodesPeriodic2d. cbn [bnd c_bl c_br c_tl c_tr]. rewrite !Nat.add_0_r. rewrite N0. repeat split; cbn; auto.
    + intros i Hi. rewrite <- ET. unfold nodesPeriodic2d. apply in_or_app. right. apply in_or_app. left. cbn [bnd b_bot b_top].
      pose proof (in_combine_map (Nat.add (SN nelx n w r 0)) (Nat.add (SN nelx n w r (L n))) (NN nelx n w 0 - 1 - 1) 1 (i - 1) ltac:(lia)) as Q. replace (1 + (i - 1)) with i in Q by lia. rewrite <- N0. exact Q.
    + intros i Hi. rewrite <- ET. unfold nodesPeriodic2d. apply in_or_app. right. apply in_or_app. right. cbn [bnd b_lft b_rgt].
      pose proof (in_combine_map (SN nelx n w r) (fun i => SN nelx n w r i + (NN nelx n w i - 1)) (L n - 1) 1 (i - 1) ltac:(lia)) as Q. replace (1 + (i - 1)) with i in Q by lia. exact Q.
Qed.

Lemma quad_mesh_facts X C ties bot rgt top lft Lx Ly : quad_mesh X C ties bot rgt top lft Lx Ly -> mesh_facts X C ties bot rgt top lft Lx Ly.
Proof. intros []; [now apply regular_facts|eapply finelayer_facts; eassumption]. Qed.
