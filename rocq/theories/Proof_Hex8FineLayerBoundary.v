(** Hex8::FineLayer: the functions that list the nodes on the boundary. *)
From Coq Require Import Reals ZArith Lra.
From Verif Require Import Base Spec Spec3d Model_Numbering Model_Regular2d Model_FineLayer Model_Hex8Regular Model_Hex8FineLayer
  Proof_Vector Proof_Regular2d Proof_Hex8Regular Proof_FineLayer Proof_FineLayerMesh Proof_FineLayerThm Proof_FineLayerBoundary
  Proof_Hex8FineLayer Proof_Hex8FineLayerMesh Proof_Hex8FineLayerElem Proof_Hex8FineLayerSides Proof_Hex8FineLayerFaces.

Section Bnd.
Variables (nelx nelz n : nat) (wx wz y : nat -> nat) (r : nat -> Z) (h : R).
Hypothesis HL : layered3 nelx nelz n wx wz y r.
Notation HX := (l3_x _ _ _ _ _ _ _ HL).
Notation HZ := (l3_z _ _ _ _ _ _ _ HL).
Notation WNx := (WN n wx).
Notation WNz := (WN n wz).
Notation Hy := (Hy n y).
Notation Y := (Y n y).
Notation NX := (NX nelx n wx).
Notation NZ := (Proof_FineLayer.NX nelz n wz).
Notation NNx := (NN nelx n wx).
Notation NNz := (NN nelz n wz).
Notation L := (L n).
Notation NN3 := (NN3 nelx nelz n wx wz).
Notation SN := (SN3 nelx nelz n wx wz r).
Notation m := (HFL_of nelx nelz n wx wz y r h).
Notation nP := (nP nelx nelz n wx wz r).
Notation Ff := (Ff nelx nelz n wx wz r).
Notation Fb := (Fb nelx nelz n wx wz r).
Notation Fl := (Fl nelx nelz n wx wz r).
Notation Fr := (Fr nelx nelz n wx wz r).
Notation mcx := (mcx nelx n wx r).
Notation mcz := (mcz nelz n wz r).

Lemma n1 : 1 <= n.
Proof. exact (n_pos _ _ _ _ _ _ _ HL). Qed.
Lemma n1L : n <= L.
Proof. pose proof (nL _ _ _ _ _ _ _ HL). lia. Qed.
Lemma L1 : 1 <= L.
Proof. pose proof n1. pose proof n1L. lia. Qed.

(** the side faces *)
Lemma front_eq : g_nodesFront m = Ok (map Ff (idxl NNx mcx false 0 L)).
Proof. unfold g_nodesFront. rewrite layers_m3. apply front_spec; [exact HL|lia|]. pose proof n1L. lia. Qed.
Lemma back_eq : g_nodesBack m = Ok (map Fb (idxl NNx mcx false 0 L)).
Proof. unfold g_nodesBack. rewrite layers_m3. apply back_spec; [exact HL|lia|]. pose proof n1L. lia. Qed.
Lemma left_eq : g_nodesLeft m = Ok (map Fl (idxl NNz mcz false 0 L)).
Proof. unfold g_nodesLeft. rewrite layers_m3. apply left_spec; [exact HL|lia|]. pose proof n1L. lia. Qed.
Lemma right_eq : g_nodesRight m = Ok (map Fr (idxl NNz mcz false 0 L)).
Proof. unfold g_nodesRight. rewrite layers_m3. apply right_spec; [exact HL|lia|]. pose proof n1L. lia. Qed.

(** the open side faces *)
Definition oidx (cnt mc : nat -> nat) : list idx := if n =? 1 then [] else idxl cnt mc true 1 (L - 1).
Lemma L_ge : n <> 1 -> 1 <= n - 1 /\ n <= L - 1 <= L.
Proof. intros H. pose proof n1. unfold Proof_FineLayer.L. lia. Qed.
Lemma frontface_eq : g_nodesFrontFace m = Ok (map Ff (oidx NNx mcx)).
Proof. unfold g_nodesFrontFace, oidx. rewrite layers_m3. destruct (Nat.eqb_spec n 1); [now apply side_empty|]. apply front_spec; [exact HL| |]; apply L_ge; assumption. Qed.
Lemma backface_eq : g_nodesBackFace m = Ok (map Fb (oidx NNx mcx)).
Proof. unfold g_nodesBackFace, oidx. rewrite layers_m3. destruct (Nat.eqb_spec n 1); [now apply side_empty|]. apply back_spec; [exact HL| |]; apply L_ge; assumption. Qed.
Lemma leftface_eq : g_nodesLeftFace m = Ok (map Fl (oidx NNz mcz)).
Proof. unfold g_nodesLeftFace, oidx. rewrite layers_m3. destruct (Nat.eqb_spec n 1); [now apply side_empty|]. apply left_spec; [exact HL| |]; apply L_ge; assumption. Qed.
Lemma rightface_eq : g_nodesRightFace m = Ok (map Fr (oidx NNz mcz)).
Proof. unfold g_nodesRightFace, oidx. rewrite layers_m3. destruct (Nat.eqb_spec n 1); [now apply side_empty|]. apply right_spec; [exact HL| |]; apply L_ge; assumption. Qed.

(** symmetry *)
Lemma Wsym : WNx L = WNx 0 /\ WNz L = WNz 0 /\ NNx L = NNx 0 /\ NNz L = NNz 0.
Proof.
  pose proof n1. pose proof n1L.
  assert (A : forall w, WN n w L = WN n w 0).
  { intros w. rewrite (WN_up n w L), (WN_low n w 0) by lia. unfold W. f_equal. unfold dist, Proof_FineLayer.L. destruct (Nat.ltb_spec (n * 2 - 1 - 1) n), (Nat.ltb_spec 0 n); lia. }
  unfold NN. now rewrite !A.
Qed.

(** bottom and top *)
Lemma plane_eq (op : bool) k layer : (k = 0 /\ layer = 0) \/ (k = L /\ layer = L - 1) -> 
  (if op then g_open_plane m k layer else g_plane m k layer) = Ok (planel nelx nelz n wx wz r op k).
Proof.
  intros Hk. pose proof n1. pose proof n1L. destruct Wsym as (_ & _ & S1 & S2).
  assert (HkL : k <= L /\ layer < L) by lia. destruct HkL as [HkL Hl].
  assert (E : NNx k = NX layer + 1 /\ NNz k = NZ layer + 1).
  { destruct Hk as [[-> ->]|[-> ->]]; [apply (plane_low _ _ _ _ _ _ _ HL); lia|]. pose proof (plane_up _ _ _ _ _ _ _ HL (L - 1) ltac:(lia)) as G. now rewrite Nat.sub_add in G by lia. }
  destruct E as [E1 E2].
  destruct op; [unfold g_open_plane|unfold g_plane].
  - rewrite (starts_m _ _ _ _ _ _ _ _ HL) by exact HkL. rewrite nelx_m, nelz_m by assumption. cbn [bind].
    rewrite fill_rows_Ok by (rewrite forin2_length; unfold arange; now rewrite !seq_length). f_equal. unfold planel, range, arange. rewrite E1, E2.
    replace (NX layer + 1 - 2) with (NX layer - 1) by lia. replace (NZ layer + 1 - 2) with (NZ layer - 1) by lia.
    unfold forin2. apply flat_map_ext. intros i. apply map_ext. intros j. unfold Proof_Hex8FineLayerSides.nP. rewrite E1. lia.
  - rewrite layers_m3, (nnd_m _ _ _ _ _ _ _ _ HL) by lia. cbn [bind]. rewrite (starts_m _ _ _ _ _ _ _ _ HL) by exact HkL. rewrite nelx_m, nelz_m by assumption. cbn [bind].
    rewrite fill_rows_Ok.
    + f_equal. unfold planel, range. rewrite E1, E2. unfold forin2. apply flat_map_ext. intros i. apply map_ext. intros j. unfold Proof_Hex8FineLayerSides.nP. rewrite E1. lia.
    + rewrite forin2_length, !seq_length. unfold Proof_Hex8FineLayer.NN3. destruct Hk as [[-> ->]|[-> ->]]; [rewrite S1, S2|]; rewrite E1, E2; lia.
Qed.
Lemma bottom_eq : g_nodesBottom m = Ok (planel nelx nelz n wx wz r false 0).
Proof. apply (plane_eq false). auto. Qed.
Lemma top_eq : g_nodesTop m = Ok (planel nelx nelz n wx wz r false L).
Proof. unfold g_nodesTop. rewrite layers_m3. apply (plane_eq false). auto. Qed.
Lemma bottomface_eq : g_nodesBottomFace m = Ok (planel nelx nelz n wx wz r true 0).
Proof. apply (plane_eq true). auto. Qed.
Lemma topface_eq : g_nodesTopFace m = Ok (planel nelx nelz n wx wz r true L).
Proof. unfold g_nodesTopFace. rewrite layers_m3. apply (plane_eq true). auto. Qed.

(** edges along x and z *)
Lemma ends k layer : (k = 0 /\ layer = 0) \/ (k = L /\ layer = L - 1) -> k <= L /\ layer < L /\ NNx k = NX layer + 1 /\ NNz k = NZ layer + 1.
Proof.
  intros Hk. pose proof n1. pose proof n1L. split; [lia|]. split; [lia|].
  destruct Hk as [[-> ->]|[-> ->]]; [apply (plane_low _ _ _ _ _ _ _ HL); lia|]. pose proof (plane_up _ _ _ _ _ _ _ HL (L - 1) ltac:(lia)) as G. now rewrite Nat.sub_add in G by lia.
Qed.
Lemma edge_x_eq op (back : bool) k layer : (k = 0 /\ layer = 0) \/ (k = L /\ layer = L - 1) -> edge_x m op back k layer = Ok (map (if back then Fb else Ff) (irow NNx op k)).
Proof.
  intros Hk. destruct (ends k layer Hk) as (H1 & H2 & E1 & E2). unfold edge_x. rewrite (starts_m _ _ _ _ _ _ _ _ HL) by exact H1. rewrite nelx_m, nelz_m by assumption. cbn [bind]. f_equal.
  unfold irow. rewrite side_range_eq, E1, map_map. apply map_ext. intros i. destruct back; cbn [Proof_Hex8FineLayerSides.Fb Proof_Hex8FineLayerSides.Ff]; unfold Proof_Hex8FineLayerSides.nP; [rewrite E1, E2, Nat.add_sub|]; lia.
Qed.
Lemma edge_z_eq op (right : bool) k layer : (k = 0 /\ layer = 0) \/ (k = L /\ layer = L - 1) -> edge_z m op right k layer = Ok (map (if right then Fr else Fl) (irow NNz op k)).
Proof.
  intros Hk. destruct (ends k layer Hk) as (H1 & H2 & E1 & E2). unfold edge_z. rewrite (starts_m _ _ _ _ _ _ _ _ HL) by exact H1. rewrite nelx_m, nelz_m by assumption. cbn [bind]. f_equal.
  unfold irow. rewrite side_range_eq, E2, map_map. apply map_ext. intros i. destruct right; cbn [Proof_Hex8FineLayerSides.Fl Proof_Hex8FineLayerSides.Fr]; unfold Proof_Hex8FineLayerSides.nP; rewrite E1; [rewrite Nat.add_sub|]; lia.
Qed.

(** edges along y *)
Lemma seq_shift a c k : map (fun i => i + c) (seq a k) = seq (a + c) k.
Proof. revert a. induction k as [|k IH]; intros a; [reflexivity|]. cbn. now rewrite IH. Qed.
Lemma seq_shift' a k : 1 <= a -> map (fun i => i - 1) (seq a k) = seq (a - 1) k.
Proof. revert a. induction k as [|k IH]; intros a Ha; [reflexivity|]. cbn. rewrite IH by lia. do 2 f_equal. lia. Qed.

Lemma edge_y_eq (f : nat -> nat -> res nat) (g : nat -> nat) :
  (forall iy, iy < n -> f (SN iy) iy = Ok (g iy)) -> (forall iy, n - 1 <= iy < L -> f (SN (iy + 1)) iy = Ok (g (iy + 1))) ->
  edge_y m f = Ok (map g (range false (L + 1))).
Proof.
  intros Hl Hu. pose proof n1. pose proof n1L. unfold edge_y. rewrite layers_m3, (L_half n), (L_half' _ _ _ _ _ HX). unfold arange.
  rewrite (mapM_Ok _ _ (fun iy => (iy, g iy))).
  2:{ intros iy Hi. apply in_seq in Hi. rewrite (starts_m _ _ _ _ _ _ _ _ HL) by lia. cbn [bind]. rewrite Hl by lia. reflexivity. }
  cbn [bind]. rewrite (mapM_Ok _ _ (fun iy => (iy + 1, g (iy + 1)))).
  2:{ intros iy Hi. apply in_seq in Hi. rewrite (starts_m _ _ _ _ _ _ _ _ HL) by lia. cbn [bind]. rewrite Hu by lia. reflexivity. }
  cbn [bind].
  assert (E : seq 0 (n - 0) ++ map (fun i => i + 1) (seq (n - 1) (L - (n - 1))) = seq 0 (L + 1)).
  { rewrite seq_shift. replace (L + 1) with ((n - 0) + (L - (n - 1))) by lia. rewrite seq_app. do 2 f_equal. lia. }
  rewrite loop_fill_Ok.
  - f_equal. rewrite map_app, !map_map. cbn [snd range]. rewrite <- E, map_app, map_map. reflexivity.
  - rewrite map_app, !map_map. cbn [fst]. rewrite <- E. f_equal. now rewrite map_id.
Qed.
Lemma open_edge_y_eq (f : nat -> nat -> res nat) (g : nat -> nat) :
  (forall iy, iy < n -> f (SN iy) iy = Ok (g iy)) -> (forall iy, n - 1 <= iy < L -> f (SN (iy + 1)) iy = Ok (g (iy + 1))) ->
  open_edge_y m f = Ok (map g (range true (L + 1))).
Proof.
  intros Hl Hu. pose proof n1. pose proof n1L. unfold open_edge_y. rewrite layers_m3, (L_half n), (L_half' _ _ _ _ _ HX). unfold arange.
  rewrite (mapM_Ok _ _ (fun iy => (iy - 1, g iy))).
  2:{ intros iy Hi. apply in_seq in Hi. rewrite (starts_m _ _ _ _ _ _ _ _ HL) by lia. cbn [bind]. rewrite Hl by lia. reflexivity. }
  cbn [bind]. rewrite (mapM_Ok _ _ (fun iy => (iy, g (iy + 1)))).
  2:{ intros iy Hi. apply in_seq in Hi. rewrite (starts_m _ _ _ _ _ _ _ _ HL) by lia. cbn [bind]. rewrite Hu by lia. reflexivity. }
  cbn [bind].
  assert (E : seq 1 (n - 1) ++ map (fun i => i + 1) (seq (n - 1) (L - 1 - (n - 1))) = seq 1 (L + 1 - 2)).
  { rewrite seq_shift. replace (L + 1 - 2) with ((n - 1) + (L - 1 - (n - 1))) by lia. rewrite seq_app. do 2 f_equal. lia. }
  rewrite loop_fill_Ok.
  - f_equal. rewrite map_app, !map_map. cbn [snd range]. rewrite <- E, map_app, map_map. reflexivity.
  - rewrite map_app, !map_map. cbn [fst]. rewrite map_id, seq_shift' by lia.
    replace (L - 1) with ((n - 1) + (L - 1 - (n - 1))) at 2 by lia. rewrite seq_app. f_equal.
Qed.

Definition fl k := Ff (Row k 0).
Definition fr k := Ff (Row k (NNx k - 1)).
Definition bl k := Fb (Row k 0).
Definition br k := Fb (Row k (NNx k - 1)).
Ltac at_low Hi := let E1 := fresh in let E2 := fresh in destruct (plane_low _ _ _ _ _ _ _ HL _ Hi) as [E1 E2]; 
  rewrite ?nelx_m, ?nelz_m by (pose proof n1L; lia); cbn [bind]; f_equal; cbn [Proof_Hex8FineLayerSides.Fb Proof_Hex8FineLayerSides.Ff]; unfold Proof_Hex8FineLayerSides.nP; rewrite ?E1, ?E2, ?Nat.add_sub; lia.
Ltac at_up Hi := let E1 := fresh in let E2 := fresh in destruct (plane_up _ _ _ _ _ _ _ HL _ (proj1 Hi)) as [E1 E2]; 
  rewrite ?nelx_m, ?nelz_m by lia; cbn [bind]; f_equal; cbn [Proof_Hex8FineLayerSides.Fb Proof_Hex8FineLayerSides.Ff]; unfold Proof_Hex8FineLayerSides.nP; rewrite ?E1, ?E2, ?Nat.add_sub; lia.
Lemma at_fl_low iy : iy < n -> at_fl (SN iy) iy = Ok (fl iy).
Proof. intros Hi. unfold at_fl, fl. at_low Hi. Qed.
Lemma at_fl_up iy : n - 1 <= iy < L -> at_fl (SN (iy + 1)) iy = Ok (fl (iy + 1)).
Proof. intros Hi. unfold at_fl, fl. at_up Hi. Qed.
Lemma at_fr_low iy : iy < n -> at_fr m (SN iy) iy = Ok (fr iy).
Proof. intros Hi. unfold at_fr, fr. at_low Hi. Qed.
Lemma at_fr_up iy : n - 1 <= iy < L -> at_fr m (SN (iy + 1)) iy = Ok (fr (iy + 1)).
Proof. intros Hi. unfold at_fr, fr. at_up Hi. Qed.
Lemma at_bl_low iy : iy < n -> at_bl m (SN iy) iy = Ok (bl iy).
Proof. intros Hi. unfold at_bl, bl. at_low Hi. Qed.
Lemma at_bl_up iy : n - 1 <= iy < L -> at_bl m (SN (iy + 1)) iy = Ok (bl (iy + 1)).
Proof. intros Hi. unfold at_bl, bl. at_up Hi. Qed.
Lemma at_br_low iy : iy < n -> at_br m (SN iy) iy = Ok (br iy).
Proof. intros Hi. unfold at_br, br. at_low Hi. Qed.
Lemma at_br_up iy : n - 1 <= iy < L -> at_br m (SN (iy + 1)) iy = Ok (br (iy + 1)).
Proof. intros Hi. unfold at_br, br. at_up Hi. Qed.

(** corners *)
Lemma corner_bot f g : (forall iy, iy < n -> f (SN iy) iy = Ok (g iy)) -> corner_of m f 0 0 = Ok (g 0 : nat).
Proof. intros H. pose proof n1. unfold corner_of. rewrite (starts_m _ _ _ _ _ _ _ _ HL) by lia. cbn [bind]. apply H. lia. Qed.
Lemma corner_top f g : (forall iy, n - 1 <= iy < L -> f (SN (iy + 1)) iy = Ok (g (iy + 1))) -> corner_of m f (g_layers m) (g_layers m - 1) = Ok (g L : nat).
Proof.
  intros H. pose proof n1. pose proof n1L. rewrite layers_m3. unfold corner_of. rewrite (starts_m _ _ _ _ _ _ _ _ HL) by lia. cbn [bind].
  pose proof (H (L - 1) ltac:(lia)) as G. rewrite Nat.sub_add in G by lia. exact G.
Qed.
End Bnd.
