(** Hex8::FineLayer: the node sets on the boundary, as lists of node numbers. *)
From Coq Require Import Reals ZArith Lra.
From Verif Require Import Base Spec Spec3d Model_Numbering Model_Regular2d Model_FineLayer Model_Hex8Regular Model_Hex8FineLayer
  Proof_Vector Proof_Regular2d Proof_Hex8Regular Proof_FineLayer Proof_FineLayerMesh Proof_Hex8FineLayer Proof_Hex8FineLayerMesh Proof_Hex8FineLayerElem.

(** a node on a side: in plane [k], or in the intermediate plane of layer [iy] *)
Inductive idx := Row (k i : nat) | Mid (iy q : nat).
Definition range (op : bool) (c : nat) : list nat := if op then seq 1 (c - 2) else seq 0 c.

Section Idx.
Variables cnt mc : nat -> nat.
Variable op : bool.
Definition irow (k : nat) : list idx := map (Row k) (range op (cnt k)).
Definition imid (iy : nat) : list idx := map (Mid iy) (seq 0 (mc iy)).
Definition idxl (a b : nat) : list idx := flat_map (fun iy => irow iy ++ imid iy) (seq a (b - a)) ++ irow b.
End Idx.

Lemma In_range op c i : In i (range op c) <-> if op then 1 <= i /\ i < c - 1 else i < c.
Proof. destruct op; cbn [range]; rewrite in_seq; lia. Qed.

Lemma In_idxl cnt mc op a b x : a <= b -> In x (idxl cnt mc op a b) <->
  match x with Row k i => a <= k <= b /\ In i (range op (cnt k)) | Mid iy q => a <= iy < b /\ q < mc iy end.
Proof.
  intros Hab. unfold idxl. rewrite in_app_iff, in_flat_map. unfold irow, imid. destruct x as [k i|iy q].
  - split.
    + intros [(j & Hj & H)|H].
      * apply in_seq in Hj. apply in_app_or in H. destruct H as [H|H]; apply in_map_iff in H; destruct H as (j' & E & H); [|discriminate]. injection E as -> ->. split; [lia|exact H].
      * apply in_map_iff in H. destruct H as (j' & E & H). injection E as <- ->. split; [lia|exact H].
    + intros [H1 H2]. destruct (Nat.eq_dec k b) as [->|]; [right; now apply in_map|]. left. exists k. split; [apply in_seq; lia|]. apply in_or_app. left. now apply in_map.
  - split.
    + intros [(j & Hj & H)|H].
      * apply in_seq in Hj. apply in_app_or in H. destruct H as [H|H]; apply in_map_iff in H; destruct H as (j' & E & H); [discriminate|]. injection E as -> ->. apply in_seq in H. split; lia.
      * apply in_map_iff in H. destruct H as (j' & E & H). discriminate.
    + intros [H1 H2]. left. exists iy. split; [apply in_seq; lia|]. apply in_or_app. right. apply in_map, in_seq. lia.
Qed.
Lemma range_NoDup op c : NoDup (range op c).
Proof. destruct op; apply seq_NoDup. Qed.
Lemma idxl_NoDup cnt mc op a b : a <= b -> NoDup (idxl cnt mc op a b).
Proof.
  intros Hab. unfold idxl. assert (Nr : forall k, NoDup (irow cnt op k)) by (intros k; apply NoDup_map_inj; [apply range_NoDup|intros i j _ _ E; now injection E]).
  assert (Ir : forall k x, In x (irow cnt op k) -> exists i, x = Row k i) by (intros k x H; apply in_map_iff in H; destruct H as (i & <- & _); eauto).
  assert (Im : forall k x, In x (imid mc k) -> exists i, x = Mid k i) by (intros k x H; apply in_map_iff in H; destruct H as (i & <- & _); eauto).
  apply NoDup_app_intro; [|apply Nr|].
  - apply NoDup_flat_map; [apply seq_NoDup| |].
    + intros k _. apply NoDup_app_intro; [apply Nr|apply NoDup_map_inj; [apply seq_NoDup|intros i j _ _ E; now injection E]|].
      intros x H H'. destruct (Ir _ _ H) as (i & ->). destruct (Im _ _ H') as (j & E). discriminate.
    + intros k k' x _ _ H H'. apply in_app_or in H, H'. destruct H as [H|H], H' as [H'|H'];
      [apply Ir in H; apply Ir in H'|apply Ir in H; apply Im in H'|apply Im in H; apply Ir in H'|apply Im in H; apply Im in H']; destruct H as (i & ->), H' as (j & E); congruence.
  - intros x H H'. apply in_flat_map in H. destruct H as (k & Hk & H). apply in_seq in Hk. destruct (Ir _ _ H') as (i & ->). apply in_app_or in H. destruct H as [H|H]; [apply Ir in H|apply Im in H]; destruct H as (j & E); [|discriminate].
    injection E as -> _. lia.
Qed.

Section Sides.
Variables (nelx nelz n : nat) (wx wz y : nat -> nat) (r : nat -> Z) (h : R).
Hypothesis HL : layered3 nelx nelz n wx wz y r.
Notation HX := (l3_x _ _ _ _ _ _ _ HL).
Notation HZ := (l3_z _ _ _ _ _ _ _ HL).
Notation Wx := (W n wx).
Notation Wz := (W n wz).
Notation WNx := (WN n wx).
Notation WNz := (WN n wz).
Notation Hy := (Hy n y).
Notation Y := (Y n y).
Notation NX := (NX nelx n wx).
Notation NZ := (Proof_FineLayer.NX nelz n wz).
Notation NNx := (NN nelx n wx).
Notation NNz := (NN nelz n wz).
Notation Rx := (Rf n (rx r)).
Notation Rz := (Rf n (rz r)).
Notation L := (L n).
Notation T := (T n r).
Notation NN3 := (NN3 nelx nelz n wx wz).
Notation NM3 := (NM3 nelx nelz n wx wz r).
Notation SN := (SN3 nelx nelz n wx wz r).
Notation m := (HFL_of nelx nelz n wx wz y r h).

(** nodes: in plane [k], in the intermediate planes *)
Definition nP (k i j : nat) : nat := SN k + (i + j * NNx k).
Definition nMX (iy q iz : nat) : nat := SN iy + NN3 iy + (q + iz * (2 * NX iy)).
Definition nMZ (iy ix q : nat) : nat := SN iy + NN3 iy + (ix + q * (NX iy + 1)).

Definition mcx (iy : nat) : nat := if Rx iy then 2 * NX iy else 0.
Definition mcz (iy : nat) : nat := if Rz iy then 2 * NZ iy else 0.
Definition Ff (x : idx) : nat := match x with Row k i => nP k i 0 | Mid iy q => nMX iy q 0 end.
Definition Fb (x : idx) : nat := match x with Row k i => nP k i (NNz k - 1) | Mid iy q => nMX iy q (NZ iy) end.
Definition Fl (x : idx) : nat := match x with Row k i => nP k 0 i | Mid iy q => nMZ iy 0 q end.
Definition Fr (x : idx) : nat := match x with Row k i => nP k (NNx k - 1) i | Mid iy q => nMZ iy (NX iy) q end.

Lemma starts_m k : k <= L -> get (g_startNode m) k = Ok (SN k).
Proof. intros H. cbn [g_startNode HFL_of]. apply tab1_get. rewrite (L_S _ _ _ _ _ HX). lia. Qed.
Lemma nnd_m k : k <= L -> get (g_nnd m) k = Ok (NN3 k).
Proof. intros H. cbn [g_nnd HFL_of]. apply tab1_get. rewrite (L_S _ _ _ _ _ HX). lia. Qed.
Lemma nelx_m k : k < L -> get (g_layer_nelx m) k = Ok (NX k).
Proof. intros H. cbn [g_layer_nelx HFL_of]. now apply tab1_get. Qed.
Lemma nelz_m k : k < L -> get (g_layer_nelz m) k = Ok (NZ k).
Proof. intros H. cbn [g_layer_nelz HFL_of]. now apply tab1_get. Qed.
Lemma refine_m k : k < L -> get (g_refine m) k = Ok (T k).
Proof. intros H. cbn [g_refine HFL_of]. now apply tab1_get. Qed.

(** the plane of nodes that layer [iy] lists: below in the lower half, above in the upper half *)
Lemma plane_low k : k < n -> NNx k = NX k + 1 /\ NNz k = NZ k + 1.
Proof. intros H. split; [apply (NN_low _ _ _ _ _ HX); lia|apply (NN_low _ _ _ _ _ HZ); lia]. Qed.
Lemma plane_up k : n - 1 <= k -> NNx (k + 1) = NX k + 1 /\ NNz (k + 1) = NZ k + 1.
Proof. intros H. split; [apply (NN_top' _ _ _ _ _ HX); lia|apply (NN_top' _ _ _ _ _ HZ); lia]. Qed.

Section Side.
Variables (cnt mc : nat -> nat) (F : idx -> nat) (op : bool) (size : nat -> res nat) (row : nat -> nat -> res (list nat)) (mid : nat -> res (list nat)).
Hypothesis Hlow : forall iy, iy < n -> row (SN iy) iy = Ok (map F (irow cnt op iy)).
Hypothesis Hup : forall iy, n - 1 <= iy < L -> row (SN (iy + 1)) iy = Ok (map F (irow cnt op (iy + 1))).
Hypothesis Hmid : forall iy, iy < L -> mid iy = Ok (map F (imid mc iy)).
Hypothesis Hmid0 : mc (n - 1) = 0.
Hypothesis Hsl : forall iy, iy < n -> size iy = Ok (length (irow cnt op iy) + mc iy).
Hypothesis Hsu : forall iy, n - 1 <= iy < L -> size iy = Ok (mc iy + length (irow cnt op (iy + 1))).

Lemma sumM_Ok (f : nat -> res nat) g l : (forall i, In i l -> f i = Ok (g i)) -> sumM f l = Ok (fold_right Nat.add 0 (map g l)).
Proof. intros H. unfold sumM. now rewrite (mapM_Ok _ _ g H). Qed.
Lemma length_flat_map_sum {A} (f : nat -> list A) l : length (flat_map f l) = fold_right Nat.add 0 (map (fun i => length (f i)) l).
Proof. induction l as [|i l IH]; [reflexivity|]. cbn. now rewrite app_length, IH. Qed.

Lemma flat_map_F (g : nat -> list idx) l : flat_map (fun i => map F (g i)) l = map F (flat_map g l).
Proof. induction l as [|i l IH]; [reflexivity|]. cbn [flat_map]. now rewrite map_app, IH. Qed.

Lemma side_spec a b : a <= n - 1 -> n <= b <= L -> side m a b size row mid = Ok (map F (idxl cnt mc op a b)).
Proof.
  intros Ha Hb. pose proof (n_pos _ _ _ _ _ _ _ HL) as Hn. pose proof (nL _ _ _ _ _ _ _ HL) as HnL.
  unfold side. rewrite layers_m3, (L_half n), (L_half' _ _ _ _ _ HX).
  rewrite (sumM_Ok _ (fun iy => length (irow cnt op iy) + mc iy)) by (intros i Hi; apply in_seq in Hi; apply Hsl; lia). cbn [bind].
  rewrite (sumM_Ok _ (fun iy => mc iy + length (irow cnt op (iy + 1)))) by (intros i Hi; apply in_seq in Hi; apply Hsu; lia). cbn [bind].
  rewrite (concatM_Ok _ (fun iy => map F (irow cnt op iy ++ imid mc iy))).
  2:{ intros iy Hi. apply in_seq in Hi. rewrite starts_m by lia. cbn [bind]. rewrite Hlow by lia. cbn [bind]. rewrite Hmid by lia. cbn [bind]. now rewrite map_app. }
  cbn [bind]. rewrite (concatM_Ok _ (fun iy => map F (imid mc iy ++ irow cnt op (iy + 1)))).
  2:{ intros iy Hi. apply in_seq in Hi. rewrite Hmid by lia. cbn [bind]. rewrite starts_m by lia. cbn [bind]. rewrite Hup by lia. cbn [bind]. now rewrite map_app. }
  cbn [bind].
  match goal with |- fill_rows ?N ?l = _ => assert (E : l = map F (idxl cnt mc op a b)); [|assert (EL : length l = N)] end.
  - rewrite !flat_map_F, <- map_app. f_equal. unfold arange.
    replace (n - a) with ((n - 1 - a) + 1) by lia. rewrite seq_app, flat_map_app. replace (a + (n - 1 - a)) with (n - 1) by lia. cbn [seq flat_map].
    unfold imid at 2. rewrite Hmid0. cbn [seq map]. rewrite !app_nil_r. rewrite <- app_assoc, flat_map_shift. rewrite app_assoc, <- flat_map_app. unfold idxl. f_equal.
    + f_equal. replace (b - a) with ((n - 1 - a) + (b - (n - 1))) by lia. rewrite seq_app. do 2 f_equal. lia.
    + f_equal. lia.
  - rewrite app_length, !length_flat_map_sum. unfold arange. f_equal; f_equal; apply map_ext; intros i; rewrite map_length, app_length; unfold imid; rewrite map_length, seq_length; reflexivity.
  - rewrite fill_rows_Ok by exact EL. now rewrite E.
Qed.
End Side.

Lemma side_range_eq op c : side_range op c = range op (c + 1).
Proof. destruct op; unfold side_range, arange, range; f_equal; lia. Qed.
Lemma range_length op c : 2 <= c -> length (range op c) = if op then c - 2 else c.
Proof. intros H. destruct op; cbn [range]; now rewrite seq_length. Qed.

Lemma T_x iy : iy < L -> (T iy =? 0)%Z = Rx iy.
Proof. intros H. reflexivity. Qed.
Lemma T_z iy : iy < L -> (T iy =? 2)%Z = Rz iy.
Proof. intros H. reflexivity. Qed.

Lemma size_x op iy c : iy < L -> c = NX iy + 1 -> side_size m (g_layer_nelx m) 0 op iy = Ok (length (range op c) + mcx iy).
Proof.
  intros H ->. pose proof (NX_pos _ _ _ _ _ HX iy H) as P. unfold side_size. rewrite refine_m by exact H. cbn [bind]. rewrite nelx_m by exact H. cbn [bind].
  rewrite range_length by lia. rewrite T_x by exact H. unfold mcx. f_equal. destruct op, (Rx iy); lia.
Qed.
Lemma size_z op iy c : iy < L -> c = NZ iy + 1 -> side_size m (g_layer_nelz m) 2 op iy = Ok (length (range op c) + mcz iy).
Proof.
  intros H ->. pose proof (NX_pos _ _ _ _ _ HZ iy H) as P. unfold side_size. rewrite refine_m by exact H. cbn [bind]. rewrite nelz_m by exact H. cbn [bind].
  rewrite range_length by lia. rewrite T_z by exact H. unfold mcz. f_equal. destruct op, (Rz iy); lia.
Qed.

Ltac list_ext := unfold irow, imid; rewrite map_map; apply map_ext; intros ?; cbn [Ff Fb Fl Fr]; unfold nP, nMX, nMZ.

Lemma front_spec op a b : a <= n - 1 -> n <= b <= L ->
  side m a b (side_size m (g_layer_nelx m) 0 op) (row_front m op) (mid_front m) = Ok (map Ff (idxl NNx mcx op a b)).
Proof.
  intros Ha Hb. pose proof (nL _ _ _ _ _ _ _ HL) as HnL. apply side_spec; try assumption.
  - intros iy Hi. destruct (plane_low iy Hi) as [E1 E2]. unfold row_front. rewrite nelx_m by lia. cbn [bind]. f_equal. rewrite side_range_eq. unfold irow. rewrite E1, map_map. apply map_ext. intros i. cbn [Ff]. unfold nP. lia.
  - intros iy Hi. destruct (plane_up iy ltac:(lia)) as [E1 E2]. unfold row_front. rewrite nelx_m by lia. cbn [bind]. f_equal. rewrite side_range_eq. unfold irow. rewrite E1, map_map. apply map_ext. intros i. cbn [Ff]. unfold nP. lia.
  - intros iy Hi. unfold mid_front. rewrite refine_m by exact Hi. cbn [bind]. rewrite T_x by exact Hi. unfold imid, mcx. destruct (Rx iy); [|reflexivity].
    rewrite nelx_m, starts_m, nnd_m by lia. cbn [bind]. f_equal. rewrite map_map. unfold arange. rewrite Nat.sub_0_r. apply map_ext. intros i. cbn [Ff]. unfold nMX. lia.
  - unfold mcx. now rewrite (Rf_mid _ _ _ _ _ HX).
  - intros iy Hi. unfold irow. rewrite map_length. apply size_x; [lia|now apply plane_low].
  - intros iy Hi. unfold irow. rewrite map_length, Nat.add_comm. apply size_x; [lia|apply plane_up; lia].
Qed.
Lemma back_spec op a b : a <= n - 1 -> n <= b <= L ->
  side m a b (side_size m (g_layer_nelx m) 0 op) (row_back m op) (mid_back m) = Ok (map Fb (idxl NNx mcx op a b)).
Proof.
  intros Ha Hb. pose proof (nL _ _ _ _ _ _ _ HL) as HnL. apply side_spec; try assumption.
  - intros iy Hi. destruct (plane_low iy Hi) as [E1 E2]. unfold row_back. rewrite nelx_m, nelz_m by lia. cbn [bind]. f_equal. rewrite side_range_eq. unfold irow. rewrite E1, map_map. apply map_ext. intros i. cbn [Fb]. unfold nP. rewrite E1, E2. rewrite Nat.add_sub. lia.
  - intros iy Hi. destruct (plane_up iy ltac:(lia)) as [E1 E2]. unfold row_back. rewrite nelx_m, nelz_m by lia. cbn [bind]. f_equal. rewrite side_range_eq. unfold irow. rewrite E1, map_map. apply map_ext. intros i. cbn [Fb]. unfold nP. rewrite E1, E2, Nat.add_sub. lia.
  - intros iy Hi. unfold mid_back. rewrite refine_m by exact Hi. cbn [bind]. rewrite T_x by exact Hi. unfold imid, mcx. destruct (Rx iy); [|reflexivity].
    rewrite nelx_m, nelz_m, starts_m, nnd_m by lia. cbn [bind]. f_equal. rewrite map_map. unfold arange. rewrite Nat.sub_0_r. apply map_ext. intros i. cbn [Fb]. unfold nMX. lia.
  - unfold mcx. now rewrite (Rf_mid _ _ _ _ _ HX).
  - intros iy Hi. unfold irow. rewrite map_length. apply size_x; [lia|now apply plane_low].
  - intros iy Hi. unfold irow. rewrite map_length, Nat.add_comm. apply size_x; [lia|apply plane_up; lia].
Qed.
Lemma left_spec op a b : a <= n - 1 -> n <= b <= L ->
  side m a b (side_size m (g_layer_nelz m) 2 op) (row_left m op) (mid_left m) = Ok (map Fl (idxl NNz mcz op a b)).
Proof.
  intros Ha Hb. pose proof (nL _ _ _ _ _ _ _ HL) as HnL. apply side_spec; try assumption.
  - intros iy Hi. destruct (plane_low iy Hi) as [E1 E2]. unfold row_left. rewrite nelx_m, nelz_m by lia. cbn [bind]. f_equal. rewrite side_range_eq. unfold irow. rewrite E2, map_map. apply map_ext. intros i. cbn [Fl]. unfold nP. rewrite E1. lia.
  - intros iy Hi. destruct (plane_up iy ltac:(lia)) as [E1 E2]. unfold row_left. rewrite nelx_m, nelz_m by lia. cbn [bind]. f_equal. rewrite side_range_eq. unfold irow. rewrite E2, map_map. apply map_ext. intros i. cbn [Fl]. unfold nP. rewrite E1. lia.
  - intros iy Hi. unfold mid_left. rewrite refine_m by exact Hi. cbn [bind]. rewrite T_z by exact Hi. unfold imid, mcz. destruct (Rz iy); [|reflexivity].
    rewrite nelx_m, nelz_m, starts_m, nnd_m by lia. cbn [bind]. f_equal. rewrite map_map. unfold arange. rewrite Nat.sub_0_r. apply map_ext. intros i. cbn [Fl]. unfold nMZ. lia.
  - unfold mcz. now rewrite (Rf_mid _ _ _ _ _ HZ).
  - intros iy Hi. unfold irow. rewrite map_length. apply size_z; [lia|now apply plane_low].
  - intros iy Hi. unfold irow. rewrite map_length, Nat.add_comm. apply size_z; [lia|apply plane_up; lia].
Qed.
Lemma right_spec op a b : a <= n - 1 -> n <= b <= L ->
  side m a b (side_size m (g_layer_nelz m) 2 op) (row_right m op) (mid_right m) = Ok (map Fr (idxl NNz mcz op a b)).
Proof.
  intros Ha Hb. pose proof (nL _ _ _ _ _ _ _ HL) as HnL. apply side_spec; try assumption.
  - intros iy Hi. destruct (plane_low iy Hi) as [E1 E2]. unfold row_right. rewrite nelx_m, nelz_m by lia. cbn [bind]. f_equal. rewrite side_range_eq. unfold irow. rewrite E2, map_map. apply map_ext. intros i. cbn [Fr]. unfold nP. rewrite E1. lia.
  - intros iy Hi. destruct (plane_up iy ltac:(lia)) as [E1 E2]. unfold row_right. rewrite nelx_m, nelz_m by lia. cbn [bind]. f_equal. rewrite side_range_eq. unfold irow. rewrite E2, map_map. apply map_ext. intros i. cbn [Fr]. unfold nP. rewrite E1. lia.
  - intros iy Hi. unfold mid_right. rewrite refine_m by exact Hi. cbn [bind]. rewrite T_z by exact Hi. unfold imid, mcz. destruct (Rz iy); [|reflexivity].
    rewrite nelx_m, nelz_m, starts_m, nnd_m by lia. cbn [bind]. f_equal. rewrite map_map. unfold arange. rewrite Nat.sub_0_r. apply map_ext. intros i. cbn [Fr]. unfold nMZ. lia.
  - unfold mcz. now rewrite (Rf_mid _ _ _ _ _ HZ).
  - intros iy Hi. unfold irow. rewrite map_length. apply size_z; [lia|now apply plane_low].
  - intros iy Hi. unfold irow. rewrite map_length, Nat.add_comm. apply size_z; [lia|apply plane_up; lia].
Qed.

(** open sides of a mesh with one layer *)
Lemma side_empty size row mid : n = 1 -> side m 1 (L - 1) size row mid = Ok [].
Proof. intros E. unfold side. rewrite layers_m3. unfold Proof_FineLayer.L. rewrite E. reflexivity. Qed.
End Sides.
