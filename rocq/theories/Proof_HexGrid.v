(** The elements of Mesh::Hex8::Regular as cells of a grid: boxes, sums over elements, rigid motions that are shared by neighbours. *)
From Coq Require Import Reals Lra Lia List Arith Permutation.
From Verif Require Import Model_Element Spec_Element Proof_Element Proof_ElementQuad4 Proof_ElementMath Proof_ElementThm Proof_ElementHex8 Base Spec Spec3d Sums Spec_Vector Spec_Matrix Model_Vector Model_Numbering Model_Hex8Regular Model_Regular2d Proof_Regular2d Proof_Hex8Regular
  Model_Pipeline Spec_Pipeline Proof_PipelineElem Spec_Patch Spec_Macro Proof_PatchRigid Proof_QuadMeshObj Spec_HexMesh Proof_HexBox.
Import ListNotations.

Lemma sumn_block a b f : sumn (a * b) f = sumn a (fun i => sumn b (fun j => f (i * b + j))).
Proof.
  induction a as [|a IH]; [reflexivity|]. rewrite sumn_S, <- IH. replace (S a * b) with (a * b + b) by lia. rewrite sumn_app. reflexivity.
Qed.
Lemma sumn_telescope n (f : nat -> R) : sumn n (fun i => f (i + 1)%nat - f i)%R = (f n - f 0%nat)%R.
Proof. induction n as [|n IH]; [unfold sumn; cbn; ring|]. rewrite sumn_S, IH. replace (n + 1) with (S n) by lia. ring. Qed.

(** position of corner [k] of a cell, as steps from its first corner *)
Definition off (k i : nat) : nat :=
  match i with 0 => nth k [0;1;1;0;0;1;1;0] 0 | 1 => nth k [0;0;1;1;0;0;1;1] 0 | _ => nth k [0;0;0;0;1;1;1;1] 0 end.
Lemma off_le k i : off k i <= 1.
Proof. unfold off. destruct i as [|[|i]]; do 8 (destruct k as [|k]; [cbn; lia|]); destruct k; cbn; lia. Qed.
Lemma corner_off k i : k < 8 -> i < 3 -> corner3 k i = (2 * INR (off k i) - 1)%R.
Proof. intros Hk Hi. revert k Hk. apply lt8; revert i Hi; apply lt3; corners3; cbn [off nth INR]; ring. Qed.

Section G.
Variable m : HexRegular.
Notation nx := (hx_nelx m). Notation ny := (hx_nely m). Notation nz := (hx_nelz m). Notation h := (hx_h m).
Notation N := (N3 m).

(** number of the cell *)
Definition E3 (ix iy iz : nat) : nat := iz * (ny * nx) + (iy * nx + ix).
Lemma E3_lt ix iy iz : ix < nx -> iy < ny -> iz < nz -> E3 ix iy iz < hex_nelem m.
Proof. unfold E3, hex_nelem. intros. assert (iy * nx + ix < ny * nx) by nia. nia. Qed.
Lemma E3_surj e : e < hex_nelem m -> exists ix iy iz, ix < nx /\ iy < ny /\ iz < nz /\ e = E3 ix iy iz.
Proof.
  unfold hex_nelem, E3. intro H. destruct (grid_split (ny * nx) e) as [iz [r [Hr E]]]; [nia|].
  destruct (grid_split nx r) as [iy [ix [Hx E']]]; [nia|]. rewrite E' in *. exists ix, iy, iz. assert (iy < ny) by nia. assert (iz < nz) by nia. repeat split; lia.
Qed.
Lemma conn_N ix iy iz k : ix < nx -> iy < ny -> iz < nz -> k < 8 -> idx2 (hex_conn m) (E3 ix iy iz) k = N (ix + off k 0) (iy + off k 1) (iz + off k 2).
Proof.
  intros Hx Hy Hz Hk. unfold idx2, nth2, E3. rewrite (nth_error_nth _ _ [] (hex_conn_at m ix iy iz Hx Hy Hz)).
  revert k Hk. apply lt8; cbn [nth off]; rewrite ?Nat.add_0_r; reflexivity.
Qed.
Definition P3 (ix iy iz i : nat) : nat := match i with 0 => ix | 1 => iy | _ => iz end.
Lemma coor_N ix iy iz i : ix <= nx -> iy <= ny -> iz <= nz -> i < 3 -> val2 (hex_coor m) (N ix iy iz) i = (h * INR (P3 ix iy iz i))%R.
Proof.
  intros Hx Hy Hz Hi. unfold val2, nth2. rewrite (nth_error_nth _ _ [] (hex_coor_at m ix iy iz Hx Hy Hz)). revert i Hi. apply lt3; reflexivity.
Qed.
Lemma elem_coor x ix iy iz k i : coordinates (hex_conn m) (hex_nelem m) 8 3 (hex_coor m) x -> ix < nx -> iy < ny -> iz < nz -> k < 8 -> i < 3 ->
  x [E3 ix iy iz;k;i] = (h * INR (P3 ix iy iz i) + h * INR (off k i))%R.
Proof.
  intros HX Hx Hy Hz Hk Hi. rewrite HX by (try assumption; now apply E3_lt). rewrite conn_N by assumption.
  pose proof (off_le k 0). pose proof (off_le k 1). pose proof (off_le k 2). rewrite coor_N by lia. revert i Hi. apply lt3; cbn [P3]; rewrite plus_INR; ring.
Qed.
Lemma elem_box x ix iy iz k i : coordinates (hex_conn m) (hex_nelem m) 8 3 (hex_coor m) x -> ix < nx -> iy < ny -> iz < nz -> k < 8 -> i < 3 ->
  x [E3 ix iy iz;k;i] = (h * (INR (P3 ix iy iz i) + / 2) + h / 2 * corner3 k i)%R.
Proof. intros HX Hx Hy Hz Hk Hi. rewrite elem_coor, corner_off by assumption. field. Qed.

Lemma hex_box x E : (0 < h)%R -> hex_body m x E -> box_obj (hex_nelem m) x E.
Proof.
  intros Hh [nip xi w x' Q HR HX HQ]. apply (box_Hex8 _ nip xi w); try assumption. intros e He. destruct (E3_surj e He) as (ix & iy & iz & Hx & Hy & Hz & ->).
  exists (fun i => h * (INR (P3 ix iy iz i) + / 2))%R, (fun _ => h / 2)%R. split; [intros; lra|]. intros k i Hk Hi. now apply elem_box.
Qed.
Lemma body_coordinates x E : hex_body m x E -> coordinates (hex_conn m) (hex_nelem m) 8 3 (hex_coor m) x.
Proof. now intros []. Qed.

(** the contribution of one cell to the integral of the gradient, and its volume *)
Lemma elem_total x E c u e i j : (0 < h)%R -> hex_body m x E -> valid_call (hex_nelem m) c -> e < hex_nelem m -> i < 3 -> j < 3 ->
  sumn (el_nip E) (fun q => el_GradN_vector E c u [e;q;i;j] * el_dV E [e;q])%R = (h * h / 4 * sumn 8 (fun k => corner3 k i * u [e;k;j]))%R /\
  sumn (el_nip E) (fun q => el_dV E [e;q]) = (h * h * h)%R.
Proof.
  intros Hh HB Hc He Hi Hj. destruct (box_facts _ _ _ (hex_box x E Hh HB)) as (N8 & _ & _ & _ & xi & g & Hg & Hxi & F). rewrite N8. destruct (F e He) as (cc & s & Hs & Hx & V & G).
  assert (S : forall i, i < 3 -> s i = (h / 2)%R).
  { intros k Hk. destruct (E3_surj e He) as (ix & iy & iz & Lx & Ly & Lz & ->). pose proof (Hx 0 k ltac:(lia) Hk) as A0. pose proof (Hx 6 k ltac:(lia) Hk) as A6.
    rewrite (elem_box x) in A0, A6 by (try assumption; try lia; exact (body_coordinates _ _ HB)).
    revert k Hk A0 A6. apply (lt3 (fun k => x _ = _ -> _ -> _)) || apply (lt3 (fun k => _ = (cc k + s k * corner3 0 k)%R -> _ = (cc k + s k * corner3 6 k)%R -> s k = (h / 2)%R)); corners3; intros; lra. }
  split.
  - rewrite (sumn_ext 8 _ (fun q => h * h / 4 * dinterp3 (fun k => u [e;k;j]) i (point xi q)))%R.
    + rewrite sumn_scal. f_equal. unfold dinterp3. rewrite sumn_swap. apply sumn_ext. intros k Hk. rewrite <- sumn_scal_r || idtac.
      rewrite sumn_scal_r. f_equal. rewrite sumn8. revert i Hi. apply lt3; unfold dshape3, point; rewrite !Hxi by lia; corners3; field.
    + intros q Hq. rewrite (V q Hq), (G c u q i j Hc Hq Hi Hj), !S by lia. field. lra.
  - rewrite (sumn_ext 8 _ (fun q => h * h * h / 8)%R); [rewrite sumn8; field|]. intros q Hq. rewrite (V q Hq), !S by lia. field.
Qed.

Lemma sum_cells f : sumn (hex_nelem m) f = sumn nz (fun iz => sumn ny (fun iy => sumn nx (fun ix => f (E3 ix iy iz)))).
Proof.
  replace (hex_nelem m) with (nz * (ny * nx)) by (unfold hex_nelem; lia). rewrite sumn_block. apply sumn_ext. intros iz _. rewrite sumn_block. reflexivity.
Qed.

(** the steps between opposite faces, over the faces of the cells *)
Definition faces (i : nat) (f : nat -> nat -> nat -> R) : R :=
  match i with
  | 0 => sumn nz (fun iz => sumn ny (fun iy => (f nx iy iz - f O iy iz) + (f nx (S iy) iz - f O (S iy) iz) + (f nx iy (S iz) - f O iy (S iz)) + (f nx (S iy) (S iz) - f O (S iy) (S iz))))
  | 1 => sumn nz (fun iz => sumn nx (fun ix => (f ix ny iz - f ix O iz) + (f (S ix) ny iz - f (S ix) O iz) + (f ix ny (S iz) - f ix O (S iz)) + (f (S ix) ny (S iz) - f (S ix) O (S iz))))
  | _ => sumn ny (fun iy => sumn nx (fun ix => (f ix iy nz - f ix iy O) + (f (S ix) iy nz - f (S ix) iy O) + (f ix (S iy) nz - f ix (S iy) O) + (f (S ix) (S iy) nz - f (S ix) (S iy) O)))
  end%R.
Lemma sum_faces i f : i < 3 ->
  sumn nz (fun iz => sumn ny (fun iy => sumn nx (fun ix => sumn 8 (fun k => corner3 k i * f (ix + off k 0)%nat (iy + off k 1)%nat (iz + off k 2)%nat))))%R = faces i f.
Proof.
  assert (T : forall n a b c d, sumn n (fun i => (a (i+1)%nat - a i) + (b (i+1)%nat - b i) + (c (i+1)%nat - c i) + (d (i+1)%nat - d i))%R =
    ((a n - a 0%nat) + (b n - b 0%nat) + (c n - c 0%nat) + (d n - d 0%nat))%R) by (intros; rewrite !sumn_plus, !sumn_telescope; reflexivity).
  revert i. apply lt3; unfold faces.
  - apply sumn_ext. intros iz _. apply sumn_ext. intros iy _.
    rewrite <- (T nx (fun ix => f ix iy iz) (fun ix => f ix (S iy) iz) (fun ix => f ix iy (S iz)) (fun ix => f ix (S iy) (S iz))). apply sumn_ext. intros ix _. rewrite sumn8. corners3. cbn [off nth]. rewrite ?Nat.add_0_r, ?Nat.add_1_r. ring.
  - apply sumn_ext. intros iz _. rewrite sumn_swap. apply sumn_ext. intros ix _.
    rewrite <- (T ny (fun iy => f ix iy iz) (fun iy => f (S ix) iy iz) (fun iy => f ix iy (S iz)) (fun iy => f (S ix) iy (S iz))). apply sumn_ext. intros iy _. rewrite sumn8. corners3. cbn [off nth]. rewrite ?Nat.add_0_r, ?Nat.add_1_r. ring.
  - rewrite sumn_swap. apply sumn_ext. intros iy _. rewrite sumn_swap. apply sumn_ext. intros ix _.
    rewrite <- (T nz (fun iz => f ix iy iz) (fun iz => f (S ix) iy iz) (fun iz => f ix (S iy) iz) (fun iz => f (S ix) (S iy) iz)). apply sumn_ext. intros iz _. rewrite sumn8. corners3. cbn [off nth]. rewrite ?Nat.add_0_r, ?Nat.add_1_r. ring.
Qed.

(** the divergence theorem *)
Lemma hex_total x E c u ue i j : (0 < h)%R -> hex_body m x E -> valid_call (hex_nelem m) c ->
  (forall e k i, e < hex_nelem m -> k < 8 -> i < 3 -> ue [e;k;i] = val2 u (idx2 (hex_conn m) e k) i) -> i < 3 -> j < 3 ->
  total (hex_nelem m) E (el_GradN_vector E c ue) i j = (h * h / 4 * faces i (fun ix iy iz => val2 u (N ix iy iz) j))%R.
Proof.
  intros Hh HB Hc HU Hi Hj. unfold total. rewrite (sumn_ext (hex_nelem m) _ (fun e => h * h / 4 * sumn 8 (fun k => corner3 k i * ue [e;k;j]))%R) by (intros e He; now apply (elem_total x)).
  rewrite sumn_scal. f_equal. rewrite sum_cells, <- sum_faces by exact Hi. apply sumn_ext. intros iz Hz. apply sumn_ext. intros iy Hy. apply sumn_ext. intros ix Hx. apply sumn_ext. intros k Hk.
  rewrite HU by (try assumption; now apply E3_lt). now rewrite conn_N.
Qed.
Lemma hex_volume x E : (0 < h)%R -> hex_body m x E -> volume (hex_nelem m) E = (h * INR nx * (h * INR ny) * (h * INR nz))%R.
Proof.
  intros Hh HB. unfold volume. rewrite (sumn_ext (hex_nelem m) _ (fun _ => h * h * h)%R).
  - unfold sumn. rewrite sumL_const, seq_length. unfold hex_nelem. rewrite !mult_INR. ring.
  - intros e He. exact (proj2 (elem_total x E (mkCall (seq 0 (hex_nelem m)) (fun _ => 0%R)) (fun _ => 0%R) e 0 0 Hh HB (Permutation_refl _) He ltac:(lia) ltac:(lia))).
Qed.

(** ** rigid motions *)
Definition moves3 (w : nat -> nat -> R) (t r : nat -> R) (n : nat) : Prop := forall i, i < 3 -> w n i = rigid_motion t r (val2 (hex_coor m) n) i.
Definition cell_moves w t r ix iy iz : Prop := forall a b c, a <= 1 -> b <= 1 -> c <= 1 -> moves3 w t r (N (ix + a) (iy + b) (iz + c)).

(** two rigid motions that are equal at three corners of a square *)
Lemma same_motion t r t' r' (p : nat -> R) s k : (0 < s)%R -> k < 3 ->
  (forall d i, d < 3 -> i < 3 -> rigid_motion t r p i = rigid_motion t' r' p i /\
     (d <> k -> let q := fun l => (p l + if l =? d then s else 0)%R in rigid_motion t r q i = rigid_motion t' r' q i)) ->
  forall i, i < 3 -> t i = t' i /\ r i = r' i.
Proof.
  intros Hs Hk H.
  assert (Hr : forall i, i < 3 -> r i = r' i).
  { pose proof (H 0 0 ltac:(lia) ltac:(lia)) as [A0 B00]. pose proof (H 0 1 ltac:(lia) ltac:(lia)) as [A1 B01]. pose proof (H 0 2 ltac:(lia) ltac:(lia)) as [A2 B02].
    pose proof (H 1 0 ltac:(lia) ltac:(lia)) as [_ B10]. pose proof (H 1 1 ltac:(lia) ltac:(lia)) as [_ B11]. pose proof (H 1 2 ltac:(lia) ltac:(lia)) as [_ B12].
    pose proof (H 2 0 ltac:(lia) ltac:(lia)) as [_ B20]. pose proof (H 2 1 ltac:(lia) ltac:(lia)) as [_ B21]. pose proof (H 2 2 ltac:(lia) ltac:(lia)) as [_ B22].
    cbv zeta in *. cbn [rigid_motion Nat.eqb] in *. clear H.
    assert (Q : forall a b, (s * a = s * b)%R -> a = b) by (intros a b E; apply (Rmult_eq_reg_l s); [exact E|lra]).
    destruct k as [|[|[|k]]]; [| | |lia].
    - specialize (B10 ltac:(lia)). specialize (B11 ltac:(lia)). specialize (B12 ltac:(lia)). specialize (B20 ltac:(lia)). specialize (B21 ltac:(lia)). specialize (B22 ltac:(lia)). apply lt3; apply Q; lra.
    - specialize (B00 ltac:(lia)). specialize (B01 ltac:(lia)). specialize (B02 ltac:(lia)). specialize (B20 ltac:(lia)). specialize (B21 ltac:(lia)). specialize (B22 ltac:(lia)). apply lt3; apply Q; lra.
    - specialize (B10 ltac:(lia)). specialize (B11 ltac:(lia)). specialize (B12 ltac:(lia)). specialize (B00 ltac:(lia)). specialize (B01 ltac:(lia)). specialize (B02 ltac:(lia)). apply lt3; apply Q; lra. }
  pose proof (H 0 0 ltac:(lia) ltac:(lia)) as [A0 _]. pose proof (H 0 1 ltac:(lia) ltac:(lia)) as [A1 _]. pose proof (H 0 2 ltac:(lia) ltac:(lia)) as [A2 _].
  cbn [rigid_motion] in *. pose proof (Hr 0 ltac:(lia)) as R0. pose proof (Hr 1 ltac:(lia)) as R1. pose proof (Hr 2 ltac:(lia)) as R2. rewrite R0, R1, R2 in *.
  intros i Hi. split; [|now apply Hr]. revert i Hi. apply lt3; lra.
Qed.
Lemma rigid_ext t r t' r' p p' i : (forall i, i < 3 -> t i = t' i /\ r i = r' i /\ p i = p' i) -> i < 3 -> rigid_motion t r p i = rigid_motion t' r' p' i.
Proof.
  intros H. destruct (H 0 ltac:(lia)) as (A1 & A2 & A3). destruct (H 1 ltac:(lia)) as (B1 & B2 & B3). destruct (H 2 ltac:(lia)) as (C1 & C2 & C3).
  revert i. apply lt3; cbn [rigid_motion]; rewrite A1, A2, A3, B1, B2, B3, C1, C2, C3 || rewrite ?A1, ?A2, ?A3, ?B1, ?B2, ?B3, ?C1, ?C2, ?C3; reflexivity.
Qed.

Section W.
Variable w : nat -> nat -> R.
Hypothesis Hh : (0 < h)%R.
Hypothesis HW : forall ix iy iz, ix < nx -> iy < ny -> iz < nz -> exists t r, cell_moves w t r ix iy iz.

(** cells that share the face of which the first corner is (jx, jy, jz), with normal k *)
Lemma shared_face t r t' r' jx jy jz k : k < 3 -> (forall a b c, a + b + c <= 1 -> P3 a b c k = 0 -> jx + a <= nx /\ jy + b <= ny /\ jz + c <= nz) ->
  (forall a b c, a + b + c <= 1 -> P3 a b c k = 0 -> moves3 w t r (N (jx + a) (jy + b) (jz + c)) /\ moves3 w t' r' (N (jx + a) (jy + b) (jz + c))) ->
  forall i, i < 3 -> t i = t' i /\ r i = r' i.
Proof using Hh.
  intros Hk HL HM. apply (same_motion t r t' r' (fun l => h * INR (P3 jx jy jz l))%R h k Hh Hk).
  assert (B : forall a b c, a + b + c <= 1 -> P3 a b c k = 0 -> forall i, i < 3 ->
    rigid_motion t r (fun l => (h * INR (P3 jx jy jz l) + h * INR (P3 a b c l))%R) i = rigid_motion t' r' (fun l => (h * INR (P3 jx jy jz l) + h * INR (P3 a b c l))%R) i).
  { intros a b c Ha Hp i Hi. destruct (HM a b c Ha Hp) as [M1 M2]. destruct (HL a b c Ha Hp) as (L1 & L2 & L3). specialize (M1 i Hi). specialize (M2 i Hi). rewrite M1 in M2.
    assert (Q : forall l, l < 3 -> val2 (hex_coor m) (N (jx + a) (jy + b) (jz + c)) l = (h * INR (P3 jx jy jz l) + h * INR (P3 a b c l))%R).
    { intros l Hl. rewrite coor_N by assumption. revert l Hl. apply lt3; cbn [P3]; rewrite plus_INR; ring. }
    rewrite (rigid_ext t r t r _ (fun l => (h * INR (P3 jx jy jz l) + h * INR (P3 a b c l))%R) i) in M2 by (try assumption; intros l Hl; repeat split; now apply Q).
    rewrite (rigid_ext t' r' t' r' _ (fun l => (h * INR (P3 jx jy jz l) + h * INR (P3 a b c l))%R) i) in M2 by (try assumption; intros l Hl; repeat split; now apply Q). exact M2. }
  assert (Q0 : forall d l, d < 3 -> l < 3 -> (h * INR (P3 (if d =? 0 then 1 else 0) (if d =? 1 then 1 else 0) (if d =? 2 then 1 else 0) l) = if l =? d then h else 0)%R).
  { intros d l Hd Hl. destruct d as [|[|[|d]]]; [| | |lia]; revert l Hl; apply lt3; cbn [P3 Nat.eqb INR]; ring. }
  intros d i Hd Hi. split.
  - specialize (B 0 0 0 ltac:(lia) ltac:(destruct k as [|[|k]]; reflexivity) i Hi).
    rewrite (rigid_ext t r t r _ (fun l => (h * INR (P3 jx jy jz l) + h * INR (P3 0 0 0 l))%R) i), B by (try assumption; intros l Hl; repeat split; revert l Hl; apply lt3; cbn [P3 INR]; ring).
    apply rigid_ext; [|exact Hi]. intros l Hl; repeat split; revert l Hl; apply lt3; cbn [P3 INR]; ring.
  - intros Hdk q. set (a := if d =? 0 then 1 else 0). set (b := if d =? 1 then 1 else 0). set (c := if d =? 2 then 1 else 0).
    assert (Q : forall l, l < 3 -> (h * INR (P3 jx jy jz l) + h * INR (P3 a b c l))%R = q l).
    { intros l Hl. unfold q, a, b, c. rewrite <- (Q0 d l Hd Hl). reflexivity. }
    assert (Ha : a + b + c <= 1) by (unfold a, b, c; destruct d as [|[|[|d]]]; cbn; lia).
    assert (Hp : P3 a b c k = 0) by (unfold a, b, c; destruct d as [|[|[|d]]]; destruct k as [|[|[|k]]]; cbn; lia).
    specialize (B a b c Ha Hp i Hi).
    rewrite (rigid_ext t r t r q (fun l => (h * INR (P3 jx jy jz l) + h * INR (P3 a b c l))%R) i), B by (try assumption; intros l Hl; repeat split; symmetry; now apply Q).
    apply rigid_ext; [|exact Hi]. intros l Hl; repeat split. now apply Q.
Qed.

Lemma moves_ext t r t' r' n : (forall i, i < 3 -> t i = t' i /\ r i = r' i) -> moves3 w t r n -> moves3 w t' r' n.
Proof.
  intros H HM i Hi. rewrite (HM i Hi). apply rigid_ext; [|exact Hi]. intros l Hl. destruct (H l Hl). auto.
Qed.

Lemma grid_moves : 1 <= nx -> 1 <= ny -> 1 <= nz -> exists t r, forall n, n < hex_nnode m -> moves3 w t r n.
Proof using Hh HW.
  intros X1 Y1 Z1. destruct (HW 0 0 0 X1 Y1 Z1) as (t & r & H0). exists t, r.
  assert (A : forall iz, iz < nz -> forall iy, iy < ny -> forall ix, ix < nx -> cell_moves w t r ix iy iz).
  { induction iz as [|iz IHz]; intros Lz.
    - induction iy as [|iy IHy]; intros Ly.
      + induction ix as [|ix IHx]; intros Lx; [exact H0|]. destruct (HW (S ix) 0 0 Lx Ly Lz) as (t' & r' & H').
        assert (Q : forall i, i < 3 -> t' i = t i /\ r' i = r i).
        { apply (shared_face t' r' t r (S ix) 0 0 0); [lia|intros a b c S1 S2; cbn [P3] in S2; lia|]. intros a b c S1 S2. cbn [P3] in S2. split.
          - apply H'; lia.
          - pose proof (IHx ltac:(lia) 1 b c ltac:(lia) ltac:(lia) ltac:(lia)) as M. replace (S ix + a) with (ix + 1) by lia. exact M. }
        intros a b c Ha Hb Hc. apply (moves_ext t' r' t r _ Q). now apply H'.
      + intros ix Lx. destruct (HW ix (S iy) 0 Lx Ly Lz) as (t' & r' & H').
        assert (Q : forall i, i < 3 -> t' i = t i /\ r' i = r i).
        { apply (shared_face t' r' t r ix (S iy) 0 1); [lia|intros a b c S1 S2; cbn [P3] in S2; lia|]. intros a b c S1 S2. cbn [P3] in S2. split.
          - apply H'; lia.
          - pose proof (IHy ltac:(lia) ix Lx a 1 c ltac:(lia) ltac:(lia) ltac:(lia)) as M. replace (S iy + b) with (iy + 1) by lia. exact M. }
        intros a b c Ha Hb Hc. apply (moves_ext t' r' t r _ Q). now apply H'.
    - intros iy Ly ix Lx. destruct (HW ix iy (S iz) Lx Ly Lz) as (t' & r' & H').
      assert (Q : forall i, i < 3 -> t' i = t i /\ r' i = r i).
      { apply (shared_face t' r' t r ix iy (S iz) 2); [lia|intros a b c S1 S2; cbn [P3] in S2; lia|]. intros a b c S1 S2. cbn [P3] in S2. split.
        - apply H'; lia.
        - pose proof (IHz ltac:(lia) iy Ly ix Lx a b 1 ltac:(lia) ltac:(lia) ltac:(lia)) as M. replace (S iz + c) with (iz + 1) by lia. exact M. }
      intros a b c Ha Hb Hc. apply (moves_ext t' r' t r _ Q). now apply H'. }
  intros n Hn. destruct (N3_surj m n Hn) as (ix & iy & iz & Lx & Ly & Lz & ->).
  destruct (cell_of _ _ X1 Lx) as [jx [Jx Ex]]. destruct (cell_of _ _ Y1 Ly) as [jy [Jy Ey]]. destruct (cell_of _ _ Z1 Lz) as [jz [Jz Ez]].
  pose proof (A jz Jz jy Jy jx Jx (ix - jx) (iy - jy) (iz - jz) ltac:(lia) ltac:(lia) ltac:(lia)) as M.
  now replace (jx + (ix - jx)) with ix in M by lia; replace (jy + (iy - jy)) with iy in M by lia; replace (jz + (iz - jz)) with iz in M by lia.
Qed.
End W.
End G.
