(** Hex8::FineLayer: the integration volumes are positive and add up to the volume of the domain. *)
From Coq Require Import Reals ZArith Lra Lia List Arith.
From Verif Require Import Model_Element Spec_Element Proof_Element Proof_ElementQuad4 Proof_ElementMath Proof_ElementThm Proof_ElementHex8 Base Spec Spec2d Spec3d Sums Spec_Vector Spec_Macro Spec_HexMesh Spec_Tiling Spec_Tiling3 Model_Numbering Model_Regular2d Model_FineLayer Model_Hex8Regular Model_Hex8FineLayer
  Proof_Vector Proof_Regular2d Proof_Hex8Regular Proof_FineLayer Proof_FineLayerMesh Proof_FineLayerTiling Proof_Hex8FineLayer Proof_Hex8FineLayerMesh Proof_Hex8FineLayerElem Proof_Tiling3 Proof_Hex8FineLayerTiling Proof_Hex8FineLayerThm Proof_HexBox.
Import ListNotations.
Local Open Scope R_scope.

Lemma jac3_scaled (f : nat -> nat -> R) (o s : nat -> R) (X : nat -> nat -> R) p : (forall m j, (m < 8)%nat -> (j < 3)%nat -> X m j = o j + s j * f m j) ->
  jac3 X p = s 0%nat * s 1%nat * s 2%nat * jac3 f p.
Proof.
  intros H.
  assert (D : forall i j, (j < 3)%nat -> dinterp3 (fun m => X m j) i p = s j * dinterp3 (fun m => f m j) i p).
  { intros i j Hj. rewrite (dinterp3_ext _ (fun m => o j + s j * f m j) i p) by (intros m Hm; now apply H). apply (dinterp3_affine (fun m => f m j)). }
  unfold jac3. cbv zeta. rewrite !D by lia. ring.
Qed.

(** the area of a template, and the sum over the points of a rule *)
Definition tA (T : tmpl) : R := tJ T (1/2) (1/2).
Lemma tA_sum k T g : sumn 8 (fun q => / 8 * tJ T (la k (fun i => g * corner3 q i)) (lb k (fun i => g * corner3 q i))) = tA T.
Proof.
  destruct T as [[[t0 t1] t2] t3]. unfold tA, tJ. generalize (INR (fst t0)) (INR (fst t1)) (INR (fst t2)) (INR (fst t3)) (INR (snd t0)) (INR (snd t1)) (INR (snd t2)) (INR (snd t3)).
  intros a0 a1 a2 a3 b0 b1 b2 b3. rewrite sumn8. unfold ba, bb. destruct k; unfold la, lb, half; corners3; field.
Qed.

Section V.
Variables (nelx nelz n : nat) (wx wz y : nat -> nat) (r : nat -> Z) (h : R).
Hypothesis HL : layered3 nelx nelz n wx wz y r.
Hypothesis Hh : 0 < h.
Notation HX := (l3_x _ _ _ _ _ _ _ HL).
Notation HZ := (l3_z _ _ _ _ _ _ _ HL).
Notation Wx := (W n wx).
Notation Wz := (W n wz).
Notation Hy := (Hy n y).
Notation Y := (Y n y).
Notation NX := (NX nelx n wx).
Notation NZ := (Proof_FineLayer.NX nelz n wz).
Notation L := (L n).
Notation X := (coorl3 nelx nelz n wx wz y r h).
Notation C := (connl3 nelx nelz n wx wz r).
Notation tm3 := (tm3 n r).
Notation nd := (nd nelx nelz n wx wz r).
Notation scl := (scl n wx wz y r h).
Notation bx := (bx n r). Notation by' := (by' n r). Notation bz := (bz n r).

(** the Jacobian of the element with nodes [E] *)
Definition ejac (E : list nat) (p : nat -> R) : R := jac3 (fun m j => val2 X (nth m E 0%nat) j) p.

Lemma ejac_at iy ix iz K p : (iy < L)%nat -> (ix < NX iy)%nat -> (iz < NZ iy)%nat -> In K (tm3 iy) ->
  ejac (map (nd iy ix iz) (corners3 K)) p = scl iy 0%nat * scl iy 1%nat * scl iy 2%nat * (/ 8 * tJ (snd K) (la (fst K) p) (lb (fst K) p)).
Proof.
  intros Hi Hx Hz HK. unfold ejac. rewrite (jac3_scaled (fun m j => lc K j m) (org n wx wz y h iy ix iz) (scl iy)).
  - f_equal. destruct K as [k T]. apply jac3_tmpl.
  - intros m j Hm Hj. assert (LK : length (corners3 K) = 8%nat) by (destruct K as [k [[[t0 t1] t2] t3]]; destruct k; reflexivity).
    assert (EN : nth m (map (nd iy ix iz) (corners3 K)) 0%nat = nd iy ix iz (nth m (corners3 K) (0,0,0)%nat)).
    { rewrite (nth_indep _ 0%nat (nd iy ix iz (0,0,0)%nat)) by (rewrite map_length; lia). apply map_nth. }
    rewrite EN. assert (HT : In (nth m (corners3 K) (0,0,0)%nat) (corners3 K)) by (apply nth_In; lia).
    assert (HC : corner nelx nelz n wx wz y r (nd iy ix iz (nth m (corners3 K) (0,0,0)%nat)) iy ix iz (nth m (corners3 K) (0,0,0)%nat)).
    { apply nd_corner; auto. apply pts_valid. unfold pts. apply in_flat_map. eauto. }
    apply (corner_at nelx nelz n wx wz y r h) in HC. unfold node_at3 in HC. unfold val2, nth2. rewrite (nth_error_nth _ _ [] HC). unfold lc.
    destruct j as [|[|[|j]]]; [reflexivity|reflexivity|reflexivity|lia].
Qed.
Lemma ejac_pos iy ix iz K p : (iy < L)%nat -> (ix < NX iy)%nat -> (iz < NZ iy)%nat -> In K (tm3 iy) -> (forall i, (i < 3)%nat -> -1 <= p i <= 1) ->
  0 < ejac (map (nd iy ix iz) (corners3 K)) p.
Proof.
  intros Hi Hx Hz HK Hp. rewrite ejac_at by assumption.
  assert (B : forall i, (i < 3)%nat -> 0 <= half (p i) <= 1) by (intros i Hi3; specialize (Hp i Hi3); unfold half; lra).
  pose proof (B 0%nat ltac:(lia)). pose proof (B 1%nat ltac:(lia)). pose proof (B 2%nat ltac:(lia)).
  pose proof (fun j => scl_pos nelx nelz n wx wz y r h HL Hh iy j Hi) as S.
  assert (J : 0 < tJ (snd K) (la (fst K) p) (lb (fst K) p)) by (apply tmpl_J; [apply (ts2_templates n r iy), (tm3_snd n r iy), HK| |]; destruct K as [k T]; destruct k; cbn [fst la lb]; lra).
  apply Rmult_lt_0_compat; [apply Rmult_lt_0_compat; [apply Rmult_lt_0_compat|]; apply S|lra].
Qed.

(** the elements of a block fill it *)
Lemma block_area iy : sumL (tm3 iy) (fun K => tA (snd K)) = INR (bx iy * by' iy * bz iy).
Proof.
  unfold Proof_Hex8FineLayerElem.tm3, Proof_Hex8FineLayerTiling.bx, Proof_Hex8FineLayerTiling.by', Proof_Hex8FineLayerTiling.bz. pose proof (not_both n r iy) as B.
  destruct (Rf n (rx r) iy) eqn:E; [rewrite (B eq_refl); cbn [orb]; destruct (iy <? n)%nat|destruct (Rf n (rz r) iy); cbn [orb]; [destruct (iy <? n)%nat|]];
  cbv [sumL fold_right snd sqs lowx upx lowz upz lows ups sq combine tA tJ ba bb fst Nat.mul Nat.add]; cbn [INR]; field.
Qed.

Notation vol g E := (sumn 8 (fun q => ejac E (fun i => g * corner3 q i))).
Lemma block_volume g iy ix iz : (iy < L)%nat -> (ix < NX iy)%nat -> (iz < NZ iy)%nat ->
  sumL (els nelx nelz n wx wz r iy iz ix) (fun E => vol g E) = h * INR (Wx iy) * (h * INR (Hy iy)) * (h * INR (Wz iy)).
Proof.
  intros Hi Hx Hz. unfold els. rewrite sumL_map. rewrite (sumL_ext (tm3 iy) _ (fun K : tmpl3 => scl iy 0%nat * scl iy 1%nat * scl iy 2%nat * tA (snd K))).
  - rewrite sumL_scal, block_area. destruct (sizes nelx nelz n wx wz y r HL iy Hi) as (A & B & D). rewrite A, B, D. unfold Proof_Hex8FineLayerTiling.scl. rewrite !mult_INR. ring.
  - intros K HK. rewrite <- (tA_sum (fst K) (snd K) g), <- sumn_scal. apply sumn_ext. intros q Hq. now apply ejac_at.
Qed.
Lemma layer_volume g iy : (iy < L)%nat -> sumL (lconn3 nelx nelz n wx wz r iy) (fun E => vol g E) = h * INR nelx * (h * INR (Hy iy)) * (h * INR nelz).
Proof.
  intros Hi. unfold lconn3. rewrite sumL_flat_map. rewrite (sumL_ext _ _ (fun _ => INR (NX iy) * (h * INR (Wx iy) * (h * INR (Hy iy)) * (h * INR (Wz iy))))).
  - rewrite sumL_const, seq_length. pose proof (f_equal INR (W_NX _ _ _ _ _ HX iy Hi)) as P. pose proof (f_equal INR (W_NX _ _ _ _ _ HZ iy Hi)) as Q. rewrite mult_INR in P, Q. rewrite <- P, <- Q. ring.
  - intros iz Hz. apply in_seq in Hz. rewrite sumL_flat_map, (sumL_ext _ _ (fun _ => h * INR (Wx iy) * (h * INR (Hy iy)) * (h * INR (Wz iy)))).
    + now rewrite sumL_const, seq_length.
    + intros ix Hx. apply in_seq in Hx. apply block_volume; lia.
Qed.
Lemma mesh_volume g : sumL C (fun E => vol g E) = h * INR nelx * (h * INR (Y L)) * (h * INR nelz).
Proof.
  unfold connl3. rewrite sumL_flat_map. rewrite (sumL_ext _ _ (fun iy => h * INR nelx * h * (h * INR nelz) * INR (Hy iy))).
  - rewrite sumL_scal. replace (sumL (seq 0 L) (fun iy => INR (Hy iy))) with (INR (Y L)); [ring|]. unfold Proof_FineLayer.Y. fold (sumn L (fun iy => INR (Hy iy))).
    generalize L. intros k. induction k as [|k IH]; [reflexivity|]. cbn [nsum]. now rewrite sumn_S, plus_INR, IH.
  - intros iy Hi. apply in_seq in Hi. rewrite layer_volume by lia. ring.
Qed.

Lemma object_volume nelem nip xi w x Q : length C = nelem -> full_rule3 nip xi w -> coordinates C nelem 8 3 X x -> Hex8_obj nelem nip xi w x Q ->
  (forall e q, (e < nelem)%nat -> (q < nip)%nat -> 0 < q_vol Q [e;q]) /\
  sumn nelem (fun e => sumn nip (fun q => q_vol Q [e;q])) = h * INR nelx * (h * INR (Y L)) * (h * INR nelz).
Proof.
  intros HC HR Hx HQ. pose proof (Hex8_facts _ _ _ _ _ _ HQ) as F. destruct (rule3_points _ _ _ HR) as (-> & Hw & g & Hg & Hxi).
  assert (V : forall e q, (e < nelem)%nat -> (q < 8)%nat -> q_vol Q [e;q] = ejac (nth e C []) (fun i => g * corner3 q i)).
  { intros e q He Hq. rewrite (h_vol F e q He Hq), (Hw q Hq), Rmult_1_l. unfold ejac.
    rewrite (jac3_scaled (fun m j => val2 X (nth m (nth e C []) 0%nat) j) (fun _ => 0) (fun _ => 1)) by (intros m j Hm Hj; unfold nodes; rewrite (Hx e m j He Hm Hj); unfold idx2, nth2; ring).
    rewrite !Rmult_1_l. unfold jac3, dinterp3. cbv zeta. unfold point.
    assert (P : forall i f, (i < 3)%nat -> sumn 8 (fun m => dshape3 m i (fun k => xi [q;k]) * f m) = sumn 8 (fun m => dshape3 m i (fun k => g * corner3 q k) * f m)).
    { intros i f Hi. apply sumn_ext. intros m Hm. f_equal. unfold dshape3. rewrite !Hxi by lia. reflexivity. }
    rewrite !P by lia. reflexivity. }
  split.
  - intros e q He Hq. rewrite V by assumption. rewrite <- HC in He.
    destruct (elem_cases3 nelx nelz n wx wz r e) as (iy & ix & iz & K & H); [rewrite <- connl3_length; exact He|].
    destruct (case_facts nelx nelz n wx wz y r HL e iy ix iz K H) as (Hi & Hx' & Hz & HK & En & _). rewrite (nth_error_nth _ _ [] En).
    apply ejac_pos; auto. intros i Hi3. assert (B : corner3 q i = 1 \/ corner3 q i = -1) by (revert q Hq; apply lt8; revert i Hi3; apply lt3; corners3; auto).
    destruct B as [-> | ->]; lra.
  - rewrite <- (mesh_volume g). rewrite (sumL_nth C []). rewrite HC. apply sumn_ext. intros e He. apply sumn_ext. intros q Hq. now apply V.
Qed.
End V.
