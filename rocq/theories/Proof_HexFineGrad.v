(** Hex8::FineLayer: gradients on the layers without refinement, and on the first element of a refined mesh. *)
From Coq Require Import Reals ZArith Lra Lia List Arith.
From Verif Require Import Model_Element Spec_Element Proof_Element Proof_ElementQuad4 Proof_ElementMath Proof_ElementThm Proof_ElementHex8 Base Spec Spec2d Spec3d Sums Spec_Vector Spec_Macro Spec_HexMesh Spec_Tiling Spec_Tiling3 Model_Numbering Model_Regular2d Model_FineLayer Model_Hex8Regular Model_Hex8FineLayer
  Proof_Vector Proof_Regular2d Proof_Hex8Regular Proof_FineLayer Proof_FineLayerMesh Proof_FineLayerTiling Proof_Hex8FineLayer Proof_Hex8FineLayerMesh Proof_Hex8FineLayerElem Proof_Tiling3 Proof_Hex8FineLayerTiling Proof_Hex8FineLayerThm Proof_HexBox.
Import ListNotations.
Local Open Scope R_scope.

(** element of which the nodes are those of a box with edges along the axes *)
Definition box_elem (X : list (list R)) (E : list nat) : Prop :=
  exists c s, (forall i, (i < 3)%nat -> 0 < s i) /\ forall m i, (m < 8)%nat -> (i < 3)%nat -> val2 X (nth m E 0%nat) i = c i + s i * corner3 m i.

Section V.
Variables (nelx nelz n : nat) (wx wz y : nat -> nat) (r : nat -> Z) (h : R).
Hypothesis HL : layered3 nelx nelz n wx wz y r.
Hypothesis Hh : 0 < h.
Notation NX := (NX nelx n wx).
Notation NZ := (Proof_FineLayer.NX nelz n wz).
Notation L := (L n).
Notation X := (coorl3 nelx nelz n wx wz y r h).
Notation C := (connl3 nelx nelz n wx wz r).
Notation tm3 := (tm3 n r).
Notation nd := (nd nelx nelz n wx wz r).
Notation scl := (scl n wx wz y r h).

Lemma val_at iy ix iz K m j : (iy < L)%nat -> (ix < NX iy)%nat -> (iz < NZ iy)%nat -> In K (tm3 iy) -> (m < 8)%nat -> (j < 3)%nat ->
  val2 X (nth m (map (nd iy ix iz) (corners3 K)) 0%nat) j = org n wx wz y h iy ix iz j + scl iy j * lc K j m.
Proof.
  intros Hi Hx Hz HK Hm Hj. assert (LK : length (corners3 K) = 8%nat) by (destruct K as [k [[[t0 t1] t2] t3]]; destruct k; reflexivity).
  assert (EN : nth m (map (nd iy ix iz) (corners3 K)) 0%nat = nd iy ix iz (nth m (corners3 K) (0,0,0)%nat)).
  { rewrite (nth_indep _ 0%nat (nd iy ix iz (0,0,0)%nat)) by (rewrite map_length; lia). apply map_nth. }
  rewrite EN. assert (HT : In (nth m (corners3 K) (0,0,0)%nat) (corners3 K)) by (apply nth_In; lia).
  assert (HC : corner nelx nelz n wx wz y r (nd iy ix iz (nth m (corners3 K) (0,0,0)%nat)) iy ix iz (nth m (corners3 K) (0,0,0)%nat)).
  { apply nd_corner; auto. apply pts_valid. unfold pts. apply in_flat_map. eauto. }
  apply (corner_at nelx nelz n wx wz y r h) in HC. unfold node_at3 in HC. unfold val2, nth2. rewrite (nth_error_nth _ _ [] HC). unfold lc.
  destruct j as [|[|[|j]]]; [reflexivity|reflexivity|reflexivity|lia].
Qed.

Lemma plain_box iy k : (iy < L)%nat -> T n r iy = (-1)%Z -> (k < NX iy * NZ iy)%nat ->
  exists E, nth_error C (SE3 nelx nelz n wx wz r iy + k) = Some E /\ box_elem X E.
Proof.
  intros Hi ET Hk. assert (E3 : tm3 iy = sqs).
  { unfold Proof_Hex8FineLayerElem.tm3, Rf, rx, rz. unfold T in ET. rewrite ET. reflexivity. }
  assert (Hk' : (k < NZ iy * NX iy)%nat) by lia. destruct (split2 _ _ _ Hk') as (iz & ix & A1 & A2 & A3).
  assert (EC : elem_case3 nelx nelz n wx wz r (SE3 nelx nelz n wx wz r iy + k) iy ix iz (KX, sq)).
  { apply (Elem_case3 _ _ _ _ _ _ _ _ _ _ _ 0%nat); auto; rewrite E3; [reflexivity|]. cbn [sqs length]. lia. }
  destruct (case_facts nelx nelz n wx wz y r HL _ _ _ _ _ EC) as (_ & _ & _ & HK & En & _). eexists. split; [exact En|].
  exists (fun i => org n wx wz y h iy ix iz i + scl iy i / 2), (fun i => scl iy i / 2). split.
  - intros i _. pose proof (scl_pos nelx nelz n wx wz y r h HL Hh iy i Hi). lra.
  - intros m i Hm Hi3. rewrite val_at by assumption.
    enough (Q : lc (KX, sq) i m = half (corner3 m i)) by (rewrite Q; unfold half; field).
    revert m Hm. apply lt8; revert i Hi3; apply lt3; unfold lc, half; cbn [corners3 sq nth tX fst snd tc INR]; corners3; field.
Qed.
End V.

(** ** the first element of the mesh of 3 x 9 x 2: (0,0) (3,0) (2,1) (1,1) in the plane of x and y *)
Definition trap (m i : nat) : R :=
  match i with
  | 0%nat => match m with 0%nat | 4%nat => 0 | 1%nat | 5%nat => 3 | 2%nat | 6%nat => 2 | _ => 1 end
  | 1%nat => match m with 0%nat | 1%nat | 4%nat | 5%nat => 0 | _ => 1 end
  | _ => match m with 0%nat | 1%nat | 2%nat | 3%nat => 0 | _ => 1 end
  end.
Definition trapX (h : R) (m i : nat) : R := h * trap m i.
Lemma trap_J h p : J3 (trapX h) p [0;0]%nat = h * (1 - p 1%nat / 2) /\ J3 (trapX h) p [1;0]%nat = - h * p 0%nat / 2 /\ J3 (trapX h) p [1;1]%nat = h / 2 /\ J3 (trapX h) p [2;2]%nat = h / 2 /\ J3 (trapX h) p [0;1]%nat = 0 /\ J3 (trapX h) p [0;2]%nat = 0 /\ J3 (trapX h) p [1;2]%nat = 0 /\ J3 (trapX h) p [2;0]%nat = 0 /\ J3 (trapX h) p [2;1]%nat = 0.
Proof.
  cbn [J3]. unfold dinterp3. rewrite !sumn8. unfold trapX, trap, dshape3. corners3. repeat split; field.
Qed.
Lemma trap_jac h p : jac3 (trapX h) p = h * h * h / 4 * (1 - p 1%nat / 2).
Proof.
  rewrite <- det3_J3. unfold det3. cbv zeta. destruct (trap_J h p) as (E1 & E2 & E3 & E4 & E5 & E6 & E7 & E8 & E9).
  rewrite ?E1, ?E2, ?E3, ?E4, ?E5, ?E6, ?E7, ?E8, ?E9. field.
Qed.
Lemma trap_Jsum h p : 0 < h -> 0 < 2 - p 1%nat -> Jsum (trapX h) 1 p = / h * (2 + p 0%nat * 2 / (2 - p 1%nat)).
Proof.
  intros Hh H. unfold Jsum. rewrite sumn3. unfold inv3. cbv zeta. rewrite det3_J3, trap_jac. blk.
  destruct (trap_J h p) as (E1 & E2 & E3 & E4 & E5 & E6 & E7 & E8 & E9). rewrite ?E1, ?E2, ?E3, ?E4, ?E5, ?E6, ?E7, ?E8, ?E9. field. lra.
Qed.
(** the gradient in direction 1 that the code computes for the displacement u_0 = x_0, in the first point of a rule *)
Lemma trap_grad h g (p : nat -> R) (X : nat -> nat -> R) : 0 < h -> 0 < g <= 1 -> p 0%nat = - g -> p 1%nat = - g -> (forall m i, (m < 8)%nat -> (i < 3)%nat -> X m i = trapX h m i) ->
  sumn 8 (fun m => cshape3 X m 1 p * X m 0%nat) = 2 * g / (2 + g).
Proof.
  intros Hh Hg P0 P1 HX.
  assert (D : forall i j, (j < 3)%nat -> dinterp3 (fun m => X m j) i p = dinterp3 (fun m => trapX h m j) i p).
  { intros i j Hj. apply dinterp3_ext. intros m Hm. now apply HX. }
  assert (EJ : Jsum X 1 p = Jsum (trapX h) 1 p).
  { unfold Jsum. apply sumn_ext. intros k Hk. apply inv3_ext; [|lia|exact Hk]. intros i j Hi Hj. cbn [J3]. now apply D. }
  unfold cshape3. rewrite (sumn_ext 8 _ (fun m => Jsum X 1 p * (dshape3 m 1 p * X m 0%nat))) by (intros m Hm; ring). rewrite sumn_scal.
  change (sumn 8 (fun m => dshape3 m 1 p * X m 0%nat)) with (dinterp3 (fun m => X m 0%nat) 1 p). rewrite D by lia.
  destruct (trap_J h p) as (_ & E2 & _). cbn [J3] in E2. rewrite E2, EJ, trap_Jsum by (assumption || lra). rewrite P0, P1. field. lra.
Qed.
