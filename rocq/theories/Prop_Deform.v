(** Property C105: moving the nodes of an element object ([update_x]).  An object on the reference geometry and an object of the same
    class on the deformed geometry are related as the mechanics of large deformations says: volumes, gradients and forces. *)
From Coq Require Import Reals Lra Lia Permutation.
From Verif Require Import Model_Element Spec_Element Proof_Element Proof_ElementQuad4 Proof_ElementMath Proof_ElementThm Proof_ElementThm2 Proof_ElementThm3 Proof_ElementAxisym Proof_ElementHex8 Prop_ElementHex8
  Base Spec Sums Model_Pipeline Spec_Pipeline Proof_PipelineElem Spec_Deform Proof_Deform.
Local Open Scope R_scope.

(** the integration volumes change by the determinant of the deformation gradient (all classes) *)
Theorem C105_volume : forall nelem x u E E', deformed nelem x u E E' -> forall c, valid_call nelem c ->
  forall e q, (e < nelem)%nat -> (q < el_nip E)%nat ->
  el_dV E' [e;q] = det_of (el_tdim E) (defgrad (el_GradN_vector E c u) e q) * el_dV E [e;q].
Proof. intros nelem x u E E' H c Hc e q. exact (def_volume nelem x u E E' c e q H Hc). Qed.
Print Assumptions C105_volume.

(** chain rule: d v_j / d X_i = sum_k (d x_k / d X_i) (d v_j / d x_k), for the quadrilateral classes *)
Theorem C105_chain : forall nelem x u E E', deformed nelem x u E E' -> el_ndim E = 2%nat ->
  forall c c' c'', valid_call nelem c -> valid_call nelem c' -> valid_call nelem c'' ->
  forall v e q i j, (e < nelem)%nat -> (q < el_nip E)%nat -> (i < el_tdim E)%nat -> (j < el_tdim E)%nat ->
  let F := defgrad (el_GradN_vector E c'' u) e q in det_of (el_tdim E) F <> 0 ->
  el_GradN_vector E c v [e;q;i;j] = sumn (el_tdim E) (fun k => F k i * el_GradN_vector E' c' v [e;q;k;j]).
Proof.
  intros nelem x u E E' H Hd c c' c'' Hc Hc' Hc'' v e q i j He Hq Hi Hj F HF.
  exact (def_chain nelem x u E E' c c' c'' v e q i j H Hd Hc Hc' Hc'' He Hq Hi Hj HF).
Qed.
Print Assumptions C105_chain.

(** the nodal forces are the same on the deformed geometry, from the Cauchy stress, and on the reference geometry, from the nominal stress *)
Theorem C105_forces : forall nelem x u E E', deformed nelem x u E E' -> el_ndim E = 2%nat ->
  forall c c' c'', valid_call nelem c -> valid_call nelem c' -> valid_call nelem c'' ->
  forall sig P, nominal nelem E (defgrad (el_GradN_vector E c'' u)) sig P ->
  forall e m k, (e < nelem)%nat -> (m < el_nne E)%nat -> (k < el_ndim E)%nat ->
  (forall q, (q < el_nip E)%nat -> det_of (el_tdim E) (defgrad (el_GradN_vector E c'' u) e q) <> 0) ->
  el_Int_gradN_dot_tensor2_dV E' c' sig [e;m;k] = el_Int_gradN_dot_tensor2_dV E c P [e;m;k].
Proof.
  intros nelem x u E E' H Hd c c' c'' Hc Hc' Hc'' sig P HP e m k He Hm Hk HF.
  exact (def_forces nelem x u E E' c c' c'' sig P e m k H Hd Hc Hc' Hc'' HP HF He Hm Hk).
Qed.
Print Assumptions C105_forces.

(** the nominal stress exists: adj(F) . sig *)
Definition adj (n : nat) (F : nat -> nat -> R) (i j : nat) : R :=
  match n with
  | 2%nat => match i, j with
    | 0%nat, 0%nat => F 1%nat 1%nat | 0%nat, _ => - F 0%nat 1%nat
    | _, 0%nat => - F 1%nat 0%nat | _, _ => F 0%nat 0%nat end
  | _ => let s i := (match i with 0 => 1 | 1 => 2 | _ => 0 end)%nat in let t i := (match i with 0 => 2 | 1 => 0 | _ => 1 end)%nat in
         F (s j) (s i) * F (t j) (t i) - F (s j) (t i) * F (t j) (s i)
  end.
Theorem C105_nominal : forall nelem x u E E', deformed nelem x u E E' -> forall F sig,
  nominal nelem E F sig (fun k => match k with [e;q;i;j] => sumn (el_tdim E) (fun a => adj (el_tdim E) (F e q) i a * sig [e;q;a;j]) | _ => 0 end).
Proof.
  intros nelem x u E E' H F sig e q i j He Hq Hi Hj.
  assert (T : el_tdim E = 2%nat \/ el_tdim E = 3%nat) by (destruct H; unrec; auto).
  destruct T as [T|T]; rewrite T in Hi, Hj |- *; clear He Hq H; revert i Hi.
  - apply lt2; rewrite !sumn2; cbn [adj det_of]; ring.
  - apply lt3; rewrite !sumn3; cbn [adj det_of]; ring.
Qed.
Print Assumptions C105_nominal.

(** virtual power: sig : grad v over the deformed body is P : Grad v over the reference body *)
Theorem C105_power : forall nelem x u E E', deformed nelem x u E E' -> el_ndim E = 2%nat ->
  forall c c' c'', valid_call nelem c -> valid_call nelem c' -> valid_call nelem c'' ->
  forall sig P v, nominal nelem E (defgrad (el_GradN_vector E c'' u)) sig P ->
  (forall e q, (e < nelem)%nat -> (q < el_nip E)%nat -> det_of (el_tdim E) (defgrad (el_GradN_vector E c'' u) e q) <> 0) ->
  integral nelem E' sig (el_GradN_vector E' c' v) = integral nelem E P (el_GradN_vector E c v).
Proof.
  intros nelem x u E E' H Hd c c' c'' Hc Hc' Hc'' sig P v HP HF.
  destruct (def_same nelem x u E E' H) as (S1 & S2 & S3 & S4). destruct (def_objs nelem x u E E' H) as (O & O').
  destruct (elem_obj_raw _ _ _ O) as (B & R). destruct (elem_obj_raw _ _ _ O') as (B' & R').
  unfold integral. apply sumn_ext. intros e He.
  rewrite <- (o_vw nelem E' B' R' c' c' sig v e Hc' Hc' He), <- (o_vw nelem E B R c c P v e Hc Hc He). rewrite S1, S2.
  apply sumn_ext. intros m Hm. apply sumn_ext. intros k Hk. f_equal.
  exact (C105_forces nelem x u E E' H Hd c c' c'' Hc Hc' Hc'' sig P HP e m k He Hm Hk (fun q Hq => HF e q He Hq)).
Qed.
Print Assumptions C105_power.

(** Hex8: not the forces, not even for a brick that is sheared: the gradient of the deformed object is wrong (C64) *)
Definition C105_forces_claim : Prop := forall nelem x u E E', deformed nelem x u E E' ->
  forall c c' c'', valid_call nelem c -> valid_call nelem c' -> valid_call nelem c'' ->
  forall sig P, nominal nelem E (defgrad (el_GradN_vector E c'' u)) sig P ->
  forall e m k, (e < nelem)%nat -> (m < el_nne E)%nat -> (k < el_ndim E)%nat ->
  (forall q, (q < el_nip E)%nat -> det_of (el_tdim E) (defgrad (el_GradN_vector E c'' u) e q) <> 0) ->
  el_Int_gradN_dot_tensor2_dV E' c' sig [e;m;k] = el_Int_gradN_dot_tensor2_dV E c P [e;m;k].

Definition cube : arr := fun k => match k with [_;m;i] => corner3 m i | _ => 0 end.
Definition shear : arr := fun k => match k with [_;m;i] => match i with O => corner3 m 1 | _ => 0 end | _ => 0 end.

Lemma cube_sheared : forall e m i, displaced cube shear [e;m;i] = sheared [e;m;i].
Proof. intros e m [|i]; unfold displaced, cube, shear, sheared; ring. Qed.

Theorem C105_hex8_refuted : ~ C105_forces_claim.
Proof.
  intros Claim. set (j := fun _ : list nat => 7). set (xi := Gauss8_xi j). set (w := Gauss8_w j).
  assert (S1 : schedule 1 [0]%nat) by apply Permutation_refl.
  pose proof (Hex8_obj_new 1 8 xi w [0]%nat cube j j j j j S1) as HQ. set (Q := Hex8_new _ _ cube _ _ _ _ _ _ _ _) in HQ.
  pose proof (Hex8_obj_new 1 8 xi w [0]%nat (displaced cube shear) j j j j j S1) as HQ'. set (Q' := Hex8_new _ _ (displaced cube shear) _ _ _ _ _ _ _ _) in HQ'.
  clearbody Q Q'.
  pose proof (Hex8_facts _ _ _ _ _ _ HQ) as F. pose proof (Hex8_facts _ _ _ _ _ _ HQ') as F'.
  assert (Box : forall p, diagonal3 (nodes cube 0) p /\ jac3 (nodes cube 0) p = 1).
  { intros p. destruct (box_diagonal (nodes cube 0) (fun _ => 0) (fun _ => 1) p) as (A & B).
    - intros m i _ _. unfold nodes, cube. ring.
    - split; [exact A|]. rewrite B. ring. }
  assert (HD : deformed 1 cube shear (Hex8_elem Q) (Hex8_elem Q')).
  { apply (def_Hex8 1 cube shear 8 xi w Q Q' HQ HQ'). intros e q He Hq. assert (e0 : e = 0%nat) by lia. rewrite e0.
    destruct (Box (point xi q)) as (A & B). split; [rewrite B; lra|exact A]. }
  set (c := mkCall [0]%nat j). assert (Hc : valid_call 1 c) by exact S1.
  (* displacement gradient *)
  assert (G : forall q i k, (q < 8)%nat -> (i < 3)%nat -> (k < 3)%nat -> el_GradN_vector (Hex8_elem Q) c shear [0%nat;q;i;k] = if ((i =? 1) && (k =? 0))%nat%bool then 1 else 0).
  { intros q i k Hq Hi Hk. unrec. cbn [c_es c_old c].
    rewrite (C64_partial _ _ _ _ _ _ HQ [0]%nat S1 (fun _ => 0) (fun b a => if ((a =? 1) && (b =? 0))%nat%bool then 1 else 0)); try assumption; try lia.
    - reflexivity.
    - rewrite (proj2 (Box _)). lra.
    - exact (proj1 (Box _)).
    - intros m b Hm Hb. rewrite sumn3. revert b Hb. apply lt3; cbn [Nat.eqb andb shear cube]; ring. }
  (* the test displacement: v_1 = X_1 *)
  set (v := fun k : list nat => match k with [_;m;1]%nat => corner3 m 1 | _ => 0 end).
  assert (V : forall q i k, (q < 8)%nat -> (i < 3)%nat -> (k < 3)%nat -> el_GradN_vector (Hex8_elem Q) c v [0%nat;q;i;k] = if ((i =? 1) && (k =? 1))%nat%bool then 1 else 0).
  { intros q i k Hq Hi Hk. unrec. cbn [c_es c_old c].
    rewrite (C64_partial _ _ _ _ _ _ HQ [0]%nat S1 (fun _ => 0) (fun b a => if ((a =? 1) && (b =? 1))%nat%bool then 1 else 0)); try assumption; try lia.
    - reflexivity.
    - rewrite (proj2 (Box _)). lra.
    - exact (proj1 (Box _)).
    - intros m b Hm Hb. rewrite sumn3. revert b Hb. apply lt3; cbn [Nat.eqb andb v cube]; ring. }
  set (sig := fun k : list nat => match k with [_;_;1;1]%nat => 1 | _ => 0 end).
  set (P := fun k : list nat => match k with [_;_;1;1]%nat => 1 | [_;_;0;1]%nat => -1 | _ => 0 end).
  assert (DF : forall q i k, (q < 8)%nat -> (i < 3)%nat -> (k < 3)%nat -> defgrad (el_GradN_vector (Hex8_elem Q) c shear) 0 q i k = (if (i =? k)%nat then 1 else 0) + (if ((k =? 1) && (i =? 0))%nat%bool then 1 else 0)).
  { intros q i k Hq Hi Hk. unfold defgrad. now rewrite G. }
  assert (DetF : forall q, (q < 8)%nat -> det_of 3 (defgrad (el_GradN_vector (Hex8_elem Q) c shear) 0 q) = 1).
  { intros q Hq. cbn [det_of]. rewrite !DF by (assumption || lia). cbn [Nat.eqb andb]. ring. }
  assert (N8 : el_nip (Hex8_elem Q) = 8%nat) by exact (h_nip F).
  assert (HP : nominal 1 (Hex8_elem Q) (defgrad (el_GradN_vector (Hex8_elem Q) c shear)) sig P).
  { intros e q i k He Hq Hi Hk. rewrite N8 in Hq. change (el_tdim (Hex8_elem Q)) with 3%nat in *. assert (e0 : e = 0%nat) by lia. rewrite e0.
    rewrite (DetF q Hq), sumn3, !DF by (assumption || lia). clear e0.
    revert i Hi. apply lt3; revert k Hk; apply lt3; cbn [Nat.eqb andb sig P]; ring. }
  pose proof (r_vw _ _ _ (Hex8_raw _ _ _ _ _ _ HQ) c P v 0%nat Hc ltac:(lia)) as W.
  pose proof (r_vw _ _ _ (Hex8_raw _ _ _ _ _ _ HQ') c sig v 0%nat Hc ltac:(lia)) as W'.
  assert (EQ : sumn (el_nip (Hex8_elem Q')) (fun q => sumn 3 (fun i => sumn 3 (fun j => sig [0%nat;q;i;j] * el_GradN_vector (Hex8_elem Q') c v [0%nat;q;i;j])) * el_dV (Hex8_elem Q') [0%nat;q])
     = sumn (el_nip (Hex8_elem Q)) (fun q => sumn 3 (fun i => sumn 3 (fun j => P [0%nat;q;i;j] * el_GradN_vector (Hex8_elem Q) c v [0%nat;q;i;j])) * el_dV (Hex8_elem Q) [0%nat;q])).
  { change (el_nne (Hex8_elem Q)) with 8%nat in W. change (el_ndim (Hex8_elem Q)) with 3%nat in W. change (el_nne (Hex8_elem Q')) with 8%nat in W'. change (el_ndim (Hex8_elem Q')) with 3%nat in W'.
    etransitivity; [symmetry; exact W'|]. etransitivity; [|exact W]. clear W W' . apply sumn_ext. intros m Hm. apply sumn_ext. intros k Hk. f_equal.
    apply (Claim 1%nat cube shear _ _ HD c c c Hc Hc Hc sig P HP 0%nat m k); try assumption; try lia.
    intros q Hq. rewrite N8 in Hq. change (el_tdim (Hex8_elem Q)) with 3%nat. rewrite (DetF q Hq). lra. }
  assert (L : sumn (el_nip (Hex8_elem Q')) (fun q => sumn 3 (fun i => sumn 3 (fun j => sig [0%nat;q;i;j] * el_GradN_vector (Hex8_elem Q') c v [0%nat;q;i;j])) * el_dV (Hex8_elem Q') [0%nat;q]) = 0).
  { apply sumn_zero. intros q Hq. change (el_nip (Hex8_elem Q')) with (q_nip Q') in Hq. rewrite (h_nip F') in Hq. rewrite !sumn3. cbn [sig]. unrec.
    rewrite (h_grad_at _ _ _ _ _ _ F' _ Hc v _ 0 q 1 1) by (assumption || lia).
    replace (grad8 (q_dNx Q') v 0 q 1 1) with 0; [ring|]. symmetry. apply sumn_zero. intros m Hm. rewrite (h_dNx F') by (assumption || lia).
    unfold cshape3. replace (Jsum _ 1 _) with (Jsum (nodes sheared 0) 1 (point xi q)).
    + rewrite sheared_Jsum. ring.
    + unfold Jsum. rewrite !sumn3. assert (EJ : forall a b, (a < 3)%nat -> (b < 3)%nat -> J3 (nodes sheared 0) (point xi q) [a;b] = J3 (nodes (displaced cube shear) 0) (point xi q) [a;b]).
      { intros a b Ha Hb. cbn [J3]. unfold dinterp3. apply sumn_ext. intros n Hn. unfold nodes. now rewrite cube_sheared. }
      rewrite !(inv3_ext _ _ (fun _ => 0) (fun _ => 0) 1 _ EJ) by lia. reflexivity. }
  rewrite L in EQ.
  assert (R : sumn (el_nip (Hex8_elem Q)) (fun q => sumn 3 (fun i => sumn 3 (fun j => P [0%nat;q;i;j] * el_GradN_vector (Hex8_elem Q) c v [0%nat;q;i;j])) * el_dV (Hex8_elem Q) [0%nat;q]) = sumn 8 (fun _ => 1)).
  { rewrite N8. apply sumn_ext. intros q Hq. rewrite !sumn3, !V by (assumption || lia). cbn [Nat.eqb andb P]. unrec.
    rewrite (h_vol F) by (assumption || lia). rewrite (proj2 (Box _)).
    assert (W8 : w [q] = 1). { unfold w. revert q Hq. apply lt8; reflexivity. }
    rewrite W8. ring. }
  rewrite R, sumn8 in EQ. lra.
Qed.
Print Assumptions C105_hex8_refuted.

(** an object that is moved by update_x: a planar square, stretched to twice its width and sheared; a ring that grows to twice its radius *)
Example C105_ex_planar : let x : arr := fun k => match k with [_;m;i] => corner2 m i | _ => 0 end in
  let u : arr := fun k => match k with [_;m;0]%nat => corner2 m 0 + corner2 m 1 | _ => 0 end in
  let j : arr := fun _ => 7 in
  let P := Planar_new [0;1]%nat 2 x 4 (Gauss4_xi j) (Gauss4_w j) 3 j j j j j in
  let E := Planar_elem P in let E' := Planar_elem (Planar_update_x [1;0]%nat j (displaced x u) P) in
  deformed 2 x u E E' /\ (forall q, (q < 4)%nat -> det_of 3 (defgrad (el_GradN_vector E (mkCall [1;0]%nat j) u) 1 q) = 2 /\ el_dV E [1%nat;q] = 3 /\ el_dV E' [1%nat;q] = 6).
Proof.
  intros x u j P E E'.
  assert (S1 : schedule 2 [0;1]%nat) by apply Permutation_refl. assert (S2 : schedule 2 [1;0]%nat) by apply perm_swap.
  pose proof (Planar_obj_new 2 4 (Gauss4_xi j) (Gauss4_w j) 3 [0;1]%nat x j j j j j S1) as H. fold P in H.
  pose proof (Planar_obj_update 2 4 (Gauss4_xi j) (Gauss4_w j) 3 [1;0]%nat x P (displaced x u) j S2 H) as H'.
  assert (J : forall p e, jac2 (nodes x e) p = 1).
  { intros p e. unfold jac2, dinterp2. rewrite !sumn4. unfold nodes, x, dshape2, corner2. field. }
  assert (HD : deformed 2 x u E E').
  { apply (def_Planar 2 x u 4 _ _ 3 _ _ H H'). intros e q He Hq. rewrite J. lra. }
  split; [exact HD|]. intros q Hq. set (c := mkCall [1;0]%nat j).
  assert (D : det_of 3 (defgrad (el_GradN_vector E c u) 1 q) = 2).
  { assert (G : forall a b, (a < 3)%nat -> (b < 3)%nat -> el_GradN_vector E c u [1%nat;q;a;b] = if (b =? 0)%nat then (if (a <? 2)%nat then 1 else 0) else 0).
    { intros a b Ha Hb. unfold E. unrec. cbn [c c_es c_old]. destruct (P_F _ _ _ _ _ _ u _ c 1 q H S2 ltac:(lia) Hq) as (G & G1 & G2 & G3 & G4 & G5).
      cbn [c_es c_old c] in *.
      assert (GG : forall a b, (a < 2)%nat -> (b < 2)%nat -> Planar_gradN_vector [1;0]%nat P u j [1%nat;q;a;b] = if (b =? 0)%nat then 1 else 0).
      { intros a' b' Ha' Hb'. rewrite G, gsum by assumption. rewrite J. unfold dinterp2. rewrite !sumn4. unfold nodes, x, u, dshape2, corner2.
        clear - Ha' Hb'. revert a' Ha'. apply lt2; revert b' Hb'; apply lt2; cbn [Nat.eqb]; field. }
      revert a Ha. apply lt3; revert b Hb; apply lt3; cbn [Nat.eqb Nat.ltb Nat.leb]; rewrite ?GG by lia; cbn [Nat.eqb]; rewrite ?G1, ?G2, ?G3, ?G4, ?G5; reflexivity. }
    cbn [det_of]. unfold defgrad. rewrite !G by lia. cbn [Nat.eqb Nat.ltb Nat.leb]. ring. }
  assert (V : el_dV E [1%nat;q] = 3).
  { unfold E. unrec. rewrite (f_vol (proj2 (Planar_facts _ _ _ _ _ _ _ H))) by (assumption || lia). rewrite J.
    assert (W : Gauss4_w j [q] = 1) by (revert q Hq D; apply (lt4 (fun q => _ -> Gauss4_w j [q] = 1)); reflexivity). rewrite W. ring. }
  split; [exact D|]. split; [exact V|]. rewrite (C105_volume 2 x u E E' HD c S2 1 q) by (exact Hq || lia). change (el_tdim E) with 3%nat. rewrite D, V. ring.
Qed.

Example C105_ex_axisym : let x : arr := fun k => match k with [_;m;i] => corner2 m i + (if (i =? 1)%nat then 3 else 0) | _ => 0 end in
  let u : arr := fun k => match k with [_;m;1]%nat => corner2 m 1 + 3 | _ => 0 end in
  let j : arr := fun _ => 7 in let xi := MidPoint4_xi (fun _ => 7) in let w : arr := fun _ => 4 in
  let A := Axisym_new [0;1]%nat 2 x 1 xi w j j j j j in
  let E := Axisym_elem A in let E' := Axisym_elem (Axisym_update_x [1;0]%nat j (displaced x u) A) in
  deformed 2 x u E E' /\ el_dV E [1;0]%nat = 24 * PI /\ el_dV E' [1;0]%nat = 4 * (24 * PI) /\
  det_of 3 (defgrad (el_GradN_vector E (mkCall [1;0]%nat j) u) 1 0) = 4.
Proof.
  intros x u j xi w A E E'.
  assert (S1 : schedule 2 [0;1]%nat) by apply Permutation_refl. assert (S2 : schedule 2 [1;0]%nat) by apply perm_swap.
  pose proof (Axisym_obj_new 2 1 xi w [0;1]%nat x j j j j j S1) as H. fold A in H.
  pose proof (Axisym_obj_update 2 1 xi w [1;0]%nat x A (displaced x u) j S2 H) as H'.
  assert (J : forall p e, jac2 (nodes x e) p = 1).
  { intros p e. unfold jac2, dinterp2. rewrite !sumn4. unfold nodes, x, dshape2, corner2. cbn [Nat.eqb]. field. }
  assert (R : forall e, radius xi x e 0 = 3).
  { intros e. unfold radius, interp2. rewrite sumn4. unfold comp, x, Spec_Element.shape2, point, xi, corner2, MidPoint4_xi. blk. cbn [Nat.eqb]. lra. }
  assert (HD : deformed 2 x u E E').
  { apply (def_Axisym 2 x u 1 xi w _ _ H H'). intros e q He Hq. assert (q0 : q = 0%nat) by lia. rewrite q0, J, R. split; lra. }
  assert (V : el_dV E [1;0]%nat = 24 * PI).
  { unfold E. unrec. rewrite (a_f_vol (Axisym_facts _ _ _ _ _ _ H)) by lia. rewrite J, R. unfold w. ring. }
  set (c := mkCall [1;0]%nat j).
  assert (D : det_of 3 (defgrad (el_GradN_vector E c u) 1 0) = 4).
  { destruct (A_F _ _ _ _ _ u _ c 1 0 H S2 ltac:(lia) ltac:(lia)) as (G00 & G22 & G02 & G20 & G11 & G01 & G10 & G12 & G21).
    rewrite !gsum, !J in G00, G22, G02, G20 by lia. rewrite R in G11. cbn [Nat.eqb] in G00, G22, G02, G20.
    cbn [det_of]. unfold defgrad, E. unrec. cbn [Nat.eqb]. rewrite G00, G22, G02, G20, G11, G01, G10, G12, G21.
    unfold dinterp2, interp2. rewrite !sumn4. unfold nodes, comp, x, u, dshape2, Spec_Element.shape2, point, xi, corner2, MidPoint4_xi. blk. cbn [Nat.eqb]. field. }
  split; [exact HD|]. split; [exact V|]. split; [|exact D].
  rewrite (C105_volume 2 x u E E' HD c S2 1 0) by (unfold E; unrec; rewrite ?(a_f_nip (Axisym_facts _ _ _ _ _ _ H)); lia). change (el_tdim E) with 3%nat. rewrite D, V. ring.
Qed.
