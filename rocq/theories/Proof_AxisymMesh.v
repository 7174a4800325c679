From Coq Require Import Reals Lra Lia List Arith Permutation.
From Verif Require Import Model_Element Spec_Element Proof_Element Proof_ElementQuad4 Proof_ElementMath Proof_ElementThm Proof_ElementThm2 Base Spec Spec2d Sums Spec_Vector Spec_Tiling Spec_Conform Model_Numbering Model_Regular2d
  Model_FineLayer Model_MeshGeometry Model_Pipeline Spec_Pipeline Proof_PipelineElem Proof_Pipeline Proof_PipelineBalance Spec_Patch Spec_Divergence Proof_Patch Proof_PatchRigid Proof_PatchRegular Proof_Conform Proof_ConformMesh Proof_ConformClosed Spec_QuadMesh Proof_QuadMesh Proof_QuadMeshObj Proof_QuadLinked Prop_Conform
  Spec_AxisymBody Proof_AxisymBody.
Import ListNotations.
Local Open Scope R_scope.

(** ** the rules *)
Lemma curve_Nodal j : not_on_a_curve 4 (Nodal4_xi j).
Proof.
  intros a b c d H. pose proof (H 0%nat ltac:(lia)) as H0. pose proof (H 1%nat ltac:(lia)) as H1. pose proof (H 2%nat ltac:(lia)) as H2. pose proof (H 3%nat ltac:(lia)) as H3. revert H0 H1 H2 H3.
  unfold Nodal4_xi; blk. lra.
Qed.
Lemma gauss_form j q : (q < 4)%nat -> exists s t, Gauss4_xi j [q;0]%nat = s * / sqrt 3 /\ Gauss4_xi j [q;1]%nat = t * / sqrt 3 /\ s = corner2 q 0 /\ t = corner2 q 1.
Proof. revert q. apply lt4; unfold Gauss4_xi; blk; do 2 eexists; repeat split; reflexivity. Qed.
Lemma curve_Gauss j : not_on_a_curve 4 (Gauss4_xi j).
Proof.
  intros a b c d H. set (g := / sqrt 3). assert (S : g <> 0) by apply Rinv_neq_0_compat, sqrt3.
  assert (K : forall q, (q < 4)%nat -> a + b * (corner2 q 0 * g) + c * (corner2 q 1 * g) + d * (corner2 q 0 * g * (corner2 q 1 * g)) = 0).
  { intros q Hq. destruct (gauss_form j q Hq) as (s & t & E0 & E1 & -> & ->). fold g in E0, E1. rewrite <- E0, <- E1. now apply H. }
  pose proof (K 0%nat ltac:(lia)) as H0. pose proof (K 1%nat ltac:(lia)) as H1. pose proof (K 2%nat ltac:(lia)) as H2. pose proof (K 3%nat ltac:(lia)) as H3. clear K H. unfold corner2 in *.
  assert (B : b * g = 0) by lra. assert (C : c * g = 0) by lra. assert (D : d * (g * g) = 0) by lra.
  apply Rmult_integral in B, C, D. assert (GG : g * g <> 0) by (now apply Rmult_integral_contrapositive_currified).
  destruct B as [->|]; [|contradiction]. destruct C as [->|]; [|contradiction]. destruct D as [->|]; [|contradiction]. lra.
Qed.
Lemma biquadratic_Gauss j j' : biquadratic_rule 4 (Gauss4_xi j) (Gauss4_w j').
Proof.
  intros a b Ha Hb. set (g := / sqrt 3). assert (G2 : g * g = / 3). { unfold g. rewrite <- Rinv_mult, sqrt_sqrt by lra. reflexivity. }
  rewrite (sumn_ext 4 _ (fun q => (corner2 q 0 * g) ^ a * (corner2 q 1 * g) ^ b)).
  2:{ intros q Hq. destruct (gauss_form j q Hq) as (s & t & -> & -> & -> & ->). fold g. assert (W : Gauss4_w j' [q] = 1) by (revert q Hq; apply lt4; unfold Gauss4_w; blk; reflexivity). rewrite W. ring. }
  rewrite sumn4. unfold corner2, moment.
  destruct a as [|[|[|a]]]; [| | |lia]; (destruct b as [|[|[|b]]]; [| | |lia]); cbn [pow]; try lra; try nra.
Qed.

(** ** positive volumes *)
Lemma shape_bounds p : -1 <= p 0%nat <= 1 -> -1 <= p 1%nat <= 1 -> forall m, (m < 4)%nat -> 0 <= Spec_Element.shape2 m p.
Proof. intros H0 H1. apply lt4; unfold Spec_Element.shape2, corner2; apply Rmult_le_pos; lra. Qed.
Lemma shape_pos p : -1 < p 0%nat < 1 -> -1 < p 1%nat < 1 -> forall m, (m < 4)%nat -> 0 < Spec_Element.shape2 m p.
Proof. intros H0 H1. apply lt4; unfold Spec_Element.shape2, corner2; apply Rmult_lt_0_compat; lra. Qed.
Lemma shape_one p : Spec_Element.shape2 0 p + Spec_Element.shape2 1 p + Spec_Element.shape2 2 p + Spec_Element.shape2 3 p = 1.
Proof. unfold Spec_Element.shape2, corner2. field. Qed.

Lemma radius_pos (r : nat -> R) p : (forall m, (m < 4)%nat -> 0 <= r m) -> -1 <= p 0%nat <= 1 -> -1 <= p 1%nat <= 1 ->
  ((forall m, (m < 4)%nat -> 0 < r m) \/ (-1 < p 0%nat < 1 /\ -1 < p 1%nat < 1 /\ exists m, (m < 4)%nat /\ r m <> 0)) -> 0 < interp2 r p.
Proof.
  intros Hr H0 H1 H. unfold interp2. pose proof (shape_bounds p H0 H1) as B.
  assert (Q : forall m, (m < 4)%nat -> 0 <= Spec_Element.shape2 m p * r m) by (intros m Hm; apply Rmult_le_pos; auto).
  assert (T : exists m, (m < 4)%nat /\ Spec_Element.shape2 m p * r m <> 0).
  { destruct H as [H|[I0 [I1 [m [Hm Nm]]]]].
    - pose proof (shape_one p) as S. destruct (Req_dec (Spec_Element.shape2 0 p) 0) as [Z0|N0]; [|exists 0%nat; split; [lia|apply Rmult_integral_contrapositive_currified; [exact N0|pose proof (H 0%nat ltac:(lia)); lra]]].
      destruct (Req_dec (Spec_Element.shape2 1 p) 0) as [Z1|N1]; [|exists 1%nat; split; [lia|apply Rmult_integral_contrapositive_currified; [exact N1|pose proof (H 1%nat ltac:(lia)); lra]]].
      destruct (Req_dec (Spec_Element.shape2 2 p) 0) as [Z2|N2]; [|exists 2%nat; split; [lia|apply Rmult_integral_contrapositive_currified; [exact N2|pose proof (H 2%nat ltac:(lia)); lra]]].
      exists 3%nat. split; [lia|]. apply Rmult_integral_contrapositive_currified; [lra|pose proof (H 3%nat ltac:(lia)); lra].
    - exists m. split; [exact Hm|]. apply Rmult_integral_contrapositive_currified; [pose proof (shape_pos p I0 I1 m Hm); lra|exact Nm]. }
  pose proof (sumn_nonneg 4 _ Q) as P. destruct P as [P|P]; [exact P|]. exfalso. destruct T as [m [Hm Nm]]. apply Nm. exact (sumn_nonneg_zero 4 _ Q (eq_sym P) m Hm).
Qed.

Section Q.
Set Default Proof Using "All".
Variables (X Y : list (list R)) (C : list (list nat)) (Lx Ly R0 : R) (x : arr) (nip : nat) (xi w : arr).
Hypothesis HT : tiles X C Lx Ly.
Hypothesis HD : in_domain X Lx Ly.
Hypothesis HC : forall e m, (e < length C)%nat -> (m < 4)%nat -> (idx2 C e m < length X)%nat.
Hypothesis HM : moved_out R0 X Y.
Hypothesis HX : on_mesh C (length C) Y x.
Hypothesis HR : full_rule nip xi w.
Hypothesis H0 : 0 < R0 \/ (R0 = 0 /\ forall q, (q < nip)%nat -> -1 < xi [q;0]%nat < 1 /\ -1 < xi [q;1]%nat < 1).

Lemma moved_jac e q : (e < length C)%nat -> (q < nip)%nat -> 0 < w [q] /\ 0 < jac2 (nodes x e) (point xi q).
Proof.
  intros He Hq. set (x0 := (fun k => match k with [e;m;i] => val2 X (idx2 C e m) i | _ => 0 end) : arr).
  assert (HX0 : on_mesh C (length C) X x0) by (intros e' m i He' Hm Hi; reflexivity).
  destruct (rule_jac X C Lx Ly x0 nip xi w HT HX0 HR e q He Hq) as [W J]. split; [exact W|]. clear H0.
  replace (jac2 (nodes x e) (point xi q)) with (jac2 (nodes x0 e) (point xi q)); [exact J|].
  assert (V : forall m, (m < 4)%nat -> nodes x e m 0%nat = nodes x0 e m 0%nat /\ nodes x e m 1%nat = R0 + nodes x0 e m 1%nat).
  { intros m Hm. unfold nodes. rewrite !HX by (assumption || lia). cbn [x0]. exact (proj2 HM _ (HC e m He Hm)). }
  unfold jac2, dinterp2. rewrite !sumn4. rewrite !(proj1 (V 0%nat ltac:(lia))), !(proj1 (V 1%nat ltac:(lia))), !(proj1 (V 2%nat ltac:(lia))), !(proj1 (V 3%nat ltac:(lia))).
  rewrite !(proj2 (V 0%nat ltac:(lia))), !(proj2 (V 1%nat ltac:(lia))), !(proj2 (V 2%nat ltac:(lia))), !(proj2 (V 3%nat ltac:(lia))). unfold dshape2, corner2. field.
Qed.

Lemma moved_vol A e q : Axisym_obj (length C) nip xi w x A -> (e < length C)%nat -> (q < nip)%nat -> 0 < a_vol A [e;q].
Proof.
  intros HA He Hq. rewrite (a_f_vol (Axisym_facts _ _ _ _ _ _ HA)) by assumption. destruct (moved_jac e q He Hq) as [W J]. pose proof PI_RGT_0 as P.
  assert (Rm : forall m, (m < 4)%nat -> exists y, comp x e 1 m = R0 + y /\ 0 <= y).
  { intros m Hm. pose proof (HC e m He Hm) as L. destruct (proj1 HD _ L) as (a & b & N). destruct (proj1 (proj2 HD) _ _ _ N) as [_ B]. apply node_val in N. exists b.
    split; [|apply B]. unfold comp. rewrite HX by (assumption || lia). rewrite (proj2 (proj2 HM _ L)). now rewrite (proj2 N). }
  destruct (full_rule_facts _ _ _ HR) as (_ & _ & I & _). destruct (I q Hq) as (_ & I0 & I1).
  assert (Rp : 0 < radius xi x e q).
  { unfold radius. apply radius_pos; [|exact I0|exact I1|].
    - intros m Hm. destruct (Rm m Hm) as (y & -> & By). destruct H0 as [Hp|[-> _]]; lra.
    - destruct H0 as [Hp|[Z Hi]].
      + left. intros m Hm. destruct (Rm m Hm) as (y & -> & By). lra.
      + right. destruct (Hi q Hq) as [Q0 Q1]. split; [exact Q0|]. split; [exact Q1|].
        destruct (Req_dec (comp x e 1 0%nat) 0) as [Z0|]; [|exists 0%nat; split; [lia|assumption]]. destruct (Req_dec (comp x e 1 1%nat) 0) as [Z1|]; [|exists 1%nat; split; [lia|assumption]].
        destruct (Req_dec (comp x e 1 2%nat) 0) as [Z2|]; [|exists 2%nat; split; [lia|assumption]]. destruct (Req_dec (comp x e 1 3%nat) 0) as [Z3|]; [|exists 3%nat; split; [lia|assumption]].
        exfalso. assert (Zj : jac2 (nodes x e) (point xi q) = 0).
        { unfold jac2, dinterp2. rewrite !sumn4. unfold comp in Z0, Z1, Z2, Z3. unfold nodes. rewrite Z0, Z1, Z2, Z3. ring. }
        lra. }
  apply Rmult_lt_0_compat; [now apply Rmult_lt_0_compat|]. apply Rmult_lt_0_compat; [lra|exact Rp].
Qed.
End Q.

(** ** one axial displacement holds a body in one piece *)
Section J.
Set Default Proof Using "All".
Variables (C dofs : list (list nat)) (iip : list nat).
Hypothesis HC : Spec.shape2 C (length C) 4.
Notation held n := (held_axially C dofs iip (length C) n).

Lemma side_corners e p q : (e < length C)%nat -> In (p, q) (sides (nth e C [])) -> (exists m, (m < 4)%nat /\ p = idx2 C e m) /\ (exists m, (m < 4)%nat /\ q = idx2 C e m).
Proof.
  intros He Hin. pose proof (row4 C (length C) HC e He) as Er. rewrite (nth_error_nth _ _ [] Er) in Hin. cbn in Hin.
  destruct Hin as [[= <- <-]|[[= <- <-]|[[= <- <-]|[[= <- <-]|[]]]]]; split.
  - exists 0%nat; split; [lia|reflexivity]. - exists 1%nat; split; [lia|reflexivity].
  - exists 1%nat; split; [lia|reflexivity]. - exists 2%nat; split; [lia|reflexivity].
  - exists 2%nat; split; [lia|reflexivity]. - exists 3%nat; split; [lia|reflexivity].
  - exists 3%nat; split; [lia|reflexivity]. - exists 0%nat; split; [lia|reflexivity].
Qed.

Lemma joined_held e f : (e < length C)%nat -> joined C e f -> (forall m, (m < 4)%nat -> held (idx2 C e m)) -> forall m, (m < 4)%nat -> held (idx2 C f m).
Proof.
  intros He HJ H. assert (K : (f < length C)%nat /\ forall m, (m < 4)%nat -> held (idx2 C f m)).
  { induction HJ as [|f g [p q] HJ IH Hg H1 H2]; [split; assumption|]. destruct IH as [Hf IH]. split; [exact Hg|]. intros m Hm.
    destruct (side_corners f p q Hf H1) as [[a [Ha Ea]] _]. unfold back in H2. cbn [fst snd] in H2. destruct (side_corners g q p Hg H2) as [_ [b [Hb Eb]]].
    apply (axially_element _ _ _ _ g b m Hg Hb Hm). rewrite <- Eb, Ea. now apply IH. }
  exact (proj2 K).
Qed.

Lemma one_holds_all n0 : (forall e f, (e < length C)%nat -> (f < length C)%nat -> joined C e f) ->
  (exists e m, (e < length C)%nat /\ (m < 4)%nat /\ idx2 C e m = n0) -> In (idx2 dofs n0 0) iip -> forall n, (exists e m, (e < length C)%nat /\ (m < 4)%nat /\ idx2 C e m = n) -> held n.
Proof.
  intros HJ (e0 & m0 & He0 & Hm0 & E0) Hin n (e & m & He & Hm & <-). apply (joined_held e0 e He0 (HJ e0 e He0 He)); [|exact Hm].
  intros k Hk. apply (axially_element _ _ _ _ e0 m0 k He0 Hm0 Hk). rewrite E0. now apply axially_prescribed.
Qed.
End J.

(** ** nodes on the axis *)
Section A.
Local Close Scope R_scope.
Set Default Proof Using "All".
Variables (conn : list (list nat)) (nelem : nat).
Hypothesis Sc : Spec.shape2 conn nelem 4.
Lemma conforming_closed_off (f : nat -> bool) bot rgt top lft n : conforming_mesh conn bot rgt top lft ->
  (forall q, f q = true -> ~ In (n, q) (outline bot rgt top lft)) -> (forall q, f q = true -> ~ In (q, n) (outline bot rgt top lft)) ->
  Permutation (filter f (map (next_node conn) (corners_at conn nelem n))) (filter f (map (prev_node conn) (corners_at conn nelem n))).
Proof.
  intros HC H1 H2. pose proof (cf_once _ _ _ _ _ HC) as ND. pose proof (corner_side_inj conn nelem Sc ND) as Inj.
  assert (NP : NoDup (list_prod (seq 0 nelem) (seq 0 4))) by (apply (NoDup_map_inv (corner_side conn)); now rewrite <- (all_sides conn nelem Sc)).
  assert (NC : NoDup (corners_at conn nelem n)) by (now apply NoDup_filter).
  assert (InC : forall c, In c (corners_at conn nelem n) <-> fst c < nelem /\ snd c < 4 /\ idx2 conn (fst c) (snd c) = n).
  { intros [e m]. unfold corners_at. rewrite filter_In, in_prod_iff, !in_seq. cbn [fst snd]. rewrite Nat.eqb_eq. intuition lia. }
  assert (InP : forall e m, e < nelem -> m < 4 -> In (e, m) (list_prod (seq 0 nelem) (seq 0 4))) by (intros; apply in_prod; apply in_seq; lia).
  apply NoDup_Permutation.
  - apply NoDup_filter, NoDup_map_inj; [exact NC|]. intros [e m] [e' m'] K K' E. apply InC in K, K'. cbn [fst snd] in *. destruct K as (A1 & A2 & A3), K' as (B1 & B2 & B3).
    apply Inj; [now apply InP|now apply InP|]. unfold corner_side. rewrite E. cbn [fst snd]. congruence.
  - apply NoDup_filter, NoDup_map_inj; [exact NC|]. intros [e m] [e' m'] K K' E. apply InC in K, K'. cbn [fst snd] in *. destruct K as (A1 & A2 & A3), K' as (B1 & B2 & B3).
    unfold prev_node in E. cbn [fst snd] in E.
    assert (Q : (e, (m + 3) mod 4) = (e', (m' + 3) mod 4)).
    { apply Inj; [apply InP; [assumption|apply mod4_lt]|apply InP; [assumption|apply mod4_lt]|]. unfold corner_side, next_node. cbn [fst snd].
      rewrite (proj2 (mod4 m A2)), (proj2 (mod4 m' B2)). congruence. }
    pose proof (f_equal fst Q) as Q1. pose proof (f_equal snd Q) as Q2. cbn [fst snd] in Q1, Q2. f_equal; [exact Q1|]. rewrite <- (proj2 (mod4 m A2)), Q2. apply (mod4 m' B2).
  - intros q. rewrite !filter_In, !in_map_iff. split.
    + intros (([e m] & <- & K) & Fq). apply InC in K. cbn [fst snd] in K. destruct K as (A1 & A2 & A3).
      assert (S : In (n, next_node conn (e, m)) (flat_map sides conn)) by (apply (in_sides conn nelem Sc); exists e, m; repeat split; auto).
      apply (cf_shared _ _ _ _ _ HC _ S) in H1 as S'; [|exact Fq]. unfold back in S'. cbn [fst snd] in S'. apply (in_sides conn nelem Sc) in S'. destruct S' as (e' & m' & B1 & B2 & B3 & B4).
      split; [|exact Fq]. exists (e', (m' + 1) mod 4). split; [|apply InC; cbn [fst snd]; split; [assumption|]; split; [apply mod4_lt|congruence]].
      unfold prev_node. cbn [fst snd]. rewrite (proj1 (mod4 m' B2)). congruence.
    + intros (([e m] & <- & K) & Fq). apply InC in K. cbn [fst snd] in K. destruct K as (A1 & A2 & A3). unfold prev_node. cbn [fst snd].
      assert (S : In (idx2 conn e ((m + 3) mod 4), n) (flat_map sides conn)). { apply (in_sides conn nelem Sc). exists e, ((m + 3) mod 4). rewrite (proj2 (mod4 m A2)). repeat split; auto. apply mod4_lt. }
      apply (cf_shared _ _ _ _ _ HC _ S) in H2 as S'; [|exact Fq]. unfold back in S'. cbn [fst snd] in S'. apply (in_sides conn nelem Sc) in S'. destruct S' as (e' & m' & B1 & B2 & B3 & B4).
      split; [|exact Fq]. exists (e', m'). split; [|apply InC; cbn [fst snd]; repeat split; auto]. unfold next_node. cbn [fst snd]. congruence.
Qed.
End A.

(** ** the volume of a tube *)
Section V.
Set Default Proof Using "All".
Variables (X Y : list (list R)) (C : list (list nat)) (ties : list (nat * nat)) (bot rgt top lft : list nat) (Lx Ly R0 : R).
Hypothesis M : mesh_facts X C ties bot rgt top lft Lx Ly.
Hypothesis HM : moved_out R0 X Y.

Lemma tube_outline : sumL (outline bot rgt top lft) (ring_step Y) = Lx * ((R0 + Ly) * (R0 + Ly) - R0 * R0) / 2.
Proof.
  destruct (mf_opposite _ _ _ _ _ _ _ _ _ M) as (kx & ky & b & t & l & r & O).
  assert (Vn : forall n a c, node_at X n a c -> val2 Y n 0 = a /\ val2 Y n 1 = R0 + c).
  { intros n a c N. assert (L : (n < length X)%nat) by (apply nth_error_Some; unfold node_at in N; congruence). destruct (proj2 HM n L) as [-> ->]. apply node_val in N. now rewrite (proj1 N), (proj2 N). }
  assert (Pb : forall i, (i <= kx)%nat -> val2 Y (b i) 1 = R0 /\ val2 Y (t i) 1 = R0 + Ly /\ val2 Y (t i) 0 = val2 Y (b i) 0).
  { intros i Hi. destruct (op_bx _ _ _ _ _ _ _ _ _ _ _ _ _ _ O i Hi) as (z & N1 & N2). apply Vn in N1, N2. destruct N1 as [-> ->], N2 as [-> ->]. repeat split; ring. }
  assert (Pl : forall i, (i <= ky)%nat -> val2 Y (l i) 0 = 0 /\ val2 Y (r i) 0 = Lx).
  { intros i Hi. destruct (op_ly _ _ _ _ _ _ _ _ _ _ _ _ _ _ O i Hi) as (z & N1 & N2). apply Vn in N1, N2. destruct N1 as [-> _], N2 as [-> _]. auto. }
  assert (E1 : val2 Y (b 0%nat) 0 = 0 /\ val2 Y (b kx) 0 = Lx).
  { rewrite (op_c1 _ _ _ _ _ _ _ _ _ _ _ _ _ _ O), (op_c2 _ _ _ _ _ _ _ _ _ _ _ _ _ _ O). split; apply Pl; lia. }
  assert (OD : odd (fun p q => ring_step Y (p, q))) by (intros p q; unfold ring_step; cbn [fst snd]; field).
  transitivity (along (fun p q => ring_step Y (p, q)) (outline bot rgt top lft)).
  { unfold along. apply sumL_ext. intros [p q] _. reflexivity. }
  rewrite along_outline by exact OD. rewrite (op_b _ _ _ _ _ _ _ _ _ _ _ _ _ _ O), (op_r _ _ _ _ _ _ _ _ _ _ _ _ _ _ O), (op_t _ _ _ _ _ _ _ _ _ _ _ _ _ _ O), (op_l _ _ _ _ _ _ _ _ _ _ _ _ _ _ O).
  rewrite !along_map0. unfold ring_step. cbn [fst snd].
  rewrite (sumn_ext kx (fun i => - (val2 Y (b (i + 1)%nat) 0 - _) * _ / 6) (fun i => - (R0 * R0 / 2) * (val2 Y (b (i + 1)%nat) 0 - val2 Y (b i) 0))).
  2:{ intros i Hi. rewrite (proj1 (Pb i ltac:(lia))), (proj1 (Pb (i + 1)%nat ltac:(lia))). field. }
  rewrite (sumn_ext kx (fun i => - (val2 Y (t (i + 1)%nat) 0 - _) * _ / 6) (fun i => - ((R0 + Ly) * (R0 + Ly) / 2) * (val2 Y (b (i + 1)%nat) 0 - val2 Y (b i) 0))).
  2:{ intros i Hi. destruct (Pb i ltac:(lia)) as (_ & -> & ->). destruct (Pb (i + 1)%nat ltac:(lia)) as (_ & -> & ->). field. }
  rewrite (sumn_zero ky (fun i => - (val2 Y (r (i + 1)%nat) 0 - _) * _ / 6)).
  2:{ intros i Hi. rewrite (proj2 (Pl i ltac:(lia))), (proj2 (Pl (i + 1)%nat ltac:(lia))). field. }
  rewrite (sumn_zero ky (fun i => - (val2 Y (l (i + 1)%nat) 0 - _) * _ / 6)).
  2:{ intros i Hi. rewrite (proj1 (Pl i ltac:(lia))), (proj1 (Pl (i + 1)%nat ltac:(lia))). field. }
  rewrite !sumn_scal, !(telescope kx (fun i => val2 Y (b i) 0)), (proj1 E1), (proj2 E1). field.
Qed.

Lemma nodes_moved n a c : node_at X n a c -> val2 Y n 0 = a /\ val2 Y n 1 = R0 + c.
Proof. intros N. assert (L : (n < length X)%nat) by (apply nth_error_Some; unfold node_at in N; congruence). destruct (proj2 HM n L) as [-> ->]. apply node_val in N. now rewrite (proj1 N), (proj2 N). Qed.

Lemma bottom_at_axis n : R0 = 0 -> In n bot -> ~ In n rgt -> ~ In n lft -> closed_at_axis C (length C) Y n.
Proof.
  intros Z Hb Hr Hl. destruct (mf_opposite _ _ _ _ _ _ _ _ _ M) as (kx & ky & b & t & l & r & O).
  assert (B : forall p, In p bot -> val2 Y p 1 = 0).
  { intros p Hp. rewrite (op_b _ _ _ _ _ _ _ _ _ _ _ _ _ _ O) in Hp. apply in_map_iff in Hp. destruct Hp as (i & <- & Hi). apply in_seq in Hi.
    destruct (op_bx _ _ _ _ _ _ _ _ _ _ _ _ _ _ O i ltac:(lia)) as (z & N1 & _). apply nodes_moved in N1. rewrite (proj2 N1), Z. ring. }
  assert (T : ~ In n top).
  { intros Ht. rewrite (op_t _ _ _ _ _ _ _ _ _ _ _ _ _ _ O) in Ht. apply in_map_iff in Ht. destruct Ht as (i & E & Hi). apply in_seq in Hi.
    destruct (op_bx _ _ _ _ _ _ _ _ _ _ _ _ _ _ O i ltac:(lia)) as (z & _ & N2). apply nodes_moved in N2. rewrite E, (B n Hb), Z in N2. pose proof (mf_Ly _ _ _ _ _ _ _ _ _ M). lra. }
  split; [now apply B|].
  assert (Off : forall q, off_axis Y q = true -> ~ In q bot). { intros q Hq Hin. unfold off_axis in Hq. rewrite (B q Hin) in Hq. destruct (Req_EM_T 0 0); [discriminate|lra]. }
  apply (conforming_closed_off C (length C) (mf_C _ _ _ _ _ _ _ _ _ M) (off_axis Y) bot rgt top lft n (mf_conforming _ _ _ _ _ _ _ _ _ M)); intros q Hq; apply Off in Hq; unfold outline; rewrite !in_app_iff, !in_map_iff;
    intros [H|[H|[([c d] & E & H)|([c d] & E & H)]]]; try (unfold back in E; cbn in E; injection E as -> ->); apply steps_in in H; tauto.
Qed.
End V.
