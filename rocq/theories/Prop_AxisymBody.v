(** Property C116: bodies of revolution (QuadratureAxisymmetric): volume, zero-energy displacements, uniqueness of the solution, patch test. *)
From Coq Require Import Reals Lra Lia List Arith Permutation.
From Verif Require Import Model_Element Spec_Element Proof_Element Proof_ElementQuad4 Proof_ElementMath Proof_ElementThm Proof_ElementThm2 Base Spec Spec2d Sums Spec_Vector Spec_Matrix Spec_MatrixOps Spec_Tiling Spec_Conform Model_Numbering Model_Regular2d
  Model_Vector Model_VectorPartitioned Model_Sparse Model_Matrix Model_MatrixPartitioned Model_FineLayer Model_MeshGeometry Model_Pipeline Spec_Pipeline Spec_Patch Spec_Divergence Spec_QuadMesh Spec_Macro Spec_AxisymBody
  Proof_Vector Proof_Numbering Proof_Matrix Proof_MatrixPartitioned Prop_MatrixPartitioned Proof_Regular2d Proof_PipelineElem Proof_Pipeline Proof_PipelineBalance Proof_PipelineEx Prop_Pipeline
  Proof_Patch Proof_PatchRigid Proof_PatchRegular Prop_Patch Proof_QuadMesh Proof_QuadMeshObj Proof_QuadLinked Proof_ConformClosed Prop_Conform Proof_AxisymBody Proof_AxisymPatch Proof_AxisymMesh.

(** ** the rules, and the bodies *)

(** C116: the points of Gauss and nodal integration are not on a curve; Gauss integration is exact for polynomials of degree two in each coordinate *)
Theorem C116_rules : forall j j', not_on_a_curve 4 (Gauss4_xi j) /\ not_on_a_curve 4 (Nodal4_xi j) /\ biquadratic_rule 4 (Gauss4_xi j) (Gauss4_w j').
Proof. intros j j'. split; [apply curve_Gauss|]. split; [apply curve_Nodal|apply biquadratic_Gauss]. Qed.
Print Assumptions C116_rules.

(** ... nodal integration is not (and neither is the mid-point rule), although the number of points is the same *)
Theorem C116_rules_refuted : forall j j', ~ biquadratic_rule 4 (Nodal4_xi j) (Nodal4_w j') /\ ~ biquadratic_rule 1 (MidPoint4_xi j) (MidPoint4_w j').
Proof.
  intros j j'. split; intros H; specialize (H 2 0 ltac:(lia) ltac:(lia)); revert H.
  - rewrite sumn4. unfold Nodal4_xi, Nodal4_w, moment; blk. cbn [pow]. lra.
  - unfold sumn, sumL. cbn [seq fold_right]. unfold MidPoint4_xi, MidPoint4_w, moment; blk. cbn [pow]. lra.
Qed.
Print Assumptions C116_rules_refuted.

(** C116: on the planar meshes of the library, moved away from the axis or (for Gauss integration) with the lower side on the axis, the
    integration volumes are positive *)
Theorem C116_bodies : forall X C ties bot rgt top lft Lx Ly, quad_mesh X C ties bot rgt top lft Lx Ly -> forall R0 Y x, moved_out R0 X Y -> on_mesh C (length C) Y x ->
  (forall j j' A, (0 <= R0)%R -> Axisym_obj (length C) 4 (Gauss4_xi j) (Gauss4_w j') x A -> ring_obj (length C) x (Axisym_elem A) /\ exact_ring (length C) x (Axisym_elem A)) /\
  (forall j j' A, (0 < R0)%R -> Axisym_obj (length C) 4 (Nodal4_xi j) (Nodal4_w j') x A -> ring_obj (length C) x (Axisym_elem A)).
Proof.
  intros X C ties bot rgt top lft Lx Ly H R0 Y x HM HX. pose proof (quad_mesh_facts _ _ _ _ _ _ _ _ _ H) as M.
  assert (HC : forall e m, e < length C -> m < 4 -> idx2 C e m < length X).
  { intros e m He Hm. pose proof (row4 C (length C) (mf_C _ _ _ _ _ _ _ _ _ M) e He) as Er. apply (mf_range _ _ _ _ _ _ _ _ _ M _ _ (nth_error_In _ _ Er)). destruct m as [|[|[|[|]]]]; [| | | |lia]; cbn; tauto. }
  split; intros j j' A HR HA.
  - assert (V : forall e q, e < length C -> q < 4 -> (0 < a_vol A [e;q])%R).
    { intros e q. apply (moved_vol X Y C Lx Ly R0 x 4 _ _ (mf_tiles _ _ _ _ _ _ _ _ _ M) (mf_domain _ _ _ _ _ _ _ _ _ M) HC HM HX (rule_Gauss j j')); [|exact HA].
      destruct HR as [HR|HR]; [now left|right]. split; [now rewrite <- HR|]. intros k Hk. pose proof sqrt3_inv as S.
      assert (S1 : (1 / sqrt 3 < 1)%R). { destruct S as [S [L|E]]; [exact L|]. exfalso. assert (Q : sqrt 3 = 1%R). { assert (sqrt 3 <> 0)%R by apply sqrt3. apply (Rmult_eq_compat_r (sqrt 3)) in E. unfold Rdiv in E. rewrite Rmult_assoc, Rinv_l in E by assumption. lra. }
        pose proof (sqrt_sqrt 3 ltac:(lra)) as D. rewrite Q in D. lra. }
      unfold Rdiv in S, S1. rewrite Rmult_1_l in S, S1.
      destruct (gauss_form j k Hk) as (s & t & -> & -> & -> & ->). revert k Hk. apply lt4; unfold corner2; lra. }
    split; [exact (ring_new _ _ _ _ _ _ HA (curve_Gauss j) V)|exact (exact_new _ _ _ _ _ _ HA (biquadratic_Gauss j j') V)].
  - apply (ring_new _ _ _ _ _ _ HA (curve_Nodal j)). intros e q.
    apply (moved_vol X Y C Lx Ly R0 x 4 _ _ (mf_tiles _ _ _ _ _ _ _ _ _ M) (mf_domain _ _ _ _ _ _ _ _ _ M) HC HM HX (rule_Nodal j j')); [now left|exact HA].
Qed.
Print Assumptions C116_bodies.

(** ** volume *)

(** C116: in a conforming mesh the integration volumes add up to 2 pi times the integral of the radius over the area in the outline *)
Theorem C116_volume : forall X C bot rgt top lft nelem x E, exact_ring nelem x E -> on_mesh C nelem X x -> shape2 C nelem 4 -> conforming_mesh C bot rgt top lft ->
  volume nelem E = (2 * PI * sumL (outline bot rgt top lft) (ring_step X))%R.
Proof.
  intros X C bot rgt top lft nelem x E HE HX Sc HC. unfold volume.
  exact (ring_total C E nelem X x HE HX bot rgt top lft Sc HC).
Qed.
Print Assumptions C116_volume.

(** C116: the volume of a tube, or a solid cylinder (R0 = 0) *)
Theorem C116_tube : forall X C ties bot rgt top lft Lx Ly, quad_mesh X C ties bot rgt top lft Lx Ly -> forall R0 Y x j j' A, (0 <= R0)%R -> moved_out R0 X Y -> on_mesh C (length C) Y x ->
  Axisym_obj (length C) 4 (Gauss4_xi j) (Gauss4_w j') x A -> volume (length C) (Axisym_elem A) = (PI * ((R0 + Ly) * (R0 + Ly) - R0 * R0) * Lx)%R.
Proof.
  intros X C ties bot rgt top lft Lx Ly H R0 Y x j j' A HR HM HX HA. pose proof (quad_mesh_facts _ _ _ _ _ _ _ _ _ H) as M.
  destruct (proj1 (C116_bodies _ _ _ _ _ _ _ _ _ H R0 Y x HM HX) j j' A HR HA) as [_ HE].
  rewrite (C116_volume Y C bot rgt top lft (length C) x _ HE HX (mf_C _ _ _ _ _ _ _ _ _ M) (mf_conforming _ _ _ _ _ _ _ _ _ M)).
  rewrite (tube_outline X Y C ties bot rgt top lft Lx Ly R0 M HM). field.
Qed.
Print Assumptions C116_tube.

(** ** zero-energy displacements, and uniqueness *)

(** C116: the strain of an element is zero (at all points) for a translation along the axis, and for nothing else *)
Theorem C116_no_strain : forall nelem x E, ring_obj nelem x E -> forall c u e, valid_call nelem c -> e < nelem ->
  (forall q i j, q < el_nip E -> i < 3 -> j < 3 -> el_SymGradN_vector E c u [e;q;i;j] = 0%R) <-> slides u e.
Proof.
  intros nelem x E HE c u e Hc He.
  assert (Sy : forall q i j, q < el_nip E -> i < 3 -> j < 3 -> el_SymGradN_vector E c u [e;q;i;j] = ((el_GradN_vector E c u [e;q;i;j] + el_GradN_vector E c u [e;q;j;i]) / 2)%R).
  { intros q i j Hq Hi Hj. destruct HE as [nip xi w x' A H HL HV]. cbn [Axisym_elem el_nip] in Hq. rewrite (a_f_nip (Axisym_facts _ _ _ _ _ _ H)) in Hq. now apply (ring_sym nelem nip xi w x' A H). }
  split.
  - intros HZ. apply (slides_of_strain nelem x E HE c u e Hc He). intros q i j Hq Hi Hj. pose proof (HZ q i j Hq Hi Hj) as Z. rewrite Sy in Z by assumption. lra.
  - intros HS q i j Hq Hi Hj. rewrite Sy by assumption. rewrite !(strain_of_slides nelem x E HE c u e Hc He HS) by assumption. lra.
Qed.
Print Assumptions C116_no_strain.

(** ... but the single integration point of the mid-point rule does not see the hourglass displacements, axial and radial *)
Theorem C116_midpoint : forall nelem j j' x A c a b u e, Axisym_obj nelem 1 (MidPoint4_xi j) (MidPoint4_w j') x A -> valid_call nelem c -> e < nelem ->
  (forall m, m < 4 -> u [e;m;0] = (if Nat.even m then a else - a)%R /\ u [e;m;1] = (if Nat.even m then b else - b)%R) ->
  forall q i k, q < 1 -> i < 3 -> k < 3 -> el_GradN_vector (Axisym_elem A) c u [e;q;i;k] = 0%R.
Proof.
  intros nelem j j' x A c a b u e H Hc He Hu q i k Hq Hi Hk. assert (q = 0) as -> by lia.
  assert (P : point (MidPoint4_xi j) 0 0%nat = 0%R /\ point (MidPoint4_xi j) 0 1%nat = 0%R) by (unfold point, MidPoint4_xi; blk; split; reflexivity). destruct P as [P0 P1].
  assert (Z : forall f d i, i < 2 -> (forall m, m < 4 -> f m = (if Nat.even m then d else - d)%R) -> sumn 4 (fun m => gshape2 (nodes x e) m i (point (MidPoint4_xi j) 0) * f m)%R = 0%R).
  { intros f d i' Hi' V. rewrite sumn4, !V by lia. cbn [Nat.even].
    unfold gshape2. destruct i' as [|i']; cbv zeta; unfold Rdiv; set (y := (/ jac2 _ _)%R); unfold dshape2, corner2; rewrite P0, P1; lra. }
  assert (V0 : forall m, m < 4 -> u [e;m;0] = (if Nat.even m then a else - a)%R) by (intros; now apply Hu).
  assert (V1 : forall m, m < 4 -> u [e;m;1] = (if Nat.even m then b else - b)%R) by (intros; now apply Hu).
  rewrite (ring_grad nelem 1 _ _ x A H c u e 0 i k Hc He ltac:(lia) Hi Hk).
  destruct i as [|[|[|i]]]; try lia; destruct k as [|[|[|k]]]; try lia; try reflexivity; try (now apply (Z _ a); try lia); try (now apply (Z _ b); try lia).
  unfold interp2, comp. rewrite sumn4, !V1 by lia. cbn [Nat.even]. unfold Spec_Element.shape2, corner2. rewrite P0, P1. unfold Rdiv. ring.
Qed.
Print Assumptions C116_midpoint.

(** C116: a body that is held along the axis has no mechanism: nothing has to be held in radial direction *)
Theorem C116_held : forall conn dofs nelem nnode ndof x E iip, ring_obj nelem x E -> mesh_dofs conn dofs nelem (el_nne E) nnode (el_ndim E) ndof -> no_holes dofs ndof ->
  forall C, strictly_elastic nelem E C ->
  (forall n, n < nnode -> exists e m, e < nelem /\ m < 4 /\ n = idx2 conn e m) -> (forall n, n < nnode -> held_axially conn dofs iip nelem n) ->
  no_mechanism (mkVector conn (el_nne E) dofs (el_ndim E)) nelem ndof E C iip.
Proof. intros conn dofs nelem nnode ndof x E iip HE Hm Hh C HC. exact (ring_no_mechanism conn dofs E nelem nnode ndof x HE Hm iip C Hh HC). Qed.
Print Assumptions C116_held.

(** C116: and a body that is not held along the axis has one, even if all radial displacements are prescribed *)
Theorem C116_floating : forall conn dofs nelem nnode ndof x E iip, ring_obj nelem x E -> mesh_dofs conn dofs nelem (el_nne E) nnode (el_ndim E) ndof ->
  0 < nnode -> (forall n, n < nnode -> ~ In (idx2 dofs n 0) iip) -> (forall n k, n < nnode -> k < nnode -> idx2 dofs n 0 <> idx2 dofs k 1) ->
  forall C, ~ no_mechanism (mkVector conn (el_nne E) dofs (el_ndim E)) nelem ndof E C iip.
Proof. intros conn dofs nelem nnode ndof x E iip HE Hm H0 Hi Hs C. exact (ring_floats conn dofs E nelem nnode ndof x HE Hm iip C H0 Hi Hs). Qed.
Print Assumptions C116_floating.

(** C116: on the planar meshes of the library one prescribed axial displacement is enough *)
Theorem C116_connected : forall X C ties bot rgt top lft Lx Ly, quad_mesh X C ties bot rgt top lft Lx Ly -> forall x E Cs dofs ndof iip n0,
  ring_obj (length C) x E -> mesh_dofs C dofs (length C) 4 (length X) 2 ndof -> no_holes dofs ndof -> strictly_elastic (length C) E Cs ->
  n0 < length X -> In (idx2 dofs n0 0) iip -> no_mechanism (mkVector C 4 dofs 2) (length C) ndof E Cs iip.
Proof.
  intros X C ties bot rgt top lft Lx Ly H x E Cs dofs ndof iip n0 HE Hm Hh HC L0 Hin. pose proof (quad_mesh_facts _ _ _ _ _ _ _ _ _ H) as M. destruct (ring_dims _ _ _ HE) as [D4 [D2 _]].
  pose proof (C116_held C dofs (length C) (length X) ndof x E iip HE) as K. rewrite D4, D2 in K. apply (K Hm Hh Cs HC).
  - intros n Hn. destruct (quad_covered _ _ _ _ _ _ _ _ _ M n Hn) as (e & m & He & Hm' & <-). now exists e, m.
  - intros n Hn. apply (one_holds_all C dofs iip (mf_C _ _ _ _ _ _ _ _ _ M) n0); [exact (quad_joined _ _ _ _ _ _ _ _ _ M)|exact (quad_covered _ _ _ _ _ _ _ _ _ M n0 L0)|exact Hin|exact (quad_covered _ _ _ _ _ _ _ _ _ M n Hn)].
Qed.
Print Assumptions C116_connected.

(** ** the patch test *)

(** C116: the forces of a uniform stress, equal in radial and circumferential direction and without shear, balance at every node around
    which the elements close; and, along the axis, at the nodes on the axis *)
Theorem C116_uniform : forall conn dofs nelem nnode ndof X x E, exact_ring nelem x E -> mesh_dofs conn dofs nelem (el_nne E) nnode (el_ndim E) ndof -> on_mesh conn nelem X x ->
  let v := mkVector conn (el_nne E) dofs (el_ndim E) in
  forall c sig S, valid_call nelem c -> uniform nelem E sig S -> S 0 0 = S 1 1 -> S 0 2 = 0%R ->
  exists f, AssembleNode v (to_rows nelem (el_nne E) (el_ndim E) (el_Int_gradN_dot_tensor2_dV E c sig)) = Ok f /\ Spec.shape2 f nnode 2 /\
    forall n i, n < nnode -> i < 2 -> closed_or_axis conn nelem X n i -> own_dofs dofs nnode 2 n -> val2 f n i = 0%R.
Proof.
  intros conn dofs nelem nnode ndof X x E HE Hm HX v c sig S Hc HS S0 S2.
  destruct (AssembleNode_spec v nelem _ nnode _ ndof eq_refl eq_refl Hm _ (to_rows_shape nelem (el_nne E) (el_ndim E) (el_Int_gradN_dot_tensor2_dV E c sig))) as [f [Ef [Sf Vf]]].
  exists f. split; [exact Ef|]. destruct (exact_dims E nelem x HE) as [D4 [D2 _]]. split; [rewrite <- D2; exact Sf|].
  intros n i Hn Hi HC HO. apply (ring_uniform_force conn dofs E nelem nnode ndof X x HE Hm HX c sig S f n i); try assumption.
  intros n' j Hn' Hj. rewrite Vf by assumption. unfold sum_elem. apply sumn_ext. intros e He. apply sumn_ext. intros k Hk. apply sumn_ext. intros l Hl. now rewrite to_rows_val.
Qed.
Print Assumptions C116_uniform.

(** the internal force of a stretch of a homogeneous body is zero at these nodes *)
Theorem C116_stretch : forall conn dofs nelem nnode ndof X x E, exact_ring nelem x E -> mesh_dofs conn dofs nelem (el_nne E) nnode (el_ndim E) ndof -> on_mesh conn nelem X x ->
  let v := mkVector conn (el_nne E) dofs (el_ndim E) in
  forall law c1 c2 a b s u, valid_call nelem c1 -> valid_call nelem c2 -> axially_symmetric nelem E law -> stretch_field nnode X a b s u ->
  exists f, internal_force v E law c1 c2 u = Ok f /\ Spec.shape2 f nnode 2 /\
    forall n i, n < nnode -> i < 2 -> closed_or_axis conn nelem X n i -> own_dofs dofs nnode 2 n -> val2 f n i = 0%R.
Proof.
  intros conn dofs nelem nnode ndof X x E HE Hm HX v law c1 c2 a b s u H1 H2 HL Hu. exact (stretch_force conn dofs E nelem nnode ndof X x HE Hm HX law c1 c2 a b s u H1 H2 HL Hu).
Qed.
Print Assumptions C116_stretch.

(** isotropic linear elasticity is such a material, and has no zero-energy strains *)
Theorem C116_isotropic : forall nelem A lam mu C, (forall e q i j k l, C [e;q;i;j;k;l] = lam * (ind (i =? j) * ind (k =? l)) + mu * (ind (i =? k) * ind (j =? l) + ind (i =? l) * ind (j =? k)))%R ->
  axially_symmetric nelem (Axisym_elem A) (ddot42 3 C) /\ ((0 < mu)%R -> (0 < 3 * lam + 2 * mu)%R -> strictly_elastic nelem (Axisym_elem A) C).
Proof.
  intros nelem Ax lam mu C HC.
  assert (D : forall A e q i j, i < 3 -> j < 3 -> ddot42 3 C A [e;q;i;j]%nat = (lam * ind (i =? j) * (A [e;q;0;0]%nat + A [e;q;1;1]%nat + A [e;q;2;2]%nat) + mu * (A [e;q;i;j]%nat + A [e;q;j;i]%nat))%R).
  { intros A e q i j Hi Hj. unfold ddot42, sumn, sumL. cbn [seq fold_right]. rewrite !HC. unfold ind.
    destruct i as [|[|[|i]]]; try lia; destruct j as [|[|[|j]]]; try lia; cbn [Nat.eqb]; generalize (A [e;q;0;0]%nat); generalize (A [e;q;0;1]%nat); generalize (A [e;q;0;2]%nat); generalize (A [e;q;1;0]%nat); generalize (A [e;q;1;1]%nat); generalize (A [e;q;1;2]%nat); generalize (A [e;q;2;0]%nat); generalize (A [e;q;2;1]%nat); generalize (A [e;q;2;2]%nat); intros; ring. }
  split.
  - intros A a b HA. exists (stretched (lam * (2 * a + b) + 2 * mu * a)%R (lam * (2 * a + b) + 2 * mu * b)%R). split; [|split; reflexivity].
    intros e q i j He Hq Hi Hj. cbn [Axisym_elem el_tdim] in Hi, Hj. rewrite D by assumption. rewrite !(HA e q) by (cbn [Axisym_elem el_tdim]; first [assumption|lia]). unfold stretched, ind.
    destruct i as [|[|[|i]]]; try lia; destruct j as [|[|[|j]]]; try lia; cbn [Nat.eqb]; ring.
  - intros Hmu Hla A e q He Hq energy. cbn [Axisym_elem el_tdim] in *.
    set (a := A [e;q;0;0]%nat). set (b := A [e;q;1;1]%nat). set (c := A [e;q;2;2]%nat). set (d := (A [e;q;0;1]%nat + A [e;q;1;0]%nat)%R). set (f := (A [e;q;0;2]%nat + A [e;q;2;0]%nat)%R). set (g := (A [e;q;1;2]%nat + A [e;q;2;1]%nat)%R).
    assert (Ee : energy = ((lam + 2 * mu / 3) * ((a + b + c) * (a + b + c)) + 2 * mu / 3 * ((a - b) * (a - b) + (b - c) * (b - c) + (a - c) * (a - c)) + mu * (d * d + f * f + g * g))%R).
    { unfold energy, sumn, sumL. cbn [seq fold_right]. rewrite !D by lia. unfold ind. cbn [Nat.eqb]. fold a b c. unfold d, f, g. field. }
    rewrite Ee. clear Ee energy.
    assert (Q : forall z, (0 <= z * z)%R) by (intros z; apply Rle_0_sqr).
    pose proof (Q (a + b + c)%R) as Qt. pose proof (Q (a - b)%R) as Q1. pose proof (Q (b - c)%R) as Q2. pose proof (Q (a - c)%R) as Q3. pose proof (Q d) as Qd. pose proof (Q f) as Qf. pose proof (Q g) as Qg.
    assert (P1 : (0 < lam + 2 * mu / 3)%R) by lra.
    assert (T1 : (0 <= (lam + 2 * mu / 3) * ((a + b + c) * (a + b + c)))%R) by (apply Rmult_le_pos; lra).
    assert (T2 : (0 <= 2 * mu / 3 * ((a - b) * (a - b) + (b - c) * (b - c) + (a - c) * (a - c)))%R) by (apply Rmult_le_pos; lra).
    assert (T3 : (0 <= mu * (d * d + f * f + g * g))%R) by (apply Rmult_le_pos; lra).
    split; [lra|]. intros Z.
    assert (W : forall k y, (0 < k)%R -> (k * y)%R = 0%R -> y = 0%R) by (intros k y Hk E; apply Rmult_integral in E; destruct E; [lra|assumption]).
    assert (E1 : ((a + b + c) * (a + b + c))%R = 0%R) by (apply (W _ _ P1); lra).
    assert (E2 : ((a - b) * (a - b) + (b - c) * (b - c) + (a - c) * (a - c))%R = 0%R) by (apply (W (2 * mu / 3)%R); lra).
    assert (E3 : (d * d + f * f + g * g)%R = 0%R) by (apply (W mu); lra).
    assert (Sq : forall z, (z * z)%R = 0%R -> z = 0%R) by (intros z E; apply Rmult_integral in E; tauto).
    assert (F1 : (a + b + c)%R = 0%R) by (now apply Sq). assert (F2 : (a - b)%R = 0%R) by (apply Sq; lra). assert (F3 : (b - c)%R = 0%R) by (apply Sq; lra).
    assert (F4 : d = 0%R) by (apply Sq; lra). assert (F5 : f = 0%R) by (apply Sq; lra). assert (F6 : g = 0%R) by (apply Sq; lra). unfold d, f, g in F4, F5, F6.
    intros i j Hi Hj. destruct i as [|[|[|i]]]; try lia; destruct j as [|[|[|j]]]; try lia; fold a b c; lra.
Qed.
Print Assumptions C116_isotropic.

(** C116: the patch test: if a stretch is prescribed, and no forces are applied at the other DOFs, all of which are at nodes around which
    the elements close up (or, for axial displacements, on the axis), then the statics program gives the stretch at all nodes *)
Theorem C116_patch : forall conn dofs nelem nnode ndof X x E iip, exact_ring nelem x E -> mesh_dofs conn dofs nelem (el_nne E) nnode (el_ndim E) ndof -> on_mesh conn nelem X x ->
  prescribed ndof iip -> no_holes dofs ndof ->
  let v := mkVector conn (el_nne E) dofs (el_ndim E) in
  forall linsolve ops K0 K s p, Forall (fun o => match o with PMat o => valid_op nelem (el_nne E) (el_ndim E) ndof o | _ => True end) ops ->
  new_MatrixPartitioned v iip = Ok K0 -> foldM (run_pop linsolve) ops (K0, new_Solver) = Ok (K, s) -> new_VectorPartitioned v iip = Ok p ->
  forall mem C fext disp0 bc, valid_memory nelem nnode (el_ndim E) mem -> minor_symmetric nelem E C -> axially_symmetric nelem E (ddot42 (el_tdim E) C) ->
  no_mechanism v nelem ndof E C iip ->
  (forall K', MP_assemble K (element_stiffness v E (r_K mem) C) = Ok K' -> solves linsolve (A_uu K')) ->
  nodal dofs nnode (el_ndim E) fext -> nodal dofs nnode (el_ndim E) bc ->
  shape2 disp0 nnode (el_ndim E) -> (forall n j, n < nnode -> j < el_ndim E -> val2 disp0 n j = 0%R) ->
  forall a b c, (forall n i, n < nnode -> i < 2 -> In (idx2 dofs n i) iip -> val2 bc n i = if i =? 0 then (c + b * val2 X n 0)%R else (a * val2 X n 1)%R) ->
  (forall n i, n < nnode -> i < 2 -> ~ In (idx2 dofs n i) iip -> val2 fext n i = 0%R /\ closed_or_axis conn nelem X n i /\ own_dofs dofs nnode 2 n) ->
  exists disp fint fext' fres, statics linsolve mem p K s E (ddot42 (el_tdim E) C) C fext disp0 bc = Ok (disp, fint, fext', fres) /\
    stretch_field nnode X a b c disp.
Proof.
  intros conn dofs nelem nnode ndof X x E iip HE Hm HX Hi Hh v linsolve ops K0 K s p Hok E0 Er Ep mem C fext disp0 bc HM HC HU HN Hs Nf Nb S0 Z0 a b c Hbc Hun.
  destruct (exact_dims E nelem x HE) as [D4 [D2 _]]. pose proof (exact_elem E nelem x HE) as Hobj.
  destruct (C82_statics conn dofs nelem nnode ndof x E iip Hobj Hm Hi Hh linsolve ops K0 K s p Hok E0 Er Ep mem C fext disp0 bc HM HC Hs Nf Nb S0 Z0)
    as [disp [fint [fext' [fres [ER [Nd [Sr [Hfi H]]]]]]]].
  exists disp, fint, fext', fres. split; [exact ER|]. split; [rewrite <- D2; exact (proj1 Nd)|].
  set (val := fun n i => if i =? 0 then (c + b * val2 X n 0)%R else (a * val2 X n 1)%R).
  set (u := tab2 nnode 2 val).
  assert (Vu : forall n i, n < nnode -> i < 2 -> val2 u n i = val n i) by (intros n i Hn Hj; unfold val2, u; now apply (tab2_nth 0%R nnode 2 val)).
  assert (Su : Spec.shape2 u nnode 2) by apply tab2_shape.
  assert (Fu : stretch_field nnode X a b c u) by (split; [exact Su|]; intros n Hn; rewrite !Vu by lia; split; reflexivity).
  assert (Nu : nodal dofs nnode (el_ndim E) u).
  { rewrite D2. split; [exact Su|]. intros m i n j Hm' Hi' Hn' Hj' Eq. rewrite !Vu by assumption. destruct (in_dec Nat.eq_dec (idx2 dofs m i) iip) as [Hin|Hin].
    - unfold val. rewrite <- !Hbc by (try assumption; now rewrite <- Eq). apply (proj2 Nb); try assumption; now rewrite D2.
    - destruct (Hun m i Hm' Hi' Hin) as [_ [_ HO]]. destruct (HO i n j Hi' Hn' Hj' (eq_sym Eq)) as [-> ->]. reflexivity. }
  destruct HM as [M1 _].
  destruct (stretch_force conn dofs E nelem nnode ndof X x HE Hm HX (ddot42 (el_tdim E) C) (r_eps0 mem) (r_eps0 mem) a b c u M1 M1 HU Fu) as [f [Ef [_ Vf]]].
  destruct (elem_obj_raw _ _ _ Hobj) as [B Ho].
  assert (G : forall n j, n < nnode -> j < 2 -> val2 disp n j = val n j).
  { intros n j Hn Hj. rewrite <- Vu by assumption.
    apply (unique conn dofs E nelem nnode ndof B Ho Hm iip Hh C (r_eps0 mem) disp u fint f M1 HC HN Nd Nu (Hfi _ _ M1 M1) Ef); try assumption; [| |now rewrite D2].
    - intros n' i' Hn' Hi' Hin. destruct (H n' i' Hn' Hi') as [_ [Hp _]]. rewrite Hp by assumption. rewrite D2 in Hi'. rewrite Vu by assumption. now apply Hbc.
    - intros n' i' Hn' Hi' Hin. destruct (H n' i' Hn' Hi') as [_ [_ [Hq1 Hq2]]]. rewrite <- Hq2, Hq1 by assumption. rewrite D2 in Hi'. destruct (Hun n' i' Hn' Hi' Hin) as [-> [A1 A2]].
      symmetry. now apply Vf. }
  intros n Hn. rewrite !G by lia. split; reflexivity.
Qed.
Print Assumptions C116_patch.

(** which nodes, on the planar meshes of the library: all that are not on the sides; and the nodes on the axis that are not at its ends *)
Theorem C116_closed : forall X C ties bot rgt top lft Lx Ly, quad_mesh X C ties bot rgt top lft Lx Ly -> forall R0 Y, moved_out R0 X Y -> forall n, n < length X -> ~ In n rgt -> ~ In n lft ->
  (~ In n bot -> ~ In n top -> forall i, closed_or_axis C (length C) Y n i) /\ (R0 = 0%R -> In n bot -> closed_or_axis C (length C) Y n 0).
Proof.
  intros X C ties bot rgt top lft Lx Ly H R0 Y HM n Hn Hr Hl. split.
  - intros Hb Ht i. left. now apply (C91_closed X C ties bot rgt top lft Lx Ly H).
  - intros Z Hb. right. split; [reflexivity|]. exact (bottom_at_axis X Y C ties bot rgt top lft Lx Ly R0 (quad_mesh_facts _ _ _ _ _ _ _ _ _ H) HM n Z Hb Hr Hl).
Qed.
Print Assumptions C116_closed.
