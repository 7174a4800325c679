From Coq Require Import Reals Lra Lia List Permutation.
From Verif Require Import Model_Element Spec_Element Proof_Element Proof_ElementQuad4 Proof_ElementMath Proof_ElementThm Proof_ElementThm2 Proof_ElementThm3 Proof_ElementAxisym Prop_ElementQuad4 Prop_ElementPlanar
  Base Spec Sums Spec_Vector Model_Numbering Model_Vector Proof_Vector Model_MeshGeometry Model_Pipeline Spec_Pipeline Proof_PipelineElem Proof_Pipeline Proof_PipelineBalance Spec_Patch Proof_Patch Proof_PatchRigid
  Spec_Conform Spec_AxisymBody.
Local Open Scope R_scope.

(** ** the strain of an axisymmetric element *)
Section G.
Set Default Proof Using "All".
Variables (nelem nip : nat) (xi w x : arr) (A : Axisym).
Hypothesis H : Axisym_obj nelem nip xi w x A.

Lemma ring_vol e q : (e < nelem)%nat -> (q < nip)%nat -> 0 < a_vol A [e;q] -> jac2 (nodes x e) (point xi q) <> 0 /\ radius xi x e q <> 0.
Proof.
  intros He Hq. rewrite (a_f_vol (Axisym_facts _ _ _ _ _ _ H)) by assumption. intros P. split; intros Z; rewrite Z in P; lra.
Qed.

Lemma ring_grad c u e q i j : valid_call nelem c -> (e < nelem)%nat -> (q < nip)%nat -> (i < 3)%nat -> (j < 3)%nat ->
  el_GradN_vector (Axisym_elem A) c u [e;q;i;j] =
  match i, j with
  | 0, 0 => (sumn 4 (fun m => gshape2 (nodes x e) m 1 (point xi q) * u [e;m;1]%nat))%R
  | 2, 2 => (sumn 4 (fun m => gshape2 (nodes x e) m 0 (point xi q) * u [e;m;0]%nat))%R
  | 0, 2 => (sumn 4 (fun m => gshape2 (nodes x e) m 1 (point xi q) * u [e;m;0]%nat))%R
  | 2, 0 => (sumn 4 (fun m => gshape2 (nodes x e) m 0 (point xi q) * u [e;m;1]%nat))%R
  | 1, 1 => (interp2 (comp u e 1) (point xi q) / radius xi x e q)%R
  | _, _ => 0%R
  end%nat.
Proof.
  intros Hc He Hq Hi Hj. pose proof (Axisym_facts _ _ _ _ _ _ H) as F. unrec. rewrite (axi_grad_spec _ _ _ _ _ _ F _ Hc) by assumption.
  now apply (agrad_at _ _ _ _ _ _ F _ Hc).
Qed.
Lemma ring_sym c u e q i j : valid_call nelem c -> (e < nelem)%nat -> (q < nip)%nat -> (i < 3)%nat -> (j < 3)%nat ->
  el_SymGradN_vector (Axisym_elem A) c u [e;q;i;j] = (el_GradN_vector (Axisym_elem A) c u [e;q;i;j] + el_GradN_vector (Axisym_elem A) c u [e;q;j;i]) / 2.
Proof. intros Hc He Hq Hi Hj. apply (r_sym _ _ _ (Axisym_raw _ _ _ _ _ _ H)); try assumption. unrec. now rewrite (a_f_nip (Axisym_facts _ _ _ _ _ _ H)). Qed.
End G.

(** ** zero strain *)
Lemma interp_k u p : interp2 u p = (u 0%nat + u 1%nat + u 2%nat + u 3%nat) / 4 + k1 u * p 0%nat + k2 u * p 1%nat + k3 u * (p 0%nat * p 1%nat).
Proof. unfold interp2. rewrite sumn4. unfold Spec_Element.shape2, corner2, k1, k2, k3. field. Qed.

Lemma flat_zero (u : nat -> R) m : (m < 4)%nat -> (u 0%nat + u 1%nat + u 2%nat + u 3%nat) / 4 = 0 -> k1 u = 0 -> k2 u = 0 -> k3 u = 0 -> u m = 0.
Proof. intros Hm Z0 Z1 Z2 Z3. rewrite (value_k u m Hm), Z0, Z1, Z2, Z3. ring. Qed.

Lemma zero_gradient nip xi (x : nat -> nat -> R) (f : nat -> R) : not_on_a_curve nip xi -> (exists q, (q < nip)%nat /\ jac2 x (point xi q) <> 0) ->
  (forall q, (q < nip)%nat -> cross f (fun m => x m 1%nat) (point xi q) = 0 /\ cross (fun m => x m 0%nat) f (point xi q) = 0) ->
  k1 f = 0 /\ k2 f = 0 /\ k3 f = 0.
Proof.
  intros HL [q0 [Hq0 HJ]] H0.
  assert (J : cross (fun m => x m 0%nat) (fun m => x m 1%nat) (point xi q0) <> 0) by (unfold cross; unfold jac2 in HJ; exact HJ). clear HJ. rewrite cross_affine in J.
  set (X1 := k1 (fun m => x m 0%nat)) in *. set (X2 := k2 (fun m => x m 0%nat)) in *. set (X3 := k3 (fun m => x m 0%nat)) in *.
  set (Y1 := k1 (fun m => x m 1%nat)) in *. set (Y2 := k2 (fun m => x m 1%nat)) in *. set (Y3 := k3 (fun m => x m 1%nat)) in *.
  set (a1 := k1 f). set (a2 := k2 f). set (a3 := k3 f).
  destruct (HL (a1 * Y2 - a2 * Y1) (a1 * Y3 - a3 * Y1) (a3 * Y2 - a2 * Y3) 0) as [A1 [A2 [A3 _]]].
  { intros q Hq. destruct (H0 q Hq) as [Z _]. rewrite cross_affine in Z. unfold point in Z. fold a1 a2 a3 Y1 Y2 Y3 in Z. rewrite Rmult_0_l, Rplus_0_r. exact Z. }
  destruct (HL (X1 * a2 - X2 * a1) (X1 * a3 - X3 * a1) (X3 * a2 - X2 * a3) 0) as [B1 [B2 [B3 _]]].
  { intros q Hq. destruct (H0 q Hq) as [_ Z]. rewrite cross_affine in Z. unfold point in Z. fold a1 a2 a3 X1 X2 X3 in Z. rewrite Rmult_0_l, Rplus_0_r. exact Z. }
  assert (NY : Y1 <> 0 \/ Y2 <> 0 \/ Y3 <> 0).
  { destruct (Req_dec Y1 0) as [Z1|]; [|tauto]. destruct (Req_dec Y2 0) as [Z2|]; [|tauto]. destruct (Req_dec Y3 0) as [Z3|]; [|tauto]. exfalso. apply J. rewrite Z1, Z2, Z3. ring. }
  destruct (parallel a1 a2 a3 Y1 Y2 Y3 A1 A2 A3 NY) as [k [E1 [E2 E3]]].
  assert (K : k = 0).
  { apply (Rmult_eq_reg_r (X1 * Y2 - X2 * Y1 + (X1 * Y3 - X3 * Y1) * point xi q0 0%nat + (X3 * Y2 - X2 * Y3) * point xi q0 1%nat)); [|exact J].
    rewrite E1, E2 in B1. rewrite E1, E3 in B2. rewrite E2, E3 in B3.
    transitivity ((X1 * (k * Y2) - X2 * (k * Y1)) + (X1 * (k * Y3) - X3 * (k * Y1)) * point xi q0 0%nat + (X3 * (k * Y2) - X2 * (k * Y3)) * point xi q0 1%nat); [ring|].
    rewrite B1, B2, B3. ring. }
  rewrite E1, E2, E3, K. repeat split; ring.
Qed.

Section Z.
Set Default Proof Using "All".
Variables (nelem : nat) (x : arr) (E : Elem).
Hypothesis HE : ring_obj nelem x E.

Lemma ring_dims : el_nne E = 4%nat /\ el_ndim E = 2%nat /\ el_tdim E = 3%nat.
Proof. destruct HE; cbn; lia. Qed.
Lemma ring_elem : elem_obj nelem x E.
Proof. destruct HE. econstructor. eassumption. Qed.
Lemma ring_pos e q : (e < nelem)%nat -> (q < el_nip E)%nat -> 0 < el_dV E [e;q].
Proof. destruct HE as [nip xi w x' A H HL HV]. unrec. rewrite (a_f_nip (Axisym_facts _ _ _ _ _ _ H)). apply HV. Qed.

Lemma slides_of_strain c u e : valid_call nelem c -> (e < nelem)%nat ->
  (forall q i j, (q < el_nip E)%nat -> (i < 3)%nat -> (j < 3)%nat -> el_GradN_vector E c u [e;q;i;j] + el_GradN_vector E c u [e;q;j;i] = 0) -> slides u e.
Proof.
  intros Hc He HZ. destruct HE as [nip xi w x' A H HL HV]. unrec. cbn [Axisym_elem el_nip] in HZ. rewrite (a_f_nip (Axisym_facts _ _ _ _ _ _ H)) in HZ.
  assert (G : forall q i j, (q < nip)%nat -> (i < 3)%nat -> (j < 3)%nat -> el_GradN_vector (Axisym_elem A) c u [e;q;i;j] = _) by (intros q i j Hq Hi Hj; exact (ring_grad _ _ _ _ _ _ H c u e q i j Hc He Hq Hi Hj)).
  assert (P : forall q, (q < nip)%nat -> jac2 (nodes x' e) (point xi q) <> 0 /\ radius xi x' e q <> 0) by (intros q Hq; apply (ring_vol _ _ _ _ _ _ H e q He Hq (HV e q He Hq))).
  (* no radial displacement *)
  assert (R : forall m, (m < 4)%nat -> u [e;m;1]%nat = 0).
  { set (f := comp u e 1).
    destruct (HL ((f 0%nat + f 1%nat + f 2%nat + f 3%nat) / 4) (k1 f) (k2 f) (k3 f)) as [Z0 [Z1 [Z2 Z3]]].
    { intros q Hq. pose proof (HZ q 1%nat 1%nat Hq ltac:(lia) ltac:(lia)) as Z. rewrite (G q 1%nat 1%nat Hq) in Z by lia. fold f in Z.
      assert (I : interp2 f (point xi q) = 0). { apply (Rmult_eq_reg_r (/ radius xi x' e q)); [|apply Rinv_neq_0_compat; apply (P q Hq)]. unfold Rdiv in Z. lra. }
      rewrite interp_k in I. exact I. }
    intros m Hm. exact (flat_zero f m Hm Z0 Z1 Z2 Z3). }
  (* the gradient of the axial displacement is zero *)
  set (f := comp u e 0).
  assert (K : k1 f = 0 /\ k2 f = 0 /\ k3 f = 0).
  { apply (zero_gradient nip xi (nodes x' e) f HL).
    - destruct nip as [|nip]; [|exists 0%nat; split; [lia|apply (P 0%nat); lia]]. exfalso. destruct (HL 1 0 0 0) as [B _]; [intros; lia|lra].
    - intros q Hq. destruct (P q Hq) as [HJ _].
      pose proof (HZ q 2%nat 2%nat Hq ltac:(lia) ltac:(lia)) as Z22. pose proof (HZ q 0%nat 2%nat Hq ltac:(lia) ltac:(lia)) as Z02.
      rewrite (G q 2%nat 2%nat Hq) in Z22 by lia. rewrite (G q 0%nat 2%nat Hq), (G q 2%nat 0%nat Hq) in Z02 by lia.
      rewrite (sumn_zero 4 (fun m => gshape2 (nodes x' e) m 0 (point xi q) * u [e;m;1]%nat)) in Z02 by (intros m Hm; rewrite R by exact Hm; ring).
      pose proof (grad_cross (nodes x' e) (nodes u e) 0 0 (point xi q) ltac:(lia) ltac:(lia) HJ) as C0. cbv iota in C0.
      pose proof (grad_cross (nodes x' e) (nodes u e) 1 0 (point xi q) ltac:(lia) ltac:(lia) HJ) as C1. cbv iota in C1.
      split; [etransitivity; [symmetry; exact C0|]|etransitivity; [symmetry; exact C1|]]; unfold nodes in *; [replace (sumn 4 _) with 0 by lra|replace (sumn 4 _) with 0 by lra]; ring. }
  destruct K as [K1 [K2 K3]]. exists ((f 0%nat + f 1%nat + f 2%nat + f 3%nat) / 4). intros m Hm. split; [|now apply R].
  change (f m = (f 0%nat + f 1%nat + f 2%nat + f 3%nat) / 4). rewrite (value_k f m Hm) at 1. rewrite K1, K2, K3. ring.
Qed.

Lemma strain_of_slides c u e : valid_call nelem c -> (e < nelem)%nat -> slides u e ->
  forall q i j, (q < el_nip E)%nat -> (i < 3)%nat -> (j < 3)%nat -> el_GradN_vector E c u [e;q;i;j] = 0.
Proof.
  intros Hc He [s Hs] q i j Hq Hi Hj. destruct HE as [nip xi w x' A H HL HV]. cbn [Axisym_elem el_nip] in Hq. rewrite (a_f_nip (Axisym_facts _ _ _ _ _ _ H)) in Hq.
  rewrite (ring_grad _ _ _ _ _ _ H) by assumption. destruct (ring_vol _ _ _ _ _ _ H e q He Hq (HV e q He Hq)) as [HJ HR].
  assert (S0 : forall k, (k < 2)%nat -> sumn 4 (fun m => gshape2 (nodes x' e) m k (point xi q) * u [e;m;0]%nat) = 0).
  { intros k Hk. apply (Rmult_eq_reg_r (jac2 (nodes x' e) (point xi q))); [|exact HJ]. etransitivity; [exact (grad_cross (nodes x' e) (nodes u e) k 0 (point xi q) Hk ltac:(lia) HJ)|].
    assert (Z : forall p, dinterp2 (fun m => nodes u e m 0%nat) 0 p = 0 /\ dinterp2 (fun m => nodes u e m 0%nat) 1 p = 0).
    { intros p. destruct (dinterp_k (fun m => nodes u e m 0%nat) p) as [-> ->]. unfold k1, k2, k3, nodes. rewrite (proj1 (Hs 0%nat ltac:(lia))), (proj1 (Hs 1%nat ltac:(lia))), (proj1 (Hs 2%nat ltac:(lia))), (proj1 (Hs 3%nat ltac:(lia))). split; field. }
    unfold cross. destruct (Z (point xi q)) as [Z0 Z1]. destruct k; rewrite Z0, Z1; ring. }
  assert (S1 : forall k, sumn 4 (fun m => gshape2 (nodes x' e) m k (point xi q) * u [e;m;1]%nat) = 0).
  { intros k. apply sumn_zero. intros m Hm. rewrite (proj2 (Hs m Hm)). ring. }
  assert (S2 : interp2 (comp u e 1) (point xi q) = 0). { unfold interp2, comp. apply sumn_zero. intros m Hm. rewrite (proj2 (Hs m Hm)). ring. }
  rewrite S2. revert i Hi. apply lt3; revert j Hj; apply lt3; cbv iota; rewrite ?S0, ?S1 by lia; try reflexivity. unfold Rdiv. ring.
Qed.
End Z.

(** ** mechanisms *)
Section M.
Set Default Proof Using "All".
Variables conn dofs : list (list nat).
Variable E : Elem.
Variables nelem nnode ndof : nat.
Variable x : arr.
Hypothesis HE : ring_obj nelem x E.
Hypothesis Hmd : mesh_dofs conn dofs nelem (el_nne E) nnode (el_ndim E) ndof.
Notation v := (mkVector conn (el_nne E) dofs (el_ndim E)).
Variable iip : list nat.

Lemma ring_no_mechanism C : no_holes dofs ndof -> strictly_elastic nelem E C -> (forall n, (n < nnode)%nat -> exists e m, (e < nelem)%nat /\ (m < 4)%nat /\ n = idx2 conn e m) ->
  (forall n, (n < nnode)%nat -> held_axially conn dofs iip nelem n) -> no_mechanism v nelem ndof E C iip.
Proof.
  intros Hh HC Hcov HA c y Y Hc Ly Hy EY HZ. destruct (ring_dims nelem x E HE) as [D4 [D2 D3]].
  destruct (AsElement_dofval_spec v nelem _ nnode _ ndof eq_refl eq_refl Hmd y Ly) as [Y' [EY' [_ VY]]]. rewrite EY in EY'. injection EY' as <-.
  set (G := el_GradN_vector E c (of_rows Y)) in *.
  assert (P : forall e q, (e < nelem)%nat -> (q < el_nip E)%nat -> 0 <= sumn (el_tdim E) (fun i => sumn (el_tdim E) (fun j => ddot42 (el_tdim E) C G [e;q;i;j] * G [e;q;i;j])) * el_dV E [e;q]).
  { intros e q He Hq. apply Rmult_le_pos; [apply (HC G e q He Hq)|]. left. now apply (ring_pos nelem x E HE). }
  assert (Q : forall e q i j, (e < nelem)%nat -> (q < el_nip E)%nat -> (i < el_tdim E)%nat -> (j < el_tdim E)%nat -> G [e;q;i;j] + G [e;q;j;i] = 0).
  { intros e q i j He Hq. apply (HC G e q He Hq). unfold integral in HZ.
    pose proof (sumn_nonneg_zero _ _ (fun e He => sumn_nonneg _ _ (fun q Hq => P e q He Hq)) HZ e He) as Z1. cbv beta in Z1.
    pose proof (sumn_nonneg_zero _ _ (fun q Hq => P e q He Hq) Z1 q Hq) as Z2. cbv beta in Z2. pose proof (ring_pos nelem x E HE e q He Hq) as Vp.
    apply (Rmult_eq_reg_r (el_dV E [e;q])); [|lra]. rewrite Rmult_0_l. exact Z2. }
  assert (HR : forall e, (e < nelem)%nat -> slides (of_rows Y) e).
  { intros e He. apply (slides_of_strain nelem x E HE c (of_rows Y) e Hc He). intros q i j Hq Hi Hj. apply Q; try assumption; lia. }
  assert (V : forall e m i, (e < nelem)%nat -> (m < 4)%nat -> (i < 2)%nat -> of_rows Y [e;m;i] = val1 y (idx2 dofs (idx2 conn e m) i)).
  { intros e m' i' He Hm' Hi'. rewrite of_rows_val. apply VY; [exact He|now rewrite D4|now rewrite D2]. }
  assert (N0 : forall n, held_axially conn dofs iip nelem n -> val1 y (idx2 dofs n 0) = 0).
  { intros n Hn. induction Hn as [n Hp|e m k He Hm Hk A0 IH0]; [now apply Hy|]. destruct (HR e He) as [s Hs]. rewrite <- V by (assumption || lia). rewrite (proj1 (Hs k Hk)).
    rewrite <- IH0, <- V by (assumption || lia). symmetry. apply (Hs m Hm). }
  intros d Hd. destruct (dof_node conn dofs E nelem nnode ndof Hmd Hh d Hd) as [n [i [Hn [Hi ->]]]]. rewrite D2 in Hi. destruct i as [|[|]]; [now apply N0, HA| |lia].
  destruct (Hcov n Hn) as [e [m [He [Hm ->]]]]. rewrite <- V by (assumption || lia). destruct (HR e He) as [s Hs]. apply (Hs m Hm).
Qed.

(** without any prescribed axial displacement the body slides along the axis *)
Lemma ring_floats C : (0 < nnode)%nat -> (forall n, (n < nnode)%nat -> ~ In (idx2 dofs n 0) iip) -> (forall n k, (n < nnode)%nat -> (k < nnode)%nat -> idx2 dofs n 0 <> idx2 dofs k 1) ->
  ~ no_mechanism v nelem ndof E C iip.
Proof.
  intros H0 Hi Hs HM. destruct (ring_dims nelem x E HE) as [D4 [D2 D3]].
  set (ax := fun d => existsb (fun n => idx2 dofs n 0 =? d)%nat (seq 0 nnode)).
  set (y := tab1 ndof (fun d => if ax d then 1 else 0)).
  assert (Ly : length y = ndof) by apply tab1_length.
  assert (A1 : forall n, (n < nnode)%nat -> ax (idx2 dofs n 0) = true). { intros n Hn. apply existsb_exists. exists n. split; [apply in_seq; lia|apply Nat.eqb_refl]. }
  assert (A2 : forall d, ax d = true -> exists n, (n < nnode)%nat /\ idx2 dofs n 0 = d). { intros d Hd. apply existsb_exists in Hd. destruct Hd as [n [Hn E0]]. apply in_seq in Hn. apply Nat.eqb_eq in E0. exists n. split; [lia|exact E0]. }
  assert (A3 : forall n, (n < nnode)%nat -> ax (idx2 dofs n 1) = false). { intros n Hn. destruct (ax (idx2 dofs n 1)) eqn:Ea; [|reflexivity]. destruct (A2 _ Ea) as [k [Hk Ek]]. exfalso. exact (Hs k n Hk Hn Ek). }
  assert (B : forall n i, (n < nnode)%nat -> (i < 2)%nat -> (idx2 dofs n i < ndof)%nat).
  { intros n i Hn Hi'. apply (V_dof v nelem _ nnode _ ndof eq_refl eq_refl Hmd n i Hn). now rewrite D2. }
  assert (Vy : forall d, (d < ndof)%nat -> val1 y d = if ax d then 1 else 0) by (intros d Hd; unfold val1, y; now apply (tab1_nth 0 ndof (fun d => if ax d then 1 else 0))).
  set (c := mkCall (seq 0 nelem) (fun _ => 0)). assert (Hc : valid_call nelem c) by apply Permutation_refl.
  destruct (AsElement_dofval_spec v nelem _ nnode _ ndof eq_refl eq_refl Hmd y Ly) as [Y [EY [_ VY]]].
  assert (Sl : forall e, (e < nelem)%nat -> slides (of_rows Y) e).
  { intros e He. exists 1. intros m Hm. assert (L : (idx2 conn e m < nnode)%nat) by (apply (md_node _ _ _ _ _ _ _ Hmd); [exact He|rewrite D4; exact Hm]).
    assert (Vm : forall i, (i < 2)%nat -> of_rows Y [e;m;i] = val1 y (idx2 dofs (idx2 conn e m) i)) by (intros i Hi'; rewrite of_rows_val; apply VY; [exact He|now rewrite D4|now rewrite D2]).
    rewrite !Vm by lia. rewrite !Vy by (apply B; [exact L|lia]). rewrite A1, A3 by exact L. split; reflexivity. }
  assert (Z : integral nelem E (ddot42 (el_tdim E) C (el_GradN_vector E c (of_rows Y))) (el_GradN_vector E c (of_rows Y)) = 0).
  { unfold integral. apply sumn_zero. intros e He. apply sumn_zero. intros q Hq. rewrite D3. rewrite sumn_zero; [ring|]. intros i Hi'. apply sumn_zero. intros j Hj.
    rewrite (strain_of_slides nelem x E HE c (of_rows Y) e Hc He (Sl e He) q i j Hq Hi' Hj). ring. }
  assert (Yp : forall d, In d iip -> val1 y d = 0).
  { intros d Hd. destruct (Nat.lt_ge_cases d ndof) as [L|L]; [|unfold val1; apply nth_overflow; lia]. rewrite Vy by exact L. destruct (ax d) eqn:Ea; [|reflexivity].
    destruct (A2 _ Ea) as [n [Hn <-]]. exfalso. exact (Hi n Hn Hd). }
  pose proof (HM c y Y Hc Ly Yp EY Z (idx2 dofs 0 0) (B 0%nat 0%nat H0 ltac:(lia))) as K. rewrite Vy in K by (apply B; lia). rewrite A1 in K by exact H0. lra.
Qed.
End M.
