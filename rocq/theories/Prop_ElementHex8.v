(** Properties C63, C64, C74: quadrature of the eight-node hexahedron (Element::Hex8::Quadrature).
    See Prop_ElementQuad4.v for the conventions. *)
From Coq Require Import List Arith Reals Lra Lia Permutation.
From Coquelicot Require Import Hierarchy RInt.
From Verif Require Import Sums Model_Element Spec_Element Proof_Element Proof_ElementQuad4 Proof_ElementMath Proof_ElementThm Proof_ElementHex8.
Import ListNotations.
Local Open Scope R_scope.

(** ** C63: shape functions and quadrature rules *)
Theorem C63_partition : forall nelem nip xi w x Q, Hex8_obj nelem nip xi w x Q ->
  forall q, (q < nip)%nat -> sumn 8 (fun m => q_N Q [q;m]) = 1.
Proof.
  intros nelem nip xi w x Q H q Hq. rewrite (sumn_ext 8 _ (fun m => shape3 m (point xi q))); [apply shape3_sum|].
  intros m Hm. exact (h_N (Hex8_facts _ _ _ _ _ _ H) q m Hq Hm).
Qed.
Print Assumptions C63_partition.

Theorem C63_kronecker : forall nelem nip xi w x Q, Hex8_obj nelem nip xi w x Q ->
  forall q m n, (q < nip)%nat -> (m < 8)%nat -> (n < 8)%nat ->
  (forall i, (i < 3)%nat -> xi [q;i] = corner3 n i) -> q_N Q [q;m] = if (m =? n)%nat then 1 else 0.
Proof.
  intros nelem nip xi w x Q H q m n Hq Hm Hn Hp. rewrite (h_N (Hex8_facts _ _ _ _ _ _ H) q m Hq Hm).
  exact (kron3 (point xi q) m n Hm Hn Hp).
Qed.
Print Assumptions C63_kronecker.

(** the Nodal quadrature points are the nodes *)
Example C63_ex_nodal : forall q i, (q < 8)%nat -> (i < 3)%nat -> Nodal8_xi (fun _ => 7) [q;i] = corner3 q i.
Proof.
  intros q i Hq Hi. revert q Hq. apply lt8; revert i Hi; apply lt3; unfold Nodal8_xi, Hex8_points; blk; corners3; lra.
Qed.

Theorem C63_gradient : forall nelem nip xi w x Q, Hex8_obj nelem nip xi w x Q ->
  forall q m i, (q < nip)%nat -> (m < 8)%nat -> (i < 3)%nat ->
  q_N Q [q;m] = shape3 m (point xi q) /\ partial (shape3 m) i (point xi q) (q_dNxi Q [q;m;i]).
Proof.
  intros nelem nip xi w x Q H q m i Hq Hm Hi. split.
  - exact (h_N (Hex8_facts _ _ _ _ _ _ H) q m Hq Hm).
  - rewrite (h_dNxi (Hex8_facts _ _ _ _ _ _ H) q m i Hq Hm Hi). exact (shape3_partial m i (point xi q) Hi).
Qed.
Print Assumptions C63_gradient.

Theorem C63_dinterp3 : forall u i p, (i < 3)%nat -> partial (interp3 u) i p (dinterp3 u i p).
Proof. exact interp3_partial. Qed.
Print Assumptions C63_dinterp3.

Theorem C63_gauss : forall f junk junk',
  (forall s t, cubic (fun r => f r s t)) -> (forall r t, cubic (fun s => f r s t)) -> (forall r s, cubic (fun t => f r s t)) ->
  is_integral3 f (sumn 8 (fun q => Gauss8_w junk [q] * f (Gauss8_xi junk' [q;0]%nat) (Gauss8_xi junk' [q;1]%nat) (Gauss8_xi junk' [q;2]%nat))).
Proof. exact Gauss8_exact. Qed.
Print Assumptions C63_gauss.

Theorem C63_nodal : forall c junk junk',
  is_integral3 (trilinear c)
    (sumn 8 (fun q => Gauss8_w junk [q] * trilinear c (Nodal8_xi junk' [q;0]%nat) (Nodal8_xi junk' [q;1]%nat) (Nodal8_xi junk' [q;2]%nat))).
Proof. exact Nodal8_exact. Qed.
Print Assumptions C63_nodal.

Theorem C63_interpolation : forall nelem nip xi w x Q, Hex8_obj nelem nip xi w x Q ->
  forall es, schedule nelem es -> forall n u old e q i, (e < nelem)%nat -> (q < nip)%nat -> (i < n)%nat ->
  Hex8_interpQuad_vector es Q n u old [e;q;i] = interp3 (comp u e i) (point xi q).
Proof. intros nelem nip xi w x Q H es Hes. exact (h_interp_at _ _ _ _ _ _ (Hex8_facts _ _ _ _ _ _ H) es Hes). Qed.
Print Assumptions C63_interpolation.

(** ** C64: gradients of affine fields *)

(** the claim, for all geometries with a non-zero Jacobian *)
Definition C64_claim : Prop := forall nelem nip xi w x Q, Hex8_obj nelem nip xi w x Q ->
  forall es, schedule nelem es -> forall a B u old e q i j,
  (e < nelem)%nat -> (q < nip)%nat -> (i < 3)%nat -> (j < 3)%nat ->
  jac3 (nodes x e) (point xi q) <> 0 -> affine 3 8 a B x u e ->
  Hex8_gradN_vector es Q u old [e;q;i;j] = B j i.

(** it is false: compute_dN_impl of the base class (Element.h:1220) uses the wrong index.
    In a sheared cube the gradient in direction 1 of every field, e.g. of u = x, is zero. *)
Theorem C64_sheared : forall nelem nip xi w Q, Hex8_obj nelem nip xi w sheared Q ->
  forall es, schedule nelem es -> forall u old e q j, (e < nelem)%nat -> (q < nip)%nat -> (j < 3)%nat ->
  Hex8_gradN_vector es Q u old [e;q;1%nat;j] = 0.
Proof.
  intros nelem nip xi w Q H es Hes u old e q j He Hq Hj. pose proof (Hex8_facts _ _ _ _ _ _ H) as F.
  rewrite (h_grad_at _ _ _ _ _ _ F es Hes) by (assumption || lia).
  apply sumn_zero. intros m Hm. rewrite (h_dNx F) by (assumption || lia). unfold cshape3. rewrite sheared_Jsum. ring.
Qed.
Print Assumptions C64_sheared.

Theorem C64_refuted : ~ C64_claim.
Proof.
  intros H. set (j := fun _ : list nat => 7).
  assert (S1 : schedule 1 [0]%nat) by apply Permutation_refl.
  pose proof (Hex8_obj_new 1 8 (Gauss8_xi j) (Gauss8_w j) [0]%nat sheared j j j j j S1) as HQ.
  pose proof (C64_sheared _ _ _ _ _ HQ [0]%nat S1 sheared j 0%nat 0%nat 1%nat ltac:(lia) ltac:(lia) ltac:(lia)) as E.
  rewrite (H _ _ _ _ _ _ HQ [0]%nat S1 (fun _ => 0) (fun i k => if (i =? k)%nat then 1 else 0) sheared j 0%nat 0%nat 1%nat 1%nat) in E.
  - cbn in E. lra.
  - lia.
  - lia.
  - lia.
  - lia.
  - rewrite sheared_jac. lra.
  - intros m k Hm Hk. rewrite sumn3. revert k Hk. apply lt3; cbn [Nat.eqb]; ring.
Qed.
Print Assumptions C64_refuted.

(** it holds where the Jacobian matrix is diagonal; missing from C64: all other geometries *)
Theorem C64_partial : forall nelem nip xi w x Q, Hex8_obj nelem nip xi w x Q ->
  forall es, schedule nelem es -> forall a B u old e q i j,
  (e < nelem)%nat -> (q < nip)%nat -> (i < 3)%nat -> (j < 3)%nat ->
  jac3 (nodes x e) (point xi q) <> 0 -> diagonal3 (nodes x e) (point xi q) -> affine 3 8 a B x u e ->
  Hex8_gradN_vector es Q u old [e;q;i;j] = B j i.
Proof.
  intros nelem nip xi w x Q H es Hes a B u old e q i j He Hq Hi Hj Hd HD Ha. pose proof (Hex8_facts _ _ _ _ _ _ H) as F.
  rewrite (h_grad_at _ _ _ _ _ _ F es Hes) by assumption. unfold grad8.
  rewrite (sumn_ext 8 _ (fun m => cshape3 (nodes x e) m i (point xi q) * u [e;m;j])) by (intros m Hm; rewrite (h_dNx F) by assumption; reflexivity).
  exact (cshape3_diagonal (nodes x e) (point xi q) i (fun m => u [e;m;j]) (a j) (B j) Hi HD Hd (fun m Hm => Ha m j Hm Hj)).
Qed.
Print Assumptions C64_partial.

(** axis-aligned boxes (the elements of Mesh::Hex8::Regular): exact *)
Theorem C64_box_partial : forall nelem nip xi w x Q, Hex8_obj nelem nip xi w x Q ->
  forall es, schedule nelem es -> forall a B u old e q i j c h,
  (e < nelem)%nat -> (q < nip)%nat -> (i < 3)%nat -> (j < 3)%nat ->
  (forall m i, (m < 8)%nat -> (i < 3)%nat -> x [e;m;i] = c i + h i * corner3 m i) ->
  (forall i, (i < 3)%nat -> h i <> 0) -> affine 3 8 a B x u e ->
  Hex8_gradN_vector es Q u old [e;q;i;j] = B j i.
Proof.
  intros nelem nip xi w x Q H es Hes a B u old e q i j c h He Hq Hi Hj Hx Hh Ha.
  destruct (box_diagonal (nodes x e) c h (point xi q) Hx) as (D & E).
  refine (C64_partial _ _ _ _ _ _ H es Hes a B u old e q i j He Hq Hi Hj _ D Ha).
  rewrite E. repeat apply Rmult_integral_contrapositive_currified; apply Hh; lia.
Qed.
Print Assumptions C64_box_partial.

Theorem C64_transpose_symmetric : forall nelem nip xi w x Q, Hex8_obj nelem nip xi w x Q ->
  forall es, schedule nelem es -> forall u old old' old'' e q i j,
  (e < nelem)%nat -> (q < nip)%nat -> (i < 3)%nat -> (j < 3)%nat ->
  let g := Hex8_gradN_vector es Q u old in
  Hex8_gradN_vector_T es Q u old' [e;q;j;i] = g [e;q;i;j] /\
  Hex8_symGradN_vector es Q u old'' [e;q;i;j] = (g [e;q;i;j] + g [e;q;j;i]) / 2.
Proof.
  intros nelem nip xi w x Q H es Hes u old old' old'' e q i j He Hq Hi Hj g. pose proof (Hex8_facts _ _ _ _ _ _ H) as F.
  unfold g. rewrite !(h_grad_at _ _ _ _ _ _ F es Hes) by assumption. split.
  - exact (h_grad_T_at _ _ _ _ _ _ F es Hes u old' e q i j He Hq Hi Hj).
  - exact (h_sym_at _ _ _ _ _ _ F es Hes u old'' e q i j He Hq Hi Hj).
Qed.
Print Assumptions C64_transpose_symmetric.

(** a box of 2 x 4 x 6 and a linear field *)
Example C64_ex : let x : arr := fun k => match k with [_;m;i] => 1 + INR (S i) * corner3 m i | _ => 0 end in
  exists Q, Hex8_obj 2 8 (Gauss8_xi (fun _ => 7)) (Gauss8_w (fun _ => 7)) x Q /\
    Hex8_gradN_vector [1;0]%nat Q x (fun _ => 7) [1;5;2;2]%nat = 1.
Proof.
  intros x. assert (S2 : schedule 2 [1;0]%nat) by apply perm_swap.
  pose proof (Hex8_obj_new 2 8 (Gauss8_xi (fun _ => 7)) (Gauss8_w (fun _ => 7)) [1;0]%nat x (fun _ => 7) (fun _ => 7) (fun _ => 7) (fun _ => 7) (fun _ => 7) S2) as H.
  eexists. split; [exact H|].
  rewrite (C64_box_partial _ _ _ _ _ _ H [1;0]%nat S2 (fun _ => 0) (fun i k => if (i =? k)%nat then 1 else 0) x (fun _ => 7) 1 5 2 2 (fun _ => 1) (fun i => INR (S i)));
    try lia; [reflexivity | intros; reflexivity | intros i _; apply not_0_INR; lia |].
  intros m k Hm Hk. rewrite sumn3. revert k Hk. apply lt3; cbn [Nat.eqb]; ring.
Qed.

(** ** C74: weak forms and volumes of the hexahedron *)

(** dV summed over the Gauss points is the volume (integral of the Jacobian), for every geometry *)
Theorem C74_Gauss : forall nelem j j' x Q e, Hex8_obj nelem 8 (Gauss8_xi j) (Gauss8_w j') x Q -> (e < nelem)%nat ->
  is_integral3 (fun r s t => jac3 (nodes x e) (pt3 r s t)) (sumn 8 (fun q => q_vol Q [e;q])).
Proof. exact dV_Gauss8. Qed.
Print Assumptions C74_Gauss.

Theorem C74_virtual_work : forall nelem nip xi w x Q, Hex8_obj nelem nip xi w x Q -> forall es, schedule nelem es ->
  forall sig u old old' e, (e < nelem)%nat ->
  sumn 8 (fun m => sumn 3 (fun j => Hex8_int_gradN_dot_tensor2_dV es Q sig old [e;m;j] * u [e;m;j])) =
  sumn nip (fun q => sumn 3 (fun i => sumn 3 (fun j => sig [e;q;i;j] * Hex8_gradN_vector es Q u old' [e;q;i;j])) * q_vol Q [e;q]).
Proof. intros nelem nip xi w x Q H es Hes. exact (h_virtual_work _ _ _ _ _ _ (Hex8_facts _ _ _ _ _ _ H) es Hes). Qed.
Print Assumptions C74_virtual_work.

Theorem C74_zero : forall nelem nip xi w x Q, Hex8_obj nelem nip xi w x Q -> forall es, schedule nelem es ->
  forall sig old e j, (e < nelem)%nat -> (j < 3)%nat ->
  sumn 8 (fun m => Hex8_int_gradN_dot_tensor2_dV es Q sig old [e;m;j]) = 0.
Proof. intros nelem nip xi w x Q H es Hes. exact (h_force_zero _ _ _ _ _ _ (Hex8_facts _ _ _ _ _ _ H) es Hes). Qed.
Print Assumptions C74_zero.

Theorem C74_stiffness : forall nelem nip xi w x Q, Hex8_obj nelem nip xi w x Q -> forall es, schedule nelem es ->
  forall C u old old' old'' e m j, (e < nelem)%nat -> (m < 8)%nat -> (j < 3)%nat ->
  sumn 8 (fun n => sumn 3 (fun k =>
    Hex8_int_gradN_dot_tensor4_dot_gradNT_dV es Q C old [e; m * 3 + j; n * 3 + k]%nat * u [e;n;k])) =
  Hex8_int_gradN_dot_tensor2_dV es Q (ddot42 3 C (Hex8_gradN_vector es Q u old'')) old' [e;m;j].
Proof. intros nelem nip xi w x Q H es Hes. exact (h_stiff_action _ _ _ _ _ _ (Hex8_facts _ _ _ _ _ _ H) es Hes). Qed.
Print Assumptions C74_stiffness.

Theorem C74_symmetric : forall nelem nip xi w x Q, Hex8_obj nelem nip xi w x Q -> forall es, schedule nelem es ->
  forall C old e m j n k, (e < nelem)%nat -> (m < 8)%nat -> (n < 8)%nat -> (j < 3)%nat -> (k < 3)%nat ->
  (forall q i j k l, (q < nip)%nat -> (i < 3)%nat -> (j < 3)%nat -> (k < 3)%nat -> (l < 3)%nat ->
     C [e;q;i;j;k;l] = C [e;q;l;k;j;i]) ->
  Hex8_int_gradN_dot_tensor4_dot_gradNT_dV es Q C old [e; m * 3 + j; n * 3 + k]%nat =
  Hex8_int_gradN_dot_tensor4_dot_gradNT_dV es Q C old [e; n * 3 + k; m * 3 + j]%nat.
Proof. intros nelem nip xi w x Q H es Hes. exact (h_stiff_sym _ _ _ _ _ _ (Hex8_facts _ _ _ _ _ _ H) es Hes). Qed.
Print Assumptions C74_symmetric.

Theorem C74_kernel : forall nelem nip xi w x Q, Hex8_obj nelem nip xi w x Q -> forall es, schedule nelem es ->
  forall C old e m j k, (e < nelem)%nat -> (m < 8)%nat -> (j < 3)%nat -> (k < 3)%nat ->
  sumn 8 (fun n => Hex8_int_gradN_dot_tensor4_dot_gradNT_dV es Q C old [e; m * 3 + j; n * 3 + k]%nat) = 0.
Proof. intros nelem nip xi w x Q H es Hes. exact (h_stiff_kernel _ _ _ _ _ _ (Hex8_facts _ _ _ _ _ _ H) es Hes). Qed.
Print Assumptions C74_kernel.

Theorem C74_mass : forall nelem nip xi w x Q, Hex8_obj nelem nip xi w x Q -> forall es, schedule nelem es ->
  forall rho old e, (e < nelem)%nat ->
  let M := Hex8_int_N_scalar_NT_dV es Q rho old in
  (forall i, (i < 3)%nat -> sumn 8 (fun m => sumn 8 (fun n => M [e; m * 3 + i; n * 3 + i]%nat)) = sumn nip (fun q => rho [e;q] * q_vol Q [e;q])) /\
  (forall i v, (i < 3)%nat -> sumn 8 (fun m => sumn 8 (fun n => v m * M [e; m * 3 + i; n * 3 + i]%nat * v n))
     = sumn nip (fun q => rho [e;q] * q_vol Q [e;q] * (interp3 v (point xi q) * interp3 v (point xi q)))) /\
  (forall m n i j, (m < 8)%nat -> (n < 8)%nat -> (i < 3)%nat -> (j < 3)%nat ->
     M [e; m * 3 + i; n * 3 + j]%nat = M [e; n * 3 + j; m * 3 + i]%nat /\ (i <> j -> M [e; m * 3 + i; n * 3 + j]%nat = 0)).
Proof.
  intros nelem nip xi w x Q H es Hes rho old e He M. pose proof (Hex8_facts _ _ _ _ _ _ H) as F. split; [|split].
  - intros i Hi. exact (h_mass_total _ _ _ _ _ _ F es Hes rho old e i He Hi).
  - intros i v Hi. exact (h_mass_quadratic _ _ _ _ _ _ F es Hes rho old e i v He Hi).
  - intros m n i j Hm Hn Hi Hj. unfold M. rewrite !(h_mass_at _ _ _ _ _ _ F es Hes) by assumption. split.
    + rewrite (Nat.eqb_sym j i). destruct (i =? j)%nat; [|reflexivity]. apply sumn_ext. intros q _. ring.
    + intros Hn'. apply Nat.eqb_neq in Hn'. rewrite Hn'. reflexivity.
Qed.
Print Assumptions C74_mass.

(** ** C73 for Hex8: the state depends on the current coordinates only *)
Theorem C73_Hex8 : forall nelem nip xi w x Q Q', Hex8_obj nelem nip xi w x Q -> Hex8_obj nelem nip xi w x Q' ->
  q_nelem Q = q_nelem Q' /\ q_nip Q = q_nip Q' /\ q_x Q = q_x Q' /\ q_w Q = q_w Q' /\ q_xi Q = q_xi Q' /\
  (forall q m, (q < nip)%nat -> (m < 8)%nat -> q_N Q [q;m] = q_N Q' [q;m] /\
     forall i, (i < 3)%nat -> q_dNxi Q [q;m;i] = q_dNxi Q' [q;m;i]) /\
  (forall e q, (e < nelem)%nat -> (q < nip)%nat -> q_vol Q [e;q] = q_vol Q' [e;q] /\
     forall m i, (m < 8)%nat -> (i < 3)%nat -> q_dNx Q [e;q;m;i] = q_dNx Q' [e;q;m;i]).
Proof.
  intros nelem nip xi w x Q Q' H H'. exact (same_hex8 _ _ _ _ _ _ _ (Hex8_facts _ _ _ _ _ _ H) (Hex8_facts _ _ _ _ _ _ H')).
Qed.
Print Assumptions C73_Hex8.
