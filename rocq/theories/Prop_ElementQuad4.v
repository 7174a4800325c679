(** Properties C55-C60: quadrature of the four-node quadrilateral (Element::Quad4::Quadrature).

    In all theorems: [Q] is any object a user can obtain (constructor with any quadrature points [xi]
    and weights [w], then any number of update_x); [x] are its current nodal coordinates; [es] is the
    order in which a call visits the elements; [old] is the contents of the output before the call. *)
From Coq Require Import List Arith Reals Lra Lia Permutation.
From Coquelicot Require Import Hierarchy RInt.
From Verif Require Import Sums Model_Element Spec_Element Proof_Element Proof_ElementQuad4 Proof_ElementMath Proof_ElementThm
  Proof_ElementThm2 Proof_ElementThm3.
Import ListNotations.
Local Open Scope R_scope.

(** ** C55: shape functions *)
Theorem C55_partition : forall nelem nip xi w x Q, Quad4_obj nelem nip xi w x Q ->
  forall q, (q < nip)%nat -> sumn 4 (fun m => q_N Q [q;m]) = 1.
Proof.
  intros nelem nip xi w x Q H q Hq. rewrite (sumn_ext 4 _ (fun m => shape2 m (point xi q))); [apply shape2_sum|].
  intros m Hm. exact (f_N (Quad4_facts _ _ _ _ _ _ H) q m Hq Hm).
Qed.
Print Assumptions C55_partition.

(** at an integration point that coincides with node [n], N is 1 for that node and 0 for the others *)
Theorem C55_kronecker : forall nelem nip xi w x Q, Quad4_obj nelem nip xi w x Q ->
  forall q m n, (q < nip)%nat -> (m < 4)%nat -> (n < 4)%nat ->
  (forall i, (i < 2)%nat -> xi [q;i] = corner2 n i) -> q_N Q [q;m] = if (m =? n)%nat then 1 else 0.
Proof.
  intros nelem nip xi w x Q H q m n Hq Hm Hn Hp. rewrite (f_N (Quad4_facts _ _ _ _ _ _ H) q m Hq Hm).
  exact (kron (point xi q) m n Hm Hn Hp).
Qed.
Print Assumptions C55_kronecker.

(** N is the bilinear shape function, dNxi are its partial derivatives (in the sense of calculus) *)
Theorem C55_gradient : forall nelem nip xi w x Q, Quad4_obj nelem nip xi w x Q ->
  forall q m i, (q < nip)%nat -> (m < 4)%nat -> (i < 2)%nat ->
  q_N Q [q;m] = shape2 m (point xi q) /\ partial (shape2 m) i (point xi q) (q_dNxi Q [q;m;i]).
Proof.
  intros nelem nip xi w x Q H q m i Hq Hm Hi. split.
  - exact (f_N (Quad4_facts _ _ _ _ _ _ H) q m Hq Hm).
  - rewrite (f_dNxi (Quad4_facts _ _ _ _ _ _ H) q m i Hq Hm Hi). exact (shape2_partial m i (point xi q) Hm Hi).
Qed.
Print Assumptions C55_gradient.

(** the specification's [dinterp2] are the partial derivatives of the interpolation *)
Theorem C55_dinterp2 : forall u i p, (i < 2)%nat -> partial (interp2 u) i p (dinterp2 u i p).
Proof. exact interp2_partial. Qed.
Print Assumptions C55_dinterp2.

(** the Gauss rule integrates every function that is cubic in each local coordinate exactly *)
Theorem C55_gauss : forall f junk junk',
  (forall t, cubic (fun s => f s t)) -> (forall s, cubic (fun t => f s t)) ->
  is_integral2 f (sumn 4 (fun q => Gauss4_w junk [q] * f (Gauss4_xi junk' [q;0]%nat) (Gauss4_xi junk' [q;1]%nat))).
Proof. exact Gauss4_exact. Qed.
Print Assumptions C55_gauss.

(** the Nodal rule integrates bilinear functions exactly *)
Theorem C55_nodal : forall a b c d junk junk', let f := fun s t => a + b * s + c * t + d * s * t in
  is_integral2 f (sumn 4 (fun q => Nodal4_w junk [q] * f (Nodal4_xi junk' [q;0]%nat) (Nodal4_xi junk' [q;1]%nat))).
Proof. exact Nodal4_exact. Qed.
Print Assumptions C55_nodal.

(** the MidPoint rule does not even integrate constants: its weight is 1, the reference element has area 4 *)
Theorem C55_MidPoint_refuted : forall junk junk', exists f v, is_integral2 f v /\
  sumn 1 (fun q => MidPoint4_w junk [q] * f (MidPoint4_xi junk' [q;0]%nat) (MidPoint4_xi junk' [q;1]%nat)) <> v.
Proof. intros junk junk'. exists (fun _ _ => 1), 4. exact (MidPoint4_wrong junk junk'). Qed.
Print Assumptions C55_MidPoint_refuted.

(** ** C56: interpolation and gradients *)
Theorem C56_interpolation : forall nelem nip xi w x Q, Quad4_obj nelem nip xi w x Q ->
  forall es, schedule nelem es -> forall u old e q i, (e < nelem)%nat -> (q < nip)%nat -> (i < 2)%nat ->
  Quad4_interpQuad_vector es Q u old [e;q;i] = interp2 (comp u e i) (point xi q).
Proof.
  intros nelem nip xi w x Q H es Hes. exact (interp_at _ _ _ _ _ _ _ (Quad4_facts _ _ _ _ _ _ H) es Hes).
Qed.
Print Assumptions C56_interpolation.

(** affine fields are interpolated exactly: the value at the integration point is a + B . x(q) *)
Theorem C56_interpolation_affine : forall nelem nip xi w x Q, Quad4_obj nelem nip xi w x Q ->
  forall es, schedule nelem es -> forall a B u old old' e q i, (e < nelem)%nat -> (q < nip)%nat -> (i < 2)%nat ->
  affine 2 4 a B x u e ->
  Quad4_interpQuad_vector es Q u old [e;q;i] =
  a i + sumn 2 (fun k => B i k * Quad4_interpQuad_vector es Q x old' [e;q;k]).
Proof.
  intros nelem nip xi w x Q H es Hes a B u old old' e q i He Hq Hi Ha.
  rewrite (interp_at _ _ _ _ _ _ _ (Quad4_facts _ _ _ _ _ _ H) es Hes) by assumption.
  rewrite (interp2_affine (a i) (B i) (nodes x e) (comp u e i) (point xi q)) by (intros m Hm; exact (Ha m i Hm Hi)).
  f_equal. apply sumn_ext. intros k Hk. rewrite (interp_at _ _ _ _ _ _ _ (Quad4_facts _ _ _ _ _ _ H) es Hes) by assumption. reflexivity.
Qed.
Print Assumptions C56_interpolation_affine.

(** the gradient of an affine field a + B . x is B^T, for every element with a non-zero Jacobian *)
Theorem C56_affine : forall nelem nip xi w x Q, Quad4_obj nelem nip xi w x Q ->
  forall es, schedule nelem es -> forall a B u old e q i j,
  (e < nelem)%nat -> (q < nip)%nat -> (i < 2)%nat -> (j < 2)%nat ->
  jac2 (nodes x e) (point xi q) <> 0 -> affine 2 4 a B x u e ->
  Quad4_gradN_vector es Q u old [e;q;i;j] = B j i.
Proof.
  intros nelem nip xi w x Q H es Hes a B u old e q i j He Hq Hi Hj Hd Ha.
  unfold Quad4_gradN_vector. rewrite (grad_at _ _ _ _ _ _ _ (Quad4_facts _ _ _ _ _ _ H) es Hes) by assumption.
  exact (grad4_affine _ _ _ _ _ _ _ (Quad4_facts _ _ _ _ _ _ H) es Hes a B u e q i j He Hq Hi Hj Hd Ha).
Qed.
Print Assumptions C56_affine.

(** for any nodal values: the derivative of the interpolation with respect to the local coordinates is
    recovered from the gradient with the chain rule, which determines the gradient *)
Theorem C56_chain : forall nelem nip xi w x Q, Quad4_obj nelem nip xi w x Q ->
  forall es, schedule nelem es -> forall u old e q k j,
  (e < nelem)%nat -> (q < nip)%nat -> (k < 2)%nat -> (j < 2)%nat -> jac2 (nodes x e) (point xi q) <> 0 ->
  partial (interp2 (comp u e j)) k (point xi q)
    (sumn 2 (fun i => dinterp2 (comp x e i) k (point xi q) * Quad4_gradN_vector es Q u old [e;q;i;j])).
Proof.
  intros nelem nip xi w x Q H es Hes u old e q k j He Hq Hk Hj Hd.
  rewrite (sumn_ext 2 _ (fun i => dinterp2 (comp x e i) k (point xi q) * grad4 (q_dNx Q) u e q i j)).
  - rewrite (grad4_chain _ _ _ _ _ _ _ (Quad4_facts _ _ _ _ _ _ H) es Hes u e q k j He Hq Hk Hj Hd). exact (interp2_partial _ k _ Hk).
  - intros i Hi. unfold Quad4_gradN_vector. rewrite (grad_at _ _ _ _ _ _ _ (Quad4_facts _ _ _ _ _ _ H) es Hes) by assumption. reflexivity.
Qed.
Print Assumptions C56_chain.

Theorem C56_transpose_symmetric : forall nelem nip xi w x Q, Quad4_obj nelem nip xi w x Q ->
  forall es, schedule nelem es -> forall u old old' old'' e q i j,
  (e < nelem)%nat -> (q < nip)%nat -> (i < 2)%nat -> (j < 2)%nat ->
  let g := Quad4_gradN_vector es Q u old in
  Quad4_gradN_vector_T es Q u old' [e;q;j;i] = g [e;q;i;j] /\
  Quad4_symGradN_vector es Q u old'' [e;q;i;j] = (g [e;q;i;j] + g [e;q;j;i]) / 2.
Proof.
  intros nelem nip xi w x Q H es Hes u old old' old'' e q i j He Hq Hi Hj g.
  unfold g, Quad4_gradN_vector, Quad4_gradN_vector_T, Quad4_symGradN_vector.
  rewrite !(grad_at _ _ _ _ _ _ _ (Quad4_facts _ _ _ _ _ _ H) es Hes) by assumption. split.
  - exact (grad_T_at _ _ _ _ _ _ _ (Quad4_facts _ _ _ _ _ _ H) es Hes u old' e q i j He Hq Hi Hj).
  - exact (sym_at _ _ _ _ _ _ _ (Quad4_facts _ _ _ _ _ _ H) es Hes u old'' e q i j He Hq Hi Hj).
Qed.
Print Assumptions C56_transpose_symmetric.

(** a skewed quadrilateral: the hypotheses hold *)
Definition skew : arr := fun k =>
  match k with [_;m;i] => nth i (nth m [[0;0];[2;1];[3;4];[-1;2]] []) 0 | _ => 0 end.
Lemma sched2 : schedule 2 [1;0]%nat. Proof. apply perm_swap. Qed.
Example C56_ex : exists Q,
  Quad4_obj 2 4 (Gauss4_xi (fun _ => 7)) (Gauss4_w (fun _ => 7)) skew Q /\
  (forall q, (q < 4)%nat -> jac2 (nodes skew 1) (point (Gauss4_xi (fun _ => 7)) q) <> 0) /\
  Quad4_gradN_vector [1;0]%nat Q skew (fun _ => 7) [1;2;0;0]%nat = 1 /\
  Quad4_gradN_vector [1;0]%nat Q skew (fun _ => 7) [1;2;0;1]%nat = 0.
Proof.
  pose proof (Quad4_obj_new 2 4 (Gauss4_xi (fun _ => 7)) (Gauss4_w (fun _ => 7)) [1;0]%nat skew (fun _ => 7) (fun _ => 7) (fun _ => 7) (fun _ => 7) (fun _ => 7) sched2) as H.
  eexists. split; [exact H|].
  assert (J : forall q, (q < 4)%nat -> jac2 (nodes skew 1) (point (Gauss4_xi (fun _ => 7)) q) <> 0).
  { intros q Hq. apply Rgt_not_eq, jac2_positive.
    - assert (1 < sqrt 3) by (rewrite <- sqrt_1; apply sqrt_lt_1_alt; lra).
      assert (0 < / sqrt 3 < 1) by (split; [apply Rinv_0_lt_compat; lra | rewrite <- Rinv_1; apply Rinv_lt_contravar; lra]).
      revert q Hq. apply lt4; unfold point, Gauss4_xi; blk; unfold Rdiv; lra.
    - assert (1 < sqrt 3) by (rewrite <- sqrt_1; apply sqrt_lt_1_alt; lra).
      assert (0 < / sqrt 3 < 1) by (split; [apply Rinv_0_lt_compat; lra | rewrite <- Rinv_1; apply Rinv_lt_contravar; lra]).
      revert q Hq. apply lt4; unfold point, Gauss4_xi; blk; unfold Rdiv; lra.
    - apply lt4; unfold jac2, dinterp2; rewrite !sumn4; unfold dshape2, corner2, nodes, skew; cbn [nth]; lra. }
  split; [exact J|]. split.
  - rewrite (C56_affine _ _ _ _ _ _ H [1;0]%nat sched2 (fun _ => 0) (fun i k => if (i =? k)%nat then 1 else 0) skew _ 1 2 0 0); try lia; [reflexivity | apply J; lia|].
    intros m j Hm Hj. rewrite sumn2. revert j Hj. apply lt2; cbn [Nat.eqb]; ring.
  - rewrite (C56_affine _ _ _ _ _ _ H [1;0]%nat sched2 (fun _ => 0) (fun i k => if (i =? k)%nat then 1 else 0) skew _ 1 2 0 1); try lia; [reflexivity | apply J; lia|].
    intros m j Hm Hj. rewrite sumn2. revert j Hj. apply lt2; cbn [Nat.eqb]; ring.
Qed.

(** ** C57: integration volumes *)
Theorem C57_Gauss : forall nelem j j' x Q e, Quad4_obj nelem 4 (Gauss4_xi j) (Gauss4_w j') x Q -> (e < nelem)%nat ->
  sumn 4 (fun q => q_vol Q [e;q]) = quad_area (nodes x e).
Proof. exact dV_Gauss. Qed.
Print Assumptions C57_Gauss.

Theorem C57_Nodal : forall nelem j j' x Q e, Quad4_obj nelem 4 (Nodal4_xi j) (Nodal4_w j') x Q -> (e < nelem)%nat ->
  sumn 4 (fun q => q_vol Q [e;q]) = quad_area (nodes x e).
Proof. exact dV_Nodal. Qed.
Print Assumptions C57_Nodal.

(** the MidPoint quadrature gives a quarter of the area *)
Theorem C57_MidPoint_quarter : forall nelem j j' x Q e, Quad4_obj nelem 1 (MidPoint4_xi j) (MidPoint4_w j') x Q -> (e < nelem)%nat ->
  sumn 1 (fun q => q_vol Q [e;q]) = quad_area (nodes x e) / 4.
Proof. exact dV_MidPoint. Qed.
Print Assumptions C57_MidPoint_quarter.

Example C57_ex_area : quad_area (nodes skew 0) = 15 / 2.
Proof. unfold quad_area. rewrite sumn4. cbn [Nat.add Nat.modulo Nat.divmod fst snd Nat.sub]. unfold nodes, skew. cbn [nth]. lra. Qed.

Theorem C57_MidPoint_refuted : exists nelem j j' x Q e, Quad4_obj nelem 1 (MidPoint4_xi j) (MidPoint4_w j') x Q /\ (e < nelem)%nat /\
  sumn 1 (fun q => q_vol Q [e;q]) <> quad_area (nodes x e).
Proof.
  pose proof (Quad4_obj_new 2 1 (MidPoint4_xi (fun _ => 7)) (MidPoint4_w (fun _ => 7)) [1;0]%nat skew (fun _ => 7) (fun _ => 7) (fun _ => 7) (fun _ => 7) (fun _ => 7) sched2) as H.
  exists 2%nat, (fun _ => 7), (fun _ => 7), skew. eexists. exists 0%nat. split; [exact H|]. split; [lia|].
  rewrite (dV_MidPoint _ _ _ _ _ 0%nat H) by lia. rewrite C57_ex_area. lra.
Qed.
Print Assumptions C57_MidPoint_refuted.

(** the shoelace area is the integral of the Jacobian over the reference element *)
Theorem C57_area_integral : forall x, is_integral2 (fun s t => jac2 x (pt2 s t)) (quad_area x).
Proof. exact area_integral. Qed.
Print Assumptions C57_area_integral.

(** for convex elements (positive Jacobian in the four corners) every integration volume is positive *)
Theorem C57_positive : forall nelem nip xi w x Q, Quad4_obj nelem nip xi w x Q ->
  forall e q, (e < nelem)%nat -> (q < nip)%nat -> 0 < w [q] ->
  -1 <= xi [q;0]%nat <= 1 -> -1 <= xi [q;1]%nat <= 1 ->
  (forall m, (m < 4)%nat -> 0 < jac2 (nodes x e) (corner2 m)) -> 0 < q_vol Q [e;q].
Proof.
  intros nelem nip xi w x Q H e q He Hq Hw H0 H1 Hc. rewrite (f_vol (Quad4_facts _ _ _ _ _ _ H) e q He Hq).
  apply Rmult_lt_0_compat; [exact Hw|]. exact (jac2_positive (nodes x e) (point xi q) H0 H1 Hc).
Qed.
Print Assumptions C57_positive.

Example C57_ex_convex : forall m, (m < 4)%nat -> 0 < jac2 (nodes skew 0) (corner2 m).
Proof. apply lt4; unfold jac2, dinterp2; rewrite !sumn4; unfold dshape2, corner2, nodes, skew; cbn [nth]; lra. Qed.

(** ** C58: mass matrix *)
Theorem C58_symmetric : forall nelem nip xi w x Q, Quad4_obj nelem nip xi w x Q -> forall es, schedule nelem es ->
  forall rho old e m i n j, (e < nelem)%nat -> (m < 4)%nat -> (n < 4)%nat -> (i < 2)%nat -> (j < 2)%nat ->
  let M := Quad4_int_N_scalar_NT_dV es Q rho old in
  M [e; m * 2 + i; n * 2 + j]%nat = M [e; n * 2 + j; m * 2 + i]%nat /\
  (i <> j -> M [e; m * 2 + i; n * 2 + j]%nat = 0) /\
  M [e; m * 2 + 0; n * 2 + 0]%nat = M [e; m * 2 + 1; n * 2 + 1]%nat.
Proof.
  intros nelem nip xi w x Q H es Hes rho old e m i n j He Hm Hn Hi Hj M. unfold M, Quad4_int_N_scalar_NT_dV.
  rewrite !(mass_at _ _ _ _ _ _ _ (Quad4_facts _ _ _ _ _ _ H) es Hes) by (assumption || lia).
  repeat split.
  - rewrite (Nat.eqb_sym j i). destruct (i =? j)%nat; [|reflexivity]. apply sumn_ext. intros q _. ring.
  - intros Hn'. apply Nat.eqb_neq in Hn'. rewrite Hn'. reflexivity.
Qed.
Print Assumptions C58_symmetric.

(** the kinetic energy: v . M . v = sum_q rho |v(q)|^2 dV, hence semi-definite; entries sum to the integral of rho *)
Theorem C58_quadratic : forall nelem nip xi w x Q, Quad4_obj nelem nip xi w x Q -> forall es, schedule nelem es ->
  forall rho old e i v, (e < nelem)%nat -> (i < 2)%nat ->
  sumn 4 (fun m => sumn 4 (fun n => v m * Quad4_int_N_scalar_NT_dV es Q rho old [e; m * 2 + i; n * 2 + i]%nat * v n))
  = sumn nip (fun q => rho [e;q] * q_vol Q [e;q] * (interp2 v (point xi q) * interp2 v (point xi q))).
Proof.
  intros nelem nip xi w x Q H es Hes. exact (f_mass_quadratic _ _ _ _ _ _ _ (Quad4_facts _ _ _ _ _ _ H) es Hes).
Qed.
Print Assumptions C58_quadratic.

Theorem C58_semidefinite : forall nelem nip xi w x Q, Quad4_obj nelem nip xi w x Q -> forall es, schedule nelem es ->
  forall rho old e i v, (e < nelem)%nat -> (i < 2)%nat ->
  (forall q, (q < nip)%nat -> 0 <= rho [e;q] * q_vol Q [e;q]) ->
  0 <= sumn 4 (fun m => sumn 4 (fun n => v m * Quad4_int_N_scalar_NT_dV es Q rho old [e; m * 2 + i; n * 2 + i]%nat * v n)).
Proof.
  intros nelem nip xi w x Q H es Hes. exact (f_mass_nonneg _ _ _ _ _ _ _ (Quad4_facts _ _ _ _ _ _ H) es Hes).
Qed.
Print Assumptions C58_semidefinite.

Theorem C58_total : forall nelem nip xi w x Q, Quad4_obj nelem nip xi w x Q -> forall es, schedule nelem es ->
  forall rho old e i, (e < nelem)%nat -> (i < 2)%nat ->
  sumn 4 (fun m => sumn 4 (fun n => Quad4_int_N_scalar_NT_dV es Q rho old [e; m * 2 + i; n * 2 + i]%nat))
  = sumn nip (fun q => rho [e;q] * q_vol Q [e;q]).
Proof.
  intros nelem nip xi w x Q H es Hes. exact (f_mass_total _ _ _ _ _ _ _ (Quad4_facts _ _ _ _ _ _ H) es Hes).
Qed.
Print Assumptions C58_total.

(** diagonal for the Nodal quadrature *)
Theorem C58_nodal : forall nelem j j' x Q es rho old e m i n i', Quad4_obj nelem 4 (Nodal4_xi j) (Nodal4_w j') x Q ->
  schedule nelem es -> (e < nelem)%nat -> (m < 4)%nat -> (n < 4)%nat -> (i < 2)%nat -> (i' < 2)%nat ->
  Quad4_int_N_scalar_NT_dV es Q rho old [e; m * 2 + i; n * 2 + i']%nat =
  if ((m =? n) && (i =? i'))%nat%bool then rho [e;m] * q_vol Q [e;m] else 0.
Proof.
  intros nelem j j' x Q es rho old e m i n i' H Hes He Hm Hn Hi Hi'. destruct (Nat.eqb_spec i i') as [<-|Hn'].
  - rewrite Bool.andb_true_r. exact (mass_nodal nelem j j' x Q es rho old e m i n H Hes He Hm Hn Hi).
  - rewrite Bool.andb_false_r. exact (proj1 (proj2 (C58_symmetric _ _ _ _ _ _ H es Hes rho old e m i n i' He Hm Hn Hi Hi')) Hn').
Qed.
Print Assumptions C58_nodal.

Example C58_ex : exists Q, Quad4_obj 2 4 (Nodal4_xi (fun _ => 7)) (Nodal4_w (fun _ => 7)) skew Q /\
  Quad4_int_N_scalar_NT_dV [1;0]%nat Q (fun _ => 3) (fun _ => 7) [1; 2 * 2 + 1; 2 * 2 + 1]%nat = 3 * q_vol Q [1;2]%nat.
Proof.
  pose proof (Quad4_obj_new 2 4 (Nodal4_xi (fun _ => 7)) (Nodal4_w (fun _ => 7)) [1;0]%nat skew (fun _ => 7) (fun _ => 7) (fun _ => 7) (fun _ => 7) (fun _ => 7) sched2) as H.
  eexists. split; [exact H|]. rewrite (C58_nodal _ _ _ _ _ _ _ _ 1 2 1 2 1 H sched2) by lia. reflexivity.
Qed.

(** ** C59: internal and body forces *)
Theorem C59_virtual_work : forall nelem nip xi w x Q, Quad4_obj nelem nip xi w x Q -> forall es, schedule nelem es ->
  forall sig u old old' e, (e < nelem)%nat ->
  sumn 4 (fun m => sumn 2 (fun j => Quad4_int_gradN_dot_tensor2_dV es Q sig old [e;m;j] * u [e;m;j])) =
  sumn nip (fun q => sumn 2 (fun i => sumn 2 (fun j => sig [e;q;i;j] * Quad4_gradN_vector es Q u old' [e;q;i;j])) * q_vol Q [e;q]).
Proof.
  intros nelem nip xi w x Q H es Hes sig u old old' e He. unfold Quad4_int_gradN_dot_tensor2_dV.
  rewrite (f_virtual_work _ _ _ _ _ _ _ (Quad4_facts _ _ _ _ _ _ H) es Hes sig u old e He).
  apply sumn_ext. intros q Hq. f_equal. apply sumn_ext. intros i Hi. apply sumn_ext. intros j Hj. f_equal. symmetry.
  exact (grad_at _ _ _ _ _ _ _ (Quad4_facts _ _ _ _ _ _ H) es Hes u old' e q i j He Hq Hi Hj).
Qed.
Print Assumptions C59_virtual_work.

(** the nodal forces of a stress field are self-equilibrated *)
Theorem C59_zero : forall nelem nip xi w x Q, Quad4_obj nelem nip xi w x Q -> forall es, schedule nelem es ->
  forall sig old e j, (e < nelem)%nat -> (j < 2)%nat ->
  sumn 4 (fun m => Quad4_int_gradN_dot_tensor2_dV es Q sig old [e;m;j]) = 0.
Proof.
  intros nelem nip xi w x Q H es Hes. exact (f_force_zero _ _ _ _ _ _ _ (Quad4_facts _ _ _ _ _ _ H) es Hes).
Qed.
Print Assumptions C59_zero.

(** body forces: the work of the nodal forces is the integral of the work of the field *)
Theorem C59_body : forall nelem nip xi w x Q, Quad4_obj nelem nip xi w x Q -> forall es, schedule nelem es ->
  forall n f u old e, (e < nelem)%nat ->
  sumn 4 (fun m => sumn n (fun i => Quad4_int_N_vector_dV es Q n f old [e;m;i] * u [e;m;i])) =
  sumn nip (fun q => sumn n (fun i => f [e;q;i] * interp2 (comp u e i) (point xi q)) * q_vol Q [e;q]).
Proof.
  intros nelem nip xi w x Q H es Hes. exact (body_work _ _ _ _ _ _ _ (Quad4_facts _ _ _ _ _ _ H) es Hes).
Qed.
Print Assumptions C59_body.

(** ** C60: stiffness matrix *)
Theorem C60_action : forall nelem nip xi w x Q, Quad4_obj nelem nip xi w x Q -> forall es, schedule nelem es ->
  forall C u old old' old'' e m j, (e < nelem)%nat -> (m < 4)%nat -> (j < 2)%nat ->
  sumn 4 (fun n => sumn 2 (fun k =>
    Quad4_int_gradN_dot_tensor4_dot_gradNT_dV es Q C old [e; m * 2 + j; n * 2 + k]%nat * u [e;n;k])) =
  Quad4_int_gradN_dot_tensor2_dV es Q (ddot42 2 C (Quad4_gradN_vector es Q u old')) old'' [e;m;j].
Proof.
  intros nelem nip xi w x Q H es Hes C u old old' old'' e m j He Hm Hj.
  apply (f_stiff_action _ _ _ _ _ _ _ (Quad4_facts _ _ _ _ _ _ H) es Hes C u _ old old'' e m j He Hm Hj).
  intros q i k Hq Hi Hk. exact (grad_at _ _ _ _ _ _ _ (Quad4_facts _ _ _ _ _ _ H) es Hes u old' e q i k He Hq Hi Hk).
Qed.
Print Assumptions C60_action.

(** major symmetry C_ijkl = C_lkji (the contraction is C_ijkl A_lk) gives a symmetric matrix *)
Theorem C60_symmetric : forall nelem nip xi w x Q, Quad4_obj nelem nip xi w x Q -> forall es, schedule nelem es ->
  forall C old e m j n k, (e < nelem)%nat -> (m < 4)%nat -> (n < 4)%nat -> (j < 2)%nat -> (k < 2)%nat ->
  (forall q i j k l, (q < nip)%nat -> (i < 2)%nat -> (j < 2)%nat -> (k < 2)%nat -> (l < 2)%nat ->
     C [e;q;i;j;k;l] = C [e;q;l;k;j;i]) ->
  Quad4_int_gradN_dot_tensor4_dot_gradNT_dV es Q C old [e; m * 2 + j; n * 2 + k]%nat =
  Quad4_int_gradN_dot_tensor4_dot_gradNT_dV es Q C old [e; n * 2 + k; m * 2 + j]%nat.
Proof.
  intros nelem nip xi w x Q H es Hes. exact (f_stiff_sym _ _ _ _ _ _ _ (Quad4_facts _ _ _ _ _ _ H) es Hes).
Qed.
Print Assumptions C60_symmetric.

(** rigid translations are in the kernel *)
Theorem C60_kernel : forall nelem nip xi w x Q, Quad4_obj nelem nip xi w x Q -> forall es, schedule nelem es ->
  forall C old e m j k, (e < nelem)%nat -> (m < 4)%nat -> (j < 2)%nat -> (k < 2)%nat ->
  sumn 4 (fun n => Quad4_int_gradN_dot_tensor4_dot_gradNT_dV es Q C old [e; m * 2 + j; n * 2 + k]%nat) = 0.
Proof.
  intros nelem nip xi w x Q H es Hes. exact (f_stiff_kernel _ _ _ _ _ _ _ (Quad4_facts _ _ _ _ _ _ H) es Hes).
Qed.
Print Assumptions C60_kernel.

(** a fourth-order tensor with the major symmetry: C_ijkl = delta_il delta_jk *)
Example C60_ex : let C : arr := fun k => match k with [_;_;i;j;k;l] => if ((i =? l) && (j =? k))%nat%bool then 1 else 0 | _ => 0 end in
  (forall e q i j k l, C [e;q;i;j;k;l] = C [e;q;l;k;j;i]) /\ C [0;0;0;1;1;0]%nat = 1 /\ C [0;0;0;1;0;1]%nat = 0.
Proof. cbv zeta. split; [|split; reflexivity]. intros e q i j k l. rewrite (Nat.eqb_sym l i), (Nat.eqb_sym k j). reflexivity. Qed.
