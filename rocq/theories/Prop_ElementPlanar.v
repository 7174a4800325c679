(** Properties C61, C62: plane-strain and axisymmetric quadrature of the four-node quadrilateral
    (Element::Quad4::QuadraturePlanar, Element::Quad4::QuadratureAxisymmetric); C73 for the Quad4 classes.
    See Prop_ElementQuad4.v for the conventions. *)
From Coq Require Import List Arith Reals Lra Lia Permutation.
From Coquelicot Require Import Hierarchy RInt.
From Verif Require Import Sums Model_Element Spec_Element Proof_Element Proof_ElementQuad4 Proof_ElementMath Proof_ElementThm
  Proof_ElementThm2 Proof_ElementAxisym Proof_ElementThm3.
Import ListNotations.
Local Open Scope R_scope.

(** ** C61: planar *)
Theorem C61_out_of_plane : forall nelem nip xi w thick x P, Planar_obj nelem nip xi w thick x P ->
  forall es, schedule nelem es -> forall u old e q i j, i = 2%nat \/ j = 2%nat ->
  Planar_gradN_vector es P u old [e;q;i;j] = 0 /\ Planar_gradN_vector_T es P u old [e;q;i;j] = 0 /\
  Planar_symGradN_vector es P u old [e;q;i;j] = 0.
Proof. intros nelem nip xi w thick x P H es Hes. exact (P_out _ _ _ _ _ _ _ H es Hes). Qed.
Print Assumptions C61_out_of_plane.

(** in-plane components: those of the two-dimensional object on the same geometry *)
Theorem C61_in_plane : forall nelem nip xi w thick x P Q, Planar_obj nelem nip xi w thick x P -> Quad4_obj nelem nip xi w x Q ->
  forall es, schedule nelem es -> forall u old old' e q i j,
  (e < nelem)%nat -> (q < nip)%nat -> (i < 2)%nat -> (j < 2)%nat ->
  Planar_gradN_vector es P u old [e;q;i;j] = Quad4_gradN_vector es Q u old' [e;q;i;j] /\
  Planar_gradN_vector_T es P u old [e;q;i;j] = Quad4_gradN_vector_T es Q u old' [e;q;i;j] /\
  Planar_symGradN_vector es P u old [e;q;i;j] = Quad4_symGradN_vector es Q u old' [e;q;i;j].
Proof.
  intros nelem nip xi w thick x P Q H H' es Hes u old old' e q i j He Hq Hi Hj.
  pose proof (P_facts _ _ _ _ _ _ _ H es Hes) as F. pose proof (Quad4_facts _ _ _ _ _ _ H') as F'.
  assert (G : forall i j, (i < 2)%nat -> grad4 (q_dNx (p_base P)) u e q i j = grad4 (q_dNx Q) u e q i j).
  { intros i' j' Hi'. apply sumn_ext. intros m Hm. rewrite (f_dNx F), (f_dNx F') by assumption. reflexivity. }
  unfold Planar_gradN_vector, Planar_gradN_vector_T, Planar_symGradN_vector, Quad4_gradN_vector, Quad4_gradN_vector_T, Quad4_symGradN_vector.
  rewrite (grad_at _ _ _ _ _ _ _ F es Hes), (grad_at _ _ _ _ _ _ _ F' es Hes) by assumption.
  rewrite (grad_T_at _ _ _ _ _ _ _ F es Hes), (grad_T_at _ _ _ _ _ _ _ F' es Hes) by assumption.
  rewrite (sym_at _ _ _ _ _ _ _ F es Hes), (sym_at _ _ _ _ _ _ _ F' es Hes) by assumption.
  rewrite !G by assumption. repeat split.
Qed.
Print Assumptions C61_in_plane.

(** volumes scale with the thickness *)
Theorem C61_volume : forall nelem nip xi w thick x P Q, Planar_obj nelem nip xi w thick x P -> Quad4_obj nelem nip xi w x Q ->
  forall e q, (e < nelem)%nat -> (q < nip)%nat -> q_vol (p_base P) [e;q] = thick * q_vol Q [e;q].
Proof.
  intros nelem nip xi w thick x P Q H H' e q He Hq.
  rewrite (f_vol (proj2 (Planar_facts _ _ _ _ _ _ _ H)) e q He Hq), (f_vol (Quad4_facts _ _ _ _ _ _ H') e q He Hq). ring.
Qed.
Print Assumptions C61_volume.

Theorem C61_virtual_work : forall nelem nip xi w thick x P, Planar_obj nelem nip xi w thick x P ->
  forall es, schedule nelem es -> forall sig u old old' e, (e < nelem)%nat ->
  sumn 4 (fun m => sumn 2 (fun j => Planar_int_gradN_dot_tensor2_dV es P sig old [e;m;j] * u [e;m;j])) =
  sumn nip (fun q => sumn 3 (fun i => sumn 3 (fun j => sig [e;q;i;j] * Planar_gradN_vector es P u old' [e;q;i;j])) * q_vol (p_base P) [e;q]).
Proof. intros nelem nip xi w thick x P H es Hes. exact (P_virtual_work _ _ _ _ _ _ _ H es Hes). Qed.
Print Assumptions C61_virtual_work.

Theorem C61_stiffness : forall nelem nip xi w thick x P, Planar_obj nelem nip xi w thick x P ->
  forall es, schedule nelem es -> forall C u old old' old'' e m j, (e < nelem)%nat -> (m < 4)%nat -> (j < 2)%nat ->
  sumn 4 (fun n => sumn 2 (fun k =>
    Planar_int_gradN_dot_tensor4_dot_gradNT_dV es P C old [e; m * 2 + j; n * 2 + k]%nat * u [e;n;k])) =
  Planar_int_gradN_dot_tensor2_dV es P (ddot42 3 C (Planar_gradN_vector es P u old'')) old' [e;m;j].
Proof. intros nelem nip xi w thick x P H es Hes. exact (P_stiff_action _ _ _ _ _ _ _ H es Hes). Qed.
Print Assumptions C61_stiffness.

(** mass matrix and body force, as for Quad4, with the planar volumes *)
Theorem C61_mass : forall nelem nip xi w thick x P, Planar_obj nelem nip xi w thick x P ->
  forall es, schedule nelem es -> forall rho f u v old old' e i, (e < nelem)%nat -> (i < 2)%nat ->
  sumn 4 (fun m => sumn 4 (fun n => v m * Planar_int_N_scalar_NT_dV es P rho old [e; m * 2 + i; n * 2 + i]%nat * v n))
  = sumn nip (fun q => rho [e;q] * q_vol (p_base P) [e;q] * (interp2 v (point xi q) * interp2 v (point xi q))) /\
  sumn 4 (fun m => sumn 2 (fun i => Planar_int_N_vector_dV es P 2 f old' [e;m;i] * u [e;m;i])) =
  sumn nip (fun q => sumn 2 (fun i => f [e;q;i] * interp2 (comp u e i) (point xi q)) * q_vol (p_base P) [e;q]).
Proof.
  intros nelem nip xi w thick x P H es Hes rho f u v old old' e i He Hi.
  pose proof (P_facts _ _ _ _ _ _ _ H es Hes) as F. split.
  - exact (f_mass_quadratic _ _ _ _ _ _ _ F es Hes rho old e i v He Hi).
  - exact (body_work _ _ _ _ _ _ _ F es Hes 2 f u old' e He).
Qed.
Print Assumptions C61_mass.

(** an object that has been moved by update_x *)
Example C61_ex : forall x x' : arr, exists P, Planar_obj 2 4 (Gauss4_xi (fun _ => 7)) (Gauss4_w (fun _ => 7)) 3 x' P /\ p_thick P = 3 /\
  q_vol (p_base P) [1;2]%nat = 3 * (Gauss4_w (fun _ => 7) [2%nat] * jac2 (nodes x' 1) (point (Gauss4_xi (fun _ => 7)) 2)) /\
  exists Q, Quad4_obj 2 4 (Gauss4_xi (fun _ => 7)) (Gauss4_w (fun _ => 7)) x' Q.
Proof.
  intros x x'. set (j := fun _ : list nat => 7).
  assert (S2 : schedule 2 [1;0]%nat) by apply perm_swap.
  pose proof (Planar_obj_new 2 4 (Gauss4_xi j) (Gauss4_w j) 3 [1;0]%nat x j j j j j S2) as H0.
  pose proof (Planar_obj_update 2 4 (Gauss4_xi j) (Gauss4_w j) 3 [1;0]%nat x _ x' j S2 H0) as H.
  eexists. split; [exact H|]. split; [reflexivity|]. split.
  - rewrite (f_vol (proj2 (Planar_facts _ _ _ _ _ _ _ H)) 1%nat 2%nat) by lia. ring.
  - eexists. exact (Quad4_obj_new 2 4 (Gauss4_xi j) (Gauss4_w j) [1;0]%nat x' j j j j j S2).
Qed.

(** ** C62: axisymmetric.  Nodal coordinates and vectors are (z, r); tensors are (r, theta, z). *)
Theorem C62_gradient : forall nelem nip xi w x A Q, Axisym_obj nelem nip xi w x A -> Quad4_obj nelem nip xi w x Q ->
  forall es, schedule nelem es -> forall u old old' e q, (e < nelem)%nat -> (q < nip)%nat ->
  let g := Quad4_gradN_vector es Q u old in let h := Axisym_gradN_vector es A u old' in
  h [e;q;0;0]%nat = g [e;q;1;1]%nat /\ h [e;q;2;2]%nat = g [e;q;0;0]%nat /\
  h [e;q;0;2]%nat = g [e;q;1;0]%nat /\ h [e;q;2;0]%nat = g [e;q;0;1]%nat /\
  h [e;q;1;1]%nat = interp2 (comp u e 1) (point xi q) / radius xi x e q /\
  h [e;q;0;1]%nat = 0 /\ h [e;q;1;0]%nat = 0 /\ h [e;q;1;2]%nat = 0 /\ h [e;q;2;1]%nat = 0.
Proof.
  intros nelem nip xi w x A Q H H' es Hes u old old' e q He Hq.
  exact (A_gradient nelem nip xi w x A Q es u old old' e q (Axisym_facts _ _ _ _ _ _ H) (Quad4_facts _ _ _ _ _ _ H') Hes He Hq).
Qed.
Print Assumptions C62_gradient.

(** affine fields: du_r/dr, du_z/dz, du_z/dr, du_r/dz are those of the field *)
Theorem C62_affine : forall nelem nip xi w x A, Axisym_obj nelem nip xi w x A ->
  forall es, schedule nelem es -> forall a B u old e q, (e < nelem)%nat -> (q < nip)%nat ->
  jac2 (nodes x e) (point xi q) <> 0 -> affine 2 4 a B x u e ->
  let h := Axisym_gradN_vector es A u old in
  h [e;q;0;0]%nat = B 1%nat 1%nat /\ h [e;q;2;2]%nat = B 0%nat 0%nat /\ h [e;q;0;2]%nat = B 0%nat 1%nat /\ h [e;q;2;0]%nat = B 1%nat 0%nat.
Proof.
  intros nelem nip xi w x A H es Hes a B u old e q He Hq Hd Ha h.
  pose proof (Quad4_obj_new nelem nip xi w es x (fun _ => 0) (fun _ => 0) (fun _ => 0) (fun _ => 0) (fun _ => 0) Hes) as H'.
  pose proof (Quad4_facts _ _ _ _ _ _ H') as F.
  destruct (A_gradient nelem nip xi w x A _ es u (fun _ => 0) old e q (Axisym_facts _ _ _ _ _ _ H) F Hes He Hq) as (E0 & E1 & E2 & E3 & _).
  unfold h. rewrite E0, E1, E2, E3. unfold Quad4_gradN_vector.
  rewrite !(grad_at _ _ _ _ _ _ _ F es Hes) by (assumption || lia).
  rewrite !(grad4_affine _ _ _ _ _ _ _ F es Hes a B u e q) by (assumption || lia). repeat split.
Qed.
Print Assumptions C62_affine.

Theorem C62_transpose_symmetric : forall nelem nip xi w x A, Axisym_obj nelem nip xi w x A ->
  forall es, schedule nelem es -> forall u old old' old'' e q a b,
  (e < nelem)%nat -> (q < nip)%nat -> (a < 3)%nat -> (b < 3)%nat ->
  let h := Axisym_gradN_vector es A u old in
  Axisym_gradN_vector_T es A u old' [e;q;b;a] = h [e;q;a;b] /\
  Axisym_symGradN_vector es A u old'' [e;q;a;b] = (h [e;q;a;b] + h [e;q;b;a]) / 2.
Proof.
  intros nelem nip xi w x A H es Hes u old old' old'' e q a b He Hq Ha Hb h. pose proof (Axisym_facts _ _ _ _ _ _ H) as F.
  unfold h. rewrite !(axi_grad_spec _ _ _ _ _ _ F es Hes) by assumption. split.
  - exact (axi_grad_T_spec _ _ _ _ _ _ F es Hes u old' e q a b He Hq Ha Hb).
  - exact (axi_sym_spec _ _ _ _ _ _ F es Hes u old'' e q a b He Hq Ha Hb).
Qed.
Print Assumptions C62_transpose_symmetric.

(** volume of an integration point: that of a ring of radius r; the sum over the Gauss points is the
    volume of the body of revolution (integral of 2 pi r over the section) *)
Theorem C62_volume : forall nelem nip xi w x A, Axisym_obj nelem nip xi w x A ->
  forall e q, (e < nelem)%nat -> (q < nip)%nat ->
  a_vol A [e;q] = w [q] * jac2 (nodes x e) (point xi q) * (2 * PI * radius xi x e q).
Proof. intros nelem nip xi w x A H. exact (a_f_vol (Axisym_facts _ _ _ _ _ _ H)). Qed.
Print Assumptions C62_volume.

Theorem C62_Gauss : forall nelem j j' x A e, Axisym_obj nelem 4 (Gauss4_xi j) (Gauss4_w j') x A -> (e < nelem)%nat ->
  is_integral2 (fun s t => 2 * PI * interp2 (comp x e 1) (pt2 s t) * jac2 (nodes x e) (pt2 s t)) (sumn 4 (fun q => a_vol A [e;q])).
Proof. exact axi_volume. Qed.
Print Assumptions C62_Gauss.

Theorem C62_virtual_work : forall nelem nip xi w x A, Axisym_obj nelem nip xi w x A ->
  forall es, schedule nelem es -> forall sig u old old' e, (e < nelem)%nat ->
  sumn 4 (fun m => sumn 2 (fun i => Axisym_int_gradN_dot_tensor2_dV es A sig old [e;m;i] * u [e;m;i])) =
  sumn nip (fun q => sumn 3 (fun a => sumn 3 (fun b => sig [e;q;a;b] * Axisym_gradN_vector es A u old' [e;q;a;b])) * a_vol A [e;q]).
Proof. intros nelem nip xi w x A H es Hes. exact (A_virtual_work _ _ _ _ _ _ (Axisym_facts _ _ _ _ _ _ H) es Hes). Qed.
Print Assumptions C62_virtual_work.

Theorem C62_stiffness : forall nelem nip xi w x A, Axisym_obj nelem nip xi w x A ->
  forall es, schedule nelem es -> forall C u old old' old'' e m i, (e < nelem)%nat -> (m < 4)%nat -> (i < 2)%nat ->
  sumn 4 (fun n => sumn 2 (fun j =>
    Axisym_int_gradN_dot_tensor4_dot_gradNT_dV es A C old [e; m * 2 + i; n * 2 + j]%nat * u [e;n;j])) =
  Axisym_int_gradN_dot_tensor2_dV es A (ddot42 3 C (Axisym_gradN_vector es A u old'')) old' [e;m;i].
Proof. intros nelem nip xi w x A H es Hes. exact (A_stiff_action _ _ _ _ _ _ (Axisym_facts _ _ _ _ _ _ H) es Hes). Qed.
Print Assumptions C62_stiffness.

Theorem C62_stiffness_symmetric : forall nelem nip xi w x A, Axisym_obj nelem nip xi w x A ->
  forall es, schedule nelem es -> forall C old e m i n j,
  (e < nelem)%nat -> (m < 4)%nat -> (n < 4)%nat -> (i < 2)%nat -> (j < 2)%nat ->
  (forall q a b c d, (q < nip)%nat -> (a < 3)%nat -> (b < 3)%nat -> (c < 3)%nat -> (d < 3)%nat ->
     C [e;q;a;b;c;d] = C [e;q;d;c;b;a]) ->
  Axisym_int_gradN_dot_tensor4_dot_gradNT_dV es A C old [e; m * 2 + i; n * 2 + j]%nat =
  Axisym_int_gradN_dot_tensor4_dot_gradNT_dV es A C old [e; n * 2 + j; m * 2 + i]%nat.
Proof. intros nelem nip xi w x A H es Hes. exact (A_stiff_sym _ _ _ _ _ _ (Axisym_facts _ _ _ _ _ _ H) es Hes). Qed.
Print Assumptions C62_stiffness_symmetric.

Theorem C62_mass : forall nelem nip xi w x A, Axisym_obj nelem nip xi w x A ->
  forall es, schedule nelem es -> forall rho old e i, (e < nelem)%nat -> (i < 2)%nat ->
  sumn 4 (fun m => sumn 4 (fun n => Axisym_int_N_scalar_NT_dV es A rho old [e; m * 2 + i; n * 2 + i]%nat))
  = sumn nip (fun q => rho [e;q] * a_vol A [e;q]).
Proof. intros nelem nip xi w x A H es Hes. exact (A_mass_total _ _ _ _ _ _ (Axisym_facts _ _ _ _ _ _ H) es Hes). Qed.
Print Assumptions C62_mass.

(** a ring with a square section, r from 2 to 4: radius 3 in the middle, volume 2 pi 3 * 4 *)
Example C62_ex : let x : arr := fun k => match k with [_;m;i] => corner2 m i + (if (i =? 1)%nat then 3 else 0) | _ => 0 end in
  let xi := MidPoint4_xi (fun _ => 7) in let w := fun _ => 4 in
  exists A, Axisym_obj 2 1 xi w x A /\ radius xi x 1 0 = 3 /\ jac2 (nodes x 1) (point xi 0) = 1 /\ a_vol A [1;0]%nat = 24 * PI /\
    affine 2 4 (fun _ => 0) (fun i k => if (i =? k)%nat then 1 else 0) x x 1.
Proof.
  intros x xi w. set (j := fun _ : list nat => 7).
  assert (S2 : schedule 2 [1;0]%nat) by apply perm_swap.
  pose proof (Axisym_obj_new 2 1 xi w [1;0]%nat x j j j j j S2) as H.
  assert (Er : radius xi x 1 0 = 3).
  { unfold radius, interp2. rewrite sumn4. unfold comp, x, shape2, point, xi, corner2, MidPoint4_xi. blk. cbn [Nat.eqb]. lra. }
  assert (Ej : jac2 (nodes x 1) (point xi 0) = 1).
  { unfold jac2, dinterp2. rewrite !sumn4. unfold nodes, x, dshape2, point, xi, corner2, MidPoint4_xi. blk. cbn [Nat.eqb]. lra. }
  eexists. split; [exact H|]. split; [exact Er|]. split; [exact Ej|]. split.
  - rewrite (C62_volume _ _ _ _ _ _ H 1%nat 0%nat) by lia. rewrite Er, Ej. unfold w. ring.
  - intros m k Hm Hk. rewrite sumn2. revert k Hk. apply lt2; cbn [Nat.eqb]; ring.
Qed.

(** ** C73: update_x.  The state of an object depends on its current coordinates only: not on earlier
    coordinates, on the order of the loops or on uninitialised memory; in particular update_x(x) gives
    the object that the constructor gives with x. *)
Theorem C73_Quad4 : forall nelem nip xi w x Q Q', Quad4_obj nelem nip xi w x Q -> Quad4_obj nelem nip xi w x Q' ->
  q_nelem Q = q_nelem Q' /\ q_nip Q = q_nip Q' /\ q_x Q = q_x Q' /\ q_w Q = q_w Q' /\ q_xi Q = q_xi Q' /\
  (forall q m, (q < nip)%nat -> (m < 4)%nat -> q_N Q [q;m] = q_N Q' [q;m] /\
     forall i, (i < 2)%nat -> q_dNxi Q [q;m;i] = q_dNxi Q' [q;m;i]) /\
  (forall e q, (e < nelem)%nat -> (q < nip)%nat -> q_vol Q [e;q] = q_vol Q' [e;q] /\
     forall m i, (m < 4)%nat -> (i < 2)%nat -> q_dNx Q [e;q;m;i] = q_dNx Q' [e;q;m;i]).
Proof.
  intros nelem nip xi w x Q Q' H H'. exact (same_objects _ _ _ _ _ _ _ _ (Quad4_facts _ _ _ _ _ _ H) (Quad4_facts _ _ _ _ _ _ H')).
Qed.
Print Assumptions C73_Quad4.

Theorem C73_Planar : forall nelem nip xi w thick x P P', Planar_obj nelem nip xi w thick x P -> Planar_obj nelem nip xi w thick x P' ->
  let Q := p_base P in let Q' := p_base P' in p_thick P = p_thick P' /\
  q_nelem Q = q_nelem Q' /\ q_nip Q = q_nip Q' /\ q_x Q = q_x Q' /\ q_w Q = q_w Q' /\ q_xi Q = q_xi Q' /\
  (forall q m, (q < nip)%nat -> (m < 4)%nat -> q_N Q [q;m] = q_N Q' [q;m] /\
     forall i, (i < 2)%nat -> q_dNxi Q [q;m;i] = q_dNxi Q' [q;m;i]) /\
  (forall e q, (e < nelem)%nat -> (q < nip)%nat -> q_vol Q [e;q] = q_vol Q' [e;q] /\
     forall m i, (m < 4)%nat -> (i < 2)%nat -> q_dNx Q [e;q;m;i] = q_dNx Q' [e;q;m;i]).
Proof.
  intros nelem nip xi w thick x P P' H H' Q Q'.
  destruct (Planar_facts _ _ _ _ _ _ _ H) as (E & F). destruct (Planar_facts _ _ _ _ _ _ _ H') as (E' & F').
  split; [congruence|]. exact (same_objects _ _ _ _ _ _ _ _ F F').
Qed.
Print Assumptions C73_Planar.

Theorem C73_Axisym : forall nelem nip xi w x A A', Axisym_obj nelem nip xi w x A -> Axisym_obj nelem nip xi w x A' ->
  a_nelem A = a_nelem A' /\ a_nip A = a_nip A' /\ a_x A = a_x A' /\ a_w A = a_w A' /\
  (forall q m, (q < nip)%nat -> (m < 4)%nat -> a_N A [q;m] = a_N A' [q;m] /\
     forall i, (i < 2)%nat -> a_dNxi A [q;m;i] = a_dNxi A' [q;m;i]) /\
  (forall e q, (e < nelem)%nat -> (q < nip)%nat -> a_vol A [e;q] = a_vol A' [e;q] /\
     forall m a b c, (m < 4)%nat -> (a < 3)%nat -> (b < 3)%nat -> (c < 3)%nat -> a_B A [e;q;m;a;b;c] = a_B A' [e;q;m;a;b;c]).
Proof.
  intros nelem nip xi w x A A' H H'. exact (same_axisym _ _ _ _ _ _ _ (Axisym_facts _ _ _ _ _ _ H) (Axisym_facts _ _ _ _ _ _ H')).
Qed.
Print Assumptions C73_Axisym.

(** the results of the operators do not depend on the order of the loop over the elements, nor on what the output contained *)
Theorem C73_schedule : forall nelem nip xi w x Q, Quad4_obj nelem nip xi w x Q ->
  forall es es', schedule nelem es -> schedule nelem es' -> forall u sig rho C old old' e, (e < nelem)%nat ->
  (forall q i j, (q < nip)%nat -> (i < 2)%nat -> (j < 2)%nat ->
     Quad4_interpQuad_vector es Q u old [e;q;i] = Quad4_interpQuad_vector es' Q u old' [e;q;i] /\
     Quad4_gradN_vector es Q u old [e;q;i;j] = Quad4_gradN_vector es' Q u old' [e;q;i;j] /\
     Quad4_symGradN_vector es Q u old [e;q;i;j] = Quad4_symGradN_vector es' Q u old' [e;q;i;j]) /\
  (forall m i n j, (m < 4)%nat -> (i < 2)%nat -> (n < 4)%nat -> (j < 2)%nat ->
     Quad4_int_gradN_dot_tensor2_dV es Q sig old [e;m;i] = Quad4_int_gradN_dot_tensor2_dV es' Q sig old' [e;m;i] /\
     Quad4_int_N_scalar_NT_dV es Q rho old [e; m * 2 + i; n * 2 + j]%nat = Quad4_int_N_scalar_NT_dV es' Q rho old' [e; m * 2 + i; n * 2 + j]%nat /\
     Quad4_int_gradN_dot_tensor4_dot_gradNT_dV es Q C old [e; m * 2 + i; n * 2 + j]%nat =
     Quad4_int_gradN_dot_tensor4_dot_gradNT_dV es' Q C old' [e; m * 2 + i; n * 2 + j]%nat).
Proof.
  intros nelem nip xi w x Q H es es' Hes Hes' u sig rho C old old' e He. pose proof (Quad4_facts _ _ _ _ _ _ H) as F.
  split; intros; repeat split.
  - rewrite (interp_at _ _ _ _ _ _ _ F es Hes), (interp_at _ _ _ _ _ _ _ F es' Hes') by assumption. reflexivity.
  - unfold Quad4_gradN_vector. rewrite (grad_at _ _ _ _ _ _ _ F es Hes), (grad_at _ _ _ _ _ _ _ F es' Hes') by assumption. reflexivity.
  - unfold Quad4_symGradN_vector. rewrite (sym_at _ _ _ _ _ _ _ F es Hes), (sym_at _ _ _ _ _ _ _ F es' Hes') by assumption. reflexivity.
  - unfold Quad4_int_gradN_dot_tensor2_dV. rewrite (force_at _ _ _ _ _ _ _ F es Hes), (force_at _ _ _ _ _ _ _ F es' Hes') by assumption. reflexivity.
  - unfold Quad4_int_N_scalar_NT_dV. rewrite (mass_at _ _ _ _ _ _ _ F es Hes), (mass_at _ _ _ _ _ _ _ F es' Hes') by assumption. reflexivity.
  - unfold Quad4_int_gradN_dot_tensor4_dot_gradNT_dV. rewrite (stiff_at _ _ _ _ _ _ _ F es Hes), (stiff_at _ _ _ _ _ _ _ F es' Hes') by assumption. reflexivity.
Qed.
Print Assumptions C73_schedule.

(** an object after two moves, and a freshly constructed one *)
Example C73_ex : forall x0 x1 x2 : arr, exists Q Q',
  Quad4_obj 2 4 (Gauss4_xi (fun _ => 7)) (Gauss4_w (fun _ => 7)) x2 Q /\ Quad4_obj 2 4 (Gauss4_xi (fun _ => 7)) (Gauss4_w (fun _ => 7)) x2 Q' /\
  Q = Quad4_update_x [0;1]%nat (fun _ => 5) x2 (Quad4_update_x [1;0]%nat (fun _ => 6) x1
        (Quad4_new [0;1]%nat 2 x0 4 (Gauss4_xi (fun _ => 7)) (Gauss4_w (fun _ => 7)) (fun _ => 1) (fun _ => 1) (fun _ => 1) (fun _ => 1) (fun _ => 1))) /\
  Q' = Quad4_new [1;0]%nat 2 x2 4 (Gauss4_xi (fun _ => 7)) (Gauss4_w (fun _ => 7)) (fun _ => 2) (fun _ => 2) (fun _ => 2) (fun _ => 2) (fun _ => 2).
Proof.
  intros x0 x1 x2.
  assert (S2 : schedule 2 [1;0]%nat) by apply perm_swap. assert (S1 : schedule 2 [0;1]%nat) by apply Permutation_refl.
  do 2 eexists. split; [|split; [|split; reflexivity]].
  - eapply Quad4_obj_update; [exact S1|]. eapply Quad4_obj_update; [exact S2|]. apply Quad4_obj_new. exact S1.
  - apply Quad4_obj_new. exact S2.
Qed.
