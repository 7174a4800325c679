(** Properties C62, C74, continued: body forces, mass matrix and resultants of the axisymmetric quadrilateral
    (Element::Quad4::QuadratureAxisymmetric) and of the hexahedron (Element::Hex8::Quadrature).
    As in Prop_ElementQuad4: any object a user can obtain, any order of the elements, any old contents. *)
From Coq Require Import List Arith Reals Lra Lia Permutation.
From Verif Require Import Sums Model_Element Spec_Element Proof_Element Proof_ElementQuad4 Proof_ElementMath Proof_ElementThm
  Proof_ElementThm2 Proof_ElementAxisym Proof_ElementThm3 Proof_ElementHex8 Prop_ElementPlanar.
Import ListNotations.
Local Open Scope R_scope.

(** virtual work of a body force, given node by node as the shape functions times the force *)
Lemma work_of_shapes nip nne n (N : nat -> nat -> R) (f : nat -> nat -> R) (u : nat -> nat -> R) (vol : nat -> R) :
  sumn nne (fun m => sumn n (fun i => sumn nip (fun q => N q m * f q i * vol q) * u m i)) =
  sumn nip (fun q => sumn n (fun i => f q i * sumn nne (fun m => N q m * u m i)) * vol q).
Proof.
  transitivity (sumn nne (fun m => sumn n (fun i => sumn nip (fun q => N q m * u m i * (f q i * vol q))))).
  - apply sumn_ext. intros m _. apply sumn_ext. intros i _. rewrite <- sumn_scal_r. apply sumn_ext. intros q _. ring.
  - rewrite (sumn_ext nne _ (fun m => sumn nip (fun q => sumn n (fun i => N q m * u m i * (f q i * vol q))))) by (intros; apply sumn_swap).
    rewrite sumn_swap. apply sumn_ext. intros q _. rewrite sumn_swap, <- sumn_scal_r. apply sumn_ext. intros i _.
    rewrite sumn_scal_r. ring.
Qed.

Lemma total_of_shapes nip nne (N : nat -> nat -> R) (f vol : nat -> R) :
  (forall q, (q < nip)%nat -> sumn nne (fun m => N q m) = 1) ->
  sumn nne (fun m => sumn nip (fun q => N q m * f q * vol q)) = sumn nip (fun q => f q * vol q).
Proof.
  intros H. rewrite sumn_swap. apply sumn_ext. intros q Hq.
  rewrite (sumn_ext nne _ (fun m => N q m * (f q * vol q))) by (intros; ring). rewrite sumn_scal_r, H by assumption. ring.
Qed.

(** ** C62: axisymmetric *)
(** the mass matrix: symmetric, no coupling between the components, and the kinetic energy of the
    interpolated field as quadratic form (hence positive semi-definite) *)
Theorem C62_mass_form : forall nelem nip xi w x A, Axisym_obj nelem nip xi w x A -> forall es, schedule nelem es ->
  forall rho old e, (e < nelem)%nat ->
  let M := Axisym_int_N_scalar_NT_dV es A rho old in
  (forall i v, (i < 2)%nat -> sumn 4 (fun m => sumn 4 (fun n => v m * M [e; m * 2 + i; n * 2 + i]%nat * v n))
     = sumn nip (fun q => rho [e;q] * a_vol A [e;q] * (interp2 v (point xi q) * interp2 v (point xi q)))) /\
  (forall i v, (i < 2)%nat -> (forall q, (q < nip)%nat -> 0 <= rho [e;q] * a_vol A [e;q]) ->
     0 <= sumn 4 (fun m => sumn 4 (fun n => v m * M [e; m * 2 + i; n * 2 + i]%nat * v n))) /\
  (forall m n i j, (m < 4)%nat -> (n < 4)%nat -> (i < 2)%nat -> (j < 2)%nat ->
     M [e; m * 2 + i; n * 2 + j]%nat = M [e; n * 2 + j; m * 2 + i]%nat /\ (i <> j -> M [e; m * 2 + i; n * 2 + j]%nat = 0)).
Proof.
  intros nelem nip xi w x A H es Hes rho old e He M. pose proof (Axisym_facts _ _ _ _ _ _ H) as F.
  assert (Q : forall i v, (i < 2)%nat -> sumn 4 (fun m => sumn 4 (fun n => v m * M [e; m * 2 + i; n * 2 + i]%nat * v n))
     = sumn nip (fun q => rho [e;q] * a_vol A [e;q] * (interp2 v (point xi q) * interp2 v (point xi q)))).
  { intros i v Hi. unfold interp2.
    rewrite <- (mass_quadratic nip 4 (fun q => a_vol A [e;q]) (fun q m => shape2 m (point xi q)) (fun q => rho [e;q]) v).
    apply sumn_ext. intros m Hm. apply sumn_ext. intros n Hn. unfold M.
    rewrite (A_mass_at _ _ _ _ _ _ F es Hes), Nat.eqb_refl by assumption. reflexivity. }
  split; [exact Q|split].
  - intros i v Hi Hp. rewrite Q by exact Hi. unfold sumn. apply sumL_nonneg. intros q Hq. apply in_seq in Hq.
    apply Rmult_le_pos; [apply Hp; lia | apply Rle_0_sqr].
  - intros m n i j Hm Hn Hi Hj. unfold M. rewrite !(A_mass_at _ _ _ _ _ _ F es Hes) by assumption. split.
    + rewrite (Nat.eqb_sym j i). destruct (i =? j)%nat; [|reflexivity]. apply sumn_ext. intros q _. ring.
    + intros Hn'. apply Nat.eqb_neq in Hn'. rewrite Hn'. reflexivity.
Qed.
Print Assumptions C62_mass_form.

(** body force per unit volume: virtual work and resultant *)
Theorem C62_body : forall nelem nip xi w x A, Axisym_obj nelem nip xi w x A -> forall es, schedule nelem es ->
  forall n f u old e, (e < nelem)%nat ->
  let F := Axisym_int_N_vector_dV es A n f old in
  sumn 4 (fun m => sumn n (fun i => F [e;m;i] * u [e;m;i])) =
  sumn nip (fun q => sumn n (fun i => f [e;q;i] * interp2 (comp u e i) (point xi q)) * a_vol A [e;q]) /\
  forall i, (i < n)%nat -> sumn 4 (fun m => F [e;m;i]) = sumn nip (fun q => f [e;q;i] * a_vol A [e;q]).
Proof.
  intros nelem nip xi w x A H es Hes n f u old e He F0. pose proof (Axisym_facts _ _ _ _ _ _ H) as F.
  assert (E : forall m i, (m < 4)%nat -> (i < n)%nat ->
    F0 [e;m;i] = sumn nip (fun q => shape2 m (point xi q) * f [e;q;i] * a_vol A [e;q])).
  { intros m i Hm Hi. unfold F0, Axisym_int_N_vector_dV. rewrite (a_f_nip F), (base_int_N_vector_spec nelem es Hes) by assumption.
    apply sumn_ext. intros q Hq. rewrite (a_f_N F) by assumption. reflexivity. }
  split.
  - rewrite (sumn_ext 4 _ (fun m => sumn n (fun i => sumn nip (fun q => shape2 m (point xi q) * f [e;q;i] * a_vol A [e;q]) * u [e;m;i]))).
    + apply (work_of_shapes nip 4 n (fun q m => shape2 m (point xi q)) (fun q i => f [e;q;i]) (fun m i => u [e;m;i]) (fun q => a_vol A [e;q])).
    + intros m Hm. apply sumn_ext. intros i Hi. rewrite E by assumption. reflexivity.
  - intros i Hi. rewrite (sumn_ext 4 _ (fun m => sumn nip (fun q => shape2 m (point xi q) * f [e;q;i] * a_vol A [e;q]))).
    + apply (total_of_shapes nip 4 (fun q m => shape2 m (point xi q)) (fun q => f [e;q;i]) (fun q => a_vol A [e;q])).
      intros q _. apply shape2_sum.
    + intros m Hm. apply E; assumption.
Qed.
Print Assumptions C62_body.

(** resultant of the internal force: zero along the axis (component 0 is z), for every stress; in the radial
    direction it is the hoop stress over the radius, which nothing balances within the half plane *)
Theorem C62_resultant : forall nelem nip xi w x A, Axisym_obj nelem nip xi w x A -> forall es, schedule nelem es ->
  forall sig old e, (e < nelem)%nat ->
  let F := Axisym_int_gradN_dot_tensor2_dV es A sig old in
  sumn 4 (fun m => F [e;m;0%nat]) = 0 /\
  sumn 4 (fun m => F [e;m;1%nat]) = sumn nip (fun q => sig [e;q;1;1]%nat / radius xi x e q * a_vol A [e;q]).
Proof.
  intros nelem nip xi w x A H es Hes sig old e He F0.
  assert (G : forall q k, (k < 2)%nat -> sumn 4 (fun m => gshape2 (nodes x e) m k (point xi q)) = 0).
  { intros q k Hk. unfold gshape2. rewrite !sumn4. unfold dshape2, corner2. revert k Hk. apply lt2; cbn [Nat.eqb]; unfold Rdiv; ring. }
  assert (V : forall u : arr, (forall m i, u [e;m;i] = if (i =? 0)%nat then u [e;0;0]%nat else u [e;0;1]%nat) ->
     sumn 4 (fun m => sumn 2 (fun i => F0 [e;m;i] * u [e;m;i])) =
     sumn nip (fun q => sig [e;q;1;1]%nat * (u [e;0;1]%nat / radius xi x e q) * a_vol A [e;q])).
  { intros u Hu. unfold F0. rewrite (A_virtual_work _ _ _ _ _ _ (Axisym_facts _ _ _ _ _ _ H) es Hes sig u old old e He).
    apply sumn_ext. intros q Hq. f_equal.
    assert (E : forall a b, (a < 3)%nat -> (b < 3)%nat -> Axisym_gradN_vector es A u old [e;q;a;b] =
      if ((a =? 1) && (b =? 1))%nat%bool then u [e;0;1]%nat / radius xi x e q else 0).
    { intros a b Ha Hb. rewrite (axi_grad_spec _ _ _ _ _ _ (Axisym_facts _ _ _ _ _ _ H) es Hes) by assumption.
      rewrite (agrad_at _ _ _ _ _ _ (Axisym_facts _ _ _ _ _ _ H) es Hes) by assumption.
      assert (Z : forall k i, (k < 2)%nat -> (i < 2)%nat -> sumn 4 (fun m => gshape2 (nodes x e) m k (point xi q) * u [e;m;i]) = 0).
      { intros k i Hk Hi. rewrite (sumn_ext 4 _ (fun m => gshape2 (nodes x e) m k (point xi q) * (if (i =? 0)%nat then u [e;0;0]%nat else u [e;0;1]%nat)))
          by (intros m _; rewrite (Hu m i); reflexivity).
        rewrite sumn_scal_r, G by exact Hk. ring. }
      assert (I : interp2 (comp u e 1) (point xi q) = u [e;0;1]%nat).
      { unfold interp2, comp. rewrite (sumn_ext 4 _ (fun m => shape2 m (point xi q) * u [e;0;1]%nat))
          by (intros m _; rewrite (Hu m 1%nat); reflexivity).
        rewrite sumn_scal_r, shape2_sum. ring. }
      revert a Ha. apply lt3; revert b Hb; apply lt3; cbn [Nat.eqb andb]; rewrite ?I; try reflexivity; apply Z; lia. }
    rewrite sumn3, !sumn3. rewrite !E by lia. cbn [Nat.eqb andb]. ring. }
  split.
  - pose proof (V (fun k => match k with [_;_;0%nat] => 1 | _ => 0 end)) as V0.
    assert (V1 := V0 ltac:(intros m [|i]; reflexivity)). clear V0. cbn match in V1.
    rewrite (sumn_ext 4 _ (fun m => F0 [e;m;0%nat])) in V1 by (intros m _; rewrite sumn2; ring). rewrite V1.
    rewrite (sumn_ext nip _ (fun _ => 0 * 0)) by (intros; unfold Rdiv; ring). rewrite sumn_scal. ring.
  - pose proof (V (fun k => match k with [_;_;0%nat] => 0 | _ => 1 end)) as V0.
    assert (V1 := V0 ltac:(intros m [|i]; reflexivity)). clear V0. cbn match in V1.
    rewrite (sumn_ext 4 _ (fun m => F0 [e;m;1%nat])) in V1 by (intros m _; rewrite sumn2; ring). rewrite V1.
    apply sumn_ext. intros q _. unfold Rdiv. ring.
Qed.
Print Assumptions C62_resultant.

(** the ring of C62_ex (square section, mean radius 3, one integration point, volume 24 pi): a unit radial body
    force adds up to 24 pi, a unit hoop stress to 8 pi, and the mass matrix weighs a unit field with 24 pi *)
Example C62_body_ex : let x : arr := fun k => match k with [_;m;i] => corner2 m i + (if (i =? 1)%nat then 3 else 0) | _ => 0 end in
  let xi := MidPoint4_xi (fun _ => 7) in let w := fun _ => 4 in let one : arr := fun _ => 1 in
  exists A, Axisym_obj 2 1 xi w x A /\
    sumn 4 (fun m => Axisym_int_N_vector_dV [1;0]%nat A 2 one one [1;m;1]%nat) = 24 * PI /\
    sumn 4 (fun m => Axisym_int_gradN_dot_tensor2_dV [1;0]%nat A one one [1;m;1]%nat) = 8 * PI /\
    sumn 4 (fun m => sumn 4 (fun n => 1 * Axisym_int_N_scalar_NT_dV [1;0]%nat A one one [1; m * 2 + 1; n * 2 + 1]%nat * 1)) = 24 * PI.
Proof.
  intros x xi w one. destruct C62_ex as (A & HA & Er & _ & Ev & _). fold x xi w in HA, Er, Ev. exists A. split; [exact HA|].
  assert (S2 : schedule 2 [1;0]%nat) by apply perm_swap.
  assert (L : (1 < 2)%nat) by lia.
  assert (S1 : forall f : nat -> R, sumn 1 f = f 0%nat) by (intros f; cbv [sumn seq sumL fold_right map]; ring).
  split; [|split].
  - destruct (C62_body _ _ _ _ _ _ HA _ S2 2%nat one one one 1%nat L) as [_ E]. rewrite (E 1%nat L), S1, Ev. unfold one. ring.
  - destruct (C62_resultant _ _ _ _ _ _ HA _ S2 one one 1%nat L) as [_ E]. rewrite E, S1, Ev. rewrite Er. unfold one. field.
  - destruct (C62_mass_form _ _ _ _ _ _ HA _ S2 one one 1%nat L) as [E _].
    rewrite (E 1%nat (fun _ => 1) L), S1, Ev. unfold one.
    assert (I : interp2 (fun _ => 1) (point xi 0) = 1).
    { unfold interp2. rewrite sumn_scal_r, shape2_sum. ring. }
    rewrite I. ring.
Qed.

(** ** C74: hexahedron *)
Theorem C74_body : forall nelem nip xi w x Q, Hex8_obj nelem nip xi w x Q -> forall es, schedule nelem es ->
  forall n f u old e, (e < nelem)%nat ->
  let F := Hex8_int_N_vector_dV es Q n f old in
  sumn 8 (fun m => sumn n (fun i => F [e;m;i] * u [e;m;i])) =
  sumn nip (fun q => sumn n (fun i => f [e;q;i] * interp3 (comp u e i) (point xi q)) * q_vol Q [e;q]) /\
  forall i, (i < n)%nat -> sumn 8 (fun m => F [e;m;i]) = sumn nip (fun q => f [e;q;i] * q_vol Q [e;q]).
Proof.
  intros nelem nip xi w x Q H es Hes n f u old e He F0. pose proof (Hex8_facts _ _ _ _ _ _ H) as F.
  assert (E : forall m i, (m < 8)%nat -> (i < n)%nat ->
    F0 [e;m;i] = sumn nip (fun q => shape3 m (point xi q) * f [e;q;i] * q_vol Q [e;q])).
  { intros m i Hm Hi. unfold F0, Hex8_int_N_vector_dV. rewrite (h_nip F), (base_int_N_vector_spec nelem es Hes) by assumption.
    apply sumn_ext. intros q Hq. rewrite (h_N F) by assumption. reflexivity. }
  split.
  - rewrite (sumn_ext 8 _ (fun m => sumn n (fun i => sumn nip (fun q => shape3 m (point xi q) * f [e;q;i] * q_vol Q [e;q]) * u [e;m;i]))).
    + apply (work_of_shapes nip 8 n (fun q m => shape3 m (point xi q)) (fun q i => f [e;q;i]) (fun m i => u [e;m;i]) (fun q => q_vol Q [e;q])).
    + intros m Hm. apply sumn_ext. intros i Hi. rewrite E by assumption. reflexivity.
  - intros i Hi. rewrite (sumn_ext 8 _ (fun m => sumn nip (fun q => shape3 m (point xi q) * f [e;q;i] * q_vol Q [e;q]))).
    + apply (total_of_shapes nip 8 (fun q m => shape3 m (point xi q)) (fun q => f [e;q;i]) (fun q => q_vol Q [e;q])).
      intros q _. apply shape3_sum.
    + intros m Hm. apply E; assumption.
Qed.
Print Assumptions C74_body.

(** the brick of C64_ex: edges 2, 4 and 6.  Any unit body force adds up to the volume of its integration points *)
Example C74_body_ex : let x : arr := fun k => match k with [_;m;i] => 1 + INR (S i) * corner3 m i | _ => 0 end in
  let xi := Gauss8_xi (fun _ => 7) in let w := Gauss8_w (fun _ => 7) in let one : arr := fun _ => 1 in
  exists Q, Hex8_obj 2 8 xi w x Q /\
    sumn 8 (fun m => Hex8_int_N_vector_dV [1;0]%nat Q 3 one one [1;m;2]%nat) = sumn 8 (fun q => q_vol Q [1;q]%nat).
Proof.
  intros x xi w one. assert (S2 : schedule 2 [1;0]%nat) by apply perm_swap.
  set (j := fun _ : list nat => 7). pose proof (Hex8_obj_new 2 8 xi w [1;0]%nat x j j j j j S2) as H.
  eexists. split; [exact H|].
  destruct (C74_body _ _ _ _ _ _ H _ S2 3%nat one one one 1%nat ltac:(lia)) as [_ E]. rewrite (E 2%nat ltac:(lia)).
  apply sumn_ext. intros q _. unfold one. ring.
Qed.
