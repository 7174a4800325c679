(** Mathematics of the shape functions and of the weak forms (independent of the loops). *)
From Coq Require Import List Arith Reals Lra Lia Permutation.
From Coquelicot Require Import RInt Derive Continuity Hierarchy RInt_analysis AutoDerive.
From Verif Require Import Sums Model_Element Spec_Element Proof_Element Proof_ElementQuad4.
Import ListNotations.
Local Open Scope R_scope.

(** ** derivatives *)
Lemma derivable_affine (f : R -> R) a b t : (forall s, f s = a + b * s) -> derivable_pt_lim f t b.
Proof.
  intros H eps Heps. exists (mkposreal 1 Rlt_0_1). intros h Hh _. rewrite !H.
  replace ((a + b * (t + h) - (a + b * t)) / h - b) with 0 by (field; exact Hh).
  rewrite Rabs_R0. exact Heps.
Qed.

Lemma shape2_partial m i p : (m < 4)%nat -> (i < 2)%nat -> partial (shape2 m) i p (dshape2 m i p).
Proof.
  intros Hm Hi. unfold partial. revert i Hi. apply lt2.
  - apply (derivable_affine _ (1 / 2 * ((1 + corner2 m 1 * p 1%nat) / 2))). intros s.
    unfold shape2, dshape2. cbn [Nat.eqb]. field.
  - apply (derivable_affine _ (((1 + corner2 m 0 * p 0%nat) / 2) * (1 / 2))). intros s.
    unfold shape2, dshape2. cbn [Nat.eqb]. field.
Qed.

Lemma interp2_partial u i p : (i < 2)%nat -> partial (interp2 u) i p (dinterp2 u i p).
Proof.
  intros Hi. unfold partial. revert i Hi. apply lt2.
  - apply (derivable_affine _ (sumn 4 (fun m => 1 / 2 * ((1 + corner2 m 1 * p 1%nat) / 2) * u m))). intros s.
    unfold interp2, dinterp2. rewrite <- sumn_scal_r, <- sumn_plus. apply sumn_ext. intros m _.
    unfold shape2, dshape2. cbn [Nat.eqb]. field.
  - apply (derivable_affine _ (sumn 4 (fun m => ((1 + corner2 m 0 * p 0%nat) / 2) * (1 / 2) * u m))). intros s.
    unfold interp2, dinterp2. rewrite <- sumn_scal_r, <- sumn_plus. apply sumn_ext. intros m _.
    unfold shape2, dshape2. cbn [Nat.eqb]. field.
Qed.

Lemma shape3_partial m i p : (i < 3)%nat -> partial (shape3 m) i p (dshape3 m i p).
Proof.
  intros Hi. unfold partial. revert i Hi. apply lt3.
  - apply (derivable_affine _ (1 / 2 * ((1 + corner3 m 1 * p 1%nat) / 2) * ((1 + corner3 m 2 * p 2%nat) / 2))). intros s.
    unfold shape3, dshape3. cbn [Nat.eqb]. field.
  - apply (derivable_affine _ (((1 + corner3 m 0 * p 0%nat) / 2) * (1 / 2) * ((1 + corner3 m 2 * p 2%nat) / 2))). intros s.
    unfold shape3, dshape3. cbn [Nat.eqb]. field.
  - apply (derivable_affine _ (((1 + corner3 m 0 * p 0%nat) / 2) * ((1 + corner3 m 1 * p 1%nat) / 2) * (1 / 2))). intros s.
    unfold shape3, dshape3. cbn [Nat.eqb]. field.
Qed.

Lemma interp3_partial u i p : (i < 3)%nat -> partial (interp3 u) i p (dinterp3 u i p).
Proof.
  intros Hi. unfold partial. revert i Hi. apply lt3.
  - apply (derivable_affine _ (sumn 8 (fun m => 1 / 2 * ((1 + corner3 m 1 * p 1%nat) / 2) * ((1 + corner3 m 2 * p 2%nat) / 2) * u m))). intros s.
    unfold interp3, dinterp3. rewrite <- sumn_scal_r, <- sumn_plus. apply sumn_ext. intros m _.
    unfold shape3, dshape3. cbn [Nat.eqb]. field.
  - apply (derivable_affine _ (sumn 8 (fun m => ((1 + corner3 m 0 * p 0%nat) / 2) * (1 / 2) * ((1 + corner3 m 2 * p 2%nat) / 2) * u m))). intros s.
    unfold interp3, dinterp3. rewrite <- sumn_scal_r, <- sumn_plus. apply sumn_ext. intros m _.
    unfold shape3, dshape3. cbn [Nat.eqb]. field.
  - apply (derivable_affine _ (sumn 8 (fun m => ((1 + corner3 m 0 * p 0%nat) / 2) * ((1 + corner3 m 1 * p 1%nat) / 2) * (1 / 2) * u m))). intros s.
    unfold interp3, dinterp3. rewrite <- sumn_scal_r, <- sumn_plus. apply sumn_ext. intros m _.
    unfold shape3, dshape3. cbn [Nat.eqb]. field.
Qed.

(** ** shape functions *)
Lemma shape2_sum p : sumn 4 (fun m => shape2 m p) = 1.
Proof. rewrite sumn4. unfold shape2, corner2. field. Qed.
Lemma dshape2_sum i p : (i < 2)%nat -> sumn 4 (fun m => dshape2 m i p) = 0.
Proof. intros Hi. rewrite sumn4. revert i Hi. apply lt2; unfold dshape2, corner2; field. Qed.
Lemma shape2_corner m n : (m < 4)%nat -> (n < 4)%nat -> shape2 m (corner2 n) = if (m =? n)%nat then 1 else 0.
Proof. intros Hm Hn. revert m Hm. apply lt4; revert n Hn; apply lt4; unfold shape2, corner2; cbn [Nat.eqb]; field. Qed.

Lemma dinterp2_affine a c v w i p : (i < 2)%nat ->
  dinterp2 (fun m => a + c 0%nat * v m + c 1%nat * w m) i p = c 0%nat * dinterp2 v i p + c 1%nat * dinterp2 w i p.
Proof.
  intros Hi. unfold dinterp2.
  transitivity (a * sumn 4 (fun m => dshape2 m i p) + c 0%nat * sumn 4 (fun m => dshape2 m i p * v m) + c 1%nat * sumn 4 (fun m => dshape2 m i p * w m)).
  - rewrite !sumn4. ring.
  - rewrite dshape2_sum by exact Hi. ring.
Qed.

(** ** global gradients *)
(** sum_m dN_m/dx_i u_m, by Cramer's rule *)
Lemma gshape2_dot x u i p : (i < 2)%nat ->
  sumn 4 (fun m => gshape2 x m i p * u m) =
  (let d := fun j i => dinterp2 (fun m => x m j) i p in
   match i with
   | 0%nat => (d 1%nat 1%nat * dinterp2 u 0 p - d 1%nat 0%nat * dinterp2 u 1 p) / jac2 x p
   | _ => (d 0%nat 0%nat * dinterp2 u 1 p - d 0%nat 1%nat * dinterp2 u 0 p) / jac2 x p
   end).
Proof.
  intros Hi. revert i Hi. apply lt2; unfold gshape2; cbv zeta.
  - rewrite (sumn_ext 4 _ (fun m => (dinterp2 (fun m => x m 1%nat) 1 p / jac2 x p) * (dshape2 m 0 p * u m)
      - (dinterp2 (fun m => x m 1%nat) 0 p / jac2 x p) * (dshape2 m 1 p * u m)))
      by (intros; unfold Rdiv; ring).
    unfold Rminus. rewrite sumn_plus, sumn_scal.
    rewrite (sumn_ext 4 (fun i => - _) (fun m => (- (dinterp2 (fun m => x m 1%nat) 0 p / jac2 x p)) * (dshape2 m 1 p * u m)))
      by (intros; ring).
    rewrite sumn_scal. fold (dinterp2 u 0 p) (dinterp2 u 1 p). unfold Rdiv. ring.
  - rewrite (sumn_ext 4 _ (fun m => (dinterp2 (fun m => x m 0%nat) 0 p / jac2 x p) * (dshape2 m 1 p * u m)
      - (dinterp2 (fun m => x m 0%nat) 1 p / jac2 x p) * (dshape2 m 0 p * u m)))
      by (intros; unfold Rdiv; ring).
    unfold Rminus. rewrite sumn_plus, sumn_scal.
    rewrite (sumn_ext 4 (fun i => - _) (fun m => (- (dinterp2 (fun m => x m 0%nat) 1 p / jac2 x p)) * (dshape2 m 0 p * u m)))
      by (intros; ring).
    rewrite sumn_scal. fold (dinterp2 u 0 p) (dinterp2 u 1 p). unfold Rdiv. ring.
Qed.

Lemma dinterp2_const c i p : (i < 2)%nat -> dinterp2 (fun _ => c) i p = 0.
Proof. intros Hi. unfold dinterp2. rewrite sumn_scal_r, dshape2_sum by exact Hi. ring. Qed.

Lemma gshape2_sum x i p : (i < 2)%nat -> sumn 4 (fun m => gshape2 x m i p) = 0.
Proof.
  intros Hi. rewrite (sumn_ext 4 _ (fun m => gshape2 x m i p * 1)) by (intros; ring).
  rewrite (gshape2_dot x (fun _ => 1)) by exact Hi.
  revert i Hi. apply lt2; cbv zeta; rewrite !dinterp2_const by lia; unfold Rdiv; ring.
Qed.

Lemma gshape2_affine x a B i p u : (i < 2)%nat -> jac2 x p <> 0 ->
  (forall m, (m < 4)%nat -> u m = a + sumn 2 (fun k => B k * x m k)) ->
  sumn 4 (fun m => gshape2 x m i p * u m) = B i.
Proof.
  intros Hi Hd Hu.
  rewrite (sumn_ext 4 _ (fun m => gshape2 x m i p * (a + B 0%nat * x m 0%nat + B 1%nat * x m 1%nat)))
    by (intros m Hm; rewrite Hu, sumn2 by exact Hm; ring).
  rewrite (gshape2_dot x (fun m => a + B 0%nat * x m 0%nat + B 1%nat * x m 1%nat)) by exact Hi.
  cbv zeta. rewrite !(dinterp2_affine a B (fun m => x m 0%nat) (fun m => x m 1%nat)) by lia.
  unfold jac2 in *. cbv zeta in *.
  revert i Hi. apply lt2; field; exact Hd.
Qed.

(** chain rule *)
Lemma gshape2_chain x u k p : (k < 2)%nat -> jac2 x p <> 0 ->
  sumn 2 (fun i => dinterp2 (fun m => x m i) k p * sumn 4 (fun m => gshape2 x m i p * u m)) = dinterp2 u k p.
Proof.
  intros Hk Hd. rewrite sumn2, !gshape2_dot by lia. unfold jac2 in *. cbv zeta in *.
  revert k Hk. apply lt2; field; exact Hd.
Qed.

(** ** weak forms; G q m i: gradient of shape function m, direction i, point q *)
Section Weak.
Variables (nip nne nd : nat) (G : nat -> nat -> nat -> R) (vol : nat -> R).

Lemma virtual_work (sig : nat -> nat -> nat -> R) (u : nat -> nat -> R) :
  sumn nne (fun m => sumn nd (fun j => sumn nip (fun q => sumn nd (fun i => G q m i * sig q i j) * vol q) * u m j))
  = sumn nip (fun q => sumn nd (fun i => sumn nd (fun j => sig q i j * sumn nne (fun m => G q m i * u m j))) * vol q).
Proof.
  transitivity (sumn nip (fun q => sumn nne (fun m => sumn nd (fun j => sumn nd (fun i => G q m i * sig q i j * u m j * vol q))))).
  - rewrite sumn_swap.
    rewrite (sumn_ext nd _ (fun j => sumn nip (fun q => sumn nne (fun m => sumn nd (fun i => G q m i * sig q i j * u m j * vol q))))).
    + rewrite sumn_swap. apply sumn_ext. intros q _. apply sumn_swap.
    + intros j _. rewrite sumn_swap. apply sumn_ext. intros m _.
      rewrite <- sumn_scal_r. apply sumn_ext. intros q _.
      rewrite <- !sumn_scal_r. apply sumn_ext. intros i _. ring.
  - apply sumn_ext. intros q _. rewrite <- sumn_scal_r.
    rewrite (sumn_ext nd _ (fun i => sumn nd (fun j => sumn nne (fun m => G q m i * sig q i j * u m j * vol q)))).
    2:{ intros i _. rewrite <- sumn_scal_r. apply sumn_ext. intros j _. rewrite <- sumn_scal, <- sumn_scal_r.
        apply sumn_ext. intros m _. ring. }
    rewrite (sumn_swap nd nd). 
    rewrite (sumn_swap nne nd). apply sumn_ext. intros j _. apply sumn_swap.
Qed.

Lemma forces_zero (sig : nat -> nat -> nat -> R) j :
  (forall q i, (q < nip)%nat -> (i < nd)%nat -> sumn nne (fun m => G q m i) = 0) ->
  sumn nne (fun m => sumn nip (fun q => sumn nd (fun i => G q m i * sig q i j) * vol q)) = 0.
Proof.
  intros H. rewrite sumn_swap. apply sumn_zero. intros q Hq. rewrite sumn_scal_r.
  rewrite sumn_swap. rewrite sumn_zero; [ring|]. intros i Hi. rewrite sumn_scal_r, H by assumption. ring.
Qed.

Lemma stiffness_action (C : nat -> nat -> nat -> nat -> nat -> R) (u : nat -> nat -> R) m j :
  sumn nne (fun n => sumn nd (fun k => sumn nip (fun q => sumn nd (fun i => sumn nd (fun l =>
     G q m i * C q i j k l * G q n l * vol q))) * u n k))
  = sumn nip (fun q => sumn nd (fun i => G q m i * sumn nd (fun k => sumn nd (fun l => C q i j k l * sumn nne (fun n => G q n l * u n k)))) * vol q).
Proof.
  transitivity (sumn nip (fun q => sumn nd (fun i => sumn nd (fun k => sumn nd (fun l => sumn nne (fun n =>
     G q m i * C q i j k l * G q n l * vol q * u n k)))))).
  - rewrite (sumn_ext nne _ (fun n => sumn nip (fun q => sumn nd (fun i => sumn nd (fun k => sumn nd (fun l =>
       G q m i * C q i j k l * G q n l * vol q * u n k)))))).
    + rewrite sumn_swap. apply sumn_ext. intros q _. rewrite sumn_swap. apply sumn_ext. intros i _.
      rewrite sumn_swap. apply sumn_ext. intros k _. rewrite sumn_swap. reflexivity.
    + intros n _.
      rewrite (sumn_ext nd _ (fun k => sumn nip (fun q => sumn nd (fun i => sumn nd (fun l => G q m i * C q i j k l * G q n l * vol q * u n k))))).
      2:{ intros k _. rewrite <- sumn_scal_r. apply sumn_ext. intros q _. rewrite <- sumn_scal_r. apply sumn_ext. intros i _.
          rewrite <- sumn_scal_r. reflexivity. }
      rewrite sumn_swap. apply sumn_ext. intros q _. apply sumn_swap.
  - apply sumn_ext. intros q _. rewrite <- sumn_scal_r. apply sumn_ext. intros i _.
    rewrite <- sumn_scal, <- sumn_scal_r. apply sumn_ext. intros k _.
    rewrite <- sumn_scal, <- sumn_scal_r. apply sumn_ext. intros l _.
    rewrite <- !sumn_scal, <- sumn_scal_r. apply sumn_ext. intros n _. ring.
Qed.

Lemma stiffness_sym (C : nat -> nat -> nat -> nat -> nat -> R) m j n k :
  (forall q i j k l, (q < nip)%nat -> (i < nd)%nat -> (j < nd)%nat -> (k < nd)%nat -> (l < nd)%nat -> C q i j k l = C q l k j i) ->
  (j < nd)%nat -> (k < nd)%nat ->
  sumn nip (fun q => sumn nd (fun i => sumn nd (fun l => G q m i * C q i j k l * G q n l * vol q)))
  = sumn nip (fun q => sumn nd (fun i => sumn nd (fun l => G q n i * C q i k j l * G q m l * vol q))).
Proof.
  intros HC Hj Hk. apply sumn_ext. intros q Hq. rewrite sumn_swap. apply sumn_ext. intros l Hl.
  apply sumn_ext. intros i Hi. rewrite (HC q i j k l) by assumption. ring.
Qed.

Lemma stiffness_kernel (C : nat -> nat -> nat -> nat -> nat -> R) m j k :
  (forall q i, (q < nip)%nat -> (i < nd)%nat -> sumn nne (fun m => G q m i) = 0) ->
  sumn nne (fun n => sumn nip (fun q => sumn nd (fun i => sumn nd (fun l => G q m i * C q i j k l * G q n l * vol q)))) = 0.
Proof.
  intros H. rewrite sumn_swap. apply sumn_zero. intros q Hq. rewrite sumn_swap. apply sumn_zero. intros i Hi.
  rewrite sumn_swap. apply sumn_zero. intros l Hl.
  rewrite (sumn_ext nne _ (fun n => (G q m i * C q i j k l * vol q) * G q n l)) by (intros; ring).
  rewrite sumn_scal, H by assumption. ring.
Qed.

(** mass matrix, one direction *)
Variable N : nat -> nat -> R.
Lemma mass_total (rho : nat -> R) :
  (forall q, (q < nip)%nat -> sumn nne (fun m => N q m) = 1) ->
  sumn nne (fun m => sumn nne (fun n => sumn nip (fun q => N q m * rho q * N q n * vol q))) = sumn nip (fun q => rho q * vol q).
Proof.
  intros H.
  rewrite (sumn_ext nne _ (fun m => sumn nip (fun q => sumn nne (fun n => N q m * rho q * N q n * vol q))))
    by (intros; apply sumn_swap).
  rewrite sumn_swap. apply sumn_ext. intros q Hq.
  rewrite (sumn_ext nne _ (fun m => N q m * (rho q * vol q))).
  - rewrite sumn_scal_r, H by assumption. ring.
  - intros m _. rewrite (sumn_ext nne _ (fun n => (N q m * rho q * vol q) * N q n)) by (intros; ring).
    rewrite sumn_scal, H by assumption. ring.
Qed.

Lemma mass_quadratic (rho : nat -> R) (v : nat -> R) :
  sumn nne (fun m => sumn nne (fun n => v m * sumn nip (fun q => N q m * rho q * N q n * vol q) * v n))
  = sumn nip (fun q => rho q * vol q * (sumn nne (fun m => N q m * v m) * sumn nne (fun m => N q m * v m))).
Proof.
  rewrite (sumn_ext nne _ (fun m => sumn nip (fun q => sumn nne (fun n => v m * (N q m * rho q * N q n * vol q) * v n)))).
  2:{ intros m _. rewrite sumn_swap. apply sumn_ext. intros n _. rewrite <- sumn_scal, <- sumn_scal_r. apply sumn_ext. intros; ring. }
  rewrite sumn_swap. apply sumn_ext. intros q Hq.
  rewrite (sumn_ext nne _ (fun m => (N q m * v m) * (rho q * vol q * sumn nne (fun n => N q n * v n)))).
  - rewrite sumn_scal_r. ring.
  - intros m _. rewrite <- !sumn_scal. apply sumn_ext. intros; ring.
Qed.
End Weak.

(** ** area *)
Lemma jac2_corners x p : jac2 x p = sumn 4 (fun m => shape2 m p * jac2 x (corner2 m)).
Proof. unfold jac2, dinterp2. rewrite !sumn4. unfold dshape2, shape2, corner2. field. Qed.

(** the Jacobian is affine in the local coordinates *)
Lemma jac2_affine x : exists a b, forall p, jac2 x p = quad_area x / 4 + a * p 0%nat + b * p 1%nat.
Proof.
  exists ((jac2 x (pt2 1 0) - jac2 x (pt2 (-1) 0)) / 2), ((jac2 x (pt2 0 1) - jac2 x (pt2 0 (-1))) / 2).
  intros p. unfold quad_area, jac2, dinterp2. rewrite !sumn4. cbn [Nat.add Nat.modulo Nat.divmod fst snd Nat.sub].
  unfold dshape2, pt2, corner2. field.
Qed.

(** ** Gauss quadrature *)
Lemma sqrt3_sq : sqrt 3 * sqrt 3 = 3.
Proof. apply sqrt_sqrt. lra. Qed.
Lemma sqrt3_neq : sqrt 3 <> 0.
Proof. intros E. pose proof sqrt3_sq as H. rewrite E in H. lra. Qed.

Lemma gauss1 (f : R -> R) a b c d : (forall t, f t = a + b * t + c * (t * t) + d * (t * t * t)) ->
  is_RInt f (-1) 1 (f (-1 / sqrt 3) + f (1 / sqrt 3)).
Proof.
  intros H.
  apply (is_RInt_ext (fun t => a + b * t + c * (t * t) + d * (t * t * t))); [intros t _; symmetry; apply H|].
  replace (f (-1 / sqrt 3) + f (1 / sqrt 3)) with
    (minus (a * 1 + b / 2 * (1 * 1) + c / 3 * (1 * 1 * 1) + d / 4 * (1 * 1 * 1 * 1))
           (a * -1 + b / 2 * (-1 * -1) + c / 3 * (-1 * -1 * -1) + d / 4 * (-1 * -1 * -1 * -1))).
  - apply (is_RInt_derive (fun t => a * t + b / 2 * (t * t) + c / 3 * (t * t * t) + d / 4 * (t * t * t * t))).
    + intros t _. auto_derive; [trivial|]. field.
    + intros t _. repeat first [apply continuous_plus | apply continuous_mult | apply continuous_const | apply continuous_id
        | apply (continuous_plus (V := R_NormedModule)) | apply (continuous_mult (K := R_AbsRing)) ].
  - rewrite !H. unfold minus, opp, Hierarchy.plus. cbn.
    assert (E : (1 / sqrt 3) * (1 / sqrt 3) = / 3).
    { transitivity (/ (sqrt 3 * sqrt 3)); [field; apply sqrt3_neq | rewrite sqrt3_sq; reflexivity]. }
    replace (-1 / sqrt 3) with (- (1 / sqrt 3)) by (field; apply sqrt3_neq).
    replace (- (1 / sqrt 3) * - (1 / sqrt 3)) with ((1 / sqrt 3) * (1 / sqrt 3)) by ring.
    rewrite E. field. apply sqrt3_neq.
Qed.


Lemma gauss1' f : cubic f -> is_RInt f (-1) 1 (f (-1 / sqrt 3) + f (1 / sqrt 3)).
Proof. intros (a & b & c & d & H). exact (gauss1 f a b c d H). Qed.

Lemma cubic_plus f g : cubic f -> cubic g -> cubic (fun t => f t + g t).
Proof.
  intros (a & b & c & d & H) (a' & b' & c' & d' & H'). exists (a + a'), (b + b'), (c + c'), (d + d').
  intros t. rewrite H, H'. ring.
Qed.

Lemma gauss2 (f : R -> R -> R) :
  (forall t, cubic (fun s => f s t)) -> (forall s, cubic (fun t => f s t)) ->
  is_integral2 f (f (-1 / sqrt 3) (-1 / sqrt 3) + f (1 / sqrt 3) (-1 / sqrt 3)
                  + f (1 / sqrt 3) (1 / sqrt 3) + f (-1 / sqrt 3) (1 / sqrt 3)).
Proof.
  intros H1 H2. exists (fun t => f (-1 / sqrt 3) t + f (1 / sqrt 3) t). split.
  - intros t. apply (gauss1' (fun s => f s t)), H1.
  - replace (f (-1 / sqrt 3) (-1 / sqrt 3) + f (1 / sqrt 3) (-1 / sqrt 3) + f (1 / sqrt 3) (1 / sqrt 3) + f (-1 / sqrt 3) (1 / sqrt 3))
      with ((fun t => f (-1 / sqrt 3) t + f (1 / sqrt 3) t) (-1 / sqrt 3) + (fun t => f (-1 / sqrt 3) t + f (1 / sqrt 3) t) (1 / sqrt 3))
      by (cbv beta; ring).
    apply gauss1'. apply (cubic_plus (fun t => f (-1 / sqrt 3) t) (fun t => f (1 / sqrt 3) t)); apply H2.
Qed.

Lemma gauss3 (f : R -> R -> R -> R) :
  (forall s t, cubic (fun r => f r s t)) -> (forall r t, cubic (fun s => f r s t)) -> (forall r s, cubic (fun t => f r s t)) ->
  let g := 1 / sqrt 3 in let h := -1 / sqrt 3 in
  is_integral3 f (f h h h + f g h h + f g g h + f h g h + f h h g + f g h g + f g g g + f h g g).
Proof.
  intros H1 H2 H3 g h. exists (fun t => f h h t + f g h t + f g g t + f h g t). split.
  - intros t. apply (gauss2 (fun r s => f r s t)); [intros s; apply H1 | intros r; apply H2].
  - replace (f h h h + f g h h + f g g h + f h g h + f h h g + f g h g + f g g g + f h g g)
      with ((fun t => f h h t + f g h t + f g g t + f h g t) h + (fun t => f h h t + f g h t + f g g t + f h g t) g)
      by (cbv beta; ring).
    apply gauss1'.
    apply (cubic_plus (fun t => f h h t + f g h t + f g g t) (fun t => f h g t)); [|apply H3].
    apply (cubic_plus (fun t => f h h t + f g h t) (fun t => f g g t)); [|apply H3].
    apply (cubic_plus (fun t => f h h t) (fun t => f g h t)); apply H3.
Qed.
