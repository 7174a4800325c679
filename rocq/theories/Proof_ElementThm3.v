(** Final forms of the element theorems. *)
From Coq Require Import List Arith Reals Lra Lia Permutation.
From Coquelicot Require Import Hierarchy RInt.
From Verif Require Import Sums Model_Element Spec_Element Proof_Element Proof_ElementQuad4 Proof_ElementMath Proof_ElementThm
  Proof_ElementThm2 Proof_ElementAxisym.
Import ListNotations.
Local Open Scope R_scope.

Lemma interp2_affine a B x u p : (forall m, (m < 4)%nat -> u m = a + sumn 2 (fun k => B k * x m k)) ->
  interp2 u p = a + sumn 2 (fun k => B k * interp2 (fun m => x m k) p).
Proof.
  intros H. unfold interp2.
  rewrite (sumn_ext 4 _ (fun m => a * shape2 m p + B 0%nat * (shape2 m p * x m 0%nat) + B 1%nat * (shape2 m p * x m 1%nat))).
  - rewrite !sumn_plus, !sumn_scal, sumn2, shape2_sum. ring.
  - intros m Hm. rewrite H, sumn2 by exact Hm. ring.
Qed.

Lemma kron p m n : (m < 4)%nat -> (n < 4)%nat -> (forall i, (i < 2)%nat -> p i = corner2 n i) ->
  shape2 m p = if (m =? n)%nat then 1 else 0.
Proof.
  intros Hm Hn H. rewrite <- (shape2_corner m n Hm Hn). unfold shape2. rewrite !H by lia. reflexivity.
Qed.

Section Q.
Variables (nelem nip : nat) (xi w : arr) (vol_of : R -> R -> R) (x : arr) (Q : Quadrature).
Hypothesis F : quad4_facts nelem nip xi w vol_of x Q.
Variable es : list nat.
Hypothesis Hes : schedule nelem es.
Set Default Proof Using "All".

Lemma interp_at u old e q i : (e < nelem)%nat -> (q < nip)%nat -> (i < 2)%nat ->
  Quad4_interpQuad_vector es Q u old [e;q;i] = interp2 (comp u e i) (point xi q).
Proof.
  intros He Hq Hi. unfold Quad4_interpQuad_vector. rewrite (f_nip F), (Quad4_interp_spec nelem es Hes) by assumption.
  unfold interp2, comp. apply sumn_ext. intros m Hm. rewrite (f_N F) by assumption. reflexivity.
Qed.

Lemma body_at n f old e m i : (e < nelem)%nat -> (m < 4)%nat -> (i < n)%nat ->
  base_int_N_vector_dV es (q_nip Q) 4 n (q_N Q) (q_vol Q) f old [e;m;i] = sumn nip (fun q => shape2 m (point xi q) * f [e;q;i] * q_vol Q [e;q]).
Proof.
  intros He Hm Hi. rewrite (f_nip F), (base_int_N_vector_spec nelem es Hes) by assumption.
  apply sumn_ext. intros q Hq. rewrite (f_N F) by assumption. reflexivity.
Qed.

(** work of the nodal values of a body force *)
Lemma body_work n f u old e : (e < nelem)%nat ->
  sumn 4 (fun m => sumn n (fun i => base_int_N_vector_dV es (q_nip Q) 4 n (q_N Q) (q_vol Q) f old [e;m;i] * u [e;m;i])) =
  sumn nip (fun q => sumn n (fun i => f [e;q;i] * interp2 (comp u e i) (point xi q)) * q_vol Q [e;q]).
Proof.
  intros He.
  transitivity (sumn 4 (fun m => sumn n (fun i => sumn nip (fun q => shape2 m (point xi q) * u [e;m;i] * (f [e;q;i] * q_vol Q [e;q]))))).
  - apply sumn_ext. intros m Hm. apply sumn_ext. intros i Hi. rewrite body_at by assumption.
    rewrite <- sumn_scal_r. apply sumn_ext. intros q _. ring.
  - rewrite (sumn_ext 4 _ (fun m => sumn nip (fun q => sumn n (fun i => shape2 m (point xi q) * u [e;m;i] * (f [e;q;i] * q_vol Q [e;q])))))
      by (intros; apply sumn_swap).
    rewrite sumn_swap. apply sumn_ext. intros q _. rewrite sumn_swap, <- sumn_scal_r. apply sumn_ext. intros i _.
    rewrite sumn_scal_r. unfold interp2, comp. ring.
Qed.
End Q.

(** ** Planar *)
Section P.
Variables (nelem nip : nat) (xi w : arr) (thick : R) (x : arr) (P : Planar).
Hypothesis H : Planar_obj nelem nip xi w thick x P.
Variable es : list nat.
Hypothesis Hes : schedule nelem es.
Set Default Proof Using "All".

Lemma P_facts : quad4_facts nelem nip xi w (fun w d => w * d * thick) x (p_base P).
Proof. apply (Planar_facts _ _ _ _ _ _ _ H). Qed.

Lemma P_grad_at u old e q i j : (e < nelem)%nat -> (q < nip)%nat -> (i < 3)%nat -> (j < 3)%nat ->
  Planar_gradN_vector es P u old [e;q;i;j] = if ((i <? 2) && (j <? 2))%nat%bool then grad4 (q_dNx (p_base P)) u e q i j else 0.
Proof.
  intros He Hq Hi Hj. unfold Planar_gradN_vector. destruct (Nat.ltb_spec i 2); [destruct (Nat.ltb_spec j 2)|].
  - apply (grad_at _ _ _ _ _ _ _ P_facts _ Hes); assumption.
  - rewrite (f_nip P_facts).
    rewrite (Quad4_grad_out nelem es Hes nip Quad4_grad_block (q_dNx (p_base P)) u _ e q i j); [reflexivity | auto | lia].
  - rewrite (f_nip P_facts).
    rewrite (Quad4_grad_out nelem es Hes nip Quad4_grad_block (q_dNx (p_base P)) u _ e q i j); [reflexivity | auto | lia].
Qed.

Lemma P_out u old e q i j : (i = 2%nat \/ j = 2%nat) ->
  Planar_gradN_vector es P u old [e;q;i;j] = 0 /\ Planar_gradN_vector_T es P u old [e;q;i;j] = 0 /\
  Planar_symGradN_vector es P u old [e;q;i;j] = 0.
Proof.
  intros Hij. unfold Planar_gradN_vector, Planar_gradN_vector_T, Planar_symGradN_vector. rewrite (f_nip P_facts).
  repeat split.
  - apply (Quad4_grad_out nelem es Hes nip Quad4_grad_block (q_dNx (p_base P)) u (fill 0 old) e q i j); auto.
  - apply (Quad4_grad_out nelem es Hes nip Quad4_grad_T_block (q_dNx (p_base P)) u (fill 0 old) e q i j); auto.
  - apply (Quad4_grad_out nelem es Hes nip Quad4_sym_block (q_dNx (p_base P)) u (fill 0 old) e q i j); auto.
Qed.

Lemma P_virtual_work sig u old old' e : (e < nelem)%nat ->
  sumn 4 (fun m => sumn 2 (fun j => Planar_int_gradN_dot_tensor2_dV es P sig old [e;m;j] * u [e;m;j])) =
  sumn nip (fun q => sumn 3 (fun i => sumn 3 (fun j => sig [e;q;i;j] * Planar_gradN_vector es P u old' [e;q;i;j])) * q_vol (p_base P) [e;q]).
Proof.
  intros He. unfold Planar_int_gradN_dot_tensor2_dV. rewrite (f_virtual_work _ _ _ _ _ _ _ P_facts _ Hes) by exact He.
  apply sumn_ext. intros q Hq. f_equal. rewrite sumn3, !sumn3, sumn2, !sumn2, !P_grad_at by (assumption || lia).
  cbn [Nat.ltb Nat.leb andb]. ring.
Qed.

Lemma P_stiff_action C u old old' old'' e m j : (e < nelem)%nat -> (m < 4)%nat -> (j < 2)%nat ->
  sumn 4 (fun n => sumn 2 (fun k =>
    Planar_int_gradN_dot_tensor4_dot_gradNT_dV es P C old [e; m * 2 + j; n * 2 + k]%nat * u [e;n;k])) =
  Planar_int_gradN_dot_tensor2_dV es P (ddot42 3 C (Planar_gradN_vector es P u old'')) old' [e;m;j].
Proof.
  intros He Hm Hj. unfold Planar_int_gradN_dot_tensor4_dot_gradNT_dV, Planar_int_gradN_dot_tensor2_dV.
  rewrite (f_stiff_action _ _ _ _ _ _ _ P_facts _ Hes C u (Planar_gradN_vector es P u old'') old old' e m j He Hm Hj).
  - rewrite !(force_at _ _ _ _ _ _ _ P_facts _ Hes) by assumption. apply sumn_ext. intros q Hq. f_equal.
    apply sumn_ext. intros i Hi. f_equal. cbn [ddot42]. rewrite sumn3, !sumn3, sumn2, !sumn2.
    destruct (P_out u old'' e q 2 0 ltac:(lia)) as (-> & _). destruct (P_out u old'' e q 2 1 ltac:(lia)) as (-> & _).
    destruct (P_out u old'' e q 0 2 ltac:(lia)) as (-> & _). destruct (P_out u old'' e q 1 2 ltac:(lia)) as (-> & _).
    destruct (P_out u old'' e q 2 2 ltac:(lia)) as (-> & _). ring.
  - intros q i k Hq Hi Hk. rewrite P_grad_at by (assumption || lia).
    rewrite (proj2 (Nat.ltb_lt i 2) Hi), (proj2 (Nat.ltb_lt k 2) Hk). reflexivity.
Qed.
End P.

(** ** Axisymmetric *)
Section A.
Variables (nelem nip : nat) (xi w x : arr) (A : Axisym).
Hypothesis F : axisym_facts nelem nip xi w x A.
Variable es : list nat.
Hypothesis Hes : schedule nelem es.
Set Default Proof Using "All".

Lemma A_virtual_work sig u old old' e : (e < nelem)%nat ->
  sumn 4 (fun m => sumn 2 (fun i => Axisym_int_gradN_dot_tensor2_dV es A sig old [e;m;i] * u [e;m;i])) =
  sumn nip (fun q => sumn 3 (fun a => sumn 3 (fun b => sig [e;q;a;b] * Axisym_gradN_vector es A u old' [e;q;a;b])) * a_vol A [e;q]).
Proof.
  intros He.
  transitivity (sumn 4 (fun m => sumn 2 (fun i => Hforce nip 3 (Bq A e) (fun q => a_vol A [e;q]) (fun q a b => sig [e;q;a;b]) m i * (fun m i => u [e;m;i]) m i))).
  - apply sumn_ext. intros m Hm. apply sumn_ext. intros i Hi. rewrite (axi_force_spec _ _ _ _ _ _ F _ Hes) by assumption. reflexivity.
  - rewrite Hvirtual_work. apply sumn_ext. intros q Hq. f_equal. apply sumn_ext. intros a Ha. apply sumn_ext. intros b Hb.
    rewrite (axi_grad_spec _ _ _ _ _ _ F _ Hes) by assumption. reflexivity.
Qed.

Lemma A_stiff_action C u old old' old'' e m i : (e < nelem)%nat -> (m < 4)%nat -> (i < 2)%nat ->
  sumn 4 (fun n => sumn 2 (fun j =>
    Axisym_int_gradN_dot_tensor4_dot_gradNT_dV es A C old [e; m * 2 + i; n * 2 + j]%nat * u [e;n;j])) =
  Axisym_int_gradN_dot_tensor2_dV es A (ddot42 3 C (Axisym_gradN_vector es A u old'')) old' [e;m;i].
Proof.
  intros He Hm Hi. rewrite (axi_force_spec _ _ _ _ _ _ F _ Hes) by assumption.
  etransitivity; [|etransitivity; [apply (Hstiff_action nip 4 2 3 (Bq A e) (fun q => a_vol A [e;q])
     (fun q a b c d => C [e;q;a;b;c;d]) (fun n j => u [e;n;j]) m i)|]].
  - apply sumn_ext. intros n Hn. apply sumn_ext. intros j Hj. rewrite (axi_stiff_spec _ _ _ _ _ _ F _ Hes) by assumption. reflexivity.
  - unfold Hforce. apply sumn_ext. intros q Hq. f_equal. apply sumn_ext. intros a Ha. apply sumn_ext. intros b Hb. f_equal. cbn [ddot42].
    apply sumn_ext. intros c Hc. apply sumn_ext. intros d Hd. rewrite (axi_grad_spec _ _ _ _ _ _ F _ Hes) by assumption. reflexivity.
Qed.

Lemma A_stiff_sym C old e m i n j : (e < nelem)%nat -> (m < 4)%nat -> (n < 4)%nat -> (i < 2)%nat -> (j < 2)%nat ->
  (forall q a b c d, (q < nip)%nat -> (a < 3)%nat -> (b < 3)%nat -> (c < 3)%nat -> (d < 3)%nat ->
     C [e;q;a;b;c;d] = C [e;q;d;c;b;a]) ->
  Axisym_int_gradN_dot_tensor4_dot_gradNT_dV es A C old [e; m * 2 + i; n * 2 + j]%nat =
  Axisym_int_gradN_dot_tensor4_dot_gradNT_dV es A C old [e; n * 2 + j; m * 2 + i]%nat.
Proof.
  intros He Hm Hn Hi Hj HC. rewrite !(axi_stiff_spec _ _ _ _ _ _ F _ Hes) by assumption. apply Hstiff_sym. exact HC.
Qed.

Lemma A_mass_at rho old e m i n j : (e < nelem)%nat -> (m < 4)%nat -> (n < 4)%nat -> (i < 2)%nat -> (j < 2)%nat ->
  Axisym_int_N_scalar_NT_dV es A rho old [e; m * 2 + i; n * 2 + j]%nat =
  if (i =? j)%nat then sumn nip (fun q => shape2 m (point xi q) * rho [e;q] * shape2 n (point xi q) * a_vol A [e;q]) else 0.
Proof.
  intros He Hm Hn Hi Hj. unfold Axisym_int_N_scalar_NT_dV. rewrite (a_f_nip F), (Quad4_mass_spec nelem es Hes) by assumption.
  destruct (i =? j)%nat; [|reflexivity]. apply sumn_ext. intros q Hq. rewrite !(a_f_N F) by assumption. reflexivity.
Qed.

Lemma A_mass_total rho old e i : (e < nelem)%nat -> (i < 2)%nat ->
  sumn 4 (fun m => sumn 4 (fun n => Axisym_int_N_scalar_NT_dV es A rho old [e; m * 2 + i; n * 2 + i]%nat))
  = sumn nip (fun q => rho [e;q] * a_vol A [e;q]).
Proof.
  intros He Hi.
  rewrite <- (mass_total nip 4 (fun q => a_vol A [e;q]) (fun q m => shape2 m (point xi q)) (fun q => rho [e;q])).
  - apply sumn_ext. intros m Hm. apply sumn_ext. intros n Hn. rewrite A_mass_at, Nat.eqb_refl by assumption. reflexivity.
  - intros q _. apply shape2_sum.
Qed.
End A.

(** Gauss volume of a ring element *)
Lemma interp2_form u : exists a b c d, forall s t, interp2 u (pt2 s t) = a + b * s + c * t + d * s * t.
Proof.
  exists (sumn 4 (fun m => / 4 * u m)), (sumn 4 (fun m => / 4 * corner2 m 0 * u m)), (sumn 4 (fun m => / 4 * corner2 m 1 * u m)),
    (sumn 4 (fun m => / 4 * corner2 m 0 * corner2 m 1 * u m)).
  intros s t. unfold interp2. rewrite !sumn4. unfold shape2, pt2. field.
Qed.

Lemma axi_volume nelem j j' x A e : Axisym_obj nelem 4 (Gauss4_xi j) (Gauss4_w j') x A -> (e < nelem)%nat ->
  is_integral2 (fun s t => 2 * PI * interp2 (comp x e 1) (pt2 s t) * jac2 (nodes x e) (pt2 s t)) (sumn 4 (fun q => a_vol A [e;q])).
Proof.
  intros H He. pose proof (Axisym_facts _ _ _ _ _ _ H) as F.
  set (f := fun s t => 2 * PI * interp2 (comp x e 1) (pt2 s t) * jac2 (nodes x e) (pt2 s t)).
  rewrite (sumn_ext 4 _ (fun q => Gauss4_w j' [q] * f (Gauss4_xi j [q;0]%nat) (Gauss4_xi j [q;1]%nat))).
  2:{ intros q Hq. rewrite (a_f_vol F) by assumption. unfold f, radius.
      change (interp2 (comp x e 1) (point (Gauss4_xi j) q)) with (interp2 (comp x e 1) (pt2 (Gauss4_xi j [q;0]%nat) (Gauss4_xi j [q;1]%nat))).
      change (jac2 (nodes x e) (point (Gauss4_xi j) q)) with (jac2 (nodes x e) (pt2 (Gauss4_xi j [q;0]%nat) (Gauss4_xi j [q;1]%nat))). ring. }
  destruct (interp2_form (comp x e 1)) as (a & b & c & d & Hi).
  destruct (jac2_affine (nodes x e)) as (k & l & Hj). set (a0 := quad_area (nodes x e) / 4) in *.
  assert (E : forall s t, f s t = 2 * PI * (a + b * s + c * t + d * s * t) * (a0 + k * s + l * t)).
  { intros s t. unfold f. rewrite (Hi s t), Hj. reflexivity. }
  apply Gauss4_exact.
  - intros t. exists (2 * PI * (a + c * t) * (a0 + l * t)), (2 * PI * ((a + c * t) * k + (b + d * t) * (a0 + l * t))), (2 * PI * (b + d * t) * k), 0.
    intros s. rewrite E. ring.
  - intros s. exists (2 * PI * (a + b * s) * (a0 + k * s)), (2 * PI * ((a + b * s) * l + (c + d * s) * (a0 + k * s))), (2 * PI * (c + d * s) * l), 0.
    intros t. rewrite E. ring.
Qed.

Lemma A_gradient nelem nip xi w x A Q es u old old' e q :
  axisym_facts nelem nip xi w x A -> quad4_facts nelem nip xi w (fun w d => w * d) x Q -> schedule nelem es ->
  (e < nelem)%nat -> (q < nip)%nat ->
  let g := Quad4_gradN_vector es Q u old in let h := Axisym_gradN_vector es A u old' in
  h [e;q;0;0]%nat = g [e;q;1;1]%nat /\ h [e;q;2;2]%nat = g [e;q;0;0]%nat /\
  h [e;q;0;2]%nat = g [e;q;1;0]%nat /\ h [e;q;2;0]%nat = g [e;q;0;1]%nat /\
  h [e;q;1;1]%nat = interp2 (comp u e 1) (point xi q) / radius xi x e q /\
  h [e;q;0;1]%nat = 0 /\ h [e;q;1;0]%nat = 0 /\ h [e;q;1;2]%nat = 0 /\ h [e;q;2;1]%nat = 0.
Proof.
  intros FA F Hes He Hq g h.
  assert (G : forall i j, (i < 2)%nat -> (j < 2)%nat -> g [e;q;i;j] = sumn 4 (fun m => gshape2 (nodes x e) m i (point xi q) * u [e;m;j])).
  { intros i j Hi Hj. unfold g, Quad4_gradN_vector. rewrite (grad_at _ _ _ _ _ _ _ F _ Hes) by assumption.
    apply sumn_ext. intros m Hm. rewrite (f_dNx F) by assumption. reflexivity. }
  rewrite !G by lia. unfold h. rewrite !(axi_grad_spec _ _ _ _ _ _ FA _ Hes) by (assumption || lia).
  rewrite !(agrad_at _ _ _ _ _ _ FA _ Hes) by (assumption || lia). repeat split; reflexivity.
Qed.

Lemma same_objects nelem nip xi w vol_of x Q Q' :
  quad4_facts nelem nip xi w vol_of x Q -> quad4_facts nelem nip xi w vol_of x Q' ->
  q_nelem Q = q_nelem Q' /\ q_nip Q = q_nip Q' /\ q_x Q = q_x Q' /\ q_w Q = q_w Q' /\ q_xi Q = q_xi Q' /\
  (forall q m, (q < nip)%nat -> (m < 4)%nat -> q_N Q [q;m] = q_N Q' [q;m] /\
     forall i, (i < 2)%nat -> q_dNxi Q [q;m;i] = q_dNxi Q' [q;m;i]) /\
  (forall e q, (e < nelem)%nat -> (q < nip)%nat -> q_vol Q [e;q] = q_vol Q' [e;q] /\
     forall m i, (m < 4)%nat -> (i < 2)%nat -> q_dNx Q [e;q;m;i] = q_dNx Q' [e;q;m;i]).
Proof.
  intros F F'. rewrite (f_nelem F), (f_nelem F'), (f_nip F), (f_nip F'), (f_x F), (f_x F'), (f_w F), (f_w F'), (f_xi F), (f_xi F').
  repeat split; intros.
  - rewrite (f_N F), (f_N F') by assumption. reflexivity.
  - rewrite (f_dNxi F), (f_dNxi F') by assumption. reflexivity.
  - rewrite (f_vol F), (f_vol F') by assumption. reflexivity.
  - rewrite (f_dNx F), (f_dNx F') by assumption. reflexivity.
Qed.

Lemma same_axisym nelem nip xi w x A A' : axisym_facts nelem nip xi w x A -> axisym_facts nelem nip xi w x A' ->
  a_nelem A = a_nelem A' /\ a_nip A = a_nip A' /\ a_x A = a_x A' /\ a_w A = a_w A' /\
  (forall q m, (q < nip)%nat -> (m < 4)%nat -> a_N A [q;m] = a_N A' [q;m] /\
     forall i, (i < 2)%nat -> a_dNxi A [q;m;i] = a_dNxi A' [q;m;i]) /\
  (forall e q, (e < nelem)%nat -> (q < nip)%nat -> a_vol A [e;q] = a_vol A' [e;q] /\
     forall m a b c, (m < 4)%nat -> (a < 3)%nat -> (b < 3)%nat -> (c < 3)%nat -> a_B A [e;q;m;a;b;c] = a_B A' [e;q;m;a;b;c]).
Proof.
  intros F F'. rewrite (a_f_nelem F), (a_f_nelem F'), (a_f_nip F), (a_f_nip F'), (a_f_x F), (a_f_x F'), (a_f_w F), (a_f_w F').
  repeat split; intros.
  - rewrite (a_f_N F), (a_f_N F') by assumption. reflexivity.
  - rewrite (a_f_dNxi F), (a_f_dNxi F') by assumption. reflexivity.
  - rewrite (a_f_vol F), (a_f_vol F') by assumption. reflexivity.
  - rewrite (a_f_B F), (a_f_B F') by assumption. reflexivity.
Qed.
