(** The methods of the four element classes in terms of one operator B per class: gradient, force and stiffness. *)
From Coq Require Import Reals Lra Lia.
From Verif Require Import Model_Element Spec_Element Proof_Element Proof_ElementQuad4 Proof_ElementMath Proof_ElementThm Proof_ElementThm2 Proof_ElementThm3 Proof_ElementAxisym Proof_ElementHex8
  Prop_ElementQuad4 Prop_ElementPlanar Prop_ElementHex8
  Base Spec Sums Spec_Vector Model_Vector Model_Pipeline Spec_Pipeline.
Local Open Scope R_scope.

(** facts about single calls *)
Record elem_raw (nelem : nat) (E : Elem) (B : nat -> nat -> nat -> nat -> nat -> nat -> R) : Prop := {
  r_grad : forall c u e q i j, valid_call nelem c -> (e < nelem)%nat -> (q < el_nip E)%nat -> (i < el_tdim E)%nat -> (j < el_tdim E)%nat ->
    el_GradN_vector E c u [e;q;i;j] = sumn (el_nne E) (fun m => sumn (el_ndim E) (fun k => B e q i j m k * u [e;m;k]));
  r_sym : forall c u e q i j, valid_call nelem c -> (e < nelem)%nat -> (q < el_nip E)%nat -> (i < el_tdim E)%nat -> (j < el_tdim E)%nat ->
    el_SymGradN_vector E c u [e;q;i;j] = (el_GradN_vector E c u [e;q;i;j] + el_GradN_vector E c u [e;q;j;i]) / 2;
  r_vw : forall c sig u e, valid_call nelem c -> (e < nelem)%nat ->
    sumn (el_nne E) (fun m => sumn (el_ndim E) (fun k => el_Int_gradN_dot_tensor2_dV E c sig [e;m;k] * u [e;m;k])) =
    sumn (el_nip E) (fun q => sumn (el_tdim E) (fun i => sumn (el_tdim E) (fun j => sig [e;q;i;j] * el_GradN_vector E c u [e;q;i;j])) * el_dV E [e;q]);
  r_act : forall c C u e m k, valid_call nelem c -> (e < nelem)%nat -> (m < el_nne E)%nat -> (k < el_ndim E)%nat ->
    sumn (el_nne E) (fun n => sumn (el_ndim E) (fun l => el_Int_gradN_dot_tensor4_dot_gradNT_dV E c C [e; m * el_ndim E + k; n * el_ndim E + l]%nat * u [e;n;l])) =
    el_Int_gradN_dot_tensor2_dV E c (ddot42 (el_tdim E) C (el_GradN_vector E c u)) [e;m;k] }.

Lemma B_of_dNx n d (f : nat -> R) (u : nat -> nat -> R) j : (j < d)%nat ->
  sumn n (fun m => f m * u m j) = sumn n (fun m => sumn d (fun k => ind (k =? j)%nat * f m * u m k)).
Proof.
  intros Hj. apply sumn_ext. intros m Hm. rewrite <- (sumn_delta d j (fun k => f m * u m k) Hj). apply sumn_ext. intros k Hk. ring.
Qed.

Ltac unrec := cbn [Quad4_elem Planar_elem Axisym_elem Hex8_elem el_nne el_ndim el_tdim el_nip el_dV el_GradN_vector el_SymGradN_vector el_Int_gradN_dot_tensor2_dV el_Int_gradN_dot_tensor4_dot_gradNT_dV].

(** the operator of the Cartesian classes, in two and three dimensions and of the planar class *)
Definition Bcart (dNx : arr) (e q i j m k : nat) : R := ind (k =? j)%nat * dNx [e;q;m;i].
Definition Bplanar (dNx : arr) (e q i j m k : nat) : R := if ((i <? 2) && (j <? 2))%nat%bool then Bcart dNx e q i j m k else 0.

Lemma Quad4_raw nelem nip xi w x Q : Quad4_obj nelem nip xi w x Q -> elem_raw nelem (Quad4_elem Q) (Bcart (q_dNx Q)).
Proof.
  intros H. pose proof (Quad4_facts _ _ _ _ _ _ H) as F. constructor; unrec; rewrite ?(f_nip F).
  - intros c u e q i j Hc He Hq Hi Hj. unfold Quad4_gradN_vector. rewrite (grad_at _ _ _ _ _ _ _ F _ Hc) by assumption.
    apply (B_of_dNx 4 2 (fun m => q_dNx Q [e;q;m;i]) (fun m k => u [e;m;k]) j Hj).
  - intros c u e q i j Hc He Hq Hi Hj. exact (proj2 (C56_transpose_symmetric _ _ _ _ _ _ H _ Hc u (c_old c) (c_old c) _ e q i j He Hq Hi Hj)).
  - intros c sig u e Hc He. exact (C59_virtual_work _ _ _ _ _ _ H _ Hc sig u _ (c_old c) e He).
  - intros c C u e m k Hc He Hm Hk. exact (C60_action _ _ _ _ _ _ H _ Hc C u _ (c_old c) (c_old c) e m k He Hm Hk).
Qed.

Lemma Hex8_raw nelem nip xi w x Q : Hex8_obj nelem nip xi w x Q -> elem_raw nelem (Hex8_elem Q) (Bcart (q_dNx Q)).
Proof.
  intros H. pose proof (Hex8_facts _ _ _ _ _ _ H) as F. constructor; unrec; rewrite ?(h_nip F).
  - intros c u e q i j Hc He Hq Hi Hj. rewrite (h_grad_at _ _ _ _ _ _ F _ Hc) by assumption.
    apply (B_of_dNx 8 3 (fun m => q_dNx Q [e;q;m;i]) (fun m k => u [e;m;k]) j Hj).
  - intros c u e q i j Hc He Hq Hi Hj. exact (proj2 (C64_transpose_symmetric _ _ _ _ _ _ H _ Hc u (c_old c) (c_old c) _ e q i j He Hq Hi Hj)).
  - intros c sig u e Hc He. exact (C74_virtual_work _ _ _ _ _ _ H _ Hc sig u _ (c_old c) e He).
  - intros c C u e m k Hc He Hm Hk. exact (C74_stiffness _ _ _ _ _ _ H _ Hc C u _ (c_old c) (c_old c) e m k He Hm Hk).
Qed.

Lemma Planar_raw nelem nip xi w thick x P : Planar_obj nelem nip xi w thick x P -> elem_raw nelem (Planar_elem P) (Bplanar (q_dNx (p_base P))).
Proof.
  intros H.
  assert (N : q_nip (p_base P) = nip) by (exact (f_nip (proj2 (Planar_facts _ _ _ _ _ _ _ H)))).
  constructor; unrec; rewrite ?N.
  - intros c u e q i j Hc He Hq Hi Hj. rewrite (P_grad_at _ _ _ _ _ _ _ H _ Hc) by assumption. unfold Bplanar.
    destruct (Nat.ltb_spec i 2); [destruct (Nat.ltb_spec j 2)|]; cbn [andb].
    + apply (B_of_dNx 4 2 (fun m => q_dNx (p_base P) [e;q;m;i]) (fun m k => u [e;m;k]) j); assumption.
    + symmetry. apply sumn_zero. intros m Hm. apply sumn_zero. intros k Hk. ring.
    + symmetry. apply sumn_zero. intros m Hm. apply sumn_zero. intros k Hk. ring.
  - intros c u e q i j Hc He Hq Hi Hj. rewrite !(P_grad_at _ _ _ _ _ _ _ H _ Hc) by assumption.
    destruct (Nat.ltb_spec i 2) as [A1|A1]; [destruct (Nat.ltb_spec j 2) as [A2|A2]|]; cbn [andb].
    + unfold Planar_symGradN_vector. exact (sym_at _ _ _ _ _ _ _ (proj2 (Planar_facts _ _ _ _ _ _ _ H)) _ Hc u (fill 0 (c_old c)) e q i j He Hq A1 A2).
    + assert (J : j = 2%nat) by lia. rewrite (proj2 (proj2 (P_out _ _ _ _ _ _ _ H _ Hc u (c_old c) e q i j (or_intror J)))). lra.
    + assert (J : i = 2%nat) by lia. rewrite (proj2 (proj2 (P_out _ _ _ _ _ _ _ H _ Hc u (c_old c) e q i j (or_introl J)))). destruct (Nat.ltb_spec j 2); cbn [andb]; lra.
  - intros c sig u e Hc He. exact (C61_virtual_work _ _ _ _ _ _ _ H _ Hc sig u _ (c_old c) e He).
  - intros c C u e m k Hc He Hm Hk. exact (C61_stiffness _ _ _ _ _ _ _ H _ Hc C u _ (c_old c) (c_old c) e m k He Hm Hk).
Qed.

Lemma Axisym_raw nelem nip xi w x A : Axisym_obj nelem nip xi w x A -> elem_raw nelem (Axisym_elem A) (fun e q i j m k => Bq A e q m k i j).
Proof.
  intros H. pose proof (Axisym_facts _ _ _ _ _ _ H) as F. constructor; unrec; rewrite ?(a_f_nip F).
  - intros c u e q i j Hc He Hq Hi Hj. rewrite (axi_grad_spec _ _ _ _ _ _ F _ Hc) by assumption. reflexivity.
  - intros c u e q i j Hc He Hq Hi Hj. exact (proj2 (C62_transpose_symmetric _ _ _ _ _ _ H _ Hc u (c_old c) (c_old c) _ e q i j He Hq Hi Hj)).
  - intros c sig u e Hc He. exact (C62_virtual_work _ _ _ _ _ _ H _ Hc sig u _ (c_old c) e He).
  - intros c C u e m k Hc He Hm Hk. exact (C62_stiffness _ _ _ _ _ _ H _ Hc C u _ (c_old c) (c_old c) e m k He Hm Hk).
Qed.

Lemma elem_obj_raw nelem x E : elem_obj nelem x E -> exists B, elem_raw nelem E B.
Proof.
  intros [nip xi w x' Q H|nip xi w thick x' P H|nip xi w x' A H|nip xi w x' Q H]; eexists.
  - exact (Quad4_raw _ _ _ _ _ _ H).
  - exact (Planar_raw _ _ _ _ _ _ _ H).
  - exact (Axisym_raw _ _ _ _ _ _ H).
  - exact (Hex8_raw _ _ _ _ _ _ H).
Qed.

(** sums *)
Lemma sumn_delta2 n d m k (f : nat -> nat -> R) : (m < n)%nat -> (k < d)%nat ->
  sumn n (fun m' => sumn d (fun k' => f m' k' * (ind (m' =? m)%nat * ind (k' =? k)%nat))) = f m k.
Proof.
  intros Hm Hk. rewrite <- (sumn_delta n m (fun m' => f m' k) Hm). apply sumn_ext. intros m' Hm'.
  rewrite <- (sumn_delta d k (fun k' => f m' k') Hk), <- sumn_scal. apply sumn_ext. intros k' Hk'. ring.
Qed.

Definition unit_at (m k : nat) : arr := fun l => match l with [_;m';k'] => ind (m' =? m)%nat * ind (k' =? k)%nat | _ => 0 end.

Section Ok.
Variables (nelem : nat) (E : Elem) (B : nat -> nat -> nat -> nat -> nat -> nat -> R).
Hypothesis Ho : elem_raw nelem E B.
Set Default Proof Using "All".
Notation nne := (el_nne E). Notation ndim := (el_ndim E). Notation td := (el_tdim E). Notation nip := (el_nip E).

Lemma o_force c sig e m k : valid_call nelem c -> (e < nelem)%nat -> (m < nne)%nat -> (k < ndim)%nat ->
  el_Int_gradN_dot_tensor2_dV E c sig [e;m;k] =
  sumn nip (fun q => sumn td (fun i => sumn td (fun j => sig [e;q;i;j] * B e q i j m k)) * el_dV E [e;q]).
Proof.
  intros Hc He Hm Hk. pose proof (r_vw _ _ _ Ho c sig (unit_at m k) e Hc He) as V. cbn [unit_at] in V.
  rewrite (sumn_delta2 nne ndim m k (fun m' k' => el_Int_gradN_dot_tensor2_dV E c sig [e;m';k']) Hm Hk) in V. rewrite V.
  apply sumn_ext. intros q Hq. f_equal. apply sumn_ext. intros i Hi. apply sumn_ext. intros j Hj. f_equal.
  rewrite (r_grad _ _ _ Ho) by assumption. cbn [unit_at]. apply (sumn_delta2 nne ndim m k (fun m' k' => B e q i j m' k') Hm Hk).
Qed.

Lemma o_grad2 c c' u u' e q i j : valid_call nelem c -> valid_call nelem c' -> (e < nelem)%nat -> (q < nip)%nat -> (i < td)%nat -> (j < td)%nat ->
  (forall m k, (m < nne)%nat -> (k < ndim)%nat -> u [e;m;k] = u' [e;m;k]) ->
  el_GradN_vector E c u [e;q;i;j] = el_GradN_vector E c' u' [e;q;i;j].
Proof.
  intros Hc Hc' He Hq Hi Hj Hu. rewrite !(r_grad _ _ _ Ho) by assumption. apply sumn_ext. intros m Hm. apply sumn_ext. intros k Hk. now rewrite Hu.
Qed.
Lemma o_sym2 c c' u u' e q i j : valid_call nelem c -> valid_call nelem c' -> (e < nelem)%nat -> (q < nip)%nat -> (i < td)%nat -> (j < td)%nat ->
  (forall m k, (m < nne)%nat -> (k < ndim)%nat -> u [e;m;k] = u' [e;m;k]) ->
  el_SymGradN_vector E c u [e;q;i;j] = (el_GradN_vector E c' u' [e;q;i;j] + el_GradN_vector E c' u' [e;q;j;i]) / 2.
Proof.
  intros Hc Hc' He Hq Hi Hj Hu. rewrite (r_sym _ _ _ Ho) by assumption.
  now rewrite (o_grad2 c c' u u' e q i j), (o_grad2 c c' u u' e q j i).
Qed.
Lemma o_force2 c c' s s' e m k : valid_call nelem c -> valid_call nelem c' -> (e < nelem)%nat -> (m < nne)%nat -> (k < ndim)%nat ->
  (forall q i j, (q < nip)%nat -> (i < td)%nat -> (j < td)%nat -> s [e;q;i;j] = s' [e;q;i;j]) ->
  el_Int_gradN_dot_tensor2_dV E c s [e;m;k] = el_Int_gradN_dot_tensor2_dV E c' s' [e;m;k].
Proof.
  intros Hc Hc' He Hm Hk Hs. rewrite !o_force by assumption. apply sumn_ext. intros q Hq. f_equal. apply sumn_ext. intros i Hi. apply sumn_ext. intros j Hj. now rewrite Hs.
Qed.
Lemma ddot42_ext (C : arr) (s s' : arr) e q i j : (forall k l, (k < td)%nat -> (l < td)%nat -> s [e;q;l;k] = s' [e;q;l;k]) ->
  ddot42 td C s [e;q;i;j] = ddot42 td C s' [e;q;i;j].
Proof. intros Hs. cbn. apply sumn_ext. intros k Hk. apply sumn_ext. intros l Hl. now rewrite Hs. Qed.

Lemma o_act2 c c' c'' C u e m k : valid_call nelem c -> valid_call nelem c' -> valid_call nelem c'' -> (e < nelem)%nat -> (m < nne)%nat -> (k < ndim)%nat ->
  sumn nne (fun n => sumn ndim (fun l => el_Int_gradN_dot_tensor4_dot_gradNT_dV E c C [e; m * ndim + k; n * ndim + l]%nat * u [e;n;l])) =
  el_Int_gradN_dot_tensor2_dV E c' (ddot42 td C (el_GradN_vector E c'' u)) [e;m;k].
Proof.
  intros Hc Hc' Hc'' He Hm Hk. rewrite (r_act _ _ _ Ho) by assumption. apply o_force2; try assumption.
  intros q i j Hq Hi Hj. apply ddot42_ext. intros a b Ha Hb. now apply o_grad2.
Qed.

(** the entries of the stiffness *)
Lemma o_stiff c C e m k n l : valid_call nelem c -> (e < nelem)%nat -> (m < nne)%nat -> (k < ndim)%nat -> (n < nne)%nat -> (l < ndim)%nat ->
  el_Int_gradN_dot_tensor4_dot_gradNT_dV E c C [e; m * ndim + k; n * ndim + l]%nat =
  sumn nip (fun q => sumn td (fun i => sumn td (fun j => sumn td (fun a => sumn td (fun b => C [e;q;i;j;a;b] * B e q b a n l)) * B e q i j m k)) * el_dV E [e;q]).
Proof.
  intros Hc He Hm Hk Hn Hl. pose proof (r_act _ _ _ Ho c C (unit_at n l) e m k Hc He Hm Hk) as V. cbn [unit_at] in V.
  rewrite (sumn_delta2 nne ndim n l (fun n' l' => el_Int_gradN_dot_tensor4_dot_gradNT_dV E c C [e; m * ndim + k; n' * ndim + l']%nat) Hn Hl) in V. rewrite V.
  rewrite o_force by assumption. apply sumn_ext. intros q Hq. f_equal. apply sumn_ext. intros i Hi. apply sumn_ext. intros j Hj. f_equal.
  cbn [ddot42]. apply sumn_ext. intros a Ha. apply sumn_ext. intros b Hb. f_equal.
  rewrite (r_grad _ _ _ Ho) by assumption. cbn [unit_at]. apply (sumn_delta2 nne ndim n l (fun m' k' => B e q b a m' k') Hn Hl).
Qed.

Lemma o_stiff_sym c C e m k n l : major_symmetric nelem E C -> valid_call nelem c -> (e < nelem)%nat -> (m < nne)%nat -> (k < ndim)%nat -> (n < nne)%nat -> (l < ndim)%nat ->
  el_Int_gradN_dot_tensor4_dot_gradNT_dV E c C [e; m * ndim + k; n * ndim + l]%nat =
  el_Int_gradN_dot_tensor4_dot_gradNT_dV E c C [e; n * ndim + l; m * ndim + k]%nat.
Proof.
  intros HC Hc He Hm Hk Hn Hl. rewrite !o_stiff by assumption. apply sumn_ext. intros q Hq. f_equal.
  set (P := fun i j a b => C [e;q;i;j;a;b] * B e q b a n l * B e q i j m k).
  transitivity (sumn td (fun i => sumn td (fun j => sumn td (fun a => sumn td (fun b => P i j a b))))).
  { apply sumn_ext. intros i Hi. apply sumn_ext. intros j Hj. rewrite <- sumn_scal_r. apply sumn_ext. intros a Ha. rewrite <- sumn_scal_r. reflexivity. }
  transitivity (sumn td (fun i => sumn td (fun j => sumn td (fun a => sumn td (fun b => P b a j i))))).
  - rewrite sumn_swap.
    transitivity (sumn td (fun j => sumn td (fun i => sumn td (fun b => sumn td (fun a => P i j a b))))).
    { apply sumn_ext. intros j Hj. apply sumn_ext. intros i Hi. apply sumn_swap. }
    transitivity (sumn td (fun j => sumn td (fun b => sumn td (fun i => sumn td (fun a => P i j a b))))).
    { apply sumn_ext. intros j Hj. apply sumn_swap. }
    rewrite sumn_swap. apply sumn_ext. intros b Hb.
    transitivity (sumn td (fun j => sumn td (fun a => sumn td (fun i => P i j a b)))).
    { apply sumn_ext. intros j Hj. apply sumn_swap. }
    apply sumn_swap.
  - apply sumn_ext. intros i Hi. apply sumn_ext. intros j Hj. rewrite <- sumn_scal_r. apply sumn_ext. intros a Ha. rewrite <- sumn_scal_r.
    apply sumn_ext. intros b Hb. unfold P. rewrite (HC e q b a He Hq Hb Ha j i Hj Hi). ring.
Qed.

Lemma o_vw c c' sig u e : valid_call nelem c -> valid_call nelem c' -> (e < nelem)%nat ->
    sumn nne (fun m => sumn ndim (fun k => el_Int_gradN_dot_tensor2_dV E c sig [e;m;k] * u [e;m;k])) =
    sumn nip (fun q => sumn td (fun i => sumn td (fun j => sig [e;q;i;j] * el_GradN_vector E c' u [e;q;i;j])) * el_dV E [e;q]).
Proof.
  intros Hc Hc' He. rewrite (r_vw _ _ _ Ho) by assumption. apply sumn_ext. intros q Hq. f_equal. apply sumn_ext. intros i Hi. apply sumn_ext. intros j Hj. f_equal.
  now apply o_grad2.
Qed.

(** a tensor C with minor symmetry only sees the symmetric part of the gradient *)
Lemma o_minor c c' C u e q i j : minor_symmetric nelem E C -> valid_call nelem c -> valid_call nelem c' -> (e < nelem)%nat -> (q < nip)%nat -> (i < td)%nat -> (j < td)%nat ->
  ddot42 td C (el_SymGradN_vector E c u) [e;q;i;j] = ddot42 td C (el_GradN_vector E c' u) [e;q;i;j].
Proof.
  intros HC Hc Hc' He Hq Hi Hj. cbn [ddot42].
  set (g := fun k l => el_GradN_vector E c' u [e;q;l;k]).
  set (C' := fun k l => C [e;q;i;j;k;l]).
  transitivity (sumn td (fun k => sumn td (fun l => / 2 * (C' k l * g k l) + / 2 * (C' l k * g l k)))).
  - apply sumn_ext. intros k Hk. apply sumn_ext. intros l Hl. rewrite (o_sym2 c c' u u) by auto.
    unfold C', g. rewrite (HC e q i j He Hq Hi Hj l k Hl Hk). lra.
  - transitivity (sumn td (fun k => / 2 * sumn td (fun l => C' k l * g k l) + / 2 * sumn td (fun l => C' l k * g l k))).
    { apply sumn_ext. intros k Hk. now rewrite sumn_plus, !sumn_scal. }
    rewrite sumn_plus, !sumn_scal. rewrite (sumn_swap td td (fun k l => C' l k * g l k)).
    unfold C', g. lra.
Qed.
End Ok.
