From Coq Require Import Reals Lra Lia.
From Verif Require Import Model_Element Spec_Element Proof_Element Proof_ElementQuad4 Proof_ElementMath Base Spec Sums Spec_Vector Model_Numbering Model_Vector Model_Regular2d Model_MeshGeometry Model_Pipeline Spec_Pipeline Spec_Patch
  Proof_Regular2d Proof_PipelineElem Proof_Pipeline Proof_PipelineBalance Proof_Patch Proof_PatchRigid Proof_PatchRegular Spec_Periodic Spec_Spd.

(** no energy: every element moves as a rigid body *)
Lemma energy_rigid nelem x E C c U : full_obj nelem x E -> strictly_elastic nelem E C -> valid_call nelem c ->
  integral nelem E (ddot42 (el_tdim E) C (el_GradN_vector E c U)) (el_GradN_vector E c U) = 0%R -> forall e, e < nelem -> rigid x U e.
Proof.
  intros HE HC Hc HZ. destruct (full_grad nelem x E HE) as [nip [xi [En [HL [D4 [D2 [Dt [HV HG]]]]]]]]. set (G := el_GradN_vector E c U) in *.
  assert (P : forall e q, (e < nelem)%nat -> (q < el_nip E)%nat -> (0 <= sumn (el_tdim E) (fun i => sumn (el_tdim E) (fun j => ddot42 (el_tdim E) C G [e;q;i;j] * G [e;q;i;j])) * el_dV E [e;q])%R).
  { intros e q He Hq. apply Rmult_le_pos; [apply (HC G e q He Hq)|]. rewrite En in Hq. left. now apply HV. }
  intros e He. apply (rigid_of_strain nelem x E HE c U e Hc He). intros q i j Hq Hi Hj. fold G. apply (HC G e q He Hq); try lia. unfold integral in HZ.
  pose proof (sumn_nonneg_zero _ _ (fun e He => sumn_nonneg _ _ (fun q Hq => P e q He Hq)) HZ e He) as Z1. cbv beta in Z1.
  pose proof (sumn_nonneg_zero _ _ (fun q Hq => P e q He Hq) Z1 q Hq) as Z2. cbv beta in Z2. rewrite En in Hq. destruct (HV e q He Hq) as [_ Vp].
  apply (Rmult_eq_reg_r (el_dV E [e;q])); [|lra]. rewrite Rmult_0_l. exact Z2.
Qed.

(** the rigid motion of node p *)
Definition moves (X w : list (list R)) (s t r : R) (p : nat) : Prop := val2 w p 0 = (s - r * val2 X p 1)%R /\ val2 w p 1 = (t + r * val2 X p 0)%R.

Lemma linked_moves conn nelem X w : (forall e, e < nelem -> exists s t r, forall m, m < 4 -> moves X w s t r (idx2 conn e m)) ->
  forall s t r e f, linked conn nelem 4 2 X e f -> (forall m, m < 4 -> moves X w s t r (idx2 conn e m)) -> forall m, m < 4 -> moves X w s t r (idx2 conn f m).
Proof.
  intros HR s t r e f HL. induction HL as [e|e f g m1 m2 k1 k2 i HL IH Hf Hg H1 H2 K1 K2 E1 E2 Hi Hx]; intros He m Hm; [now apply He|].
  destruct (HR g Hg) as [s' [t' [r' H']]]. pose proof (IH He m1 H1) as [A1 B1]. pose proof (IH He m2 H2) as [A2 B2].
  pose proof (H' k1 K1) as [A1' B1']. pose proof (H' k2 K2) as [A2' B2']. rewrite <- E1 in A1', B1'. rewrite <- E2 in A2', B2'.
  assert (Er : r' = r).
  { destruct i as [|[|i]]; [| |lia].
    - apply (Rmult_eq_reg_r (val2 X (idx2 conn f m1) 0 - val2 X (idx2 conn f m2) 0)); lra.
    - apply (Rmult_eq_reg_r (val2 X (idx2 conn f m1) 1 - val2 X (idx2 conn f m2) 1)); lra. }
  rewrite Er in *. assert (Es : s' = s) by lra. assert (Et : t' = t) by lra. rewrite Es, Et in H'. now apply H'.
Qed.

Lemma periodic_stable coor ties fixed nnode nelem conn x E C : full_obj nelem x E -> on_mesh conn nelem coor x -> strictly_elastic nelem E C ->
  (forall e, e < nelem -> linked conn nelem 4 2 coor 0 e) -> (forall p, p < nnode -> exists e m, e < nelem /\ m < 4 /\ idx2 conn e m = p) ->
  (exists o, In o fixed /\ o < nnode) -> (exists a b i, In (a, b) ties /\ a < nnode /\ b < nnode /\ i < 2 /\ val2 coor a i <> val2 coor b i) ->
  no_periodic_mechanism coor ties fixed nnode nelem conn E C.
Proof.
  intros HE HX HC HL HN [o [Ho Lo]] [a [b [i [Hab [La [Lb [Hi Hne]]]]]]] c w U Hc Vw HU HZ. destruct (full_grad nelem x E HE) as [_ [_ [_ [_ [D4 [D2 _]]]]]]. rewrite D4, D2 in *.
  assert (HR : forall e, e < nelem -> exists s t r, forall m, m < 4 -> moves coor w s t r (idx2 conn e m)).
  { intros e He. destruct (energy_rigid nelem x E C c U HE HC Hc HZ e He) as [s [t [r H]]]. exists s, t, r. intros m Hm. destruct (H m Hm) as [A B].
    rewrite HX in A, B by lia. rewrite HU in A, B by lia. now split. }
  destruct (HN o Lo) as [e0 [_ [He0 _]]]. assert (P0 : 0 < nelem) by lia. destruct (HR 0 P0) as [s [t [r H0]]].
  assert (HA : forall p, p < nnode -> moves coor w s t r p).
  { intros p Hp. destruct (HN p Hp) as [e [m [He [Hm <-]]]]. apply (linked_moves conn nelem coor w HR s t r 0 e (HL e He) H0 m Hm). }
  (* a tied pair moves equally: no rotation *)
  destruct Vw as [[Sw Tw] Zw].
  assert (Eq : forall j, j < 2 -> val2 w b j = val2 w a j).
  { intros j Hj. rewrite (Tw a b j Hab Hj). rewrite sumn_zero; [ring|]. intros k Hk. rewrite (Zw (nnode + j) k) by (try lia; right; lia). ring. }
  destruct (HA a La) as [A1 A2]. destruct (HA b Lb) as [B1 B2]. pose proof (Eq 0 ltac:(lia)) as E0. pose proof (Eq 1 ltac:(lia)) as E1.
  assert (R0 : r = 0%R).
  { destruct i as [|[|i]]; [| |lia]; [apply (Rmult_eq_reg_r (val2 coor a 0 - val2 coor b 0))|apply (Rmult_eq_reg_r (val2 coor a 1 - val2 coor b 1))]; lra. }
  destruct (HA o Lo) as [O1 O2]. rewrite (Zw o 0) in O1 by (try lia; now left). rewrite (Zw o 1) in O2 by (try lia; now left).
  intros p j Hp Hj. destruct (HA p Hp) as [P1 P2]. rewrite R0 in *. destruct j as [|[|j]]; [rewrite P1|rewrite P2|lia]; lra.
Qed.

(** regular meshes are linked *)
Lemma regular_linked m : (0 < hh m)%R -> forall e, e < nelem m -> linked (conn m) (nelem m) 4 2 (coor m) 0 e.
Proof.
  intros Hh.
  assert (R : forall jx jy, jx < nelx m -> jy < nely m -> jy * nelx m + jx < nelem m) by (unfold nelem; intros; nia).
  assert (I : forall jx jy k, jx < nelx m -> jy < nely m -> idx2 (conn m) (jy * nelx m + jx) k =
    nth k [jy * (nelx m + 1) + jx; jy * (nelx m + 1) + (jx + 1); (jy + 1) * (nelx m + 1) + (jx + 1); (jy + 1) * (nelx m + 1) + jx] 0).
  { intros jx jy k Ax Ay. apply idx2_row. now apply conn_at. }
  assert (Y : forall jx jy i, jx <= nelx m -> jy <= nely m -> i < 2 -> val2 (coor m) (jy * (nelx m + 1) + jx) i = (hh m * INR (match i with 0 => jx | _ => jy end))%R).
  { intros jx jy i Lx Ly Hi. unfold val2, nth2. erewrite (nth_error_nth (coor m)) by (apply coor_at; lia). destruct i as [|[|i]]; [| |lia]; cbn [nth]; reflexivity. }
  assert (A : forall jy, jy < nely m -> forall jx, jx < nelx m -> linked (conn m) (nelem m) 4 2 (coor m) 0 (jy * nelx m + jx)).
  { induction jy as [|jy IHy]; intros Ly jx Lx.
    - induction jx as [|jx IHx]; [apply linked_refl|].
      apply (linked_step _ _ _ _ _ _ (0 * nelx m + jx) _ 1 2 0 3 1); try lia; [apply IHx; lia|apply R; lia|apply R; lia| | |]; rewrite !I by lia; cbn [nth]; try (f_equal; lia).
      rewrite !Y by lia. rewrite plus_INR. cbn [INR]. intros Z. assert (hh m * 1 = 0)%R by lra. lra.
    - apply (linked_step _ _ _ _ _ _ (jy * nelx m + jx) _ 3 2 0 1 0); try lia; [apply IHy; lia|apply R; lia|apply R; lia| | |]; rewrite !I by lia; cbn [nth]; try (f_equal; lia).
      rewrite !Y by lia. rewrite plus_INR. cbn [INR]. intros Z. assert (hh m * 1 = 0)%R by lra. lra. }
  intros e He. unfold nelem in He. destruct (grid_split (nelx m) e) as [jy [jx [Hx ->]]]; [nia|]. apply A; [nia|exact Hx].
Qed.
Lemma regular_covered m : 1 <= nelx m -> 1 <= nely m -> forall p, p < nnode m -> exists e k, e < nelem m /\ k < 4 /\ idx2 (conn m) e k = p.
Proof.
  intros Hx Hy p Hp. unfold nnode in Hp. destruct (grid_split (nelx m + 1) p) as [iy [ix [Hix ->]]]; [lia|]. assert (Ly : iy <= nely m) by nia.
  assert (R : forall jx jy, jx < nelx m -> jy < nely m -> jy * nelx m + jx < nelem m) by (unfold nelem; intros; nia).
  assert (I : forall jx jy k, jx < nelx m -> jy < nely m -> idx2 (conn m) (jy * nelx m + jx) k =
    nth k [jy * (nelx m + 1) + jx; jy * (nelx m + 1) + (jx + 1); (jy + 1) * (nelx m + 1) + (jx + 1); (jy + 1) * (nelx m + 1) + jx] 0).
  { intros jx jy k Ax Ay. apply idx2_row. now apply conn_at. }
  destruct (Nat.lt_ge_cases ix (nelx m)) as [L|L]; destruct (Nat.lt_ge_cases iy (nely m)) as [K|K].
  - exists (iy * nelx m + ix), 0. split; [now apply R|]. split; [lia|]. now rewrite I by lia.
  - exists ((iy - 1) * nelx m + ix), 3. split; [apply R; lia|]. split; [lia|]. rewrite I by lia. cbn [nth]. f_equal. f_equal. lia.
  - exists (iy * nelx m + (ix - 1)), 1. split; [apply R; lia|]. split; [lia|]. rewrite I by lia. cbn [nth]. lia.
  - exists ((iy - 1) * nelx m + (ix - 1)), 2. split; [apply R; lia|]. split; [lia|]. rewrite I by lia. cbn [nth]. replace (iy - 1 + 1) with iy by lia. lia.
Qed.
