From Coq Require Import Reals Lra Lia List Permutation.
From Verif Require Import Model_Element Spec_Element Proof_Element Proof_ElementQuad4 Proof_ElementMath Proof_ElementThm Proof_ElementThm2 Proof_ElementThm3 Prop_ElementQuad4 Prop_ElementPlanar
  Base Spec Sums Spec_Vector Model_Numbering Model_Vector Proof_Vector Model_MeshGeometry Model_Pipeline Spec_Pipeline Proof_PipelineElem Proof_Pipeline Proof_PipelineBalance Spec_Patch.

(** the cofactor of the gradient of a shape function: linear in the local coordinates *)
Definition cof (x : nat -> nat -> R) (m i : nat) (p : nat -> R) : R :=
  match i with
  | O => (dinterp2 (fun m => x m 1%nat) 1%nat p * dshape2 m 0%nat p - dinterp2 (fun m => x m 1%nat) 0%nat p * dshape2 m 1%nat p)%R
  | _ => (dinterp2 (fun m => x m 0%nat) 0%nat p * dshape2 m 1%nat p - dinterp2 (fun m => x m 0%nat) 1%nat p * dshape2 m 0%nat p)%R
  end.
Definition P (a b : R) : nat -> R := fun i => match i with O => a | _ => b end.
Definition turn (x : nat -> nat -> R) (m i : nat) : R :=
  match i with
  | O => ((x ((m + 1) mod 4)%nat 1%nat - x ((m + 3) mod 4)%nat 1%nat) / 8)%R
  | _ => (- (x ((m + 1) mod 4)%nat 0%nat - x ((m + 3) mod 4)%nat 0%nat) / 8)%R
  end.
Lemma cof_linear x m i p : m < 4 -> i < 2 ->
  cof x m i p = (turn x m i + p 0%nat * (cof x m i (P 1 0) - turn x m i) + p 1%nat * (cof x m i (P 0 1) - turn x m i))%R.
Proof.
  intros Hm Hi. revert m Hm. apply lt4; revert i Hi; apply lt2; unfold cof, turn, dinterp2; rewrite !sumn4; unfold dshape2, corner2, P; cbn [Nat.add Nat.modulo Nat.divmod Nat.sub fst snd]; field.
Qed.
Lemma gshape_cof x m i p : m < 4 -> i < 2 -> jac2 x p <> 0%R -> (gshape2 x m i p * jac2 x p = cof x m i p)%R.
Proof. intros Hm Hi Hj. unfold gshape2. revert i Hi. apply lt2; unfold cof; field; assumption. Qed.

Lemma cof_integral nip xi w x m i : centred nip xi w -> m < 4 -> i < 2 ->
  sumn nip (fun q => w [q] * cof x m i (point xi q))%R = (sumn nip (fun q => w [q]) * turn x m i)%R.
Proof.
  intros [C0 C1] Hm Hi.
  rewrite (sumn_ext nip _ (fun q => w [q] * turn x m i + (w [q] * xi [q;0]%nat * (cof x m i (P 1 0) - turn x m i) + w [q] * xi [q;1]%nat * (cof x m i (P 0 1) - turn x m i)))%R).
  - rewrite !sumn_plus, !sumn_scal_r, C0, C1. ring.
  - intros q Hq. rewrite (cof_linear x m i (point xi q) Hm Hi) at 1. unfold point. ring.
Qed.

(** the force of a uniform stress on a corner of an element *)
Lemma corner_force nelem x E : patch_obj nelem x E -> exists W : R, forall c sig S, valid_call nelem c -> uniform nelem E sig S ->
  forall e m k, e < nelem -> m < 4 -> k < 2 ->
  el_Int_gradN_dot_tensor2_dV E c sig [e;m;k] = (W * (S 0%nat k * turn (nodes x e) m 0%nat + S 1%nat k * turn (nodes x e) m 1%nat))%R.
Proof.
  intros [nip xi w x' Q H HC HJ|nip xi w thick x' Pl H HC HJ].
  - exists (sumn nip (fun q => w [q])). intros c sig S Hc HS e m k He Hm Hk. pose proof (Quad4_facts _ _ _ _ _ _ H) as F.
    rewrite (o_force nelem _ _ (Quad4_raw _ _ _ _ _ _ H) c sig e m k Hc He Hm Hk).
    rewrite (sumn_ext _ _ (fun q => S 0%nat k * (w [q] * cof (nodes x' e) m 0%nat (point xi q)) + S 1%nat k * (w [q] * cof (nodes x' e) m 1%nat (point xi q)))%R).
    + rewrite sumn_plus, !sumn_scal. cbn [Quad4_elem el_nip]. rewrite (f_nip F). rewrite !cof_integral by (assumption || lia). ring.
    + intros q Hq. pose proof Hq as Hq'. cbn [Quad4_elem el_nip] in Hq'. rewrite (f_nip F) in Hq'. cbn [Quad4_elem el_tdim el_dV].
      rewrite (f_vol F) by assumption. rewrite <- !gshape_cof by (assumption || lia || now apply HJ).
      rewrite (sumn_ext 2 _ (fun i => S i k * gshape2 (nodes x' e) m i (point xi q)))%R.
      * rewrite sumn2. ring.
      * intros i Hi. rewrite <- (sumn_delta 2 k (fun j => S i j * gshape2 (nodes x' e) m i (point xi q))%R Hk). apply sumn_ext. intros j Hj. unfold Bcart.
        rewrite (f_dNx F) by assumption. rewrite (HS e q i j He Hq Hi Hj), (Nat.eqb_sym k j). ring.
  - exists (sumn nip (fun q => w [q]) * thick)%R. intros c sig S Hc HS e m k He Hm Hk. pose proof (proj2 (Planar_facts _ _ _ _ _ _ _ H)) as F.
    rewrite (o_force nelem _ _ (Planar_raw _ _ _ _ _ _ _ H) c sig e m k Hc He Hm Hk).
    rewrite (sumn_ext _ _ (fun q => thick * (S 0%nat k * (w [q] * cof (nodes x' e) m 0%nat (point xi q)) + S 1%nat k * (w [q] * cof (nodes x' e) m 1%nat (point xi q))))%R).
    + rewrite sumn_scal, sumn_plus, !sumn_scal. cbn [Planar_elem el_nip]. rewrite (f_nip F). rewrite !cof_integral by (assumption || lia). ring.
    + intros q Hq. pose proof Hq as Hq'. cbn [Planar_elem el_nip] in Hq'. rewrite (f_nip F) in Hq'. cbn [Planar_elem el_tdim el_dV].
      rewrite (f_vol F) by assumption. rewrite <- !gshape_cof by (assumption || lia || now apply HJ).
      assert (Z : forall i j, i < 3 -> j < 3 -> (sig [e;q;i;j] * Bplanar (q_dNx (p_base Pl)) e q i j m k =
        if ((i <? 2) && (j <? 2))%bool then S i j * (ind (k =? j)%nat * gshape2 (nodes x' e) m i (point xi q)) else 0)%R).
      { intros i j Hi Hj. unfold Bplanar. destruct (Nat.ltb_spec i 2) as [Hi2|]; [destruct (Nat.ltb_spec j 2) as [Hj2|]|]; cbn [andb]; try ring.
        unfold Bcart. rewrite (f_dNx F) by assumption. now rewrite (HS e q i j He Hq Hi Hj). }
      unfold sumn, sumL. cbn [seq fold_right]. rewrite !Z by lia. cbn [Nat.ltb Nat.leb andb]. destruct k as [|[|]]; [| |lia]; unfold ind; cbn [Nat.eqb]; ring.
Qed.

Lemma sumL_prod {A B} (l : list A) (l' : list B) (f : A * B -> R) : sumL (list_prod l l') f = sumL l (fun a => sumL l' (fun b => f (a, b))).
Proof. induction l as [|a l IH]; [reflexivity|]. cbn [list_prod]. rewrite sumL_app, IH, sumL_map. reflexivity. Qed.

(** the nodes around a node on which the elements close *)
Lemma closed_sum conn nelem X x n i : on_mesh conn nelem X x -> closed_around conn nelem n -> i < 2 ->
  sumL (corners_at conn nelem n) (fun c => nodes x (fst c) ((snd c + 1) mod 4)%nat i - nodes x (fst c) ((snd c + 3) mod 4)%nat i)%R = 0%R.
Proof.
  intros HX HC Hi. rewrite sumL_minus.
  assert (A : sumL (corners_at conn nelem n) (fun c => nodes x (fst c) ((snd c + 1) mod 4) i) = sumL (map (next_node conn) (corners_at conn nelem n)) (fun k => val2 X k i)).
  { rewrite sumL_map. apply sumL_ext. intros [e m] Hin. apply filter_In in Hin. destruct Hin as [Hin _]. apply in_prod_iff in Hin. rewrite !in_seq in Hin.
    unfold nodes, next_node. cbn [fst snd]. apply HX; try lia. apply Nat.mod_upper_bound. lia. }
  assert (B : sumL (corners_at conn nelem n) (fun c => nodes x (fst c) ((snd c + 3) mod 4) i) = sumL (map (prev_node conn) (corners_at conn nelem n)) (fun k => val2 X k i)).
  { rewrite sumL_map. apply sumL_ext. intros [e m] Hin. apply filter_In in Hin. destruct Hin as [Hin _]. apply in_prod_iff in Hin. rewrite !in_seq in Hin.
    unfold nodes, prev_node. cbn [fst snd]. apply HX; try lia. apply Nat.mod_upper_bound. lia. }
  rewrite A, B, (sumL_perm _ _ _ HC). ring.
Qed.

Section P.
Set Default Proof Using "All".
Variables conn dofs : list (list nat).
Variable E : Elem.
Variables nelem nnode ndof : nat.
Variables (X : list (list R)) (x : arr).
Hypothesis HE : patch_obj nelem x E.
Hypothesis Hmd : mesh_dofs conn dofs nelem (el_nne E) nnode (el_ndim E) ndof.
Hypothesis HX : on_mesh conn nelem X x.
Notation v := (mkVector conn (el_nne E) dofs (el_ndim E)).

Lemma patch_dims : el_nne E = 4 /\ el_ndim E = 2 /\ 2 <= el_tdim E.
Proof. destruct HE; cbn; lia. Qed.
Lemma patch_regular : regular2_obj nelem x E.
Proof. destruct HE; econstructor; eassumption. Qed.

Lemma uniform_force c sig S f n j : valid_call nelem c -> uniform nelem E sig S ->
  n < nnode -> j < 2 -> closed_around conn nelem n -> own_dofs dofs nnode 2 n ->
  (forall n j, n < nnode -> j < el_ndim E -> val2 f n j = sum_elem nelem (el_nne E) (el_ndim E) (fun e m i => ind (idx2 dofs (idx2 conn e m) i =? idx2 dofs n j)%nat *
     el_Int_gradN_dot_tensor2_dV E c sig [e;m;i])%R) -> val2 f n j = 0%R.
Proof.
  intros Hc HS Hn Hj HC HO Hf. destruct patch_dims as [D4 [D2 _]]. rewrite Hf by (rewrite ?D2; assumption). unfold sum_elem. rewrite D4, D2.
  destruct (corner_force nelem x E HE) as [W HW]. specialize (HW c sig S Hc HS).
  transitivity (sumn nelem (fun e => sumn 4 (fun m => ind (idx2 conn e m =? n)%nat * (W * (S 0%nat j * turn (nodes x e) m 0%nat + S 1%nat j * turn (nodes x e) m 1%nat))))%R).
  { apply sumn_ext. intros e He. apply sumn_ext. intros m Hm. rewrite <- (HW e m j He Hm Hj).
    assert (L : idx2 conn e m < nnode) by (apply (md_node _ _ _ _ _ _ _ Hmd); [exact He|rewrite D4; exact Hm]).
    destruct (Nat.eqb_spec (idx2 conn e m) n) as [Eq|Ne].
    - rewrite Eq. unfold ind at 2. rewrite Rmult_1_l. rewrite <- (sumn_delta 2 j (fun i => el_Int_gradN_dot_tensor2_dV E c sig [e;m;i]) Hj). apply sumn_ext. intros i Hi. f_equal. f_equal.
      destruct (Nat.eqb_spec i j) as [->|Nij]; [apply Nat.eqb_refl|]. apply Nat.eqb_neq. intros K. apply Nij. exact (proj2 (HO j n i Hj Hn Hi K)).
    - unfold ind at 2. rewrite Rmult_0_l. apply sumn_zero. intros i Hi.
      destruct (Nat.eqb_spec (idx2 dofs (idx2 conn e m) i) (idx2 dofs n j)) as [K|_]; [|unfold ind; ring].
      exfalso. apply Ne. exact (proj1 (HO j _ i Hj L Hi K)). }
  transitivity (sumL (corners_at conn nelem n) (fun c => W * (S 0%nat j * turn (nodes x (fst c)) (snd c) 0%nat + S 1%nat j * turn (nodes x (fst c)) (snd c) 1%nat)))%R.
  { unfold corners_at. rewrite sumL_filter, sumL_prod. reflexivity. }
  rewrite (sumL_ext _ _ (fun c => (W * S 0%nat j / 8) * (nodes x (fst c) ((snd c + 1) mod 4)%nat 1%nat - nodes x (fst c) ((snd c + 3) mod 4)%nat 1%nat) +
    (- W * S 1%nat j / 8) * (nodes x (fst c) ((snd c + 1) mod 4)%nat 0%nat - nodes x (fst c) ((snd c + 3) mod 4)%nat 0%nat))%R).
  - rewrite sumL_plus, !sumL_scal, !(closed_sum conn nelem X x n) by (assumption || lia). ring.
  - intros c' _. unfold turn. field.
Qed.

(** the gradient of an affine displacement is uniform *)
Lemma affine_grad c a G ue : valid_call nelem c ->
  (forall e m i, e < nelem -> m < 4 -> i < 2 -> ue [e;m;i] = (a i + sumn 2 (fun j => G i j * x [e;m;j]))%R) ->
  uniform nelem E (el_SymGradN_vector E c ue) (fun i j => if ((i <? 2) && (j <? 2))%bool then ((G j i + G i j) / 2)%R else 0%R).
Proof.
  intros Hc Hue e q i j He Hq Hi Hj. destruct (elem_obj_raw _ _ _ (cart_elem _ _ _ (regular_cart _ _ _ patch_regular))) as [B Ho].
  rewrite (r_sym _ _ _ Ho) by assumption.
  assert (Gr : forall i j, i < el_tdim E -> j < el_tdim E -> el_GradN_vector E c ue [e;q;i;j] = if ((i <? 2) && (j <? 2))%bool then G j i else 0%R).
  { clear i j Hi Hj. intros i j Hi Hj. clear Ho B. destruct HE as [nip xi w x' Q HQ HC HJ|nip xi w thick x' Pl HP HC HJ].
    - cbn in Hi, Hj. replace ((i <? 2) && (j <? 2))%bool with true by (symmetry; apply andb_true_iff; split; apply Nat.ltb_lt; assumption).
      cbn [Quad4_elem el_nip] in Hq. rewrite (f_nip (Quad4_facts _ _ _ _ _ _ HQ)) in Hq. unrec. apply (C56_affine _ _ _ _ _ _ HQ _ Hc a G ue); try assumption; [now apply HJ|].
      intros m k Hm Hk. now apply Hue.
    - assert (Hq' : q < nip) by (cbn in Hq; now rewrite (f_nip (proj2 (Planar_facts _ _ _ _ _ _ _ HP))) in Hq). cbn in Hi, Hj.
      destruct (Nat.ltb_spec i 2) as [Hi2|Hi2]; [destruct (Nat.ltb_spec j 2) as [Hj2|Hj2]|]; cbn [andb].
      + pose proof (Quad4_obj_new nelem nip xi w (c_es c) x' (fun _ => 0%R) (fun _ => 0%R) (fun _ => 0%R) (fun _ => 0%R) (fun _ => 0%R) Hc) as HQ.
        unrec. rewrite (proj1 (C61_in_plane _ _ _ _ _ _ _ _ HP HQ _ Hc ue (c_old c) (c_old c) e q i j He Hq' Hi2 Hj2)).
        apply (C56_affine _ _ _ _ _ _ HQ _ Hc a G ue); try assumption; [now apply HJ|]. intros m k Hm Hk. now apply Hue.
      + unrec. apply (C61_out_of_plane _ _ _ _ _ _ _ HP _ Hc). right. lia.
      + unrec. apply (C61_out_of_plane _ _ _ _ _ _ _ HP _ Hc). left. lia. }
  rewrite !Gr by assumption. rewrite (andb_comm (j <? 2)). destruct ((i <? 2) && (j <? 2))%bool; lra.
Qed.

Lemma affine_force law c1 c2 a G u : valid_call nelem c1 -> valid_call nelem c2 -> homogeneous nelem E law -> affine_field nnode X a G u ->
  exists f, internal_force v E law c1 c2 u = Ok f /\ Spec.shape2 f nnode 2 /\
    forall n j, n < nnode -> j < 2 -> closed_around conn nelem n -> own_dofs dofs nnode 2 n -> val2 f n j = 0%R.
Proof.
  intros H1 H2 HL [Su Hu]. destruct patch_dims as [D4 [D2 _]].
  destruct (elem_obj_raw _ _ _ (cart_elem _ _ _ (regular_cart _ _ _ patch_regular))) as [B Ho].
  assert (Su' : Spec.shape2 u nnode (el_ndim E)) by now rewrite D2.
  destruct (force_spec v E nelem nnode ndof eq_refl eq_refl Hmd B Ho el_SymGradN_vector law c1 c2 u Su') as [ue [f [Eu [Ef [Sf [Vf _]]]]]].
  destruct (AsElement_nodevec_spec v nelem (el_nne E) nnode (el_ndim E) ndof eq_refl eq_refl Hmd u Su') as [ue' [Eu' [_ Vu]]]. rewrite Eu in Eu'. injection Eu' as <-.
  exists f. split; [exact Ef|]. split; [rewrite <- D2; exact Sf|]. intros n j Hn Hj HC HO.
  destruct (HL (el_SymGradN_vector E c1 (of_rows ue)) _ (affine_grad c1 a G (of_rows ue) H1 ltac:(
    intros e m i He Hm Hi; rewrite of_rows_val, Vu by (rewrite ?D4, ?D2; assumption);
    rewrite Hu by first [assumption | (apply (md_node _ _ _ _ _ _ _ Hmd); [assumption|rewrite D4; assumption])];
    f_equal; apply sumn_ext; intros k Hk; now rewrite HX))) as [S HS].
  apply (uniform_force c2 (law (el_SymGradN_vector E c1 (of_rows ue))) S f n j); assumption.
Qed.
End P.

(** ** uniqueness *)
From Verif Require Import Spec_Matrix Spec_MatrixOps Model_Sparse Model_Matrix Proof_Matrix Prop_MatrixPartitioned.

Section U.
Set Default Proof Using "All".
Variables conn dofs : list (list nat).
Variable E : Elem.
Variables nelem nnode ndof : nat.
Variable B : nat -> nat -> nat -> nat -> nat -> nat -> R.
Hypothesis Ho : elem_raw nelem E B.
Hypothesis Hmd : mesh_dofs conn dofs nelem (el_nne E) nnode (el_ndim E) ndof.
Notation v := (mkVector conn (el_nne E) dofs (el_ndim E)).
Notation dof := (idx2 dofs).
Variable iip : list nat.
Hypothesis Hh : no_holes dofs ndof.

Lemma dof_node d : d < ndof -> exists n i, n < nnode /\ i < el_ndim E /\ d = dof n i.
Proof using Hmd Hh.
  intros Hd. pose proof (Hh d Hd) as Hin. apply in_concat in Hin. destruct Hin as [r [Hr Hdr]]. destruct (md_dofs _ _ _ _ _ _ _ Hmd) as [L S].
  destruct (In_nth _ _ [] Hr) as [n [Hn En]]. destruct (In_nth _ _ 0 Hdr) as [i [Hi Ei]]. exists n, i. rewrite (S r Hr) in Hi. split; [lia|]. split; [exact Hi|].
  unfold idx2, nth2. now rewrite En.
Qed.

Lemma unique C c u1 u2 f1 f2 : valid_call nelem c -> minor_symmetric nelem E C -> no_mechanism v nelem ndof E C iip ->
  nodal dofs nnode (el_ndim E) u1 -> nodal dofs nnode (el_ndim E) u2 ->
  internal_force v E (ddot42 (el_tdim E) C) c c u1 = Ok f1 -> internal_force v E (ddot42 (el_tdim E) C) c c u2 = Ok f2 ->
  (forall n i, n < nnode -> i < el_ndim E -> In (dof n i) iip -> val2 u1 n i = val2 u2 n i) ->
  (forall n i, n < nnode -> i < el_ndim E -> ~ In (dof n i) iip -> val2 f1 n i = val2 f2 n i) ->
  forall n i, n < nnode -> i < el_ndim E -> val2 u1 n i = val2 u2 n i.
Proof.
  intros Hc HC HM [S1 A1] [S2 A2] E1 E2 Hp Hu.
  set (order := list_prod (seq 0 nnode) (seq 0 (el_ndim E))).
  assert (Hor : Permutation order (node_iters v)) by (unfold order; rewrite (node_iters_eq conn dofs nelem _ nnode _ ndof Hmd); reflexivity).
  destruct (AsDofs_values v nelem _ nnode _ ndof eq_refl eq_refl Hmd order u1 Hor S1 A1) as [x1 [Ex1 [L1 [V1 _]]]].
  destruct (AsDofs_values v nelem _ nnode _ ndof eq_refl eq_refl Hmd order u2 Hor S2 A2) as [x2 [Ex2 [L2 [V2 _]]]].
  destruct (K_mv v E nelem nnode ndof eq_refl eq_refl Hmd B Ho c C c c order u1 x1 Hc Hc Hc Hor S1 A1 Ex1) as [g1 [G1 [_ W1]]].
  destruct (K_mv v E nelem nnode ndof eq_refl eq_refl Hmd B Ho c C c c order u2 x2 Hc Hc Hc Hor S2 A2 Ex2) as [g2 [G2 [_ W2]]].
  rewrite (sym_force v E nelem nnode ndof eq_refl eq_refl Hmd B Ho C c c c c u1 HC Hc Hc Hc Hc S1) in E1. rewrite E1 in G1. injection G1 as <-.
  rewrite (sym_force v E nelem nnode ndof eq_refl eq_refl Hmd B Ho C c c c c u2 HC Hc Hc Hc Hc S2) in E2. rewrite E2 in G2. injection G2 as <-.
  set (y := tab1 ndof (fun d => val1 x1 d - val1 x2 d)%R).
  assert (Vy : forall d, d < ndof -> val1 y d = (val1 x1 d - val1 x2 d)%R) by (intros d Hd; unfold val1, y; now apply (tab1_nth 0%R ndof (fun d => val1 x1 d - val1 x2 d)%R)).
  assert (Ly : length y = ndof) by apply tab1_length.
  destruct (AsElement_dofval_spec v nelem _ nnode _ ndof eq_refl eq_refl Hmd y Ly) as [Y [EY _]].
  pose proof (K_shape v E nelem nnode ndof eq_refl eq_refl Hmd B Ho c C) as SK.
  destruct (assemble_spec v nelem _ nnode _ ndof eq_refl eq_refl Hmd (new_Matrix v) _ eq_refl SK) as [K [EK [VK [_ [R1 [C1 H3]]]]]].
  destruct (K_energy v E nelem nnode ndof eq_refl eq_refl Hmd B Ho c c C y Y (new_Matrix v) K Hc Hc eq_refl EK Ly EY) as [b [Eb En]].
  destruct (dot_dofval_spec v nelem _ nnode _ ndof eq_refl eq_refl Hmd K y VK R1 C1 Ly) as [b' [Eb' [_ Hb]]]. rewrite Eb in Eb'. injection Eb' as <-.
  assert (Hy : forall d, In d iip -> val1 y d = 0%R).
  { intros d Hd. destruct (Nat.lt_ge_cases d ndof) as [L|L]; [|unfold val1; apply nth_overflow; lia].
    destruct (dof_node d L) as [n [i [Hn [Hi ->]]]]. rewrite Vy, V1, V2 by assumption. rewrite Hp by assumption. lra. }
  assert (Z : integral nelem E (ddot42 (el_tdim E) C (el_GradN_vector E c (of_rows Y))) (el_GradN_vector E c (of_rows Y)) = 0%R).
  { rewrite <- En. apply sumn_zero. intros d Hd. destruct (in_dec Nat.eq_dec d iip) as [Hin|Hin]; [rewrite (Hy d Hin); ring|].
    destruct (dof_node d Hd) as [n [i [Hn [Hi Ed]]]]. replace (val1 b d) with 0%R; [ring|]. rewrite Hb by assumption.
    pose proof (W1 n i Hn Hi) as Q1. pose proof (W2 n i Hn Hi) as Q2. cbn [m_dofs m_conn] in Q1, Q2. rewrite <- Ed in Q1, Q2. rewrite Hu in Q1 by (try assumption; now rewrite <- Ed). rewrite Q2 in Q1.
    unfold mv in Q1 |- *.
    rewrite (sumn_ext ndof _ (fun k => assembled conn dofs nelem (el_nne E) (el_ndim E) (element_stiffness v E c C) d k * val1 x1 k + -1 * (assembled conn dofs nelem (el_nne E) (el_ndim E) (element_stiffness v E c C) d k * val1 x2 k))%R).
    - rewrite sumn_plus, sumn_scal. cbn [m_conn m_dofs] in Q1. lra.
    - intros k Hk. rewrite Vy by assumption. rewrite H3. cbn [m_conn m_dofs m_nne m_ndim]. ring. }
  pose proof (HM c y Y Hc Ly Hy EY Z) as HH. intros n i Hn Hi. pose proof (V_dof v nelem _ nnode _ ndof eq_refl eq_refl Hmd n i Hn Hi) as Hd. cbn [m_dofs] in Hd.
  specialize (HH _ Hd). rewrite Vy, V1, V2 in HH by assumption. lra.
Qed.
End U.
