(** Bodies on Mesh::Hex8::Regular. *)
From Coq Require Import Reals Lra Lia List Arith Permutation.
From Verif Require Import Model_Element Spec_Element Proof_Element Proof_ElementQuad4 Proof_ElementMath Proof_ElementThm Proof_ElementHex8 Base Spec Spec3d Sums Spec_Vector Spec_Matrix Spec_MatrixOps Model_Vector Proof_Vector Model_Numbering Model_Hex8Regular Model_Regular2d Proof_Regular2d Proof_Hex8Regular
  Model_Sparse Model_Matrix Proof_Matrix Prop_MatrixPartitioned Model_MeshGeometry Model_Pipeline Spec_Pipeline Proof_PipelineElem Proof_Pipeline Proof_PipelineBalance Spec_Patch Proof_Patch Spec_Macro Proof_Macro Proof_PatchRigid Proof_QuadMeshObj Spec_Tyings Spec_Periodic Spec_Spd Spec_HexMesh Proof_HexBox Proof_HexGrid.
Import ListNotations.

(** no energy: every element moves as a rigid body *)
Lemma energy_rigid3 nelem x E C c U : box_obj nelem x E -> strictly_elastic nelem E C -> valid_call nelem c ->
  integral nelem E (ddot42 (el_tdim E) C (el_GradN_vector E c U)) (el_GradN_vector E c U) = 0%R -> forall e, e < nelem -> rigid3 x U e.
Proof.
  intros HE HC Hc HZ. destruct (box_facts _ _ _ HE) as (N8 & _ & _ & Dt & _). pose proof (box_volume _ _ _ HE) as HV. set (G := el_GradN_vector E c U) in *.
  assert (P : forall e q, e < nelem -> q < el_nip E -> (0 <= sumn (el_tdim E) (fun i => sumn (el_tdim E) (fun j => ddot42 (el_tdim E) C G [e;q;i;j] * G [e;q;i;j])) * el_dV E [e;q])%R).
  { intros e q He Hq. apply Rmult_le_pos; [apply (HC G e q He Hq)|]. left. now apply HV. }
  intros e He. apply (box_rigid nelem x E HE c U e Hc He). intros q i j Hq Hi Hj. fold G. rewrite <- N8 in Hq. apply (HC G e q He Hq); try lia. unfold integral in HZ.
  pose proof (sumn_nonneg_zero _ _ (fun e He => sumn_nonneg _ _ (fun q Hq => P e q He Hq)) HZ e He) as Z1. cbv beta in Z1.
  pose proof (sumn_nonneg_zero _ _ (fun q Hq => P e q He Hq) Z1 q Hq) as Z2. cbv beta in Z2. pose proof (HV e q He Hq) as Vp.
  apply (Rmult_eq_reg_r (el_dV E [e;q])); [|lra]. rewrite Rmult_0_l. exact Z2.
Qed.

Section B.
Variable m : HexRegular.
Notation nx := (hx_nelx m). Notation ny := (hx_nely m). Notation nz := (hx_nelz m). Notation h := (hx_h m).
Hypothesis Hh : (0 < h)%R.
Hypothesis X1 : 1 <= nx. Hypothesis Y1 : 1 <= ny. Hypothesis Z1 : 1 <= nz.
Variables (x : arr) (E : Elem).
Hypothesis HB : hex_body m x E.

Lemma body_dims : el_nip E = 8 /\ el_nne E = 8 /\ el_ndim E = 3 /\ el_tdim E = 3.
Proof using Hh HB. destruct (box_facts _ _ _ (hex_box m x E Hh HB)) as (A & B & C & D & _). auto. Qed.
Lemma body_connects : connects (hex_conn m) (hex_nelem m) 8 (hex_nnode m).
Proof.
  split; [apply hex_conn_shape|]. intros e k He Hk. apply (hex_conn_range m (nth e (hex_conn m) [])); [apply nth_In; rewrite (proj1 (hex_conn_shape m)); exact He|].
  unfold idx2, nth2. apply nth_In. rewrite (proj2 (hex_conn_shape m)); [exact Hk|]. apply nth_In. rewrite (proj1 (hex_conn_shape m)). exact He.
Qed.
Lemma body_positive : positive_volume (hex_nelem m) E.
Proof using Hh HB. intros e q He Hq. left. now apply (box_volume _ _ _ (hex_box m x E Hh HB)). Qed.

(** no energy: the whole body moves as one rigid body *)
Lemma body_rigid C c U w : strictly_elastic (hex_nelem m) E C -> valid_call (hex_nelem m) c ->
  (forall e k i, e < hex_nelem m -> k < 8 -> i < 3 -> U [e;k;i] = w (idx2 (hex_conn m) e k) i) ->
  integral (hex_nelem m) E (ddot42 (el_tdim E) C (el_GradN_vector E c U)) (el_GradN_vector E c U) = 0%R ->
  exists t r, forall n i, n < hex_nnode m -> i < 3 -> w n i = rigid_motion t r (val2 (hex_coor m) n) i.
Proof using Hh X1 Y1 Z1 HB.
  intros HC Hc HU HZ. destruct (grid_moves m w Hh) as (t & r & H); try assumption.
  - intros ix iy iz Lx Ly Lz. destruct (energy_rigid3 _ x E C c U (hex_box m x E Hh HB) HC Hc HZ (E3 m ix iy iz) (E3_lt m ix iy iz Lx Ly Lz)) as (t & r & H). exists t, r.
    intros a b c' Ha Hb Hc' i Hi.
    assert (K : exists k, k < 8 /\ off k 0 = a /\ off k 1 = b /\ off k 2 = c').
    { destruct a as [|[|a]], b as [|[|b]], c' as [|[|c']]; try lia; [exists 0|exists 4|exists 3|exists 7|exists 1|exists 5|exists 2|exists 6]; cbn; repeat split; lia. }
    destruct K as (k & Hk & <- & <- & <-). pose proof (H k i Hk Hi) as HR. rewrite HU in HR by (try assumption; now apply E3_lt). rewrite conn_N in HR by assumption. rewrite HR.
    apply rigid_ext; [|exact Hi]. intros l Hl. repeat split. rewrite (body_coordinates m x E HB) by (try assumption; now apply E3_lt). now rewrite conn_N.
  - exists t, r. intros n i Hn Hi. now apply H.
Qed.

(** a rigid motion has no energy *)
Lemma rigid_energy C c U t r : minor_symmetric (hex_nelem m) E C -> valid_call (hex_nelem m) c ->
  (forall e k i, e < hex_nelem m -> k < 8 -> i < 3 -> U [e;k;i] = rigid_motion t r (fun l => x [e;k;l]) i) ->
  integral (hex_nelem m) E (ddot42 (el_tdim E) C (el_GradN_vector E c U)) (el_GradN_vector E c U) = 0%R.
Proof using Hh X1 Y1 Z1 HB.
  intros HC Hc HU. destruct body_dims as (N8 & D8 & D3 & Dt). pose proof (box_affine _ _ _ (hex_box m x E Hh HB)) as HA.
  set (G := fun i j : nat => match i, j with 0, 1 => (- r 2%nat)%R | 0, 2 => r 1 | 1, 0 => r 2 | 1, 2 => (- r 0%nat)%R | 2, 0 => (- r 1%nat)%R | 2, 1 => r 0 | _, _ => 0%R end).
  assert (HG : all_points (hex_nelem m) E (fun e q i j => el_GradN_vector E c U [e;q;i;j] = if ((i <? el_ndim E) && (j <? el_ndim E))%bool then G j i else 0%R)).
  { apply (Proof_Macro.affine_grad _ x E c t G U HA Hc). intros e k i He Hk Hi. rewrite D8 in Hk. rewrite D3 in Hi |- *. rewrite HU by assumption. rewrite sumn3. revert i Hi. apply lt3; unfold G; cbn [rigid_motion]; ring. }
  unfold integral. apply sumn_zero. intros e He. apply sumn_zero. intros q Hq. rewrite (sumn_zero (el_tdim E)); [ring|]. intros i Hi. apply sumn_zero. intros j Hj.
  assert (Z : ddot42 (el_tdim E) C (el_GradN_vector E c U) [e;q;i;j] = 0%R).
  { cbn [ddot42]. rewrite Dt, !sumn3. rewrite !HG by lia. rewrite D3. cbn [Nat.ltb Nat.leb andb]. unfold G.
    pose proof (fun k l => HC e q i j He Hq Hi Hj k l) as S. rewrite (S 1 0), (S 2 0), (S 2 1) by lia. ring. }
  rewrite Z. ring.
Qed.

Section D.
Variables (dofs : list (list nat)) (ndof : nat) (iip : list nat).
Hypothesis Hmd : mesh_dofs (hex_conn m) dofs (hex_nelem m) 8 (hex_nnode m) 3 ndof.
Hypothesis Hho : no_holes dofs ndof.
Notation v := (mkVector (hex_conn m) 8 dofs 3).

Lemma restrained_ok C : strictly_elastic (hex_nelem m) E C -> restrained (hex_coor m) dofs iip (hex_nnode m) -> no_mechanism v (hex_nelem m) ndof E C iip.
Proof using Hh X1 Y1 Z1 HB Hmd Hho.
  intros HC HR c y Y Hc Ly Hy EY HZ.
  destruct (AsElement_dofval_spec v (hex_nelem m) 8 (hex_nnode m) 3 ndof eq_refl eq_refl Hmd y Ly) as [Y' [EY' [_ VY]]]. rewrite EY in EY'. injection EY' as <-. cbn [m_conn m_dofs] in VY.
  destruct (body_rigid C c (of_rows Y) (fun n i => val1 y (idx2 dofs n i)) HC Hc) as (t & r & HM); [intros e k i He Hk Hi; rewrite of_rows_val; now apply VY|exact HZ|].
  assert (A : allowed_motion (hex_coor m) dofs iip (hex_nnode m) t r).
  { split.
    - intros n i n' i' Hn Hi Hn' Hi' Eq. rewrite <- !HM by assumption. now rewrite Eq.
    - intros n i Hn Hi Hin. rewrite <- HM by assumption. now apply Hy. }
  intros d Hd. destruct body_dims as (_ & D8 & D3 & _). destruct (dof_node (hex_conn m) dofs E (hex_nelem m) (hex_nnode m) ndof ltac:(rewrite D8, D3; exact Hmd) Hho d Hd) as [n [i [Hn [Hi ->]]]]. rewrite D3 in Hi.
  rewrite HM by assumption. now apply HR.
Qed.
Lemma restrained_needed C : minor_symmetric (hex_nelem m) E C -> no_mechanism v (hex_nelem m) ndof E C iip -> restrained (hex_coor m) dofs iip (hex_nnode m).
Proof using Hh X1 Y1 Z1 HB Hmd Hho.
  intros HC HN t r [A1 A2]. destruct body_dims as (_ & D8 & D3 & _).
  set (u := tab2 (hex_nnode m) 3 (fun n i => rigid_motion t r (val2 (hex_coor m) n) i)).
  assert (Vu : forall n i, n < hex_nnode m -> i < 3 -> val2 u n i = rigid_motion t r (val2 (hex_coor m) n) i) by (intros n i Hn Hi; unfold u, val2; exact (tab2_nth 0%R (hex_nnode m) 3 (fun n i => rigid_motion t r (val2 (hex_coor m) n) i) n i Hn Hi)).
  assert (Hor : Permutation (list_prod (seq 0 (hex_nnode m)) (seq 0 3)) (node_iters v)) by (rewrite (node_iters_eq _ dofs _ _ _ _ ndof Hmd); reflexivity).
  destruct (AsDofs_values v (hex_nelem m) 8 (hex_nnode m) 3 ndof eq_refl eq_refl Hmd _ u Hor) as [y [_ [Ly [Vy _]]]]; [apply tab2_shape| |].
  { intros n i n' i' Hn Hi Hn' Hi' Eq. rewrite !Vu by assumption. now apply A1. }
  cbn [m_dofs] in Vy.
  destruct (AsElement_dofval_spec v (hex_nelem m) 8 (hex_nnode m) 3 ndof eq_refl eq_refl Hmd y Ly) as [Y [EY [_ VY]]]. cbn [m_conn m_dofs] in VY.
  set (c := mkCall (seq 0 (hex_nelem m)) (fun _ => 0%R)). assert (Hc : valid_call (hex_nelem m) c) by apply Permutation_refl.
  assert (Hy : forall d, In d iip -> val1 y d = 0%R).
  { intros d Hd. destruct (Nat.lt_ge_cases d ndof) as [L|L]; [|unfold val1; apply nth_overflow; lia].
    destruct (dof_node (hex_conn m) dofs E (hex_nelem m) (hex_nnode m) ndof ltac:(rewrite D8, D3; exact Hmd) Hho d L) as [n [i [Hn [Hi ->]]]]. rewrite D3 in Hi. rewrite Vy, Vu by assumption. now apply A2. }
  assert (HZ : integral (hex_nelem m) E (ddot42 (el_tdim E) C (el_GradN_vector E c (of_rows Y))) (el_GradN_vector E c (of_rows Y)) = 0%R).
  { apply (rigid_energy C c (of_rows Y) t r HC Hc). intros e k i He Hk Hi. pose proof (proj2 body_connects e k He Hk) as L. rewrite of_rows_val, VY, Vy, Vu by assumption.
    apply rigid_ext; [|exact Hi]. intros l Hl. repeat split. symmetry. now apply (body_coordinates m x E HB). }
  intros n i Hn Hi. rewrite <- Vu, <- Vy by assumption. apply (HN c y Y Hc Ly Hy EY HZ). exact (V_dof v (hex_nelem m) 8 (hex_nnode m) 3 ndof eq_refl eq_refl Hmd n i Hn Hi).
Qed.
End D.

(** ** nodes on the faces *)
Lemma face_iff ix iy iz : ix <= nx -> iy <= ny -> iz <= nz -> (face_node m (N3 m ix iy iz) <-> ix = 0 \/ ix = nx \/ iy = 0 \/ iy = ny \/ iz = 0 \/ iz = nz).
Proof using Hh.
  intros Lx Ly Lz. pose proof (hex_faces m Hh) as F. cbv zeta in F. apply Forall_inv in F as F1. apply Forall_inv_tail in F. apply Forall_inv in F as F2. apply Forall_inv_tail in F. apply Forall_inv in F as F3. apply Forall_inv_tail in F.
  apply Forall_inv in F as F4. apply Forall_inv_tail in F. apply Forall_inv in F as F5. apply Forall_inv_tail in F. apply Forall_inv in F as F6. cbn [fst snd] in *.
  pose proof (hex_coor_at m ix iy iz Lx Ly Lz) as P.
  assert (Q : forall l (pr : R -> R -> R -> Prop), lists_nodes3 (hex_coor m) l pr -> (In (N3 m ix iy iz) l <-> pr (h * INR ix)%R (h * INR iy)%R (h * INR iz)%R)).
  { intros l pr [_ HL]. rewrite HL. split; [|intros; eauto]. intros (a & b & c & Hn & Hp). destruct (node_at3_fun _ _ _ _ _ _ _ _ P Hn) as (-> & -> & ->). exact Hp. }
  unfold face_node. rewrite (Q _ _ F1), (Q _ _ F2), (Q _ _ F3), (Q _ _ F4), (Q _ _ F5), (Q _ _ F6). rewrite <- !(cx_0 m) by exact Hh. rewrite <- !(cx_eq m) by exact Hh. tauto.
Qed.

(** values that vanish on the faces have no steps between them *)
Lemma faces_zero i f : (forall ix iy iz, ix <= nx -> iy <= ny -> iz <= nz -> (ix = 0 \/ ix = nx \/ iy = 0 \/ iy = ny \/ iz = 0 \/ iz = nz) -> f ix iy iz = 0%R) -> i < 3 -> faces m i f = 0%R.
Proof.
  intros H. revert i. apply lt3; unfold faces; apply sumn_zero; intros a Ha; apply sumn_zero; intros b Hb; rewrite !H by lia; ring.
Qed.
Lemma faces_ext i f g : (forall ix iy iz, ix <= nx -> iy <= ny -> iz <= nz -> (ix = 0 \/ ix = nx \/ iy = 0 \/ iy = ny \/ iz = 0 \/ iz = nz) -> f ix iy iz = g ix iy iz) -> i < 3 -> faces m i f = faces m i g.
Proof.
  intros H. revert i. apply lt3; unfold faces; apply sumn_ext; intros a Ha; apply sumn_ext; intros b Hb; rewrite !H by lia; reflexivity.
Qed.

(** ** periodic displacements *)
Definition wrap (n i : nat) : nat := if i =? n then 0 else i.
Lemma ties_wrap u F : (forall a b j, In (a, b) (hex_nodesPeriodic m) -> j < 3 -> val2 u b j = (val2 u a j + sumn 3 (fun k => F j k * (val2 (hex_coor m) b k - val2 (hex_coor m) a k)))%R) ->
  forall ix iy iz j, ix <= nx -> iy <= ny -> iz <= nz -> j < 3 ->
  val2 u (N3 m ix iy iz) j = (val2 u (N3 m (wrap nx ix) (wrap ny iy) (wrap nz iz)) j +
    (F j 0%nat * (h * INR ix - h * INR (wrap nx ix)) + F j 1%nat * (h * INR iy - h * INR (wrap ny iy)) + F j 2%nat * (h * INR iz - h * INR (wrap nz iz))))%R.
Proof using X1 Y1 Z1.
  intros H ix iy iz j Lx Ly Lz Hj.
  destruct (Nat.eq_dec ix nx) as [Ex|Nx]; [|destruct (Nat.eq_dec iy ny) as [Ey|Ny]; [|destruct (Nat.eq_dec iz nz) as [Ez|Nz]]].
  4:{ unfold wrap. rewrite !(proj2 (Nat.eqb_neq _ _)) by assumption. ring. }
  all: assert (Hin : In (N3 m ix iy iz) (map snd (hex_nodesPeriodic m))) by (apply hex_ties_bwd; auto);
    apply in_map_iff in Hin; destruct Hin as [[a b] [Eb Hin]]; cbn [snd] in Eb; pose proof (hex_ties_fwd m X1 Y1 Z1 a b Hin) as (kx & ky & kz & jx & jy & jz & Ea & Eb' & K1 & K2 & K3 & J1 & J2 & J3 & _ & Wx & Wy & Wz);
    rewrite Eb in Eb'; apply N3_inj in Eb'; try assumption; destruct Eb' as (<- & <- & <-);
    (assert (kx = wrap nx ix) as -> by (unfold wrap; destruct (Nat.eqb_spec ix nx); lia)); (assert (ky = wrap ny iy) as -> by (unfold wrap; destruct (Nat.eqb_spec iy ny); lia)); (assert (kz = wrap nz iz) as -> by (unfold wrap; destruct (Nat.eqb_spec iz nz); lia));
    rewrite <- Ea; rewrite <- Eb at 1; rewrite (H a b j Hin Hj), Ea, Eb, sumn3; rewrite !coor_N by lia; cbn [P3]; ring.
Qed.

Lemma faces_periodic u F j i : (forall a b j, In (a, b) (hex_nodesPeriodic m) -> j < 3 -> val2 u b j = (val2 u a j + sumn 3 (fun k => F j k * (val2 (hex_coor m) b k - val2 (hex_coor m) a k)))%R) ->
  i < 3 -> j < 3 -> (h * h / 4 * faces m i (fun ix iy iz => val2 u (N3 m ix iy iz) j) = F j i * (h * INR nx * (h * INR ny) * (h * INR nz)))%R.
Proof using X1 Y1 Z1.
  intros H Hi Hj. pose proof (ties_wrap u F H) as W.
  assert (W0 : forall n, 1 <= n -> wrap n n = 0 /\ wrap n 0 = 0) by (intros n Hn; unfold wrap; rewrite Nat.eqb_refl; destruct (0 =? n); auto).
  destruct (W0 nx X1) as [Wx Wx0]. destruct (W0 ny Y1) as [Wy Wy0]. destruct (W0 nz Z1) as [Wz Wz0].
  assert (Sx : forall iy iz, iy <= ny -> iz <= nz -> (val2 u (N3 m nx iy iz) j - val2 u (N3 m 0%nat iy iz) j = F j 0%nat * (h * INR nx))%R).
  { intros iy iz Ly Lz. rewrite (W nx iy iz j), (W 0 iy iz j) by lia. rewrite Wx, Wx0. cbn [INR]. ring. }
  assert (Sy : forall ix iz, ix <= nx -> iz <= nz -> (val2 u (N3 m ix ny iz) j - val2 u (N3 m ix 0%nat iz) j = F j 1%nat * (h * INR ny))%R).
  { intros ix iz Lx Lz. rewrite (W ix ny iz j), (W ix 0 iz j) by lia. rewrite Wy, Wy0. cbn [INR]. ring. }
  assert (Sz : forall ix iy, ix <= nx -> iy <= ny -> (val2 u (N3 m ix iy nz) j - val2 u (N3 m ix iy 0%nat) j = F j 2%nat * (h * INR nz))%R).
  { intros ix iy Lx Ly. rewrite (W ix iy nz j), (W ix iy 0 j) by lia. rewrite Wz, Wz0. cbn [INR]. ring. }
  assert (C2 : forall a b k f, (forall i j, i < a -> j < b -> f i j = k) -> sumn a (fun i => sumn b (f i)) = (INR a * INR b * k)%R).
  { intros a b k f Hf. rewrite (sumn_ext a _ (fun _ => INR b * k)%R).
    - unfold sumn at 1. rewrite sumL_const, seq_length. ring.
    - intros i' Hi'. rewrite (sumn_ext b _ (fun _ => k)) by (intros; now apply Hf). unfold sumn. now rewrite sumL_const, seq_length. }
  revert i Hi. apply lt3; unfold faces.
  - rewrite (C2 nz ny (4 * (F j 0%nat * (h * INR nx)))%R); [field|]. intros iz iy Lz Ly. rewrite !Sx by lia. ring.
  - rewrite (C2 nz nx (4 * (F j 1%nat * (h * INR ny)))%R); [field|]. intros iz ix Lz Lx. rewrite !Sy by lia. ring.
  - rewrite (C2 ny nx (4 * (F j 2%nat * (h * INR nz)))%R); [field|]. intros iy ix Ly Lx. rewrite !Sz by lia. ring.
Qed.
End B.
