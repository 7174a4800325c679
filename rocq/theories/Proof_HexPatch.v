(** The patch test on Mesh::Hex8::Regular, and periodic cells of it without mechanism. *)
From Coq Require Import Reals Lra Lia List Arith Permutation.
From Verif Require Import Model_Element Spec_Element Proof_Element Proof_ElementQuad4 Proof_ElementMath Proof_ElementThm Proof_ElementHex8 Base Spec Spec3d Sums Spec_Vector Spec_Matrix Spec_MatrixOps Model_Vector Proof_Vector Model_Numbering Model_Hex8Regular Model_Regular2d Proof_Regular2d Proof_Hex8Regular
  Model_Sparse Model_Matrix Proof_Matrix Prop_MatrixPartitioned Model_MeshGeometry Model_Pipeline Spec_Pipeline Proof_PipelineElem Proof_Pipeline Proof_PipelineBalance Spec_Patch Proof_Patch Spec_Macro Proof_Macro Proof_PatchRigid Proof_QuadMeshObj Spec_Tyings Spec_Periodic Spec_Spd Spec_HexMesh Proof_HexBox Proof_HexGrid Proof_HexBody.
Import ListNotations.

Section B.
Variable m : HexRegular.
Notation nx := (hx_nelx m). Notation ny := (hx_nely m). Notation nz := (hx_nelz m). Notation h := (hx_h m).
Hypothesis Hh : (0 < h)%R.
Hypothesis X1 : 1 <= nx. Hypothesis Y1 : 1 <= ny. Hypothesis Z1 : 1 <= nz.
Variables (x : arr) (E : Elem).
Hypothesis HB : hex_body m x E.
Set Default Proof Using "All".

Lemma body_elem : elem_obj (hex_nelem m) x E.
Proof. apply affine_elem, (box_affine _ _ _ (hex_box m x E Hh HB)). Qed.

(** the work of a uniform tensor on a nodal displacement that is zero on the faces *)
Lemma uniform_work c sig S u ue : valid_call (hex_nelem m) c -> uniform (hex_nelem m) E sig S ->
  (forall e k i, e < hex_nelem m -> k < 8 -> i < 3 -> ue [e;k;i] = val2 u (idx2 (hex_conn m) e k) i) ->
  (forall n j, face_node m n -> j < 3 -> val2 u n j = 0%R) ->
  integral (hex_nelem m) E sig (el_GradN_vector E c ue) = 0%R.
Proof.
  intros Hc HS HU HF. destruct (body_dims m Hh x E HB) as (N8 & D8 & D3 & Dt).
  transitivity (sumn 3 (fun i => sumn 3 (fun j => S i j * total (hex_nelem m) E (el_GradN_vector E c ue) i j))%R).
  - unfold integral, total. rewrite Dt.
    rewrite (sumn_ext 3 (fun i => sumn 3 _) (fun i => sumn (hex_nelem m) (fun e => sumn (el_nip E) (fun q => sumn 3 (fun j => S i j * (el_GradN_vector E c ue [e;q;i;j] * el_dV E [e;q])))))%R).
    + symmetry. rewrite sumn_swap. apply sumn_ext. intros e He. rewrite sumn_swap. apply sumn_ext. intros q Hq. rewrite <- sumn_scal_r. apply sumn_ext. intros i Hi. rewrite <- sumn_scal_r. apply sumn_ext. intros j Hj.
      rewrite (HS e q i j He Hq) by lia. ring.
    + intros i Hi. transitivity (sumn 3 (fun j => sumn (hex_nelem m) (fun e => sumn (el_nip E) (fun q => S i j * (el_GradN_vector E c ue [e;q;i;j] * el_dV E [e;q])))))%R.
      * apply sumn_ext. intros j Hj. rewrite <- sumn_scal. apply sumn_ext. intros e He. rewrite <- sumn_scal. reflexivity.
      * rewrite sumn_swap. apply sumn_ext. intros e He. apply sumn_swap.
  - apply sumn_zero. intros i Hi. apply sumn_zero. intros j Hj. rewrite (hex_total m x E c u ue i j Hh HB Hc HU Hi Hj).
    rewrite (faces_zero m X1 Y1 Z1 i); [ring| |exact Hi]. intros ix iy iz Lx Ly Lz HF'. apply HF; [|exact Hj]. now apply (face_iff m Hh ix iy iz Lx Ly Lz).
Qed.

Section D.
Variables (dofs : list (list nat)) (ndof : nat).
Hypothesis Hmd : mesh_dofs (hex_conn m) dofs (hex_nelem m) 8 (hex_nnode m) 3 ndof.
Notation v := (mkVector (hex_conn m) 8 dofs 3).

Lemma affine_force3 law c1 c2 a G u : valid_call (hex_nelem m) c1 -> valid_call (hex_nelem m) c2 -> homogeneous (hex_nelem m) E law -> affine_field3 (hex_nnode m) (hex_coor m) a G u ->
  exists f, internal_force v E law c1 c2 u = Ok f /\ Spec.shape2 f (hex_nnode m) 3 /\
    forall n j, n < hex_nnode m -> j < 3 -> ~ face_node m n -> own_dofs dofs (hex_nnode m) 3 n -> val2 f n j = 0%R.
Proof.
  intros H1 H2 HL [Su Hu]. destruct (body_dims m Hh x E HB) as (N8 & D8 & D3 & Dt). destruct (elem_obj_raw _ _ _ body_elem) as [B Ho].
  assert (Hmd' : mesh_dofs (hex_conn m) dofs (hex_nelem m) (el_nne E) (hex_nnode m) (el_ndim E) ndof) by (now rewrite D8, D3).
  assert (Su' : Spec.shape2 u (hex_nnode m) (el_ndim E)) by now rewrite D3.
  assert (Ev : v = mkVector (hex_conn m) (el_nne E) dofs (el_ndim E)) by now rewrite D8, D3. rewrite Ev. clear Ev.
  destruct (force_spec (mkVector (hex_conn m) (el_nne E) dofs (el_ndim E)) E (hex_nelem m) (hex_nnode m) ndof eq_refl eq_refl Hmd' B Ho el_SymGradN_vector law c1 c2 u Su') as [ue [f [Eu [Ef [Sf [Vf _]]]]]].
  destruct (AsElement_nodevec_spec (mkVector (hex_conn m) (el_nne E) dofs (el_ndim E)) (hex_nelem m) (el_nne E) (hex_nnode m) (el_ndim E) ndof eq_refl eq_refl Hmd' u Su') as [ue' [Eu' [_ Vu]]]. rewrite Eu in Eu'. injection Eu' as <-.
  cbn [m_conn m_dofs] in Vf, Vu. exists f. split; [exact Ef|]. split; [rewrite <- D3; exact Sf|]. intros n j Hn Hj HF HO.
  assert (HG : all_points (hex_nelem m) E (fun e q i j => el_GradN_vector E c1 (of_rows ue) [e;q;i;j] = if ((i <? el_ndim E) && (j <? el_ndim E))%bool then G j i else 0%R)).
  { apply (Proof_Macro.affine_grad _ x E c1 a G (of_rows ue) (box_affine _ _ _ (hex_box m x E Hh HB)) H1). intros e k i He Hk Hi. pose proof Hk as Hk'. rewrite D8 in Hk'. pose proof Hi as Hi'. rewrite D3 in Hi'.
    pose proof (proj2 (body_connects m) e k He Hk') as L. rewrite of_rows_val, Vu, Hu by assumption. rewrite D3. f_equal. apply sumn_ext. intros l Hl. now rewrite (body_coordinates m x E HB). }
  destruct (HL (el_SymGradN_vector E c1 (of_rows ue)) (fun i j => ((G j i + G i j) / 2)%R)) as [S HS].
  { intros e q i j' He Hq Hi Hj'. rewrite (r_sym _ _ _ Ho) by assumption. rewrite !HG by assumption. rewrite Dt in Hi, Hj'. rewrite D3.
    rewrite !(proj2 (Nat.ltb_lt _ _)) by assumption. cbn [andb]. lra. }
  set (w := tab2 (hex_nnode m) 3 (fun k i => ind ((k =? n) && (i =? j))%bool)).
  assert (Vw : forall k i, k < hex_nnode m -> i < 3 -> val2 w k i = ind ((k =? n) && (i =? j))%bool) by (intros k i Hk Hi; unfold w, val2; exact (tab2_nth 0%R (hex_nnode m) 3 (fun k i => ind ((k =? n) && (i =? j))%bool) k i Hk Hi)).
  set (W := fun k : list nat => match k with [e;l;i] => val2 w (idx2 (hex_conn m) e l) i | _ => 0%R end).
  rewrite Vf by (rewrite ?D3; assumption).
  rewrite <- (uniform_work c1 (law (el_SymGradN_vector E c1 (of_rows ue))) S w W H1 HS); [|reflexivity|].
  - unfold sum_elem, integral. apply sumn_ext. intros e He. rewrite <- (o_vw (hex_nelem m) E B Ho c2 c1 (law (el_SymGradN_vector E c1 (of_rows ue))) W e H2 H1 He).
    rewrite D8, D3. apply sumn_ext. intros k Hk. apply sumn_ext. intros i Hi. pose proof (proj2 (body_connects m) e k He Hk) as L. rewrite Rmult_comm. f_equal. unfold W. rewrite Vw by assumption. f_equal.
    destruct (Nat.eqb_spec (idx2 dofs (idx2 (hex_conn m) e k) i) (idx2 dofs n j)) as [K|K].
    + destruct (HO j _ i Hj L Hi K) as [K1 K2]. rewrite K1, K2. now rewrite !Nat.eqb_refl.
    + destruct (Nat.eqb_spec (idx2 (hex_conn m) e k) n) as [K1|]; [|reflexivity]. destruct (Nat.eqb_spec i j) as [K2|]; [rewrite K1, K2 in K; now elim K|reflexivity].
  - intros k i Hk Hi. destruct (Nat.lt_ge_cases k (hex_nnode m)) as [L|L]; [|unfold val2, nth2; rewrite (nth_overflow w) by (unfold w; rewrite (proj1 (tab2_shape (hex_nnode m) 3 _)); exact L); now destruct i].
    rewrite Vw by assumption. destruct (Nat.eqb_spec k n) as [->|]; [now elim HF|reflexivity].
Qed.
End D.

(** a fixed node and the periodicity: no mechanism *)
Lemma stable3 C o : strictly_elastic (hex_nelem m) E C -> o < hex_nnode m -> no_periodic_mechanism (hex_coor m) (hex_nodesPeriodic m) [o] (hex_nnode m) (hex_nelem m) (hex_conn m) E C.
Proof.
  intros HC Ho c w U Hc [[Sw HT] HP] HU HZ. destruct (body_dims m Hh x E HB) as (N8 & D8 & D3 & Dt). rewrite D3, D8 in *.
  destruct (body_rigid m Hh X1 Y1 Z1 x E HB C c U (val2 w) HC Hc HU HZ) as (t & r & HR).
  assert (W : forall k l, k < 3 -> l < 3 -> val2 w (hex_nnode m + k) l = 0%R) by (intros k l Hk Hl; apply HP; [lia|exact Hl|right; lia]).
  pose proof (ties_wrap m X1 Y1 Z1 w (fun j k => 0%R)) as T.
  assert (T0 : forall ix iy iz j, ix <= nx -> iy <= ny -> iz <= nz -> j < 3 -> val2 w (N3 m ix iy iz) j = val2 w (N3 m (wrap nx ix) (wrap ny iy) (wrap nz iz)) j).
  { intros ix iy iz j Lx Ly Lz Hj. rewrite (T ltac:(intros a b j' Hab Hj'; rewrite (HT a b j' Hab Hj'); f_equal; apply sumn_ext; intros k Hk; rewrite W by assumption; reflexivity) ix iy iz j Lx Ly Lz Hj). ring. }
  assert (W0 : forall n, 1 <= n -> wrap n n = 0 /\ wrap n 0 = 0) by (intros n Hn; unfold wrap; rewrite Nat.eqb_refl; destruct (0 =? n); auto).
  destruct (W0 nx X1) as [Wx Wx0]. destruct (W0 ny Y1) as [Wy Wy0]. destruct (W0 nz Z1) as [Wz Wz0].
  assert (NL : forall ix iy iz, ix <= nx -> iy <= ny -> iz <= nz -> N3 m ix iy iz < hex_nnode m) by (intros; now apply N3_lt).
  assert (Px : (0 < INR nx)%R) by (apply lt_0_INR; lia). assert (Py : (0 < INR ny)%R) by (apply lt_0_INR; lia).
  assert (Qx : forall j, j < 3 -> rigid_motion t r (val2 (hex_coor m) (N3 m nx 0 0)) j = rigid_motion t r (val2 (hex_coor m) (N3 m 0 0 0)) j).
  { intros j Hj. rewrite <- !HR by (try assumption; apply NL; lia). rewrite (T0 nx 0 0) by lia. now rewrite Wx, Wy0, Wz0. }
  assert (Qy : forall j, j < 3 -> rigid_motion t r (val2 (hex_coor m) (N3 m 0 ny 0)) j = rigid_motion t r (val2 (hex_coor m) (N3 m 0 0 0)) j).
  { intros j Hj. rewrite <- !HR by (try assumption; apply NL; lia). rewrite (T0 0 ny 0) by lia. now rewrite Wx0, Wy, Wz0. }
  assert (R : forall i, i < 3 -> r i = 0%R).
  { pose proof (Qx 1 ltac:(lia)) as A1. pose proof (Qx 2 ltac:(lia)) as A2. pose proof (Qy 2 ltac:(lia)) as A3. cbn [rigid_motion] in A1, A2, A3. rewrite !coor_N in A1, A2, A3 by lia. cbn [P3 INR] in A1, A2, A3.
    assert (Hx : (0 < h * INR nx)%R) by (now apply Rmult_lt_0_compat). assert (Hy : (0 < h * INR ny)%R) by (now apply Rmult_lt_0_compat).
    apply lt3; [apply (Rmult_eq_reg_r (h * INR ny)); [|lra]|apply (Rmult_eq_reg_r (h * INR nx)); [|lra]|apply (Rmult_eq_reg_r (h * INR nx)); [|lra]]; lra. }
  assert (M : forall n i, n < hex_nnode m -> i < 3 -> val2 w n i = t i).
  { intros n i Hn Hi. rewrite HR by assumption. revert i Hi. apply lt3; cbn [rigid_motion]; rewrite !R by lia; ring. }
  intros n i Hn Hi. rewrite M, <- (M o i) by assumption. apply HP; [lia|exact Hi|left; now left].
Qed.
End B.
