(** Concrete cases for C106. *)
From Coq Require Import Reals Lra Lia.
From Verif Require Import Model_Element Spec_Element Proof_Element Proof_ElementQuad4 Proof_ElementMath Base Spec Sums Spec_Vector Spec_Matrix Spec_MatrixOps Spec_Tyings Model_Numbering Model_Vector Proof_Vector Model_VectorPartitioned Model_Sparse Model_Tyings
  Model_Matrix Model_MatrixPartitioned Proof_MatrixPartitioned Model_MatrixTyings Spec_MatrixTyings Model_MeshGeometry Model_Regular2d Proof_Regular2d Model_Pipeline Spec_Pipeline Spec_Patch Proof_PipelineElem Proof_Pipeline Proof_PipelineBalance
  Proof_PipelineEx Prop_Pipeline Proof_PatchRegular Prop_Patch Prop_PatchEx Model_PeriodicProgram Spec_Periodic Prop_Periodic Spec_Macro Prop_Macro Spec_Spd Model_Ldlt Proof_Ldlt Prop_Spd Proof_Spd Proof_Linked Prop_SpdEx Prop_PeriodicMesh
  Spec_Deform Proof_Deform Model_FiniteStrain Spec_FiniteStrain Proof_FiniteStrain Prop_FiniteStrain.

Lemma Isym_elasticP nelem P : strictly_elastic nelem (Planar_elem P) Isym.
Proof.
  intros A e q He Hq energy.
  set (a := A [e;q;0;0]). set (b := A [e;q;1;1]). set (c := A [e;q;2;2]). set (d := (A [e;q;0;1]%nat + A [e;q;1;0]%nat)%R). set (f := (A [e;q;0;2]%nat + A [e;q;2;0]%nat)%R). set (g := (A [e;q;1;2]%nat + A [e;q;2;1]%nat)%R).
  assert (Ee : energy = (a * a + b * b + c * c + d * d / 2 + f * f / 2 + g * g / 2)%R).
  { unfold energy. cbn [Planar_elem el_tdim]. unfold sumn, sumL, ddot42, sumn, sumL. cbn [seq fold_right]. unfold Isym, ind. cbn [Nat.eqb andb]. unfold a, b, c, d, f, g. field. }
  rewrite Ee. clear Ee energy.
  pose proof (Rle_0_sqr a) as Ha. pose proof (Rle_0_sqr b) as Hb. pose proof (Rle_0_sqr c) as Hc. pose proof (Rle_0_sqr d) as Hd. pose proof (Rle_0_sqr f) as Hf. pose proof (Rle_0_sqr g) as Hg. unfold Rsqr in *. split; [lra|]. intros Z.
  assert (a = 0)%R by (apply Rsqr_0_uniq; unfold Rsqr; lra). assert (b = 0)%R by (apply Rsqr_0_uniq; unfold Rsqr; lra). assert (c = 0)%R by (apply Rsqr_0_uniq; unfold Rsqr; lra).
  assert (d = 0)%R by (apply Rsqr_0_uniq; unfold Rsqr; lra). assert (f = 0)%R by (apply Rsqr_0_uniq; unfold Rsqr; lra). assert (g = 0)%R by (apply Rsqr_0_uniq; unfold Rsqr; lra).
  unfold a, b, c, d, f, g in *. intros i j Hi Hj. cbn in Hi, Hj. destruct i as [|[|[|i]]]; try lia; destruct j as [|[|[|j]]]; try lia; lra.
Qed.

Definition g_P (m : Regular) : Planar := Planar_new (seq 0 (nelem m)) (nelem m) (g_x m) 4 (Gauss4_xi junk) (Gauss4_w junk) 1%R junk junk junk junk junk.
Lemma g_P_obj m : Planar_obj (nelem m) 4 (Gauss4_xi junk) (Gauss4_w junk) 1%R (g_x m) (g_P m).
Proof. apply Planar_obj_new. apply Permutation_refl. Qed.
Lemma g_on m : on_mesh (conn m) (nelem m) (coor m) (g_x m).
Proof. intros e k i He Hk Hi. reflexivity. Qed.
Lemma g_P_vol m : (0 < hh m)%R -> forall e q, e < nelem m -> q < 4 -> jac2 (nodes (g_x m) e) (point (Gauss4_xi junk) q) <> 0%R /\ (0 < q_vol (p_base (g_P m)) [e;q])%R.
Proof.
  intros Hh e q He Hq. assert (P : (0 < hh m * hh m)%R) by (apply Rmult_lt_0_compat; assumption).
  rewrite (f_vol (proj2 (Planar_facts _ _ _ _ _ _ _ (g_P_obj m)))) by assumption. rewrite (regular_jac m (g_x m) e _ (g_on m) He). split; [lra|].
  assert (W : Gauss4_w junk [q] = 1%R) by (revert q Hq; apply lt4; unfold Gauss4_w; blk; reflexivity). rewrite W. lra.
Qed.
Lemma g_P_full m : (0 < hh m)%R -> full_obj (nelem m) (g_x m) (Planar_elem (g_P m)) /\ positive_volume (nelem m) (Planar_elem (g_P m)).
Proof.
  intros Hh. split.
  - exact (full_Planar _ 4 _ _ 1%R _ _ (g_P_obj m) (line_Gauss junk) (g_P_vol m Hh)).
  - intros e q He Hq. change (el_nip (Planar_elem (g_P m))) with 4 in Hq. left. now apply (g_P_vol m Hh).
Qed.

(** C106_run: any regular mesh, one iteration from the undeformed cell, with the LDL^T solver and a prescribed macroscopic shear *)
Example C106_ex : forall m, 1 <= nelx m -> 1 <= nely m -> (0 < hh m)%R ->
  let zero := repeat [0; 0]%R (nnode m + 2) in
  forall shear, shape2 shear (nnode m + 2) 2 ->
  exists ps st', periodic_setup (coor m) (nnode m) 2 (dofs (nnode m) 2) (conn m) 4 (nodesPeriodic m) [nodesBottomLeftCorner m] = Ok ps /\
    foldM (finite_newton ldlt (vt_v (ps_vector ps)) (ps_coor ps) (Planar_elem (g_P m))) [mkFI (mkIteration (g_mem m) (ddot42 3 Isym) Isym zero shear) (seq 0 (nelem m)) junk]
      (mkFS zero (g_P m) (ps_K ps) new_Solver) = Ok st' /\
    periodic_disp (coor m) (nodesPeriodic m) (nnode m) 2 (fs_disp st') /\
    (forall n i, n < nnode m + 2 -> i < 2 -> prescribed_node [nodesBottomLeftCorner m] (nnode m) n -> val2 (fs_disp st') n i = val2 shear n i) /\
    exists x', current (conn m) (nelem m) 4 2 (coor m) (fs_disp st') x' /\ Planar_obj (nelem m) 4 (Gauss4_xi junk) (Gauss4_w junk) 1%R x' (fs_elem st').
Proof.
  intros m Hx Hy Hh zero shear Ss.
  destruct (C88_quad4 m Hx Hy Hh) as [o [Eo [HCell Hcn]]]. unfold Model_Aliases.origin2, Model_Aliases.quad_corner in Eo.
  assert (o = nodesBottomLeftCorner m) as -> by (cbn in Eo; now injection Eo).
  assert (Lo : nodesBottomLeftCorner m < nnode m) by (unfold nodesBottomLeftCorner, nnode; nia).
  destruct (C88_setup (coor m) (dofs (nnode m) 2) (nodesPeriodic m) [nodesBottomLeftCorner m] (nnode m) 2 (conn m) 4 HCell) as [ps [Eps _]].
  destruct (C106_start _ _ _ _ _ _ _ HCell Hcn ps Eps) as [_ [_ [_ [_ Hd0]]]]. fold zero in Hd0.
  destruct (g_P_full m Hh) as [HF HV]. set (E := Planar_elem (g_P m)) in *.
  assert (HE : elem_obj (nelem m) (g_x m) E) by (econstructor; apply g_P_obj).
  assert (HN : no_periodic_mechanism (coor m) (nodesPeriodic m) [nodesBottomLeftCorner m] (nnode m) (nelem m) (conn m) E Isym).
  { apply (C90_periodic_stable _ _ _ _ _ _ (g_x m) E Isym HF (g_on m) (Isym_elasticP _ _) (regular_linked m Hh) (regular_covered m Hx Hy)).
    - exists (nodesBottomLeftCorner m). split; [now left|exact Lo].
    - exists (nodesBottomLeftCorner m), (nodesBottomRightCorner m), 0. split; [now left|]. split; [exact Lo|]. split; [unfold nodesBottomRightCorner, nnode; nia|]. split; [lia|].
      unfold nodesBottomLeftCorner, nodesBottomRightCorner, val2, nth2. erewrite (nth_error_nth (coor m)) by exact (coor_at m 0 0 ltac:(lia) ltac:(lia)).
      erewrite (nth_error_nth (coor m) (nelx m)) by exact (coor_at m (nelx m) 0 ltac:(lia) ltac:(lia)). cbn [nth INR]. intros Z.
      assert (0 < hh m * INR (nelx m))%R by (apply Rmult_lt_0_compat; [exact Hh|apply lt_0_INR; lia]). lra. }
  assert (V : valid_call (nelem m) (g_c m)) by apply Permutation_refl.
  set (fi := mkFI (mkIteration (g_mem m) (ddot42 3 Isym) Isym zero shear) (seq 0 (nelem m)) junk).
  assert (Z : forall k i, val2 zero k i = 0%R).
  { intros k i. unfold val2, nth2, zero. destruct (le_lt_dec (nnode m + 2) k) as [L|L].
    - rewrite (nth_overflow (repeat _ _)) by (rewrite repeat_length; lia). now destruct i.
    - rewrite nth_indep with (d' := [0; 0]%R) by (rewrite repeat_length; lia). rewrite nth_repeat. destruct i as [|[|[|i]]]; reflexivity. }
  destruct (C106_run _ _ _ _ _ _ _ HCell Hcn ps Eps ldlt [] (ps_K ps) new_Solver (Forall_nil _) eq_refl 4 _ _ 1%R _ _ (g_P_obj m) zero (g_x m) (g_P m) Hd0) with (its := [fi]) as [st' [E1 [E2 [E3 E4]]]].
  - intros e k i He Hk Hi. rewrite Z. cbn [g_x]. ring.
  - apply g_P_obj.
  - constructor; [|constructor]. split; [repeat (split; [exact V|]); apply Permutation_refl|]. split; [exact (proj1 Hd0)|]. split; [exact Ss|apply Permutation_refl].
  - split; [|exact (fun _ _ => I)]. apply spd_solver_matrix; [exact C90_ldlt|]. cbn [fs_elem fi fi_it it_mem it_C].
    apply (C90_periodic_spd (coor m) (dofs (nnode m) 2) (nodesPeriodic m) [nodesBottomLeftCorner m] (nnode m) (nelem m) (conn m) (g_x m) E HE HCell Hcn ps Eps); try assumption.
    + apply Isym_major.
    + apply elastic_positive, Isym_elasticP.
  - exists ps, st'. split; [exact Eps|]. split; [exact E1|]. split; [exact E2|]. split; [|exact E4].
    intros n i Hn Hi Hp. rewrite (E3 n i Hn Hi Hp), Z. unfold sumL. cbn [map fold_right fi fi_it it_du]. ring.
Qed.

(** C106_stress: one element in simple shear (u_0 = gamma X_1).  There are no unknown DOFs: all displacements follow from the control nodes *)
Lemma unit_coor h : (0 < h)%R -> forall k i, k < 4 -> i < 2 -> val2 (coor (mkRegular 1 1 h)) k i = nth2 0%R [[0; 0]; [h; 0]; [0; h]; [h; h]]%R k i.
Proof.
  intros Hh k i Hk Hi. set (m := mkRegular 1 1 h).
  assert (A : forall ix iy, ix <= 1 -> iy <= 1 -> nth (iy * 2 + ix) (coor m) [] = [h * INR ix; h * INR iy]%R) by (intros ix iy Hx Hy; apply nth_error_nth; exact (coor_at m ix iy Hx Hy)).
  unfold val2, nth2. assert (Ek : exists ix iy, ix <= 1 /\ iy <= 1 /\ k = iy * 2 + ix) by (exists (k mod 2), (k / 2); pose proof (Nat.div_mod k 2); pose proof (Nat.mod_upper_bound k 2); lia).
  destruct Ek as [ix [iy [Hx [Hy ->]]]]. rewrite A by assumption. clear A Hk. destruct ix as [|[|ix]]; try lia; destruct iy as [|[|iy]]; try lia; cbn [Nat.mul Nat.add nth]; destruct i as [|[|i]]; try lia; cbn [nth INR]; lra.
Qed.

Example C106_ex_stress : forall h gamma, (0 < h)%R -> let m := mkRegular 1 1 h in
  let disp := [[0; 0]; [0; 0]; [gamma * h; 0]; [gamma * h; 0]; [0; gamma]; [0; 0]]%R in
  let x := fun k => match k with [e;n;i] => (val2 (coor m) (idx2 (conn m) e n) i + val2 disp (idx2 (conn m) e n) i)%R | _ => 0%R end in
  let P := Planar_update_x [0] junk x (g_P m) in
  let sig := fun k : list nat => match k with [_;_;1;1] => 1%R | _ => 0%R end in
  exists ps ue, periodic_setup (coor m) 4 2 (dofs 4 2) (conn m) 4 (nodesPeriodic m) [0] = Ok ps /\ tp_nnu (ps_t ps) = 0 /\
  periodic_disp (coor m) (nodesPeriodic m) 4 2 disp /\ Planar_obj 1 4 (Gauss4_xi junk) (Gauss4_w junk) 1%R x P /\ current (conn m) 1 4 2 (coor m) disp x /\
  let v := mkVector (conn m) 4 (tp_dofs (ps_t ps)) 2 in
  AsElement_nodevec v disp = Ok ue /\
  let F := defgrad (el_GradN_vector (Planar_elem (g_P m)) (g_c m) (of_rows ue)) in
  (forall q i j, q < 4 -> i < 3 -> j < 3 -> F 0 q i j = (if ((i =? 0) && (j =? 1))%bool then gamma else if (i =? j) then 1%R else 0%R)) /\
  exists fint Fx Fi, AssembleNode v (to_rows 1 4 2 (el_Int_gradN_dot_tensor2_dV (Planar_elem P) (g_c m) sig)) = Ok fint /\
    periodic_forces (ps_vector ps) (fun _ => g_order m) (repeat [0; 0]%R 6) fint = Ok (Fx, Fi) /\
    val1 Fi (idx2 (tp_dofs (ps_t ps)) 5 0) = (- gamma * (h * h))%R /\ val1 Fi (idx2 (tp_dofs (ps_t ps)) 5 1) = (h * h)%R.
Proof.
  intros h gamma Hh m disp x P sig.
  destruct (C88_quad4 m ltac:(cbn; lia) ltac:(cbn; lia) Hh) as [o [Eo [HCell Hcn]]]. cbn in Eo. assert (o = 0) as -> by now injection Eo.
  change (nnode m) with 4 in *. change (nelem m) with 1 in *.
  destruct (C88_setup (coor m) (dofs 4 2) (nodesPeriodic m) [0] 4 2 (conn m) 4 HCell) as [ps [Eps _]].
  assert (Nu : match periodic_setup (coor m) 4 2 (dofs 4 2) (conn m) 4 (nodesPeriodic m) [0] with Ok ps => tp_nnu (ps_t ps) = 0 | _ => False end) by (vm_compute; reflexivity).
  rewrite Eps in Nu.
  assert (HS : schedule 1 [0]) by apply Permutation_refl.
  assert (Vc : valid_call 1 (g_c m)) by apply Permutation_refl.
  pose proof (g_P_obj m) as H0. change (nelem m) with 1 in H0.
  assert (HP : Planar_obj 1 4 (Gauss4_xi junk) (Gauss4_w junk) 1%R x P) by exact (Planar_obj_update 1 4 _ _ 1%R [0] (g_x m) (g_P m) x junk HS H0).
  assert (HX : current (conn m) 1 4 2 (coor m) disp x) by (intros e k i He Hk Hi; reflexivity).
  assert (Sd : shape2 disp 6 2) by (split; [reflexivity|]; intros r Hr; cbn in Hr; repeat (destruct Hr as [<-|Hr]; [reflexivity|]); destruct Hr).
  assert (Hpd : periodic_disp (coor m) (nodesPeriodic m) 4 2 disp).
  { split; [exact Sd|]. intros a b j Hab Hj. change (nodesPeriodic m) with [(0,1);(0,3);(0,2)] in Hab.
    unfold sumn, sumL. cbn [seq fold_right].
    assert (Ht : a = 0 /\ (b = 1 \/ b = 2 \/ b = 3)) by (cbn in Hab; repeat (destruct Hab as [E|Hab]; [injection E as <- <-; auto|]); destruct Hab).
    destruct Ht as [-> Hb]. assert (Lb : b < 4) by lia. rewrite !(unit_coor h Hh) by lia. unfold val2, nth2, disp.
    destruct j as [|[|j]]; try lia; destruct Hb as [->|[->| ->]]; cbn [nth Nat.add]; ring. }
  pose proof (mesh (coor m) (dofs 4 2) (nodesPeriodic m) [0] 4 1 (conn m) HCell Hcn ps Eps 4 _ _ 1%R _ _ H0 (fun _ b => b)) as HM.
  set (v := mkVector (conn m) 4 (tp_dofs (ps_t ps)) 2).
  destruct (AsElement_nodevec_spec v 1 4 6 2 _ eq_refl eq_refl HM disp Sd) as [ue [Eu [_ Vu]]].
  exists ps, ue. split; [exact Eps|]. split; [exact Nu|]. split; [exact Hpd|]. split; [exact HP|]. split; [exact HX|]. split; [exact Eu|].
  assert (Cn : forall k, k < 4 -> idx2 (conn m) 0 k = nth k [0;1;3;2] 0) by (apply lt4; reflexivity).
  assert (Xv : forall k i, k < 4 -> i < 2 -> nodes (g_x m) 0 k i = (h * (corner2 k i + 1) / 2)%R).
  { intros k i Hk Hi. unfold nodes, g_x. rewrite Cn by exact Hk. revert k Hk. apply lt4; cbn [nth]; rewrite (unit_coor h Hh) by lia; unfold nth2; destruct i as [|[|i]]; try lia; cbn [nth corner2]; field. }
  assert (Uv : forall k i, k < 4 -> i < 2 -> of_rows ue [0;k;i] = (if i =? 0 then gamma * h * (corner2 k 1 + 1) / 2 else 0)%R).
  { intros k i Hk Hi. rewrite of_rows_val, Vu by lia. cbn [m_conn v]. rewrite Cn by exact Hk. unfold val2, nth2, disp. revert k Hk. apply lt4; cbn [nth]; destruct i as [|[|i]]; try lia; cbn [nth corner2 Nat.eqb]; field. }
  intros F.
  assert (HF : forall q i j, q < 4 -> i < 3 -> j < 3 -> F 0 q i j = (if ((i =? 0) && (j =? 1))%bool then gamma else if (i =? j) then 1%R else 0%R)).
  { intros q i j Hq Hi Hj. unfold F, defgrad. unrec. destruct (P_F _ _ _ _ _ _ (of_rows ue) _ (g_c m) 0 q H0 Vc ltac:(lia) Hq) as (G & G1 & G2 & G3 & G4 & G5).
    assert (GG : forall a b, a < 2 -> b < 2 -> Planar_gradN_vector (c_es (g_c m)) (g_P m) (of_rows ue) (c_old (g_c m)) [0;q;a;b] = (if ((a =? 1) && (b =? 0))%bool then gamma else 0)%R).
    { intros a b Ha Hb. rewrite G, gsum by assumption. rewrite (regular_jac m (g_x m) 0 _ (g_on m) ltac:(cbn; lia)). unfold dinterp2. rewrite !sumn4, !Xv by lia. rewrite !Uv by lia. unfold dshape2, corner2. cbn [hh m].
      clear - Ha Hb Hh. revert a Ha. apply lt2; revert b Hb; apply lt2; cbn [Nat.eqb andb]; field; lra. }
    revert i Hi. apply lt3; revert j Hj; apply lt3; cbn [Nat.eqb andb]; rewrite ?GG by lia; cbn [Nat.eqb andb]; rewrite ?G1, ?G2, ?G3, ?G4, ?G5; ring. }
  split; [exact HF|].
  assert (Sf : shape3 (to_rows 1 4 2 (el_Int_gradN_dot_tensor2_dV (Planar_elem P) (g_c m) sig)) 1 4 2) by apply to_rows_shape.
  destruct (AssembleNode_spec v 1 4 6 2 _ eq_refl eq_refl HM _ Sf) as [fint [Ef [Sfi _]]].
  assert (Sz : shape2 (repeat [0; 0]%R 6) 6 2) by (split; [reflexivity|]; intros r Hr; apply repeat_spec in Hr; now rewrite Hr).
  assert (HE : elem_obj 1 x (Planar_elem P)) by (econstructor; exact HP).
  destruct (C88_forces _ _ _ _ _ _ _ x (Planar_elem P) HE HCell Hcn ps Eps (fun _ => g_order m) (repeat [0; 0]%R 6) fint (fun _ => Permutation_refl _) Sz Sfi) as [Fx [Fi [EF _]]].
  exists fint, Fx, Fi. split; [exact Ef|]. split; [exact EF|].
  set (Pn := fun k : list nat => match k with [_;_;1;1] => 1%R | [_;_;0;1] => (- gamma)%R | _ => 0%R end).
  assert (Dt : forall q, q < 4 -> det_of 3 (F 0 q) = 1%R) by (intros q Hq; cbn [det_of]; rewrite !HF by lia; cbn [Nat.eqb andb]; ring).
  destruct (C106_stress _ _ _ _ _ _ _ HCell Hcn ps Eps 4 _ _ 1%R (g_x m) (g_P m) x P disp H0) with (ue := ue) (c := g_c m) (c' := g_c m) (c0 := g_c m) (sig := sig) (Pn := Pn) (os := fun _ : nat => g_order m) (fint := fint) (fext := repeat [0; 0]%R 6) (Fx := Fx) (Fi := Fi) as [HT _]; try assumption.
  - intros e k i He Hk Hi. reflexivity.
  - intros e q He Hq. exact (proj1 (g_P_vol m Hh e q He Hq)).
  - intros e q He Hq. assert (e = 0) as -> by lia. fold F. rewrite (Dt q Hq). lra.
  - intros e q i j He Hq Hi Hj. assert (e = 0) as -> by lia. change (el_tdim _) with 3 in *. change (el_nip _) with 4 in Hq. fold F. rewrite (Dt q Hq). rewrite sumn3, !HF by lia.
    revert i Hi. apply lt3; revert j Hj; apply lt3; cbn [Nat.eqb andb Pn sig]; ring.
  - intros k. apply Permutation_refl.
  - intros d Hd. rewrite Nu in Hd. lia.
  - assert (T : forall k j, total 1 (Planar_elem (g_P m)) Pn k j = (match k, j with 0, 1 => - gamma | 1, 1 => 1 | _, _ => 0 end * (h * h))%R).
    { intros k j. unfold total. unfold sumn at 1. unfold sumL. cbn [seq fold_right]. change (el_nip _) with 4. rewrite sumn4.
      assert (Vq : forall q, q < 4 -> el_dV (Planar_elem (g_P m)) [0;q] = (h * h / 4)%R).
      { intros q Hq. unrec. rewrite (f_vol (proj2 (Planar_facts _ _ _ _ _ _ _ H0))) by lia. rewrite (regular_jac m (g_x m) 0 _ (g_on m) ltac:(cbn; lia)). cbn [hh m].
        assert (W : Gauss4_w junk [q] = 1%R) by (revert q Hq; apply lt4; unfold Gauss4_w; blk; reflexivity). rewrite W. field. }
      rewrite !Vq by lia. unfold Pn. destruct k as [|[|k]]; destruct j as [|[|j]]; field. }
    split; [pose proof (HT 1 0 ltac:(lia) ltac:(lia)) as HH|pose proof (HT 1 1 ltac:(lia) ltac:(lia)) as HH]; rewrite T in HH; cbn [Nat.add] in HH; rewrite HH; ring.
Qed.
