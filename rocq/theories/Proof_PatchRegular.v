From Coq Require Import Reals Lra Lia List Permutation.
From Verif Require Import Base Spec Sums Spec2d Spec_Vector Model_Numbering Model_Regular2d Proof_Regular2d Spec_Patch.

Lemma idx2_row (c : list (list nat)) e r m : nth_error c e = Some r -> idx2 c e m = nth m r 0.
Proof. intros H. unfold idx2, nth2. now rewrite (nth_error_nth _ _ _ H). Qed.

Lemma regular_idx m e k : e < nelem m -> k < 4 -> exists jx jy, jx < nelx m /\ jy < nely m /\ e = jy * nelx m + jx /\
  idx2 (conn m) e k = match k with 0 => jy * (nelx m + 1) + jx | 1 => jy * (nelx m + 1) + (jx + 1) | 2 => (jy + 1) * (nelx m + 1) + (jx + 1) | _ => (jy + 1) * (nelx m + 1) + jx end.
Proof.
  intros He Hk. unfold nelem in He. destruct (grid_split (nelx m) e) as [jy [jx [Hx ->]]]; [nia|].
  assert (Hy : jy < nely m) by nia. exists jx, jy. repeat (split; [assumption || reflexivity|]). rewrite (idx2_row _ _ _ _ (conn_at m jx jy Hx Hy)).
  destruct k as [|[|[|[|k]]]]; try lia; reflexivity.
Qed.

Lemma NoDup_list_prod {A B} (l : list A) (l' : list B) : NoDup l -> NoDup l' -> NoDup (list_prod l l').
Proof.
  intros H H'. induction H as [|a l Ha Hl IH]; [constructor|]. cbn [list_prod]. apply NoDup_app_intro; [|exact IH|].
  - apply NoDup_map_inj; [exact H'|]. intros x y _ _ [= ->]. reflexivity.
  - intros [a' b] H1 H2. apply in_map_iff in H1. destruct H1 as [y [[= -> ->] _]]. apply in_prod_iff in H2. tauto.
Qed.

Lemma in_corners conn nelem n e m : In (e, m) (corners_at conn nelem n) <-> e < nelem /\ m < 4 /\ idx2 conn e m = n.
Proof. unfold corners_at. rewrite filter_In, in_prod_iff, !in_seq, Nat.eqb_eq. cbn [fst snd]. intuition lia. Qed.

Lemma corners_NoDup conn nelem n : NoDup (corners_at conn nelem n).
Proof. apply NoDup_filter, NoDup_list_prod; apply seq_NoDup. Qed.

Lemma regular_corners m ix iy : 0 < ix -> ix < nelx m -> 0 < iy -> iy < nely m ->
  Permutation (corners_at (conn m) (nelem m) (iy * (nelx m + 1) + ix))
    [(iy * nelx m + ix, 0); (iy * nelx m + (ix - 1), 1); ((iy - 1) * nelx m + (ix - 1), 2); ((iy - 1) * nelx m + ix, 3)].
Proof.
  intros X0 X1 Y0 Y1. apply NoDup_Permutation; [apply corners_NoDup| |].
  - repeat constructor; cbn; intuition congruence.
  - intros [e k]. rewrite in_corners. split.
    + intros [He [Hk En]]. destruct (regular_idx m e k He Hk) as [jx [jy [Hx [Hy [-> Ei]]]]]. rewrite Ei in En. cbn [In].
      destruct k as [|[|[|[|k]]]]; try lia; apply grid_inj in En; try lia; destruct En as [<- <-].
      * left. reflexivity.
      * right. left. do 3 f_equal; lia.
      * right. right. left. f_equal. f_equal; [f_equal|]; lia.
      * right. right. right. left. do 3 f_equal; lia.
    + assert (R : forall jx jy, jx < nelx m -> jy < nely m -> jy * nelx m + jx < nelem m) by (unfold nelem; intros; nia).
      intros H. cbn [In] in H. destruct H as [[= <- <-]|[[= <- <-]|[[= <- <-]|[[= <- <-]|[]]]]]; (split; [apply R; lia|]); (split; [lia|]); erewrite idx2_row by (apply conn_at; lia); cbn [nth].
      * reflexivity.
      * f_equal. lia.
      * f_equal; [f_equal|]; lia.
      * f_equal. f_equal. lia.
Qed.

Lemma regular_closed m ix iy : 0 < ix -> ix < nelx m -> 0 < iy -> iy < nely m -> closed_around (conn m) (nelem m) (iy * (nelx m + 1) + ix).
Proof.
  intros X0 X1 Y0 Y1. unfold closed_around. pose proof (regular_corners m ix iy X0 X1 Y0 Y1) as H.
  rewrite (Permutation_map (next_node (conn m)) H), (Permutation_map (prev_node (conn m)) H). clear H. cbn [map]. unfold next_node, prev_node. cbn [fst snd].
  cbn [Nat.add Nat.modulo Nat.divmod Nat.sub fst snd].
  erewrite !idx2_row by (apply conn_at; lia). cbn [nth].
  replace (ix - 1 + 1) with ix by lia. replace (iy - 1 + 1) with iy by lia.
  set (a := iy * (nelx m + 1) + (ix + 1)). set (b := (iy + 1) * (nelx m + 1) + ix). set (c := iy * (nelx m + 1) + (ix - 1)). set (d := (iy - 1) * (nelx m + 1) + ix).
  change (Permutation ([a] ++ [b; c; d]) ([b; c; d] ++ [a])). apply Permutation_app_comm.
Qed.

Lemma regular_interior m n : n < nnode m -> ~ In n (nodesBottomEdge m) -> ~ In n (nodesTopEdge m) -> ~ In n (nodesLeftEdge m) -> ~ In n (nodesRightEdge m) ->
  exists ix iy, 0 < ix /\ ix < nelx m /\ 0 < iy /\ iy < nely m /\ n = iy * (nelx m + 1) + ix.
Proof.
  unfold nnode, nodesBottomEdge, nodesTopEdge, nodesLeftEdge, nodesRightEdge, arange. intros Hn HB HT HL HR.
  destruct (grid_split (nelx m + 1) n) as [iy [ix [Hx ->]]]; [lia|]. assert (Hy : iy <= nely m) by nia. exists ix, iy.
  rewrite in_seq in HB. rewrite in_map_iff in HT, HL, HR.
  assert (ix <> 0) by (intros ->; apply HL; exists iy; rewrite in_seq; lia).
  assert (ix <> nelx m) by (intros ->; apply HR; exists iy; rewrite in_seq; lia).
  assert (iy <> 0) by (intros ->; apply HB; lia).
  assert (iy <> nely m) by (intros ->; apply HT; exists ix; rewrite in_seq; lia).
  lia.
Qed.

From Verif Require Import Model_Element Spec_Element Proof_Element Proof_ElementQuad4 Proof_ElementMath Base Spec Sums Spec2d Spec_Vector Model_Numbering Model_Regular2d Proof_Regular2d Model_Pipeline Spec_Pipeline Spec_Patch.

(** ** the rules *)
Lemma sqrt3 : (sqrt 3 <> 0)%R.
Proof. apply Rgt_not_eq, sqrt_lt_R0. lra. Qed.
Lemma centred_Gauss j j' : centred 4 (Gauss4_xi j) (Gauss4_w j').
Proof. split; rewrite sumn4; unfold Gauss4_xi, Gauss4_w; blk; pose proof sqrt3; field; assumption. Qed.
Lemma centred_Nodal j j' : centred 4 (Nodal4_xi j) (Nodal4_w j').
Proof. split; rewrite sumn4; unfold Nodal4_xi, Nodal4_w; blk; ring. Qed.
Lemma centred_MidPoint j j' : centred 1 (MidPoint4_xi j) (MidPoint4_w j').
Proof. split; unfold sumn, sumL; cbn [seq fold_right]; unfold MidPoint4_xi, MidPoint4_w; blk; ring. Qed.

Lemma line_Nodal j : not_on_a_line 4 (Nodal4_xi j).
Proof.
  intros a b c H. pose proof (H 0 ltac:(lia)) as H0. pose proof (H 1 ltac:(lia)) as H1. pose proof (H 2 ltac:(lia)) as H2. revert H0 H1 H2.
  unfold Nodal4_xi; blk. lra.
Qed.
Lemma line_Gauss j : not_on_a_line 4 (Gauss4_xi j).
Proof.
  intros a b c H. pose proof (H 0 ltac:(lia)) as H0. pose proof (H 1 ltac:(lia)) as H1. pose proof (H 2 ltac:(lia)) as H2. clear H. revert H0 H1 H2.
  unfold Gauss4_xi; blk. assert (S : (/ sqrt 3 <> 0)%R) by (apply Rinv_neq_0_compat, sqrt3). unfold Rdiv. intros H0 H1 H2. 
  assert (B : (b * / sqrt 3 = 0)%R) by lra. assert (C : (c * / sqrt 3 = 0)%R) by lra. 
  apply Rmult_integral in B. apply Rmult_integral in C. destruct B as [->|]; [|contradiction]. destruct C as [->|]; [|contradiction]. lra.
Qed.

(** ** the regular mesh is held by rollers *)
Lemma regular_held m iip x : 1 <= nelx m -> 1 <= nely m ->
  (forall n, In n (nodesBottomEdge m) -> In (idx2 (dofs (nnode m) 2) n 1) iip) -> In (idx2 (dofs (nnode m) 2) (nodesBottomLeftCorner m) 0) iip ->
  (forall e, e < nelem m -> x [e;0;0] <> x [e;1;0]) ->
  forall n i, n < nnode m -> i < 2 -> held (conn m) (dofs (nnode m) 2) iip (nelem m) x n i.
Proof.
  intros Hx1 Hy1 HB HL Hx. set (H := held (conn m) (dofs (nnode m) 2) iip (nelem m) x).
  assert (R : forall jx jy, jx < nelx m -> jy < nely m -> jy * nelx m + jx < nelem m) by (unfold nelem; intros; nia).
  assert (I : forall jx jy k, jx < nelx m -> jy < nely m -> idx2 (conn m) (jy * nelx m + jx) k =
    nth k [jy * (nelx m + 1) + jx; jy * (nelx m + 1) + (jx + 1); (jy + 1) * (nelx m + 1) + (jx + 1); (jy + 1) * (nelx m + 1) + jx] 0).
  { intros jx jy k Ax Ay. apply idx2_row. now apply conn_at. }
  assert (Row0 : forall ix, ix <= nelx m -> forall i, i < 2 -> H (0 * (nelx m + 1) + ix) i).
  { induction ix as [|ix IH]; intros Hix i Hi.
    - apply held_prescribed. destruct i as [|[|]]; [exact HL| |lia]. apply HB. unfold nodesBottomEdge, arange. rewrite in_seq. lia.
    - pose proof (I ix 0 1 ltac:(lia) ltac:(lia)) as E1. pose proof (I ix 0 0 ltac:(lia) ltac:(lia)) as E0. cbn [nth] in E1, E0. replace (0 * (nelx m + 1) + S ix) with (0 * (nelx m + 1) + (ix + 1)) by lia.
      rewrite <- E1. apply (held_element _ _ _ _ _ (0 * nelx m + ix) 0 1 1); try lia; try (apply R; lia); try (rewrite E0; apply IH; lia).
      + apply held_prescribed. rewrite E1. apply HB. unfold nodesBottomEdge, arange. rewrite in_seq. lia.
      + apply Hx, R; lia. }
  assert (Rows : forall iy, iy <= nely m -> forall ix, ix <= nelx m -> forall i, i < 2 -> H (iy * (nelx m + 1) + ix) i).
  { induction iy as [|iy IH]; intros Hiy ix Hix i Hi; [now apply Row0|]. replace (S iy) with (iy + 1) by lia.
    destruct (Nat.lt_ge_cases ix (nelx m)) as [L|L].
    - pose proof (I ix iy 0 L ltac:(lia)) as E0. pose proof (I ix iy 1 L ltac:(lia)) as E1. pose proof (I ix iy 3 L ltac:(lia)) as E3. cbn [nth] in E0, E1, E3. rewrite <- E3.
      apply (held_element _ _ _ _ _ (iy * nelx m + ix) 0 1 1); try lia; try (apply R; lia); try (rewrite E0; apply IH; lia); try (rewrite E1; apply IH; lia). apply Hx, R; lia.
    - pose proof (I (nelx m - 1) iy 0 ltac:(lia) ltac:(lia)) as E0. pose proof (I (nelx m - 1) iy 1 ltac:(lia) ltac:(lia)) as E1. pose proof (I (nelx m - 1) iy 2 ltac:(lia) ltac:(lia)) as E2. cbn [nth] in E0, E1, E2.
      replace ix with (nelx m - 1 + 1) by lia. rewrite <- E2.
      apply (held_element _ _ _ _ _ (iy * nelx m + (nelx m - 1)) 0 1 1); try lia; try (apply R; lia); try (rewrite E0; apply IH; lia); try (rewrite E1; apply IH; lia). apply Hx, R; lia. }
  intros n i Hn Hi. unfold nnode in Hn. destruct (grid_split (nelx m + 1) n) as [iy [ix [Hix ->]]]; [lia|]. apply Rows; [nia|lia|exact Hi].
Qed.

(** ** its coordinates *)
Lemma regular_coor m e : e < nelem m -> exists jx jy, jx < nelx m /\ jy < nely m /\ e = jy * nelx m + jx /\ forall k i, k < 4 -> i < 2 ->
  val2 (coor m) (idx2 (conn m) e k) i = (hh m * INR (match i with 0 => jx + (match k with 1 | 2 => 1 | _ => 0 end) | _ => jy + (match k with 2 | 3 => 1 | _ => 0 end) end))%R.
Proof.
  intros He. unfold nelem in He. destruct (grid_split (nelx m) e) as [jy [jx [Hx ->]]]; [nia|]. assert (Hy : jy < nely m) by nia. exists jx, jy. do 2 (split; [assumption|]). split; [reflexivity|].
  intros k i Hk Hi. rewrite (idx2_row _ _ _ _ (conn_at m jx jy Hx Hy)).
  destruct k as [|[|[|[|k]]]]; try lia; cbn [nth]; unfold val2, nth2; erewrite (nth_error_nth (coor m)) by (apply coor_at; lia); destruct i as [|[|i]]; try lia; cbn [nth]; do 2 f_equal; lia.
Qed.

Lemma regular_jac m x e p : on_mesh (conn m) (nelem m) (coor m) x -> e < nelem m -> jac2 (nodes x e) p = (hh m * hh m / 4)%R.
Proof.
  intros HX He. unfold jac2, dinterp2. rewrite !sumn4. unfold nodes. rewrite !HX by lia.
  destruct (regular_coor m e He) as [jx [jy [_ [_ [_ V]]]]].
  rewrite !V by lia. rewrite !plus_INR. cbn [INR]. unfold dshape2, corner2. field.
Qed.

From Verif Require Import Proof_Numbering Proof_MeshGeometry.
Lemma regular_mesh_dofs m : mesh_dofs (conn m) (dofs (nnode m) 2) (nelem m) 4 (nnode m) 2 (nnode m * 2).
Proof.
  constructor; [apply conn_shape|apply dofs_shape| |].
  - intros e k He Hk. apply (conn_range m (nth e (conn m) [])); [apply nth_In; rewrite (proj1 (conn_shape m)); exact He|].
    unfold idx2, nth2. apply nth_In. rewrite (proj2 (conn_shape m)); [exact Hk|]. apply nth_In. rewrite (proj1 (conn_shape m)). exact He.
  - rewrite concat_dofs. assert (P : 0 < nnode m) by (unfold nnode; nia). destruct (nnode m) as [|n]; [lia|]. change (S n * 2) with (S (S (n * 2))). now rewrite fold_max_seq.
Qed.
Lemma dofs_no_holes n d : no_holes (dofs n d) (n * d).
Proof. intros k Hk. rewrite concat_dofs, in_seq. lia. Qed.
