From Coq Require Import Reals Lra.
From Verif Require Import Model_Element Spec_Element Proof_Element Proof_ElementQuad4 Proof_ElementMath Proof_ElementThm Proof_ElementThm2.
From Verif Require Import Base Spec Sums Spec_Vector Spec_Matrix Model_Numbering Proof_Numbering Model_Vector Proof_Vector
  Model_MatrixDiagonal Spec_MatrixDiagonal Proof_MatrixDiagonal Model_Misc Model_MeshGeometry Spec_MeshGeometry.
Local Open Scope R_scope.

(** ** the Jacobian at the corners *)
Lemma jac2_corner x m : (m < 4)%nat -> jac2 x (corner2 m) = turn x m / 4.
Proof.
  intros Hm. destruct m as [|[|[|[|m]]]]; [| | | |lia];
    unfold jac2, dinterp2, turn; rewrite !sumn4; cbn [Nat.add Nat.modulo Nat.divmod fst snd Nat.sub];
    unfold dshape2, corner2; cbn; field.
Qed.

Lemma fold_max_seq n : fold_right Nat.max 0%nat (seq 0 (S n)) = n.
Proof.
  rewrite seq_S, fold_right_app. cbn [fold_right]. rewrite Nat.max_0_r.
  assert (G : forall l m, (forall y, In y l -> (y <= m)%nat) -> fold_right Nat.max m l = m).
  { induction l as [|y l IH]; intros m Hl; [reflexivity|]. cbn [fold_right]. rewrite IH by (intros z Hz; apply Hl; now right).
    apply Nat.max_r. apply Hl. now left. }
  apply G. intros y Hy. apply in_seq in Hy. lia.
Qed.

Lemma turn_area y : sumn 4 (fun m => turn y m / 4) = quad_area y.
Proof.
  unfold quad_area, turn. rewrite !sumn4. cbn [Nat.add Nat.modulo Nat.divmod fst snd Nat.sub]. field.
Qed.

(** ** centers and edgesize *)
Section G.
Set Default Proof Using "All".
Variables (coor : list (list R)) (conn : list (list nat)) (nelem nnode : nat).
Hypothesis H : quad_mesh coor conn nelem nnode.
Notation x := (corners coor conn).

Lemma qm_len : length conn = nelem.
Proof. exact (proj1 (qm_conn _ _ _ _ H)). Qed.
Lemma qm_lenc : length coor = nnode.
Proof. exact (proj1 (qm_coor _ _ _ _ H)). Qed.
Lemma qm_get e m : (e < nelem)%nat -> (m < 4)%nat -> get2 conn e m = Ok (idx2 conn e m).
Proof. intros He Hm. exact (get2_nth 0%nat conn nelem 4 e m (qm_conn _ _ _ _ H) He Hm). Qed.
Lemma qm_getc e m i : (e < nelem)%nat -> (m < 4)%nat -> (i < 2)%nat -> get2 coor (idx2 conn e m) i = Ok (x e m i).
Proof.
  intros He Hm Hi. exact (get2_nth 0 coor nnode 2 _ i (qm_coor _ _ _ _ H) (qm_node _ _ _ _ H e m He Hm) Hi).
Qed.

Lemma edge_Ok e m n : (e < nelem)%nat -> (m < 4)%nat -> (n < 4)%nat ->
  edge_length coor (idx2 conn e m) (idx2 conn e n) = Ok (sqrt (sumn 2 (fun i => (x e n i - x e m i) * (x e n i - x e m i)))).
Proof.
  intros He Hm Hn. unfold edge_length. rewrite !qm_getc by (assumption || lia). cbn [bind]. rewrite sumn2. reflexivity.
Qed.

Lemma edgesize_spec : exists ret, edgesize coor conn Quad4 = Ok ret /\ shape2 ret nelem 4 /\
  forall e k, (e < nelem)%nat -> (k < 4)%nat -> let l := ((k + 1) mod 4)%nat in
  val2 ret e k = sqrt (sumn 2 (fun i => (x e l i - x e k i) * (x e l i - x e k i))).
Proof.
  set (g := fun e k => sqrt (sumn 2 (fun i => (x e ((k + 1) mod 4) i - x e k i) * (x e ((k + 1) mod 4) i - x e k i)))).
  exists (tab2 nelem 4 g). split; [|split; [apply tab2_shape|]].
  - unfold edgesize. rewrite qm_len. apply mapM_Ok. intros e He. apply in_seq in He.
    rewrite !qm_get by lia. cbn [bind]. rewrite !edge_Ok by lia. reflexivity.
  - intros e k He Hk. exact (tab2_nth 0 nelem 4 g e k He Hk).
Qed.

Lemma centers_spec : exists ret, centers coor 2 conn Quad4 = Ok ret /\ shape2 ret nelem 2 /\
  forall e j, (e < nelem)%nat -> (j < 2)%nat -> val2 ret e j = sumn 4 (fun m => x e m j) / 4.
Proof.
  set (g := fun k e j => sumn k (fun m => x e m j)).
  exists (tab2 nelem 2 (fun e j => g 4%nat e j / 4)). split; [|split; [apply tab2_shape|]].
  - unfold centers. rewrite qm_len.
    assert (S : forall i, (i < 4)%nat -> mapM (fun e => mapM (fun j =>
              do n <- get2 conn e i; do x <- get2 coor n j; do r <- get2 (tab2 nelem 2 (g i)) e j; Ok (r + x)%R) (seq 0 2))
            (seq 0 nelem) = Ok (tab2 nelem 2 (g (S i)))).
    { intros i Hi. apply mapM_Ok. intros e He. apply in_seq in He. apply mapM_Ok. intros j Hj. apply in_seq in Hj.
      rewrite qm_get by lia. cbn [bind]. rewrite qm_getc by lia. cbn [bind].
      rewrite (get2_nth 0 _ nelem 2 e j (tab2_shape _ _ _)) by lia. cbn [bind].
      rewrite tab2_nth by lia. unfold g. rewrite sumn_S. reflexivity. }
    assert (Z : repeat (repeat 0 2) nelem = tab2 nelem 2 (g 0%nat)).
    { apply (list_ext2 0 _ _ nelem 2); [split; [apply repeat_length|intros r Hr; apply repeat_spec in Hr; now rewrite Hr, repeat_length]|apply tab2_shape|].
      intros m i Hm Hi. rewrite tab2_nth by assumption. unfold nth2. rewrite (nth_indep _ _ (repeat 0 2)) by now rewrite repeat_length.
      rewrite nth_repeat. now rewrite nth_repeat. }
    rewrite Z. cbn [seq foldM]. 
    do 4 (rewrite S by lia; cbn [bind]). f_equal. unfold tab2. rewrite map_map. apply map_ext. intros e. reflexivity.
  - intros e j He Hj. exact (tab2_nth 0 nelem 2 _ e j He Hj).
Qed.

(** ** nodal_mass *)
Hypothesis Hpos : (0 < nnode)%nat.

Lemma dofs_idx n i : (n < nnode)%nat -> (i < 2)%nat -> idx2 (dofs nnode 2) n i = (n * 2 + i)%nat.
Proof.
  intros Hn Hi. pose proof (dofs_at nnode 2 n i Hn Hi) as E. unfold idx2, nth2, at2 in *.
  destruct (nth_error (dofs nnode 2) n) as [r|] eqn:Er; [|discriminate].
  rewrite (nth_error_nth _ _ _ Er). exact (nth_error_nth _ _ _ E).
Qed.


Lemma qm_md : mesh_dofs conn (dofs nnode 2) nelem 4 nnode 2 (nnode * 2).
Proof.
  constructor; [exact (qm_conn _ _ _ _ H)|apply dofs_shape|exact (qm_node _ _ _ _ H)|].
  rewrite concat_dofs. destruct nnode as [|n]; [lia|]. change (S n * 2)%nat with (S (S (n * 2))). now rewrite fold_max_seq.
Qed.

Lemma nodal_mass_spec mem : schedule nelem (es_new mem) -> schedule nelem (es_int mem) ->
  exists ret, nodal_mass mem coor 2 conn 4 Quad4 = Ok ret /\ shape2 ret nnode 2 /\
  forall n i, (n < nnode)%nat -> (i < 2)%nat -> val2 ret n i = node_mass coor conn nelem n.
Proof.
  intros Hs1 Hs2. unfold nodal_mass. rewrite qm_lenc, qm_len. set (v := mkVector conn 4 (dofs nnode 2) 2).
  destruct (V_sizes v nelem 4 nnode 2 (nnode * 2) eq_refl eq_refl qm_md) as (S1 & S2 & S3).
  assert (E : AsElement_nodevec v coor = Ok (tab3 nelem 4 2 (fun e m i => x e m i))).
  { unfold AsElement_nodevec. rewrite S1. apply fill3_Ok. intros e m i He Hm Hi.
    change (m_conn v) with conn. rewrite qm_get by assumption. cbn [bind]. now apply qm_getc. }
  rewrite E. cbn [bind].
  set (X := of_rows _). set (Q := Quad4_new _ _ _ _ _ _ _ _ _ _ _).
  assert (HX : forall e m i, (e < nelem)%nat -> (m < 4)%nat -> (i < 2)%nat -> X [e;m;i] = x e m i).
  { intros e m i He Hm Hi. exact (tab3_nth 0 nelem 4 2 _ e m i He Hm Hi). }
  assert (HQ : Quad4_obj nelem 4 (Nodal4_xi (j_xi mem)) (Nodal4_w (j_w mem)) X Q) by (apply Quad4_obj_new; exact Hs1).
  set (K := Quad4_int_N_scalar_NT_dV _ _ _ _).
  assert (HK : forall e m i, (e < nelem)%nat -> (m < 4)%nat -> (i < 2)%nat -> K [e; m * 2 + i; m * 2 + i]%nat = turn (x e) m / 4).
  { intros e m i He Hm Hi. unfold K. rewrite (mass_nodal nelem (j_xi mem) (j_w mem) X Q _ _ _ e m i m HQ Hs2) by assumption.
    rewrite Nat.eqb_refl, Rmult_1_l. rewrite (f_vol (Quad4_facts _ _ _ _ _ _ HQ)) by assumption.
    rewrite <- (jac2_corner _ m Hm).
    assert (W : Nodal4_w (j_w mem) [m] = 1) by (revert m Hm; apply lt4; unfold Nodal4_w; blk; reflexivity).
    rewrite W, Rmult_1_l.
    assert (P : forall k, (k < 2)%nat -> point (Nodal4_xi (j_xi mem)) m k = corner2 m k).
    { intros k Hk. clear W. unfold point. destruct k as [|[|k]]; [| |lia]; revert m Hm; apply lt4; unfold Nodal4_xi; blk; reflexivity. }
    unfold jac2, dinterp2. rewrite !sumn4. unfold nodes. rewrite !HX by (assumption || lia).
    unfold dshape2. rewrite !P by lia. reflexivity. }
  destruct (MD_assemble_spec v nelem 4 nnode 2 (nnode * 2) eq_refl eq_refl qm_md (new_MatrixDiagonal v) (to_rows nelem 8 8 K)) as (a & Ea & Ha).
  { reflexivity. }
  { change (length (empty (A := R) (m_ndof v)) = (nnode * 2)%nat). rewrite S3. apply repeat_length. }
  { apply (tab3_shape nelem 8 8 (fun e i j => K [e;i;j])). }
  rewrite Ea. cbn [bind].
  destruct (MD_data_spec v nelem 4 nnode 2 (nnode * 2) eq_refl eq_refl qm_md a _ Ha) as (l & El & Ll & Hl).
  rewrite El. cbn [bind].
  destruct (AsNode_dofval_spec v nelem 4 nnode 2 (nnode * 2) eq_refl eq_refl qm_md l Ll) as (u & Eu & Su & Hu).
  exists u. split; [exact Eu|]. split; [exact Su|]. intros n i Hn Hi.
  rewrite Hu by assumption. change (m_dofs v) with (dofs nnode 2). rewrite dofs_idx by assumption.
  rewrite Hl by nia. unfold assembled_diag, sum_elem, node_mass.
  apply sumn_ext. intros e He. apply sumn_ext. intros m Hm.
  change (m_dofs v) with (dofs nnode 2). change (m_conn v) with conn.
  assert (P : forall k, (k < 2)%nat -> ind (idx2 (dofs nnode 2) (idx2 conn e m) k =? n * 2 + i)%nat * val3 (to_rows nelem 8 8 K) e (m * 2 + k) (m * 2 + k)
     = if (idx2 conn e m =? n)%nat && (k =? i)%nat then turn (x e) m / 4 else 0).
  { intros k Hk. rewrite dofs_idx; [|exact (qm_node _ _ _ _ H e m He Hm)|exact Hk].
    unfold val3. rewrite (tab3_nth 0 nelem 8 8 (fun e i j => K [e;i;j]) e) by lia. rewrite HK by assumption.
    destruct (Nat.eqb_spec (idx2 conn e m) n) as [->|Hne].
    - destruct (Nat.eqb_spec k i) as [->|Hki].
      + rewrite Nat.eqb_refl. cbn. lra.
      + destruct (Nat.eqb_spec (n * 2 + k) (n * 2 + i)); [lia|]. cbn. lra.
    - destruct (Nat.eqb_spec (idx2 conn e m * 2 + k) (n * 2 + i)); [lia|]. cbn. lra. }
  rewrite sumn2, !P by lia. destruct (idx2 conn e m =? n)%nat; cbn; [|lra].
  destruct i as [|[|i]]; [| |lia]; cbn; lra.
Qed.

(** ** totals *)

Lemma node_sum (g : nat -> nat -> R) (f : nat -> R) :
  sumn nnode (fun n => sumn nelem (fun e => sumn 4 (fun m => if (idx2 conn e m =? n)%nat then g e m else 0)) * f n) =
  sumn nelem (fun e => sumn 4 (fun m => g e m * f (idx2 conn e m))).
Proof.
  rewrite (sumn_ext nnode _ (fun n => sumn nelem (fun e => sumn 4 (fun m => if (idx2 conn e m =? n)%nat then g e m * f (idx2 conn e m) else 0)))).
  - rewrite sumn_swap. apply sumn_ext. intros e He. rewrite sumn_swap. apply sumn_ext. intros m Hm.
    pose proof (qm_node _ _ _ _ H e m He Hm) as Hn.
    rewrite (sumn_ext nnode _ (fun n => if (n =? idx2 conn e m)%nat then g e m * f (idx2 conn e m) else 0)).
    + rewrite (sumn_ext nnode _ (fun n => ind (n =? idx2 conn e m)%nat * (g e m * f (idx2 conn e m)))).
      * exact (sumn_delta nnode (idx2 conn e m) (fun _ => g e m * f (idx2 conn e m)) Hn).
      * intros n _. destruct (n =? idx2 conn e m)%nat; unfold ind; ring.
    + intros n _. now rewrite Nat.eqb_sym.
  - intros n _. rewrite <- sumn_scal_r. apply sumn_ext. intros e He. rewrite <- sumn_scal_r. apply sumn_ext. intros m Hm.
    destruct (Nat.eqb_spec (idx2 conn e m) n) as [->|]; ring.
Qed.

Lemma nodal_mass_total : sumn nnode (fun n => node_mass coor conn nelem n) = total_area coor conn nelem.
Proof.
  unfold node_mass. rewrite (sumn_ext nnode _ (fun n => sumn nelem (fun e => sumn 4 (fun m => if (idx2 conn e m =? n)%nat then turn (x e) m / 4 else 0)) * 1)) by (intros; ring).
  rewrite (node_sum (fun e m => turn (x e) m / 4) (fun _ => 1)). apply sumn_ext. intros e He. rewrite <- turn_area. apply sumn_ext. intros m Hm. ring.
Qed.

Lemma node_mass_nonneg : (forall e, (e < nelem)%nat -> convex (x e)) -> forall n, 0 <= node_mass coor conn nelem n.
Proof.
  intros Hc n. unfold node_mass, sumn at 1. apply sumL_nonneg. intros e He. apply in_seq in He. apply sumL_nonneg. intros m Hm. apply in_seq in Hm.
  destruct (_ =? _)%nat; [|lra]. pose proof (Hc e ltac:(lia) m ltac:(lia)). lra.
Qed.

Lemma node_mass_pos e0 m0 : (forall e, (e < nelem)%nat -> convex (x e)) -> (e0 < nelem)%nat -> (m0 < 4)%nat ->
  0 < node_mass coor conn nelem (idx2 conn e0 m0).
Proof.
  intros Hc He0 Hm0. unfold node_mass.
  set (g := fun e m => if (idx2 conn e m =? idx2 conn e0 m0)%nat then turn (x e) m / 4 else 0).
  assert (G : forall e m, (e < nelem)%nat -> (m < 4)%nat -> 0 <= g e m).
  { intros e m He Hm. unfold g. destruct (_ =? _)%nat; [|lra]. pose proof (Hc e He m Hm). lra. }
  assert (L : forall n f k, (k < n)%nat -> (forall i, (i < n)%nat -> 0 <= f i) -> 0 < f k -> 0 < sumn n f).
  { induction n as [|n IH]; intros f k Hk Hf Hp; [lia|]. rewrite sumn_S.
    assert (0 <= sumn n f) by (apply sumL_nonneg; intros i Hi; apply in_seq in Hi; apply Hf; lia).
    destruct (Nat.eq_dec k n) as [->|]; [lra|]. assert (0 < sumn n f) by (apply (IH f k); [lia|intros; apply Hf; lia|exact Hp]).
    pose proof (Hf n ltac:(lia)). lra. }
  apply (L nelem _ e0 He0).
  - intros e He. apply sumL_nonneg. intros m Hm. apply in_seq in Hm. apply G; [exact He|lia].
  - apply (L 4%nat _ m0 Hm0); [intros m Hm; exact (G e0 m He0 Hm)|]. rewrite Nat.eqb_refl. pose proof (Hc e0 He0 m0 Hm0). lra.
Qed.

Lemma node_mass_unused n : (forall e m, (e < nelem)%nat -> (m < 4)%nat -> idx2 conn e m <> n) -> node_mass coor conn nelem n = 0.
Proof.
  intros Hn. unfold node_mass. apply sumn_zero. intros e He. apply sumn_zero. intros m Hm.
  destruct (Nat.eqb_spec (idx2 conn e m) n) as [E|]; [now apply Hn in E|reflexivity].
Qed.

(** ** center of gravity *)
Lemma average_spec w : shape2 w nnode 2 -> exists c, average_axis_0 coor w 2 = Ok c /\ length c = 2%nat /\
  forall j, (j < 2)%nat -> val1 c j = sumn nnode (fun n => val2 coor n j * val2 w n j) / sumn nnode (fun n => val2 w n j).
Proof.
  intros Hw. set (g := fun j => sumn nnode (fun n => val2 coor n j * val2 w n j) / sumn nnode (fun n => val2 w n j)).
  exists (tab1 2 g). split; [|split; [apply tab1_length|intros j Hj; exact (tab1_nth 0 2 g j Hj)]].
  apply mapM_Ok. intros j Hj. apply in_seq in Hj. rewrite (proj1 Hw).
  assert (F : forall k, (k <= nnode)%nat ->
    foldM (fun s i => do x <- get2 coor i j; do w0 <- get2 w i j; Ok (fst s + x * w0, snd s + w0)) (seq 0 k) (0, 0)
    = Ok (sumn k (fun n => val2 coor n j * val2 w n j), sumn k (fun n => val2 w n j))).
  { induction k as [|k IH]; intros Hk; [reflexivity|]. rewrite seq_S. rewrite foldM_app, IH by lia. cbn [bind foldM Nat.add].
    rewrite (get2_nth 0 coor nnode 2 k j (qm_coor _ _ _ _ H)) by lia. rewrite (get2_nth 0 w nnode 2 k j Hw) by lia. cbn [bind fst snd].
    rewrite !sumn_S. reflexivity. }
  rewrite F by lia. reflexivity.
Qed.

Lemma cog_spec mem : schedule nelem (es_new mem) -> schedule nelem (es_int mem) ->
  exists c, center_of_gravity mem coor 2 conn 4 Quad4 = Ok c /\ length c = 2%nat /\
  forall j, (j < 2)%nat -> val1 c j = sumn nnode (fun n => node_mass coor conn nelem n * val2 coor n j) / total_area coor conn nelem.
Proof.
  intros H1 H2. destruct (nodal_mass_spec mem H1 H2) as (w & E & Sw & Hw).
  destruct (average_spec w Sw) as (c & Ec & Lc & Hc). exists c. unfold center_of_gravity. rewrite E. cbn [bind].
  split; [exact Ec|]. split; [exact Lc|]. intros j Hj. rewrite Hc by exact Hj. rewrite <- nodal_mass_total. f_equal.
  - apply sumn_ext. intros n Hn. rewrite Hw by assumption. ring.
  - apply sumn_ext. intros n Hn. now apply Hw.
Qed.

(** element by element *)
Lemma cog_elements j : sumn nnode (fun n => node_mass coor conn nelem n * val2 coor n j) =
  sumn nelem (fun e => sumn 4 (fun m => turn (x e) m / 4 * x e m j)).
Proof. exact (node_sum (fun e m => turn (x e) m / 4) (fun n => val2 coor n j)). Qed.
End G.

Lemma parallelogram_turn y : parallelogram y -> forall m, (m < 4)%nat -> turn y m = quad_area y.
Proof.
  intros P m Hm. pose proof (P 0%nat ltac:(lia)) as P0. pose proof (P 1%nat ltac:(lia)) as P1.
  assert (E0 : y 2%nat 0%nat = y 1%nat 0%nat - y 0%nat 0%nat + y 3%nat 0%nat) by lra.
  assert (E1 : y 2%nat 1%nat = y 1%nat 1%nat - y 0%nat 1%nat + y 3%nat 1%nat) by lra.
  unfold quad_area, turn. rewrite sumn4.
  destruct m as [|[|[|[|m]]]]; [| | | |lia]; cbn [Nat.add Nat.modulo Nat.divmod fst snd Nat.sub]; rewrite E0, E1; field.
Qed.

(** ** affine maps *)
Lemma turn_affine (B : nat -> nat -> R) (b : nat -> R) y y' m : (m < 4)%nat ->
  (forall k i, (k < 4)%nat -> (i < 2)%nat -> y' k i = b i + sumn 2 (fun l => B i l * y k l)) ->
  turn y' m = (B 0%nat 0%nat * B 1%nat 1%nat - B 0%nat 1%nat * B 1%nat 0%nat) * turn y m.
Proof.
  intros Hm Hy. unfold turn. cbv zeta.
  pose proof (Nat.mod_upper_bound (m + 1) 4 ltac:(lia)). pose proof (Nat.mod_upper_bound (m + 3) 4 ltac:(lia)).
  rewrite !Hy by (assumption || lia). rewrite !sumn2. ring.
Qed.

Theorem cog_affine (B : nat -> nat -> R) (b : nat -> R) coor coor' conn nelem nnode mem mem' :
  quad_mesh coor conn nelem nnode -> quad_mesh coor' conn nelem nnode -> (0 < nnode)%nat ->
  schedule nelem (es_new mem) -> schedule nelem (es_int mem) -> schedule nelem (es_new mem') -> schedule nelem (es_int mem') ->
  (forall n i, (n < nnode)%nat -> (i < 2)%nat -> val2 coor' n i = b i + sumn 2 (fun l => B i l * val2 coor n l)) ->
  B 0%nat 0%nat * B 1%nat 1%nat - B 0%nat 1%nat * B 1%nat 0%nat <> 0 -> total_area coor conn nelem <> 0 ->
  exists c c', center_of_gravity mem coor 2 conn 4 Quad4 = Ok c /\ center_of_gravity mem' coor' 2 conn 4 Quad4 = Ok c' /\
  forall i, (i < 2)%nat -> val1 c' i = b i + sumn 2 (fun l => B i l * val1 c l).
Proof.
  intros H H' Hp S1 S2 S3 S4 HB Hd Ha.
  destruct (cog_spec coor conn nelem nnode H Hp mem S1 S2) as (c & Ec & _ & Hc).
  destruct (cog_spec coor' conn nelem nnode H' Hp mem' S3 S4) as (c' & Ec' & _ & Hc').
  exists c, c'. split; [exact Ec|]. split; [exact Ec'|]. intros i Hi.
  set (D := B 0%nat 0%nat * B 1%nat 1%nat - B 0%nat 1%nat * B 1%nat 0%nat) in *.
  assert (M : forall n, node_mass coor' conn nelem n = D * node_mass coor conn nelem n).
  { intros n. unfold node_mass. rewrite <- sumn_scal. apply sumn_ext. intros e He. rewrite <- sumn_scal. apply sumn_ext. intros m Hm.
    destruct (_ =? _)%nat; [|ring]. rewrite (turn_affine B b (corners coor conn e)); [fold D; unfold Rdiv; ring|exact Hm|].
    intros k l Hk Hl. apply HB; [exact (qm_node _ _ _ _ H e k He Hk)|exact Hl]. }
  assert (A : total_area coor' conn nelem = D * total_area coor conn nelem).
  { rewrite <- (nodal_mass_total coor' conn nelem nnode H' Hp), <- (nodal_mass_total coor conn nelem nnode H Hp), <- sumn_scal.
    apply sumn_ext. intros n Hn. apply M. }
  rewrite Hc' by exact Hi. rewrite sumn2, !Hc by lia. rewrite A.
  assert (N : sumn nnode (fun n => node_mass coor' conn nelem n * val2 coor' n i) =
    D * (b i * total_area coor conn nelem + B i 0%nat * sumn nnode (fun n => node_mass coor conn nelem n * val2 coor n 0)
      + B i 1%nat * sumn nnode (fun n => node_mass coor conn nelem n * val2 coor n 1))).
  { rewrite <- (nodal_mass_total coor conn nelem nnode H Hp), <- !sumn_scal, <- !sumn_plus, <- sumn_scal.
    apply sumn_ext. intros n Hn. rewrite M, HB by assumption. rewrite sumn2. ring. }
  rewrite N. field. now split.
Qed.

(** ** elemmap2nodemap *)
Theorem elemmap2nodemap_spec elem_map conn nelem N :
  shape2 conn nelem 4 -> (forall e m, (e < nelem)%nat -> (m < 4)%nat -> (idx2 conn e m < N)%nat) ->
  length elem_map = nelem -> (forall e, In e elem_map -> (e < nelem)%nat) ->
  exists ret, elemmap2nodemap elem_map N conn Quad4 = Ok ret /\ length ret = N /\
  forall n, (n < N)%nat ->
    ((forall e i, (e < nelem)%nat -> (i < 4)%nat -> idx2 conn e i <> n) /\ nth n ret 0%nat = N) \/
    (exists e i, (e < nelem)%nat /\ (i < 4)%nat /\ idx2 conn e i = n /\ nth n ret 0%nat = idx2 conn (nth e elem_map 0%nat) i /\
      forall e' i', (e' < nelem)%nat -> (i' < i)%nat -> idx2 conn e' i' <> n).
Proof.
  intros Hc Hn Hl He.
  set (inv := fun k (ret : list nat) => length ret = N /\ forall n, (n < N)%nat ->
    ((forall e i, (e < nelem)%nat -> (i < k)%nat -> idx2 conn e i <> n) /\ nth n ret 0%nat = N) \/
    (exists e i, (e < nelem)%nat /\ (i < k)%nat /\ idx2 conn e i = n /\ nth n ret 0%nat = idx2 conn (nth e elem_map 0%nat) i /\
      forall e' i', (e' < nelem)%nat -> (i' < i)%nat -> idx2 conn e' i' <> n)).
  unfold elemmap2nodemap. rewrite (proj1 Hc).
  set (step := fun ret i => _).
  assert (St : forall i ret, (i < 4)%nat -> inv i ret -> exists ret', step ret i = Ok ret' /\ inv (S i) ret').
  { intros i ret Hi [Lr Hr]. unfold step.
    rewrite (mapM_Ok _ _ (fun e => (idx2 conn e i, idx2 conn (nth e elem_map 0%nat) i))).
    2:{ intros e Hin. apply in_seq in Hin. rewrite (get2_nth 0%nat conn nelem 4 e i Hc) by lia. cbn [bind].
        rewrite (get_nth 0%nat) by lia. cbn [bind].
        rewrite (get2_nth 0%nat conn nelem 4 _ i Hc); [reflexivity|apply He, nth_In; lia|exact Hi]. }
    cbn [bind]. set (ws := map _ (seq 0 nelem)).
    destruct (write_all_Ok ws (repeat N N)) as (t & Et & Lt & T1 & _ & T2).
    { intros k v Hin. rewrite repeat_length. apply in_map_iff in Hin. destruct Hin as (e & E & Hin). apply in_seq in Hin.
      injection E as E _. rewrite <- E. apply Hn; [lia|exact Hi]. }
    rewrite Et. cbn [bind]. rewrite repeat_length in Lt.
    rewrite (mapM_Ok _ _ (fun n => if (nth n ret 0 =? N)%nat then nth n t 0%nat else nth n ret 0%nat)).
    2:{ intros n Hin. apply in_seq in Hin. rewrite !(get_nth 0%nat) by lia. reflexivity. }
    eexists. split; [reflexivity|]. split; [now rewrite map_length, seq_length|].
    intros n Hnn. rewrite nth_map_seq by exact Hnn. destruct (Hr n Hnn) as [[A E]|(e & i' & A1 & A2 & A3 & A4 & A5)].
    - rewrite E, Nat.eqb_refl. destruct (in_dec Nat.eq_dec n (map fst ws)) as [Hin|Hout].
      + right. destruct (T2 n Hin) as (v & Hv & Ev). apply in_map_iff in Hv. destruct Hv as (e & Ee & Hin'). apply in_seq in Hin'.
        injection Ee as E1 E2. exists e, i. split; [lia|]. split; [lia|]. split; [exact E1|].
        split; [rewrite (nth_error_nth _ _ _ Ev); now symmetry|]. intros e' i' He' Hi'. apply A; [exact He'|exact Hi'].
      + left. split.
        * intros e i' He' Hi'. destruct (Nat.eq_dec i' i) as [->|]; [|apply A; [exact He'|lia]].
          intros E'. apply Hout. unfold ws. rewrite map_map. apply in_map_iff. exists e. split; [exact E'|apply in_seq; lia].
        * pose proof (T1 n Hout) as Ev. rewrite (nth_error_nth' (repeat N N) 0%nat) in Ev by now rewrite repeat_length.
          rewrite (nth_error_nth _ _ _ Ev). rewrite (nth_indep _ _ N) by now rewrite repeat_length. apply nth_repeat.
    - assert (Hlt : (nth n ret 0 < N)%nat) by (rewrite A4; apply Hn; [apply He, nth_In; lia|lia]).
      destruct (Nat.eqb_spec (nth n ret 0%nat) N) as [E|_]; [lia|]. right. exists e, i'. repeat split; auto with arith. }
  assert (I0 : inv 0%nat (repeat N N)).
  { split; [apply repeat_length|]. intros n Hnn. left. split; [intros; lia|]. rewrite (nth_indep _ _ N) by now rewrite repeat_length. apply nth_repeat. }
  destruct (St 0%nat _ ltac:(lia) I0) as (r1 & E1 & I1). destruct (St 1%nat _ ltac:(lia) I1) as (r2 & E2 & I2).
  destruct (St 2%nat _ ltac:(lia) I2) as (r3 & E3 & I3). destruct (St 3%nat _ ltac:(lia) I3) as (r4 & E4 & I4).
  exists r4. cbn [seq foldM]. rewrite E1. cbn [bind]. rewrite E2. cbn [bind]. rewrite E3. cbn [bind]. rewrite E4. cbn [bind].
  split; [reflexivity|]. exact I4.
Qed.
