(** Lemmas for C117: conversions, tensors of scalars, control nodes, masses of the nodes. *)
From Coq Require Import Reals ZArith Lra Lia.
From Verif Require Import Model_Element Spec_Element Proof_Element Proof_ElementQuad4 Proof_ElementMath Proof_ElementThm Proof_ElementThm2.
From Verif Require Import Base Sums Spec Spec_Vector Spec_Misc Spec_Matrix Spec_MatrixDiagonal Spec_MeshGeometry Model_Numbering Proof_Numbering Model_Vector Proof_Vector Proof_Vector2 Model_Misc Proof_Misc Model_MatrixDiagonal Proof_MatrixDiagonal
  Model_MeshGeometry Proof_MeshGeometry Model_Tyings Proof_Tyings Model_Checked Spec_Checked Proof_Checked Model_CheckedMesh Spec_CheckedMesh Proof_CheckedMesh Model_CheckedMaps Model_CheckedMore Spec_CheckedMore.
Local Open Scope nat_scope.

(** ** tensors of scalars *)
Lemma begins_spec t : forall s, shape_begins t s = true <-> extends t s.
Proof.
  induction t as [|a t IH]; intros s; cbn [shape_begins].
  - split; [intros _; now exists s|reflexivity].
  - destruct s as [|b s]; [split; [discriminate|intros [x E]; discriminate]|]. rewrite andb_true_iff, Nat.eqb_eq, IH. split.
    + intros [-> [x ->]]. now exists x.
    + intros [x E]. injection E as -> ->. split; [reflexivity|now exists x].
Qed.
Lemma begins_length t s : extends t s -> (length t <=? length s) = true.
Proof. intros [x ->]. apply Nat.leb_le. rewrite app_length. lia. Qed.
Lemma has_begin_spec t s : has_shape_begin t s = true <-> extends t s.
Proof. unfold has_shape_begin. rewrite andb_true_iff, begins_spec. split; [tauto|]. intros E. split; [now apply begins_length|exact E]. Qed.
Lemma flat_length a : length (flat a) = numel (a_shape a).
Proof. unfold flat. rewrite map_length. apply indices_length. Qed.
Lemma flat_entry a ix : in_range (a_shape a) ix -> entry (a_shape a) (flat a) ix = Some (a_ent a ix).
Proof.
  intros H. rewrite entry_rank by (exact H || apply flat_length). unfold flat. rewrite nth_error_map, indices_nth by exact H. reflexivity.
Qed.
Lemma asTensor_valid arg extra : exists d, (forall ck, asTensor_checked ck arg (a_shape arg ++ extra) = Ok d) /\ length d = numel (a_shape arg ++ extra) /\
  forall ix kx, in_range (a_shape arg) ix -> in_range extra kx -> entry (a_shape arg ++ extra) d (ix ++ kx) = Some (a_ent arg ix).
Proof.
  destruct (AsTensor_spec (a_shape arg) (flat arg) extra (flat_length arg)) as (d & E & L & V). exists d. split; [|split; [exact L|]].
  - intros ck. unfold asTensor_checked. assert (X : extends (a_shape arg) (a_shape arg ++ extra)) by now exists extra.
    rewrite (begins_length _ _ X), (proj2 (has_begin_spec _ _) X), !assert_true. unfold AsTensor in E. destruct (asTensor _ _ _); cbn [bind] in E; congruence.
  - intros ix kx Hi Hk. rewrite V by assumption. now apply flat_entry.
Qed.
Lemma asTensor_invalid arg ret : ~ extends (a_shape arg) ret -> asTensor_checked true arg ret = Throw.
Proof.
  intros N. unfold asTensor_checked. apply assert_throw. intros _. apply assert_throw. intros E. apply has_begin_spec in E. contradiction.
Qed.

(** ** conversions *)
Lemma rows3_at {A} n k d (a : array A) (z : A) e m i : e < n -> m < k -> i < d -> nth3 z (rows3 n k d a) e m i = a_ent a [e; m; i].
Proof. intros He Hm Hi. exact (tab3_nth z n k d (fun e m i => a_ent a [e; m; i]) e m i He Hm Hi). Qed.
Lemma largest_of conn nelem nne N : largest_node conn nelem nne N -> S (fold_right Nat.max 0 (concat (rows2 nelem nne conn))) = N.
Proof.
  intros [B (e & m & He & Hm & E)]. assert (I : In (a_ent conn [e; m]) (concat (rows2 nelem nne conn))) by (apply in_rows2; eauto).
  apply amax_ge in I. unfold amax in I.
  destruct (proj2 (amax_nodes nelem nne conn N)) as []; [split; [lia|exact B]|].
  pose proof (proj2 (amax_nodes nelem nne conn N) ltac:(split; [lia|exact B])) as L. apply Nat.ltb_lt in L. unfold amax in L. lia.
Qed.
Lemma asElement_valid conn nodevec nelem nne n ndim : a_shape conn = [nelem; nne] -> a_shape nodevec = [n; ndim] ->
  (forall e m, e < nelem -> m < nne -> a_ent conn [e; m] < n) ->
  exists f, asElementVector_checked conn nodevec = Ok f /\ shape3 f nelem nne ndim /\
    forall e m i, e < nelem -> m < nne -> i < ndim -> val3 f e m i = a_ent nodevec [a_ent conn [e; m]; i].
Proof.
  intros E1 E2 B. unfold asElementVector_checked. rewrite E1, E2. unfold asElementVector. rewrite (proj1 (rows2_shape nelem nne conn)).
  exists (tab3 nelem nne ndim (fun e m i => a_ent nodevec [a_ent conn [e; m]; i])). split; [|split; [apply tab3_shape|intros; now apply (tab3_nth 0%R)]].
  apply fill3_Ok. intros e m i He Hm Hi. rewrite (get2_nth 0 _ nelem nne) by (apply rows2_shape || assumption). cbn [bind].
  rewrite rows2_nth by assumption. rewrite (get2_nth 0%R _ n ndim) by (apply rows2_shape || assumption || now apply B). f_equal.
  exact (tab2_nth 0%R n ndim (fun a b => a_ent nodevec [a; b]) _ i (B e m He Hm) Hi).
Qed.
Lemma asElement_oob conn nodevec nelem nne n ndim : a_shape conn = [nelem; nne] -> a_shape nodevec = [n; ndim] ->
  forall e m, 0 < ndim -> e < nelem -> m < nne -> n <= a_ent conn [e; m] -> asElementVector_checked conn nodevec = Oob.
Proof.
  intros E1 E2 e m Hd He Hm H. unfold asElementVector_checked. rewrite E1, E2. unfold asElementVector. rewrite (proj1 (rows2_shape nelem nne conn)).
  assert (T : forall e m i, (exists y, (bind (get2 (rows2 nelem nne conn) e m) (fun node => get2 (rows2 n ndim nodevec) node i)) = Ok y) \/ (bind (get2 (rows2 nelem nne conn) e m) (fun node => get2 (rows2 n ndim nodevec) node i)) = Oob).
  { intros. unfold get2. apply Proof_CheckedMatrixTyings2.bind_two; [apply Proof_CheckedMatrixTyings2.bind_two; [apply Proof_CheckedMatrixTyings2.get_two|intros; apply Proof_CheckedMatrixTyings2.get_two]|]. intros. apply Proof_CheckedMatrixTyings2.bind_two; [apply Proof_CheckedMatrixTyings2.get_two|intros; apply Proof_CheckedMatrixTyings2.get_two]. }
  unfold fill3. apply (Proof_CheckedMatrixTyings2.mapM_oob _ _ e); [apply in_seq; lia| |].
  - apply (Proof_CheckedMatrixTyings2.mapM_oob _ _ m); [apply in_seq; lia| |].
    + apply (Proof_CheckedMatrixTyings2.mapM_oob _ _ 0); [apply in_seq; lia| |intros; apply T].
      rewrite (get2_nth 0 _ nelem nne) by (apply rows2_shape || assumption). cbn [bind]. rewrite rows2_nth by assumption.
      unfold get2, get. rewrite (proj2 (nth_error_None _ _)); [reflexivity|]. now rewrite (proj1 (rows2_shape n ndim nodevec)).
    + intros. apply Proof_CheckedMatrixTyings2.mapM_two. intros. apply T.
  - intros. apply Proof_CheckedMatrixTyings2.mapM_two. intros. apply Proof_CheckedMatrixTyings2.mapM_two. intros. apply T.
Qed.
Lemma assemble_valid conn elemvec nelem nne ndim N : a_shape conn = [nelem; nne] -> a_shape elemvec = [nelem; nne; ndim] -> largest_node conn nelem nne N ->
  exists u, (forall ck, assembleNodeVector_checked ck conn elemvec = Ok u) /\ shape2 u N ndim /\
    forall n i, n < N -> i < ndim -> val2 u n i = sumn nelem (fun e => sumn nne (fun m => if a_ent conn [e; m] =? n then a_ent elemvec [e; m; i] else 0))%R.
Proof.
  intros E1 E2 L. destruct (assembleNodeVector_spec (rows2 nelem nne conn) nelem nne ndim (rows2_shape _ _ _) (rows3 nelem nne ndim elemvec) (rows3_shape _ _ _ _)) as (u & E & S & V).
  rewrite (largest_of _ _ _ _ L) in S, V. exists u. split; [|split; [exact S|]].
  - intros ck. unfold assembleNodeVector_checked. rewrite E1, E2, !Nat.eqb_refl, !assert_true. exact E.
  - intros n i Hn Hi. rewrite V by assumption. apply sumn_ext. intros e He. apply sumn_ext. intros m Hm. rewrite rows2_nth by assumption.
    unfold val3. rewrite rows3_at by assumption. destruct (_ =? n); unfold ind; lra.
Qed.
Lemma assemble_invalid conn elemvec : (forall nelem nne ndim, a_shape conn = [nelem; nne] -> a_shape elemvec <> [nelem; nne; ndim]) -> assembleNodeVector_checked true conn elemvec = Throw.
Proof.
  intros N. unfold assembleNodeVector_checked. destruct (a_shape conn) as [|nelem [|nne [|]]] eqn:E1; try reflexivity. destruct (a_shape elemvec) as [|n [|k [|ndim [|]]]] eqn:E2; try reflexivity.
  apply assert_throw. intros Q1. apply assert_throw. intros Q2. apply Nat.eqb_eq in Q1, Q2. subst. now destruct (N nelem nne ndim).
Qed.

(** ** control nodes *)
Lemma Control_valid coor dofs nnode ndim : a_shape coor = [nnode; ndim] -> a_shape dofs = [nnode; ndim] ->
  forall ck, Control_checked ck coor dofs = Ok (new_Control (rows2 nnode ndim coor) nnode ndim (rows2 nnode ndim dofs)).
Proof. intros E1 E2 ck. unfold Control_checked. now rewrite E1, E2, has_shape_refl, assert_true, Nat.eqb_refl. Qed.
Lemma Control_invalid coor dofs : ~ (exists nnode ndim, a_shape coor = [nnode; ndim] /\ a_shape dofs = [nnode; ndim]) -> Control_checked true coor dofs = Throw.
Proof.
  intros N. unfold Control_checked. destruct (a_shape coor) as [|a [|b [|]]] eqn:E1; try reflexivity. destruct (a_shape dofs) as [|c [|d [|]]] eqn:E2; try reflexivity.
  apply assert_throw. intros Q. apply has_shape_eq in Q. injection Q as -> ->. destruct N. eauto.
Qed.

(** ** masses of the nodes *)
Lemma mass_diag nelem x Q es old j j' : Quad4_obj nelem 4 (Nodal4_xi j) (Nodal4_w j') x Q -> Spec_Element.schedule nelem es ->
  forall e r c, e < nelem -> r < 8 -> c < 8 -> r <> c -> Quad4_int_N_scalar_NT_dV es Q (fun _ => 1%R) old [e; r; c] = 0%R.
Proof.
  intros HQ Hes e r c He Hr Hc N. pose proof (Quad4_facts _ _ _ _ _ _ HQ) as F.
  replace r with (r / 2 * 2 + r mod 2) by (pose proof (Nat.div_mod r 2 ltac:(lia)); lia). replace c with (c / 2 * 2 + c mod 2) by (pose proof (Nat.div_mod c 2 ltac:(lia)); lia).
  pose proof (Nat.mod_upper_bound r 2 ltac:(lia)). pose proof (Nat.mod_upper_bound c 2 ltac:(lia)).
  assert (r / 2 < 4) by (apply Nat.div_lt_upper_bound; lia). assert (c / 2 < 4) by (apply Nat.div_lt_upper_bound; lia).
  destruct (Nat.eq_dec (r mod 2) (c mod 2)) as [Q1|Q1].
  - rewrite Q1. rewrite (mass_nodal nelem j j' x Q es _ old e (r / 2) (c mod 2) (c / 2) HQ Hes) by assumption.
    destruct (Nat.eqb_spec (r / 2) (c / 2)) as [Q2|]; [|reflexivity]. exfalso. apply N. pose proof (Nat.div_mod r 2 ltac:(lia)). pose proof (Nat.div_mod c 2 ltac:(lia)). lia.
  - unfold Quad4_int_N_scalar_NT_dV. rewrite (mass_at _ _ _ _ _ _ _ F _ Hes) by assumption. destruct (Nat.eqb_spec (r mod 2) (c mod 2)); [contradiction|reflexivity].
Qed.
Lemma element_ok coor conn nnode ndim nelem nne : (forall e m, e < nelem -> m < nne -> a_ent conn [e; m] < nnode) ->
  exists x, AsElement_nodevec (mkVector (rows2 nelem nne conn) nne (dofs nnode ndim) ndim) (rows2 nnode ndim coor) = Ok x.
Proof.
  intros B. unfold AsElement_nodevec. unfold m_nelem. cbn [m_conn m_nne m_ndim]. rewrite (proj1 (rows2_shape nelem nne conn)).
  eexists. apply (fill3_Ok _ _ _ _ (fun e m i => a_ent coor [a_ent conn [e; m]; i])). intros e m i He Hm Hi.
  rewrite (get2_nth 0 _ nelem nne) by (apply rows2_shape || assumption). cbn [bind].
  rewrite rows2_nth by assumption. rewrite (get2_nth 0%R _ nnode ndim) by (apply rows2_shape || assumption || now apply B). f_equal.
  exact (tab2_nth 0%R nnode ndim (fun a b => a_ent coor [a; b]) _ i (B e m He Hm) Hi).
Qed.
Lemma nodal_mass_same coor conn type nnode nelem mem : quad_input coor conn type nnode nelem -> Spec_Element.schedule nelem (es_new mem) -> Spec_Element.schedule nelem (es_int mem) ->
  forall ck, nodal_mass_checked ck mem coor conn type = nodal_mass mem (rows2 nnode 2 coor) 2 (rows2 nelem 4 conn) 4 Quad4.
Proof.
  intros Q S1 S2 ck. pose proof (quad_of _ _ _ _ _ Q) as HQ. destruct Q as (E1 & E2 & T & N0 & N). unfold nodal_mass_checked, nodal_mass. rewrite E1, E2.
  rewrite (proj2 (type_quad4 2 4 type) T). cbn [bind]. cbv zeta. rewrite (proj1 (rows2_shape nnode 2 coor)), (proj1 (rows2_shape nelem 4 conn)).
  assert (A1 : (amax (concat (rows2 nelem 4 conn)) + 1 <=? nnode) = true).
  { apply Nat.leb_le. pose proof (proj2 (amax_nodes nelem 4 conn nnode) (conj N0 N)) as L. apply Nat.ltb_lt in L. lia. }
  rewrite A1, assert_true. set (v := mkVector _ _ _ _).
  destruct (V_sizes v nelem 4 nnode 2 (nnode * 2) eq_refl eq_refl (qm_md _ _ _ _ HQ N0)) as (_ & _ & S3).
  rewrite S3, Nat.leb_refl, assert_true. destruct (AsElement_nodevec v (rows2 nnode 2 coor)) as [x| | |]; cbn [bind]; try reflexivity.
  cbn [Nat.eqb andb]. rewrite !assert_true. destruct ck; [|reflexivity].
  set (Qd := Quad4_new _ _ _ _ _ _ _ _ _ _ _). set (KK := Quad4_int_N_scalar_NT_dV _ _ _ _). set (K := to_rows nelem 8 8 KK).
  destruct (isDiagonal_spec nelem 8 K (tab3_shape nelem 8 8 (fun e i j => KK [e; i; j]))) as (b & Eb & Hb). rewrite Eb. cbn [bind].
  assert (B : b = true).
  { apply Hb. intros e i j He Hi Hj Hij. unfold val3, K, to_rows. rewrite (tab3_nth 0%R nelem 8 8 (fun e i j => KK [e; i; j])) by assumption. unfold KK.
    rewrite (mass_diag nelem (of_rows x) Qd (es_int mem) (j_K mem) (j_xi mem) (j_w mem) (Quad4_obj_new nelem 4 _ _ _ _ _ _ _ _ _ S1) S2) by assumption.
    rewrite Rabs_R0. unfold Model_Misc.eps. lra. }
  rewrite B, assert_true. reflexivity.
Qed.
Lemma nodal_mass_invalid coor conn type mem : (forall nnode nelem, ~ quad_input coor conn type nnode nelem) -> nodal_mass_checked true mem coor conn type = Throw.
Proof.
  intros G. unfold nodal_mass_checked. destruct (a_shape coor) as [|nnode [|ndim [|]]] eqn:E1; try reflexivity. destruct (a_shape conn) as [|nelem [|nne [|]]] eqn:E2; try reflexivity.
  destruct (type_cases ndim nne type) as [[t Et]|Et]; rewrite Et; [|reflexivity]. cbn [bind]. cbv zeta.
  apply assert_throw. intros A1. apply assert_throw. intros _. destruct t; try reflexivity.
  apply Nat.leb_le in A1. assert (B : 0 < nnode /\ forall e m, e < nelem -> m < nne -> a_ent conn [e; m] < nnode) by (apply amax_nodes; apply Nat.ltb_lt; lia).
  destruct (element_ok coor conn nnode ndim nelem nne (proj2 B)) as [x Ex]. rewrite Ex. cbn [bind].
  apply assert_throw. intros A3. apply assert_throw. intros A4. apply Nat.eqb_eq in A3, A4. subst. apply type_quad4 in Et. exfalso. apply (G nnode nelem). unfold quad_input. tauto.
Qed.

(** the masses in terms of the arrays *)
Definition mass_of (coor : array R) (conn : array nat) (nelem n : nat) : R :=
  sumn nelem (fun e => sumn 4 (fun m => if a_ent conn [e; m] =? n then turn (corner coor conn e) m / 4 else 0))%R.
Lemma mass_rows coor conn type nnode nelem n : quad_input coor conn type nnode nelem -> node_mass (rows2 nnode 2 coor) (rows2 nelem 4 conn) nelem n = mass_of coor conn nelem n.
Proof.
  intros Q. unfold node_mass, mass_of. apply sumn_ext. intros e He. apply sumn_ext. intros m Hm. rewrite rows2_nth by assumption. destruct (_ =? n); [|reflexivity].
  unfold turn. cbv zeta. assert (Z : forall k i, k < 4 -> i < 2 -> corners (rows2 nnode 2 coor) (rows2 nelem 4 conn) e k i = corner coor conn e k i) by (intros; now apply (corners_rows coor conn type nnode nelem Q)).
  revert m Hm. apply lt4; cbn [Nat.add Nat.modulo Nat.divmod fst snd Nat.sub]; rewrite !Z by lia; reflexivity.
Qed.
Lemma nodal_mass_valid coor conn type nnode nelem mem : quad_input coor conn type nnode nelem -> Spec_Element.schedule nelem (es_new mem) -> Spec_Element.schedule nelem (es_int mem) ->
  exists w, (forall ck, nodal_mass_checked ck mem coor conn type = Ok w) /\ shape2 w nnode 2 /\ forall n i, n < nnode -> i < 2 -> val2 w n i = mass_of coor conn nelem n.
Proof.
  intros Q S1 S2. pose proof (quad_of _ _ _ _ _ Q) as HQ. assert (N0 : 0 < nnode) by (destruct Q as (_ & _ & _ & P & _); exact P).
  destruct (nodal_mass_spec _ _ _ _ HQ N0 mem S1 S2) as (w & E & S & V). exists w. split; [|split; [exact S|]].
  - intros ck. now rewrite (nodal_mass_same _ _ _ _ _ _ Q S1 S2).
  - intros n i Hn Hi. rewrite V by assumption. now apply (mass_rows coor conn type).
Qed.
Lemma cog_valid coor conn type nnode nelem mem : quad_input coor conn type nnode nelem -> Spec_Element.schedule nelem (es_new mem) -> Spec_Element.schedule nelem (es_int mem) ->
  exists c, (forall ck, center_of_gravity_checked ck mem coor conn type = Ok c) /\ length c = 2 /\
    forall j, j < 2 -> val1 c j = (sumn nnode (fun n => mass_of coor conn nelem n * a_ent coor [n; j]) / sumn nnode (fun n => mass_of coor conn nelem n))%R.
Proof.
  intros Q S1 S2. pose proof (quad_of _ _ _ _ _ Q) as HQ. destruct (nodal_mass_valid _ _ _ _ _ mem Q S1 S2) as (w & E & S & V).
  assert (N0 : 0 < nnode) by (destruct Q as (_ & _ & _ & P & _); exact P). destruct (average_spec _ _ _ _ HQ N0 w S) as (c & Ec & Lc & Hc). exists c. split; [|split; [exact Lc|]].
  - intros ck. unfold center_of_gravity_checked. rewrite (proj1 Q). rewrite E. cbn [bind].
    assert (A : (length w =? nnode) && forallb (fun r => length r =? 2) w = true).
    { destruct S as [L R]. rewrite L, Nat.eqb_refl. cbn [andb]. apply forallb_forall. intros r Hr. apply Nat.eqb_eq. now apply R. }
    now rewrite A, assert_true.
  - intros j Hj. rewrite Hc by assumption. f_equal; apply sumn_ext; intros n Hn; rewrite V by assumption; [|reflexivity].
    rewrite Rmult_comm. f_equal. exact (tab2_nth 0%R nnode 2 (fun a b => a_ent coor [a; b]) n j Hn Hj).
Qed.
Lemma cog_invalid coor conn type mem : (forall nnode nelem, ~ quad_input coor conn type nnode nelem) -> center_of_gravity_checked true mem coor conn type = Throw.
Proof.
  intros G. unfold center_of_gravity_checked. destruct (a_shape coor) as [|nnode [|ndim [|]]]; try reflexivity. now rewrite nodal_mass_invalid.
Qed.
Lemma rows2_val n d (a : array R) i j : i < n -> j < d -> val2 (rows2 n d a) i j = a_ent a [i; j].
Proof. intros Hi Hj. exact (tab2_nth 0%R n d (fun a0 b => a_ent a [a0; b]) i j Hi Hj). Qed.
