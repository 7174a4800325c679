(** Functions on meshes in the checked build. *)
From Coq Require Import Reals ZArith Lra.
From Verif Require Import Spec_Element Base Sums Spec Spec_Vector Spec2d Spec_Topology Spec_MeshGeometry Model_Numbering Model_Vector Proof_Vector Proof_Vector2 Model_Topology Proof_Topology Model_Misc
  Model_MeshGeometry Proof_MeshGeometry Model_Regular2d Proof_Regular2d Model_Checked Spec_Checked Proof_Checked Model_CheckedMesh Spec_CheckedMesh.
From Verif Require Proof_CheckedMatrixTyings2 Proof_StitchChecked.

(** ** quadrilaterals *)
Lemma amax_nodes n k (conn : array nat) N : (amax (concat (rows2 n k conn)) <? N) = true <-> 0 < N /\ forall e m, e < n -> m < k -> a_ent conn [e; m] < N.
Proof.
  rewrite Proof_StitchChecked.amax_lt. unfold Spec_StitchChecked.subset_of. split; intros [H0 H]; (split; [exact H0|]).
  - intros e m He Hm. apply H. apply in_rows2. eauto.
  - intros x Hx. apply in_rows2 in Hx. destruct Hx as (e & m & He & Hm & <-). now apply H.
Qed.
Lemma type_cases ndim nne type : (exists t, the_type ndim nne type = Ok t) \/ the_type ndim nne type = Throw.
Proof. unfold the_type, defaultElementType. destruct type; [eauto|]. repeat (destruct (_ && _); [eauto|]). auto. Qed.
Lemma type_quad4 ndim nne type : the_type ndim nne type = Ok Quad4 <-> is_quad4 ndim nne type.
Proof.
  unfold the_type, is_quad4, defaultElementType. destruct type as [t|].
  - split; [intros [= ->]; auto|intros [[= ->]|[H _]]; [reflexivity|discriminate]].
  - destruct (Nat.eqb_spec ndim 2), (Nat.eqb_spec nne 3), (Nat.eqb_spec nne 4), (Nat.eqb_spec ndim 3), (Nat.eqb_spec nne 8); subst; cbn [andb]; try lia;
      (split; [intros H; try discriminate; try (right; tauto)|intros [H|(_ & H1 & H2)]; try discriminate; try reflexivity; try lia]).
Qed.
Lemma quad_of coor conn type nnode nelem : quad_input coor conn type nnode nelem -> quad_mesh (rows2 nnode 2 coor) (rows2 nelem 4 conn) nelem nnode.
Proof.
  intros (_ & _ & _ & _ & H). constructor; [apply rows2_shape|apply rows2_shape|]. intros e m He Hm. rewrite rows2_nth by assumption. now apply H.
Qed.
Lemma quad_ok {B} coor conn type nnode nelem ck (k : res B) (F : res B -> res B) : quad_input coor conn type nnode nelem ->
  (do t <- the_type 2 4 type; assert ck (amax (concat (rows2 nelem 4 conn)) <? nnode) (F (match t with Quad4 => assert ck (2 =? 2) (assert ck (4 =? 4) k) | _ => Throw end))) = F k.
Proof.
  intros (_ & _ & T & N0 & N). rewrite (proj2 (type_quad4 2 4 type) T). cbn [bind].
  rewrite (proj2 (amax_nodes _ _ _ _)) by auto. now rewrite !assert_true.
Qed.
Lemma quad_guard {B} coor conn type nnode ndim nelem nne (k : res B) (F : res B -> res B) : F Throw = Throw ->
  a_shape coor = [nnode; ndim] -> a_shape conn = [nelem; nne] -> (forall n e, ~ quad_input coor conn type n e) ->
  (do t <- the_type ndim nne type; assert true (amax (concat (rows2 nelem nne conn)) <? nnode) (F (match t with Quad4 => assert true (ndim =? 2) (assert true (nne =? 4) k) | _ => Throw end))) = Throw.
Proof.
  intros HF E1 E2 N. destruct (type_cases ndim nne type) as [[t Et]|Et]; rewrite Et; [|reflexivity]. cbn [bind].
  destruct (_ <? nnode) eqn:L; [|reflexivity]. rewrite assert_true. apply amax_nodes in L. destruct t; try exact HF.
  destruct (Nat.eqb_spec ndim 2) as [->|]; [|exact HF]. destruct (Nat.eqb_spec nne 4) as [->|]; [|exact HF].
  apply type_quad4 in Et. destruct (N nnode nelem). unfold quad_input. tauto.
Qed.
Lemma corners_rows coor conn type nnode nelem : quad_input coor conn type nnode nelem -> forall e m i, e < nelem -> m < 4 -> i < 2 ->
  corners (rows2 nnode 2 coor) (rows2 nelem 4 conn) e m i = corner coor conn e m i.
Proof.
  intros (_ & _ & _ & _ & H) e m i He Hm Hi. unfold corners, corner, val2. rewrite rows2_nth by assumption.
  exact (tab2_nth 0%R _ _ (fun m i => a_ent coor [m; i]) _ i (H e m He Hm) Hi).
Qed.
Lemma quad_shapes coor conn : (exists nnode ndim nelem nne, a_shape coor = [nnode; ndim] /\ a_shape conn = [nelem; nne]) \/
  (forall B (k : nat -> nat -> nat -> nat -> res B), match a_shape (A := R) coor, a_shape (A := nat) conn with [nnode; ndim], [nelem; nne] => k nnode ndim nelem nne | _, _ => Throw end = Throw).
Proof.
  destruct (a_shape coor) as [|a [|b [|]]]; try (right; reflexivity). destruct (a_shape conn) as [|c [|d [|]]]; try (right; reflexivity). left. now exists a, b, c, d.
Qed.

Lemma edgesize_valid coor conn type nnode nelem : quad_input coor conn type nnode nelem ->
  exists r, (forall ck, edgesize_checked ck coor conn type = Ok r) /\ shape2 r nelem 4 /\
    forall e k, e < nelem -> k < 4 -> let l := (k + 1) mod 4 in
      val2 r e k = sqrt ((corner coor conn e l 0 - corner coor conn e k 0) ^ 2 + (corner coor conn e l 1 - corner coor conn e k 1) ^ 2)%R.
Proof.
  intros Q. destruct (edgesize_spec _ _ _ _ (quad_of _ _ _ _ _ Q)) as (r & E & S & V). exists r. split; [|split; [exact S|]].
  - intros ck. unfold edgesize_checked. destruct Q as (E1 & E2 & Q). rewrite E1, E2. rewrite (quad_ok coor conn type nnode nelem ck _ (fun x => x) (conj E1 (conj E2 Q))). now rewrite E.
  - intros e k He Hk l. assert (Hl : l < 4) by (apply Nat.mod_upper_bound; lia). rewrite V by assumption. fold l. cbv [sumn seq sumL map fold_right].
    rewrite !(corners_rows _ _ _ _ _ Q) by (assumption || lia). f_equal. ring.
Qed.
Lemma edgesize_invalid coor conn type : (forall nnode nelem, ~ quad_input coor conn type nnode nelem) -> edgesize_checked true coor conn type = Throw.
Proof.
  intros N. unfold edgesize_checked. destruct (quad_shapes coor conn) as [(a & b & c & d & E1 & E2)|H]; [|apply H]. rewrite E1, E2.
  exact (quad_guard coor conn type a b c d _ (fun x => x) eq_refl E1 E2 N).
Qed.
Lemma centers_valid coor conn type nnode nelem : quad_input coor conn type nnode nelem ->
  exists r, (forall ck, centers_checked ck coor conn type = Ok r) /\ shape2 r nelem 2 /\
    forall e j, e < nelem -> j < 2 -> val2 r e j = ((corner coor conn e 0 j + corner coor conn e 1 j + corner coor conn e 2 j + corner coor conn e 3 j) / 4)%R.
Proof.
  intros Q. destruct (centers_spec _ _ _ _ (quad_of _ _ _ _ _ Q)) as (r & E & S & V). exists r. split; [|split; [exact S|]].
  - intros ck. unfold centers_checked. destruct Q as (E1 & E2 & Q). rewrite E1, E2. now rewrite (quad_ok coor conn type nnode nelem ck _ (fun x => x) (conj E1 (conj E2 Q))).
  - intros e j He Hj. rewrite V by assumption. cbv [sumn seq sumL map fold_right]. rewrite !(corners_rows _ _ _ _ _ Q) by (assumption || lia). lra.
Qed.
Lemma centers_invalid coor conn type : (forall nnode nelem, ~ quad_input coor conn type nnode nelem) -> centers_checked true coor conn type = Throw.
Proof.
  intros N. unfold centers_checked. destruct (quad_shapes coor conn) as [(a & b & c & d & E1 & E2)|H]; [|apply H]. rewrite E1, E2.
  exact (quad_guard coor conn type a b c d _ (fun x => x) eq_refl E1 E2 N).
Qed.

(** ** element maps *)
Lemma rows1_nth n (a : array nat) k : k < n -> nth k (rows1 n a) 0 = a_ent a [k].
Proof. intros H. exact (nth_map_seq (fun k => a_ent a [k]) n k 0 H). Qed.
Lemma rows2_length {A} n d (a : array A) : length (rows2 n d a) = n.
Proof. unfold rows2. now rewrite map_length, seq_length. Qed.
Lemma at2_rows2 n d (a : array nat) e i : e < n -> i < d -> at2 (rows2 n d a) e i = Some (a_ent a [e; i]).
Proof.
  intros He Hi. unfold at2. rewrite (nth_error_nth' _ []) by now rewrite rows2_length.
  rewrite (nth_error_nth' _ 0); [f_equal; now apply rows2_nth|]. now rewrite (proj2 (rows2_shape n d a)) by (apply nth_In; rewrite rows2_length; lia).
Qed.
Lemma at2_rows2_inv n d (a : array nat) e i x : at2 (rows2 n d a) e i = Some x -> e < n /\ i < d /\ a_ent a [e; i] = x.
Proof.
  intros H. assert (He : e < n).
  { unfold at2 in H. destruct (nth_error _ e) eqn:E; [|discriminate]. rewrite <- (rows2_length n d a). apply nth_error_Some. congruence. }
  assert (Hi : i < d).
  { unfold at2 in H. destruct (nth_error (rows2 n d a) e) as [r|] eqn:E; [|discriminate]. rewrite <- (proj2 (rows2_shape n d a) r (nth_error_In _ _ E)). apply nth_error_Some. congruence. }
  rewrite at2_rows2 in H by assumption. repeat split; try assumption. congruence.
Qed.
Lemma in_rows2' n d (a : array nat) x : In x (concat (rows2 n d a)) -> exists e i, e < n /\ i < d /\ a_ent a [e; i] = x.
Proof. intros H. now apply in_rows2. Qed.
Lemma map_valid elem_map coor conn type nnode nelem : quad_input coor conn type nnode nelem -> a_shape elem_map = [nelem] -> (forall e, e < nelem -> a_ent elem_map [e] < nelem) ->
  exists r, (forall ck, elemmap2nodemap_checked ck elem_map coor conn type = Ok r) /\ length r = nnode /\
    forall n, n < nnode ->
      ((forall e i, e < nelem -> i < 4 -> a_ent conn [e; i] <> n) /\ nth n r 0 = nnode) \/
      (exists e i, e < nelem /\ i < 4 /\ a_ent conn [e; i] = n /\ nth n r 0 = a_ent conn [a_ent elem_map [e]; i] /\
         (forall e', e < e' -> e' < nelem -> a_ent conn [e'; i] <> n) /\ (forall e' i', e' < nelem -> i' < i -> a_ent conn [e'; i'] <> n)).
Proof.
  intros Q E0 H. pose proof (quad_of _ _ _ _ _ Q) as M.
  destruct (Proof_Topology.elemmap2nodemap_spec (rows1 nelem elem_map) nnode (rows2 nelem 4 conn)) as (r & E & L & V).
  - split; [rewrite rows2_length; apply rows2_shape|]. split; [unfold rows1; now rewrite rows2_length, map_length, seq_length|]. split.
    + intros x Hx. rewrite rows2_length. apply in_rows1 in Hx. destruct Hx as (k & Hk & <-). now apply H.
    + intros n Hn. apply in_rows2 in Hn. destruct Hn as (e & m & He & Hm & <-). now apply Q.
  - exists r. split; [|split; [exact L|]].
    + intros ck. unfold elemmap2nodemap_checked. pose proof Q as (E1 & E2 & _). rewrite E0, E1, E2.
      rewrite (quad_ok coor conn type nnode nelem ck _ (fun x => assert ck (nelem =? nelem) x) Q), Nat.eqb_refl, assert_true. exact E.
    + intros n Hn. destruct (V n Hn) as (v & Ev & [[-> A]|(i & e & e' & [A1 A2] & B & C & D)]).
      * left. split; [|exact (nth_error_nth _ _ _ Ev)]. intros e i He Hi F. apply A. apply in_rows2. eauto.
      * right. apply at2_rows2_inv in A1. destruct A1 as (He & Hi & A1). apply at2_rows2_inv in D. destruct D as (_ & _ & D).
        assert (Em : a_ent elem_map [e] = e') by (rewrite <- (rows1_nth nelem elem_map e He); exact (nth_error_nth _ _ _ C)).
        exists e, i. rewrite Em, D. repeat split; try assumption; [exact (nth_error_nth _ _ _ Ev)| |].
        -- intros k K1 K2 F. apply (A2 k K1). now rewrite at2_rows2, F.
        -- intros k j K1 K2 F. apply (B j k K2). rewrite at2_rows2, F by lia. reflexivity.
Qed.
Lemma map_oob elem_map coor conn type nnode nelem e ck : quad_input coor conn type nnode nelem -> a_shape elem_map = [nelem] -> e < nelem -> nelem <= a_ent elem_map [e] ->
  elemmap2nodemap_checked ck elem_map coor conn type = Oob.
Proof.
  intros Q E0 He H. pose proof (quad_of _ _ _ _ _ Q) as M. unfold elemmap2nodemap_checked. pose proof Q as (E1 & E2 & _). rewrite E0, E1, E2.
  rewrite (quad_ok coor conn type nnode nelem ck _ (fun x => assert ck (nelem =? nelem) x) Q), Nat.eqb_refl, assert_true.
  unfold Model_Topology.elemmap2nodemap. cbn [foldM]. unfold column_map.
  assert (S : shape2 (rows2 nelem 4 conn) nelem 4) by apply M. assert (L : length (rows1 nelem elem_map) = nelem) by (unfold rows1; now rewrite map_length, seq_length).
  assert (V : forall y, y < nelem -> nth_error (enum (rows2 nelem 4 conn)) y = Some (y, nth y (rows2 nelem 4 conn) [])).
  { intros y Hy. rewrite enum_nth. rewrite (nth_error_nth' _ []) by (rewrite rows2_length; exact Hy). reflexivity. }
  match goal with |- context [mapM ?f (enum _)] => assert (Z : mapM f (enum (rows2 nelem 4 conn)) = Oob) end.
  - apply (Proof_CheckedMatrixTyings2.mapM_oob _ _ (e, nth e (rows2 nelem 4 conn) [])); [exact (nth_error_In _ _ (V e He))| |].
    + cbn [fst snd]. rewrite (get_nth 0) by lia. cbn [bind]. rewrite rows1_nth by exact He.
      unfold get at 1. rewrite (proj2 (nth_error_None _ _)); [reflexivity|]. rewrite rows2_length. exact H.
    + intros p Hp. apply In_nth_error in Hp. destruct Hp as [y Hp]. assert (Hy : y < nelem).
      { rewrite <- (rows2_length nelem 4 conn), <- enum_length. apply nth_error_Some. congruence. }
      rewrite (V y Hy) in Hp. injection Hp as <-. cbn [fst snd]. rewrite (get_nth 0) by lia. cbn [bind].
      assert (W : forall z, z < nelem -> length (nth z (rows2 nelem 4 conn) []) = 4) by (intros z Hz; apply S; apply nth_In; now rewrite rows2_length).
      destruct (lt_dec (nth y (rows1 nelem elem_map) 0) nelem) as [K|K].
      * left. rewrite (get_nth []) by (rewrite rows2_length; exact K). cbn [bind]. rewrite !(get_nth 0) by (rewrite W; lia). cbn [bind].
        eauto.
      * right. unfold get at 1. rewrite (proj2 (nth_error_None _ _)); [reflexivity|]. rewrite rows2_length. lia.
  - rewrite Z. reflexivity.
Qed.
Lemma map_invalid elem_map coor conn type : (forall nnode nelem, quad_input coor conn type nnode nelem -> a_shape elem_map <> [nelem]) ->
  elemmap2nodemap_checked true elem_map coor conn type = Throw.
Proof.
  intros N. unfold elemmap2nodemap_checked. destruct (a_shape elem_map) as [|n [|]] eqn:E0; try reflexivity.
  destruct (quad_shapes coor conn) as [(a & b & c & d & E1 & E2)|H]; [|apply H]. rewrite E1, E2.
  destruct (Nat.eqb_spec n c) as [->|Hn].
  - apply (quad_guard coor conn type a b c d _ (fun x => assert true true x) eq_refl E1 E2). intros x y Q. pose proof Q as (F1 & F2 & _). apply (N _ _ Q). congruence.
  - destruct (type_cases b d type) as [[t Et]|Et]; rewrite Et; [|reflexivity]. cbn [bind]. destruct (_ <? a); reflexivity.
Qed.

(** ** tyings *)
Lemma std_equal_refl r : std_equal r r = Ok true.
Proof. induction r; cbn; [reflexivity|]. now rewrite Nat.eqb_refl. Qed.
Lemma std_equal_true r : forall t, std_equal r t = Ok true -> exists s, t = r ++ s.
Proof.
  induction r as [|x r IH]; intros t; cbn; [exists t; reflexivity|]. destruct t as [|y t]; [discriminate|].
  destruct (Nat.eqb_spec x y) as [->|]; [|discriminate]. intros H. destruct (IH t H) as [s ->]. now exists s.
Qed.
Lemma std_equal_cases r : forall t, (exists b, std_equal r t = Ok b) \/ std_equal r t = Oob.
Proof. induction r as [|x r IH]; intros [|y t]; cbn; eauto. destruct (x =? y); eauto. Qed.
Lemma mapM_three {B C} (f : B -> res C) l : (forall x, In x l -> f x <> Uninit) -> mapM f l <> Uninit.
Proof.
  induction l as [|x l IH]; intros H; cbn [mapM]; [discriminate|]. pose proof (H x (or_introl eq_refl)) as Hx. destruct (f x); cbn [bind]; try discriminate; [|contradiction].
  assert (Hl : mapM f l <> Uninit) by (apply IH; intros; apply H; now right). destruct (mapM f l); cbn [bind]; try discriminate. contradiction.
Qed.

Section Ties.
Variables (dofs : array nat) (nnode ndim : nat).
Hypothesis (Hdir : dofs_by_direction dofs nnode ndim).
Let D := rows2 nnode ndim dofs.
Let group (d : nat) := row_of (incidences D) d.
Lemma ti_shape : shape2 D (length D) ndim.
Proof using. unfold D. rewrite rows2_length. apply rows2_shape. Qed.
Lemma ti_nodal : nodal_dofs D ndim.
Proof using Hdir.
  split; [apply ti_shape|]. intros m i n j d H1 H2. apply at2_rows2_inv in H1, H2. destruct H1 as (A1 & A2 & A3), H2 as (B1 & B2 & B3).
  destruct Hdir as (_ & _ & H). apply (H m i n j); try assumption. congruence.
Qed.
Lemma ti_occurrences x d : occurrences D x d <= 1 /\ (0 < occurrences D x d <-> exists i, x < nnode /\ i < ndim /\ a_ent dofs [x; i] = d).
Proof using Hdir.
  unfold occurrences. destruct (nth_error D x) as [r|] eqn:E.
  - split.
    + apply occurs_le1. intros i j H1 H2. apply (proj2 ti_nodal x i x j d); unfold at2; now rewrite E.
    + rewrite <- occurs_nth. split.
      * intros [j H]. assert (at2 D x j = Some d) by (unfold at2; now rewrite E). apply at2_rows2_inv in H0. exists j. tauto.
      * intros (i & Hx & Hi & <-). exists i. pose proof (at2_rows2 nnode ndim dofs x i Hx Hi) as H. unfold at2 in H. fold D in H. now rewrite E in H.
  - split; [lia|]. split; [lia|]. intros (i & Hx & _). apply nth_error_None in E. unfold D in E. rewrite rows2_length in E. lia.
Qed.
Lemma ti_sorted d : StronglySorted lt (group d).
Proof using Hdir. apply sorted_occurs_lt; [apply row_of_sorted|]. intros x. unfold group. rewrite row_of_counts. apply ti_occurrences. Qed.
Lemma ti_in m i x : m < nnode -> i < ndim -> In x (group (a_ent dofs [m; i])) <-> x < nnode /\ a_ent dofs [x; i] = a_ent dofs [m; i].
Proof using Hdir.
  intros Hm Hi. unfold group. rewrite occurs_In, row_of_counts, (proj2 (ti_occurrences x _)). split.
  - intros (j & Hx & Hj & E). assert (j = i) by (destruct Hdir as (_ & _ & H); now apply (H x j m i)). now subst j.
  - intros [Hx E]. exists i. auto.
Qed.
Lemma ti_row m i : m < nnode -> i < ndim -> (do row <- get D m; do d <- get row i; do t <- get (elem2node_rows D) d; Ok (std_sort t)) = Ok (group (a_ent dofs [m; i])).
Proof using.
  intros Hm Hi. rewrite (get_nth []) by (unfold D; now rewrite rows2_length). cbn [bind].
  rewrite (get_nth 0). 2:{ rewrite (proj2 ti_shape); [exact Hi|]. apply nth_In. unfold D. now rewrite rows2_length. }
  cbn [bind]. replace (nth i (nth m D []) 0) with (a_ent dofs [m; i]) by (symmetry; exact (rows2_nth nnode ndim dofs m i Hm Hi)).
  unfold get. rewrite elem2node_rows_nth. 2:{ enough (a_ent dofs [m; i] <= amax (concat D)) by lia. apply amax_ge, in_rows2. eauto. }
  cbn [bind]. f_equal. apply std_sort_id, row_of_sorted.
Qed.
Lemma ti_tying_false m : m < nnode -> tying_of false D ndim (elem2node_rows D) m = Ok (group (a_ent dofs [m; 0])).
Proof using Hdir. intros Hm. apply (ti_row m 0 Hm). apply Hdir. Qed.
Lemma ti_tying_true m : m < nnode -> tying_of true D ndim (elem2node_rows D) m =
  (do _ <- mapM (fun i => do same <- std_equal (group (a_ent dofs [m; 0])) (group (a_ent dofs [m; i])); if same then Ok tt else Throw) (seq 1 (ndim - 1));
   Ok (group (a_ent dofs [m; 0]))).
Proof using Hdir.
  intros Hm. unfold tying_of. assert (H0 : 0 < ndim) by apply Hdir.
  assert (G : forall i, i < ndim -> exists d t, (do row <- get D m; get row i) = Ok d /\ get (elem2node_rows D) d = Ok t /\ std_sort t = group (a_ent dofs [m; i])).
  { intros i Hi. pose proof (ti_row m i Hm Hi) as H. destruct (get D m) as [row| | |]; cbn [bind] in *; try discriminate.
    destruct (get row i) as [d| | |]; cbn [bind] in *; try discriminate. destruct (get _ d) as [t| | |] eqn:E; cbn [bind] in *; try discriminate. exists d, t. repeat split; try assumption. congruence. }
  destruct (get D m) as [row| | |] eqn:Er; cbn [bind] in *.
  2-4: destruct (G 0 H0) as (d & t & A & _); discriminate.
  destruct (G 0 H0) as (d & t & A & B & C). rewrite A. cbn [bind]. rewrite B. cbn [bind]. rewrite C.
  rewrite (mapM_ext _ (fun i => do same <- std_equal (group (a_ent dofs [m; 0])) (group (a_ent dofs [m; i])); if same then Ok tt else Throw)); [reflexivity|].
  intros i Hi. apply in_seq in Hi. destruct (G i ltac:(lia)) as (d' & t' & A' & B' & C'). rewrite A'. cbn [bind]. rewrite B'. cbn [bind]. now rewrite C'.
Qed.
Lemma ti_run ck : nodaltyings_checked ck dofs = mapM (tying_of ck D ndim (elem2node_rows D)) (seq 0 nnode).
Proof using Hdir. unfold nodaltyings_checked. rewrite (proj1 Hdir). unfold node2dof. fold D. now rewrite elem2node_eq. Qed.
Lemma ti_plain : nodaltyings D = Ok (map (fun m => group (a_ent dofs [m; 0])) (seq 0 nnode)).
Proof using Hdir.
  unfold nodaltyings, node2dof. rewrite elem2node_eq. cbn [bind]. replace (length D) with nnode by (unfold D; now rewrite rows2_length).
  apply mapM_Ok. intros m Hm. apply in_seq in Hm. apply (ti_row m 0); [lia|apply Hdir].
Qed.
Lemma ti_release : nodaltyings_checked false dofs = nodaltyings D.
Proof using Hdir. rewrite ti_run, ti_plain. apply mapM_Ok. intros m Hm. apply in_seq in Hm. apply ti_tying_false. lia. Qed.
Lemma ti_agree : ties_agree dofs nnode ndim -> nodaltyings_checked true dofs = nodaltyings D.
Proof using Hdir.
  intros A. rewrite ti_run, ti_plain. apply mapM_Ok. intros m Hm. apply in_seq in Hm. rewrite ti_tying_true by lia.
  rewrite (mapM_Ok _ _ (fun _ => tt)); [reflexivity|]. intros i Hi. apply in_seq in Hi.
  replace (group (a_ent dofs [m; i])) with (group (a_ent dofs [m; 0])); [now rewrite std_equal_refl|].
  apply sorted_ext; try apply ti_sorted. intros x. rewrite !ti_in by lia. split; intros [Hx E]; (split; [exact Hx|]); apply (A x m i ltac:(lia) ltac:(lia) ltac:(lia)); exact E.
Qed.
Lemma ti_prefix T : nodaltyings_checked true dofs = Ok T -> forall m i, m < nnode -> i < ndim -> exists s, group (a_ent dofs [m; i]) = group (a_ent dofs [m; 0]) ++ s.
Proof using Hdir.
  rewrite ti_run. intros H m i Hm Hi. destruct (Nat.eq_dec i 0) as [->|Hi0]; [exists []; now rewrite app_nil_r|].
  apply mapM_Ok_inv in H. destruct H as [_ H]. destruct (H m m) as (b & _ & Eb); [rewrite nth_error_seq; apply Nat.ltb_lt in Hm; now rewrite Hm|].
  rewrite ti_tying_true in Eb by exact Hm. destruct (mapM _ (seq 1 (ndim - 1))) as [u| | |] eqn:Eu; cbn [bind] in Eb; try discriminate.
  apply mapM_Ok_inv in Eu. destruct Eu as [_ Eu]. destruct (Eu (i - 1) i) as (c & _ & Ec).
  { rewrite nth_error_seq. destruct (Nat.ltb_spec (i - 1) (ndim - 1)); [f_equal; lia|lia]. }
  destruct (std_equal _ _) as [[|]| | |] eqn:Es; cbn [bind] in Ec; try discriminate. now apply std_equal_true.
Qed.
Lemma ti_disagree : ~ ties_agree dofs nnode ndim -> nodaltyings_checked true dofs = Throw \/ nodaltyings_checked true dofs = Oob.
Proof using Hdir.
  intros N. destruct (nodaltyings_checked true dofs) as [T| | |] eqn:E; auto; exfalso.
  - apply N. pose proof (ti_prefix T E) as P. intros m n i Hm Hn Hi. split; intros Q.
    + destruct (P m i Hm Hi) as [s Es]. assert (In n (group (a_ent dofs [m; i]))).
      { rewrite Es. apply in_or_app. left. apply ti_in; [exact Hm|apply Hdir|]. auto. }
      apply ti_in in H; [|assumption..]. symmetry. apply H.
    + destruct (P m i Hm Hi) as [s Es], (P n i Hn Hi) as [t Et]. rewrite Q, Et in Es.
      assert (Hi0 : 0 < ndim) by apply Hdir.
      pose proof (proj2 (ti_in m 0 m Hm Hi0) (conj Hm eq_refl)) as I1. pose proof (proj2 (ti_in n 0 n Hn Hi0) (conj Hn eq_refl)) as I2.
      destruct (group (a_ent dofs [m; 0])) as [|h1 g1] eqn:G1; [destruct I1|]. destruct (group (a_ent dofs [n; 0])) as [|h2 g2] eqn:G2; [destruct I2|].
      cbn [app] in Es. injection Es as -> _.
      assert (J1 : In h1 (group (a_ent dofs [m; 0]))) by (rewrite G1; now left). assert (J2 : In h1 (group (a_ent dofs [n; 0]))) by (rewrite G2; now left).
      apply ti_in in J1, J2; try assumption. destruct J1, J2. congruence.
  - rewrite ti_run in E. revert E. apply mapM_three. intros m Hm. apply in_seq in Hm. rewrite ti_tying_true by lia.
    match goal with |- context [mapM ?f ?l] => pose proof (mapM_three f l) as K; destruct (mapM f l) end; cbn [bind]; try discriminate.
    exfalso. apply K; [|reflexivity]. intros i _. destruct (std_equal_cases (group (a_ent dofs [m; 0])) (group (a_ent dofs [m; i]))) as [[[|] ->]| ->]; discriminate.
Qed.
End Ties.

(** ** elements of nodes *)
Section Elem2node.
Variables (conn dofs : array nat) (nelem nne nnode ndim N : nat).
Hypothesis (Hdir : dofs_by_direction dofs nnode ndim).
Hypothesis (Hs : a_shape conn = [nelem; nne]).
Hypothesis (Htop : largest_node conn nelem nne N).
Let D := rows2 nnode ndim dofs.
Let C := rows2 nelem nne conn.
Lemma e_numbers : numbers_up_to C N.
Proof using Htop.
  destruct Htop as [H (e & m & He & Hm & E)]. split.
  - intros x Hx. apply in_rows2 in Hx. destruct Hx as (e' & m' & He' & Hm' & <-). now apply H.
  - apply in_rows2. exists e, m. repeat split; try assumption. lia.
Qed.
Lemma e_tied m n : tied D m n <-> m < nnode /\ n < nnode /\ a_ent dofs [m; 0] = a_ent dofs [n; 0].
Proof using Hdir.
  assert (H0 : 0 < ndim) by apply Hdir. split.
  - intros (d & H1 & H2). apply at2_rows2_inv in H1, H2. destruct H1 as (A & _ & E1), H2 as (B & _ & E2). repeat split; congruence || assumption.
  - intros (Hm & Hn & E). exists (a_ent dofs [n; 0]). unfold D. split; rewrite at2_rows2 by assumption; congruence.
Qed.
Lemma e_unfold ck sorted : nodaltyings_checked ck dofs = nodaltyings D -> elem2node_dofs_checked ck conn dofs sorted = elem2node_dofs C D sorted.
Proof using Hdir Hs.
  intros H. unfold elem2node_dofs_checked, elem2node_dofs. rewrite Hs, (proj1 Hdir), H. fold C. fold D.
  replace (length D) with nnode by (unfold D; now rewrite rows2_length). reflexivity.
Qed.
Lemma e_agree ck sorted : ties_agree dofs nnode ndim -> elem2node_dofs_checked ck conn dofs sorted = elem2node_dofs C D sorted.
Proof using Hdir Hs. intros A. apply e_unfold. destruct ck; [now apply ti_agree|]. unfold D. apply (ti_release dofs nnode ndim Hdir). Qed.
Lemma e_ok sorted : ties_agree dofs nnode ndim -> (forall m n, m < nnode -> n < nnode -> m <> n -> a_ent dofs [m; 0] = a_ent dofs [n; 0] -> m < N) ->
  exists E, (forall ck, elem2node_dofs_checked ck conn dofs sorted = Ok E) /\ length E = N /\
    forall m, m < N -> (sorted = true -> StronglySorted le (nth m E [])) /\
      forall e, In e (nth m E []) <-> exists n i, (n = m \/ (m < nnode /\ n < nnode /\ a_ent dofs [n; 0] = a_ent dofs [m; 0])) /\ e < nelem /\ i < nne /\ a_ent conn [e; i] = n.
Proof using Hdir Hs Htop.
  intros A L. pose proof (ti_nodal dofs nnode ndim Hdir) as Hn. assert (H0 : 0 < ndim) by apply Hdir.
  destruct (elem2node_dofs_ok C D ndim sorted N e_numbers H0 Hn) as (E & T & EE & ET & EL & ER).
  { intros m n Ht Hmn. apply e_tied in Ht. destruct Ht as (A1 & A2 & A3). now apply (L m n). }
  exists E. split; [intros ck; now rewrite e_agree|]. split; [exact EL|]. intros m Hm.
  assert (Em : nth_error E m = Some (nth m E [])) by (apply nth_error_nth'; lia). destruct (ER _ _ Em) as (R1 & R2 & R3). split; [exact R1|].
  destruct (nodaltyings_spec D ndim H0 Hn) as (T' & ET' & TL & TR). rewrite ET in ET'. injection ET' as <-.
  assert (OC : forall e n, 0 < occurrences C e n <-> exists i, e < nelem /\ i < nne /\ a_ent conn [e; i] = n).
  { intros e n. unfold occurrences. destruct (nth_error C e) as [r|] eqn:Er.
    - rewrite <- occurs_nth. split.
      + intros [i Hi]. assert (Q : at2 C e i = Some n) by (unfold at2; now rewrite Er). apply at2_rows2_inv in Q. now exists i.
      + intros (i & He & Hi & <-). exists i. pose proof (at2_rows2 nelem nne conn e i He Hi) as Q. unfold at2 in Q. fold C in Q. now rewrite Er in Q.
    - split; [lia|]. intros (i & He & _). apply nth_error_None in Er. unfold C in Er. rewrite rows2_length in Er. lia. }
  intros e. rewrite occurs_In. destruct (nth_error T m) as [g|] eqn:Eg.
  - rewrite (R2 g eq_refl e). destruct (TR m g Eg) as (_ & Tm & Tg).
    assert (Hmn : m < nnode). { assert (nth_error T m <> None) by congruence. apply nth_error_Some in H. rewrite TL in H. unfold D in H. now rewrite rows2_length in H. }
    assert (Q : 0 < list_sum (map (occurrences C e) g) <-> exists n, In n g /\ 0 < occurrences C e n).
    { clear. induction g as [|x g IH]; cbn.
      - split; [lia|intros (n & [] & _)].
      - split.
        + intros H. destruct (occurrences C e x) eqn:Ex; [|exists x; rewrite Ex; split; [now left|lia]]. destruct (proj1 IH H) as (n & H1 & H2). exists n. tauto.
        + intros (n & [->|H1] & H2); [lia|]. assert (0 < list_sum (map (occurrences C e) g)) by (apply IH; eauto). unfold list_sum in *. lia. }
    rewrite Q. split.
    + intros (n & Hg & Ho). apply OC in Ho. destruct Ho as (i & Ho). apply Tg, e_tied in Hg. exists n, i. split; [right; repeat split; try apply Hg; symmetry; apply Hg|exact Ho].
    + intros (n & i & Hor & Ho). exists n. split; [|apply OC; eauto]. apply Tg, e_tied. destruct Hor as [->|(H1 & H2 & H3)]; auto.
  - rewrite (R3 eq_refl e), OC. assert (Hmn : nnode <= m). { apply nth_error_None in Eg. rewrite TL in Eg. unfold D in Eg. now rewrite rows2_length in Eg. }
    split; [intros (i & Hi); exists m, i; tauto|]. intros (n & i & [->|(H1 & _)] & Hi); [now exists i|lia].
Qed.
Lemma e_oob sorted m n : ties_agree dofs nnode ndim -> m < nnode -> n < nnode -> m <> n -> a_ent dofs [m; 0] = a_ent dofs [n; 0] -> N <= m ->
  forall ck, elem2node_dofs_checked ck conn dofs sorted = Oob.
Proof using Hdir Hs Htop.
  intros A Hm Hn Hmn E L ck. rewrite e_agree by exact A. apply (elem2node_dofs_oob C D ndim sorted N m n); try assumption.
  - apply e_numbers.
  - apply Hdir.
  - now apply ti_nodal.
  - apply e_tied. auto.
Qed.
Lemma e_disagree sorted : ~ ties_agree dofs nnode ndim -> elem2node_dofs_checked true conn dofs sorted = Throw \/ elem2node_dofs_checked true conn dofs sorted = Oob.
Proof using Hdir Hs.
  intros A. unfold elem2node_dofs_checked. rewrite Hs, (proj1 Hdir), elem2node_eq. cbn [bind].
  destruct (ti_disagree dofs nnode ndim Hdir A) as [->| ->]; auto.
Qed.
End Elem2node.

(** ** orientation of triangles *)
Section Orientation.
Variables (coor : array R) (conn : array nat) (nnode nelem : nat).
Hypothesis (HT : tri_input coor conn nnode nelem).
Let X := rows2 nnode 2 coor.
Let C := rows2 nelem 3 conn.
Let tri (e : nat) : list nat := [a_ent conn [e; 0]; a_ent conn [e; 1]; a_ent conn [e; 2]].
Definition orient (e : nat) : Z := if Rlt_dec 0 (area_of coor conn e) then (-1)%Z else 1%Z.
Lemma o_conn : C = map tri (seq 0 nelem).
Proof using. reflexivity. Qed.
Lemma o_coor_some n : n < nnode -> nth_error X n = Some [a_ent coor [n; 0]; a_ent coor [n; 1]].
Proof using.
  intros H. unfold X, rows2. rewrite nth_error_map, nth_error_seq. destruct (Nat.ltb_spec n nnode); [reflexivity|lia].
Qed.
Lemma o_coor_none n : nnode <= n -> nth_error X n = None.
Proof using. intros H. apply nth_error_None. unfold X. now rewrite rows2_length. Qed.
Let f (e : list nat) : res Z := do n0 <- get e 0; do n1 <- get e 1; do n2 <- get e 2; do p0 <- get X n0; do p1 <- get X n1; do p2 <- get X n2; orientation_of p0 p1 p2.
Lemma o_row_ok e : (forall m, m < 3 -> a_ent conn [e; m] < nnode) -> f (tri e) = Ok (orient e).
Proof using.
  intros H. apply (orientation_row X). exists (a_ent conn [e; 0]), (a_ent conn [e; 1]), (a_ent conn [e; 2]). split; [reflexivity|].
  unfold node_at. rewrite !o_coor_some by (apply H; lia). auto.
Qed.
Lemma o_row_oob e m : m < 3 -> nnode <= a_ent conn [e; m] -> f (tri e) = Oob.
Proof using.
  intros Hm H. unfold f, tri. unfold get at 1 2 3. cbn [nth_error bind].
  assert (G : forall k (P : list R -> res Z), (forall p, In p X -> P p = Oob) \/ nnode <= k -> (do p <- get X k; P p) = Oob).
  { intros k P [Q|Q].
    - unfold get. destruct (nth_error X k) eqn:E; [|reflexivity]. cbn [bind]. apply Q. now apply nth_error_In in E.
    - unfold get. now rewrite o_coor_none. }
  destruct m as [|[|[|]]]; [| | |lia].
  - apply G. now right.
  - apply G. left. intros p _. apply G. now right.
  - apply G. left. intros p _. apply G. left. intros q _. apply G. now right.
Qed.
Lemma o_row_cases e : f (tri e) = Ok (orient e) \/ f (tri e) = Oob.
Proof using.
  destruct (lt_dec (a_ent conn [e; 0]) nnode) as [H0|H0]; [|right; apply (o_row_oob e 0); lia].
  destruct (lt_dec (a_ent conn [e; 1]) nnode) as [H1|H1]; [|right; apply (o_row_oob e 1); lia].
  destruct (lt_dec (a_ent conn [e; 2]) nnode) as [H2|H2]; [|right; apply (o_row_oob e 2); lia].
  left. apply o_row_ok. intros [|[|[|]]] H; auto; lia.
Qed.
Lemma o_get ck : getOrientation_checked ck coor conn = mapM f C.
Proof using HT. unfold getOrientation_checked. rewrite (proj1 HT), (proj2 HT). cbn [Nat.eqb]. now rewrite !assert_true. Qed.
Lemma o_get_ok ck : tri_nodes conn nnode nelem -> getOrientation_checked ck coor conn = Ok (map orient (seq 0 nelem)).
Proof using HT.
  intros H. rewrite o_get, o_conn. clear -H. assert (G : forall l, (forall e, In e l -> e < nelem) -> mapM f (map tri l) = Ok (map orient l)).
  { induction l as [|e l IH]; intros Hl; [reflexivity|]. cbn [map mapM]. rewrite o_row_ok; [|intros m Hm; apply H; [apply Hl; now left|exact Hm]]. cbn [bind]. rewrite IH; [reflexivity|]. intros; apply Hl; now right. }
  apply G. intros e He. apply in_seq in He. lia.
Qed.
Lemma o_get_oob ck e m : e < nelem -> m < 3 -> nnode <= a_ent conn [e; m] -> getOrientation_checked ck coor conn = Oob.
Proof using HT.
  intros He Hm H. rewrite o_get, o_conn. apply (Proof_CheckedMatrixTyings2.mapM_oob f _ (tri e)).
  - apply in_map, in_seq. lia.
  - now apply (o_row_oob e m).
  - intros y Hy. apply in_map_iff in Hy. destruct Hy as (k & <- & _). destruct (o_row_cases k) as [->| ->]; eauto.
Qed.
Let flip (c : bool) (e : nat) : list nat := if c then [a_ent conn [e; 0]; a_ent conn [e; 2]; a_ent conn [e; 1]] else tri e.
Definition wrong (o v : Z) : bool := ((o =? -1) && (0 <? v) || (o =? 1) && (v <? 0))%Z.
Lemma o_set_val (val : list Z) o : length val = nelem -> setOrientation_val C val o = Ok (map (fun e => flip (wrong o (nth e val 0%Z)) e) (seq 0 nelem)).
Proof using.
  intros L. unfold setOrientation_val. replace (length C) with nelem by (unfold C; now rewrite rows2_length). rewrite o_conn.
  assert (G : forall l, (forall e, In e l -> e < nelem) ->
    mapM (fun iv => do v <- get val (fst iv); orient_row (snd iv) v o) (combine l (map tri l)) = Ok (map (fun e => flip (wrong o (nth e val 0%Z)) e) l)).
  { induction l as [|e l IH]; intros Hl; [reflexivity|]. cbn [map combine mapM fst snd]. rewrite (get_nth 0%Z) by (rewrite L; apply Hl; now left). cbn [bind].
    unfold orient_row at 1. fold (wrong o (nth e val 0%Z)). rewrite IH by (intros; apply Hl; now right).
    destruct (wrong o (nth e val 0%Z)); reflexivity. }
  apply G. intros e He. apply in_seq in He. lia.
Qed.
Lemma o_setval_ok ck val o : a_shape val = [nelem] -> (o = -1 \/ o = 1)%Z ->
  setOrientation_val_checked ck coor conn val o = Ok (map (fun e => flip (wrong o (a_ent val [e])) e) (seq 0 nelem)).
Proof using HT.
  intros Ev Ho. unfold setOrientation_val_checked. rewrite (proj1 HT), (proj2 HT), Ev. cbn [Nat.eqb]. rewrite !assert_true, Nat.eqb_refl, assert_true.
  replace ((o =? -1) || (o =? 1))%Z with true by (destruct Ho as [->| ->]; reflexivity). rewrite assert_true. fold C.
  rewrite o_set_val by (unfold rows1; now rewrite map_length, seq_length). f_equal. apply map_ext_in. intros e He. apply in_seq in He.
  f_equal. f_equal. unfold rows1. exact (nth_map_seq (fun k => a_ent val [k]) nelem e 0%Z ltac:(lia)).
Qed.
Lemma o_setval_bad val o : ~ (a_shape val = [nelem] /\ (o = -1 \/ o = 1)%Z) -> setOrientation_val_checked true coor conn val o = Throw.
Proof using HT.
  intros N. unfold setOrientation_val_checked. rewrite (proj1 HT), (proj2 HT). destruct (a_shape val) as [|n [|]] eqn:Ev; try reflexivity. cbn [Nat.eqb]. rewrite !assert_true.
  destruct (Nat.eqb_spec nelem n) as [->|]; [|reflexivity]. rewrite assert_true. destruct (Z.eqb_spec o (-1)); [|destruct (Z.eqb_spec o 1)]; try reflexivity; destruct N; auto.
Qed.
Lemma o_set_ok ck o : tri_nodes conn nnode nelem -> (o = -1 \/ o = 1)%Z -> setOrientation_checked ck coor conn o = Ok (map (fun e => flip (wrong o (orient e)) e) (seq 0 nelem)).
Proof using HT.
  intros H Ho. unfold setOrientation_checked. rewrite (proj1 HT), (proj2 HT). cbn [Nat.eqb]. rewrite !assert_true.
  replace ((o =? -1) || (o =? 1))%Z with true by (destruct Ho as [->| ->]; reflexivity). rewrite assert_true, o_get_ok by exact H. cbn [bind].
  rewrite o_setval_ok; [|cbn; now rewrite map_length, seq_length|exact Ho]. f_equal. apply map_ext_in. intros e He. apply in_seq in He. f_equal. f_equal.
  cbn [a_ent]. exact (nth_map_seq orient nelem e 0%Z ltac:(lia)).
Qed.
Lemma o_set_oob ck o e m : (o = -1 \/ o = 1)%Z -> e < nelem -> m < 3 -> nnode <= a_ent conn [e; m] -> setOrientation_checked ck coor conn o = Oob.
Proof using HT.
  intros Ho He Hm H. unfold setOrientation_checked. rewrite (proj1 HT), (proj2 HT). cbn [Nat.eqb]. rewrite !assert_true.
  replace ((o =? -1) || (o =? 1))%Z with true by (destruct Ho as [->| ->]; reflexivity). rewrite assert_true. now rewrite (o_get_oob ck e m).
Qed.
Lemma o_set_bad o : ~ (o = -1 \/ o = 1)%Z -> setOrientation_checked true coor conn o = Throw.
Proof using HT.
  intros N. unfold setOrientation_checked. rewrite (proj1 HT), (proj2 HT). cbn [Nat.eqb]. rewrite !assert_true.
  destruct (Z.eqb_spec o (-1)); [|destruct (Z.eqb_spec o 1)]; try reflexivity; destruct N; auto.
Qed.
End Orientation.
Lemma tri_guard coor conn {B} (F : nat -> nat -> nat -> nat -> res B) : (forall nnode nelem, ~ tri_input coor conn nnode nelem) ->
  match a_shape coor, a_shape conn with [nnode; ndim], [nelem; nne] => assert true (nne =? 3) (assert true (ndim =? 2) (F nnode ndim nelem nne)) | _, _ => Throw end = Throw.
Proof.
  intros N. destruct (quad_shapes coor conn) as [(a & b & c & d & E1 & E2)|H]; [|apply (H B (fun nnode ndim nelem nne => assert true (nne =? 3) (assert true (ndim =? 2) (F nnode ndim nelem nne))))].
  rewrite E1, E2. destruct (Nat.eqb_spec d 3) as [->|]; [|reflexivity]. destruct (Nat.eqb_spec b 2) as [->|]; [|reflexivity]. destruct (N a c). now split.
Qed.
Lemma o_none coor conn : (forall nnode nelem, ~ tri_input coor conn nnode nelem) ->
  getOrientation_checked true coor conn = Throw /\ (forall o, setOrientation_checked true coor conn o = Throw) /\ (forall val o, setOrientation_val_checked true coor conn val o = Throw).
Proof.
  intros N. split; [exact (tri_guard coor conn _ N)|]. split; [intros o; exact (tri_guard coor conn _ N)|]. intros val o.
  unfold setOrientation_val_checked. destruct (quad_shapes coor conn) as [(a & b & c & d & E1 & E2)|H].
  - rewrite E1, E2. destruct (a_shape val) as [|n [|]]; try reflexivity.
    destruct (Nat.eqb_spec d 3) as [->|]; [|reflexivity]. destruct (Nat.eqb_spec b 2) as [->|]; [|reflexivity]. destruct (N a c). now split.
  - match goal with |- match _ with | nil => _ | cons _ _ => _ end = _ => idtac end.
    destruct (a_shape coor) as [|a [|b [|]]]; try reflexivity. destruct (a_shape conn) as [|c [|d [|]]]; try reflexivity. destruct (a_shape val) as [|n [|]]; try reflexivity.
    destruct (Nat.eqb_spec d 3) as [->|]; [|reflexivity]. destruct (Nat.eqb_spec b 2) as [->|]; [|reflexivity]. specialize (H unit (fun _ _ _ _ => Ok tt)). discriminate.
Qed.
Lemma Classical_tri coor conn : (exists nnode nelem, tri_input coor conn nnode nelem) \/ (forall nnode nelem, ~ tri_input coor conn nnode nelem).
Proof.
  unfold tri_input. destruct (a_shape coor) as [|a [|b [|]]]; try (right; intros ? ? [H _]; discriminate).
  destruct (a_shape conn) as [|c [|d [|]]]; try (right; intros ? ? [_ H]; discriminate).
  destruct (Nat.eq_dec b 2) as [->|Hb]; [|right; intros ? ? [H _]; injection H; congruence].
  destruct (Nat.eq_dec d 3) as [->|Hd]; [|right; intros ? ? [_ H]; injection H; congruence]. left. now exists a, c.
Qed.
