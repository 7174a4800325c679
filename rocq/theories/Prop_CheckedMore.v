(** Property C117: conversions by a connectivity, tensors of scalars, control nodes, masses of the nodes and the constructor of FineLayer from a
    mesh, in the checked build (GOOSEFEM_ENABLE_ASSERT): what they return for a correct call, and which incorrect calls they reject. *)
From Coq Require Import Reals ZArith Lra Lia.
From Verif Require Import Base Sums Spec_Element Spec Spec_Vector Spec2d Spec_Misc Spec_MeshGeometry Model_Numbering Model_Vector Model_Misc Model_MeshGeometry Model_Tyings Model_Regular2d Model_FineLayer Model_FineLayerMapping
  Model_Checked Spec_CheckedMesh Model_CheckedMaps Model_CheckedMore Spec_CheckedMore Proof_FineLayerMapping Proof_Checked Proof_CheckedMore Proof_CheckedMore2 Prop_Tyings.
Local Open Scope nat_scope.

(** [asElementVector]: the nodal values of every element if the nodes of the connectivity exist.  Nothing is asserted: a node that does not exist
    is read out of bounds (in both builds). *)
Theorem C117_asElementVector : forall conn nodevec nelem nne n ndim, a_shape conn = [nelem; nne] -> a_shape nodevec = [n; ndim] ->
  ((forall e m, e < nelem -> m < nne -> a_ent conn [e; m] < n) ->
    exists f, asElementVector_checked conn nodevec = Ok f /\ shape3 f nelem nne ndim /\
      forall e m i, e < nelem -> m < nne -> i < ndim -> val3 f e m i = a_ent nodevec [a_ent conn [e; m]; i]) /\
  (forall e m, 0 < ndim -> e < nelem -> m < nne -> n <= a_ent conn [e; m] -> asElementVector_checked conn nodevec = Oob).
Proof.
  intros conn nodevec nelem nne n ndim E1 E2. split; [now apply asElement_valid|]. intros e m. now apply asElement_oob.
Qed.
Print Assumptions C117_asElementVector.

(** [assembleNodeVector]: the sum over the elements, for as many nodes as the connectivity mentions; element vectors of another shape are rejected *)
Theorem C117_assembleNodeVector : forall conn elemvec,
  (forall nelem nne ndim N, a_shape conn = [nelem; nne] -> a_shape elemvec = [nelem; nne; ndim] -> largest_node conn nelem nne N ->
    exists u, (forall ck, assembleNodeVector_checked ck conn elemvec = Ok u) /\ shape2 u N ndim /\
      forall n i, n < N -> i < ndim -> val2 u n i = sumn nelem (fun e => sumn nne (fun m => if a_ent conn [e; m] =? n then a_ent elemvec [e; m; i] else 0))%R) /\
  ((forall nelem nne ndim, a_shape conn = [nelem; nne] -> a_shape elemvec <> [nelem; nne; ndim]) -> assembleNodeVector_checked true conn elemvec = Throw).
Proof. intros conn elemvec. split; [intros; now apply assemble_valid|apply assemble_invalid]. Qed.
Print Assumptions C117_assembleNodeVector.
Definition c117_conn : array nat := mkArray [2; 4] (fun ix => match ix with [e; m] => nth m (nth e [[0; 1; 4; 3]; [1; 2; 5; 4]] []) 0 | _ => 0 end).
Definition c117_coor : array R := mkArray [6; 2] (fun ix => match ix with [n; 0] => INR (n mod 3) | [n; _] => INR (n / 3) | _ => 0%R end).
Example C117_conversions_ex : a_shape c117_conn = [2; 4] /\ largest_node c117_conn 2 4 6 /\ a_shape c117_coor = [6; 2].
Proof.
  split; [reflexivity|]. split; [|reflexivity]. split; [|exists 1, 2; cbn; lia]. intros [|[|]] [|[|[|[|]]]] H1 H2; cbn; lia.
Qed.

(** [asTensor] with the output given: all entries of the tensor are the scalar, if the shape of the output starts with the shape of the scalars;
    every other output is rejected.  The version of the quadrature also needs one scalar per integration point. *)
Theorem C117_asTensor : forall arg,
  (forall extra, exists d, (forall ck, asTensor_checked ck arg (a_shape arg ++ extra) = Ok d) /\ length d = numel (a_shape arg ++ extra) /\
    (forall nelem nip ck, a_shape arg = [nelem; nip] -> quad_asTensor_checked ck nelem nip arg (a_shape arg ++ extra) = Ok d) /\
    (forall ck, AsTensor_checked ck arg extra = Ok (a_shape arg ++ extra, d)) /\
    forall ix kx, in_range (a_shape arg) ix -> in_range extra kx -> entry (a_shape arg ++ extra) d (ix ++ kx) = Some (a_ent arg ix)) /\
  (forall ret, ~ extends (a_shape arg) ret -> asTensor_checked true arg ret = Throw) /\
  (forall ret nelem nip, ~ (a_shape arg = [nelem; nip] /\ extends (a_shape arg) ret) -> quad_asTensor_checked true nelem nip arg ret = Throw).
Proof.
  intros arg. split; [|split; [exact (asTensor_invalid arg)|]].
  - intros extra. destruct (asTensor_valid arg extra) as (d & E & L & V). exists d. split; [exact E|]. split; [exact L|]. split; [|split; [|exact V]].
    + intros nelem nip ck Q. unfold quad_asTensor_checked. rewrite Q at 1. now rewrite has_shape_refl, assert_true.
    + intros ck. unfold AsTensor_checked. now rewrite E.
  - intros ret nelem nip N. unfold quad_asTensor_checked. apply assert_throw. intros Q. apply has_shape_eq in Q. apply asTensor_invalid. tauto.
Qed.
Print Assumptions C117_asTensor.
Definition c117_scalars : array R := mkArray [4] (fun ix => match ix with [i] => INR i | _ => 0%R end).
Definition c117_point : array R := mkArray [2; 1] (fun ix => match ix with [i; _] => INR i | _ => 0%R end).
Example C117_asTensor_ex : asTensor_checked true c117_scalars [4; 2] = Ok [INR 0; INR 0; INR 1; INR 1; INR 2; INR 2; INR 3; INR 3] /\ ~ extends (a_shape c117_scalars) [2; 2] /\ ~ extends (a_shape c117_scalars) [].
Proof. split; [reflexivity|]. split; intros [x E]; destruct x; discriminate. Qed.
(** without the assertions an output of another shape is not noticed: scalars are left out, or repeated for other integration points (one point
    per element to two), or memory is read out of bounds *)
Theorem C117_asTensor_refuted :
  asTensor_checked false c117_scalars [2; 2] = Ok [INR 0; INR 0; INR 1; INR 1] /\
  quad_asTensor_checked false 2 2 c117_point [2; 2] = Ok [INR 0; INR 0; INR 1; INR 1] /\
  asTensor_checked false c117_scalars [5] = Oob /\ asTensor_checked false c117_scalars [] = Oob.
Proof. repeat split. Qed.
Print Assumptions C117_asTensor_refuted.

(** [Control]: the nodes and DOFs of C43 if there are DOFs for every node and direction; other DOFs are rejected *)
Theorem C117_Control : forall coor dofs,
  (forall nnode ndim, a_shape coor = [nnode; ndim] -> a_shape dofs = [nnode; ndim] ->
    exists c, (forall ck, Control_checked ck coor dofs = Ok c) /\
      shape2 (tc_coor c) (nnode + ndim) ndim /\ shape2 (tc_dofs c) (nnode + ndim) ndim /\ tc_control_nodes c = seq nnode ndim /\
      (forall m i, m < nnode -> i < ndim -> val2 (tc_coor c) m i = a_ent coor [m; i] /\ idx2 (tc_dofs c) m i = a_ent dofs [m; i]) /\
      (forall j k, j < ndim -> k < ndim -> val2 (tc_coor c) (nnode + j) k = 0%R /\ idx2 (tc_dofs c) (nnode + j) k = idx2 (tc_control_dofs c) j k) /\
      (forall j k m i, j < ndim -> k < ndim -> m < nnode -> i < ndim -> idx2 (tc_control_dofs c) j k <> a_ent dofs [m; i]) /\
      (forall j k j' k', j < ndim -> k < ndim -> j' < ndim -> k' < ndim -> idx2 (tc_control_dofs c) j k = idx2 (tc_control_dofs c) j' k' -> j = j' /\ k = k')) /\
  (~ (exists nnode ndim, a_shape coor = [nnode; ndim] /\ a_shape dofs = [nnode; ndim]) -> Control_checked true coor dofs = Throw).
Proof.
  intros coor dofs. split; [|exact (Control_invalid coor dofs)]. intros nnode ndim E1 E2. exists (new_Control (rows2 nnode ndim coor) nnode ndim (rows2 nnode ndim dofs)).
  destruct (C43_Control _ _ nnode ndim (rows2_shape nnode ndim coor) (rows2_shape nnode ndim dofs)) as (S1 & S2 & _ & N & V & W).
  destruct (C43_Control_fresh _ _ nnode ndim (rows2_shape nnode ndim coor) (rows2_shape nnode ndim dofs)) as (F & I).
  split; [now apply Control_valid|]. split; [exact S1|]. split; [exact S2|]. split; [exact N|]. split; [|split; [|split; [|exact I]]].
  - intros m i Hm Hi. destruct (V m i Hm Hi) as [V1 V2]. rewrite rows2_nth in V2 by assumption. split; [|exact V2]. rewrite V1. now apply rows2_val.
  - intros j k Hj Hk. destruct (W j k Hj Hk) as (W1 & W2 & _). now split.
  - intros j k m i Hj Hk Hm Hi. specialize (F j k m i Hj Hk Hm Hi). now rewrite rows2_nth in F by assumption.
Qed.
Print Assumptions C117_Control.
Definition c117_dofs (n : nat) : array nat := mkArray [n; 2] (fun ix => match ix with [m; i] => 2 * m + i | _ => 0 end).
Example C117_Control_ex : a_shape c117_coor = [6; 2] /\ a_shape (c117_dofs 6) = [6; 2] /\ Control_checked true c117_coor (c117_dofs 5) = Throw.
Proof. repeat split. Qed.
(** without the assertions DOFs for fewer nodes are taken: the rows of [control_nodes] in [dofs] are not there *)
Theorem C117_Control_refuted : exists c, Control_checked false c117_coor (c117_dofs 5) = Ok c /\ length (tc_coor c) = 8 /\ tc_control_nodes c = [6; 7] /\ length (tc_dofs c) = 7.
Proof. eexists. repeat split. Qed.
Print Assumptions C117_Control_refuted.

(** [nodal_mass]: for quadrilaterals in two dimensions whose nodes exist the masses of C39 - the mass matrix passes the test for being diagonal -
    and every other call throws *)
Theorem C117_nodal_mass : forall coor conn type mem,
  (forall nnode nelem, quad_input coor conn type nnode nelem -> Spec_Element.schedule nelem (es_new mem) -> Spec_Element.schedule nelem (es_int mem) ->
    exists w, (forall ck, nodal_mass_checked ck mem coor conn type = Ok w) /\ shape2 w nnode 2 /\
      forall n i, n < nnode -> i < 2 -> val2 w n i =
        sumn nelem (fun e => sumn 4 (fun m => if a_ent conn [e; m] =? n then turn (corner coor conn e) m / 4 else 0))%R) /\
  ((forall nnode nelem, ~ quad_input coor conn type nnode nelem) -> nodal_mass_checked true mem coor conn type = Throw).
Proof. intros coor conn type mem. split; [intros nnode nelem Q S1 S2; exact (nodal_mass_valid coor conn type nnode nelem mem Q S1 S2)|intros G; now apply nodal_mass_invalid]. Qed.
Print Assumptions C117_nodal_mass.
(** [center_of_gravity]: the average of the nodes weighted by these masses *)
Theorem C117_center_of_gravity : forall coor conn type mem,
  (forall nnode nelem, quad_input coor conn type nnode nelem -> Spec_Element.schedule nelem (es_new mem) -> Spec_Element.schedule nelem (es_int mem) ->
    exists c, (forall ck, center_of_gravity_checked ck mem coor conn type = Ok c) /\ length c = 2 /\
      let mass n := sumn nelem (fun e => sumn 4 (fun m => if a_ent conn [e; m] =? n then turn (corner coor conn e) m / 4 else 0))%R in
      forall j, j < 2 -> val1 c j = (sumn nnode (fun n => mass n * a_ent coor [n; j]%nat) / sumn nnode mass)%R) /\
  ((forall nnode nelem, ~ quad_input coor conn type nnode nelem) -> center_of_gravity_checked true mem coor conn type = Throw).
Proof. intros coor conn type mem. split; [intros nnode nelem Q S1 S2; exact (cog_valid coor conn type nnode nelem mem Q S1 S2)|intros G; now apply cog_invalid]. Qed.
Print Assumptions C117_center_of_gravity.
Example C117_mass_ex : quad_input c117_coor c117_conn None 6 2 /\ (forall n e, ~ quad_input c117_coor (mkArray [2; 3] (a_ent c117_conn)) None n e).
Proof.
  split.
  - split; [reflexivity|]. split; [reflexivity|]. split; [right; auto|]. split; [lia|]. intros [|[|]] [|[|[|[|]]]] H1 H2; cbn; lia.
  - intros n e (_ & E & _). discriminate.
Qed.

(** the constructor of FineLayer from a mesh: arrays of another shape, no elements, fewer than four nodes, or nodes that do not exist are rejected.
    For other meshes it returns exactly what it returns without the assertions, or throws - or reads out of bounds, for exactly the meshes with
    more than one element whose first half, or second half, is one row of elements: the search for the ends of the row runs past the first or last
    element in the checked build as well *)
Theorem C117_FineLayer_partial : forall close coor conn,
  (forall nnode nelem, fine_input coor conn nnode nelem ->
    (FineLayer_from_checked true close coor conn = Some Oob <-> 1 < nelem /\ (row_from_start conn nelem \/ row_to_end conn nelem)) /\
    (FineLayer_from_checked true close coor conn = Some Oob \/ FineLayer_from_checked true close coor conn = Some Throw \/
     exists m, FineLayer_from_checked true close coor conn = Some (Ok m)) /\
    (forall m, FineLayer_from_checked true close coor conn = Some (Ok m) <-> FineLayer_from_checked false close coor conn = Some (Ok m))) /\
  ((forall nnode nelem, ~ fine_input coor conn nnode nelem) -> FineLayer_from_checked true close coor conn = Some Throw).
Proof.
  intros close coor conn. split; [|exact (from_guard close coor conn)]. intros nnode nelem H.
  rewrite (from_release close _ _ _ _ H). exact (from_spec coor conn nnode nelem H close).
Qed.
Print Assumptions C117_FineLayer_partial.
(** and it reconstructs every mesh of the default [nfine] with at least three layers, and the mesh of one element (C24) *)
Theorem C117_reconstruct : forall close, (forall x, close x x = true) ->
  forall nelx nely h m X C coor conn, 1 <= nelx -> 1 <= nely -> (0 < h)%R -> 3 <= nely \/ nelx = 1 ->
  FineLayer_init nelx nely h 1 = Some (Ok m) -> f_coor m = Ok X -> f_conn m = Ok C ->
  has_rows coor X (f_nnode m) 2 -> has_rows conn C (f_nelem m) 4 ->
  forall ck, FineLayer_from_checked ck close coor conn = Some (Ok m).
Proof.
  intros close Hc nelx nely h m X C coor conn Hx Hy Hh Hn E EX EC RX RC.
  destruct (mesh_input _ _ _ _ _ _ _ _ Hx Hy Hh E EX EC RX RC) as (F & QX & QC).
  assert (R : init_by_mapping close (rows2 (f_nnode m) 2 coor) (rows2 (f_nelem m) 4 conn) = Some (Ok m)) by (rewrite QX, QC; now apply (V_reconstruct close Hc nelx nely h)).
  intros [|]; [now apply (proj2 (proj2 (from_spec coor conn _ _ F close)))|now rewrite (from_release close _ _ _ _ F)].
Qed.
Print Assumptions C117_reconstruct.
(** one row of two elements: the search for its ends reads out of bounds *)
Theorem C117_FineLayer_refuted : forall close, fine_input c117_coor c117_conn 6 2 /\ FineLayer_from_checked true close c117_coor c117_conn = Some Oob.
Proof.
  intros close. assert (F : fine_input c117_coor c117_conn 6 2).
  { split; [reflexivity|]. split; [reflexivity|]. split; [lia|]. split; [lia|]. intros [|[|]] [|[|[|[|]]]] H1 H2; cbn; lia. }
  split; [exact F|]. apply (proj1 (from_spec _ _ _ _ F close)). split; [lia|]. left. intros [|[|e]] H1 H2; [lia|reflexivity|]. change (2 / 2) with 1 in H2. lia.
Qed.
Print Assumptions C117_FineLayer_refuted.
(** a mesh of 3 by 3 elements, as arrays *)
Example C117_FineLayer_ex : forall h, exists m X C, FineLayer_init 3 3 h 1 = Some (Ok m) /\ f_coor m = Ok X /\ f_conn m = Ok C /\
  has_rows (mkArray [f_nnode m; 2] (fun ix => match ix with [i; j] => nth j (nth i X []) 0%R | _ => 0%R end)) X (f_nnode m) 2 /\
  has_rows (mkArray [f_nelem m; 4] (fun ix => match ix with [i; j] => nth j (nth i C []) 0 | _ => 0 end)) C (f_nelem m) 4.
Proof.
  intros h. assert (E := Proof_FineLayerThm.T_terminates 3 3 h 1 ltac:(lia) ltac:(lia)). destruct E as [m E].
  destruct (Proof_FineLayerThm.T_mesh 3 3 1 h m ltac:(lia) ltac:(lia) E) as (X & C & EX & EC & SX & SC & _). exists m, X, C. split; [exact E|]. split; [exact EX|]. split; [exact EC|].
  split; (split; [reflexivity|]); intros i j Hi Hj; cbn [a_ent].
  - destruct SX as [L S]. destruct (nth_error X i) as [row|] eqn:Er; [|apply nth_error_None in Er; lia]. exists row. split; [reflexivity|].
    rewrite (nth_error_nth X i [] Er). apply nth_error_nth'. rewrite (S row (nth_error_In _ _ Er)). exact Hj.
  - destruct SC as [L S]. destruct (nth_error C i) as [row|] eqn:Er; [|apply nth_error_None in Er; lia]. exists row. split; [reflexivity|].
    rewrite (nth_error_nth C i [] Er). apply nth_error_nth'. rewrite (S row (nth_error_In _ _ Er)). exact Hj.
Qed.
