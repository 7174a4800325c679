(** Properties C80-C85: programs that combine the parts of the library, as in docs/examples.
    In all of them [v] is a [Vector] of the mesh, [E] an object of one of the four element classes with nodal coordinates [x]
    (any coordinates, any quadrature), and [C] a stiffness tensor per integration point. *)
From Coq Require Import Reals Lra Lia.
From Verif Require Import Model_Element Spec_Element Base Spec Sums Spec_Vector Spec_Matrix Spec_MatrixOps Spec_MatrixDiagonal Model_Numbering Model_Vector Model_VectorPartitioned
  Model_Sparse Model_Matrix Model_MatrixPartitioned Model_MatrixDiagonal Model_MeshGeometry Model_Pipeline Spec_Pipeline
  Proof_Vector Proof_Matrix Proof_MatrixPartitioned Proof_MatrixDiagonal Prop_MatrixPartitioned Proof_PipelineElem Proof_Pipeline Proof_PipelineBalance Proof_PipelineDynamics Proof_PipelineEx.

(** ** C80: the assembled stiffness is that of the assembled internal force *)

(** the product of the assembled matrix and a displacement is the internal force of that displacement for the stress C : grad(u);
    for the stress C : sym(grad(u)) if C is symmetric in its last two indices *)
Theorem C80_dot : forall conn dofs nelem nnode ndof x E, elem_obj nelem x E -> mesh_dofs conn dofs nelem (el_nne E) nnode (el_ndim E) ndof ->
  let v := mkVector conn (el_nne E) dofs (el_ndim E) in
  forall cK c1 c2, valid_call nelem cK -> valid_call nelem c1 -> valid_call nelem c2 ->
  forall C M M', M_v M = v -> M_assemble M (element_stiffness v E cK C) = Ok M' ->
  forall order u, Permutation order (list_prod (seq 0 nnode) (seq 0 (el_ndim E))) -> shape2 u nnode (el_ndim E) -> agree2 dofs nnode (el_ndim E) u ->
  exists f, M_dot_nodevec M' order u = Ok f /\ internal_force_grad v E (ddot42 (el_tdim E) C) c1 c2 u = Ok f /\
    (minor_symmetric nelem E C -> internal_force v E (ddot42 (el_tdim E) C) c1 c2 u = Ok f).
Proof.
  intros conn dofs nelem nnode ndof x E H Hm v cK c1 c2 HK H1 H2 C M M' Hv EM order u. destruct (elem_obj_raw _ _ _ H) as [B Ho].
  rewrite <- (node_iters_eq conn dofs nelem _ nnode _ ndof Hm). intros Hp Su Au.
  destruct (AsDofs_values v nelem _ nnode _ ndof eq_refl eq_refl Hm order u Hp Su Au) as [X [EX _]].
  destruct (K_dot v E nelem nnode ndof eq_refl eq_refl Hm B Ho cK C c1 c2 order u X HK H1 H2 Hp Su Au EX M M' Hv EM) as [b [_ [_ Ed]]].
  destruct (force_spec v E nelem nnode ndof eq_refl eq_refl Hm B Ho el_GradN_vector (ddot42 (el_tdim E) C) c1 c2 u Su) as [ue [f [_ [Ef _]]]].
  exists f. split; [rewrite Ed; exact Ef|]. split; [exact Ef|]. intros HC.
  rewrite (sym_force v E nelem nnode ndof eq_refl eq_refl Hm B Ho C c1 c2 c1 c2 u HC H1 H2 H1 H2 Su). exact Ef.
Qed.
Print Assumptions C80_dot.

(** the assembled matrix is symmetric if C is *)
Theorem C80_symmetric : forall conn dofs nelem nnode ndof x E, elem_obj nelem x E -> mesh_dofs conn dofs nelem (el_nne E) nnode (el_ndim E) ndof ->
  let v := mkVector conn (el_nne E) dofs (el_ndim E) in
  forall cK C M M', valid_call nelem cK -> major_symmetric nelem E C -> M_v M = v -> M_assemble M (element_stiffness v E cK C) = Ok M' ->
  exists dn, M_todense M' = Ok dn /\ Spec.shape2 dn ndof ndof /\ forall a b, a < ndof -> b < ndof -> val2 dn a b = val2 dn b a.
Proof.
  intros conn dofs nelem nnode ndof x E H Hm v cK C M M' HK HC Hv EM. destruct (elem_obj_raw _ _ _ H) as [B Ho].
  destruct (assemble_spec v nelem _ nnode _ ndof eq_refl eq_refl Hm M _ Hv (K_shape v E nelem nnode ndof eq_refl eq_refl Hm B Ho cK C)) as [M2 [EM2 [Hv2 [_ [R2 [C2 V2]]]]]].
  rewrite EM in EM2. injection EM2 as <-.
  destruct (todense_spec v nelem _ nnode _ ndof eq_refl eq_refl Hm M' Hv2 R2 C2) as [dn [Ed [Sd Vd]]].
  exists dn. split; [exact Ed|]. split; [exact Sd|]. intros a b Ha Hb. rewrite !Vd, !V2 by assumption.
  now apply (K_symmetric v E nelem nnode ndof eq_refl eq_refl Hm B Ho).
Qed.
Print Assumptions C80_symmetric.

(** the quadratic form of the assembled matrix is the integral of grad(u) : C : grad(u) over the body *)
Theorem C80_energy : forall conn dofs nelem nnode ndof x E, elem_obj nelem x E -> mesh_dofs conn dofs nelem (el_nne E) nnode (el_ndim E) ndof ->
  let v := mkVector conn (el_nne E) dofs (el_ndim E) in
  forall cK c C M M', valid_call nelem cK -> valid_call nelem c -> M_v M = v -> M_assemble M (element_stiffness v E cK C) = Ok M' ->
  forall y, length y = ndof ->
  exists Y b, AsElement_dofval v y = Ok Y /\ M_dot_dofval M' y = Ok b /\
    sumn ndof (fun d => val1 y d * val1 b d)%R = integral nelem E (ddot42 (el_tdim E) C (el_GradN_vector E c (of_rows Y))) (el_GradN_vector E c (of_rows Y)) /\
    (positive_stiffness nelem E C -> positive_volume nelem E -> (0 <= sumn ndof (fun d => val1 y d * val1 b d))%R).
Proof.
  intros conn dofs nelem nnode ndof x E H Hm v cK c C M M' HK Hc Hv EM y Ly. destruct (elem_obj_raw _ _ _ H) as [B Ho].
  destruct (AsElement_dofval_spec v nelem _ nnode _ ndof eq_refl eq_refl Hm y Ly) as [Y [EY _]].
  destruct (K_energy v E nelem nnode ndof eq_refl eq_refl Hm B Ho cK c C y Y M M' HK Hc Hv EM Ly EY) as [b [Eb Hen]].
  exists Y, b. split; [exact EY|]. split; [exact Eb|]. split; [exact Hen|]. intros HC HV. rewrite Hen. unfold integral.
  apply sumn_nonneg. intros e He. apply sumn_nonneg. intros q Hq. apply Rmult_le_pos; [|now apply HV]. now apply HC.
Qed.
Print Assumptions C80_energy.

(** a square element with a material for which all hypotheses of C80 hold, and an entry of the matrix that is not zero *)
Example C80_ex : elem_obj 1 sq sqE /\ mesh_dofs sq_conn sq_dofs 1 (el_nne sqE) 4 (el_ndim sqE) 8 /\ valid_call 1 sq_call /\
  minor_symmetric 1 sqE Isym /\ major_symmetric 1 sqE Isym /\ positive_stiffness 1 sqE Isym /\ positive_volume 1 sqE /\
  val3 (element_stiffness sq_v sqE sq_call Isym) 0 7 7 = (3 / 32)%R /\ exists M', M_assemble (new_Matrix sq_v) (element_stiffness sq_v sqE sq_call Isym) = Ok M'.
Proof.
  split; [exact sq_elem|]. split; [exact sq_mesh|]. split; [exact sq_valid|]. split; [apply Isym_minor|]. split; [apply Isym_major|]. split; [exact sq_positive|]. split; [exact sq_volume|]. split.
  - rewrite (K_val sq_v sqE 1 4 8 eq_refl eq_refl sq_mesh _ (Quad4_raw _ _ _ _ _ _ sq_obj)) by (cbn; lia). now apply sq_K77, sq_valid.
  - destruct (assemble_spec sq_v 1 4 4 2 8 eq_refl eq_refl sq_mesh (new_Matrix sq_v) (element_stiffness sq_v sqE sq_call Isym) eq_refl) as [M' [EM _]]; [|now exists M'].
    apply (K_shape sq_v sqE 1 4 8 eq_refl eq_refl sq_mesh _ (Quad4_raw _ _ _ _ _ _ sq_obj)).
Qed.

(** ** C81: the assembled stiffness of the tangents of the material is the derivative of the internal force *)
Theorem C81_tangent : forall conn dofs nelem nnode ndof x E, elem_obj nelem x E -> mesh_dofs conn dofs nelem (el_nne E) nnode (el_ndim E) ndof ->
  let v := mkVector conn (el_nne E) dofs (el_ndim E) in
  forall cK c1 c2, valid_call nelem cK -> valid_call nelem c1 -> valid_call nelem c2 ->
  forall law C u du ue M M' order, local_law nelem E law -> minor_symmetric nelem E C ->
  nodal dofs nnode (el_ndim E) u -> nodal dofs nnode (el_ndim E) du -> Permutation order (list_prod (seq 0 nnode) (seq 0 (el_ndim E))) ->
  AsElement_nodevec v u = Ok ue -> tangent_at nelem E law (el_SymGradN_vector E c1 (of_rows ue)) C ->
  M_v M = v -> M_assemble M (element_stiffness v E cK C) = Ok M' ->
  exists df F, M_dot_nodevec M' order du = Ok df /\ (forall t, internal_force v E law c1 c2 (move u du t) = Ok (F t)) /\
    forall n j, n < nnode -> j < el_ndim E -> derivable_pt_lim (fun t => val2 (F t) n j) 0 (val2 df n j).
Proof.
  intros conn dofs nelem nnode ndof x E H Hm v cK c1 c2 HK H1 H2 law C u du ue M M' order Hl HC Nu Nd Hp Eu Ht Hv EM. pose proof (elem_obj_raw _ _ _ H) as [B Ho].
  destruct (C80_dot conn dofs nelem nnode ndof x E H Hm cK c1 c2 HK H1 H2 C M M' Hv EM order du Hp (proj1 Nd) (proj2 Nd)) as [df [Ed [_ Es]]].
  destruct (tangent_gen v E nelem nnode ndof eq_refl eq_refl Hm B Ho el_SymGradN_vector law C c1 c2 u du ue df (sym_linear v E nelem nnode ndof eq_refl eq_refl Hm B Ho) Hl H1 H2 (proj1 Nu) (proj1 Nd) Eu Ht (Es HC))
    as [F [EF DF]].
  exists df, F. split; [exact Ed|]. split; [exact EF|exact DF].
Qed.
Print Assumptions C81_tangent.

(** the same with the full gradient as strain, for any C *)
Theorem C81_tangent_grad : forall conn dofs nelem nnode ndof x E, elem_obj nelem x E -> mesh_dofs conn dofs nelem (el_nne E) nnode (el_ndim E) ndof ->
  let v := mkVector conn (el_nne E) dofs (el_ndim E) in
  forall cK c1 c2, valid_call nelem cK -> valid_call nelem c1 -> valid_call nelem c2 ->
  forall law C u du ue M M' order, local_law nelem E law ->
  nodal dofs nnode (el_ndim E) u -> nodal dofs nnode (el_ndim E) du -> Permutation order (list_prod (seq 0 nnode) (seq 0 (el_ndim E))) ->
  AsElement_nodevec v u = Ok ue -> tangent_at nelem E law (el_GradN_vector E c1 (of_rows ue)) C ->
  M_v M = v -> M_assemble M (element_stiffness v E cK C) = Ok M' ->
  exists df F, M_dot_nodevec M' order du = Ok df /\ (forall t, internal_force_grad v E law c1 c2 (move u du t) = Ok (F t)) /\
    forall n j, n < nnode -> j < el_ndim E -> derivable_pt_lim (fun t => val2 (F t) n j) 0 (val2 df n j).
Proof.
  intros conn dofs nelem nnode ndof x E H Hm v cK c1 c2 HK H1 H2 law C u du ue M M' order Hl Nu Nd Hp Eu Ht Hv EM. pose proof (elem_obj_raw _ _ _ H) as [B Ho].
  destruct (C80_dot conn dofs nelem nnode ndof x E H Hm cK c1 c2 HK H1 H2 C M M' Hv EM order du Hp (proj1 Nd) (proj2 Nd)) as [df [Ed [Es _]]].
  destruct (tangent_gen v E nelem nnode ndof eq_refl eq_refl Hm B Ho el_GradN_vector law C c1 c2 u du ue df (grad_linear v E nelem nnode ndof eq_refl eq_refl Hm B Ho) Hl H1 H2 (proj1 Nu) (proj1 Nd) Eu Ht Es)
    as [F [EF DF]].
  exists df, F. split; [exact Ed|]. split; [exact EF|exact DF].
Qed.
Print Assumptions C81_tangent_grad.

(** a material that is not linear *)
Example C81_ex : local_law 1 sqE law2 /\ forall A, tangent_at 1 sqE law2 A (tan2 A) /\ minor_symmetric 1 sqE (tan2 A).
Proof. split; [apply law2_local; cbn; lia|]. intros A. split; [apply law2_tangent|apply tan2_minor]. Qed.

(** ** C82: the statics program gives the prescribed displacements and equilibrium *)
Theorem C82_statics : forall conn dofs nelem nnode ndof x E iip, elem_obj nelem x E -> mesh_dofs conn dofs nelem (el_nne E) nnode (el_ndim E) ndof ->
  prescribed ndof iip -> no_holes dofs ndof ->
  let v := mkVector conn (el_nne E) dofs (el_ndim E) in
  (* whatever was done before with the matrix and the solver *)
  forall linsolve ops K0 K s p, Forall (fun o => match o with PMat o => valid_op nelem (el_nne E) (el_ndim E) ndof o | _ => True end) ops ->
  new_MatrixPartitioned v iip = Ok K0 -> foldM (run_pop linsolve) ops (K0, new_Solver) = Ok (K, s) -> new_VectorPartitioned v iip = Ok p ->
  forall mem C fext disp0 bc, valid_memory nelem nnode (el_ndim E) mem -> minor_symmetric nelem E C ->
  (forall K', MP_assemble K (element_stiffness v E (r_K mem) C) = Ok K' -> solves linsolve (A_uu K')) ->
  nodal dofs nnode (el_ndim E) fext -> nodal dofs nnode (el_ndim E) bc ->
  shape2 disp0 nnode (el_ndim E) -> (forall n j, n < nnode -> j < el_ndim E -> val2 disp0 n j = 0%R) ->
  exists disp fint fext' fres, statics linsolve mem p K s E (ddot42 (el_tdim E) C) C fext disp0 bc = Ok (disp, fint, fext', fres) /\
    nodal dofs nnode (el_ndim E) disp /\ shape2 fres nnode (el_ndim E) /\
    (* the internal force that is returned is that of the displacement *)
    (forall c1 c2, valid_call nelem c1 -> valid_call nelem c2 -> internal_force v E (ddot42 (el_tdim E) C) c1 c2 disp = Ok fint) /\
    forall m i, m < nnode -> i < el_ndim E ->
      val2 fres m i = 0%R /\
      (In (idx2 dofs m i) iip -> val2 disp m i = val2 bc m i) /\
      (~ In (idx2 dofs m i) iip -> val2 fext' m i = val2 fext m i) /\
      val2 fext' m i = val2 fint m i.
Proof.
  intros conn dofs nelem nnode ndof x E iip H Hm Hi Hh v linsolve ops K0 K s p Hok E0 Er Ep mem C fext disp0 bc HM HC Hs [Sf Af] [Sb Ab] S0 Z0. destruct (elem_obj_raw _ _ _ H) as [B Ho].
  destruct (statics_ok v E nelem nnode ndof eq_refl eq_refl Hm B Ho iip Hi Hh linsolve ops K0 K s p mem C fext disp0 bc Hok E0 Er Ep HM HC Hs Sf Af Sb Ab S0 Z0)
    as [disp [fint [fext' [fres [H1 [H2 [H3 [H4 [H5 H6]]]]]]]]].
  exists disp, fint, fext', fres. split; [exact H1|]. split; [now split|]. split; [exact H4|]. split; [exact H5|exact H6].
Qed.
Print Assumptions C82_statics.

(** the square, with only the vertical displacement of the last node unknown; the others are zero except that of node 2 *)
Example C82_ex : exists K0 p, new_MatrixPartitioned sq_v sq_iip = Ok K0 /\ new_VectorPartitioned sq_v sq_iip = Ok p /\
  exists disp fint fext' fres, statics div1 sq_mem p K0 new_Solver sqE (ddot42 2 Isym) Isym (nodes4 0 0 0 0 0 0 0 3) (nodes4 0 0 0 0 0 0 0 0) (nodes4 0 0 0 0 0 1 0 0) = Ok (disp, fint, fext', fres) /\
    val2 disp 2 1 = 1%R /\ val2 fint 3 1 = 3%R /\ val2 fres 3 1 = 0%R.
Proof.
  destruct (mp_new sq_v 1 4 4 2 8 eq_refl eq_refl sq_mesh sq_iip sq_prescribed sq_holes) as [K0 [E0 [[[Ep _] _] _]]].
  exists K0, (MP_p K0). split; [exact E0|]. split; [exact Ep|].
  destruct (C82_statics sq_conn sq_dofs 1 4 8 sq sqE sq_iip sq_elem sq_mesh sq_prescribed sq_holes div1 [] K0 K0 new_Solver (MP_p K0) (Forall_nil _) E0 eq_refl Ep
    sq_mem Isym (nodes4 0 0 0 0 0 0 0 3) (nodes4 0 0 0 0 0 0 0 0) (nodes4 0 0 0 0 0 1 0 0) sq_memory (Isym_minor _ _)) as [disp [fint [fext' [fres [Er [_ [_ [_ H]]]]]]]].
  - intros K'. now apply (sq_solves K0 K0), sq_valid.
  - apply sq_nodal.
  - apply sq_nodal.
  - apply (sq_nodal 0 0 0 0 0 0 0 0).
  - intros n j Hn Hj. cbn in Hj. destruct n as [|[|[|[|]]]]; try lia; destruct j as [|[|]]; try lia; reflexivity.
  - exists disp, fint, fext', fres. split; [exact Er|]. destruct (H 2 1 ltac:(lia) ltac:(cbn; lia)) as [_ [H21 _]]. destruct (H 3 1 ltac:(lia) ltac:(cbn; lia)) as [H31 [_ [H32 H33]]].
    split; [apply H21; cbn; lia|]. split; [|exact H31]. rewrite <- H33. apply H32. cbn. lia.
Qed.

(** ** C83: Newton iterations with a linear material: equilibrium after every iteration, and the prescribed displacements add up *)
Theorem C83_newton : forall conn dofs nelem nnode ndof x E iip, elem_obj nelem x E -> mesh_dofs conn dofs nelem (el_nne E) nnode (el_ndim E) ndof ->
  prescribed ndof iip -> no_holes dofs ndof ->
  let v := mkVector conn (el_nne E) dofs (el_ndim E) in
  forall linsolve p C, new_VectorPartitioned v iip = Ok p -> minor_symmetric nelem E C ->
  (forall K K' c, MP_p K = p -> valid_call nelem c -> MP_assemble K (element_stiffness v E c C) = Ok K' -> solves linsolve (A_uu K')) ->
  (* the increments: schedules, external force, prescribed displacement update *)
  forall steps : list (run_memory * list (list R) * list (list R)),
  (forall mem fext du, In (mem, fext, du) steps -> valid_memory nelem nnode (el_ndim E) mem /\ nodal dofs nnode (el_ndim E) fext /\ nodal dofs nnode (el_ndim E) du) ->
  forall K0 ops K s disp, Forall (fun o => match o with PMat o => valid_op nelem (el_nne E) (el_ndim E) ndof o | _ => True end) ops ->
  new_MatrixPartitioned v iip = Ok K0 -> foldM (run_pop linsolve) ops (K0, new_Solver) = Ok (K, s) -> nodal dofs nnode (el_ndim E) disp ->
  exists disp' K' s', foldM (fun st x => newton linsolve (fst (fst x)) p E (ddot42 (el_tdim E) C) C (snd (fst x)) st (snd x)) steps (disp, K, s) = Ok (disp', K', s') /\
    nodal dofs nnode (el_ndim E) disp' /\
    (forall m i, m < nnode -> i < el_ndim E -> In (idx2 dofs m i) iip -> val2 disp' m i = (val2 disp m i + sumL steps (fun x => val2 (snd x) m i))%R) /\
    (forall c1 c2, valid_call nelem c1 -> valid_call nelem c2 -> forall before mem fext du, steps = before ++ [(mem, fext, du)] ->
       exists fint, internal_force v E (ddot42 (el_tdim E) C) c1 c2 disp' = Ok fint /\
         forall m i, m < nnode -> i < el_ndim E -> ~ In (idx2 dofs m i) iip -> val2 fint m i = val2 fext m i).
Proof.
  intros conn dofs nelem nnode ndof x E iip H Hm Hi Hh v linsolve p C Ep HC Hs steps Hst K0 ops K s disp Hok E0 Er [Sd Ad]. destruct (elem_obj_raw _ _ _ H) as [B Ho].
  destruct (newton_steps v E nelem nnode ndof eq_refl eq_refl Hm B Ho iip Hi Hh linsolve p C steps Ep HC Hs) with (a0 := K0) (ops := ops) (a := K) (s := s) (disp := disp)
    as [d [K' [s' [H1 [H2 [H3 [H4 H5]]]]]]]; try assumption.
  { intros mem fext du Hin. destruct (Hst mem fext du Hin) as [A1 [[A2 A3] [A4 A5]]]. tauto. }
  exists d, K', s'. split; [exact H1|]. split; [now split|]. split; [exact H4|]. intros c1 c2 Hc1 Hc2 before mem fext du Eq.
  apply (H5 c1 c2 Hc1 Hc2 mem fext du); rewrite Eq; [apply last_last|]. now destruct before.
Qed.
Print Assumptions C83_newton.

(** the hypotheses for the square and two steps *)
Example C83_ex : exists K0 p, new_MatrixPartitioned sq_v sq_iip = Ok K0 /\ new_VectorPartitioned sq_v sq_iip = Ok p /\ minor_symmetric 1 sqE Isym /\
  (forall K K' c, MP_p K = p -> valid_call 1 c -> MP_assemble K (element_stiffness sq_v sqE c Isym) = Ok K' -> solves div1 (A_uu K')) /\
  forall mem fext du, In (mem, fext, du) [(sq_mem, nodes4 0 0 0 0 0 0 0 3, nodes4 0 0 0 0 0 1 0 0); (sq_mem, nodes4 0 0 0 0 0 0 0 4, nodes4 0 0 1 0 0 0 0 0)] ->
    valid_memory 1 4 2 mem /\ nodal sq_dofs 4 2 fext /\ nodal sq_dofs 4 2 du.
Proof.
  destruct (mp_new sq_v 1 4 4 2 8 eq_refl eq_refl sq_mesh sq_iip sq_prescribed sq_holes) as [K0 [E0 [[[Ep _] _] _]]].
  exists K0, (MP_p K0). split; [exact E0|]. split; [exact Ep|]. split; [apply Isym_minor|]. split.
  - intros K K' c. exact (sq_solves K0 K K' c E0).
  - intros mem fext du [[= <- <- <-]|[[= <- <- <-]|[]]]; (split; [exact sq_memory|]); split; apply sq_nodal.
Qed.

(** ** C84: virtual work and balance of the assembled internal force, for any stress *)

(** the work of the assembled force on any displacement of the DOFs is the integral of the stress and the gradient of the displacement *)
Theorem C84_virtual_work : forall conn dofs nelem nnode ndof x E, elem_obj nelem x E -> mesh_dofs conn dofs nelem (el_nne E) nnode (el_ndim E) ndof ->
  let v := mkVector conn (el_nne E) dofs (el_ndim E) in
  forall c c' sig y, valid_call nelem c -> valid_call nelem c' -> length y = ndof ->
  exists Y b, AsElement_dofval v y = Ok Y /\
    AssembleDofs_elemvec v (to_rows nelem (el_nne E) (el_ndim E) (el_Int_gradN_dot_tensor2_dV E c sig)) = Ok b /\ length b = ndof /\
    sumn ndof (fun d => val1 y d * val1 b d)%R = integral nelem E sig (el_GradN_vector E c' (of_rows Y)).
Proof.
  intros conn dofs nelem nnode ndof x E H Hm v c c' sig y Hc Hc' Ly.
  destruct (AsElement_dofval_spec v nelem _ nnode _ ndof eq_refl eq_refl Hm y Ly) as [Y [EY _]].
  destruct (virtual_work v E nelem nnode ndof eq_refl eq_refl Hm x c c' sig y Y H Hc Hc' Ly EY) as [b Hb]. exists Y, b. split; [exact EY|exact Hb].
Qed.
Print Assumptions C84_virtual_work.

(** no work on a translation: the forces of any stress are in balance (whatever nodes share DOFs, as long as the translation respects it) *)
Theorem C84_translation : forall conn dofs nelem nnode ndof x E, cartesian_obj nelem x E -> mesh_dofs conn dofs nelem (el_nne E) nnode (el_ndim E) ndof ->
  let v := mkVector conn (el_nne E) dofs (el_ndim E) in
  forall c sig t y b, valid_call nelem c -> length y = ndof -> (forall n i, n < nnode -> i < el_ndim E -> val1 y (idx2 dofs n i) = t i) ->
  AssembleDofs_elemvec v (to_rows nelem (el_nne E) (el_ndim E) (el_Int_gradN_dot_tensor2_dV E c sig)) = Ok b ->
  sumn ndof (fun d => val1 y d * val1 b d)%R = 0%R.
Proof.
  intros conn dofs nelem nnode ndof x E H Hm v c sig t y b Hc Ly Hy Eb.
  exact (translation v E nelem nnode ndof eq_refl eq_refl Hm x c sig y b t H Hc Ly Hy Eb).
Qed.
Print Assumptions C84_translation.

(** no work on a (linearised) rotation of a plane body, if the stress is symmetric: the moments are in balance *)
Theorem C84_rotation : forall conn dofs nelem nnode ndof x E, regular2_obj nelem x E -> mesh_dofs conn dofs nelem (el_nne E) nnode (el_ndim E) ndof ->
  let v := mkVector conn (el_nne E) dofs (el_ndim E) in
  forall c sig y b, valid_call nelem c -> length y = ndof ->
  (forall e m, e < nelem -> m < el_nne E -> val1 y (idx2 dofs (idx2 conn e m) 0) = (- x [e;m;1]%nat)%R /\ val1 y (idx2 dofs (idx2 conn e m) 1) = x [e;m;0]%nat) ->
  all_points nelem E (fun e q i j => sig [e;q;i;j] = sig [e;q;j;i]) ->
  AssembleDofs_elemvec v (to_rows nelem (el_nne E) (el_ndim E) (el_Int_gradN_dot_tensor2_dV E c sig)) = Ok b ->
  sumn ndof (fun d => val1 y d * val1 b d)%R = 0%R.
Proof.
  intros conn dofs nelem nnode ndof x E H Hm v c sig y b Hc Ly Hy Hs Eb.
  exact (rotation v E nelem nnode ndof eq_refl eq_refl Hm x c sig y b H Hc Ly Hy Hs Eb).
Qed.
Print Assumptions C84_rotation.

(** a square under pressure: forces that are not zero, but do no work on a translation and on a rotation *)
Example C84_ex : cartesian_obj 1 sq sqE /\ regular2_obj 1 sq sqE /\ all_points 1 sqE (fun e q i j => pressure [e;q;i;j] = pressure [e;q;j;i]) /\
  (exists b, AssembleDofs_elemvec sq_v (to_rows 1 4 2 (el_Int_gradN_dot_tensor2_dV sqE sq_call pressure)) = Ok b /\ val1 b 7 = (/ 8)%R) /\
  (forall n i, n < 4 -> i < 2 -> val1 [5; 2; 5; 2; 5; 2; 5; 2]%R (idx2 sq_dofs n i) = if i =? 0 then 5%R else 2%R) /\
  (forall e m, e < 1 -> m < 4 -> val1 [-0; 0; -0; 1; -(1); 1; -(1); 0]%R (idx2 sq_dofs (idx2 sq_conn e m) 0) = (- sq [e;m;1]%nat)%R /\
    val1 [-0; 0; -0; 1; -(1); 1; -(1); 0]%R (idx2 sq_dofs (idx2 sq_conn e m) 1) = sq [e;m;0]%nat).
Proof.
  split; [exact sq_cart|]. split; [exact sq_regular|]. split; [intros e q i j _ _ _ _; unfold pressure; now rewrite Nat.eqb_sym|]. split; [|split].
  - destruct (AssembleDofs_elemvec_spec sq_v 1 4 4 2 8 eq_refl eq_refl sq_mesh _ (to_rows_shape 1 4 2 (el_Int_gradN_dot_tensor2_dV sqE sq_call pressure))) as [b [Eb [_ Vb]]].
    exists b. split; [exact Eb|]. rewrite Vb by lia. rewrite <- sq_force, <- (to_rows_val 1 4 2) by lia. generalize (val3 (to_rows 1 4 2 (el_Int_gradN_dot_tensor2_dV sqE sq_call pressure))). intro kv.
    unfold sum_elem, sumn, sumL, ind. cbn. ring.
  - intros n i Hn Hi. destruct n as [|[|[|[|]]]]; try lia; destruct i as [|[|]]; try lia; reflexivity.
  - intros e m He Hm. assert (e = 0) as -> by lia. destruct m as [|[|[|[|]]]]; try lia; split; reflexivity.
Qed.

(** ** C85: explicit dynamics *)

(** momentum: after any number of time steps, for any material (that may be different in every step), it has changed by the impulse of the external force *)
Theorem C85_momentum : forall conn dofs nelem nnode ndof x E, cartesian_obj nelem x E -> mesh_dofs conn dofs nelem (el_nne E) nnode (el_ndim E) ndof ->
  let v := mkVector conn (el_nne E) dofs (el_ndim E) in
  (* the mass matrix *)
  forall Km M mass, shape3 Km nelem (el_nne E * el_ndim E) (el_nne E * el_ndim E) -> MD_assemble (new_MatrixDiagonal v) Km = Ok M -> MD_data M = Ok mass ->
  (forall d, d < ndof -> val1 mass d <> 0%R) ->
  (* external force, initial state *)
  forall dt fext u w a order F W A, nodal dofs nnode (el_ndim E) fext -> shape2 u nnode (el_ndim E) -> nodal dofs nnode (el_ndim E) w -> nodal dofs nnode (el_ndim E) a ->
  Permutation order (list_prod (seq 0 nnode) (seq 0 (el_ndim E))) ->
  AsDofs_nodevec v order fext = Ok F -> AsDofs_nodevec v order w = Ok W -> AsDofs_nodevec v order a = Ok A ->
  (* a direction *)
  forall t y, length y = ndof -> (forall n i, n < nnode -> i < el_ndim E -> val1 y (idx2 dofs n i) = t i) ->
  sumn ndof (fun d => val1 y d * (val1 mass d * val1 A d))%R = sumn ndof (fun d => val1 y d * val1 F d)%R ->
  forall steps : list ((arr -> arr) * (call * call)), Forall (fun s => valid_calls nelem (snd s)) steps ->
  exists u' w' a' M' W', foldM (fun st s => verlet_step v E (fst s) fext dt st (snd s)) steps (u, w, a, M) = Ok (u', w', a', M') /\
    shape2 u' nnode (el_ndim E) /\ nodal dofs nnode (el_ndim E) w' /\ nodal dofs nnode (el_ndim E) a' /\ nodal dofs nnode (el_ndim E) (sub2 u' u) /\ MD_data M' = Ok mass /\
    AsDofs_nodevec v order w' = Ok W' /\
    sumn ndof (fun d => val1 y d * (val1 mass d * val1 W' d))%R =
      (sumn ndof (fun d => val1 y d * (val1 mass d * val1 W d)) + INR (length steps) * dt * sumn ndof (fun d => val1 y d * val1 F d))%R.
Proof.
  intros conn dofs nelem nnode ndof x E H Hm v Km M mass SK EM Ed Hmass dt fext u w a order F W A Nf Nu Nw Na.
  rewrite <- (node_iters_eq conn dofs nelem _ nnode _ ndof Hm). intros Ho EF EW EA t y Ly Hy HA steps Hst.
  destruct (momentum v E nelem nnode ndof eq_refl eq_refl Hm x H fext dt order Km M mass y F EM SK Ed Hmass Nf Ho EF Ly t Hy steps Hst M u w a W A) as [u' [w' [a' [M' [W' [E1 [Su' [Nw' [Na' [G [D R]]]]]]]]]]]; try assumption.
  2:{ exists u', w', a', M', W'. split; [exact E1|]. split; [exact Su'|]. split; [exact Nw'|]. split; [exact Na'|]. split; [split; [now apply zip2_shape|exact G]|]. split; [exact D|exact R]. }
  destruct (MD_assemble_spec v nelem _ nnode _ ndof eq_refl eq_refl Hm (new_MatrixDiagonal v) Km eq_refl) as [M' [EM' HM']]; [|exact SK|].
  { unfold new_MatrixDiagonal. cbn [MD_A]. unfold empty. rewrite repeat_length. apply (V_sizes v nelem _ nnode _ ndof eq_refl eq_refl Hm). }
  rewrite EM in EM'. injection EM' as <-. destruct (MD_data_spec v nelem _ nnode _ ndof eq_refl eq_refl Hm M _ HM') as [l [El [_ Vl]]].
  rewrite Ed in El. injection El as <-. apply (md_is_ext v ndof M _ _ HM'). intros d Hd. symmetry. now apply Vl.
Qed.
Print Assumptions C85_momentum.

(** reversibility: running the same number of steps from the final state with the velocity reversed gives the initial state, with the velocity
    reversed, if the initial acceleration is that of the initial forces *)
Theorem C85_reversible : forall conn dofs nelem nnode ndof x E, elem_obj nelem x E -> mesh_dofs conn dofs nelem (el_nne E) nnode (el_ndim E) ndof ->
  let v := mkVector conn (el_nne E) dofs (el_ndim E) in
  forall Km M, shape3 Km nelem (el_nne E * el_ndim E) (el_nne E * el_ndim E) -> MD_assemble (new_MatrixDiagonal v) Km = Ok M ->
  forall law dt fext u w a c f M0, local_law nelem E law -> nodal dofs nnode (el_ndim E) fext -> shape2 u nnode (el_ndim E) -> nodal dofs nnode (el_ndim E) w ->
  valid_calls nelem c -> internal_force v E law (fst c) (snd c) u = Ok f -> MD_solve_nodevec M (sub2 fext f) = Ok (a, M0) ->
  forall steps back, Forall (valid_calls nelem) steps -> Forall (valid_calls nelem) back -> length back = length steps ->
  exists u' w' a' M1 M2, foldM (verlet_step v E law fext dt) steps (u, w, a, M0) = Ok (u', w', a', M1) /\
    foldM (verlet_step v E law fext dt) back (u', scal2 (-1) w', a', M1) = Ok (u, scal2 (-1) w, a, M2).
Proof.
  intros conn dofs nelem nnode ndof x E H Hm v Km M SK EM law dt fext u w a c f M0 Hl Nf Nu Nw [Hc1 Hc2] Ef Es steps back Hst Hb Lb.
  destruct (MD_assemble_spec v nelem _ nnode _ ndof eq_refl eq_refl Hm (new_MatrixDiagonal v) Km eq_refl) as [M' [EM' HM']]; [|exact SK|].
  { unfold new_MatrixDiagonal. cbn [MD_A]. unfold empty. rewrite repeat_length. apply (V_sizes v nelem _ nnode _ ndof eq_refl eq_refl Hm). }
  rewrite EM in EM'. injection EM' as <-.
  destruct (force_dofs v E nelem nnode ndof eq_refl eq_refl Hm law (fst c) (snd c) u Nu) as [_ [f' [_ [Ef' [[Sf Af] _]]]]]. rewrite Ef in Ef'. injection Ef' as <-.
  destruct (MD_solve_nodevec_spec v nelem _ nnode _ ndof eq_refl eq_refl Hm M _ (sub2 fext f) HM') as [a' [M0' [Es' [HM0 [Sa Va]]]]].
  { apply zip2_shape; [apply Nf|exact Sf]. }
  rewrite Es in Es'. injection Es' as <- <-.
  assert (Va' : forall n i, n < nnode -> i < el_ndim E -> val2 a n i = (1 / assembled_diag conn dofs nelem (el_nne E) (el_ndim E) Km (idx2 dofs n i) * (val2 fext n i - val2 f n i))%R).
  { intros n i Hn Hi. rewrite Va by assumption. unfold sub2. now rewrite (zip2_val Rminus _ _ nnode (el_ndim E)) by (try assumption; apply Nf). }
  assert (Na : nodal dofs nnode (el_ndim E) a).
  { split; [exact Sa|]. intros m i n j Hm' Hi Hn Hj Ed. rewrite !Va' by assumption. rewrite Ed, (Af m i n j), (proj2 Nf m i n j) by assumption. reflexivity. }
  destruct (reverse v E nelem nnode ndof eq_refl eq_refl Hm x H law Hl fext Nf dt _ steps back Lb Hst Hb M0 u w a HM0 Nu Nw Na) as [u1 [w1 [a1 [M1 [E1 [HM1 R1]]]]]].
  { intros c1 c2 f2 H1 H2 Ef2. rewrite (force_call v E nelem nnode ndof eq_refl eq_refl Hm x H law Hl fext Nf dt (fun _ => 0%R) c1 c2 (fst c) (snd c) u H1 H2 Hc1 Hc2 Nu) in Ef2. rewrite Ef in Ef2. injection Ef2 as <-. exact Va'. }
  destruct (R1 M1 HM1) as [M2 [E2 _]]. exists u1, w1, a1, M1, M2. split; [exact E1|exact E2].
Qed.
Print Assumptions C85_reversible.

(** the square with a mass, moving to the right *)
Example C85_ex : exists Km M mass, shape3 Km 1 8 8 /\ MD_assemble (new_MatrixDiagonal sq_v) Km = Ok M /\ MD_data M = Ok mass /\ (forall d, d < 8 -> val1 mass d <> 0%R) /\
  exists F W A, let order := list_prod (seq 0 4) (seq 0 2) in
    AsDofs_nodevec sq_v order (nodes4 0 0 0 0 0 0 0 0) = Ok F /\ AsDofs_nodevec sq_v order (nodes4 1 0 1 0 1 0 1 0) = Ok W /\ AsDofs_nodevec sq_v order (nodes4 0 0 0 0 0 0 0 0) = Ok A /\
    (forall n i, n < 4 -> i < 2 -> val1 [1; 0; 1; 0; 1; 0; 1; 0]%R (idx2 sq_dofs n i) = if i =? 0 then 1%R else 0%R) /\
    sumn 8 (fun d => val1 [1; 0; 1; 0; 1; 0; 1; 0] d * (val1 mass d * val1 A d))%R = sumn 8 (fun d => val1 [1; 0; 1; 0; 1; 0; 1; 0] d * val1 F d)%R /\
    sumn 8 (fun d => val1 [1; 0; 1; 0; 1; 0; 1; 0] d * (val1 mass d * val1 W d))%R = 4%R.
Proof.
  exists [repeat (repeat 1%R 8) 8]. do 2 eexists. split; [|split; [reflexivity|split; [reflexivity|split]]].
  - split; [reflexivity|]. intros r [<-|[]]. split; [reflexivity|]. intros r Hr. apply repeat_spec in Hr. rewrite Hr. reflexivity.
  - intros d Hd. do 8 (destruct d as [|d]; [unfold val1; cbn; lra|]). lia.
  - do 3 eexists. cbv zeta. split; [reflexivity|]. split; [reflexivity|]. split; [reflexivity|]. split; [|split].
    + intros n i Hn Hi. destruct n as [|[|[|[|]]]]; try lia; destruct i as [|[|]]; try lia; reflexivity.
    + unfold sumn, sumL, val1. cbn. ring.
    + unfold sumn, sumL, val1. cbn. ring.
Qed.
