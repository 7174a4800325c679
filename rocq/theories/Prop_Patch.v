(** Properties C86 and C87: the patch test, rigid motions and hourglass modes, and uniqueness of the solution of the statics program. *)
From Coq Require Import Reals Lra Lia.
From Verif Require Import Model_Element Spec_Element Proof_Element Proof_ElementQuad4 Proof_ElementMath Base Spec Sums Spec_Vector Spec_Matrix Spec_MatrixOps Model_Numbering Model_Vector Model_VectorPartitioned
  Model_Sparse Model_Matrix Model_MatrixPartitioned Model_MeshGeometry Model_Regular2d Model_Pipeline Spec_Pipeline Spec_Patch
  Proof_Vector Proof_Numbering Proof_Matrix Proof_MatrixPartitioned Prop_MatrixPartitioned Proof_Regular2d Proof_PipelineElem Proof_Pipeline Proof_PipelineBalance Proof_PipelineEx Prop_Pipeline
  Proof_Patch Proof_PatchRigid Proof_PatchRegular.

(** ** C86: the patch test *)

(** the forces of a uniform stress balance at every node around which the elements close, however the mesh is distorted *)
Theorem C86_uniform : forall conn dofs nelem nnode ndof X x E, patch_obj nelem x E -> mesh_dofs conn dofs nelem (el_nne E) nnode (el_ndim E) ndof -> on_mesh conn nelem X x ->
  let v := mkVector conn (el_nne E) dofs (el_ndim E) in
  forall c sig S, valid_call nelem c -> uniform nelem E sig S ->
  exists f, AssembleNode v (to_rows nelem (el_nne E) (el_ndim E) (el_Int_gradN_dot_tensor2_dV E c sig)) = Ok f /\ Spec.shape2 f nnode 2 /\
    forall n i, n < nnode -> i < 2 -> closed_around conn nelem n -> own_dofs dofs nnode 2 n -> val2 f n i = 0%R.
Proof.
  intros conn dofs nelem nnode ndof X x E HE Hm HX v c sig S Hc HS.
  destruct (AssembleNode_spec v nelem _ nnode _ ndof eq_refl eq_refl Hm _ (to_rows_shape nelem (el_nne E) (el_ndim E) (el_Int_gradN_dot_tensor2_dV E c sig))) as [f [Ef [Sf Vf]]].
  exists f. split; [exact Ef|]. destruct (patch_dims conn dofs E nelem nnode ndof X x HE Hm HX) as [D4 [D2 _]]. split; [rewrite <- D2; exact Sf|].
  intros n i Hn Hi HC HO. apply (uniform_force conn dofs E nelem nnode ndof X x HE Hm HX c sig S f n i); try assumption.
  intros n' j Hn' Hj. rewrite Vf by assumption. unfold sum_elem. apply sumn_ext. intros e He. apply sumn_ext. intros k Hk. apply sumn_ext. intros l Hl. now rewrite to_rows_val.
Qed.
Print Assumptions C86_uniform.

(** the internal force of an affine displacement of a homogeneous body is zero at these nodes, for any material law *)
Theorem C86_affine : forall conn dofs nelem nnode ndof X x E, patch_obj nelem x E -> mesh_dofs conn dofs nelem (el_nne E) nnode (el_ndim E) ndof -> on_mesh conn nelem X x ->
  let v := mkVector conn (el_nne E) dofs (el_ndim E) in
  forall law c1 c2 a G u, valid_call nelem c1 -> valid_call nelem c2 -> homogeneous nelem E law -> affine_field nnode X a G u ->
  exists f, internal_force v E law c1 c2 u = Ok f /\ Spec.shape2 f nnode 2 /\
    forall n i, n < nnode -> i < 2 -> closed_around conn nelem n -> own_dofs dofs nnode 2 n -> val2 f n i = 0%R.
Proof.
  intros conn dofs nelem nnode ndof X x E HE Hm HX v law c1 c2 a G u H1 H2 HL Hu. exact (affine_force conn dofs E nelem nnode ndof X x HE Hm HX law c1 c2 a G u H1 H2 HL Hu).
Qed.
Print Assumptions C86_affine.

Lemma uniform_homogeneous nelem E C : uniform_stiffness nelem E C -> homogeneous nelem E (ddot42 (el_tdim E) C).
Proof.
  intros [C0 HC] A T HA. exists (fun i j => sumn (el_tdim E) (fun k => sumn (el_tdim E) (fun l => C0 i j k l * T l k)%R)). intros e q i j He Hq Hi Hj. cbn [ddot42].
  apply sumn_ext. intros k Hk. apply sumn_ext. intros l Hl. now rewrite (HC e q i j He Hq Hi Hj k l Hk Hl), (HA e q l k He Hq Hl Hk).
Qed.

(** the patch test: if affine displacements are prescribed (at least) at all nodes around which the elements do not close, then the
    program gives the affine displacement at all nodes *)
Theorem C86_patch : forall conn dofs nelem nnode ndof X x E iip, patch_obj nelem x E -> mesh_dofs conn dofs nelem (el_nne E) nnode (el_ndim E) ndof -> on_mesh conn nelem X x ->
  prescribed ndof iip -> no_holes dofs ndof ->
  let v := mkVector conn (el_nne E) dofs (el_ndim E) in
  forall linsolve ops K0 K s p, Forall (fun o => match o with PMat o => valid_op nelem (el_nne E) (el_ndim E) ndof o | _ => True end) ops ->
  new_MatrixPartitioned v iip = Ok K0 -> foldM (run_pop linsolve) ops (K0, new_Solver) = Ok (K, s) -> new_VectorPartitioned v iip = Ok p ->
  forall mem C fext disp0 bc, valid_memory nelem nnode (el_ndim E) mem -> minor_symmetric nelem E C -> uniform_stiffness nelem E C ->
  no_mechanism v nelem ndof E C iip ->
  (forall K', MP_assemble K (element_stiffness v E (r_K mem) C) = Ok K' -> solves linsolve (A_uu K')) ->
  nodal dofs nnode (el_ndim E) fext -> nodal dofs nnode (el_ndim E) bc ->
  shape2 disp0 nnode (el_ndim E) -> (forall n j, n < nnode -> j < el_ndim E -> val2 disp0 n j = 0%R) ->
  (* affine on the prescribed DOFs; no force on the others *)
  forall a G, (forall n i, n < nnode -> i < 2 -> In (idx2 dofs n i) iip -> val2 bc n i = (a i + sumn 2 (fun j => G i j * val2 X n j))%R) ->
  (forall n i, n < nnode -> i < 2 -> ~ In (idx2 dofs n i) iip -> val2 fext n i = 0%R /\ closed_around conn nelem n /\ own_dofs dofs nnode 2 n) ->
  exists disp fint fext' fres, statics linsolve mem p K s E (ddot42 (el_tdim E) C) C fext disp0 bc = Ok (disp, fint, fext', fres) /\
    affine_field nnode X a G disp.
Proof.
  intros conn dofs nelem nnode ndof X x E iip HE Hm HX Hi Hh v linsolve ops K0 K s p Hok E0 Er Ep mem C fext disp0 bc HM HC HU HN Hs Nf Nb S0 Z0 a G Hbc Hun.
  destruct (patch_dims conn dofs E nelem nnode ndof X x HE Hm HX) as [D4 [D2 _]].
  pose proof (cart_elem _ _ _ (regular_cart _ _ _ (patch_regular conn dofs E nelem nnode ndof X x HE Hm HX))) as Hobj.
  destruct (C82_statics conn dofs nelem nnode ndof x E iip Hobj Hm Hi Hh linsolve ops K0 K s p Hok E0 Er Ep mem C fext disp0 bc HM HC Hs Nf Nb S0 Z0)
    as [disp [fint [fext' [fres [ER [Nd [Sr [Hfi H]]]]]]]].
  exists disp, fint, fext', fres. split; [exact ER|]. split; [rewrite <- D2; exact (proj1 Nd)|].
  set (u := tab2 nnode 2 (fun n i => (a i + sumn 2 (fun j => G i j * val2 X n j))%R)).
  assert (Vu : forall n i, n < nnode -> i < 2 -> val2 u n i = (a i + sumn 2 (fun j => G i j * val2 X n j))%R).
  { intros n i Hn Hj. unfold val2, u. now apply (tab2_nth 0%R nnode 2 (fun n i => (a i + sumn 2 (fun j => G i j * val2 X n j))%R)). }
  assert (Su : Spec.shape2 u nnode 2) by apply tab2_shape.
  assert (Nu : nodal dofs nnode (el_ndim E) u).
  { rewrite D2. split; [exact Su|]. intros m i n j Hm' Hi' Hn' Hj' Eq. rewrite !Vu by assumption. destruct (in_dec Nat.eq_dec (idx2 dofs m i) iip) as [Hin|Hin].
    - rewrite <- !Hbc by (try assumption; now rewrite <- Eq). apply (proj2 Nb); try assumption; now rewrite D2.
    - destruct (Hun m i Hm' Hi' Hin) as [_ [_ HO]]. destruct (HO i n j Hi' Hn' Hj' (eq_sym Eq)) as [-> ->]. reflexivity. }
  destruct HM as [M1 _].
  destruct (affine_force conn dofs E nelem nnode ndof X x HE Hm HX (ddot42 (el_tdim E) C) (r_eps0 mem) (r_eps0 mem) a G u M1 M1 (uniform_homogeneous _ _ _ HU) (conj Su Vu)) as [f [Ef [_ Vf]]].
  destruct (elem_obj_raw _ _ _ Hobj) as [B Ho].
  intros n i Hn Hj. rewrite <- Vu by assumption.
  apply (unique conn dofs E nelem nnode ndof B Ho Hm iip Hh C (r_eps0 mem) disp u fint f M1 HC HN Nd Nu (Hfi _ _ M1 M1) Ef); try assumption; [| |now rewrite D2].
  - intros n' i' Hn' Hi' Hin. destruct (H n' i' Hn' Hi') as [_ [Hp _]]. rewrite Hp by assumption. rewrite D2 in Hi'. rewrite Vu by assumption. now apply Hbc.
  - intros n' i' Hn' Hi' Hin. destruct (H n' i' Hn' Hi') as [_ [_ [Hq1 Hq2]]]. rewrite <- Hq2, Hq1 by assumption. rewrite D2 in Hi'. destruct (Hun n' i' Hn' Hi' Hin) as [-> [A1 A2]].
    symmetry. now apply Vf.
Qed.
Print Assumptions C86_patch.

(** which meshes: in a regular mesh the elements close around all nodes that are not on the boundary, and nodes have their own DOFs *)
Theorem C86_regular_mesh : forall m n, n < nnode m ->
  own_dofs (dofs (nnode m) 2) (nnode m) 2 n /\
  (~ In n (nodesBottomEdge m) -> ~ In n (nodesTopEdge m) -> ~ In n (nodesLeftEdge m) -> ~ In n (nodesRightEdge m) -> closed_around (conn m) (nelem m) n).
Proof.
  intros m n Hn. split.
  - intros i n' j Hi Hn' Hj Eq. unfold idx2, nth2 in Eq.
    assert (D : forall k l, k < nnode m -> l < 2 -> nth l (nth k (dofs (nnode m) 2) []) 0 = k * 2 + l).
    { intros k l Hk Hl. pose proof (dofs_at (nnode m) 2 k l Hk Hl) as A. unfold at2 in A. destruct (nth_error (dofs (nnode m) 2) k) as [r|] eqn:Er; [|discriminate].
      rewrite (nth_error_nth _ _ _ Er). now apply nth_error_nth. }
    rewrite !D in Eq by assumption. lia.
  - intros HB HT HL HR. destruct (regular_interior m n Hn HB HT HL HR) as [ix [iy [A1 [A2 [A3 [A4 ->]]]]]]. now apply regular_closed.
Qed.
Print Assumptions C86_regular_mesh.

(** which rules: all rules of Quad4 *)
Theorem C86_rules : forall j j', centred 4 (Gauss4_xi j) (Gauss4_w j') /\ centred 4 (Nodal4_xi j) (Nodal4_w j') /\ centred 1 (MidPoint4_xi j) (MidPoint4_w j').
Proof. intros j j'. split; [apply centred_Gauss|]. split; [apply centred_Nodal|apply centred_MidPoint]. Qed.
Print Assumptions C86_rules.

(** ** C87: zero-energy displacements, and uniqueness *)

(** the displacement is determined by the prescribed displacements and the internal force at the other DOFs; for any element class *)
Theorem C87_unique : forall conn dofs nelem nnode ndof x E iip, elem_obj nelem x E -> mesh_dofs conn dofs nelem (el_nne E) nnode (el_ndim E) ndof -> no_holes dofs ndof ->
  let v := mkVector conn (el_nne E) dofs (el_ndim E) in
  forall C c u1 u2 f1 f2, valid_call nelem c -> minor_symmetric nelem E C -> no_mechanism v nelem ndof E C iip ->
  nodal dofs nnode (el_ndim E) u1 -> nodal dofs nnode (el_ndim E) u2 ->
  internal_force v E (ddot42 (el_tdim E) C) c c u1 = Ok f1 -> internal_force v E (ddot42 (el_tdim E) C) c c u2 = Ok f2 ->
  (forall n i, n < nnode -> i < el_ndim E -> In (idx2 dofs n i) iip -> val2 u1 n i = val2 u2 n i) ->
  (forall n i, n < nnode -> i < el_ndim E -> ~ In (idx2 dofs n i) iip -> val2 f1 n i = val2 f2 n i) ->
  forall n i, n < nnode -> i < el_ndim E -> val2 u1 n i = val2 u2 n i.
Proof.
  intros conn dofs nelem nnode ndof x E iip H Hm Hh v C c u1 u2 f1 f2. destruct (elem_obj_raw _ _ _ H) as [B Ho].
  exact (unique conn dofs E nelem nnode ndof B Ho Hm iip Hh C c u1 u2 f1 f2).
Qed.
Print Assumptions C87_unique.

(** the result of the statics program does not depend on the solver, the schedules, or what was done before *)
Theorem C87_statics : forall conn dofs nelem nnode ndof x E iip, elem_obj nelem x E -> mesh_dofs conn dofs nelem (el_nne E) nnode (el_ndim E) ndof ->
  prescribed ndof iip -> no_holes dofs ndof ->
  let v := mkVector conn (el_nne E) dofs (el_ndim E) in
  forall C fext disp0 bc, minor_symmetric nelem E C -> no_mechanism v nelem ndof E C iip -> nodal dofs nnode (el_ndim E) fext -> nodal dofs nnode (el_ndim E) bc ->
  shape2 disp0 nnode (el_ndim E) -> (forall n j, n < nnode -> j < el_ndim E -> val2 disp0 n j = 0%R) ->
  let runs mem linsolve r := exists ops K0 K s p, Forall (fun o => match o with PMat o => valid_op nelem (el_nne E) (el_ndim E) ndof o | _ => True end) ops /\
    new_MatrixPartitioned v iip = Ok K0 /\ foldM (run_pop linsolve) ops (K0, new_Solver) = Ok (K, s) /\ new_VectorPartitioned v iip = Ok p /\
    valid_memory nelem nnode (el_ndim E) mem /\ (forall K', MP_assemble K (element_stiffness v E (r_K mem) C) = Ok K' -> solves linsolve (A_uu K')) /\
    statics linsolve mem p K s E (ddot42 (el_tdim E) C) C fext disp0 bc = r in
  forall mem1 linsolve1 r1 mem2 linsolve2 r2, runs mem1 linsolve1 r1 -> runs mem2 linsolve2 r2 ->
  exists d1 fi1 fe1 fr1 d2 fi2 fe2 fr2, r1 = Ok (d1, fi1, fe1, fr1) /\ r2 = Ok (d2, fi2, fe2, fr2) /\ d1 = d2 /\ fi1 = fi2.
Proof.
  intros conn dofs nelem nnode ndof x E iip H Hm Hi Hh v C fext disp0 bc HC HN Nf Nb S0 Z0 runs mem1 l1 r1 mem2 l2 r2 [ops1 [K01 [K1 [s1 [p1 [A1 [A2 [A3 [A4 [A5 [A6 <-]]]]]]]]]]] [ops2 [K02 [K2 [s2 [p2 [B1 [B2 [B3 [B4 [B5 [B6 <-]]]]]]]]]]].
  destruct (C82_statics conn dofs nelem nnode ndof x E iip H Hm Hi Hh l1 ops1 K01 K1 s1 p1 A1 A2 A3 A4 mem1 C fext disp0 bc A5 HC A6 Nf Nb S0 Z0) as [d1 [fi1 [fe1 [fr1 [E1 [N1 [_ [F1 H1]]]]]]]].
  destruct (C82_statics conn dofs nelem nnode ndof x E iip H Hm Hi Hh l2 ops2 K02 K2 s2 p2 B1 B2 B3 B4 mem2 C fext disp0 bc B5 HC B6 Nf Nb S0 Z0) as [d2 [fi2 [fe2 [fr2 [E2 [N2 [_ [F2 H2]]]]]]]].
  exists d1, fi1, fe1, fr1, d2, fi2, fe2, fr2. split; [exact E1|]. split; [exact E2|]. destruct A5 as [M1 _].
  assert (D : d1 = d2).
  { apply (list_ext2 0%R d1 d2 nnode (el_ndim E) (proj1 N1) (proj1 N2)). intros n i Hn Hj.
    apply (C87_unique conn dofs nelem nnode ndof x E iip H Hm Hh C (r_eps0 mem1) d1 d2 fi1 fi2 M1 HC HN N1 N2 (F1 _ _ M1 M1) (F2 _ _ M1 M1)); try assumption.
    - intros n' i' Hn' Hi' Hin. destruct (H1 n' i' Hn' Hi') as [_ [P1 _]]. destruct (H2 n' i' Hn' Hi') as [_ [P2 _]]. rewrite P1, P2 by assumption. reflexivity.
    - intros n' i' Hn' Hi' Hin. destruct (H1 n' i' Hn' Hi') as [_ [_ [P1 Q1]]]. destruct (H2 n' i' Hn' Hi') as [_ [_ [P2 Q2]]]. rewrite <- Q1, <- Q2, P1, P2 by assumption. reflexivity. }
  split; [exact D|]. pose proof (F1 _ _ M1 M1) as G1. pose proof (F2 _ _ M1 M1) as G2. rewrite D, G2 in G1. congruence.
Qed.
Print Assumptions C87_statics.

(** with enough integration points an element without strain moves as a rigid body ... *)
Theorem C87_rigid : forall nelem x E, full_obj nelem x E -> forall c u e, valid_call nelem c -> e < nelem ->
  ((forall q i j, q < el_nip E -> i < 2 -> j < 2 -> el_SymGradN_vector E c u [e;q;i;j] = 0%R) <-> rigid x u e).
Proof.
  intros nelem x E HE c u e Hc He.
  assert (Hobj : elem_obj nelem x E) by (destruct HE; econstructor; eassumption). destruct (elem_obj_raw _ _ _ Hobj) as [B Ho].
  destruct (full_grad nelem x E HE) as [nip [xi [En [HL [D4 [D2 [Dt [HV HG]]]]]]]]. split.
  - intros H. apply (rigid_of_strain nelem x E HE c u e Hc He). intros q i j Hq Hi Hj. pose proof (H q i j Hq Hi Hj) as Z. rewrite (r_sym _ _ _ Ho) in Z by (try assumption; lia). lra.
  - intros [s [t [r H]]] q i j Hq Hi Hj. rewrite (r_sym _ _ _ Ho) by (try assumption; lia). rewrite En in Hq. rewrite !HG by assumption. destruct (HV e q He Hq) as [HJ _].
    apply (Rmult_eq_reg_r (jac2 (nodes x e) (point xi q))); [|exact HJ].
    transitivity ((sumn 4 (fun m => gshape2 (nodes x e) m i (point xi q) * nodes u e m j) * jac2 (nodes x e) (point xi q) + sumn 4 (fun m => gshape2 (nodes x e) m j (point xi q) * nodes u e m i) * jac2 (nodes x e) (point xi q)) / 2)%R; [unfold nodes; field|].
    rewrite (grad_cross (nodes x e) (nodes u e) i j), (grad_cross (nodes x e) (nodes u e) j i) by assumption.
    assert (U0 : forall k p, dinterp2 (fun m => nodes u e m 0%nat) k p = (- r * dinterp2 (fun m => nodes x e m 1%nat) k p)%R).
    { intros k p. unfold dinterp2. rewrite !sumn4. unfold nodes. rewrite (proj1 (H 0%nat ltac:(lia))), (proj1 (H 1%nat ltac:(lia))), (proj1 (H 2%nat ltac:(lia))), (proj1 (H 3%nat ltac:(lia))).
      destruct k; unfold dshape2, corner2; field. }
    assert (U1 : forall k p, dinterp2 (fun m => nodes u e m 1%nat) k p = (r * dinterp2 (fun m => nodes x e m 0%nat) k p)%R).
    { intros k p. unfold dinterp2. rewrite !sumn4. unfold nodes. rewrite (proj2 (H 0%nat ltac:(lia))), (proj2 (H 1%nat ltac:(lia))), (proj2 (H 2%nat ltac:(lia))), (proj2 (H 3%nat ltac:(lia))).
      destruct k; unfold dshape2, corner2; field. }
    destruct i as [|[|i]]; try lia; destruct j as [|[|j]]; try lia; unfold cross; rewrite ?U0, ?U1; field.
Qed.
Print Assumptions C87_rigid.

(** ... Gauss and nodal integration have enough points ... *)
Theorem C87_rules : forall j, not_on_a_line 4 (Gauss4_xi j) /\ not_on_a_line 4 (Nodal4_xi j).
Proof. intros j. split; [apply line_Gauss|apply line_Nodal]. Qed.
Print Assumptions C87_rules.

(** ... but the single integration point of the mid-point rule does not see the hourglass displacements, in any element *)
Theorem C87_hourglass : forall nelem j j' x Q c a b u e, Quad4_obj nelem 1 (MidPoint4_xi j) (MidPoint4_w j') x Q -> valid_call nelem c -> e < nelem ->
  (forall m, m < 4 -> u [e;m;0] = (if Nat.even m then a else - a)%R /\ u [e;m;1] = (if Nat.even m then b else - b)%R) ->
  forall q i k, q < 1 -> i < 2 -> k < 2 -> el_GradN_vector (Quad4_elem Q) c u [e;q;i;k] = 0%R.
Proof.
  intros nelem j j' x Q c a b u e H Hc He Hu q i k Hq Hi Hk. assert (q = 0) as -> by lia. pose proof (Quad4_facts _ _ _ _ _ _ H) as F.
  rewrite (r_grad _ _ _ (Quad4_raw _ _ _ _ _ _ H)) by (try assumption; cbn; rewrite ?(f_nip F); lia). unrec. unfold Bcart.
  rewrite <- (B_of_dNx 4 2 (fun m => q_dNx Q [e;0;m;i]) (fun m k => u [e;m;k]) k Hk).
  rewrite (sumn_ext 4 _ (fun m => gshape2 (nodes x e) m i (point (MidPoint4_xi j) 0) * u [e;m;k])%R) by (intros m Hm; now rewrite (f_dNx F)).
  assert (V : exists d, forall m, m < 4 -> u [e;m;k] = (if Nat.even m then d else - d)%R).
  { destruct k as [|[|k]]; [exists a|exists b|lia]; intros m Hm; now apply Hu. }
  destruct V as [d V]. rewrite sumn4, !V by lia. cbn [Nat.even].
  assert (P : point (MidPoint4_xi j) 0 0%nat = 0%R /\ point (MidPoint4_xi j) 0 1%nat = 0%R) by (unfold point, MidPoint4_xi; blk; split; reflexivity). destruct P as [P0 P1].
  unfold gshape2. destruct i as [|i]; cbv zeta; unfold Rdiv; set (y := (/ jac2 _ _)%R); unfold dshape2, corner2; rewrite P0, P1; lra.
Qed.
Print Assumptions C87_hourglass.

(** a body that is held by its prescribed DOFs has no mechanism *)
Theorem C87_held : forall conn dofs nelem nnode ndof x E iip, full_obj nelem x E -> mesh_dofs conn dofs nelem (el_nne E) nnode (el_ndim E) ndof -> no_holes dofs ndof ->
  forall C, strictly_elastic nelem E C -> (forall n i, n < nnode -> i < 2 -> held conn dofs iip nelem x n i) ->
  no_mechanism (mkVector conn (el_nne E) dofs (el_ndim E)) nelem ndof E C iip.
Proof. intros conn dofs nelem nnode ndof x E iip HE Hm Hh C. exact (held_no_mechanism conn dofs E nelem nnode ndof x HE Hm iip Hh C). Qed.
Print Assumptions C87_held.

(** in particular: a regular mesh, Gauss integration, of which at least the bottom edge is held vertically and one corner horizontally *)
Theorem C87_regular_mesh : forall m, 1 <= nelx m -> 1 <= nely m -> (0 < hh m)%R ->
  forall j j' x Q C iip, Quad4_obj (nelem m) 4 (Gauss4_xi j) (Gauss4_w j') x Q -> on_mesh (conn m) (nelem m) (coor m) x ->
  strictly_elastic (nelem m) (Quad4_elem Q) C ->
  (forall n, In n (nodesBottomEdge m) -> In (idx2 (dofs (nnode m) 2) n 1) iip) -> In (idx2 (dofs (nnode m) 2) (nodesBottomLeftCorner m) 0) iip ->
  no_mechanism (mkVector (conn m) 4 (dofs (nnode m) 2) 2) (nelem m) (nnode m * 2) (Quad4_elem Q) C iip.
Proof.
  intros m Hx Hy Hh j j' x Q C iip HQ HX HC HB HL.
  apply (C87_held (conn m) (dofs (nnode m) 2) (nelem m) (nnode m) (nnode m * 2) x (Quad4_elem Q) iip).
  - apply (full_Quad4 _ 4 (Gauss4_xi j) (Gauss4_w j') x Q HQ (line_Gauss j)). intros e q He Hq. rewrite (f_vol (Quad4_facts _ _ _ _ _ _ HQ)) by assumption.
    rewrite (regular_jac m x e _ HX He). assert (0 < hh m * hh m)%R by (apply Rmult_lt_0_compat; assumption). split; [lra|].
    assert (W : Gauss4_w j' [q] = 1%R) by (revert q Hq; apply lt4; unfold Gauss4_w; blk; reflexivity). rewrite W. lra.
  - apply regular_mesh_dofs; assumption.
  - intros d Hd. apply dofs_no_holes. exact Hd.
  - exact HC.
  - apply regular_held; try assumption. intros e He. rewrite !HX by lia. destruct (regular_coor m e He) as [jx [jy [_ [_ [_ V]]]]]. rewrite !V by lia.
    rewrite !plus_INR. cbn [INR]. nra.
Qed.
Print Assumptions C87_regular_mesh.
