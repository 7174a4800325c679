(** Property C120: the gradient of an affine displacement on Mesh::Hex8::FineLayer: wrong on the refined layers, exact on the other layers. *)
From Coq Require Import Reals ZArith Lra Lia List Arith Permutation.
From Verif Require Import Model_Element Spec_Element Proof_Element Proof_ElementQuad4 Proof_ElementMath Proof_ElementHex8 Base Spec Spec3d Sums Spec_Vector Spec_Macro Spec_HexMesh Spec_FineLayer3 Model_Numbering Model_Hex8Regular Model_Hex8FineLayer
  Proof_Vector Proof_FineLayer Proof_FineLayerMesh Proof_Hex8FineLayer Proof_Hex8FineLayerMesh Proof_Hex8FineLayerElem Proof_Hex8FineLayerThm Proof_HexBox Prop_ElementHex8 Prop_Hex8FineLayer Proof_HexFineGrad.
Import ListNotations.

(** C120: gradN_vector returns G at every integration point of the displacement a + G . x, on every mesh, for both rules of eight points *)
Definition C120_claim : Prop := forall nelx nely nelz nfine h m, 1 <= nelx -> 1 <= nely -> 1 <= nelz ->
  HexFineLayer_init nelx nely nelz h nfine = Some (Ok m) -> (0 < h)%R ->
  forall X C, g_coor m = Ok X -> g_conn m = Ok C ->
  forall nip xi w x Q, full_rule3 nip xi w -> coordinates C (g_nelem m) 8 3 X x -> Hex8_obj (g_nelem m) nip xi w x Q ->
  forall es, schedule (g_nelem m) es -> forall a G u old e q i j, e < g_nelem m -> q < nip -> i < 3 -> j < 3 ->
  affine 3 8 a G x u e -> Hex8_gradN_vector es Q u old [e; q; i; j]%nat = G j i.

(** false of the code: on the mesh of 3 x 9 x 2, with either rule, the uniform stretch u = (x, y, z) gets a shear d u_0 / d x_1 > 0 in the first
    element (Element.h:1220 multiplies by the sum of a row of the inverse of the Jacobian instead of by the row) *)
Theorem C120_refined : forall h m, HexFineLayer_init 3 9 2 h 1 = Some (Ok m) -> (0 < h)%R ->
  exists X C, g_coor m = Ok X /\ g_conn m = Ok C /\
  forall nip xi w x Q, full_rule3 nip xi w -> coordinates C (g_nelem m) 8 3 X x -> Hex8_obj (g_nelem m) nip xi w x Q ->
  forall es, schedule (g_nelem m) es -> forall old, (0 < Hex8_gradN_vector es Q x old [0; 0; 1; 0]%nat)%R.
Proof.
  intros h m Hm Hh. destruct (C25_mesh 3 9 2 1 h m ltac:(lia) ltac:(lia) ltac:(lia) Hm) as (X & C & EX & EC & _). exists X, C. split; [exact EX|]. split; [exact EC|].
  assert (N : 0 < g_nelem m) by (vm_compute in Hm; injection Hm as <-; vm_compute; lia).
  assert (K : forall a i, a < 8 -> i < 3 -> val2 X (idx2 C 0 a) i = trapX h a i).
  { vm_compute in Hm. injection Hm as <-. vm_compute in EX. injection EX as <-. vm_compute in EC. injection EC as <-.
    intros a i Ha Hi. revert a Ha. apply lt8; revert i Hi; apply lt3; cbv [val2 idx2 nth2 nth trapX trap]; change R1 with 1%R; change R0 with 0%R; field. }
  intros nip xi w x Q HR Hx HQ es Hes old. pose proof (Hex8_facts _ _ _ _ _ _ HQ) as F. destruct (rule3_points _ _ _ HR) as (-> & _ & g & Hg & Hxi).
  rewrite (h_grad_at _ _ _ _ _ _ F es Hes) by lia. unfold grad8.
  rewrite (sumn_ext 8 _ (fun k => cshape3 (nodes x 0) k 1 (point xi 0) * nodes x 0 k 0%nat)%R) by (intros k Hk; rewrite (h_dNx F) by lia; reflexivity).
  rewrite (trap_grad h g); try assumption.
  - apply Rdiv_lt_0_compat; lra.
  - unfold point. rewrite Hxi by lia. corners3. ring.
  - unfold point. rewrite Hxi by lia. corners3. ring.
  - intros k i Hk Hi. unfold nodes. rewrite Hx by assumption. now apply K.
Qed.
Print Assumptions C120_refined.

Theorem C120_refuted : ~ C120_claim.
Proof.
  intros H. destruct (C25_terminates 3 9 2 1%R 1 ltac:(lia) ltac:(lia) ltac:(lia)) as (m & Hm).
  destruct (C120_refined 1 m Hm ltac:(lra)) as (X & C & EX & EC & P).
  set (x := fun k => match k with [e;a;i] => val2 X (idx2 C e a) i | _ => 0%R end). set (j := fun _ : list nat => 7%R).
  assert (Hx : coordinates C (g_nelem m) 8 3 X x) by (intros e a i _ _ _; reflexivity).
  assert (S : schedule (g_nelem m) (seq 0 (g_nelem m))) by apply Permutation_refl.
  pose proof (Hex8_obj_new (g_nelem m) 8 (Gauss8_xi j) (Gauss8_w j) _ x j j j j j S) as HQ.
  assert (N : 0 < g_nelem m) by (vm_compute in Hm; injection Hm as <-; vm_compute; lia).
  specialize (P _ _ _ _ _ (rule_Gauss8 j j) Hx HQ _ S j).
  rewrite (H 3 9 2 1 1%R m ltac:(lia) ltac:(lia) ltac:(lia) Hm ltac:(lra) X C EX EC _ _ _ _ _ (rule_Gauss8 j j) Hx HQ _ S (fun _ => 0%R) (fun i k => if (i =? k)%nat then 1%R else 0%R) x j 0 0 1 0) in P; try lia.
  - cbn in P. lra.
  - intros k i Hk Hi. rewrite sumn3. revert i Hi. apply lt3; cbn [Nat.eqb]; ring.
Qed.
Print Assumptions C120_refuted.

Lemma box_elem_exact nelem nip xi w x Q X C e E : Hex8_obj nelem nip xi w x Q -> coordinates C nelem 8 3 X x -> e < nelem -> nth_error C e = Some E -> box_elem X E ->
  forall es, schedule nelem es -> forall a G u old q i j, q < nip -> i < 3 -> j < 3 -> affine 3 8 a G x u e -> Hex8_gradN_vector es Q u old [e; q; i; j]%nat = G j i.
Proof.
  intros HQ Hx He EE (c & s & Hs & HB) es Hes a G u old q i j Hq Hi Hj Ha.
  apply (C64_box_partial _ _ _ _ _ _ HQ es Hes a G u old e q i j c s He Hq Hi Hj); [|intros k Hk; specialize (Hs k Hk); lra|exact Ha].
  intros k l Hk Hl. rewrite Hx by assumption. unfold idx2, nth2. rewrite (nth_error_nth _ _ [] EE). now apply HB.
Qed.

(** it holds on the layers that are not refined; missing: the refined layers *)
Theorem C120_partial : forall nelx nely nelz nfine h m, 1 <= nelx -> 1 <= nely -> 1 <= nelz ->
  HexFineLayer_init nelx nely nelz h nfine = Some (Ok m) -> (0 < h)%R ->
  forall X C, g_coor m = Ok X -> g_conn m = Ok C ->
  forall nip xi w x Q, coordinates C (g_nelem m) 8 3 X x -> Hex8_obj (g_nelem m) nip xi w x Q ->
  forall es, schedule (g_nelem m) es ->
  forall iy start nx nz, nth_error (g_refine m) iy = Some (-1)%Z -> nth_error (g_startElem m) iy = Some start ->
  nth_error (g_layer_nelx m) iy = Some nx -> nth_error (g_layer_nelz m) iy = Some nz ->
  forall a G u old e q i j, start <= e < start + nx * nz -> q < nip -> i < 3 -> j < 3 ->
  affine 3 8 a G x u e -> Hex8_gradN_vector es Q u old [e; q; i; j]%nat = G j i.
Proof.
  intros nelx nely nelz nfine h m H1 H2 H3 Hm Hh X C EX EC nip xi w x Q Hx HQ es Hes iy start nx nz Er Es Enx Enz a G u old e q i j He Hq Hi Hj Ha.
  destruct (the_mesh3 nelx nely nelz nfine h m H1 H2 H3 Hm) as (n & wx & wz & y & r & -> & K). pose proof (g3_layered _ _ _ _ _ _ _ _ _ K) as HL.
  rewrite coor3_spec in EX by assumption. injection EX as <-. rewrite conn3_spec in EC by assumption. injection EC as <-.
  cbn [HFL_of g_refine g_startElem g_layer_nelx g_layer_nelz] in Er, Es, Enx, Enz. unfold tab1 in *.
  assert (Hiy : iy < L n). { assert (Q1 : iy < length (map (T n r) (seq 0 (L n)))) by (apply nth_error_Some; congruence). now rewrite map_length, seq_length in Q1. }
  rewrite (map_nth_error _ iy (seq 0 (L n)) (d:=iy)) in Er by (rewrite nth_error_seq; destruct (Nat.ltb_spec iy (L n)); [reflexivity|lia]).
  rewrite (map_nth_error _ iy (seq 0 (L n)) (d:=iy)) in Es by (rewrite nth_error_seq; destruct (Nat.ltb_spec iy (L n)); [reflexivity|lia]).
  rewrite (map_nth_error _ iy (seq 0 (L n)) (d:=iy)) in Enx by (rewrite nth_error_seq; destruct (Nat.ltb_spec iy (L n)); [reflexivity|lia]).
  rewrite (map_nth_error _ iy (seq 0 (L n)) (d:=iy)) in Enz by (rewrite nth_error_seq; destruct (Nat.ltb_spec iy (L n)); [reflexivity|lia]).
  injection Er as Er. injection Es as <-. injection Enx as <-. injection Enz as <-.
  destruct (plain_box nelx nelz n wx wz y r h HL Hh iy (e - SE3 nelx nelz n wx wz r iy) Hiy Er ltac:(lia)) as (E & EE & HB).
  replace (SE3 nelx nelz n wx wz r iy + (e - SE3 nelx nelz n wx wz r iy)) with e in EE by lia.
  assert (Hel : e < g_nelem (HFL_of nelx nelz n wx wz y r h)).
  { cbn [HFL_of g_nelem]. rewrite <- (connl3_length nelx nelz n wx wz r). apply nth_error_Some. congruence. }
  exact (box_elem_exact _ _ _ _ _ _ _ _ _ _ HQ Hx Hel EE HB es Hes a G u old q i j Hq Hi Hj Ha).
Qed.
Print Assumptions C120_partial.

(** in particular on the elements of elementsMiddleLayer, refined mesh or not *)
Theorem C120_middle_partial : forall nelx nely nelz nfine h m, 1 <= nelx -> 1 <= nely -> 1 <= nelz ->
  HexFineLayer_init nelx nely nelz h nfine = Some (Ok m) -> (0 < h)%R ->
  forall X C l, g_coor m = Ok X -> g_conn m = Ok C -> g_elementsMiddleLayer m = Ok l ->
  forall nip xi w x Q, coordinates C (g_nelem m) 8 3 X x -> Hex8_obj (g_nelem m) nip xi w x Q ->
  forall es, schedule (g_nelem m) es ->
  forall a G u old e q i j, In e l -> q < nip -> i < 3 -> j < 3 ->
  affine 3 8 a G x u e -> Hex8_gradN_vector es Q u old [e; q; i; j]%nat = G j i.
Proof.
  intros nelx nely nelz nfine h m H1 H2 H3 Hm Hh X C l EX EC El nip xi w x Q Hx HQ es Hes a G u old e q i j He Hq Hi Hj Ha.
  destruct (C26_middle nelx nely nelz nfine h m H1 H2 H3 Hm) as (X' & C' & l' & EX' & EC' & El' & _ & B).
  destruct (C25_mesh nelx nely nelz nfine h m H1 H2 H3 Hm) as (X2 & C2 & EX2 & EC2 & _ & (LC & _) & _).
  assert (X' = X) by congruence. assert (C' = C) by congruence. assert (l' = l) by congruence. assert (C2 = C) by congruence. subst.
  apply In_nth_error in He. destruct He as (k & Ek). destruct (B k e Ek) as (E & EE & HB).
  assert (Hel : e < g_nelem m) by (rewrite <- LC; apply nth_error_Some; congruence).
  refine (box_elem_exact _ _ _ _ _ _ _ _ _ _ HQ Hx Hel EE _ es Hes a G u old q i j Hq Hi Hj Ha).
  unfold cube_at in HB. destruct HB as (n0 & n1 & n2 & n3 & n4 & n5 & n6 & n7 & -> & K0 & K1 & K2 & K3 & K4 & K5 & K6 & K7).
  match type of K0 with node_at3 _ _ ?x ?y ?z => exists (fun i => match i with 0 => x | 1 => y | _ => z end + h / 2)%R, (fun _ => h / 2)%R end. split; [intros; lra|].
  unfold node_at3 in *. intros k' i' Hk' Hi'. revert k' Hk'. apply lt8; cbn [nth]; unfold val2, nth2;
  [rewrite (nth_error_nth _ _ [] K0)|rewrite (nth_error_nth _ _ [] K1)|rewrite (nth_error_nth _ _ [] K2)|rewrite (nth_error_nth _ _ [] K3)|rewrite (nth_error_nth _ _ [] K4)|rewrite (nth_error_nth _ _ [] K5)|rewrite (nth_error_nth _ _ [] K6)|rewrite (nth_error_nth _ _ [] K7)];
  revert i' Hi'; apply lt3; cbn [nth]; corners3; field.
Qed.
Print Assumptions C120_middle_partial.

(** the mesh of 3 x 9 x 2: layers 0 (refined) ... : an element of the middle layer, under a simple shear *)
Example C120_ex : forall h, (0 < h)%R -> exists m X C x Q, HexFineLayer_init 3 9 2 h 1 = Some (Ok m) /\ g_coor m = Ok X /\ g_conn m = Ok C /\ coordinates C (g_nelem m) 8 3 X x /\
  Hex8_obj (g_nelem m) 8 (Gauss8_xi (fun _ => 0%R)) (Gauss8_w (fun _ => 0%R)) x Q /\ g_elementsMiddleLayer m = Ok [20; 21; 22; 23; 24; 25] /\
  let u := fun k => match k with [e;a;0] => x [e;a;1] | _ => 0%R end in
  Hex8_gradN_vector (seq 0 (g_nelem m)) Q u (fun _ => 7%R) [23; 5; 1; 0]%nat = 1%R /\ Hex8_gradN_vector (seq 0 (g_nelem m)) Q u (fun _ => 7%R) [23; 5; 0; 1]%nat = 0%R.
Proof.
  intros h Hh. destruct (C25_terminates 3 9 2 h 1 ltac:(lia) ltac:(lia) ltac:(lia)) as (m & Hm).
  destruct (C25_mesh 3 9 2 1 h m ltac:(lia) ltac:(lia) ltac:(lia) Hm) as (X & C & EX & EC & _).
  assert (El : g_elementsMiddleLayer m = Ok [20; 21; 22; 23; 24; 25]) by (pose proof (C26_ex h) as P; rewrite Hm in P; exact P).
  set (x := fun k => match k with [e;a;i] => val2 X (idx2 C e a) i | _ => 0%R end).
  assert (S : schedule (g_nelem m) (seq 0 (g_nelem m))) by apply Permutation_refl. assert (Hx : coordinates C (g_nelem m) 8 3 X x) by (intros e a i _ _ _; reflexivity).
  pose proof (Hex8_obj_new (g_nelem m) 8 (Gauss8_xi (fun _ => 0%R)) (Gauss8_w (fun _ => 0%R)) _ x (fun _ => 0%R) (fun _ => 0%R) (fun _ => 0%R) (fun _ => 0%R) (fun _ => 0%R) S) as HQ.
  exists m, X, C, x. eexists. split; [exact Hm|]. split; [exact EX|]. split; [exact EC|]. split; [exact Hx|]. split; [exact HQ|]. split; [exact El|]. intros u.
  assert (P : forall i j, i < 3 -> j < 3 -> Hex8_gradN_vector (seq 0 (g_nelem m)) (Hex8_new (seq 0 (g_nelem m)) (g_nelem m) x 8 (Gauss8_xi (fun _ => 0%R)) (Gauss8_w (fun _ => 0%R)) (fun _ => 0%R) (fun _ => 0%R) (fun _ => 0%R) (fun _ => 0%R) (fun _ => 0%R)) u (fun _ => 7%R) [23; 5; i; j]%nat
     = match j, i with 0, 1 => 1%R | _, _ => 0%R end).
  { intros i j Hi Hj. refine (C120_middle_partial 3 9 2 1 h m ltac:(lia) ltac:(lia) ltac:(lia) Hm Hh X C _ EX EC El _ _ _ _ _ Hx HQ _ S (fun _ => 0%R) (fun j i => match j, i with 0, 1 => 1%R | _, _ => 0%R end) u (fun _ => 7%R) 23 5 i j _ ltac:(lia) Hi Hj _); [cbn; auto 10|].
    intros k l Hk Hl. rewrite sumn3. revert l Hl. apply lt3; unfold u; ring. }
  split; now rewrite P by lia.
Qed.
