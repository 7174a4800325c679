(** Property C124: explicit dynamics: the moment of momentum. *)
From Coq Require Import Reals ZArith Lra Lia List Arith Permutation.
From Verif Require Import Model_Element Spec_Element Proof_ElementMath Base Spec Sums Spec_Vector Spec_Matrix Spec_MatrixDiagonal Spec_Macro Spec_HexMesh Spec_QuadMesh Model_Numbering Proof_Numbering Model_Vector Proof_Vector Proof_Matrix Model_MatrixDiagonal Proof_MatrixDiagonal
  Model_MeshGeometry Model_Pipeline Spec_Pipeline Proof_PipelineElem Proof_Pipeline Proof_PipelineBalance Proof_PipelineDynamics Proof_Macro Proof_MeshGeometry Proof_HexGrid Proof_HexBox Model_Hex8Regular Prop_Hex8Regular Spec2d Spec_Patch Spec_Divergence Proof_QuadMesh Proof_QuadMeshObj Spec_MatrixOps Prop_HexDynamics Prop_Moments Proof_ElementHex8 Spec3d Proof_Element Prop_HexMass Spec_LumpedMass.
Import ListNotations.

(** the moment, about the axis in which [i] turns to [j], of nodal vectors [z] at the positions [X], with weights [m] *)
Definition moment (nnode ndim : nat) (X : list (list R)) (m : nat -> nat -> R) (z : list (list R)) (i j : nat) : R :=
  sumn nnode (fun n => val2 X n j * (m n i * val2 z n i) - val2 X n i * (m n j * val2 z n j))%R.
(** a law with symmetric stress *)
Definition symmetric_law (nelem : nat) (E : Elem) (law : arr -> arr) : Prop := forall A, all_points nelem E (fun e q i j => law A [e;q;i;j] = law A [e;q;j;i]).

(** a program for explicit dynamics with any mass matrix, external force and initial state, and any law with a symmetric stress in each of the steps:
    the moment of the momentum grows with that of the external force (if that was in balance with the initial acceleration) *)
Definition angular_momentum (conn : list (list nat)) (nelem nnode : nat) (X : list (list R)) (E : Elem) : Prop :=
  let ndim := el_ndim E in
  let v := mkVector conn (el_nne E) (dofs nnode ndim) ndim in
  forall Km M mass, Spec_Vector.shape3 Km nelem (el_nne E * ndim) (el_nne E * ndim) -> MD_assemble (new_MatrixDiagonal v) Km = Ok M -> MD_data M = Ok mass ->
  (forall d, d < nnode * ndim -> val1 mass d <> 0%R) ->
  forall dt fext u w a, Spec.shape2 fext nnode ndim -> Spec.shape2 u nnode ndim -> Spec.shape2 w nnode ndim -> Spec.shape2 a nnode ndim ->
  let L := moment nnode ndim X (fun n i => val1 mass (n * ndim + i)) in
  let T := moment nnode ndim X (fun _ _ => 1%R) fext in
  forall steps : list ((arr -> arr) * (call * call)), Forall (fun s => symmetric_law nelem E (fst s) /\ valid_calls nelem (snd s)) steps ->
  exists u' w' a' M', foldM (fun st s => verlet_step v E (fst s) fext dt st (snd s)) steps (u, w, a, M) = Ok (u', w', a', M') /\
    Spec.shape2 u' nnode ndim /\ Spec.shape2 w' nnode ndim /\ Spec.shape2 a' nnode ndim /\
    forall i j, i < ndim -> j < ndim -> L a i j = T i j -> L w' i j = (L w i j + INR (length steps) * dt * T i j)%R.

Lemma own_agree nnode ndim u : Spec.shape2 u nnode ndim -> agree2 (dofs nnode ndim) nnode ndim u.
Proof.
  intros S m i n j Hm Hi Hn Hj Ed. rewrite !dofs_get in Ed by assumption. assert (m = n) by nia. subst n. assert (i = j) by lia. now subst j.
Qed.

Theorem C124_angular : forall conn nelem nnode X x E, affine_obj nelem x E -> 1 <= nnode -> Spec.shape2 conn nelem (el_nne E) -> (forall e p, In e conn -> In p e -> p < nnode) ->
  coordinates conn nelem (el_nne E) (el_ndim E) X x -> angular_momentum conn nelem nnode X E.
Proof.
  intros conn nelem nnode X x E HE Hn SC B HX. pose proof (C123_moments conn nelem nnode X x E HE Hn SC B HX) as MO. unfold moments in MO. unfold angular_momentum.
  set (v := mkVector conn (el_nne E) (dofs nnode (el_ndim E)) (el_ndim E)) in *.
  intros Km M mass SK EM Ed Hmass dt fext u w a Sf Su Sw Sa. set (m := fun n i => val1 mass (n * el_ndim E + i)).
  pose proof (obj_dims _ _ _ HE) as Hd. pose proof (own_mesh_dofs conn nelem (el_nne E) nnode (el_ndim E) Hn Hd SC B) as Hm.
  assert (HM : md_is v (nnode * el_ndim E) M (val1 mass)).
  { destruct (MD_assemble_spec v nelem _ nnode _ (nnode * el_ndim E) eq_refl eq_refl Hm (new_MatrixDiagonal v) Km eq_refl) as [M' [EM' HM']]; [|exact SK|].
    { unfold new_MatrixDiagonal. cbn [MD_A]. unfold empty. rewrite repeat_length. apply (V_sizes v nelem _ nnode _ _ eq_refl eq_refl Hm). }
    rewrite EM in EM'. injection EM' as <-. destruct (MD_data_spec v nelem _ nnode _ _ eq_refl eq_refl Hm M _ HM') as [l [El [_ Vl]]].
    rewrite Ed in El. injection El as <-. apply (md_is_ext v _ M _ _ HM'). intros d Hd'. symmetry. now apply Vl. }
  clear EM Ed SK. cbv zeta. intros steps Hst.
  assert (G : forall steps M u w a, Spec.shape2 u nnode (el_ndim E) -> Spec.shape2 w nnode (el_ndim E) -> Spec.shape2 a nnode (el_ndim E) -> md_is v (nnode * el_ndim E) M (val1 mass) ->
    Forall (fun s => symmetric_law nelem E (fst s) /\ valid_calls nelem (snd s)) steps ->
    exists u' w' a' M', foldM (fun st s => verlet_step v E (fst s) fext dt st (snd s)) steps (u, w, a, M) = Ok (u', w', a', M') /\
    Spec.shape2 u' nnode (el_ndim E) /\ Spec.shape2 w' nnode (el_ndim E) /\ Spec.shape2 a' nnode (el_ndim E) /\
    forall i j, i < el_ndim E -> j < el_ndim E -> moment nnode (el_ndim E) X m a i j = moment nnode (el_ndim E) X (fun _ _ => 1%R) fext i j ->
      moment nnode (el_ndim E) X m w' i j = (moment nnode (el_ndim E) X m w i j + INR (length steps) * dt * moment nnode (el_ndim E) X (fun _ _ => 1%R) fext i j)%R).
  2:{ apply (G steps M u w a); assumption. }
  clear M HM u w a Su Sw Sa steps Hst. induction steps as [|[law [c1 c2]] steps IH]; intros M u w a Su Sw Sa HM Hst.
  { exists u, w, a, M. cbn [foldM length INR]. do 4 (split; [assumption || reflexivity|]). intros i j _ _ _. ring. }
  pose proof (Forall_inv Hst) as [Hl [Hc1 Hc2]]. apply Forall_inv_tail in Hst. cbn [fst snd] in Hl, Hc1, Hc2.
  destruct (verlet_spec v E nelem nnode (nnode * el_ndim E) eq_refl eq_refl Hm law fext dt M (val1 mass) c1 c2 u w a HM (conj Sf (own_agree _ _ _ Sf)) Su (conj Sw (own_agree _ _ _ Sw)) (conj Sa (own_agree _ _ _ Sa)))
    as [f [u1 [w1 [a1 [M1 [Ef [[Sff _] [E1 [HM1 [Su1 [[Sw1 _] [[Sa1 _] V1]]]]]]]]]]]].
  destruct (AsElement_nodevec_spec v nelem (el_nne E) nnode (el_ndim E) _ eq_refl eq_refl Hm u1 Su1) as [ue [Eu _]].
  destruct (MO c2 (law (el_SymGradN_vector E c1 (of_rows ue))) Hc2) as (f' & Ef' & _ & _ & _ & Hmom).
  assert (f' = f).
  { unfold internal_force, internal_force_of in Ef. rewrite Eu in Ef. cbn [bind] in Ef. destruct (V_sizes v nelem (el_nne E) nnode (el_ndim E) _ eq_refl eq_refl Hm) as [EV _]. rewrite EV in Ef. rewrite Ef in Ef'. congruence. }
  subst f'. specialize (Hmom (Hl _)).
  assert (HA1 : forall i j, i < el_ndim E -> j < el_ndim E -> moment nnode (el_ndim E) X m a1 i j = moment nnode (el_ndim E) X (fun _ _ => 1%R) fext i j).
  { intros i j Hi Hj. specialize (Hmom i j Hi Hj).
    transitivity (moment nnode (el_ndim E) X (fun _ _ => 1%R) fext i j + (-1) * sumn nnode (fun n => val2 X n j * val2 f n i - val2 X n i * val2 f n j))%R; [|rewrite Hmom; ring].
    unfold moment. rewrite <- sumn_scal, <- sumn_plus. apply sumn_ext. intros n H1.
    destruct (V1 n i H1 Hi) as (_ & Ai & _). destruct (V1 n j H1 Hj) as (_ & Aj & _). rewrite Ai, Aj. change (m_dofs v) with (dofs nnode (el_ndim E)). rewrite !dofs_get by assumption. fold (m n i) (m n j).
    assert (m n i <> 0%R) by (apply Hmass; nia). assert (m n j <> 0%R) by (apply Hmass; nia). field. now split. }
  destruct (IH M1 u1 w1 a1 Su1 Sw1 Sa1 HM1 Hst) as (u2 & w2 & a2 & M2 & E2 & Su2 & Sw2 & Sa2 & R2).
  exists u2, w2, a2, M2. split; [cbn [foldM fst snd]; rewrite E1; exact E2|]. split; [exact Su2|]. split; [exact Sw2|]. split; [exact Sa2|].
  intros i j Hi Hj HA. rewrite (R2 i j Hi Hj (HA1 i j Hi Hj)). cbn [length]. rewrite S_INR.
  assert (W1 : moment nnode (el_ndim E) X m w1 i j = (moment nnode (el_ndim E) X m w i j + / 2 * dt * (moment nnode (el_ndim E) X m a i j + moment nnode (el_ndim E) X m a1 i j))%R).
  { unfold moment. rewrite <- sumn_plus, <- sumn_scal, <- sumn_plus. apply sumn_ext. intros n H1. destruct (V1 n i H1 Hi) as (_ & _ & Wi). destruct (V1 n j H1 Hj) as (_ & _ & Wj). rewrite Wi, Wj. ring. }
  rewrite W1, HA, (HA1 i j Hi Hj). field.
Qed.
Print Assumptions C124_angular.

(** C124: every mesh of Mesh::Quad4::Regular and Mesh::Quad4::FineLayer *)
Theorem C124_quad : forall X C ties bot rgt top lft Lx Ly, quad_mesh X C ties bot rgt top lft Lx Ly ->
  forall thick x E, mesh_body X C thick x E -> angular_momentum C (length C) (length X) X E.
Proof.
  intros X C ties bot rgt top lft Lx Ly H thick x E HB. pose proof (quad_mesh_facts _ _ _ _ _ _ _ _ _ H) as M.
  pose proof (mf_tiles _ _ _ _ _ _ _ _ _ M) as HT. pose proof (mf_C _ _ _ _ _ _ _ _ _ M) as SC. pose proof (mf_nonempty _ _ _ _ _ _ _ _ _ M) as NC.
  assert (Hn : 1 <= length X).
  { assert (P : nth 0 (nth 0 C []) 0 < length X). { apply (mf_range _ _ _ _ _ _ _ _ _ M (nth 0 C [])); [apply nth_In; lia|]. apply nth_In. rewrite (proj2 SC); [lia|apply nth_In; lia]. } lia. }
  destruct HB as [nip xi w x Q HR HX HQ|nip xi w thick x P Ht HR HX HQ].
  - apply (C124_angular C (length C) (length X) X x (Quad4_elem Q)); try assumption; [apply (quad4_objs X C Lx Ly x nip xi w HT HX HR Q HQ)|apply (mf_range _ _ _ _ _ _ _ _ _ M)].
  - apply (C124_angular C (length C) (length X) X x (Planar_elem P)); try assumption; [apply (planar_objs X C Lx Ly x nip xi w HT HX HR thick P Ht HQ)|apply (mf_range _ _ _ _ _ _ _ _ _ M)].
Qed.
Print Assumptions C124_quad.

(** C124: every mesh of Mesh::Hex8::Regular *)
Theorem C124_hex : forall m, hex_mesh m -> forall x E, hex_body m x E -> angular_momentum (hex_conn m) (hex_nelem m) (hex_nnode m) (hex_coor m) E.
Proof.
  intros m HM x E HB. destruct (C12_conn m) as (SC & _ & _ & B & _). pose proof (hex_box m x E (proj1 HM) HB) as BX. pose proof (box_affine _ _ _ BX) as HA.
  pose proof (body_coordinates m x E HB) as HX. destruct HB as [nip xi w x Q HR HX' HQ].
  apply (C124_angular (hex_conn m) (hex_nelem m) (hex_nnode m) (hex_coor m) x (Hex8_elem Q)); try assumption. destruct HM as (_ & ? & ? & ?). unfold hex_nnode. nia.
Qed.
Print Assumptions C124_hex.

(** a bar of two cubes with its mass matrix (nodal integration, density 1), and an elastic law *)
Example C124_ex : exists m x E Km M mass law, hex_mesh m /\ hex_nelem m = 2 /\ hex_body m x E /\ Spec_Vector.shape3 Km 2 24 24 /\
  MD_assemble (new_MatrixDiagonal (mkVector (hex_conn m) 8 (dofs (hex_nnode m) 3) 3)) Km = Ok M /\ MD_data M = Ok mass /\ (forall d, d < hex_nnode m * 3 -> val1 mass d <> 0%R) /\
  symmetric_law 2 E law /\ law (fun k => match k with [_;_;0;1] => 1%R | _ => 0%R end) [0;0;1;0]%nat = 1%R.
Proof.
  set (m := mkHexRegular 2 1 1 1%R). assert (HM : hex_mesh m) by (unfold hex_mesh; cbn; split; [lra|lia]).
  set (x := fun k : list nat => match k with [e;n;i] => val2 (hex_coor m) (idx2 (hex_conn m) e n) i | _ => 0%R end).
  pose (z := fun _ : list nat => 0%R).
  set (QM := Hex8_new (seq 0 (hex_nelem m)) (hex_nelem m) x 8 (Nodal8_xi z) (Gauss8_w z) z z z z z).
  set (Q := Hex8_new (seq 0 (hex_nelem m)) (hex_nelem m) x 8 (Gauss8_xi z) (Gauss8_w z) z z z z z).
  assert (HB : hex_body m x (Hex8_elem Q)).
  { apply (body_Hex8 m 8 (Gauss8_xi z) (Gauss8_w z)); [constructor|intros e k i _ _ _; reflexivity|apply Hex8_obj_new; apply Permutation_refl]. }
  assert (HQM : Hex8_obj (hex_nelem m) 8 (Nodal8_xi z) (Gauss8_w z) x QM) by (apply Hex8_obj_new; apply Permutation_refl).
  destruct (C12_conn m) as (SC & _ & _ & B & _). assert (Hn : 1 <= hex_nnode m) by (cbn; lia).
  destruct (own_numbering _ (hex_nelem m) (hex_nnode m) Hn SC (fun e He p Hp => B e p He Hp)) as [Hmd Hho].
  destruct (C121_regular m HM (dofs (hex_nnode m) 3) (hex_nnode m * 3) Hmd Hho z z x QM (fun e k i _ _ _ => eq_refl) HQM (seq 0 (hex_nelem m)) (fun _ => 1%R) z 1%R (Permutation_refl _) Rlt_0_1 (fun _ _ _ _ => eq_refl))
    as (_ & M & mass & EM & Ed & _ & Pm & _).
  eexists m, x, (Hex8_elem Q), _, M, mass, (fun A k => match k with [e;q;i;j] => A [e;q;i;j] + A [e;q;j;i] | _ => 0 end)%R.
  split; [exact HM|]. split; [reflexivity|]. split; [exact HB|]. split; [|split; [exact EM|]]; [apply to_rows_shape|]. split; [exact Ed|]. split; [intros d Hd; specialize (Pm d Hd); lra|].
  split; [intros A e q i j _ _ _ _; ring|]. cbn. ring.
Qed.
