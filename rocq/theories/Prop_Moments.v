(** Property C123: the moments of the internal forces: the sum over the nodes of position times force is the integral of the stress. *)
From Coq Require Import Reals ZArith Lra Lia List Arith Permutation.
From Verif Require Import Model_Element Spec_Element Proof_ElementMath Base Spec Sums Spec_Vector Spec_Macro Spec_HexMesh Spec_QuadMesh Model_Numbering Proof_Numbering Model_Vector Proof_Vector
  Model_MeshGeometry Model_Pipeline Spec_Pipeline Proof_PipelineElem Proof_Pipeline Proof_Macro Proof_MeshGeometry Proof_HexGrid Proof_HexBox Prop_Pipeline Model_Hex8Regular Prop_Hex8Regular Spec2d Spec_Patch Spec_Divergence Proof_QuadMesh Proof_QuadMeshObj Proof_QuadLinked Spec_MatrixOps Prop_HexDynamics Proof_ElementHex8 Prop_HexFineVolume Spec3d Proof_Element Prop_ElementHex8.
Import ListNotations.

(** the internal forces of the stress [sig] at the nodes: no resultant force; the sum of position (component [j]) times force (component [i]) is the integral of
    the stress (component [(j, i)]); so that there is no resultant moment if the stress is symmetric *)
Definition moments (conn : list (list nat)) (nelem nnode : nat) (X : list (list R)) (E : Elem) : Prop :=
  let v := mkVector conn (el_nne E) (dofs nnode (el_ndim E)) (el_ndim E) in
  forall c sig, valid_call nelem c ->
  exists f, AssembleNode v (to_rows nelem (el_nne E) (el_ndim E) (el_Int_gradN_dot_tensor2_dV E c sig)) = Ok f /\ Spec.shape2 f nnode (el_ndim E) /\
    (forall i, i < el_ndim E -> sumn nnode (fun n => val2 f n i) = 0%R) /\
    (forall i j, i < el_ndim E -> j < el_ndim E -> sumn nnode (fun n => val2 X n j * val2 f n i)%R = total nelem E sig j i) /\
    (all_points nelem E (fun e q i j => sig [e;q;i;j] = sig [e;q;j;i]) ->
      forall i j, i < el_ndim E -> j < el_ndim E -> sumn nnode (fun n => val2 X n j * val2 f n i - val2 X n i * val2 f n j)%R = 0%R).

Lemma own_mesh_dofs conn nelem nne nnode ndim : 1 <= nnode -> 1 <= ndim -> Spec.shape2 conn nelem nne -> (forall e p, In e conn -> In p e -> p < nnode) ->
  mesh_dofs conn (dofs nnode ndim) nelem nne nnode ndim (nnode * ndim).
Proof.
  intros Hn Hd SC B. constructor; [exact SC|apply dofs_shape| |].
  - intros e k He Hk. destruct SC as [L S']. apply (B (nth e conn [])); [apply nth_In; lia|]. unfold idx2, nth2. apply nth_In. rewrite S'; [exact Hk|apply nth_In; lia].
  - rewrite concat_dofs. destruct (nnode * ndim) as [|k] eqn:Ek; [nia|]. now rewrite fold_max_seq.
Qed.
Lemma obj_dims nelem x E : affine_obj nelem x E -> 1 <= el_ndim E.
Proof. intros []; cbn; lia. Qed.

Theorem C123_moments : forall conn nelem nnode X x E, affine_obj nelem x E -> 1 <= nnode -> Spec.shape2 conn nelem (el_nne E) -> (forall e p, In e conn -> In p e -> p < nnode) ->
  coordinates conn nelem (el_nne E) (el_ndim E) X x -> moments conn nelem nnode X E.
Proof.
  intros conn nelem nnode X x E HE Hn SC B HX. unfold moments. set (v := mkVector conn (el_nne E) (dofs nnode (el_ndim E)) (el_ndim E)). intros c sig Hc.
  pose proof (obj_dims _ _ _ HE) as Hd. pose proof (affine_dim _ _ _ HE) as LD. pose proof (own_mesh_dofs conn nelem (el_nne E) nnode (el_ndim E) Hn Hd SC B) as Hm.
  set (fe := to_rows nelem (el_nne E) (el_ndim E) (el_Int_gradN_dot_tensor2_dV E c sig)).
  destruct (AssembleDofs_elemvec_spec v nelem (el_nne E) nnode (el_ndim E) _ eq_refl eq_refl Hm fe (to_rows_shape _ _ _ _)) as (b & Eb & Lb & _).
  destruct (AsNode_dofval_spec v nelem (el_nne E) nnode (el_ndim E) _ eq_refl eq_refl Hm b Lb) as (f & Ef & Sf & Vf).
  exists f. split; [unfold AssembleNode; rewrite Eb; exact Ef|]. split; [exact Sf|].
  assert (Node : forall e m, e < nelem -> m < el_nne E -> idx2 conn e m < nnode) by (intros e m He Hm'; exact (md_node _ _ _ _ _ _ _ Hm e m He Hm')).
  (* the work on an affine displacement of the nodes *)
  assert (Work : forall a G, sumn nnode (fun n => sumn (el_ndim E) (fun i => (a i + sumn (el_ndim E) (fun j => G i j * val2 X n j)) * val2 f n i))%R =
    sumn (el_ndim E) (fun j => sumn (el_ndim E) (fun k => G j k * total nelem E sig k j))%R).
  { intros a G. set (disp := fun n i => (a i + sumn (el_ndim E) (fun j => G i j * val2 X n j))%R).
    set (y := map (fun d => disp (d / el_ndim E) (d mod el_ndim E)) (seq 0 (nnode * el_ndim E))).
    assert (Vy : forall n i, n < nnode -> i < el_ndim E -> val1 y (n * el_ndim E + i) = disp n i).
    { intros n i H1 H2. unfold y, val1. set (g := fun d => disp (d / el_ndim E) (d mod el_ndim E)). rewrite (nth_indep _ 0%R (g 0)) by (rewrite map_length, seq_length; nia).
      rewrite (map_nth g), seq_nth by nia. unfold g. cbn [Nat.add]. now rewrite Nat.div_add_l, (Nat.div_small i), Nat.add_0_r, (Nat.add_comm (n * _)), Nat.mod_add, Nat.mod_small by lia. }
    assert (Ly : length y = nnode * el_ndim E) by (unfold y; now rewrite map_length, seq_length).
    destruct (C84_virtual_work conn (dofs nnode (el_ndim E)) nelem nnode _ x E (affine_elem _ _ _ HE) Hm c c sig y Hc Hc Ly) as (Y & b' & EY & Eb' & _ & HW).
    fold v in Eb', EY. fold fe in Eb'. rewrite Eb in Eb'. injection Eb' as <-.
    destruct (AsElement_dofval_spec v nelem (el_nne E) nnode (el_ndim E) _ eq_refl eq_refl Hm y Ly) as (Y2 & EY2 & SY & VY). rewrite EY in EY2. injection EY2 as <-.
    rewrite (integral_affine nelem x E sig _ c a G (of_rows Y) HE Hc eq_refl) in HW.
    - rewrite <- HW. rewrite sumn_block. apply sumn_ext. intros n H1. apply sumn_ext. intros i H2. rewrite Vy by assumption.
      rewrite (Vf n i H1 H2). change (m_dofs v) with (dofs nnode (el_ndim E)). now rewrite dofs_get by assumption.
    - intros e m i He Hm' Hi. change (of_rows Y [e;m;i]) with (val3 Y e m i). rewrite VY by assumption. change (m_dofs v) with (dofs nnode (el_ndim E)). change (m_conn v) with conn.
      rewrite dofs_get by auto. rewrite Vy by auto. unfold disp. f_equal. apply sumn_ext. intros j Hj. now rewrite HX. }
  assert (Pick : forall k g, k < el_ndim E -> sumn (el_ndim E) (fun i => ind (i =? k)%nat * g i)%R = g k) by (intros k g Hk; now apply sumn_delta).
  assert (V : forall i j, i < el_ndim E -> j < el_ndim E -> sumn nnode (fun n => val2 X n j * val2 f n i)%R = total nelem E sig j i).
  { intros i j Hi Hj. pose proof (Work (fun _ => 0%R) (fun k l => ind (k =? i)%nat * ind (l =? j)%nat)%R) as W.
    rewrite (sumn_ext (el_ndim E) _ (fun k => ind (k =? i)%nat * total nelem E sig j k)%R) in W.
    2:{ intros k Hk. rewrite (sumn_ext _ _ (fun l => ind (l =? j)%nat * (ind (k =? i)%nat * total nelem E sig l k))%R) by (intros; cbv beta; ring). now rewrite Pick. }
    rewrite Pick in W by exact Hi. rewrite <- W. apply sumn_ext. intros n H1.
    rewrite (sumn_ext _ _ (fun k => ind (k =? i)%nat * (val2 X n j * val2 f n k))%R); [now rewrite Pick|].
    intros k Hk. rewrite (sumn_ext _ _ (fun l => ind (l =? j)%nat * (ind (k =? i)%nat * val2 X n l))%R) by (intros; cbv beta; ring). rewrite Pick by exact Hj. ring. }
  split; [|split; [exact V|]].
  - intros i Hi. pose proof (Work (fun k => ind (k =? i)%nat) (fun _ _ => 0%R)) as W.
    rewrite (sumn_zero (el_ndim E)) in W by (intros j Hj; apply sumn_zero; intros; cbv beta; ring). rewrite <- W. apply sumn_ext. intros n H1.
    rewrite (sumn_ext _ _ (fun k => ind (k =? i)%nat * val2 f n k)%R); [now rewrite Pick|].
    intros k Hk. rewrite (sumn_zero (el_ndim E)) by (intros; cbv beta; ring). ring.
  - intros Hs i j Hi Hj. rewrite (sumn_ext _ _ (fun n => val2 X n j * val2 f n i + (-1) * (val2 X n i * val2 f n j))%R) by (intros; cbv beta; ring).
    rewrite sumn_plus, sumn_scal, !V by assumption. unfold total.
    rewrite (sumn_ext nelem (fun e => sumn (el_nip E) (fun q => sig [e;q;j;i] * el_dV E [e;q])%R) (fun e => sumn (el_nip E) (fun q => sig [e;q;i;j] * el_dV E [e;q])%R)); [ring|].
    intros e He. apply sumn_ext. intros q Hq. rewrite (Hs e q j i He Hq) by lia. reflexivity.
Qed.
Print Assumptions C123_moments.

(** C123: every mesh of Mesh::Quad4::Regular and Mesh::Quad4::FineLayer, with Quad4 or Quad4Planar elements *)
Theorem C123_quad : forall X C ties bot rgt top lft Lx Ly, quad_mesh X C ties bot rgt top lft Lx Ly ->
  forall thick x E, mesh_body X C thick x E -> moments C (length C) (length X) X E.
Proof.
  intros X C ties bot rgt top lft Lx Ly H thick x E HB. pose proof (quad_mesh_facts _ _ _ _ _ _ _ _ _ H) as M.
  pose proof (mf_tiles _ _ _ _ _ _ _ _ _ M) as HT. pose proof (mf_C _ _ _ _ _ _ _ _ _ M) as SC. pose proof (mf_nonempty _ _ _ _ _ _ _ _ _ M) as NC.
  assert (Hn : 1 <= length X).
  { assert (P : nth 0 (nth 0 C []) 0 < length X). { apply (mf_range _ _ _ _ _ _ _ _ _ M (nth 0 C [])); [apply nth_In; lia|]. apply nth_In. rewrite (proj2 SC); [lia|apply nth_In; lia]. } lia. }
  destruct HB as [nip xi w x Q HR HX HQ|nip xi w thick x P Ht HR HX HQ].
  - apply (C123_moments C (length C) (length X) X x (Quad4_elem Q)); try assumption; [apply (quad4_objs X C Lx Ly x nip xi w HT HX HR Q HQ)|apply (mf_range _ _ _ _ _ _ _ _ _ M)].
  - apply (C123_moments C (length C) (length X) X x (Planar_elem P)); try assumption; [apply (planar_objs X C Lx Ly x nip xi w HT HX HR thick P Ht HQ)|apply (mf_range _ _ _ _ _ _ _ _ _ M)].
Qed.
Print Assumptions C123_quad.

(** C123: every mesh of Mesh::Hex8::Regular *)
Theorem C123_hex : forall m, hex_mesh m -> forall x E, hex_body m x E -> moments (hex_conn m) (hex_nelem m) (hex_nnode m) (hex_coor m) E.
Proof.
  intros m HM x E HB. destruct (C12_conn m) as (SC & _ & _ & B & _). pose proof (hex_box m x E (proj1 HM) HB) as BX. pose proof (box_affine _ _ _ BX) as HA.
  pose proof (body_coordinates m x E HB) as HX. destruct HB as [nip xi w x Q HR HX' HQ].
  apply (C123_moments (hex_conn m) (hex_nelem m) (hex_nnode m) (hex_coor m) x (Hex8_elem Q)); try assumption. destruct HM as (_ & ? & ? & ?). unfold hex_nnode. nia.
Qed.
Print Assumptions C123_hex.

(** a bar of two cubes under pressure: the sum of position times force is not zero, but the volume *)
Example C123_ex : exists m x E sig c, hex_mesh m /\ hex_nelem m = 2 /\ hex_body m x E /\ valid_call (hex_nelem m) c /\
  all_points (hex_nelem m) E (fun e q i j => sig [e;q;i;j] = sig [e;q;j;i]) /\ total (hex_nelem m) E sig 0 0 = 2%R /\ total (hex_nelem m) E sig 1 0 = 0%R.
Proof.
  set (m := mkHexRegular 2 1 1 1%R). assert (HM : hex_mesh m) by (unfold hex_mesh; cbn; split; [lra|lia]).
  set (x := fun k : list nat => match k with [e;n;i] => val2 (hex_coor m) (idx2 (hex_conn m) e n) i | _ => 0%R end).
  pose (z := fun _ : list nat => 0%R).
  set (Q := Hex8_new (seq 0 (hex_nelem m)) (hex_nelem m) x 8 (Gauss8_xi z) (Gauss8_w z) z z z z z).
  assert (HB : hex_body m x (Hex8_elem Q)).
  { apply (body_Hex8 m 8 (Gauss8_xi z) (Gauss8_w z)); [constructor|intros e k i _ _ _; reflexivity|apply Hex8_obj_new; apply Permutation_refl]. }
  exists m, x, (Hex8_elem Q), (fun k => match k with [_;_;i;j] => ind (i =? j) | _ => 0%R end), (mkCall (seq 0 (hex_nelem m)) z).
  split; [exact HM|]. split; [reflexivity|]. split; [exact HB|]. split; [apply Permutation_refl|]. split; [intros e q i j _ _ _ _; now rewrite Nat.eqb_sym|].
  destruct (C119_regular m HM x _ HB) as [_ V]. unfold total, ind. cbn [Nat.eqb]. split.
  - unfold volume in V. transitivity (sumn (hex_nelem m) (fun e => sumn (el_nip (Hex8_elem Q)) (fun q => el_dV (Hex8_elem Q) [e;q]))).
    + apply sumn_ext. intros e _. apply sumn_ext. intros q _. ring.
    + rewrite V. cbn. ring.
  - apply sumn_zero. intros e _. apply sumn_zero. intros q _. ring.
Qed.

(** without the condition on the Jacobian of hexahedra it is false, as the gradients are wrong (C64): a sheared cube under a stress in direction 1
    has forces of which the sum of position times force in that direction is zero, not the volume times the stress *)
Theorem C123_diagonal_needed : ~ (forall conn nelem nnode X nip xi w x Q, Hex8_obj nelem nip xi w x Q -> (forall e q, e < nelem -> q < nip -> jac3 (nodes x e) (point xi q) <> 0%R) ->
  1 <= nnode -> Spec.shape2 conn nelem 8 -> (forall e p, In e conn -> In p e -> p < nnode) -> coordinates conn nelem 8 3 X x -> moments conn nelem nnode X (Hex8_elem Q)).
Proof.
  intros H. pose (z := fun _ : list nat => 0%R). set (conn := [seq 0 8]). set (X := map (fun n => map (fun i => sheared [0;n;i]%nat) (seq 0 3)) (seq 0 8)).
  set (Q := Hex8_new [0] 1 sheared 8 (Gauss8_xi z) (Gauss8_w z) z z z z z).
  assert (HQ : Hex8_obj 1 8 (Gauss8_xi z) (Gauss8_w z) sheared Q) by (apply Hex8_obj_new; apply Permutation_refl).
  assert (VX : forall n i, n < 8 -> i < 3 -> val2 X n i = sheared [0;n;i]%nat).
  { intros n i Hn Hi. unfold val2, nth2, X. do 8 (destruct n as [|n]; [do 3 (destruct i as [|i]; [reflexivity|]); lia|]). lia. }
  assert (SC : Spec.shape2 conn 1 8) by (split; [reflexivity|intros l [<-|[]]; reflexivity]).
  assert (B : forall e p, In e conn -> In p e -> p < 8) by (intros e p [<-|[]] Hp; apply in_seq in Hp; lia).
  assert (IC : forall m, m < 8 -> idx2 conn 0 m = m) by (intros m Hm; unfold idx2, nth2; cbn [conn nth]; now rewrite seq_nth).
  assert (HX : coordinates conn 1 8 3 X sheared).
  { intros e m i He Hm Hi. assert (e = 0) as -> by lia. rewrite IC by exact Hm. now rewrite VX. }
  pose proof (H conn 1 8 X 8 (Gauss8_xi z) (Gauss8_w z) sheared Q HQ ltac:(intros e q _ _; rewrite sheared_jac; lra) ltac:(lia) SC B HX) as MO. unfold moments in MO. cbn [Hex8_elem el_nne el_ndim] in MO.
  set (v := mkVector conn 8 (dofs 8 3) 3) in *.
  set (sig := fun k : list nat => match k with [_;_;1%nat;1%nat] => 1%R | _ => 0%R end). set (c := mkCall [0] z).
  assert (Hc : valid_call 1 c) by apply Permutation_refl.
  destruct (MO c sig Hc) as (f & Ef & Sf & _ & V & _). specialize (V 1 1 ltac:(lia) ltac:(lia)).
  assert (P : (0 < total 1 (Hex8_elem Q) sig 1 1)%R).
  { unfold total, sig. cbn [Hex8_elem el_nip el_dV]. pose proof (Hex8_facts _ _ _ _ _ _ HQ) as F. rewrite (h_nip F). rewrite (sumn_S 0). unfold sumn at 1. cbn [seq sumL].
    rewrite (sumn_ext 8 _ (fun _ => 1%R)); [unfold sumn, sumL; cbn; lra|]. intros q Hq. rewrite (h_vol F 0 q ltac:(lia) Hq), sheared_jac.
    assert (W : Gauss8_w z [q] = 1%R) by (now apply (rule3_points 8 (Gauss8_xi z) _ (rule_Gauss8 z z))). rewrite W. ring. }
  rewrite <- V in P. apply (Rlt_irrefl 0). eapply Rlt_le_trans; [exact P|]. apply Req_le. clear P V.
  pose proof (own_mesh_dofs conn 1 8 8 3 ltac:(lia) ltac:(lia) SC B) as Hm.
  set (y := map (fun d => if d mod 3 =? 1 then val2 X (d / 3) 1 else 0%R) (seq 0 24)).
  assert (Vy : forall n i, n < 8 -> i < 3 -> val1 y (n * 3 + i) = if i =? 1 then val2 X n 1 else 0%R).
  { intros n i H1 H2. do 8 (destruct n as [|n]; [do 3 (destruct i as [|i]; [reflexivity|]); lia|]). lia. }
  destruct (C84_virtual_work conn (dofs 8 3) 1 8 24 sheared (Hex8_elem Q) (obj_Hex8 _ _ _ _ _ _ HQ) Hm c c sig y Hc Hc ltac:(reflexivity)) as (Y & b & EY & Eb & Lb & HW).
  cbn [Hex8_elem el_nne el_ndim] in Eb. fold v in Eb. 
  destruct (AsNode_dofval_spec v 1 8 8 3 24 eq_refl eq_refl Hm b Lb) as (f' & Ef' & _ & Vf).
  assert (f' = f) by (unfold AssembleNode in Ef; rewrite Eb in Ef; cbn [bind] in Ef; congruence). subst f'.
  transitivity (sumn (8 * 3) (fun d => val1 y d * val1 b d)%R).
  - rewrite sumn_block. apply sumn_ext. intros n H1. rewrite (sumn_ext 3 _ (fun i => ind (i =? 1)%nat * (val2 X n i * val2 f n i))%R).
    + rewrite (sumn_delta 3 1) by lia. reflexivity.
    + intros i H2. rewrite Vy by assumption. rewrite (Vf n i H1 H2). change (m_dofs v) with (dofs 8 3). rewrite dofs_get by assumption. unfold ind. destruct (Nat.eqb_spec i 1) as [->|]; ring.
  - change (8 * 3) with 24. rewrite HW. unfold integral. apply sumn_zero. intros e He. apply sumn_zero. intros q Hq.
    cbn [Hex8_elem el_nip el_tdim] in *. rewrite (h_nip (Hex8_facts _ _ _ _ _ _ HQ)) in Hq.
    rewrite (sumn_zero 3); [ring|]. intros i Hi. apply sumn_zero. intros j Hj. destruct (Nat.eq_dec i 1) as [->|Ni].
    + unrec. rewrite (C64_sheared 1 8 _ _ Q HQ [0] (Permutation_refl _)) by assumption. ring.
    + assert (S0 : sig [e;q;i;j] = 0%R) by (unfold sig; destruct i as [|[|]]; [reflexivity|lia|reflexivity]). rewrite S0. ring.
Qed.
Print Assumptions C123_diagonal_needed.
