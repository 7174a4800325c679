(** Property C125: the loads and the reactions that a static program returns are in equilibrium, and their moments are the integral of the stress. *)
From Coq Require Import Reals ZArith Lra Lia List Arith Permutation.
From Verif Require Import Model_Element Spec_Element Proof_ElementMath Base Spec Sums Spec_Vector Spec_Matrix Spec_MatrixOps Spec_Macro Spec_HexMesh Spec_QuadMesh Model_Numbering Proof_Numbering Model_Vector Model_VectorPartitioned Proof_Vector
  Model_Sparse Model_Matrix Model_MatrixPartitioned Model_MeshGeometry Model_Pipeline Spec_Pipeline Proof_PipelineElem Proof_Pipeline Proof_Macro Proof_MeshGeometry Proof_HexGrid Proof_HexBox Model_Hex8Regular Prop_Hex8Regular Spec2d Spec_Patch Spec_Divergence Proof_QuadMesh Proof_QuadMeshObj
  Prop_MatrixPartitioned Prop_Pipeline Prop_HexDynamics Prop_Moments Prop_AngularMomentum Proof_Matrix Proof_MatrixPartitioned Proof_PipelineEx.
Import ListNotations.

(** forces [f] on nodes at [X]: no resultant force and no resultant moment *)
Definition equilibrium (nnode ndim : nat) (X f : list (list R)) : Prop :=
  (forall i, i < ndim -> sumn nnode (fun n => val2 f n i) = 0%R) /\
  (forall i j, i < ndim -> j < ndim -> sumn nnode (fun n => val2 X n j * val2 f n i - val2 X n i * val2 f n j)%R = 0%R).

(** the program for statics of C82, with one DOF per node and direction: the external force that it returns is the given one on the DOFs that are not prescribed
    (on the others: the reactions), and is in equilibrium; its first moments are the integral of the stress of the displacement that is returned *)
Definition statics_balanced (conn : list (list nat)) (nelem nnode : nat) (X : list (list R)) (E : Elem) : Prop :=
  let ndim := el_ndim E in
  let v := mkVector conn (el_nne E) (dofs nnode ndim) ndim in
  forall iip, prescribed (nnode * ndim) iip ->
  forall linsolve ops K0 K s p, Forall (fun o => match o with PMat o => valid_op nelem (el_nne E) ndim (nnode * ndim) o | _ => True end) ops ->
  new_MatrixPartitioned v iip = Ok K0 -> foldM (run_pop linsolve) ops (K0, new_Solver) = Ok (K, s) -> new_VectorPartitioned v iip = Ok p ->
  forall mem C fext disp0 bc, valid_memory nelem nnode ndim mem -> minor_symmetric nelem E C -> symmetric_law nelem E (ddot42 (el_tdim E) C) ->
  (forall K', MP_assemble K (element_stiffness v E (r_K mem) C) = Ok K' -> solves linsolve (A_uu K')) ->
  Spec.shape2 fext nnode ndim -> Spec.shape2 bc nnode ndim -> Spec.shape2 disp0 nnode ndim -> (forall n j, n < nnode -> j < ndim -> val2 disp0 n j = 0%R) ->
  exists disp fint fext' fres ue, statics linsolve mem p K s E (ddot42 (el_tdim E) C) C fext disp0 bc = Ok (disp, fint, fext', fres) /\ AsElement_nodevec v disp = Ok ue /\
    (forall n i, n < nnode -> i < ndim -> ~ In (n * ndim + i) iip -> val2 fext' n i = val2 fext n i) /\
    equilibrium nnode ndim X fext' /\
    forall i j, i < ndim -> j < ndim -> sumn nnode (fun n => val2 X n j * val2 fext' n i)%R = total nelem E (ddot42 (el_tdim E) C (el_SymGradN_vector E (r_eps1 mem) (of_rows ue))) j i.

Lemma own_no_holes nnode ndim : no_holes (dofs nnode ndim) (nnode * ndim).
Proof. intros d Hd. rewrite concat_dofs. apply in_seq. lia. Qed.

Theorem C125_reactions : forall conn nelem nnode X x E, affine_obj nelem x E -> 1 <= nnode -> Spec.shape2 conn nelem (el_nne E) -> (forall e p, In e conn -> In p e -> p < nnode) ->
  coordinates conn nelem (el_nne E) (el_ndim E) X x -> statics_balanced conn nelem nnode X E.
Proof.
  intros conn nelem nnode X x E HE Hn SC B HX. pose proof (C123_moments conn nelem nnode X x E HE Hn SC B HX) as MO. unfold moments in MO. unfold statics_balanced.
  set (v := mkVector conn (el_nne E) (dofs nnode (el_ndim E)) (el_ndim E)) in *.
  pose proof (obj_dims _ _ _ HE) as Hd. pose proof (own_mesh_dofs conn nelem (el_nne E) nnode (el_ndim E) Hn Hd SC B) as Hm.
  intros iip Hi linsolve ops K0 K s p Hok E0 Er Ep mem C fext disp0 bc HM HC HS Hs Sf Sb S0 Z0.
  destruct (C82_statics conn (dofs nnode (el_ndim E)) nelem nnode (nnode * el_ndim E) x E iip (affine_elem _ _ _ HE) Hm Hi (own_no_holes _ _) linsolve ops K0 K s p Hok E0 Er Ep mem C fext disp0 bc HM HC Hs
    (conj Sf (own_agree _ _ _ Sf)) (conj Sb (own_agree _ _ _ Sb)) S0 Z0) as (disp & fint & fext' & fres & E1 & [Sd _] & _ & F & R).
  destruct (AsElement_nodevec_spec v nelem (el_nne E) nnode (el_ndim E) _ eq_refl eq_refl Hm disp Sd) as [ue [Eu _]].
  pose proof HM as (_ & _ & _ & Hc1 & Hc2 & _). specialize (F (r_eps1 mem) (r_f1 mem) Hc1 Hc2). fold v in F.
  destruct (MO (r_f1 mem) (ddot42 (el_tdim E) C (el_SymGradN_vector E (r_eps1 mem) (of_rows ue))) Hc2) as (f & Ef & _ & M0 & M1 & M2).
  assert (f = fint).
  { unfold internal_force, internal_force_of in F. rewrite Eu in F. cbn [bind] in F. destruct (V_sizes v nelem (el_nne E) nnode (el_ndim E) _ eq_refl eq_refl Hm) as [EV _]. rewrite EV in F. rewrite F in Ef. congruence. }
  subst f. assert (Q : forall n i, n < nnode -> i < el_ndim E -> val2 fext' n i = val2 fint n i) by (intros n i H1 H2; apply (R n i H1 H2)).
  exists disp, fint, fext', fres, ue. split; [exact E1|]. split; [exact Eu|]. split; [|split; [split|]].
  - intros n i H1 H2 HN. apply (R n i H1 H2). now rewrite dofs_get.
  - intros i H2. rewrite <- (M0 i H2). apply sumn_ext. intros n H1. now apply Q.
  - intros i j H2 H3. rewrite <- (M2 (HS _) i j H2 H3). apply sumn_ext. intros n H1. now rewrite !Q.
  - intros i j H2 H3. rewrite <- (M1 i j H2 H3). apply sumn_ext. intros n H1. now rewrite Q.
Qed.
Print Assumptions C125_reactions.

(** C125: every mesh of Mesh::Quad4::Regular and Mesh::Quad4::FineLayer *)
Theorem C125_quad : forall X C ties bot rgt top lft Lx Ly, quad_mesh X C ties bot rgt top lft Lx Ly ->
  forall thick x E, mesh_body X C thick x E -> statics_balanced C (length C) (length X) X E.
Proof.
  intros X C ties bot rgt top lft Lx Ly H thick x E HB. pose proof (quad_mesh_facts _ _ _ _ _ _ _ _ _ H) as M.
  pose proof (mf_tiles _ _ _ _ _ _ _ _ _ M) as HT. pose proof (mf_C _ _ _ _ _ _ _ _ _ M) as SC. pose proof (mf_nonempty _ _ _ _ _ _ _ _ _ M) as NC.
  assert (Hn : 1 <= length X).
  { assert (P : nth 0 (nth 0 C []) 0 < length X). { apply (mf_range _ _ _ _ _ _ _ _ _ M (nth 0 C [])); [apply nth_In; lia|]. apply nth_In. rewrite (proj2 SC); [lia|apply nth_In; lia]. } lia. }
  destruct HB as [nip xi w x Q HR HX HQ|nip xi w thick x P Ht HR HX HQ].
  - apply (C125_reactions C (length C) (length X) X x (Quad4_elem Q)); try assumption; [apply (quad4_objs X C Lx Ly x nip xi w HT HX HR Q HQ)|apply (mf_range _ _ _ _ _ _ _ _ _ M)].
  - apply (C125_reactions C (length C) (length X) X x (Planar_elem P)); try assumption; [apply (planar_objs X C Lx Ly x nip xi w HT HX HR thick P Ht HQ)|apply (mf_range _ _ _ _ _ _ _ _ _ M)].
Qed.
Print Assumptions C125_quad.

(** C125: every mesh of Mesh::Hex8::Regular *)
Theorem C125_hex : forall m, hex_mesh m -> forall x E, hex_body m x E -> statics_balanced (hex_conn m) (hex_nelem m) (hex_nnode m) (hex_coor m) E.
Proof.
  intros m HM x E HB. destruct (C12_conn m) as (SC & _ & _ & B & _). pose proof (hex_box m x E (proj1 HM) HB) as BX. pose proof (box_affine _ _ _ BX) as HA.
  pose proof (body_coordinates m x E HB) as HX. destruct HB as [nip xi w x Q HR HX' HQ].
  apply (C125_reactions (hex_conn m) (hex_nelem m) (hex_nnode m) (hex_coor m) x (Hex8_elem Q)); try assumption. destruct HM as (_ & ? & ? & ?). unfold hex_nnode. nia.
Qed.
Print Assumptions C125_hex.

(** the square of C82_ex, loaded by a force 3 on node 3: the load and the reactions are in equilibrium *)
Example C125_ex : exists K0 p, new_MatrixPartitioned sq_v sq_iip = Ok K0 /\ new_VectorPartitioned sq_v sq_iip = Ok p /\
  exists disp fint fext' fres, statics div1 sq_mem p K0 new_Solver sqE (ddot42 2 Isym) Isym (nodes4 0 0 0 0 0 0 0 3) (nodes4 0 0 0 0 0 0 0 0) (nodes4 0 0 0 0 0 1 0 0) = Ok (disp, fint, fext', fres) /\
    equilibrium 4 2 (nodes4 0 0 1 0 1 1 0 1) fext' /\ val2 fext' 3 1 = 3%R.
Proof.
  destruct (mp_new sq_v 1 4 4 2 8 eq_refl eq_refl sq_mesh sq_iip sq_prescribed sq_holes) as [K0 [E0 [[[Ep _] _] _]]].
  exists K0, (MP_p K0). split; [exact E0|]. split; [exact Ep|].
  assert (HA : affine_obj 1 sq sqE) by (destruct sq_regular; econstructor; eassumption).
  assert (SB : statics_balanced sq_conn 1 4 (nodes4 0 0 1 0 1 1 0 1) sqE).
  { apply (C125_reactions sq_conn 1 4 _ sq sqE HA ltac:(lia)).
    - split; [reflexivity|]. intros l [<-|[]]. reflexivity.
    - intros e p0 [<-|[]] Hp. cbn in Hp. lia.
    - intros e m i He Hm Hi. cbn in Hm, Hi. assert (e = 0) as -> by lia. do 4 (destruct m as [|m]; [do 2 (destruct i as [|i]; [reflexivity|]); lia|]). lia. }
  destruct (SB sq_iip sq_prescribed div1 [] K0 K0 new_Solver (MP_p K0) (Forall_nil _) E0 eq_refl Ep sq_mem Isym (nodes4 0 0 0 0 0 0 0 3) (nodes4 0 0 0 0 0 0 0 0) (nodes4 0 0 0 0 0 1 0 0) sq_memory (Isym_minor _ _))
    as (disp & fint & fext' & fres & ue & E1 & _ & HF & EQ & _).
  - intros A e q i j He Hq Hi Hj. cbn in Hi, Hj. cbn [sqE Quad4_elem el_tdim]. unfold ddot42. do 2 (destruct i as [|i]; [do 2 (destruct j as [|j]; [unfold Isym, sumn, sumL, ind; cbn; lra|]); lia|]). lia.
  - intros K'. now apply (sq_solves K0 K0), sq_valid.
  - apply (sq_nodal 0 0 0 0 0 0 0 3).
  - apply (sq_nodal 0 0 0 0 0 1 0 0).
  - apply (sq_nodal 0 0 0 0 0 0 0 0).
  - intros n j Hn Hj. cbn in Hj. destruct n as [|[|[|[|]]]]; try lia; destruct j as [|[|]]; try lia; reflexivity.
  - exists disp, fint, fext', fres. split; [exact E1|]. split; [exact EQ|]. rewrite (HF 3 1) by (cbn; lia). reflexivity.
Qed.
