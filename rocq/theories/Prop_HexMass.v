(** Property C121: the diagonal mass matrix on the meshes of hexahedra: nodal integration gives every DOF a positive mass, and the accelerations can be computed. *)
From Coq Require Import Reals ZArith Lra Lia List Arith Permutation.
From Verif Require Import Model_Element Spec_Element Proof_Element Proof_ElementQuad4 Proof_ElementMath Proof_ElementHex8 Base Spec Spec3d Sums Spec_Vector Spec_Matrix Spec_MatrixDiagonal Spec_Macro Spec_HexMesh Spec_FineLayer3 Spec_LumpedMass Model_Numbering Model_Vector Proof_Vector Model_MatrixDiagonal Prop_MatrixDiagonal
  Model_Hex8Regular Model_Hex8FineLayer Model_MeshGeometry Model_Pipeline Proof_Pipeline Proof_HexBox Prop_Hex8Regular Prop_Hex8FineLayer Prop_HexFineVolume Proof_HexMass
  Spec2d Spec_Patch Spec_Divergence Spec_QuadMesh Proof_QuadMesh Proof_QuadMeshObj Proof_QuadLinked Proof_ElementThm Prop_ElementQuad4 Prop_Divergence.
Import ListNotations.

(** C121: any mesh of hexahedra with positive volumes dV and without unused nodes, any numbering of the DOFs without holes (also periodic), any positive density *)
Theorem C121_mass : forall conn dofs nelem nnode ndof, mesh_dofs conn dofs nelem 8 nnode 3 ndof -> no_holes dofs ndof ->
  (forall p, p < nnode -> exists E, In E conn /\ In p E) ->
  forall j j' x Q, Hex8_obj nelem 8 (Nodal8_xi j) (Gauss8_w j') x Q -> (forall e q, e < nelem -> q < 8 -> (0 < q_vol Q [e; q]%nat)%R) ->
  forall es rho old, schedule nelem es -> (forall e q, e < nelem -> q < 8 -> (0 < rho [e; q]%nat)%R) ->
  good_mass conn dofs nelem 8 nnode 3 ndof (to_rows nelem 24 24 (Hex8_int_N_scalar_NT_dV es Q rho old))
    (3 * sumn nelem (fun e => sumn 8 (fun q => rho [e; q]%nat * q_vol Q [e; q]%nat)))%R.
Proof.
  intros conn dofs nelem nnode ndof Hmd Hho Hused j j' x Q HQ Hv es rho old Hes Hrho.
  apply (good_of conn dofs nelem 8 nnode 3 ndof Hmd Hho (node_used conn nelem 8 nnode (md_conn _ _ _ _ _ _ _ Hmd) Hused) (fun e a => rho [e; a]%nat * q_vol Q [e; a]%nat)%R _ _ ltac:(lia)).
  - apply to_rows_shape.
  - intros e a i b k He Ha Hi Hb Hk. rewrite to_rows_val by lia. now apply (h_mass_nodal nelem j j' x).
  - intros e a He Ha. apply Rmult_lt_0_compat; auto.
  - cbn [INR]. ring.
Qed.
Print Assumptions C121_mass.

(** C121: Mesh::Hex8::FineLayer, also with refined layers, density [r] everywhere: the total is the density times the volume of the domain, in three directions *)
Theorem C121_fine : forall nelx nely nelz nfine h m, 1 <= nelx -> 1 <= nely -> 1 <= nelz ->
  HexFineLayer_init nelx nely nelz h nfine = Some (Ok m) -> (0 < h)%R ->
  exists X C, g_coor m = Ok X /\ g_conn m = Ok C /\
    forall dofs ndof, mesh_dofs C dofs (g_nelem m) 8 (g_nnode m) 3 ndof -> no_holes dofs ndof ->
    forall j j' x Q, coordinates C (g_nelem m) 8 3 X x -> Hex8_obj (g_nelem m) 8 (Nodal8_xi j) (Gauss8_w j') x Q ->
    forall es rho old r, schedule (g_nelem m) es -> (0 < r)%R -> (forall e q, e < g_nelem m -> q < 8 -> rho [e; q]%nat = r) ->
    good_mass C dofs (g_nelem m) 8 (g_nnode m) 3 ndof (to_rows (g_nelem m) 24 24 (Hex8_int_N_scalar_NT_dV es Q rho old))
      (3 * (r * (h * INR nelx * (h * INR (g_nely m)) * (h * INR nelz))))%R.
Proof.
  intros nelx nely nelz nfine h m H1 H2 H3 Hm Hh. destruct (C119_volume nelx nely nelz nfine h m H1 H2 H3 Hm Hh) as (X & C & EX & EC & V).
  destruct (C25_mesh nelx nely nelz nfine h m H1 H2 H3 Hm) as (X2 & C2 & EX2 & EC2 & _ & _ & _ & U).
  assert (C2 = C) by congruence. subst C2. exists X, C. split; [exact EX|]. split; [exact EC|].
  intros dofs ndof Hmd Hho j j' x Q Hx HQ es rho old r Hes Hr Hrho. destruct (V 8 _ _ x Q (rule_Nodal8 j j') Hx HQ) as [P S].
  pose proof (C121_mass C dofs (g_nelem m) (g_nnode m) ndof Hmd Hho U j j' x Q HQ P es rho old Hes) as G.
  rewrite <- S, <- sumn_scal. rewrite (sumn_ext (g_nelem m) _ (fun e => sumn 8 (fun q => rho [e; q]%nat * q_vol Q [e; q]%nat))%R).
  - apply G. intros e q He Hq. now rewrite Hrho.
  - intros e He. rewrite <- sumn_scal. apply sumn_ext. intros q Hq. now rewrite Hrho.
Qed.
Print Assumptions C121_fine.

(** C121: Mesh::Hex8::Regular *)
Theorem C121_regular : forall m, hex_mesh m ->
  forall dofs ndof, mesh_dofs (hex_conn m) dofs (hex_nelem m) 8 (hex_nnode m) 3 ndof -> no_holes dofs ndof ->
  forall j j' x Q, coordinates (hex_conn m) (hex_nelem m) 8 3 (hex_coor m) x -> Hex8_obj (hex_nelem m) 8 (Nodal8_xi j) (Gauss8_w j') x Q ->
  forall es rho old r, schedule (hex_nelem m) es -> (0 < r)%R -> (forall e q, e < hex_nelem m -> q < 8 -> rho [e; q]%nat = r) ->
  good_mass (hex_conn m) dofs (hex_nelem m) 8 (hex_nnode m) 3 ndof (to_rows (hex_nelem m) 24 24 (Hex8_int_N_scalar_NT_dV es Q rho old))
    (3 * (r * (hx_h m * INR (hx_nelx m) * (hx_h m * INR (hx_nely m)) * (hx_h m * INR (hx_nelz m)))))%R.
Proof.
  intros m HM dofs ndof Hmd Hho j j' x Q Hx HQ es rho old r Hes Hr Hrho.
  destruct (C119_regular m HM x (Hex8_elem Q) (body_Hex8 m 8 _ _ x Q (rule_Nodal8 j j') Hx HQ)) as [P S].
  destruct HM as (Hh & H1 & H2 & H3). destruct (C12_conn m) as (_ & _ & _ & _ & U). specialize (U H1 H2 H3).
  assert (N8 : q_nip Q = 8) by apply (h_nip (Hex8_facts _ _ _ _ _ _ HQ)).
  unfold volume in S. cbn [Hex8_elem el_nip el_dV] in P, S. rewrite N8 in P, S.
  pose proof (C121_mass _ dofs (hex_nelem m) (hex_nnode m) ndof Hmd Hho U j j' x Q HQ P es rho old Hes) as G.
  rewrite <- S, <- sumn_scal. rewrite (sumn_ext (hex_nelem m) _ (fun e => sumn 8 (fun q => rho [e; q]%nat * q_vol Q [e; q]%nat))%R).
  - apply G. intros e q He Hq. now rewrite Hrho.
  - intros e He. rewrite <- sumn_scal. apply sumn_ext. intros q Hq. now rewrite Hrho.
Qed.
Print Assumptions C121_regular.

(** C121: quadrilaterals: every mesh of Mesh::Quad4::Regular and Mesh::Quad4::FineLayer *)
Theorem C121_quad : forall X C ties bot rgt top lft Lx Ly, quad_mesh X C ties bot rgt top lft Lx Ly ->
  forall dofs ndof, mesh_dofs C dofs (length C) 4 (length X) 2 ndof -> no_holes dofs ndof ->
  forall j j' x Q, on_mesh C (length C) X x -> Quad4_obj (length C) 4 (Nodal4_xi j) (Nodal4_w j') x Q ->
  forall es rho old r, schedule (length C) es -> (0 < r)%R -> (forall e q, e < length C -> q < 4 -> rho [e; q]%nat = r) ->
  good_mass C dofs (length C) 4 (length X) 2 ndof (to_rows (length C) 8 8 (Quad4_int_N_scalar_NT_dV es Q rho old)) (2 * (r * (Lx * Ly)))%R.
Proof.
  intros X C ties bot rgt top lft Lx Ly H dofs ndof Hmd Hho j j' x Q Hx HQ es rho old r Hes Hr Hrho.
  pose proof (quad_mesh_facts _ _ _ _ _ _ _ _ _ H) as M. pose proof (Quad4_facts _ _ _ _ _ _ HQ) as F.
  destruct (C92_bodies X C ties bot rgt top lft Lx Ly H x 4 _ _ Hx (rule_Nodal j j')) as (_ & _ & SH & _).
  pose proof (proj1 (C92_cell X C ties bot rgt top lft Lx Ly H 1 x _ (SH Q HQ) Hx)) as V. unfold volume in V. cbn [Quad4_elem el_nip el_dV] in V. rewrite (f_nip F) in V.
  apply (good_of C dofs (length C) 4 (length X) 2 ndof Hmd Hho (quad_covered _ _ _ _ _ _ _ _ _ M) (fun e a => r * q_vol Q [e; a]%nat)%R _ _ ltac:(lia)).
  - apply to_rows_shape.
  - intros e a i b k He Ha Hi Hb Hk. rewrite to_rows_val by lia. rewrite (C58_nodal _ _ _ _ _ _ _ _ e a i b k HQ Hes He Ha Hb Hi Hk). now rewrite Hrho.
  - intros e a He Ha. apply Rmult_lt_0_compat; [exact Hr|]. rewrite (f_vol F) by assumption.
    destruct (rule_jac X C Lx Ly x 4 _ _ (mf_tiles _ _ _ _ _ _ _ _ _ M) Hx (rule_Nodal j j') e a He Ha). now apply Rmult_lt_0_compat.
  - rewrite (sumn_ext (length C) _ (fun e => r * sumn 4 (fun q => q_vol Q [e; q]%nat))%R) by (intros e He; apply sumn_scal). rewrite sumn_scal, V. cbn [INR]. ring.
Qed.
Print Assumptions C121_quad.

(** the refined mesh of 3 x 9 x 2 with its own numbering of the DOFs: node n has DOFs 3 n, 3 n + 1 and 3 n + 2 *)
Example C121_ex : exists m C, HexFineLayer_init 3 9 2 1 1 = Some (Ok m) /\ g_conn m = Ok C /\ g_nelem m = 46 /\ g_nnode m = 96 /\
  let dofs := map (fun n => [n * 3; n * 3 + 1; n * 3 + 2]) (seq 0 96) in
  mesh_dofs C dofs (g_nelem m) 8 (g_nnode m) 3 288 /\ no_holes dofs 288.
Proof.
  destruct (C25_terminates 3 9 2 1%R 1 ltac:(lia) ltac:(lia) ltac:(lia)) as (m & Hm).
  destruct (C25_mesh 3 9 2 1 1%R m ltac:(lia) ltac:(lia) ltac:(lia) Hm) as (X & C & EX & EC & _ & SC & B & _).
  assert (N : g_nelem m = 46 /\ g_nnode m = 96) by (vm_compute in Hm; injection Hm as <-; vm_compute; split; reflexivity). destruct N as [N1 N2].
  exists m, C. split; [exact Hm|]. split; [exact EC|]. split; [exact N1|]. split; [exact N2|]. rewrite N1, N2 in *. intros dofs. split.
  - constructor; [exact SC| | |vm_compute; reflexivity].
    + split; [reflexivity|]. intros l Hl. unfold dofs in Hl. apply in_map_iff in Hl. destruct Hl as (n & <- & _). reflexivity.
    + intros e k He Hk. destruct SC as [L S]. apply (B (nth e C [])); [apply nth_In; lia|]. unfold idx2, nth2. apply nth_In. rewrite S; [exact Hk|apply nth_In; lia].
  - intros d Hd. apply in_concat. exists [d / 3 * 3; d / 3 * 3 + 1; d / 3 * 3 + 2]. pose proof (Nat.div_mod d 3 ltac:(lia)). pose proof (Nat.mod_upper_bound d 3 ltac:(lia)). split.
    + unfold dofs. apply in_map_iff. exists (d / 3). split; [reflexivity|]. apply in_seq. lia.
    + assert (K : d = d / 3 * 3 \/ d = d / 3 * 3 + 1 \/ d = d / 3 * 3 + 2) by lia. destruct K as [K|[K|K]]; [left|right; left|right; right; left]; symmetry; exact K.
Qed.
