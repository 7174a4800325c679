(** Property C91: the meshes are conforming: elements meet in whole sides, and the outline consists of the boundary sets of the mesh. *)
From Coq Require Import Reals Lra Lia List Arith Permutation.
From Verif Require Import Model_Element Spec_Element Base Spec Spec2d Sums Spec_Vector Spec_Tiling Spec_Conform Spec_Patch Model_Numbering Model_Regular2d Model_FineLayer
  Proof_Conform Proof_ConformTiles Proof_ConformMesh Proof_ConformClosed Proof_Joined Proof_Regular2d Proof_RegularTiling Spec_QuadMesh Proof_QuadMesh Proof_QuadLinked.
Import ListNotations.

(** C91: Quad4::Regular and Quad4::FineLayer (with its refinement and coarsening layers: there are no hanging nodes) *)
Theorem C91_quads : forall X C ties bot rgt top lft Lx Ly, quad_mesh X C ties bot rgt top lft Lx Ly -> conforming_mesh C bot rgt top lft.
Proof. intros X C ties bot rgt top lft Lx Ly H. exact (mf_conforming _ _ _ _ _ _ _ _ _ (quad_mesh_facts _ _ _ _ _ _ _ _ _ H)). Qed.
Print Assumptions C91_quads.

(** C91: Tri3::Regular *)
Theorem C91_tri : forall m, (0 < hh m)%R -> 1 <= nelx m -> 1 <= nely m ->
  conforming_mesh (tri_conn m) (tri_nodesBottomEdge m) (tri_nodesRightEdge m) (tri_nodesTopEdge m) (tri_nodesLeftEdge m).
Proof. exact Tri3_conforming. Qed.
Print Assumptions C91_tri.

(** C91: so that the elements close up around every node that is not in a boundary set, which is what the patch test (C86) asks for *)
Theorem C91_closed : forall X C ties bot rgt top lft Lx Ly, quad_mesh X C ties bot rgt top lft Lx Ly ->
  forall n, n < length X -> ~ In n bot -> ~ In n rgt -> ~ In n top -> ~ In n lft -> closed_around C (length C) n.
Proof.
  intros X C ties bot rgt top lft Lx Ly H n Hn H1 H2 H3 H4. pose proof (quad_mesh_facts _ _ _ _ _ _ _ _ _ H) as F.
  apply (conforming_closed C (length C) (mf_C _ _ _ _ _ _ _ _ _ F) bot rgt top lft n (mf_conforming _ _ _ _ _ _ _ _ _ F)); intros q; apply (off_outline bot rgt top lft n H1 H2 H3 H4 q).
Qed.
Print Assumptions C91_closed.

(** C91: and the body is in one piece: one can go from every element to every other element across common sides *)
Theorem C91_joined : forall X C ties bot rgt top lft Lx Ly, quad_mesh X C ties bot rgt top lft Lx Ly -> forall e f, e < length C -> f < length C -> joined C e f.
Proof. intros X C ties bot rgt top lft Lx Ly H. exact (quad_joined _ _ _ _ _ _ _ _ _ (quad_mesh_facts _ _ _ _ _ _ _ _ _ H)). Qed.
Print Assumptions C91_joined.
Theorem C91_joined_tri : forall m, (0 < hh m)%R -> 1 <= nelx m -> 1 <= nely m -> forall e f, e < tri_nelem m -> f < tri_nelem m -> joined (tri_conn m) e f.
Proof.
  intros m Hh Hx Hy e f He Hf. pose proof (lt_0_INR (nelx m) ltac:(lia)) as Px. pose proof (lt_0_INR (nely m) ltac:(lia)) as Py.
  assert (LC : length (tri_conn m) = tri_nelem m) by apply tri_conn_shape.
  eapply (mesh_joined (tri_coor m) (tri_conn m) (hh m * INR (nelx m)) (hh m * INR (nely m))); [now apply Rmult_lt_0_compat|now apply Rmult_lt_0_compat|now apply tri_boundary_sets| |now apply Tri3_conforming| |lia|lia].
  - change (tri_coor m) with (coor m). exact (proj1 (proj2 (Regular_in_domain m Hh))).
  - eapply tri_cross. now apply Tri3_tiles.
Qed.
Print Assumptions C91_joined_tri.

(** a mesh with refinement layers, its outline, and a node in the interior *)
Example C91_ex : forall h, (0 < h)%R -> exists X C ties bot rgt top lft, quad_mesh X C ties bot rgt top lft (h * INR 9) (h * INR 21) /\
  length C = 81 /\ length (flat_map sides C) = 324 /\ length (outline bot rgt top lft) = 28 /\ In (0, 1) (outline bot rgt top lft) /\
  nth 6 C [] = [8; 9; 13; 12] /\ nth 7 C [] = [9; 21; 20; 13] /\ In (9, 13) (flat_map sides C) /\ In (13, 9) (flat_map sides C) /\
  (forall n, n = 9 -> ~ In n bot /\ ~ In n rgt /\ ~ In n top /\ ~ In n lft).
Proof.
  intros h Hh. let t := eval vm_compute in (FineLayer_init 9 17 h 1) in match t with Some (Ok ?m) => pose proof (mesh_FineLayer 9 17 h 1 m) as H end.
  do 7 eexists. split.
  - eapply H; [exact Hh|lia|lia|vm_compute; reflexivity|vm_compute; reflexivity|vm_compute; reflexivity|vm_compute; reflexivity|vm_compute; reflexivity|vm_compute; reflexivity|vm_compute; reflexivity|vm_compute; reflexivity].
  - split; [reflexivity|]. split; [vm_compute; reflexivity|]. split; [vm_compute; reflexivity|]. split; [now left|]. split; [reflexivity|]. split; [reflexivity|].
    split; [apply (nth_error_In _ 25); reflexivity|]. split; [apply (nth_error_In _ 31); reflexivity|].
    intros n ->. cbn. repeat split; intros K; intuition congruence.
Qed.
