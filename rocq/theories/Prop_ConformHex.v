(** Property C118: the meshes of hexahedra are conforming and in one piece. *)
From Coq Require Import Reals Lra Lia List Arith.
From Verif Require Import Base Spec Spec3d Model_Hex8Regular Proof_Hex8Regular Proof_HexGrid Spec_ConformHex Proof_ConformHex.
Import ListNotations.

(** C118: Mesh::Hex8::Regular: elements meet in whole sides, and the outline consists of the boundary sets of the mesh *)
Theorem C118_regular : forall m, (0 < hx_h m)%R -> 1 <= hx_nelx m -> 1 <= hx_nely m -> 1 <= hx_nelz m ->
  conforming_hex (hex_conn m) [nodesFront m; nodesBack m; nodesLeft m; nodesRight m; nodesBottom m; nodesTop m].
Proof. exact conforming. Qed.
Print Assumptions C118_regular.

(** C118: one can go from every element to every other element across common sides *)
Theorem C118_joined : forall m, 1 <= hx_nelx m -> 1 <= hx_nely m -> 1 <= hx_nelz m ->
  forall e f, e < length (hex_conn m) -> f < length (hex_conn m) -> joined_hex (hex_conn m) e f.
Proof. exact joined. Qed.
Print Assumptions C118_joined.

(** two elements, which meet in the right side of the first one and the left side of the second one *)
Example C118_ex : let m := mkHexRegular 2 1 1 1 in (0 < hx_h m)%R /\ length (hex_conn m) = 2 /\
  side (hex_conn m) 0 3 = [1; 4; 10; 7] /\ side (hex_conn m) 1 2 = [1; 7; 10; 4] /\ common_side (hex_conn m) 0 3 1 2 /\ ~ common_side (hex_conn m) 0 3 1 3 /\
  incl (side (hex_conn m) 0 2) (nodesLeft m) /\ ~ incl (side (hex_conn m) 0 3) (nodesRight m).
Proof.
  cbv zeta. split; [cbn; lra|]. split; [reflexivity|]. split; [reflexivity|]. split; [reflexivity|]. split; [exists 3; reflexivity|].
  split; [intros (k & Q); do 5 (destruct k as [|k]; [discriminate|]); discriminate|].
  split; [intros n Hn; vm_compute in Hn |- *; intuition|].
  intros Q. specialize (Q 1 ltac:(vm_compute; tauto)). vm_compute in Q. intuition congruence.
Qed.
