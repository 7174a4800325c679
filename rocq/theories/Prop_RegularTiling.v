(** Properties C09 and C10 (strengthened): the elements of Quad4::Regular and of Tri3::Regular tile the
    rectangle without gaps, overlaps or hanging nodes. *)
From Coq Require Import Reals ZArith Lra.
From Verif Require Import Base Spec Spec2d Spec_Tiling Model_Numbering Model_Regular2d Proof_Regular2d Proof_RegularTiling.

(** C09: the elements of Quad4::Regular are convex, cover the domain, do not overlap, and there are no hanging nodes *)
Theorem C09_conforming_tiling : forall m, (0 < hh m)%R -> 1 <= nelx m -> 1 <= nely m ->
  tiles (coor m) (conn m) (hh m * INR (nelx m)) (hh m * INR (nely m)).
Proof. exact Regular_tiles. Qed.
Print Assumptions C09_conforming_tiling.
Example C09_conforming_ex : (0 < hh (mkRegular 3 2 (1/2)))%R /\ 1 <= nelx (mkRegular 3 2 (1/2)) /\ 1 <= nely (mkRegular 3 2 (1/2)).
Proof. simpl. repeat split; try lia; lra. Qed.

(** C10: the same for the triangles of Tri3::Regular *)
Theorem C10_conforming_tiling : forall m, (0 < hh m)%R -> 1 <= nelx m -> 1 <= nely m ->
  tri_tiles (tri_coor m) (tri_conn m) (hh m * INR (nelx m)) (hh m * INR (nely m)).
Proof. exact Tri3_tiles. Qed.
Print Assumptions C10_conforming_tiling.
Example C10_conforming_ex : tri_conn (mkRegular 2 1 1) = [[0;1;3]; [1;4;3]; [1;2;4]; [2;5;4]].
Proof. reflexivity. Qed.
