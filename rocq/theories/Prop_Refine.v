(** Properties C28 and C29: Quad4::Map::RefineRegular. *)
From Coq Require Import Reals ZArith Lra Permutation Sorting.Sorted.
From Verif Require Import Base Spec Spec2d Spec_Tiling Spec_FineLayer Spec_Map Model_Numbering Model_Regular2d Model_FineLayer Model_Map Proof_Refine.

(** C28: the constructor succeeds; the map has a row per coarse element, and every fine element is in one row, once *)
Theorem C28_map : forall m nx ny, 1 <= nx -> 1 <= ny -> exists r, RefineRegular_init m nx ny = Ok r /\
  rr_coarse r = m /\ nelx (rr_fine r) = nx * nelx m /\ nely (rr_fine r) = ny * nely m /\
  shape2 (rr_map r) (nelem m) (nx * ny) /\
  Permutation (concat (rr_map r)) (seq 0 (nelem (rr_fine r))) /\
  (forall row, In row (rr_map r) -> StronglySorted lt row).
Proof. exact T_map. Qed.
Print Assumptions C28_map.

(** C28: the row of a coarse element lists the fine elements in its cell (scaled by nx, ny: see C29) *)
Theorem C28_rows : forall m nx ny r ec row Ec x0 x1 y0 y1 ef Ef, 1 <= nx -> 1 <= ny -> (0 < hh m)%R ->
  RefineRegular_init m nx ny = Ok r ->
  nth_error (rr_map r) ec = Some row -> nth_error (conn m) ec = Some Ec -> quad (coor m) Ec x0 y0 x1 y0 x1 y1 x0 y1 ->
  nth_error (conn (rr_fine r)) ef = Some Ef ->
  (In ef row <-> element_within (coor (rr_fine r)) Ef (INR nx * x0) (INR nx * x1) (INR ny * y0) (INR ny * y1)).
Proof. exact T_rows. Qed.
Print Assumptions C28_rows.
Example C28_rows_ex : match RefineRegular_init (mkRegular 2 2 1) 3 2 with
  | Ok r => rr_map r = [[0;1;2;6;7;8]; [3;4;5;9;10;11]; [12;13;14;18;19;20]; [15;16;17;21;22;23]]
  | _ => False end.
Proof. vm_compute. reflexivity. Qed.

(** C28: mapToFine gives every fine element the data of its coarse element *)
Theorem C28_mapToFine : forall m nx ny r d (data : list (list R)), 1 <= nx -> 1 <= ny -> RefineRegular_init m nx ny = Ok r ->
  shape2 data (nelem m) d -> exists F, mapToFine r data = Ok F /\ shape2 F (nelem (rr_fine r)) d /\
  forall ec row ef, nth_error (rr_map r) ec = Some row -> In ef row -> nth_error F ef = nth_error data ec.
Proof. exact T_mapToFine. Qed.
Print Assumptions C28_mapToFine.

(** C28: meanToCoarse is the mean over the row, undoes mapToFine, and conserves the total *)
Theorem C28_meanToCoarse : forall m nx ny r d (F : list (list R)), 1 <= nx -> 1 <= ny -> RefineRegular_init m nx ny = Ok r ->
  shape2 F (nelem (rr_fine r)) d -> exists M, meanToCoarse d r F = Ok M /\ shape2 M (nelem m) d /\
  (forall ec row c, nth_error (rr_map r) ec = Some row -> c < d -> comp M ec c = (total_over row F c / INR (nx * ny))%R) /\
  (forall c, c < d -> (total_all M c * INR (nx * ny) = total_all F c)%R).
Proof. exact T_mean. Qed.
Print Assumptions C28_meanToCoarse.
Theorem C28_roundtrip : forall m nx ny r d (data F : list (list R)), 1 <= nx -> 1 <= ny -> RefineRegular_init m nx ny = Ok r ->
  shape2 data (nelem m) d -> mapToFine r data = Ok F -> meanToCoarse d r F = Ok data.
Proof. exact T_roundtrip. Qed.
Print Assumptions C28_roundtrip.

(** C28: averageToCoarse is the weighted mean: it is between the extremes for positive weights, and equals the mean for equal weights *)
Theorem C28_averageToCoarse : forall m nx ny r d (F Wt : list (list R)), 1 <= nx -> 1 <= ny -> RefineRegular_init m nx ny = Ok r ->
  shape2 F (nelem (rr_fine r)) d -> shape2 Wt (nelem (rr_fine r)) d ->
  exists A, averageToCoarse d r F Wt = Ok A /\ shape2 A (nelem m) d /\
  (forall ec row c, nth_error (rr_map r) ec = Some row -> c < d -> total_over row Wt c <> 0%R ->
     (comp A ec c * total_over row Wt c = sumR (map (fun e => comp F e c * comp Wt e c) row))%R) /\
  (forall ec row c lo up, nth_error (rr_map r) ec = Some row -> c < d -> (forall e, In e row -> 0 < comp Wt e c)%R ->
     (forall e, In e row -> lo <= comp F e c <= up)%R -> (lo <= comp A ec c <= up)%R) /\
  (forall w, w <> 0%R -> (forall e c, comp Wt e c = w \/ nelem (rr_fine r) <= e \/ d <= c) -> meanToCoarse d r F = Ok A).
Proof. exact T_average. Qed.
Print Assumptions C28_averageToCoarse.
Example C28_data_ex : exists r, RefineRegular_init (mkRegular 1 1 1) 2 1 = Ok r /\ shape2 [[1]; [3]]%R (nelem (rr_fine r)) 1 /\
  meanToCoarse 1 r [[1]; [3]]%R = Ok [[2]]%R.
Proof.
  eexists. split; [reflexivity|]. split; [split; [reflexivity|]; intros x Hx; cbn in Hx; destruct Hx as [<-|[<-|[]]]; reflexivity|].
  cbn. repeat f_equal. lra.
Qed.

(** C29, the full claim: the fine mesh covers the domain of the coarse mesh.  It is false unless nx = ny = 1: the
    element size of the coarse mesh is used for the fine mesh *)
Theorem C29_same_domain_refuted : exists m nx ny r, (0 < hh m)%R /\ 1 <= nelx m /\ 1 <= nely m /\ 1 <= nx /\ 1 <= ny /\
  RefineRegular_init m nx ny = Ok r /\
  ~ tiles (coor (rr_fine r)) (conn (rr_fine r)) (hh m * INR (nelx m)) (hh m * INR (nely m)).
Proof. exact T_refuted. Qed.
Print Assumptions C29_same_domain_refuted.
Theorem C29_only_trivial : forall m nx ny r, 1 <= nx -> 1 <= ny -> (0 < hh m)%R -> 1 <= nelx m -> 1 <= nely m ->
  RefineRegular_init m nx ny = Ok r ->
  (tiles (coor (rr_fine r)) (conn (rr_fine r)) (hh m * INR (nelx m)) (hh m * INR (nely m)) <-> nx = 1 /\ ny = 1).
Proof. exact T_trivial. Qed.
Print Assumptions C29_only_trivial.

(** C29, what holds: the fine mesh tiles the domain scaled by nx and ny *)
Theorem C29_scaled_partial : forall m nx ny r, 1 <= nx -> 1 <= ny -> (0 < hh m)%R -> 1 <= nelx m -> 1 <= nely m ->
  RefineRegular_init m nx ny = Ok r ->
  tiles (coor (rr_fine r)) (conn (rr_fine r)) (INR nx * (hh m * INR (nelx m))) (INR ny * (hh m * INR (nely m))).
Proof. exact T_scaled. Qed.
Print Assumptions C29_scaled_partial.
Example C29_ex : exists r, RefineRegular_init (mkRegular 2 1 1) 2 3 = Ok r /\ nelem (rr_fine r) = 12.
Proof. eexists. split; reflexivity. Qed.
