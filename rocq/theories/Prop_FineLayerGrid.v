(** Property C23: Quad4::FineLayer::elementgrid_ravel. *)
From Coq Require Import Reals ZArith Lra Sorted.
From Verif Require Import Base Spec Spec2d Spec_Tiling Spec_FineLayer Model_Numbering Model_Regular2d Model_FineLayer Proof_FineLayer Proof_FineLayerThm Proof_FineLayerGrid.

(** C23: the selection of rows [r0, r1) and columns [c0, c1), in units of the fine elements.
    [yl], [yu]: the layers that contain row [r0] and row [r1 - 1];
    [hx]: the coarsest of these two layers, to which the columns are rounded down.
    An element is selected iff it is in the box of whole layers and rounded columns. *)
Theorem C23_ravel : forall nelx nely nfine h m, 1 <= nelx -> 1 <= nely ->
  FineLayer_init nelx nely h nfine = Some (Ok m) -> (0 < h)%R ->
  exists X C, f_coor m = Ok X /\ f_conn m = Ok C /\
  forall r0 r1 c0 c1, r0 < r1 <= f_nely m -> c0 < c1 <= nelx ->
  exists ret yl yu wl wu, elementgrid_ravel m (Some (r0, r1)) (Some (c0, c1)) = Ok ret /\
    nth_error (f_nhx m) yl = Some wl /\ nth_error (f_nhx m) yu = Some wu /\
    total (firstn yl (f_nhy m)) <= r0 < total (firstn (yl + 1) (f_nhy m)) /\
    total (firstn yu (f_nhy m)) < r1 <= total (firstn (yu + 1) (f_nhy m)) /\
    StronglySorted lt ret /\ (forall e, In e ret -> e < f_nelem m) /\
    let hx := Nat.max wl wu in
    forall e Ee, nth_error C e = Some Ee ->
      (In e ret <-> element_within X Ee (h * INR (c0 / hx * hx)) (h * INR (c1 / hx * hx))
                      (h * INR (total (firstn yl (f_nhy m)))) (h * INR (total (firstn (yu + 1) (f_nhy m))))).
Proof. exact T_ravel. Qed.
Print Assumptions C23_ravel.

(** C23: an empty range of rows or of columns selects nothing *)
Theorem C23_ravel_empty : forall nelx nely nfine h m, 1 <= nelx -> 1 <= nely ->
  FineLayer_init nelx nely h nfine = Some (Ok m) ->
  forall r c, (exists a, r = Some (a, a)) \/ (exists a, c = Some (a, a)) -> elementgrid_ravel m r c = Ok [].
Proof. intros nelx nely nfine h m _ _ _. exact (T_ravel_empty m). Qed.
Print Assumptions C23_ravel_empty.

(** C23: omitted ranges are the full ranges, and these select all elements in order *)
Theorem C23_ravel_all : forall nelx nely nfine h m, 1 <= nelx -> 1 <= nely ->
  FineLayer_init nelx nely h nfine = Some (Ok m) ->
  elementgrid_ravel m None None = Ok (seq 0 (f_nelem m)) /\
  (forall r, elementgrid_ravel m r None = elementgrid_ravel m r (Some (0, nelx))) /\
  (forall c, elementgrid_ravel m None c = elementgrid_ravel m (Some (0, f_nely m)) c).
Proof. exact T_ravel_all. Qed.
Print Assumptions C23_ravel_all.

Example C23_ex : forall h, match FineLayer_init 6 9 h 1 with Some (Ok m) =>
  f_nhy m = [2; 1; 1; 1; 1; 1; 2] /\ f_nhx m = [3; 1; 1; 1; 1; 1; 3] /\
  elementgrid_ravel m (Some (1, 3)) (Some (4, 6)) = Ok [4; 5; 6; 7; 11; 12; 13] /\
  elementgrid_ravel m (Some (2, 4)) (Some (1, 3)) = Ok [9; 10; 15; 16] | _ => False end.
Proof. intros h. vm_compute. repeat split. Qed.
