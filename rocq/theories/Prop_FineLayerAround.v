(** Properties C76, C77: Quad4::FineLayer, selections around an element of the middle layer. *)
From Coq Require Import Reals ZArith Lra Sorted.
From Verif Require Import Base Spec Spec2d Spec_Tiling Spec_FineLayer Model_Numbering Model_Regular2d Model_FineLayer Proof_FineLayer Proof_FineLayerThm Proof_FineLayerGrid Proof_FineLayerAround.

(** C76: [elementgrid_leftright].  [M]: the elements of the middle layer from left to right, [e] the one
    at position [i].  The selection is the element, preceded by the [left] elements before it and followed
    by the [right] elements after it, periodically - as long as this stays within the mesh once it is
    rolled such that [e] is at position [mid] (in the block in the middle of the mesh): beyond that
    the selection is cut off.  More than one layer is needed. *)
Theorem C76_leftright_partial : forall nelx nely nfine h m, 1 <= nelx -> 1 <= nely ->
  FineLayer_init nelx nely h nfine = Some (Ok m) ->
  1 < f_layers m -> exists M n0, elementsMiddleLayer m = Ok M /\ nth_error (f_layer_nelx m) 0 = Some n0 /\ 1 <= n0 /\
  forall i e left right, nth_error M i = Some e ->
  let c0 := nelx / n0 in
  let mid := n0 / 2 * c0 + i mod c0 in
  exists ret, elementgrid_leftright m e left right true = Ok ret /\
    length ret = Nat.min left mid + 1 + Nat.min right (nelx - 1 - mid) /\
    forall k e', nth_error ret k = Some e' -> nth_error M ((i + nelx + k - Nat.min left mid) mod nelx) = Some e'.
Proof. exact T_leftright. Qed.
Print Assumptions C76_leftright_partial.
Example C76_ex : forall h, match FineLayer_init 9 17 h 1 with Some (Ok m) =>
  elementsMiddleLayer m = Ok [36; 37; 38; 39; 40; 41; 42; 43; 44] /\ f_layers m = 11 /\
  elementgrid_leftright m 37 3 4 true = Ok [43; 44; 36; 37; 38; 39; 40; 41] | _ => False end.
Proof. intros h. vm_compute. repeat split. Qed.

(** the full claim, the [left] and [right] neighbours of [e] in the middle layer, does not hold:
    one neighbour to the left of an element is not found in a mesh of one coarse block *)
Theorem C76_truncated_refuted : forall h, exists m, FineLayer_init 3 9 h 1 = Some (Ok m) /\
  elementsMiddleLayer m = Ok [10; 11; 12] /\ elementgrid_leftright m 10 1 0 true = Ok [10].
Proof.
  intros h. destruct (FineLayer_init 3 9 h 1) as [[m| | | ]|] eqn:Q; vm_compute in Q; try discriminate Q.
  exists m. split; [reflexivity|]. injection Q as <-. vm_compute. split; reflexivity.
Qed.
Print Assumptions C76_truncated_refuted.
(** and a mesh of one layer leads to a read outside of an array *)
Theorem C76_one_layer_refuted : forall h e left right, exists m, FineLayer_init 3 1 h 1 = Some (Ok m) /\
  elementsMiddleLayer m = Ok [0; 1; 2] /\ elementgrid_leftright m e left right true = Oob.
Proof.
  intros h e left right. destruct (FineLayer_init 3 1 h 1) as [[m| | | ]|] eqn:Q; vm_compute in Q; try discriminate Q.
  exists m. split; [reflexivity|]. injection Q as <-. split; [reflexivity|]. unfold elementgrid_leftright, argmin_le, argmax. cbn. reflexivity.
Qed.
Print Assumptions C76_one_layer_refuted.

(** C77: [elementgrid_around_ravel]: the full mesh if the box is as high as the mesh *)
Theorem C77_around_all : forall nelx nely nfine h m, 1 <= nelx -> 1 <= nely ->
  FineLayer_init nelx nely h nfine = Some (Ok m) ->
  1 < f_layers m -> exists M, elementsMiddleLayer m = Ok M /\
  forall e size, In e M -> f_nely m <= 2 * size -> elementgrid_around_ravel m e size true = Ok (seq 0 (f_nelem m)).
Proof. exact T_around_all. Qed.
Print Assumptions C77_around_all.

(** C77: [elementgrid_around_ravel].  The selection has no duplicates, and it has exactly the elements that are,
    periodically, in a box around element [e] (column [i], row [row]): the box spans whole layers, the
    smallest number that contains [size] rows below and above that of [e], and [a] columns to the left and [b]
    columns to the right of the left side of [e].  [a] is at least [size], [b] too (one less than the box that is asked for needs),
    both rounded by less than or up to the width [dx] of the blocks of the outer layer, and both cut off by the sides of the mesh once
    it is rolled such that [e] is in the block in the middle. *)
Theorem C77_around_partial : forall nelx nely nfine h m, 1 <= nelx -> 1 <= nely ->
  FineLayer_init nelx nely h nfine = Some (Ok m) ->
  (0 < h)%R -> 1 < f_layers m -> exists X C M n0, f_coor m = Ok X /\ f_conn m = Ok C /\ elementsMiddleLayer m = Ok M /\
  nth_error (f_layer_nelx m) 0 = Some n0 /\ 1 <= n0 /\
  forall i e size, nth_error M i = Some e -> 2 * size < f_nely m ->
  let c0 := nelx / n0 in
  let mid := n0 / 2 * c0 + i mod c0 in
  let row := (f_nely m - 1) / 2 in
  exists ret yl yu dx a b, elementgrid_around_ravel m e size true = Ok ret /\ NoDup ret /\ (forall e1, In e1 ret -> e1 < f_nelem m) /\
    nth_error (f_nhx m) yu = Some dx /\ (dx <= size \/ dx = 1) /\
    total (firstn yl (f_nhy m)) <= row - size < total (firstn (yl + 1) (f_nhy m)) /\
    total (firstn yu (f_nhy m)) < row + 1 + size <= total (firstn (yu + 1) (f_nhy m)) /\
    (size <= a < size + dx \/ a = mid /\ mid < size) /\
    (size <= b <= size + dx \/ b = nelx - mid /\ nelx - mid <= size) /\ 1 <= b /\ a + b <= nelx /\
    forall e1 E1, nth_error C e1 = Some E1 ->
      (In e1 ret <-> exists z : Z, element_within X E1 (h * (INR i - INR a) + IZR z * (h * INR nelx)) (h * (INR i + INR b) + IZR z * (h * INR nelx))
          (h * INR (total (firstn yl (f_nhy m)))) (h * INR (total (firstn (yu + 1) (f_nhy m))))).
Proof. exact T_around. Qed.
Print Assumptions C77_around_partial.

(** the full claim, all elements in the box of [size] fine elements around [e], does not hold: [size = 3]
    around the first element of the middle layer of the mesh below does not contain its third neighbour to the right,
    although the mesh is wide enough (and although it does contain the third neighbour to the left) *)
Theorem C77_box_refuted : forall h, exists m ret, FineLayer_init 9 17 h 1 = Some (Ok m) /\
  elementsMiddleLayer m = Ok [36; 37; 38; 39; 40; 41; 42; 43; 44] /\ elementgrid_around_ravel m 36 3 true = Ok ret /\
  In 42 ret /\ ~ In 39 ret.
Proof.
  intros h. destruct (FineLayer_init 9 17 h 1) as [[m| | | ]|] eqn:Q; vm_compute in Q; try discriminate Q.
  injection Q as <-. eexists _, _. split; [reflexivity|]. split; [vm_compute; reflexivity|]. split; [vm_compute; reflexivity|].
  split; [|intros H]; vm_compute in *; intuition discriminate.
Qed.
Print Assumptions C77_box_refuted.
Example C77_ex : forall h, match FineLayer_init 9 17 h 1 with Some (Ok m) =>
  elementgrid_around_ravel m 37 1 true = Ok [27; 28; 29; 36; 37; 38; 45; 46; 47] /\
  f_layers m = 11 /\ f_nely m = 21 | _ => False end.
Proof. intros h. vm_compute. repeat split. Qed.
