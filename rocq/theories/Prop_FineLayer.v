(** Properties C16-C22: Quad4::FineLayer. *)
From Coq Require Import Reals ZArith Lra.
From Verif Require Import Base Spec Spec2d Spec_Tiling Spec_FineLayer Model_Numbering Model_Regular2d Model_FineLayer Proof_FineLayer Proof_FineLayerThm.

(** a mesh with refinement layers that meets all hypotheses below *)
Example FineLayer_ex : forall h, match FineLayer_init 9 17 h 1 with Some (Ok m) =>
  f_nhx m = [3; 3; 3; 1; 1; 1; 1; 1; 3; 3; 3] /\ f_nhy m = [3; 3; 2; 1; 1; 1; 1; 1; 2; 3; 3] /\
  f_layer_nelx m = [3; 3; 3; 9; 9; 9; 9; 9; 3; 3; 3] /\ f_refine m = [-1; -1; 0; -1; -1; -1; -1; -1; 0; -1; -1]%Z /\
  f_nelem m = 81 /\ f_nnode m = 96 | _ => False end.
Proof. intros h. vm_compute. repeat split. Qed.

(** C16: the constructor terminates, and reads and writes no entry outside its arrays *)
Theorem C16_terminates : forall nelx nely h nfine, 1 <= nelx -> 1 <= nely ->
  exists m, FineLayer_init nelx nely h nfine = Some (Ok m).
Proof. exact T_terminates. Qed.
Print Assumptions C16_terminates.

(** C16: the layers *)
Theorem C16_layers : forall nelx nely nfine h m, 1 <= nelx -> 1 <= nely ->
  FineLayer_init nelx nely h nfine = Some (Ok m) ->
  f_h m = h /\ f_nelx m = nelx /\
  (exists c, layer_structure nelx nely nfine c (f_nhx m) (f_nhy m) (f_layer_nelx m) (f_refine m)) /\
  f_nely m = total (f_nhy m) /\ nely <= f_nely m + 1 /\ (Nat.Odd nely -> nely <= f_nely m) /\
  ((forall t, In t (f_refine m) -> t = (-1)%Z) -> f_nely m = (nely + 1) / 2 * 2 - 1).
Proof. exact T_structure. Qed.
Print Assumptions C16_layers.
(** without room to coarsen the height is the requested (odd) height; an even height is reduced *)
Example C16_ex : forall h, match FineLayer_init 2 4 h 1 with Some (Ok m) => f_nely m = 3 /\ f_nhx m = [1; 1; 1] | _ => False end.
Proof. intros h. vm_compute. repeat split. Qed.
(** several levels of refinement *)
Example C16_ex2 : forall h, match FineLayer_init 27 51 h 1 with Some (Ok m) =>
  skipn 7 (f_nhx m) = [1; 1; 1; 3; 3; 3; 9; 9] /\ skipn 7 (f_nhy m) = [1; 1; 1; 2; 3; 3; 6; 9] | _ => False end.
Proof. intros h. vm_compute. repeat split. Qed.

(** C17: [coor] and [conn] fill their arrays, [conn] is in range, and every node is used *)
Theorem C17_mesh : forall nelx nely nfine h m, 1 <= nelx -> 1 <= nely ->
  FineLayer_init nelx nely h nfine = Some (Ok m) ->
  exists X C, f_coor m = Ok X /\ f_conn m = Ok C /\ shape2 X (f_nnode m) 2 /\ shape2 C (f_nelem m) 4 /\
    (forall e p, In e C -> In p e -> p < f_nnode m) /\ (forall p, p < f_nnode m -> exists e, In e C /\ In p e).
Proof. exact T_mesh. Qed.
Print Assumptions C17_mesh.
Example C17_ex : forall h, match FineLayer_init 3 9 h 1 with Some (Ok m) => f_nhy m = [2; 1; 1; 1; 1; 1; 2] /\
  match f_conn m with
  | Ok C => firstn 5 C = [[0; 1; 3; 2]; [1; 7; 6; 3]; [2; 3; 6; 5]; [0; 2; 5; 4]; [4; 5; 9; 8]]
  | _ => False end | _ => False end.
Proof. intros h. vm_compute. repeat split. Qed.

(** C18: the elements tile the domain, without hanging nodes *)
Theorem C18_tiles : forall nelx nely nfine h m, 1 <= nelx -> 1 <= nely ->
  FineLayer_init nelx nely h nfine = Some (Ok m) -> (0 < h)%R ->
  exists X C, f_coor m = Ok X /\ f_conn m = Ok C /\
    tiles X C (h * INR nelx) (h * INR (f_nely m)) /\ in_domain X (h * INR nelx) (h * INR (f_nely m)) /\
    sumR (map (element_area X) C) = ((h * INR nelx) * (h * INR (f_nely m)))%R.
Proof. exact T_geometry. Qed.
Print Assumptions C18_tiles.

(** C19: boundary node sets *)
Theorem C19_boundary : forall nelx nely nfine h m, 1 <= nelx -> 1 <= nely ->
  FineLayer_init nelx nely h nfine = Some (Ok m) -> (0 < h)%R ->
  exists X bot top lft rgt obot otop olft orgt bl br tl tr, f_coor m = Ok X /\
    f_nodesBottomEdge m = Ok bot /\ f_nodesTopEdge m = Ok top /\ f_nodesLeftEdge m = Ok lft /\ f_nodesRightEdge m = Ok rgt /\
    f_nodesBottomOpenEdge m = Ok obot /\ f_nodesTopOpenEdge m = Ok otop /\
    f_nodesLeftOpenEdge m = Ok olft /\ f_nodesRightOpenEdge m = Ok orgt /\
    f_nodesBottomLeftCorner m = Ok bl /\ f_nodesBottomRightCorner m = Ok br /\
    f_nodesTopLeftCorner m = Ok tl /\ f_nodesTopRightCorner m = Ok tr /\
    boundary_sets X (h * INR nelx) (h * INR (f_nely m)) bot top lft rgt obot otop olft orgt bl br tl tr.
Proof. exact T_boundary. Qed.
Print Assumptions C19_boundary.
Example C19_ex : forall h, match FineLayer_init 3 9 h 1 with Some (Ok m) =>
  f_nodesRightEdge m = Ok [1; 7; 11; 15; 19; 23; 27; 31] /\ f_nodesLeftOpenEdge m = Ok [4; 8; 12; 16; 20; 24] | _ => False end.
Proof. intros h. vm_compute. repeat split. Qed.

(** C20: periodic node pairs and degrees of freedom *)
Theorem C20_periodic : forall nelx nely nfine h m, 1 <= nelx -> 1 <= nely ->
  FineLayer_init nelx nely h nfine = Some (Ok m) -> (0 < h)%R ->
  exists X ties D n0, f_coor m = Ok X /\ f_nodesPeriodic m = Ok ties /\ f_dofsPeriodic m = Ok D /\
    nth_error (f_layer_nelx m) 0 = Some n0 /\
    periodic_ties X (h * INR nelx) (h * INR (f_nely m)) ties /\
    periodic_dofs X (h * INR nelx) (h * INR (f_nely m)) 2 D ((f_nnode m - (n0 + length (f_nhy m) + 1)) * 2).
Proof. exact T_periodic. Qed.
Print Assumptions C20_periodic.
Example C20_ex : forall h, match FineLayer_init 3 9 h 1 with Some (Ok m) =>
  f_nodesPeriodic m = Ok [(0, 1); (0, 31); (0, 30); (4, 7); (8, 11); (12, 15); (16, 19); (20, 23); (24, 27)] | _ => False end.
Proof. intros h. vm_compute. repeat split. Qed.

(** C21: elements per layer *)
Theorem C21_layers : forall nelx nely nfine h m, 1 <= nelx -> 1 <= nely ->
  FineLayer_init nelx nely h nfine = Some (Ok m) -> (0 < h)%R ->
  exists X C l, f_coor m = Ok X /\ f_conn m = Ok C /\
    mapM (elementsLayer m) (seq 0 (f_layers m)) = Ok l /\ concat l = seq 0 (f_nelem m) /\
    (forall i li, nth_error l i = Some li -> exists x u k t,
       layer_is (f_nhx m) (f_nhy m) (f_layer_nelx m) (f_refine m) i x u k t /\
       length li = (if (t =? -1)%Z then k else 4 * k) /\
       forall e E, In e li -> nth_error C e = Some E ->
         element_within X E 0 (h * INR nelx) (h * INR (total (firstn i (f_nhy m)))) (h * INR (total (firstn (i + 1) (f_nhy m))))).
Proof. exact T_layers. Qed.
Print Assumptions C21_layers.

(** C21: the middle layer: [nelx] fine squares, from left to right, at the middle height *)
Theorem C21_middle : forall nelx nely nfine h m, 1 <= nelx -> 1 <= nely ->
  FineLayer_init nelx nely h nfine = Some (Ok m) ->
  exists X C l, f_coor m = Ok X /\ f_conn m = Ok C /\ elementsMiddleLayer m = Ok l /\ length l = nelx /\
    (forall i e, nth_error l i = Some e -> exists E, nth_error C e = Some E /\
       let x := INR i in let y := INR ((f_nely m - 1) / 2) in
       quad X E (h * x) (h * y) (h * (x + 1)) (h * y) (h * (x + 1)) (h * (y + 1)) (h * x) (h * (y + 1))).
Proof. exact T_middle. Qed.
Print Assumptions C21_middle.
Example C21_ex : forall h, match FineLayer_init 3 9 h 1 with Some (Ok m) =>
  elementsLayer m 0 = Ok [0; 1; 2; 3] /\ elementsMiddleLayer m = Ok [10; 11; 12] | _ => False end.
Proof. intros h. vm_compute. repeat split. Qed.

(** C22: [roll] *)
Theorem C22_roll : forall nelx nely nfine h m, 1 <= nelx -> 1 <= nely ->
  FineLayer_init nelx nely h nfine = Some (Ok m) -> (0 < h)%R ->
  exists X C n0, f_coor m = Ok X /\ f_conn m = Ok C /\ nth_error (f_layer_nelx m) 0 = Some n0 /\
  (* a permutation; the element at position [e] is moved by [k] of the coarsest blocks, modulo the width *)
  (forall k, exists l, f_roll m k = Ok l /\ Permutation l (seq 0 (f_nelem m)) /\
     forall e, e < f_nelem m -> exists e' E E' z, nth_error l e = Some e' /\ nth_error C e = Some E /\ nth_error C e' = Some E' /\
       translated X E E' (INR k * (h * INR nelx / INR n0) - INR z * (h * INR nelx))%R) /\
  (* no roll, or all the way around *)
  (forall z, f_roll m (z * n0) = Ok (seq 0 (f_nelem m))) /\
  (* composition *)
  (forall a b la lb lc, f_roll m a = Ok la -> f_roll m b = Ok lb -> f_roll m (a + b) = Ok lc ->
     forall e e1, nth_error lb e = Some e1 -> nth_error lc e = nth_error la e1).
Proof. exact T_roll. Qed.
Print Assumptions C22_roll.
Example C22_ex : forall h, match FineLayer_init 6 9 h 1 with Some (Ok m) => f_layer_nelx m = [2; 6; 6; 6; 6; 6; 2] /\
  match f_roll m 1 with Ok l => firstn 14 l = [4; 5; 6; 7; 0; 1; 2; 3; 11; 12; 13; 8; 9; 10] | _ => False end | _ => False end.
Proof. intros h. vm_compute. repeat split. Qed.
