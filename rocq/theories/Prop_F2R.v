(** Property C30: Quad4::Map::FineLayer2Regular. *)
From Coq Require Import Reals ZArith Lra.
From Verif Require Import Base Spec Spec2d Spec_Tiling Spec_Map Model_Numbering Model_Regular2d Model_FineLayer Model_Map Proof_F2RThm.

(** C30: the constructor succeeds on every FineLayer mesh; the regular mesh has the size of its finest elements *)
Theorem C30_constructor : forall nelx nely nfine h m, 1 <= nelx -> 1 <= nely -> FineLayer_init nelx nely h nfine = Some (Ok m) ->
  exists fr, FineLayer2Regular_init m = Ok fr /\ fr_finelayer fr = m /\ fr_regular fr = mkRegular (f_nelx m) (f_nely m) (f_h m).
Proof. exact U_init. Qed.
Print Assumptions C30_constructor.

(** C30: a list of cells and one of fractions per element; no cell is listed twice; a fraction is 1 or 1/2 *)
Theorem C30_lists : forall nelx nely nfine h m fr, 1 <= nelx -> 1 <= nely -> FineLayer_init nelx nely h nfine = Some (Ok m) ->
  FineLayer2Regular_init m = Ok fr ->
  length (fr_map fr) = f_nelem m /\ length (fr_fraction fr) = f_nelem m /\
  forall e ids fs, nth_error (fr_map fr) e = Some ids -> nth_error (fr_fraction fr) e = Some fs ->
  length fs = length ids /\ NoDup ids /\ (forall c, In c ids -> c < nelem (fr_regular fr)) /\ (forall f, In f fs -> f = 1%R \/ f = (/ 2)%R).
Proof. exact U_lists. Qed.
Print Assumptions C30_lists.

(** C30: the fraction is the part of the cell that is in the element: all of it (1), the half on one side of a diagonal (1/2), nothing (not listed) *)
Theorem C30_overlap : forall nelx nely nfine h m fr, 1 <= nelx -> 1 <= nely -> FineLayer_init nelx nely h nfine = Some (Ok m) ->
  FineLayer2Regular_init m = Ok fr -> (0 < h)%R ->
  forall X C e El ids fs c K, f_coor m = Ok X -> f_conn m = Ok C ->
  nth_error C e = Some El -> nth_error (fr_map fr) e = Some ids -> nth_error (fr_fraction fr) e = Some fs ->
  nth_error (conn (fr_regular fr)) c = Some K ->
  (forall k, nth_error ids k = Some c -> nth_error fs k = Some 1%R -> covered_fully X El (coor (fr_regular fr)) K) /\
  (forall k, nth_error ids k = Some c -> nth_error fs k = Some (/ 2)%R -> covered_half X El (coor (fr_regular fr)) K) /\
  (~ In c ids -> covered_not X El (coor (fr_regular fr)) K).
Proof. exact U_geometry. Qed.
Print Assumptions C30_overlap.

(** C30: the fractions of every cell of the regular mesh sum to 1 *)
Theorem C30_cells : forall nelx nely nfine h m fr, 1 <= nelx -> 1 <= nely -> FineLayer_init nelx nely h nfine = Some (Ok m) ->
  FineLayer2Regular_init m = Ok fr -> forall c, c < nelem (fr_regular fr) ->
  sumR (map (fun e => share (nth e (fr_map fr) []) (nth e (fr_fraction fr) []) c) (seq 0 (f_nelem m))) = 1%R.
Proof. exact U_cells. Qed.
Print Assumptions C30_cells.

(** C30: the fractions of every element sum to its area, in cells *)
Theorem C30_area : forall nelx nely nfine h m fr, 1 <= nelx -> 1 <= nely -> FineLayer_init nelx nely h nfine = Some (Ok m) ->
  FineLayer2Regular_init m = Ok fr -> forall X C e fs, f_coor m = Ok X -> f_conn m = Ok C ->
  nth_error (fr_fraction fr) e = Some fs -> (sumR fs * (h * h) = element_area X (nth e C []))%R.
Proof. exact U_area. Qed.
Print Assumptions C30_area.

(** C30: mapToRegular is the weighted sum; it conserves the integral, and stays between the extremes of the data (so a constant is mapped to that constant) *)
Theorem C30_mapToRegular : forall nelx nely nfine h m fr, 1 <= nelx -> 1 <= nely -> FineLayer_init nelx nely h nfine = Some (Ok m) ->
  FineLayer2Regular_init m = Ok fr -> forall d data, shape2 data (f_nelem m) d ->
  exists D, mapToRegular d fr data = Ok D /\ shape2 D (nelem (fr_regular fr)) d /\
  (forall c k, c < nelem (fr_regular fr) -> k < d ->
    comp D c k = sumR (map (fun e => share (nth e (fr_map fr) []) (nth e (fr_fraction fr) []) c * comp data e k)%R (seq 0 (f_nelem m)))) /\
  (forall X C k, f_coor m = Ok X -> f_conn m = Ok C -> k < d ->
    (h * h * total_all D k)%R = sumR (map (fun e => element_area X (nth e C []) * comp data e k)%R (seq 0 (f_nelem m)))) /\
  (forall k lo up, k < d -> (forall e, e < f_nelem m -> (lo <= comp data e k <= up)%R) ->
    forall c, c < nelem (fr_regular fr) -> (lo <= comp D c k <= up)%R).
Proof. exact U_mapToRegular. Qed.
Print Assumptions C30_mapToRegular.

(** a mesh with a refinement layer at the bottom and one at the top: elements of three, two and one cells *)
Example C30_ex : forall h, match FineLayer_init 3 9 h 1 with
  | Some (Ok m) => f_nelem m = 23 /\ match FineLayer2Regular_init m with
    | Ok fr => nelem (fr_regular fr) = 27 /\ firstn 4 (fr_map fr) = [[0; 1; 2]; [2; 5]; [4]; [0; 3]] /\ skipn 19 (fr_map fr) = [[21; 24]; [22]; [23; 26]; [24; 25; 26]] /\
        firstn 4 (fr_fraction fr) = [[/ 2; 1; / 2]; [/ 2; 1]; [1]; [/ 2; 1]]%R
    | _ => False end
  | _ => False end.
Proof. intros h. vm_compute. repeat split. Qed.
