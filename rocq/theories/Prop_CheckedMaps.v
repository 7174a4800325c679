(** Property C115: meshes, selections of elements, mappings between meshes and as3d in the checked build (GOOSEFEM_ENABLE_ASSERT): what they
    return for a correct call, and which incorrect calls they reject. *)
From Coq Require Import Reals ZArith Lra Sorted.
From Verif Require Import Base Spec Spec2d Spec_Tiling Spec_FineLayer Spec_Map Model_Numbering Model_Misc Model_Regular2d Model_Hex8Regular Model_FineLayer Model_Hex8FineLayer
  Model_Map Model_Checked Model_CheckedMaps Spec_CheckedMaps Proof_FineLayer Proof_FineLayerThm Proof_FineLayerGrid Proof_CheckedMaps.

(** the constructors: with at least one element in each direction the mesh of the other properties, in both builds; otherwise the checked build
    throws *)
Theorem C115_Regular : forall nelx nely h,
  (1 <= nelx -> 1 <= nely -> forall ck, Regular_checked ck nelx nely h = Ok (mkRegular nelx nely h)) /\
  (nelx = 0 \/ nely = 0 -> Regular_checked true nelx nely h = Throw).
Proof. exact P_regular. Qed.
Print Assumptions C115_Regular.
Theorem C115_Hex8Regular : forall nelx nely nelz h,
  (1 <= nelx -> 1 <= nely -> 1 <= nelz -> forall ck, HexRegular_checked ck nelx nely nelz h = Ok (mkHexRegular nelx nely nelz h)) /\
  (nelx = 0 \/ nely = 0 \/ nelz = 0 -> HexRegular_checked true nelx nely nelz h = Throw).
Proof. exact P_hex. Qed.
Print Assumptions C115_Hex8Regular.
Theorem C115_FineLayer : forall nelx nely h nfine,
  (1 <= nelx -> 1 <= nely -> forall ck, FineLayer_checked ck nelx nely h nfine = FineLayer_init nelx nely h nfine) /\
  (nelx = 0 \/ nely = 0 -> FineLayer_checked true nelx nely h nfine = Some Throw).
Proof. exact P_fine. Qed.
Print Assumptions C115_FineLayer.
Theorem C115_Hex8FineLayer : forall nelx nely nelz h nfine,
  (1 <= nelx -> 1 <= nely -> 1 <= nelz -> forall ck, HexFineLayer_checked ck nelx nely nelz h nfine = HexFineLayer_init nelx nely nelz h nfine) /\
  (nelx = 0 \/ nely = 0 \/ nelz = 0 -> HexFineLayer_checked true nelx nely nelz h nfine = Some Throw).
Proof. exact P_hexfine. Qed.
Print Assumptions C115_Hex8FineLayer.
(** the constructor of RefineRegular needs elements in the coarse mesh and at least one fine element per direction *)
Theorem C115_RefineRegular : forall m nx ny,
  (1 <= nx -> 1 <= ny -> 1 <= nelx m -> 1 <= nely m -> exists r, (forall ck, RefineRegular_checked ck m nx ny = Ok r) /\ RefineRegular_init m nx ny = Ok r) /\
  (nx = 0 \/ ny = 0 \/ nelx m = 0 \/ nely m = 0 -> RefineRegular_checked true m nx ny = Throw).
Proof. exact P_refine. Qed.
Print Assumptions C115_RefineRegular.
Example C115_constructors_ex : forall h, (exists m, FineLayer_checked true 3 5 h 1 = Some (Ok m)) /\ FineLayer_checked true 3 0 h 1 = Some Throw /\
  Regular_checked true 0 2 h = Throw /\ HexRegular_checked true 1 1 0 h = Throw.
Proof. intros h. split; [eexists; reflexivity|]. repeat split. Qed.

(** [elementsLayer]: the elements of an existing layer (C16); a layer that does not exist is rejected, and without the assertions the call
    accesses memory out of bounds *)
Theorem C115_elementsLayer : forall m layer,
  (layer < length (f_layer_nelx m) -> forall ck, elementsLayer_checked ck m layer = elementsLayer m layer) /\
  (length (f_layer_nelx m) <= layer -> elementsLayer_checked true m layer = Throw /\ elementsLayer_checked false m layer = Oob).
Proof. exact P_layer. Qed.
Print Assumptions C115_elementsLayer.
Example C115_elementsLayer_ex : forall h, match FineLayer_init 3 5 h 1 with Some (Ok m) =>
  elementsLayer_checked true m 4 = Ok [12; 13; 14] /\ elementsLayer_checked true m 5 = Throw | _ => False end.
Proof. intros h. vm_compute. split; reflexivity. Qed.

(** [elementgrid_ravel], in both builds: the elements in the box of whole layers that contain the rows and of the columns rounded down, for
    increasing ranges; no elements for an empty range; the full range for an omitted one.  The checked build rejects everything that is not
    empty or two bounds, and bounds outside the mesh.  Missing from the full claim ("every accepted range selects the elements between its
    bounds"): reversed ranges, see C115_ravel_refuted. *)
Theorem C115_ravel_partial : forall nelx nely nfine h m, 1 <= nelx -> 1 <= nely ->
  FineLayer_init nelx nely h nfine = Some (Ok m) -> (0 < h)%R ->
  (exists X C, f_coor m = Ok X /\ f_conn m = Ok C /\
   forall r0 r1 c0 c1, r0 < r1 <= f_nely m -> c0 < c1 <= nelx ->
   exists ret yl yu wl wu, (forall ck, elementgrid_ravel_checked ck m [r0; r1] [c0; c1] = Ok ret) /\
    nth_error (f_nhx m) yl = Some wl /\ nth_error (f_nhx m) yu = Some wu /\
    total (firstn yl (f_nhy m)) <= r0 < total (firstn (yl + 1) (f_nhy m)) /\
    total (firstn yu (f_nhy m)) < r1 <= total (firstn (yu + 1) (f_nhy m)) /\
    StronglySorted lt ret /\
    let hx := Nat.max wl wu in
    forall e Ee, nth_error C e = Some Ee ->
      (In e ret <-> element_within X Ee (h * INR (c0 / hx * hx)) (h * INR (c1 / hx * hx))
                      (h * INR (total (firstn yl (f_nhy m)))) (h * INR (total (firstn (yu + 1) (f_nhy m)))))) /\
  (forall a rows cols, rows = [a; a] /\ a <= f_nely m /\ range_size cols /\ range_in nelx cols \/
                       cols = [a; a] /\ a <= nelx /\ range_size rows /\ range_in (f_nely m) rows ->
     forall ck, elementgrid_ravel_checked ck m rows cols = Ok []) /\
  (forall cols, range_size cols -> range_in nelx cols -> forall ck, elementgrid_ravel_checked ck m [] cols = elementgrid_ravel_checked ck m [0; f_nely m] cols) /\
  (forall rows, range_size rows -> range_in (f_nely m) rows -> forall ck, elementgrid_ravel_checked ck m rows [] = elementgrid_ravel_checked ck m rows [0; nelx]) /\
  (forall ck, elementgrid_ravel_checked ck m [] [] = Ok (seq 0 (f_nelem m))) /\
  (forall rows cols, ~ (range_size rows /\ range_size cols /\ range_in (f_nely m) rows /\ range_in nelx cols) ->
     elementgrid_ravel_checked true m rows cols = Throw).
Proof.
  intros nelx nely nfine h m Hx Hy E Hh. destruct (T_structure nelx nely nfine h m Hx Hy E) as (_ & EX & _).
  assert (R2 : forall a b : nat, range_size [a; b]) by (intros; right; eauto).
  assert (RI : forall n a b : nat, a <= n -> b <= n -> range_in n [a; b]) by (intros n a b Ha Hb x y Q; injection Q as <- <-; auto).
  assert (R0 : forall n, range_in n []) by (intros n a b Q; discriminate).
  assert (S0 : range_size []) by now left.
  destruct (T_ravel_all nelx nely nfine h m Hx Hy E) as (A1 & A2 & A3).
  assert (V : forall rows cols, range_size rows -> range_size cols -> range_in (f_nely m) rows -> range_in nelx cols -> forall ck, elementgrid_ravel_checked ck m rows cols = elementgrid_ravel m (start_stop rows) (start_stop cols)).
  { intros rows cols. rewrite <- EX. apply (proj1 (P_ravel m rows cols)). }
  split; [|split; [|split; [|split; [|split]]]].
  - destruct (T_ravel nelx nely nfine h m Hx Hy E Hh) as (X & C & EXX & EC & T). exists X, C. split; [exact EXX|]. split; [exact EC|].
    intros r0 r1 c0 c1 Hr Hc. destruct (T r0 r1 c0 c1 Hr Hc) as (ret & yl & yu & wl & wu & Q & N1 & N2 & B1 & B2 & St & _ & W). exists ret, yl, yu, wl, wu.
    split; [|do 5 (split; [assumption|]); exact W]. intros ck. rewrite V; [exact Q|apply R2|apply R2|apply RI; lia|apply RI; lia].
  - intros a rows cols H ck. rewrite V.
    + apply T_ravel_empty. destruct H as [(-> & _)|(-> & _)]; [left|right]; exists a; reflexivity.
    + destruct H as [(-> & _)|(_ & _ & H & _)]; [apply R2|exact H].
    + destruct H as [(_ & _ & H & _)|(-> & _)]; [exact H|apply R2].
    + destruct H as [(-> & H & _)|(_ & _ & _ & H)]; [now apply RI|exact H].
    + destruct H as [(_ & _ & _ & H)|(-> & H & _)]; [exact H|now apply RI].
  - intros cols S I ck. rewrite (V [] cols), (V [0; f_nely m] cols) by (auto; apply RI; lia). apply A3.
  - intros rows S I ck. rewrite (V rows []), (V rows [0; nelx]) by (auto; apply RI; lia). apply A2.
  - intros ck. rewrite V by auto. exact A1.
  - intros rows cols. rewrite <- EX. apply (proj2 (P_ravel m rows cols)).
Qed.
Print Assumptions C115_ravel_partial.
Example C115_ravel_ex : forall h, match FineLayer_init 6 9 h 1 with Some (Ok m) =>
  elementgrid_ravel_checked true m [1; 3] [4; 6] = Ok [4; 5; 6; 7; 11; 12; 13] /\ elementgrid_ravel_checked true m [2; 2] [] = Ok [] /\
  elementgrid_ravel_checked true m [1; 10] [4; 6] = Throw /\ elementgrid_ravel_checked true m [1] [4; 6] = Throw | _ => False end.
Proof. intros h. vm_compute. repeat split. Qed.

(** the full claim, that an accepted range selects nothing but elements between its bounds, is false for reversed ranges: the assertions accept
    the rows from 9 (the top of the mesh) to 1, and the elements of the lowest layers are selected *)
Theorem C115_ravel_refuted : forall h, exists m ret, FineLayer_init 6 9 h 1 = Some (Ok m) /\ f_nely m = 9 /\
  elementgrid_ravel_checked true m [9; 1] [0; 6] = Ok ret /\ ret = [0; 1; 2; 3; 4; 5; 6; 7].
Proof. intros h. do 2 eexists. split; [vm_compute; reflexivity|]. split; [reflexivity|]. split; [vm_compute; reflexivity|reflexivity]. Qed.
Print Assumptions C115_ravel_refuted.

(** [meanToCoarse]: for data of any rank with a row per fine element, the mean over the fine elements of each coarse element; any other number
    of rows is rejected *)
Theorem C115_meanToCoarse : forall m nx ny r data, 1 <= nx -> 1 <= ny -> RefineRegular_init m nx ny = Ok r ->
  (forall rest, a_shape data = nelem (rr_fine r) :: rest -> exists M, (forall ck, meanToCoarse_checked ck r data = Ok (nelem m :: rest, M)) /\
     shape2 M (nelem m) (per_element rest) /\
     (forall c row k, nth_error (rr_map r) c = Some row -> k < per_element rest ->
        comp M c k = (sumR (map (fun e => entry data rest e k) row) / INR (nx * ny))%R)) /\
  ((forall rest, a_shape data <> nelem (rr_fine r) :: rest) -> meanToCoarse_checked true r data = Throw).
Proof. exact P_mean. Qed.
Print Assumptions C115_meanToCoarse.
(** data of shape [4, 2] on a mesh of two elements in one row, each refined to one by two *)
Definition c115_data : array R := mkArray [4; 2] (fun ix => match ix with [e; k] => INR (10 * e + k) | _ => 0%R end).
Example C115_meanToCoarse_ex : exists r, RefineRegular_init (mkRegular 2 1 1) 1 2 = Ok r /\ a_shape c115_data = nelem (rr_fine r) :: [2] /\
  rr_map r = [[0; 2]; [1; 3]] /\ entry c115_data [2] 3 1 = INR 31 /\ meanToCoarse_checked true r (mkArray [3; 2] (fun _ => 0%R)) = Throw.
Proof. eexists. split; [reflexivity|]. repeat split. Qed.

(** [averageToCoarse]: for data with a row per fine element and weights with at least as many rows of the same shape, the weighted average; if
    the rows have another shape the call throws.  In both builds; only the number of rows of the data is asserted.  Missing from the full claim
    ("the checked build rejects weights of another shape than the data"): see C115_average_refuted. *)
Theorem C115_averageToCoarse_partial : forall m nx ny r data weights, 1 <= nx -> 1 <= ny -> RefineRegular_init m nx ny = Ok r ->
  (forall rest n', a_shape data = nelem (rr_fine r) :: rest -> a_shape weights = n' :: rest -> nelem (rr_fine r) <= n' ->
     exists A, (forall ck, averageToCoarse_checked ck r data weights = Ok (nelem m :: rest, A)) /\ shape2 A (nelem m) (per_element rest) /\
     (forall c row k, nth_error (rr_map r) c = Some row -> k < per_element rest ->
        let W := sumR (map (fun e => entry weights rest e k) row) in
        W <> 0%R -> (comp A c k * W = sumR (map (fun e => entry data rest e k * entry weights rest e k) row))%R)) /\
  (forall rest n' rest', a_shape data = nelem (rr_fine r) :: rest -> a_shape weights = n' :: rest' -> nelem (rr_fine r) <= n' -> rest' <> rest -> 1 <= nelem m ->
     forall ck, averageToCoarse_checked ck r data weights = Throw) /\
  ((forall rest, a_shape data <> nelem (rr_fine r) :: rest) -> averageToCoarse_checked true r data weights = Throw).
Proof.
  intros m nx ny r data weights H1 H2 E. destruct (P_average m nx ny r data weights H1 H2 E) as (A & B & _ & D). split; [exact A|]. split; [exact B|exact D].
Qed.
Print Assumptions C115_averageToCoarse_partial.
(** the full claim is false: with fewer rows of weights than fine elements even the checked build accesses memory out of bounds, and surplus
    rows are silently ignored *)
Theorem C115_average_refuted : forall m nx ny r data weights rest n', 1 <= nx -> 1 <= ny -> RefineRegular_init m nx ny = Ok r ->
  a_shape data = nelem (rr_fine r) :: rest -> a_shape weights = n' :: rest ->
  (n' < nelem (rr_fine r) -> averageToCoarse_checked true r data weights = Oob) /\
  (nelem (rr_fine r) < n' -> exists A, averageToCoarse_checked true r data weights = Ok (nelem m :: rest, A)).
Proof.
  intros m nx ny r data weights rest n' H1 H2 E S1 S2. destruct (P_average m nx ny r data weights H1 H2 E) as (A & _ & C & _). split.
  - intros H. exact (C rest n' S1 S2 H true).
  - intros H. destruct (A rest n' S1 S2 ltac:(lia)) as (x & Q & _). exists x. apply Q.
Qed.
Print Assumptions C115_average_refuted.
Example C115_average_ex : exists r, RefineRegular_init (mkRegular 2 1 1) 1 2 = Ok r /\ a_shape c115_data = nelem (rr_fine r) :: [2] /\ 3 < nelem (rr_fine r) < 5 /\
  sumR (map (fun e => entry c115_data [2] e 0) [0; 2]) = 20%R.
Proof. eexists. split; [reflexivity|]. split; [reflexivity|]. split; [split; cbv; lia|]. unfold sumR, entry, c115_data. cbn. lra. Qed.

(** [mapToFine]: every fine element gets the data of its coarse element *)
Theorem C115_mapToFine : forall m nx ny r data, 1 <= nx -> 1 <= ny -> RefineRegular_init m nx ny = Ok r ->
  (forall rest, a_shape data = nelem m :: rest -> exists F, (forall ck, mapToFine_checked ck r data = Ok (nelem (rr_fine r) :: rest, F)) /\
     shape2 F (nelem (rr_fine r)) (per_element rest) /\
     (forall c row e k, nth_error (rr_map r) c = Some row -> In e row -> k < per_element rest -> comp F e k = entry data rest c k)) /\
  ((forall rest, a_shape data <> nelem m :: rest) -> mapToFine_checked true r data = Throw).
Proof. exact P_tofine. Qed.
Print Assumptions C115_mapToFine.
Example C115_mapToFine_ex : exists r, RefineRegular_init (mkRegular 2 2 1) 1 2 = Ok r /\ a_shape c115_data = nelem (mkRegular 2 2 1) :: [2] /\
  nth_error (rr_map r) 3 = Some [5; 7].
Proof. eexists. split; [reflexivity|]. split; reflexivity. Qed.

(** [mapToRegular]: every element of the regular mesh gets the data of the elements of the FineLayer mesh, each for the fraction that C30
    relates to the geometry *)
Theorem C115_mapToRegular : forall nelx nely nfine h m fr data, 1 <= nelx -> 1 <= nely ->
  FineLayer_init nelx nely h nfine = Some (Ok m) -> FineLayer2Regular_init m = Ok fr ->
  (forall rest, a_shape data = f_nelem m :: rest -> exists D, (forall ck, mapToRegular_checked ck fr data = Ok (nelem (fr_regular fr) :: rest, D)) /\
     shape2 D (nelem (fr_regular fr)) (per_element rest) /\
     (forall c k, c < nelem (fr_regular fr) -> k < per_element rest ->
        comp D c k = sumR (map (fun e => share (nth e (fr_map fr) []) (nth e (fr_fraction fr) []) c * entry data rest e k)%R (seq 0 (f_nelem m))))) /\
  ((forall rest, a_shape data <> f_nelem m :: rest) -> mapToRegular_checked true fr data = Throw).
Proof. exact P_toregular. Qed.
Print Assumptions C115_mapToRegular.
Example C115_mapToRegular_ex : forall h, match FineLayer_init 3 9 h 1 with
  | Some (Ok m) => (exists fr, FineLayer2Regular_init m = Ok fr /\ nelem (fr_regular fr) = 27) /\ f_nelem m < 27
  | _ => False end.
Proof. intros h. vm_compute. split; [eexists; split; reflexivity|lia]. Qed.

(** [as3d]: one to three columns are padded with zeros to three; any other number of columns is rejected *)
Theorem C115_as3d : forall arg,
  (forall n d, a_shape arg = [n; d] -> 1 <= d <= 3 -> exists r, (forall ck, as3d_checked ck arg = Ok r) /\ shape2 r n 3 /\
     forall i j, i < n -> j < 3 -> comp r i j = if j <? d then a_ent arg [i; j] else 0%R) /\
  ((forall n d, a_shape arg = [n; d] -> d = 0 \/ 3 < d) -> as3d_checked true arg = Throw).
Proof. exact P_as3d. Qed.
Print Assumptions C115_as3d.
Example C115_as3d_ex : a_shape c115_data = [4; 2] /\ as3d_checked true (mkArray [1; 4] (fun _ => 0%R)) = Throw.
Proof. split; reflexivity. Qed.
