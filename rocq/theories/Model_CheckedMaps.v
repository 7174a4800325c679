(** Model of the meshes of MeshQuad4.h, MeshTri3.h and MeshHex8.h and of the mappings of MeshQuad4.h as they are called: with any numbers of
    elements, layers, ranges, and data of any rank and shape, and with the assertions ([ck]: whether the library is compiled with
    GOOSEFEM_ENABLE_ASSERT, config.h:94-98). *)
From Coq Require Import Reals ZArith.
From Verif Require Import Base Model_Numbering Model_Vector Model_Misc Model_Regular2d Model_Hex8Regular Model_FineLayer Model_Hex8FineLayer Model_Map Model_Checked.

(** ** constructors *)
(** MeshQuad4.h:43-60 the constructor of [Quad4::Regular], with the assertions of lines 51-52; MeshTri3.h:35-51 that of [Tri3::Regular], with
    those of lines 43-44 *)
Definition Regular_checked (ck : bool) (nelx nely : nat) (h : R) : res Regular := assert ck (1 <=? nelx) (assert ck (1 <=? nely) (Ok (mkRegular nelx nely h))).
(** MeshHex8.h:35-55 the constructor of [Hex8::Regular], with the assertions of lines 45-47 *)
Definition HexRegular_checked (ck : bool) (nelx nely nelz : nat) (h : R) : res HexRegular :=
  assert ck (1 <=? nelx) (assert ck (1 <=? nely) (assert ck (1 <=? nelz) (Ok (mkHexRegular nelx nely nelz h)))).
(** MeshQuad4.h:900-1071 [init] of [Quad4::FineLayer], with the assertions of lines 902-903 ([None]: the loop does not end within the number
    of rounds of Model_FineLayer) *)
Definition FineLayer_checked (ck : bool) (nelx nely : nat) (h : R) (nfine : nat) : option (res FineLayer) :=
  if ck && negb ((1 <=? nelx) && (1 <=? nely)) then Some Throw else FineLayer_init nelx nely h nfine.
(** MeshHex8.h:627-849 the constructor of [Hex8::FineLayer], with the assertions of lines 634-636 *)
Definition HexFineLayer_checked (ck : bool) (nelx nely nelz : nat) (h : R) (nfine : nat) : option (res HexFineLayer) :=
  if ck && negb ((1 <=? nelx) && (1 <=? nely) && (1 <=? nelz)) then Some Throw else HexFineLayer_init nelx nely nelz h nfine.
(** MeshQuad4.h:1156-1174 the constructor of [RefineRegular]: constructs the fine mesh, with the assertions of its constructor *)
Definition RefineRegular_checked (ck : bool) (m : Regular) (nx ny : nat) : res RefineRegular :=
  do _ <- Regular_checked ck (nx * nelx m) (ny * nely m) (hh m); RefineRegular_init m nx ny.

(** ** FineLayer *)
(** MeshQuad4.h:299-307 [elementsLayer], with the assertion of line 301 *)
Definition elementsLayer_checked (ck : bool) (m : FineLayer) (layer : nat) : res (list nat) :=
  assert ck (layer <? length (f_layer_nelx m)) (elementsLayer m layer).

(** the vector of size 0 or 2 as an optional pair; without assertions a vector of another size counts as empty *)
Definition start_stop (l : list nat) : option (nat * nat) := match l with [a; b] => Some (a, b) | _ => None end.
(** MeshQuad4.h:314-398 [elementgrid_ravel], with the assertions of lines 319-320, 327-328 and 337-338 *)
Definition elementgrid_ravel_checked (ck : bool) (m : FineLayer) (rows cols : list nat) : res (list nat) :=
  let size l := (length l =? 0) || (length l =? 2) in
  let bounded n l := match start_stop l with Some (a, b) => fun k => assert ck (a <=? n) (assert ck (b <=? n) k) | None => fun k : res (list nat) => k end in
  assert ck (size rows) (assert ck (size cols) (bounded (f_nely m) rows (bounded (f_nelx m) cols (elementgrid_ravel m (start_stop rows) (start_stop cols))))).

(** ** data on elements *)
(** [xt::view(data, e)] of data of shape [n :: rest], flattened *)
Definition rows_nd (n : nat) (rest : list nat) (a : array R) : list (list R) := map (fun e => map (fun ix => a_ent a (e :: ix)) (indices rest)) (seq 0 n).
Definition cells (rest : list nat) : nat := fold_right Nat.mul 1 rest.

(** MeshQuad4.h:1260-1278 [meanToCoarse], with the assertion of line 1263.  The result: the shape, and one row per element.  Data of rank 0
    have no [shape(0)] (and no instance in the Python interface). *)
Definition meanToCoarse_checked (ck : bool) (r : RefineRegular) (data : array R) : res (list nat * list (list R)) :=
  match a_shape data with
  | n :: rest => assert ck (n =? length (concat (rr_map r)))
      (do x <- meanToCoarse (cells rest) r (rows_nd n rest data); Ok (length (rr_map r) :: rest, x))
  | [] => Throw
  end.
(** whether two shapes are equal *)
Fixpoint eq_list (a b : list nat) : bool := match a, b with [], [] => true | x :: a, y :: b => (x =? y) && eq_list a b | _, _ => false end.
(** MeshQuad4.h:1290-1312 [averageToCoarse], with the assertion of line 1296: nothing is asserted about the weights.  The rank of the weights is
    that of the data (a template parameter).  For every element the selected data and weights are copied (lines 1306-1307) and [xt::average]
    (line 1308) throws, in both builds, if they have different shapes. *)
Definition averageToCoarse_checked (ck : bool) (r : RefineRegular) (data weights : array R) : res (list nat * list (list R)) :=
  match a_shape data, a_shape weights with
  | n :: rest, n' :: rest' => assert ck (n =? length (concat (rr_map r)))
      (do _ <- mapM (fun row =>
          do _ <- mapM (get (rows_nd n rest data)) row; do _ <- mapM (get (rows_nd n' rest' weights)) row;
          if eq_list rest rest' then Ok tt else Throw) (rr_map r);
       do x <- averageToCoarse (cells rest) r (rows_nd n rest data) (rows_nd n' rest' weights); Ok (length (rr_map r) :: rest, x))
  | _, _ => Throw
  end.
(** MeshQuad4.h:1326-1344 [mapToFine], with the assertion of line 1329 *)
Definition mapToFine_checked (ck : bool) (r : RefineRegular) (data : array R) : res (list nat * list (list R)) :=
  match a_shape data with
  | n :: rest => assert ck (n =? length (rr_map r)) (do x <- mapToFine r (rows_nd n rest data); Ok (length (concat (rr_map r)) :: rest, x))
  | [] => Throw
  end.
(** MeshQuad4.h:1761-1779 [mapToRegular], with the assertion of line 1764 *)
Definition mapToRegular_checked (ck : bool) (r : FineLayer2Regular) (data : array R) : res (list nat * list (list R)) :=
  match a_shape data with
  | n :: rest => assert ck (n =? f_nelem (fr_finelayer r)) (do x <- mapToRegular (cells rest) r (rows_nd n rest data); Ok (nelem (fr_regular r) :: rest, x))
  | [] => Throw
  end.

(** ** Allocate.h *)
(** Allocate.h:222-244 [as3d], with the assertions of lines 225-226 *)
Definition as3d_checked (ck : bool) (arg : array R) : res (list (list R)) :=
  match a_shape arg with
  | [n; d] => assert ck ((0 <? d) && (d <? 4)) (Ok (as3d (rows2 n d arg) d))
  | _ => Throw
  end.
