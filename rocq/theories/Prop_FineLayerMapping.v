(** Property C24: the constructor Quad4::FineLayer(coor, conn). *)
From Coq Require Import Reals ZArith Lra.
From Verif Require Import Base Model_Numbering Model_Regular2d Model_FineLayer Model_FineLayerMapping Proof_FineLayerMapping.

(** C24: it reconstructs every mesh of the default nfine (all members are equal), but see C24_one_layer_refuted.
    [close]: the comparison of [xt::allclose], of which only reflexivity is used *)
Theorem C24_reconstruct : forall close, (forall x, close x x = true) ->
  forall nelx nely h m X C, 1 <= nelx -> 1 <= nely -> (0 < h)%R -> 3 <= nely \/ nelx = 1 ->
  FineLayer_init nelx nely h 1 = Some (Ok m) -> f_coor m = Ok X -> f_conn m = Ok C ->
  init_by_mapping close X C = Some (Ok m).
Proof. exact V_reconstruct. Qed.
Print Assumptions C24_reconstruct.
Example C24_reconstruct_ex : forall h, match FineLayer_init 9 17 h 1 with
  | Some (Ok m) => f_nhx m = [3; 3; 3; 1; 1; 1; 1; 1; 3; 3; 3] /\ match f_coor m, f_conn m with Ok X, Ok C => length X = 96 /\ length C = 81 | _, _ => False end
  | _ => False end.
Proof. intros h. vm_compute. repeat split. Qed.

(** C24, the full claim is false: for a mesh of one layer of at least two elements the search for the ends of the layer
    reads outside [conn] (rows -1 and nelem), before it is compared with the bounds *)
Theorem C24_one_layer_refuted : forall close nelx nely nfine h m X C, 2 <= nelx -> 1 <= nely <= 2 -> (0 < h)%R ->
  FineLayer_init nelx nely h nfine = Some (Ok m) -> f_coor m = Ok X -> f_conn m = Ok C ->
  init_by_mapping close X C = Some Oob.
Proof. exact V_one_layer. Qed.
Print Assumptions C24_one_layer_refuted.
Example C24_one_layer_ex : forall h, match FineLayer_init 2 1 h 1 with
  | Some (Ok m) => match f_coor m, f_conn m with Ok X, Ok C => length X = 6 /\ C = [[0; 1; 4; 3]; [1; 2; 5; 4]] | _, _ => False end
  | _ => False end.
Proof. intros h. vm_compute. repeat split. Qed.

(** C24: the default nfine is needed: the number of fine layers is not recovered *)
Theorem C24_nfine : forall close h, (forall x, close x x = true) -> (0 < h)%R ->
  exists m X C, FineLayer_init 3 9 h 9 = Some (Ok m) /\ f_coor m = Ok X /\ f_conn m = Ok C /\ init_by_mapping close X C = Some Throw.
Proof. exact V_nfine. Qed.
Print Assumptions C24_nfine.

(** C24: for any input: a mesh that is returned has the connectivity that was given, and coordinates close to those that were given *)
Theorem C24_sound : forall close X C m, init_by_mapping close X C = Some (Ok m) ->
  f_conn m = Ok C /\ exists X', f_coor m = Ok X' /\ allclose2 close X' X = true.
Proof. exact V_sound. Qed.
Print Assumptions C24_sound.
