(** Specification of the layers of a three-dimensional FineLayer mesh.
    Independent of the model; standard library only. *)
From Coq Require Import List Arith Reals ZArith.
From Verif Require Import Spec Spec3d Spec_FineLayer.
Import ListNotations.

(** layer [i]: blocks of [x] by [y] by [z] (in units of the size of a fine element), [kx] by [kz] blocks in the layer, and its
    type: -1 normal, 0 refinement in x-direction, 2 refinement in z-direction *)
Definition layer3_is (nhx nhy nhz nx nz : list nat) (typ : list Z) (i x y z kx kz : nat) (t : Z) : Prop :=
  nth_error nhx i = Some x /\ nth_error nhy i = Some y /\ nth_error nhz i = Some z /\
  nth_error nx i = Some kx /\ nth_error nz i = Some kz /\ nth_error typ i = Some t.

(** The rule: what follows a layer with blocks of [x] by [y] by [z] and type [t], if the layers up to and including this layer
    are [D] high (from the middle) and [half] is the requested height.
    - coarsening in z-direction directly follows coarsening in x-direction if there is room and the number of elements allows it *)
Definition follow_z (nelz half D y z : nat) (t : Z) : Prop := t = 0%Z /\ D + y < half /\ Nat.modulo nelz (3 * z) = 0.
(** - otherwise: coarsening in a direction with [nel] elements in which the blocks have width [w]: the (coarser) blocks are at most
      as high as the distance to the middle, they fit in the domain, and there is room *)
Definition may_coarsen (nel half D u w : nat) : Prop := 3 * u <= D /\ Nat.modulo nel (3 * w) = 0 /\ D + u < half.

(** [c]: the middle layer *)
Record layer_structure3 (nelx nely nelz nfine c : nat) (nhx nhy nhz nx nz : list nat) (typ : list Z) : Prop := {
  (* number of layers *)
  ls3_length : Forall (fun l => length l = 2 * c + 1) [nhx; nhy; nhz; nx; nz] /\ length typ = 2 * c + 1;
  (* symmetric about the middle *)
  ls3_symmetric : Forall (fun l => rev l = l) [nhx; nhy; nhz; nx; nz] /\ rev typ = typ;
  (* the middle layer is fine *)
  ls3_middle : layer3_is nhx nhy nhz nx nz typ c 1 1 1 nelx nelz (-1);
  (* the widths of a block are powers of 3, and the blocks fill the layer *)
  ls3_blocks : forall i x y z kx kz t, layer3_is nhx nhy nhz nx nz typ i x y z kx kz t ->
    (exists k, x = 3 ^ k) /\ (exists k, z = 3 ^ k) /\ x * kx = nelx /\ z * kz = nelz;
  (* normal layers are as high as their blocks are wide, refinement layers 2/3 of that *)
  ls3_shape : forall i x y z kx kz t, layer3_is nhx nhy nhz nx nz typ i x y z kx kz t ->
    (t = (-1)%Z /\ y = Nat.max x z) \/ ((t = 0%Z \/ t = 2%Z) /\ 3 * y = 2 * Nat.max x z);
  (* away from the middle the widths change at the refinement layers only, in the direction of the refinement, by a factor 3 *)
  ls3_step : forall i x y z kx kz t x' y' z' kx' kz' t', c <= i ->
    layer3_is nhx nhy nhz nx nz typ i x y z kx kz t -> layer3_is nhx nhy nhz nx nz typ (i + 1) x' y' z' kx' kz' t' ->
    (t' = (-1)%Z /\ x' = x /\ z' = z) \/ (t' = 0%Z /\ x' = 3 * x /\ z' = z) \/ (t' = 2%Z /\ x' = x /\ z' = 3 * z);
  (* the type of each layer outside the fine layers follows from the rule, the fine layers are normal *)
  ls3_rule : forall i x y z kx kz t x' y' z' kx' kz' t', c <= i ->
    layer3_is nhx nhy nhz nx nz typ i x y z kx kz t -> layer3_is nhx nhy nhz nx nz typ (i + 1) x' y' z' kx' kz' t' ->
    let D := total (firstn (i + 1 - c) (skipn c nhy)) in
    let half := (nely + 1) / 2 in
    let u := Nat.max x z in
    (t' = 0%Z <-> nfine < 2 * (i + 1 - c) /\ ~ follow_z nelz half D y z t /\ may_coarsen nelx half D u x) /\
    (t' = 2%Z <-> nfine < 2 * (i + 1 - c) /\
       (follow_z nelz half D y z t \/ (~ may_coarsen nelx half D u x /\ may_coarsen nelz half D u z)));
  (* the upper half is as high as requested, and would not be without its last layer *)
  ls3_enough : (nely + 1) / 2 <= total (skipn c nhy);
  ls3_last : total (firstn c (skipn c nhy)) < (nely + 1) / 2 }.

(** element [E] is the cube with its lowest corner at (x, y, z) and edges of length [h] *)
Definition cube_at (X : list (list R)) (E : list nat) (x y z h : R) : Prop :=
  exists n0 n1 n2 n3 n4 n5 n6 n7, E = [n0; n1; n2; n3; n4; n5; n6; n7] /\
    (node_at3 X n0 x y z /\ node_at3 X n1 (x + h) y z /\ node_at3 X n2 (x + h) (y + h) z /\ node_at3 X n3 x (y + h) z /\
     node_at3 X n4 x y (z + h) /\ node_at3 X n5 (x + h) y (z + h) /\ node_at3 X n6 (x + h) (y + h) (z + h) /\ node_at3 X n7 x (y + h) (z + h))%R.

(** strictly inside the back face or the right face, in one of the outermost layers (which are [b] high) *)
Definition outermost_inner (Lx Ly Lz b x y z : R) : Prop :=
  ((z = Lz /\ inside Lx x) \/ (x = Lx /\ inside Lz z)) /\ inside Ly y /\ ~ (b <= y <= Ly - b)%R.
