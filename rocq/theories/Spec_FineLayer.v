(** Specification of the layers of a FineLayer mesh, and of translated elements.
    Independent of the model; standard library only. *)
From Coq Require Import List Arith Reals ZArith.
From Verif Require Import Spec Spec2d Spec_Tiling.
Import ListNotations.

Definition total (l : list nat) : nat := fold_right Nat.add 0 l.

(** layer [i]: blocks of [x] by [y] (in units of the size of a fine element), [n] blocks in the
    layer, and its type: -1 normal, 0 refinement in horizontal direction *)
Definition layer_is (nhx nhy nel : list nat) (typ : list Z) (i x y n : nat) (t : Z) : Prop :=
  nth_error nhx i = Some x /\ nth_error nhy i = Some y /\ nth_error nel i = Some n /\ nth_error typ i = Some t.

(** [c]: the middle layer; [half]: the requested height of the upper half including the middle layer *)
Record layer_structure (nelx nely nfine c : nat) (nhx nhy nel : list nat) (typ : list Z) : Prop := {
  (* number of layers *)
  ls_length : length nhx = 2 * c + 1 /\ length nhy = 2 * c + 1 /\ length nel = 2 * c + 1 /\ length typ = 2 * c + 1;
  (* symmetric about the middle *)
  ls_symmetric : rev nhx = nhx /\ rev nhy = nhy /\ rev nel = nel /\ rev typ = typ;
  (* the middle layer is fine *)
  ls_middle : layer_is nhx nhy nel typ c 1 1 nelx (-1);
  (* the width of a block is a power of 3, and the blocks fill the layer *)
  ls_blocks : forall i x y n t, layer_is nhx nhy nel typ i x y n t -> (exists k, x = 3 ^ k) /\ x * n = nelx;
  (* blocks of normal layers are square, of refinement layers 3 : 2 *)
  ls_shape : forall i x y n t, layer_is nhx nhy nel typ i x y n t -> (t = (-1)%Z /\ y = x) \/ (t = 0%Z /\ 3 * y = 2 * x);
  (* away from the middle the width changes at the refinement layers only, by a factor 3 *)
  ls_step : forall i x y n t x' y' n' t', c <= i ->
    layer_is nhx nhy nel typ i x y n t -> layer_is nhx nhy nel typ (i + 1) x' y' n' t' ->
    (t' = (-1)%Z /\ x' = x) \/ (t' = 0%Z /\ x' = 3 * x);
  (* a layer is a refinement layer iff it is outside the fine layers, the coarser width is at most the
     distance to the middle, it divides the width of the mesh, and there is room for it *)
  ls_rule : forall i x y n t x' y' n' t', c <= i ->
    layer_is nhx nhy nel typ i x y n t -> layer_is nhx nhy nel typ (i + 1) x' y' n' t' ->
    let distance := total (firstn (i + 1 - c) (skipn c nhy)) in
    (t' = 0%Z <-> nfine < 2 * (i + 1 - c) /\ 3 * x <= distance /\ Nat.modulo nelx (3 * x) = 0 /\ distance + x < (nely + 1) / 2);
  (* the upper half is as high as requested, and would not be without its last layer *)
  ls_enough : (nely + 1) / 2 <= total (skipn c nhy);
  ls_last : total (firstn c (skipn c nhy)) < (nely + 1) / 2 }.

(** element [E] is element [E'] translated by [dx] in horizontal direction *)
Definition translated (X : list (list R)) (E E' : list nat) (dx : R) : Prop :=
  forall x0 y0 x1 y1 x2 y2 x3 y3, quad X E' x0 y0 x1 y1 x2 y2 x3 y3 ->
    quad X E (x0 + dx) y0 (x1 + dx) y1 (x2 + dx) y2 (x3 + dx) y3.

(** all four corners of element [E] are in the rectangle [x0,x1] x [y0,y1] *)
Definition element_within (X : list (list R)) (E : list nat) (x0 x1 y0 y1 : R) : Prop :=
  forall p x y, In p E -> node_at X p x y -> (x0 <= x <= x1 /\ y0 <= y <= y1)%R.
