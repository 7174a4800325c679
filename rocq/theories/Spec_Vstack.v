(** Specification vocabulary for vertically stacked meshes. *)
From Coq Require Import List Arith Reals.
From Verif Require Import Spec Spec_Stitch.
From Verif Require Import Model_Stitch. (* only for the input record [vmesh] *)
Import ListNotations.
Local Open Scope R_scope.

(** [d] is the largest y-coordinate in [X] *)
Definition is_max_y (X : list (list R)) (d : R) : Prop :=
  (exists x, In [x; d] X) /\ (forall x y, In [x; y] X -> y <= d).

(** [X'] is [X] moved up by [d] *)
Definition moved_up (d : R) (X X' : list (list R)) : Prop :=
  length X' = length X /\ forall n x y, nth_error X n = Some [x; y] -> nth_error X' n = Some [x; y + d].

(** all points are (x, y) *)
Definition planar (X : list (list R)) : Prop := forall p, In p X -> exists x y, p = [x; y].

(** a mesh between y = 0 and y = Ly, with nodes [bot] at y = 0 and [top] at y = Ly *)
Record slab (X : list (list R)) (C : list (list nat)) (bot top : list nat) (Ly : R) : Prop := {
  sl_planar : planar X;
  sl_conn : conn_in_range C (length X);
  sl_range : forall x y, In [x; y] X -> 0 <= y <= Ly;
  sl_bot : forall n, In n bot -> exists x, nth_error X n = Some [x; 0];
  sl_top : forall n, In n top -> exists x, nth_error X n = Some [x; Ly];
  sl_bot_nodup : NoDup bot;
  sl_top_some : top <> [] }.

(** the top nodes of one mesh and the bottom nodes of the next have the same horizontal positions *)
Definition matching (X : list (list R)) (top : list nat) (X' : list (list R)) (bot : list nat) : Prop :=
  length top = length bot /\
  forall k a b x y x' y', nth_error top k = Some a -> nth_error bot k = Some b ->
    nth_error X a = Some [x; y] -> nth_error X' b = Some [x'; y'] -> x = x'.


(** well-formed input *)
Definition wf_vmesh (m : vmesh) : Prop :=
  planar (v_coor m) /\ conn_in_range (v_conn m) (length (v_coor m)) /\
  (forall n, In n (v_top m) -> (n < length (v_coor m))%nat).

(** a list of slabs with their heights, each one matching the one below *)
Definition stackable (ms : list vmesh) (heights : list R) : Prop :=
  length heights = length ms /\
  (forall i m Ly, nth_error ms i = Some m -> nth_error heights i = Some Ly ->
     slab (v_coor m) (v_conn m) (v_bot m) (v_top m) Ly) /\
  (forall i m m', nth_error ms i = Some m -> nth_error ms (S i) = Some m' ->
     matching (v_coor m) (v_top m) (v_coor m') (v_bot m')).

(** total height of the meshes below mesh [i] *)
Definition sum_below (heights : list R) (i : nat) : R := fold_right Rplus 0 (firstn i heights).

