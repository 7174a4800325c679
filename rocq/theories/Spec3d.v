(** Specification vocabulary for meshes in three dimensions. Standard library only. *)
From Coq Require Import List Arith Reals ZArith.
From Verif Require Import Spec.
Import ListNotations.
Local Open Scope R_scope.

(** row [n] of the nodal coordinates [X] is the point (x, y, z) *)
Definition node_at3 (X : list (list R)) (n : nat) (x y z : R) : Prop := nth_error X n = Some [x; y; z].

(** [l] lists exactly the nodes whose position satisfies [P], each once *)
Definition lists_nodes3 (X : list (list R)) (l : list nat) (P : R -> R -> R -> Prop) : Prop :=
  enumerates l (fun n => exists x y z, node_at3 X n x y z /\ P x y z).

Definition in_domain3 (X : list (list R)) (Lx Ly Lz : R) : Prop :=
  (forall n, (n < length X)%nat -> exists x y z, node_at3 X n x y z) /\
  (forall n x y z, node_at3 X n x y z -> 0 <= x <= Lx /\ 0 <= y <= Ly /\ 0 <= z <= Lz) /\
  (forall n n' x y z, node_at3 X n x y z -> node_at3 X n' x y z -> n = n').

Definition congruent3 (Lx Ly Lz x y z x' y' z' : R) : Prop :=
  exists p q r : Z, x' = x + IZR p * Lx /\ y' = y + IZR q * Ly /\ z' = z + IZR r * Lz.

(** (independent, dependent) pairs of the domain [0,Lx] x [0,Ly] x [0,Lz]: every node on the right,
    top or back face is tied once, to a node that is on none of these, at the same position modulo
    the size of the domain *)
Definition periodic_ties3 (X : list (list R)) (Lx Ly Lz : R) (ties : list (nat * nat)) : Prop :=
  wf_ties (length X) ties /\
  (forall a b x y z x' y' z', In (a, b) ties -> node_at3 X a x y z -> node_at3 X b x' y' z' ->
      congruent3 Lx Ly Lz x y z x' y' z') /\
  lists_nodes3 X (map snd ties) (fun x y z => x = Lx \/ y = Ly \/ z = Lz).

Definition periodic_dofs3 (X : list (list R)) (Lx Ly Lz : R) (ndim : nat) (D : list (list nat)) (n : nat) : Prop :=
  shape2 D (length X) ndim /\
  (forall m i v x y z m' i' v' x' y' z', at2 D m i = Some v -> at2 D m' i' = Some v' ->
      node_at3 X m x y z -> node_at3 X m' x' y' z' ->
      (v = v' <-> i = i' /\ congruent3 Lx Ly Lz x y z x' y' z')) /\
  (forall v, In v (concat D) <-> (v < n)%nat).

(** strictly between 0 and L *)
Definition inside (L x : R) : Prop := 0 < x < L.
