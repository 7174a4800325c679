(** Specification vocabulary for stitched meshes. *)
From Coq Require Import List Arith.
From Verif Require Import Spec.
Import ListNotations.

(** lexicographic order on pairs *)
Definition lex_lt (p q : nat * nat) : Prop := fst p < fst q \/ (fst p = fst q /\ snd p < snd q).

(** Mesh b (coor_b, conn_b) has been added to mesh a (coor_a, conn_a): node [ov_b[k]] of b has been
    identified with node [ov_a[k]] of a; [map_b] gives the new number of every node of b. *)
Record stitched {A} (coor_a : list (list A)) (conn_a : list (list nat)) (ov_a : list nat)
   (coor_b : list (list A)) (conn_b : list (list nat)) (ov_b : list nat)
   (coor : list (list A)) (conn : list (list nat)) (map_b : list nat) : Prop := {
  (* the nodes of a keep their number and position *)
  sd_nnode : length coor + length ov_a = length coor_a + length coor_b;
  sd_coor_a : forall n r, nth_error coor_a n = Some r -> nth_error coor n = Some r;
  (* every node of b has a number; identified nodes get the number of their partner *)
  sd_map : length map_b = length coor_b;
  sd_overlap : forall k a b, nth_error ov_a k = Some a -> nth_error ov_b k = Some b -> nth_error map_b b = Some a;
  (* the others get a new number, at their own position, in their original order *)
  sd_new : forall n r, nth_error coor_b n = Some r -> ~ In n ov_b ->
     exists m, nth_error map_b n = Some m /\ length coor_a <= m /\ nth_error coor m = Some r;
  sd_order : forall n n' m m', nth_error map_b n = Some m -> nth_error map_b n' = Some m' ->
     ~ In n ov_b -> ~ In n' ov_b -> n < n' -> m < m';
  (* every node of the new mesh is one of a or one of b *)
  sd_covered : forall m, m < length coor -> m < length coor_a \/ In m map_b;
  (* the elements of a, then those of b renumbered *)
  sd_nelem : length conn = length conn_a + length conn_b;
  sd_conn_a : forall e r, nth_error conn_a e = Some r -> nth_error conn e = Some r;
  sd_conn_b : forall e r, nth_error conn_b e = Some r -> exists r',
     nth_error conn (length conn_a + e) = Some r' /\ length r' = length r /\
     forall i n, nth_error r i = Some n -> exists m, nth_error map_b n = Some m /\ nth_error r' i = Some m }.

(** all node numbers in [conn] are nodes of a mesh of [n] nodes *)
Definition conn_in_range (conn : list (list nat)) (n : nat) : Prop := forall m, In m (concat conn) -> m < n.

(** [ov_a], [ov_b] are admissible lists of overlapping nodes *)
Definition wf_overlap (nnda nndb : nat) (ov_a ov_b : list nat) : Prop :=
  length ov_a = length ov_b /\ NoDup ov_b /\
  (forall a, In a ov_a -> a < nnda) /\ (forall b, In b ov_b -> b < nndb).

(** all coordinates of two points are close *)
Definition near {A} (close : A -> A -> bool) (p q : list A) : Prop :=
  forall k a b, nth_error p k = Some a -> nth_error q k = Some b -> close a b = true.

(** every listed pair of overlapping nodes has the same position *)
Definition overlap_near {A} (close : A -> A -> bool) (coor_a coor_b : list (list A)) (ov_a ov_b : list nat) : Prop :=
  forall k a b p q, nth_error ov_a k = Some a -> nth_error ov_b k = Some b ->
    nth_error coor_a a = Some p -> nth_error coor_b b = Some q -> near close p q.

(** The mesh (coor, conn) is the union of [meshes] = [(coor_0, conn_0); ...].
    [nodemaps[i]] gives the number of the nodes of mesh i, [elemmaps[i]] that of its elements;
    a node is at its original position, or at a position [q] with [moved p q]. *)
Record union_of {A} (moved : list A -> list A -> Prop) (meshes : list (list (list A) * list (list nat)))
    (coor : list (list A)) (conn : list (list nat)) (nodemaps elemmaps : list (list nat)) : Prop := {
  un_nodemaps : length nodemaps = length meshes;
  un_elemmaps : length elemmaps = length meshes;
  (* the elements of the meshes are numbered consecutively *)
  un_elems : concat elemmaps = seq 0 (length conn);
  un_nelem : forall i X C em, nth_error meshes i = Some (X, C) -> nth_error elemmaps i = Some em ->
     length em = length C;
  un_nnode : forall i X C nm, nth_error meshes i = Some (X, C) -> nth_error nodemaps i = Some nm ->
     length nm = length X;
  (* every node of every mesh is found at its position *)
  un_position : forall i X C nm n m p, nth_error meshes i = Some (X, C) -> nth_error nodemaps i = Some nm ->
     nth_error nm n = Some m -> nth_error X n = Some p ->
     exists q, nth_error coor m = Some q /\ (q = p \/ moved p q);
  (* there are no other nodes *)
  un_covered : forall m, m < length coor -> exists i nm, nth_error nodemaps i = Some nm /\ In m nm;
  (* every element keeps its nodes *)
  un_conn : forall i X C nm em e e' nodes, nth_error meshes i = Some (X, C) -> nth_error nodemaps i = Some nm ->
     nth_error elemmaps i = Some em -> nth_error em e = Some e' -> nth_error C e = Some nodes ->
     exists nodes', nth_error conn e' = Some nodes' /\ length nodes' = length nodes /\
       forall k n, nth_error nodes k = Some n -> exists m, nth_error nm n = Some m /\ nth_error nodes' k = Some m }.

(** every mesh only refers to its own nodes *)
Definition wf_meshes {A} (meshes : list (list (list A) * list (list nat))) : Prop :=
  forall X C, In (X, C) meshes -> conn_in_range C (length X).

(** [p] is a node of one of the meshes *)
Definition is_node {A} (meshes : list (list (list A) * list (list nat))) (p : list A) : Prop :=
  exists X C, In (X, C) meshes /\ In p X.

(** no node of the meshes is close to two nodes of the mesh with nodes [X] *)
Definition separated {A} (close : A -> A -> bool) (meshes : list (list (list A) * list (list nat)))
    (X : list (list A)) : Prop :=
  forall n n' p p' q, nth_error X n = Some p -> nth_error X n' = Some p' -> is_node meshes q ->
    near close p q -> near close p' q -> n = n'.

(** closeness is an equivalence on the nodes of all meshes *)
Definition close_equivalence {A} (close : A -> A -> bool) (meshes : list (list (list A) * list (list nat))) : Prop :=
  (forall p, is_node meshes p -> near close p p) /\
  (forall p q, is_node meshes p -> is_node meshes q -> near close p q -> near close q p) /\
  (forall p q r, is_node meshes p -> is_node meshes q -> is_node meshes r ->
     near close p q -> near close q r -> near close p r).
