(** Specification vocabulary for the queries on stitched meshes: which ones are admitted, and what the answer is. *)
From Coq Require Import List Arith Sorted.
From Verif Require Import Spec Spec_Stitch.
From Verif Require Import Model_Checked Model_StitchChecked. (* only for the inputs: arrays and queries *)
Import ListNotations.

(** the arrays are two tables [nnode, ndim] and [nelem, nne] *)
Definition tables {A} (ndim nne : nat) (m : array A * array nat) : Prop :=
  exists nnode nelem, a_shape (fst m) = [nnode; ndim] /\ a_shape (snd m) = [nelem; nne].
(** the mesh they describe: the rows of the tables *)
Definition is_mesh {A} (m : array A * array nat) (XC : list (list A) * list (list nat)) : Prop :=
  exists nnode ndim nelem nne, a_shape (fst m) = [nnode; ndim] /\ a_shape (snd m) = [nelem; nne] /\
    shape2 (fst XC) nnode ndim /\ shape2 (snd XC) nelem nne /\
    (forall n i, n < nnode -> i < ndim -> at2 (fst XC) n i = Some (a_ent (fst m) [n; i])) /\
    (forall e k, e < nelem -> k < nne -> at2 (snd XC) e k = Some (a_ent (snd m) [e; k])).

(** a set of the numbers 0 .. n - 1, of which there must be at least one *)
Definition subset_of (n : nat) (set : list nat) : Prop := 0 < n /\ forall k, In k set -> k < n.

(** the queries that make sense for the meshes of which the numbers of nodes and of elements are [sizes] *)
Definition admitted (sizes : list (nat * nat)) (q : query) : Prop :=
  match q with
  | Nodemap i | Elemmap i => i < length sizes
  | Nodeset set i => exists nnode nelem, nth_error sizes i = Some (nnode, nelem) /\ subset_of nnode set
  | Elemset set i => exists nnode nelem, nth_error sizes i = Some (nnode, nelem) /\ subset_of nelem set
  | Nodesets sets => length sets = length sizes /\
      forall i set nnode nelem, nth_error sets i = Some set -> nth_error sizes i = Some (nnode, nelem) -> subset_of nnode set
  | Elemsets sets => length sets = length sizes /\
      forall i set nnode nelem, nth_error sets i = Some set -> nth_error sizes i = Some (nnode, nelem) -> subset_of nelem set
  end.

(** [set'] are the entries of [map] listed by [set] *)
Definition mapped (mp set set' : list nat) : Prop := map (nth_error mp) set = map Some set'.

(** the answer to a query, in terms of the numbers of the nodes and of the elements of every mesh *)
Definition answer (nodemaps elemmaps : list (list nat)) (q : query) (a : list nat) : Prop :=
  match q with
  | Nodemap i => nth_error nodemaps i = Some a
  | Elemmap i => nth_error elemmaps i = Some a
  | Nodeset set i => exists nm, nth_error nodemaps i = Some nm /\ mapped nm set a
  | Elemset set i => exists em, nth_error elemmaps i = Some em /\ mapped em set a
  | Nodesets sets => StronglySorted lt a /\
      forall m, In m a <-> exists i set nm n, nth_error sets i = Some set /\ nth_error nodemaps i = Some nm /\
        In n set /\ nth_error nm n = Some m
  | Elemsets sets => exists parts, a = concat parts /\ length parts = length sets /\
      forall i set part em, nth_error sets i = Some set -> nth_error parts i = Some part -> nth_error elemmaps i = Some em ->
        mapped em set part
  end.

(** the numbers of nodes and elements of the meshes *)
Definition mesh_sizes {A} (meshes : list (list (list A) * list (list nat))) : list (nat * nat) :=
  map (fun m => (length (fst m), length (snd m))) meshes.
