(** Specification vocabulary for vectors and matrices on a mesh. *)
From Coq Require Import List Arith Reals.
From Verif Require Import Spec Sums.
Import ListNotations.

(** entries of arrays of rank 1, 2 and 3 (only used inside the shape of the array) *)
Definition nth2 {A} (d : A) (u : list (list A)) (m i : nat) : A := nth i (nth m u []) d.
Definition nth3 {A} (d : A) (f : list (list (list A))) (e m i : nat) : A := nth2 d (nth e f []) m i.
Definition val1 (x : list R) (d : nat) : R := nth d x 0%R.
Definition val2 : list (list R) -> nat -> nat -> R := nth2 0%R.
Definition val3 : list (list (list R)) -> nat -> nat -> nat -> R := nth3 0%R.
Definition idx2 : list (list nat) -> nat -> nat -> nat := nth2 0%nat.

(** the array has shape [n, m, d] *)
Definition shape3 {A} (f : list (list (list A))) (n m d : nat) : Prop :=
  length f = n /\ forall r, In r f -> shape2 r m d.

(** a mesh of nelem elements of nne nodes, and DOFs of nnode nodes in ndim dimensions *)
Record mesh_dofs (conn dofs : list (list nat)) (nelem nne nnode ndim ndof : nat) : Prop := {
  md_conn : shape2 conn nelem nne;
  md_dofs : shape2 dofs nnode ndim;
  md_node : forall e m, e < nelem -> m < nne -> idx2 conn e m < nnode;
  (* one more than the largest DOF number *)
  md_ndof : ndof = S (fold_right Nat.max 0 (concat dofs)) }.

(** every DOF is the DOF of some node: no holes in the numbering *)
Definition no_holes (dofs : list (list nat)) (ndof : nat) : Prop := forall d, d < ndof -> In d (concat dofs).

(** nodal values that agree on nodes that share a DOF *)
Definition agree2 (dofs : list (list nat)) (nnode ndim : nat) (u : list (list R)) : Prop :=
  forall m i n j, m < nnode -> i < ndim -> n < nnode -> j < ndim ->
    idx2 dofs m i = idx2 dofs n j -> val2 u m i = val2 u n j.

(** the same for element values: [key e m i] is what is shared *)
Definition agree3 {K} (key : nat -> nat -> nat -> K) (nelem nne ndim : nat) (f : list (list (list R))) : Prop :=
  forall e m i e' m' i', e < nelem -> m < nne -> i < ndim -> e' < nelem -> m' < nne -> i' < ndim ->
    key e m i = key e' m' i' -> val3 f e m i = val3 f e' m' i'.

(** sums over nodes and elements *)
Definition sum_node (nnode ndim : nat) (g : nat -> nat -> R) : R := sumn nnode (fun m => sumn ndim (fun i => g m i)).
Definition sum_elem (nelem nne ndim : nat) (g : nat -> nat -> nat -> R) : R :=
  sumn nelem (fun e => sumn nne (fun m => sumn ndim (fun i => g e m i))).

(** prescribed DOFs: distinct, existing numbers *)
Definition prescribed (ndof : nat) (iip : list nat) : Prop := NoDup iip /\ forall d, In d iip -> d < ndof.
