(** Specification vocabulary: symmetric positive definite matrices, and bodies without mechanisms. *)
From Coq Require Import Reals List.
From Verif Require Import Model_Element Spec_Element Base Spec Sums Spec_Vector Spec_Matrix Spec_MatrixOps Spec_Periodic Model_Sparse Model_Vector Model_Pipeline Spec_Pipeline.
Import ListNotations.
Local Open Scope R_scope.

(** x^T M x *)
Definition quad_form (n : nat) (M : nat -> nat -> R) (x : nat -> R) : R := sumn n (fun i => x i * mv n M x i).
Definition spd (n : nat) (M : nat -> nat -> R) : Prop :=
  (forall i j, (i < n)%nat -> (j < n)%nat -> M i j = M j i) /\
  forall x, (exists i, (i < n)%nat /\ x i <> 0) -> 0 < quad_form n M x.

(** a periodic cell without mechanism: a virtual displacement without energy is zero *)
Definition no_periodic_mechanism (coor : list (list R)) (ties : list (nat * nat)) (fixed : list nat) (nnode nelem : nat) (conn : list (list nat)) (E : Elem) (C : arr) : Prop :=
  forall c w U, valid_call nelem c -> virtual_disp coor ties fixed nnode (el_ndim E) w ->
    (forall e m i, (e < nelem)%nat -> (m < el_nne E)%nat -> (i < el_ndim E)%nat -> U [e;m;i]%nat = val2 w (idx2 conn e m) i) ->
    integral nelem E (ddot42 (el_tdim E) C (el_GradN_vector E c U)) (el_GradN_vector E c U) = 0 ->
    forall n i, (n < nnode)%nat -> (i < el_ndim E)%nat -> val2 w n i = 0.

(** elements that are linked by shared edges: two shared nodes, at different positions *)
Inductive linked (conn : list (list nat)) (nelem nne ndim : nat) (X : list (list R)) : nat -> nat -> Prop :=
| linked_refl e : linked conn nelem nne ndim X e e
| linked_step e f g m1 m2 k1 k2 i : linked conn nelem nne ndim X e f -> (f < nelem)%nat -> (g < nelem)%nat -> (m1 < nne)%nat -> (m2 < nne)%nat -> (k1 < nne)%nat -> (k2 < nne)%nat ->
    idx2 conn f m1 = idx2 conn g k1 -> idx2 conn f m2 = idx2 conn g k2 -> (i < ndim)%nat -> val2 X (idx2 conn f m1) i <> val2 X (idx2 conn f m2) i ->
    linked conn nelem nne ndim X e g.

(** a solver for symmetric positive definite systems *)
Definition spd_solver (linsolve : mat -> list R -> list R) : Prop := forall a, rows a = cols a -> spd (cols a) (ent a) -> solves linsolve a.
