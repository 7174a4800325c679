(** Specification vocabulary for the loops of the periodic programs. *)
From Coq Require Import Reals List.
From Verif Require Import Model_Element Spec_Element Base Spec Sums Spec_Vector Model_Vector Model_MeshGeometry Model_Pipeline Spec_Pipeline Spec_Periodic Model_NewtonLoop.
Local Open Scope R_scope.

(** the linear solver returns vectors of the right size; nothing else is asked of it *)
Definition sized (linsolve : Model_Sparse.mat -> list R -> list R) (n : nat) : Prop :=
  forall a b, Model_Sparse.rows a = n -> Model_Sparse.cols a = n -> length b = n -> length (linsolve a b) = n.

(** the forces [fint] and [fext] balance, up to [eps]: for every virtual displacement of at most [delta] in each direction of each node, the works differ by less than [eps * delta] *)
Definition balanced (coor : list (list R)) (ties : list (nat * nat)) (fixed : list nat) (nnode ndim : nat) (eps : R) (fint fext : list (list R)) : Prop :=
  forall w delta, 0 < delta -> virtual_disp coor ties fixed nnode ndim w -> (forall m i, (m < nnode + ndim)%nat -> (i < ndim)%nat -> Rabs (val2 w m i) <= delta) ->
    Rabs (work (nnode + ndim) ndim fint w - work (nnode + ndim) ndim fext w) < eps * delta.

(** the size of the forces that residuals are compared with: the sum of the absolute values, or one if that is zero *)
Definition magnitude (F : list R) : R := sumn (length F) (fun d => Rabs (val1 F d)).
Definition reference (F : list R) : R := if Req_EM_T (magnitude F) 0 then 1 else magnitude F.

(** a stress is in equilibrium with the external force, up to [eps]: for every virtual displacement of at most [delta] in each direction of each node, its work differs by less than [eps * delta] *)
Definition equilibrium (coor : list (list R)) (ties : list (nat * nat)) (fixed : list nat) (nnode nelem : nat) (v : Vector) (E : Elem) (eps : R) (sig : arr) (fext : list (list R)) : Prop :=
  forall w we c delta, 0 < delta -> virtual_disp coor ties fixed nnode (el_ndim E) w -> (forall m i, (m < nnode + el_ndim E)%nat -> (i < el_ndim E)%nat -> Rabs (val2 w m i) <= delta) ->
    AsElement_nodevec v w = Ok we -> valid_call nelem c ->
    Rabs (integral nelem E sig (el_GradN_vector E c (of_rows we)) - work (nnode + el_ndim E) (el_ndim E) fext w) < eps * delta.

(** valid memory and orders of the parallel loops in all iterations *)
Definition memory_ok (nelem n ndim : nat) (lm : loop_memory) : Prop := forall inc iiter,
  valid_memory nelem n ndim (lm_mem lm inc iiter) /\ (forall k, Permutation (lm_os lm inc iiter k) (list_prod (seq 0 n) (seq 0 ndim))) /\ schedule nelem (lm_es lm inc iiter).

(** the updates of one component of one control node: [dgamma] for direction 1 of the first control node *)
Definition control_update (nnode m i : nat) (dgamma : R) : R := if (m =? nnode)%nat && (i =? 1)%nat then dgamma else 0.
