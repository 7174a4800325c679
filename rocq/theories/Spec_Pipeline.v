(** Specification vocabulary for the programs of Model_Pipeline.v. *)
From Coq Require Import Reals.
From Verif Require Import Model_Element Spec_Element Base Spec Sums Spec_Vector Model_Vector Model_Pipeline.
Local Open Scope R_scope.

(** the element objects a user can make for [nelem] elements, of each class, with nodal coordinates [x] *)
Inductive elem_obj (nelem : nat) : arr -> Elem -> Prop :=
| obj_Quad4 nip xi w x Q : Quad4_obj nelem nip xi w x Q -> elem_obj nelem x (Quad4_elem Q)
| obj_Planar nip xi w thick x P : Planar_obj nelem nip xi w thick x P -> elem_obj nelem x (Planar_elem P)
| obj_Axisym nip xi w x A : Axisym_obj nelem nip xi w x A -> elem_obj nelem x (Axisym_elem A)
| obj_Hex8 nip xi w x Q : Hex8_obj nelem nip xi w x Q -> elem_obj nelem x (Hex8_elem Q).

(** a call that visits every element once *)
Definition valid_call (nelem : nat) (c : call) : Prop := schedule nelem (c_es c).

(** a tensor at every integration point: "for all elements, points and components" *)
Definition all_points (nelem : nat) (E : Elem) (P : nat -> nat -> nat -> nat -> Prop) : Prop :=
  forall e q i j, (e < nelem)%nat -> (q < el_nip E)%nat -> (i < el_tdim E)%nat -> (j < el_tdim E)%nat -> P e q i j.

(** symmetries of a stiffness tensor (with the convention (C : A)_ij = C_ijkl A_lk of [ddot42]) *)
Definition minor_symmetric (nelem : nat) (E : Elem) (C : arr) : Prop :=
  all_points nelem E (fun e q i j => forall k l, (k < el_tdim E)%nat -> (l < el_tdim E)%nat -> C [e;q;i;j;k;l] = C [e;q;i;j;l;k]).
Definition major_symmetric (nelem : nat) (E : Elem) (C : arr) : Prop :=
  all_points nelem E (fun e q i j => forall k l, (k < el_tdim E)%nat -> (l < el_tdim E)%nat -> C [e;q;i;j;k;l] = C [e;q;l;k;j;i]).

(** integral of A : B over the body, by quadrature *)
Definition integral (nelem : nat) (E : Elem) (A B : arr) : R :=
  sumn nelem (fun e => sumn (el_nip E) (fun q =>
    sumn (el_tdim E) (fun i => sumn (el_tdim E) (fun j => A [e;q;i;j] * B [e;q;i;j])) * el_dV E [e;q])).

(** a material law: the stress at an integration point depends on the strain at that point (and on
    anything that does not change meanwhile, such as the history of the point) *)
Definition local_law (nelem : nat) (E : Elem) (law : arr -> arr) : Prop :=
  forall A B e q, (e < nelem)%nat -> (q < el_nip E)%nat ->
    (forall i j, (i < el_tdim E)%nat -> (j < el_tdim E)%nat -> A [e;q;i;j] = B [e;q;i;j]) ->
    forall i j, (i < el_tdim E)%nat -> (j < el_tdim E)%nat -> law A [e;q;i;j] = law B [e;q;i;j].

(** C is the derivative (in all directions) of the material law at the strain A *)
Definition tangent_at (nelem : nat) (E : Elem) (law : arr -> arr) (A C : arr) : Prop :=
  forall D, all_points nelem E (fun e q i j =>
    derivable_pt_lim (fun t => law (fun k => A k + t * D k) [e;q;i;j]) 0 (ddot42 (el_tdim E) C D [e;q;i;j])).

(** u + t * du *)
Definition move (u du : list (list R)) (t : R) : list (list R) := add2 u (map (map (Rmult t)) du).

(** the classes with Cartesian components *)
Inductive cartesian_obj (nelem : nat) : arr -> Elem -> Prop :=
| cart_Quad4 nip xi w x Q : Quad4_obj nelem nip xi w x Q -> cartesian_obj nelem x (Quad4_elem Q)
| cart_Planar nip xi w thick x P : Planar_obj nelem nip xi w thick x P -> cartesian_obj nelem x (Planar_elem P)
| cart_Hex8 nip xi w x Q : Hex8_obj nelem nip xi w x Q -> cartesian_obj nelem x (Hex8_elem Q).
(** the two-dimensional ones, with integration points where the Jacobian is not zero *)
Inductive regular2_obj (nelem : nat) : arr -> Elem -> Prop :=
| reg_Quad4 nip xi w x Q : Quad4_obj nelem nip xi w x Q -> (forall e q, (e < nelem)%nat -> (q < nip)%nat -> jac2 (nodes x e) (point xi q) <> 0) -> regular2_obj nelem x (Quad4_elem Q)
| reg_Planar nip xi w thick x P : Planar_obj nelem nip xi w thick x P -> (forall e q, (e < nelem)%nat -> (q < nip)%nat -> jac2 (nodes x e) (point xi q) <> 0) ->
    regular2_obj nelem x (Planar_elem P).

(** calls and schedules of one run *)
Definition valid_memory (nelem nnode ndim : nat) (mem : run_memory) : Prop :=
  valid_call nelem (r_eps0 mem) /\ valid_call nelem (r_f0 mem) /\ valid_call nelem (r_K mem) /\ valid_call nelem (r_eps1 mem) /\ valid_call nelem (r_f1 mem) /\
  Permutation (r_order mem) (list_prod (seq 0 nnode) (seq 0 ndim)).

(** the energy density A : C : A is not negative, and neither are the integration volumes *)
Definition positive_stiffness (nelem : nat) (E : Elem) (C : arr) : Prop :=
  forall A e q, (e < nelem)%nat -> (q < el_nip E)%nat -> 0 <= sumn (el_tdim E) (fun i => sumn (el_tdim E) (fun j => ddot42 (el_tdim E) C A [e;q;i;j] * A [e;q;i;j])).
Definition positive_volume (nelem : nat) (E : Elem) : Prop := forall e q, (e < nelem)%nat -> (q < el_nip E)%nat -> 0 <= el_dV E [e;q].

(** nodal values on a mesh: the shape, and equal values where nodes share a DOF *)
Definition nodal (dofs : list (list nat)) (nnode ndim : nat) (u : list (list R)) : Prop := shape2 u nnode ndim /\ agree2 dofs nnode ndim u.
(** the two calls of element methods of one time step *)
Definition valid_calls (nelem : nat) (c : call * call) : Prop := valid_call nelem (fst c) /\ valid_call nelem (snd c).
