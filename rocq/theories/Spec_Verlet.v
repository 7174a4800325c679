(** Specification vocabulary for the energy in the dynamics programs. *)
From Coq Require Import Reals.
From Verif Require Import Model_Element Spec_Element Base Spec Sums Spec_Vector Spec_Matrix Model_Vector Model_Pipeline Spec_Pipeline Spec_Periodic.
Local Open Scope R_scope.

(** the energy density of a linear material: half of stress : strain *)
Definition stored_energy (nelem : nat) (E : Elem) (law energy : arr -> arr) : Prop :=
  forall A e q, (e < nelem)%nat -> (q < el_nip E)%nat -> energy A [e;q] = / 2 * sumn (el_tdim E) (fun i => sumn (el_tdim E) (fun j => law A [e;q;i;j] * A [e;q;i;j])).

(** sum over the DOFs of mass * a * b *)
Definition mass_product (ndof : nat) (mass A B : list R) : R := sumn ndof (fun d => val1 mass d * (val1 A d * val1 B d)).

(** the displacements of the elements' nodes *)
Definition at_elements (conn : list (list nat)) (u : list (list R)) : arr := fun k => match k with [e;m;i] => val2 u (idx2 conn e m) i | _ => 0 end.
(** twice the elastic energy of a nodal displacement, with stiffness C *)
Definition twice_energy (conn : list (list nat)) (nelem : nat) (E : Elem) (C : arr) (w : list (list R)) : R :=
  let G := el_GradN_vector E (mkCall (seq 0 nelem) (fun _ => 0)) (at_elements conn w) in
  integral nelem E (ddot42 (el_tdim E) C G) G.
(** the same for one element *)
Definition twice_energy_in (conn : list (list nat)) (nelem : nat) (E : Elem) (C : arr) (w : list (list R)) (e : nat) : R :=
  let G := el_GradN_vector E (mkCall (seq 0 nelem) (fun _ => 0)) (at_elements conn w) in
  sumn (el_nip E) (fun q => sumn (el_tdim E) (fun i => sumn (el_tdim E) (fun j => ddot42 (el_tdim E) C G [e;q;i;j] * G [e;q;i;j])) * el_dV E [e;q]).

(** the time step is stable with a margin: dt^2 w.K.w <= 4 theta w.M.w for all displacements w *)
Definition stable_step (conn dofs : list (list nat)) (nelem nnode ndof : nat) (E : Elem) (C : arr) (mass : list R) (dt theta : R) : Prop :=
  forall w W, nodal dofs nnode (el_ndim E) w -> length W = ndof -> (forall n i, (n < nnode)%nat -> (i < el_ndim E)%nat -> val1 W (idx2 dofs n i) = val2 w n i) ->
    dt * dt * twice_energy conn nelem E C w <= 4 * theta * mass_product ndof mass W W.
(** the same for every element separately, with the diagonals of the element mass matrices *)
Definition stable_elements (conn : list (list nat)) (nelem nnode : nat) (E : Elem) (C : arr) (Km : list (list (list R))) (dt theta : R) : Prop :=
  forall w e, shape2 w nnode (el_ndim E) -> (e < nelem)%nat ->
    dt * dt * twice_energy_in conn nelem E C w e <=
    4 * theta * sumn (el_nne E) (fun m => sumn (el_ndim E) (fun i => val3 Km e (m * el_ndim E + i) (m * el_ndim E + i) * (val2 w (idx2 conn e m) i * val2 w (idx2 conn e m) i))).

(** a linear elastic material in two dimensions, with nip integration points per element: C: the stiffness, L: an upper bound of it *)
Record elastic_2d (nelem nip : nat) (C : arr) (law energy : arr -> arr) (L : R) : Prop := {
  em_law : forall A e q i j, (e < nelem)%nat -> (q < nip)%nat -> (i < 2)%nat -> (j < 2)%nat -> law A [e;q;i;j] = ddot42 2 C A [e;q;i;j];
  em_energy : forall A e q, (e < nelem)%nat -> (q < nip)%nat -> energy A [e;q] = / 2 * sumn 2 (fun i => sumn 2 (fun j => law A [e;q;i;j] * A [e;q;i;j]));
  em_minor : forall e q i j k l, (e < nelem)%nat -> (q < nip)%nat -> (i < 2)%nat -> (j < 2)%nat -> (k < 2)%nat -> (l < 2)%nat -> C [e;q;i;j;k;l] = C [e;q;i;j;l;k];
  em_major : forall e q i j k l, (e < nelem)%nat -> (q < nip)%nat -> (i < 2)%nat -> (j < 2)%nat -> (k < 2)%nat -> (l < 2)%nat -> C [e;q;i;j;k;l] = C [e;q;l;k;j;i];
  em_bound : forall A e q, (e < nelem)%nat -> (q < nip)%nat ->
    0 <= sumn 2 (fun i => sumn 2 (fun j => ddot42 2 C A [e;q;i;j] * A [e;q;i;j])) <= L * sumn 2 (fun i => sumn 2 (fun j => A [e;q;i;j] * A [e;q;i;j])) }.
(** the strain of the displacement gradient F, the same everywhere *)
Definition hom_strain (F : list (list R)) : arr := fun k => match k with [_;_;i;j] => (val2 F i j + val2 F j i) / 2 | _ => 0 end.
