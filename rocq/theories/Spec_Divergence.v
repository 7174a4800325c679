(** Specification vocabulary for the divergence theorem on a planar mesh. *)
From Coq Require Import Reals List.
From Verif Require Import Model_Element Spec_Element Base Spec Sums Spec_Vector Model_Pipeline Spec_Pipeline Spec_Patch.
Local Open Scope R_scope.

(** Quad4 objects (thickness 1) and Quad4Planar objects (thickness [thick]) with a rule whose weights sum to the area (= 4) of the
    parent element and whose points are around its centre, with a Jacobian that is not zero at the integration points *)
Inductive sheet_obj (nelem : nat) : R -> arr -> Elem -> Prop :=
| sheet_Quad4 nip xi w x Q : Quad4_obj nelem nip xi w x Q -> centred nip xi w -> sumn nip (fun q => w [q]) = 4 ->
    (forall e q, (e < nelem)%nat -> (q < nip)%nat -> jac2 (nodes x e) (point xi q) <> 0) -> sheet_obj nelem 1 x (Quad4_elem Q)
| sheet_Planar nip xi w thick x P : Planar_obj nelem nip xi w thick x P -> centred nip xi w -> sumn nip (fun q => w [q]) = 4 ->
    (forall e q, (e < nelem)%nat -> (q < nip)%nat -> jac2 (nodes x e) (point xi q) <> 0) -> sheet_obj nelem thick x (Planar_elem P).

(** the rules of Quad4 with four points *)
Inductive full_rule : nat -> arr -> arr -> Prop :=
| rule_Gauss j j' : full_rule 4 (Gauss4_xi j) (Gauss4_w j')
| rule_Nodal j j' : full_rule 4 (Nodal4_xi j) (Nodal4_w j').

(** component i of the outward normal of the step (p, q) of a counter-clockwise path, times its length *)
Definition normal (X : list (list R)) (i : nat) (s : nat * nat) : R :=
  match i with
  | O => val2 X (snd s) 1 - val2 X (fst s) 1
  | _ => - (val2 X (snd s) 0 - val2 X (fst s) 0)
  end.
(** the mean of component j of the displacement over this step *)
Definition mean (u : list (list R)) (j : nat) (s : nat * nat) : R := (val2 u (fst s) j + val2 u (snd s) j) / 2.

(** the displacement of the nodes of the elements *)
Definition nodal_elem (conn : list (list nat)) (nelem : nat) (u : list (list R)) (ue : arr) : Prop :=
  forall e m i, (e < nelem)%nat -> (m < 4)%nat -> (i < 2)%nat -> ue [e;m;i] = val2 u (idx2 conn e m) i.
