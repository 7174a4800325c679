(** Specification vocabulary for the finite-strain program. *)
From Coq Require Import Reals List.
From Verif Require Import Model_Element Spec_Element Base Spec Sums Spec_Vector Model_Vector Model_MeshGeometry Model_Pipeline Spec_Pipeline.

(** [P st it] holds at every iteration [it] of a run, in the state [st] in which it starts *)
Fixpoint systems_solved {S I} (step : S -> I -> res S) (P : S -> I -> Prop) (its : list I) (st : S) : Prop :=
  match its with
  | [] => True
  | it :: its => P st it /\ forall st', step st it = Ok st' -> systems_solved step P its st'
  end.

(** the nodal coordinates of the elements are those of the mesh plus the displacement *)
Definition current (conn : list (list nat)) (nelem nne ndim : nat) (coor disp : list (list R)) (x : arr) : Prop :=
  forall e m i, e < nelem -> m < nne -> i < ndim -> x [e;m;i] = (val2 coor (idx2 conn e m) i + val2 disp (idx2 conn e m) i)%R.
