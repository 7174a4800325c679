(** Specification of matrices with tyings.  DOFs are numbered unknown, prescribed, dependent:
    [0, nnu), [nnu, nni), [nni, ndof). *)
From Coq Require Import List Arith Reals.
From Verif Require Import Spec Sums Spec_Vector Spec_Matrix Model_Sparse Model_MatrixTyings.
Import ListNotations.

(** all DOFs in terms of the independent ones: x_a = sum_j (tie a j) x_j *)
Definition tie (nnu nni : nat) (Cdu Cdp : mat) (a j : nat) : R :=
  if (a <? nni)%nat then ind (a =? j)%nat
  else if (j <? nnu)%nat then ent Cdu (a - nni) j else ent Cdp (a - nni) (j - nnu).

(** the matrix after elimination of the dependent DOFs: T^t A T *)
Definition condensed (ndof : nat) (T A : nat -> nat -> R) (i j : nat) : R :=
  sumn ndof (fun a => sumn ndof (fun b => T a i * (A a b * T b j)))%R.

(** sizes of the tying matrices *)
Record tying_sizes (Cdu Cdp : mat) (nnu nnp nnd : nat) : Prop := {
  ts_nnu : cols Cdu = nnu; ts_nnp : cols Cdp = nnp; ts_nnd : rows Cdu = nnd; ts_nnd' : rows Cdp = nnd }.

(** the matrix after a history: that of the last [assemble] *)
Definition last_assembled (conn dofs : list (list nat)) (nelem nne ndim : nat) (ops : list top) : nat -> nat -> R :=
  fold_left (fun A o => match o with TAssemble K => assembled conn dofs nelem nne ndim K | _ => A end) ops (fun _ _ => 0%R).

Definition valid_top (nelem nne ndim : nat) (o : top) : Prop :=
  match o with TAssemble K => shape3 K nelem (nne * ndim) (nne * ndim) | _ => True end.

(** the solver solves every system with this matrix *)
Definition solves_matrix (linsolve : mat -> list R -> list R) (n : nat) (M : nat -> nat -> R) : Prop :=
  forall a, rows a = n -> cols a = n -> (forall i j, i < n -> j < n -> ent a i j = M i j) ->
  forall b, length b = n -> length (linsolve a b) = n /\ forall i, i < n -> mv n M (val1 (linsolve a b)) i = val1 b i.
