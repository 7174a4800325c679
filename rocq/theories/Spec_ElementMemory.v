(** Specification of the memory level: what an array stores, the documented shapes of the arguments and results of the quadrature classes, and
    the objects of Model_Element.v (mathematical arrays) an object in memory stands for. *)
From Coq Require Import Reals.
From Verif Require Import Model_Element Spec_Element Base Model_Checked Model_ElementMemory.

(** (i_1, .., i_k) is an index of an array of shape (d_1, .., d_k) *)
Definition index (s ix : list nat) : Prop := Forall2 lt ix s.
(** its place in row-major order *)
Fixpoint place (s ix : list nat) : nat := match s, ix with _ :: s, i :: ix => i * size s + place s ix | _, _ => 0 end.
(** an array as xtensor keeps it: as many numbers as its shape says *)
Definition array (b : buf) : Prop := length (b_data b) = size (b_shape b).
(** its entries *)
Definition entry (b : buf) : arr := fun ix => nth (place (b_shape b) ix) (b_data b) 0%R.

(** the documentation: elemvec [nelem, nne, ndim], elemmat [nelem, nne * ndim, nne * ndim], qvector [nelem, nip, n], qscalar [nelem, nip],
    qtensor [nelem, nip, tdim, tdim] (and of rank four); [n]: the number of components of a vector field *)
Definition nodes_per_element (c : eclass) : nat := match c with CHex8 => 8 | _ => 4 end.
Definition dimension (c : eclass) : nat := match c with CHex8 => 3 | _ => 2 end.
Definition tensor_dimension (c : eclass) : nat := match c with CQuad4 => 2 | _ => 3 end.
Definition argument_shape (c : eclass) (nelem nip : nat) (f : method) (n : nat) : list nat :=
  match f with
  | InterpQuad_vector => [nelem; nodes_per_element c; n]
  | GradN_vector | GradN_vector_T | SymGradN_vector => [nelem; nodes_per_element c; dimension c]
  | Int_N_vector_dV => [nelem; nip; n]
  | Int_N_scalar_NT_dV => [nelem; nip]
  | Int_gradN_dot_tensor2_dV => [nelem; nip; tensor_dimension c; tensor_dimension c]
  | Int_gradN_dot_tensor4_dot_gradNT_dV => [nelem; nip; tensor_dimension c; tensor_dimension c; tensor_dimension c; tensor_dimension c]
  end.
Definition result_shape (c : eclass) (nelem nip : nat) (f : method) (n : nat) : list nat :=
  let k := nodes_per_element c * dimension c in
  match f with
  | InterpQuad_vector => [nelem; nip; n]
  | GradN_vector | GradN_vector_T | SymGradN_vector => [nelem; nip; tensor_dimension c; tensor_dimension c]
  | Int_N_vector_dV => [nelem; nodes_per_element c; n]
  | Int_N_scalar_NT_dV | Int_gradN_dot_tensor4_dot_gradNT_dV => [nelem; k; k]
  | Int_gradN_dot_tensor2_dV => [nelem; nodes_per_element c; dimension c]
  end.
(** Quad4 interpolates vectors with two components only *)
Definition components (c : eclass) (f : method) (n : nat) : Prop := match f, c with InterpQuad_vector, CQuad4 => n = 2 | _, _ => True end.

(** the objects of Model_Element.v *)
Inductive object := OQuad4 (Q : Quadrature) | OPlanar (P : Planar) | OAxisym (A : Axisym) | OHex8 (Q : Quadrature).
(** the class, and the object after the constructor with integration points xi, w, and any number of calls of update_x; coordinates x *)
Definition is_object (c : eclass) (nelem nip : nat) (xi w x : arr) (O : object) : Prop :=
  match c, O with
  | CQuad4, OQuad4 Q => Quad4_obj nelem nip xi w x Q
  | CPlanar t, OPlanar P => Planar_obj nelem nip xi w t x P
  | CAxisym, OAxisym A => Axisym_obj nelem nip xi w x A
  | CHex8, OHex8 Q => Hex8_obj nelem nip xi w x Q
  | _, _ => False
  end.
(** the methods of Model_Element.v; [n]: the number of components *)
Definition result (O : object) (es : list nat) (f : method) (n : nat) (arg out : arr) : arr :=
  match O, f with
  | OQuad4 Q, InterpQuad_vector => Quad4_interpQuad_vector es Q arg out
  | OQuad4 Q, GradN_vector => Quad4_gradN_vector es Q arg out
  | OQuad4 Q, GradN_vector_T => Quad4_gradN_vector_T es Q arg out
  | OQuad4 Q, SymGradN_vector => Quad4_symGradN_vector es Q arg out
  | OQuad4 Q, Int_N_vector_dV => Quad4_int_N_vector_dV es Q n arg out
  | OQuad4 Q, Int_N_scalar_NT_dV => Quad4_int_N_scalar_NT_dV es Q arg out
  | OQuad4 Q, Int_gradN_dot_tensor2_dV => Quad4_int_gradN_dot_tensor2_dV es Q arg out
  | OQuad4 Q, Int_gradN_dot_tensor4_dot_gradNT_dV => Quad4_int_gradN_dot_tensor4_dot_gradNT_dV es Q arg out
  | OPlanar P, InterpQuad_vector => Planar_interpQuad_vector es P n arg out
  | OPlanar P, GradN_vector => Planar_gradN_vector es P arg out
  | OPlanar P, GradN_vector_T => Planar_gradN_vector_T es P arg out
  | OPlanar P, SymGradN_vector => Planar_symGradN_vector es P arg out
  | OPlanar P, Int_N_vector_dV => Planar_int_N_vector_dV es P n arg out
  | OPlanar P, Int_N_scalar_NT_dV => Planar_int_N_scalar_NT_dV es P arg out
  | OPlanar P, Int_gradN_dot_tensor2_dV => Planar_int_gradN_dot_tensor2_dV es P arg out
  | OPlanar P, Int_gradN_dot_tensor4_dot_gradNT_dV => Planar_int_gradN_dot_tensor4_dot_gradNT_dV es P arg out
  | OAxisym A, InterpQuad_vector => Axisym_interpQuad_vector es A n arg out
  | OAxisym A, GradN_vector => Axisym_gradN_vector es A arg out
  | OAxisym A, GradN_vector_T => Axisym_gradN_vector_T es A arg out
  | OAxisym A, SymGradN_vector => Axisym_symGradN_vector es A arg out
  | OAxisym A, Int_N_vector_dV => Axisym_int_N_vector_dV es A n arg out
  | OAxisym A, Int_N_scalar_NT_dV => Axisym_int_N_scalar_NT_dV es A arg out
  | OAxisym A, Int_gradN_dot_tensor2_dV => Axisym_int_gradN_dot_tensor2_dV es A arg out
  | OAxisym A, Int_gradN_dot_tensor4_dot_gradNT_dV => Axisym_int_gradN_dot_tensor4_dot_gradNT_dV es A arg out
  | OHex8 Q, InterpQuad_vector => Hex8_interpQuad_vector es Q n arg out
  | OHex8 Q, GradN_vector => Hex8_gradN_vector es Q arg out
  | OHex8 Q, GradN_vector_T => Hex8_gradN_vector_T es Q arg out
  | OHex8 Q, SymGradN_vector => Hex8_symGradN_vector es Q arg out
  | OHex8 Q, Int_N_vector_dV => Hex8_int_N_vector_dV es Q n arg out
  | OHex8 Q, Int_N_scalar_NT_dV => Hex8_int_N_scalar_NT_dV es Q arg out
  | OHex8 Q, Int_gradN_dot_tensor2_dV => Hex8_int_gradN_dot_tensor2_dV es Q arg out
  | OHex8 Q, Int_gradN_dot_tensor4_dot_gradNT_dV => Hex8_int_gradN_dot_tensor4_dot_gradNT_dV es Q arg out
  end.
(** its shape functions, gradients (dNx, or B) and integration volumes *)
Definition obj_N (O : object) : arr := match O with OQuad4 Q | OHex8 Q => q_N Q | OPlanar P => q_N (p_base P) | OAxisym A => a_N A end.
Definition obj_grad (O : object) : arr := match O with OQuad4 Q | OHex8 Q => q_dNx Q | OPlanar P => q_dNx (p_base P) | OAxisym A => a_B A end.
Definition obj_vol (O : object) : arr := match O with OQuad4 Q | OHex8 Q => q_vol Q | OPlanar P => q_vol (p_base P) | OAxisym A => a_vol A end.
Definition gradient_shape (c : eclass) (nelem nip : nat) : list nat :=
  match c with CAxisym => [nelem; nip; 4; 3; 3; 3] | _ => [nelem; nip; nodes_per_element c; dimension c] end.

(** the arguments of the constructor as documented: x [nelem, nne, ndim], xi [nip, ndim], w [nip] *)
Definition documented (c : eclass) (nelem nip : nat) (x xi w : buf) : Prop :=
  b_shape x = [nelem; nodes_per_element c; dimension c] /\ b_shape xi = [nip; dimension c] /\ b_shape w = [nip].
(** every schedule: the elements in any order *)
Definition schedules (es : nat -> list nat) : Prop := forall nelem, Spec_Element.schedule nelem (es nelem).

(** an object in memory, as the constructor and any number of calls of update_x leave it; [ck]: assertions enabled.  Uninitialised memory and
    schedules are arbitrary. *)
Inductive constructed (ck : bool) (c : eclass) (xi w : buf) : buf -> quad -> Prop :=
| constructed_new es g1 g2 g3 g4 junk x Q : schedules es -> array x ->
    new_quad ck c es g1 g2 g3 g4 junk x xi w = Ok Q -> constructed ck c xi w x Q
| constructed_update es junk x0 Q x Q' : schedules es -> array x ->
    constructed ck c xi w x0 Q -> (ck = false -> b_shape x = b_shape x0) ->
    update_x ck c es junk x Q = Ok Q' -> constructed ck c xi w x Q'.
