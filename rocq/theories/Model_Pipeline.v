(** Model of the programs that users write with the library, as documented in docs/examples: from nodal displacements through the
    element class to assembled nodal forces, the assembled stiffness, and the solution.  The programs only compose functions of the
    library (modelled in the files imported here) and the material law, which is not part of the library: any function from strains
    to stresses.  The four element classes have the same methods, collected in a record. *)
From Coq Require Import Reals.
From Verif Require Import Model_Element Base Sums Model_Numbering Model_Vector Model_VectorPartitioned Model_Sparse Model_Matrix Model_MatrixPartitioned Model_MatrixDiagonal Model_MeshGeometry.

(** one call of a method: the order in which the OpenMP loop visits the elements, and what is in the output before *)
Record call := mkCall { c_es : list nat; c_old : arr }.

(** the methods of an element object: Element.h:163-206, 584-587, 635-652, 700-717, 808-825, 850-868 *)
Record Elem := mkElem {
  el_nne : nat; el_ndim : nat; el_tdim : nat; el_nip : nat; el_dV : arr;
  el_GradN_vector : call -> arr -> arr; el_SymGradN_vector : call -> arr -> arr;
  el_Int_gradN_dot_tensor2_dV : call -> arr -> arr; el_Int_gradN_dot_tensor4_dot_gradNT_dV : call -> arr -> arr }.

(** ElementQuad4.h, s_nne = 4, s_ndim = 2, s_tdim = 2 (lines 534-537) *)
Definition Quad4_elem (Q : Quadrature) : Elem := {| el_nne := 4; el_ndim := 2; el_tdim := 2; el_nip := q_nip Q; el_dV := q_vol Q;
  el_GradN_vector := fun c u => Quad4_gradN_vector (c_es c) Q u (c_old c);
  el_SymGradN_vector := fun c u => Quad4_symGradN_vector (c_es c) Q u (c_old c);
  el_Int_gradN_dot_tensor2_dV := fun c s => Quad4_int_gradN_dot_tensor2_dV (c_es c) Q s (c_old c);
  el_Int_gradN_dot_tensor4_dot_gradNT_dV := fun c C => Quad4_int_gradN_dot_tensor4_dot_gradNT_dV (c_es c) Q C (c_old c) |}.
(** ElementQuad4Planar.h:321-324 *)
Definition Planar_elem (P : Planar) : Elem := {| el_nne := 4; el_ndim := 2; el_tdim := 3; el_nip := q_nip (p_base P); el_dV := q_vol (p_base P);
  el_GradN_vector := fun c u => Planar_gradN_vector (c_es c) P u (c_old c);
  el_SymGradN_vector := fun c u => Planar_symGradN_vector (c_es c) P u (c_old c);
  el_Int_gradN_dot_tensor2_dV := fun c s => Planar_int_gradN_dot_tensor2_dV (c_es c) P s (c_old c);
  el_Int_gradN_dot_tensor4_dot_gradNT_dV := fun c C => Planar_int_gradN_dot_tensor4_dot_gradNT_dV (c_es c) P C (c_old c) |}.
(** ElementQuad4Axisymmetric.h:448-451 *)
Definition Axisym_elem (A : Axisym) : Elem := {| el_nne := 4; el_ndim := 2; el_tdim := 3; el_nip := a_nip A; el_dV := a_vol A;
  el_GradN_vector := fun c u => Axisym_gradN_vector (c_es c) A u (c_old c);
  el_SymGradN_vector := fun c u => Axisym_symGradN_vector (c_es c) A u (c_old c);
  el_Int_gradN_dot_tensor2_dV := fun c s => Axisym_int_gradN_dot_tensor2_dV (c_es c) A s (c_old c);
  el_Int_gradN_dot_tensor4_dot_gradNT_dV := fun c C => Axisym_int_gradN_dot_tensor4_dot_gradNT_dV (c_es c) A C (c_old c) |}.
(** ElementHex8.h:383-388 *)
Definition Hex8_elem (Q : Quadrature) : Elem := {| el_nne := 8; el_ndim := 3; el_tdim := 3; el_nip := q_nip Q; el_dV := q_vol Q;
  el_GradN_vector := fun c u => Hex8_gradN_vector (c_es c) Q u (c_old c);
  el_SymGradN_vector := fun c u => Hex8_symGradN_vector (c_es c) Q u (c_old c);
  el_Int_gradN_dot_tensor2_dV := fun c s => Hex8_int_gradN_dot_tensor2_dV (c_es c) Q s (c_old c);
  el_Int_gradN_dot_tensor4_dot_gradNT_dV := fun c C => Hex8_int_gradN_dot_tensor4_dot_gradNT_dV (c_es c) Q C (c_old c) |}.

(** [a + b], [a - b] of two nodal arrays *)
Definition zip2 (f : R -> R -> R) (a b : list (list R)) : list (list R) := map (fun p => map (fun q => f (fst q) (snd q)) (combine (fst p) (snd p))) (combine a b).
Definition add2 := zip2 Rplus.
Definition sub2 := zip2 Rminus.

Section Programs.
Variable v : Vector.
Variable E : Elem.

(** docs/examples/statics/fixed-displacement_elastic.py:58-65 (and 86-94): displacement -> strain -> stress -> internal force.
    [strain]: the method that computes the strain *)
Definition internal_force_of (strain : Elem -> call -> arr -> arr) (law : arr -> arr) (c1 c2 : call) (disp : list (list R)) : res (list (list R)) :=
  do ue <- AsElement_nodevec v disp;
  let Eps := strain E c1 (of_rows ue) in
  let fe := el_Int_gradN_dot_tensor2_dV E c2 (law Eps) in
  AssembleNode v (to_rows (m_nelem v) (el_nne E) (el_ndim E) fe).
(** as in the example: [symGradN_vector] *)
Definition internal_force := internal_force_of el_SymGradN_vector.
(** the same program with the full gradient ([GradN_vector], Element.h:635-652) in place of its symmetric part *)
Definition internal_force_grad := internal_force_of el_GradN_vector.

(** fixed-displacement_elastic.py:68: the element stiffness matrices *)
Definition element_stiffness (c : call) (C : arr) : list (list (list R)) :=
  to_rows (m_nelem v) (el_nne E * el_ndim E) (el_nne E * el_ndim E) (el_Int_gradN_dot_tensor4_dot_gradNT_dV E c C).
End Programs.

(** schedules and memory of the calls of one program run *)
Record run_memory := { r_eps0 : call; r_f0 : call; r_K : call; r_eps1 : call; r_f1 : call; r_order : list (nat * nat) }.

(** docs/examples/statics/fixed-displacement_elastic.py:56-97.  [disp0]: the displacement to start with (zero), [bc]: the same with
    the prescribed displacements set (lines 75-78).  Result: displacement, internal force, external force with the reactions, residual. *)
Definition statics (linsolve : mat -> list R -> list R) (mem : run_memory) (p : VectorPartitioned) (K : MatrixPartitioned) (s : Solver) (E : Elem) (law : arr -> arr) (C : arr)
    (fext disp0 bc : list (list R)) : res (list (list R) * list (list R) * list (list R) * list (list R)) :=
  let v := vp_v p in
  do fint <- internal_force v E law (r_eps0 mem) (r_f0 mem) disp0;
  do K <- MP_assemble K (element_stiffness v E (r_K mem) C);
  let fres := sub2 fext fint in
  do sol <- MPS_solve_nodevec K linsolve s (r_order mem) fres bc;
  let disp := fst (fst sol) in
  do fint <- internal_force v E law (r_eps1 mem) (r_f1 mem) disp;
  do fext <- Copy_p p fint fext;
  Ok (disp, fint, fext, sub2 fext fint).

(** docs/examples/statics/periodic_elastoplastic.py:98-145, one iteration of Newton's method (with MatrixPartitioned): the update of
    the displacement; [du]: the prescribed displacement updates, zero elsewhere.  Returns also the matrix and the solver. *)
Definition newton (linsolve : mat -> list R -> list R) (mem : run_memory) (p : VectorPartitioned) (E : Elem) (law : arr -> arr) (C : arr) (fext : list (list R))
    (st : list (list R) * MatrixPartitioned * Solver) (du : list (list R)) : res (list (list R) * MatrixPartitioned * Solver) :=
  let v := vp_v p in
  let disp := fst (fst st) in
  do fint <- internal_force v E law (r_eps0 mem) (r_f0 mem) disp;
  do K <- MP_assemble (snd (fst st)) (element_stiffness v E (r_K mem) C);
  do sol <- MPS_solve_nodevec K linsolve (snd st) (r_order mem) (sub2 fext fint) du;
  Ok (add2 disp (fst (fst sol)), snd sol, snd (fst sol)).

(** ** explicit dynamics *)
Definition scal2 (t : R) (a : list (list R)) : list (list R) := map (map (Rmult t)) a.

(** docs/examples/dynamics/Elastic-VelocityVerlet/main.cpp:108-154: one increment; [mem]: the calls of the element methods; displacement, velocity, acceleration and
    the mass matrix (whose inverse is cached by [solve]) *)
Definition verlet_step (p : Vector) (E : Elem) (law : arr -> arr) (fext : list (list R)) (dt : R)
    (st : list (list R) * list (list R) * list (list R) * MatrixDiagonal) (mem : call * call) : res (list (list R) * list (list R) * list (list R) * MatrixDiagonal) :=
  let '(u, v, a, M) := st in
  let v_n := v in let a_n := a in
  let u := add2 (add2 u (scal2 dt v)) (scal2 (/ 2 * (dt * dt)) a) in
  do fint <- internal_force p E law (fst mem) (snd mem) u;
  let v := add2 v_n (scal2 dt a_n) in
  let fres := sub2 fext fint in
  do r <- MD_solve_nodevec M fres;
  let a := fst r in let M := snd r in
  let v := add2 v_n (scal2 (/ 2 * dt) (add2 a_n a)) in
  let fres := sub2 fext fint in
  do r <- MD_solve_nodevec M fres;
  let a := fst r in let M := snd r in
  let v := add2 v_n (scal2 (/ 2 * dt) (add2 a_n a)) in
  let fres := sub2 fext fint in
  do r <- MD_solve_nodevec M fres;
  let a := fst r in let M := snd r in
  Ok (u, v, a, M).
