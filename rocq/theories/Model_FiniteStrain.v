(** Model of the program docs/examples/statics/periodic_elastoplastic_finite-strain.py: a periodic cell at large deformations. The set-up is that of periodic_elastoplastic.py
    ([periodic_setup] of Model_PeriodicProgram.v: lines 28-48 and 87-88 of the finite-strain program are the same calls).  There are two element objects: [elem0] keeps the reference
    geometry, [elem] follows the deformation. *)
From Coq Require Import Reals.
From Verif Require Import Model_Element Base Sums Model_Numbering Model_Vector Model_VectorPartitioned Model_Sparse Model_Tyings Model_Matrix Model_MatrixPartitioned Model_MatrixTyings Model_MeshGeometry Model_Pipeline
  Model_PeriodicProgram.

(** periodic_elastoplastic_finite-strain.py:91: unit tensors (GMatTensor, not part of the library) *)
Definition I2 : arr := fun k => match k with [_;_;i;j] => if (i =? j)%nat then 1%R else 0%R | _ => 0%R end.

(** periodic_elastoplastic_finite-strain.py:104-106: what the program passes to the material as deformation gradient *)
Definition material_F (E0 : Elem) (c : call) (ue : arr) : arr := fun k => (el_SymGradN_vector E0 c ue k + I2 k)%R.

(** the variables that an iteration changes: the displacement, the element object on the deformed geometry, the matrix and the solver *)
Record fs_state := mkFS { fs_disp : list (list R); fs_elem : Planar; fs_K : MatrixTyings; fs_solver : Solver }.
(** one iteration: see [iteration]; [fi_es], [fi_junk]: order of the loop and the uninitialised memory of update_x *)
Record fs_iteration := mkFI { fi_it : iteration; fi_es : list nat; fi_junk : arr }.

(** periodic_elastoplastic_finite-strain.py:103-156 without the convergence check (120-140): deformation gradient (from [elem0]), stress, internal force and stiffness (from
    [elem]), solve, update of the displacement and of the geometry.  [coor]: with the control nodes *)
Definition finite_newton (linsolve : mat -> list R -> list R) (v : Vector) (coor : list (list R)) (E0 : Elem) (st : fs_state) (fi : fs_iteration) : res fs_state :=
  let it := fi_it fi in
  let E := Planar_elem (fs_elem st) in
  do ue <- AsElement_nodevec v (fs_disp st);
  let F := material_F E0 (r_eps0 (it_mem it)) (of_rows ue) in
  let fe := el_Int_gradN_dot_tensor2_dV E (r_f0 (it_mem it)) (it_law it F) in
  do fint <- AssembleNode v (to_rows (m_nelem v) (el_nne E) (el_ndim E) fe);
  do K <- PT_assemble (fs_K st) (element_stiffness v E (r_K (it_mem it)) (it_C it));
  do sol <- PT_solve_nodevec K linsolve (fs_solver st) (r_order (it_mem it)) (sub2 (it_fext it) fint) (it_du it);
  let disp := add2 (fs_disp st) (fst (fst sol)) in
  do xe <- AsElement_nodevec v (add2 coor disp);
  Ok (mkFS disp (Planar_update_x (fi_es fi) (fi_junk fi) (of_rows xe) (fs_elem st)) (snd sol) (snd (fst sol))).
