(** Model of the program docs/examples/statics/periodic_elastoplastic.py: a periodic cell that is deformed through control nodes. *)
From Coq Require Import Reals.
From Verif Require Import Model_Element Base Sums Model_Numbering Model_Vector Model_VectorPartitioned Model_Sparse Model_Tyings Model_Matrix Model_MatrixPartitioned Model_MatrixTyings Model_MeshGeometry Model_Pipeline.

(** what the set-up makes: the tyings, the coordinates and control nodes, the vector class and the matrix *)
Record PeriodicSystem := mkPS {
  ps_t : Periodic; ps_coor : list (list R); ps_control_nodes : list nat; ps_vector : VectorTyings; ps_K : MatrixTyings }.

(** periodic_elastoplastic.py:27-48, 85: control nodes are added, the control DOFs and the DOFs of the nodes [fixed] (the origin of the
    mesh) are prescribed, and the tyings, the vector class and the matrix are made.  [nnode], [ndim], [nne]: the sizes of the mesh. *)
Definition periodic_setup (coor : list (list R)) (nnode ndim : nat) (dofs conn : list (list nat)) (nne : nat) (ties : list (nat * nat)) (fixed : list nat) : res PeriodicSystem :=
  let c := new_Control coor nnode ndim dofs in
  do fixed_dofs <- mapM (get (tc_dofs c)) fixed;
  let iip := concat (tc_control_dofs c) ++ concat fixed_dofs in
  do t <- new_Periodic (tc_coor c) ndim (tc_dofs c) (tc_control_dofs c) ties iip;
  do cu <- Cdu t; do cp <- Cdp t; do ci <- Cdi t;
  let v := mkVector conn nne (tp_dofs t) ndim in
  Ok (mkPS t (tc_coor c) (tc_control_nodes c) (mkVT v cu cp ci) (new_MatrixTyings v cu cp)).

(** one iteration: what is different each time.  [it_law]: the stress as function of the strain (with the history of the material at
    that time), [it_C]: the tangent, [it_du]: the prescribed displacement updates (zero elsewhere) *)
Record iteration := mkIteration { it_mem : run_memory; it_law : arr -> arr; it_C : arr; it_fext : list (list R); it_du : list (list R) }.

(** periodic_elastoplastic.py:98-145 without the convergence check (below): strain, stress, internal force, stiffness, solve, update *)
Definition newton_tyings (linsolve : mat -> list R -> list R) (v : Vector) (E : Elem) (st : list (list R) * MatrixTyings * Solver) (it : iteration)
    : res (list (list R) * MatrixTyings * Solver) :=
  let disp := fst (fst st) in
  do fint <- internal_force v E (it_law it) (r_eps0 (it_mem it)) (r_f0 (it_mem it)) disp;
  do K <- PT_assemble (snd (fst st)) (element_stiffness v E (r_K (it_mem it)) (it_C it));
  do sol <- PT_solve_nodevec K linsolve (snd st) (r_order (it_mem it)) (sub2 (it_fext it) fint) (it_du it);
  Ok (add2 disp (fst (fst sol)), snd sol, snd (fst sol)).

(** periodic_elastoplastic.py:118-121: the forces on the independent DOFs, with the reactions; [os]: the orders of the parallel loops *)
Definition periodic_forces (vt : VectorTyings) (os : nat -> list (nat * nat)) (fext fint : list (list R)) : res (list R * list R) :=
  do Fext <- AsDofs_i vt (os 0) (os 1) fext;
  do Fint <- AsDofs_i vt (os 2) (os 3) fint;
  do Fext <- vt_copy_p vt Fint Fext;
  Ok (Fext, Fint).
