(** Model of the program docs/examples/statics/fixed-displacement_elastic_manual-partition.py: the system is solved for the unknown DOFs,
    and the nodal displacement is put together by the program itself. *)
From Coq Require Import Reals.
From Verif Require Import Model_Element Base Sums Model_Numbering Model_Vector Model_VectorPartitioned Model_Sparse Model_Matrix Model_MatrixPartitioned Model_Pipeline.

(** [u[ii] = x] of NumPy: the lengths have to be the same (simplification: an array of one entry would be broadcast) *)
Definition put (u : list R) (ii : list nat) (x : list R) : res (list R) :=
  if length ii =? length x then do w <- index_writes ii x; write_all u w else Throw.

(** fixed-displacement_elastic_manual-partition.py:57-112; [u0]: the memory of [np.empty], [u_p]: the prescribed displacements in the order of iip *)
Definition statics_manual (linsolve : mat -> list R -> list R) (mem : run_memory) (p : VectorPartitioned) (K : MatrixPartitioned) (s : Solver) (E : Elem) (law : arr -> arr) (C : arr)
    (fext disp0 : list (list R)) (u0 u_p : list R) : res (list (list R) * list (list R) * list (list R) * list (list R)) :=
  let v := vp_v p in
  do fint <- internal_force v E law (r_eps0 mem) (r_f0 mem) disp0;
  do K <- MP_assemble K (element_stiffness v E (r_K mem) C);
  let fres := sub2 fext fint in
  do fres_u <- AsDofs_u_nodevec p (r_order mem) fres;
  do sol <- MPS_solve_u K linsolve s fres_u u_p;
  let u_u := fst (fst sol) in
  do u <- put u0 (m_iiu p) u_u;
  do u <- put u (m_iip p) u_p;
  do disp <- AsNode_dofval v u;
  do fint <- internal_force v E law (r_eps1 mem) (r_f1 mem) disp;
  do fext <- Copy_p p fint fext;
  Ok (disp, fint, fext, sub2 fext fint).
