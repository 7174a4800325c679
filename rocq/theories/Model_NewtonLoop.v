(** Model of the loops of docs/examples/statics/periodic_elastoplastic.py (93-147) and docs/examples/statics/periodic_elastoplastic_finite-strain.py (98-156): increments,
    iterations, the check for convergence and the exception.  The two programs differ in the geometry only (below). *)
From Coq Require Import Reals.
From Verif Require Import Model_Element Base Sums Model_Numbering Model_Vector Model_VectorPartitioned Model_Sparse Model_Tyings Model_Matrix Model_MatrixPartitioned Model_MatrixTyings Model_MeshGeometry Model_Pipeline
  Model_PeriodicProgram Model_FiniteStrain.

(** the material library (not part of this library): a state, [mat.increment()], [mat.Eps = ...; mat.refresh()], [mat.Sig] and [mat.C]: any functions *)
Record Material := mkMaterial { Mat : Type; mat_increment : Mat -> Mat; mat_refresh : Mat -> arr -> Mat; mat_Sig : Mat -> arr; mat_C : Mat -> arr }.

(** the element object(s): the one that integrates, the strain (or deformation gradient) that the material gets, and what happens after the displacement has changed *)
Record Geometry := mkGeometry { Geo : Type; geo_elem : Geo -> Elem; geo_strain : Geo -> call -> arr -> arr; geo_move : list nat -> arr -> list (list R) -> Geo -> res Geo }.
(** periodic_elastoplastic.py:51, 98-101: one object, which does not change *)
Definition small_strain (E : Elem) : Geometry := mkGeometry unit (fun _ => E) (fun _ => el_SymGradN_vector E) (fun _ _ _ g => Ok g).
(** periodic_elastoplastic_finite-strain.py:51-52, 104-106, 155-156 *)
Definition finite_strain (v : Vector) (coor : list (list R)) (E0 : Elem) : Geometry :=
  mkGeometry Planar Planar_elem (fun _ => material_F E0) (fun es junk disp P => do xe <- AsElement_nodevec v (add2 coor disp); Ok (Planar_update_x es junk (of_rows xe) P)).

(** the uninitialised memory and the orders of the parallel loops, in increment [inc] and iteration [iiter] *)
Record loop_memory := mkLM { lm_mem : nat -> nat -> run_memory; lm_os : nat -> nat -> nat -> list (nat * nat); lm_es : nat -> nat -> list nat; lm_junk : nat -> nat -> arr }.

Section Loop.
Variables (M : Material) (G : Geometry) (linsolve : mat -> list R -> list R) (vt : VectorTyings) (control_nodes : list nat) (lm : loop_memory) (fext : list (list R)).
Let v := vt_v vt.

Record loop_state := mkLS { ls_disp : list (list R); ls_geo : Geo G; ls_mat : Mat M; ls_fint : list (list R); ls_K : MatrixTyings; ls_solver : Solver }.

(** periodic_elastoplastic.py:98-109: strain, stress, internal force and stiffness *)
Definition evaluate (mem : run_memory) (st : loop_state) : res loop_state :=
  let E := geo_elem G (ls_geo st) in
  do ue <- AsElement_nodevec v (ls_disp st);
  let m := mat_refresh M (ls_mat st) (geo_strain G (ls_geo st) (r_eps0 mem) (of_rows ue)) in
  do fint <- AssembleNode v (to_rows (m_nelem v) (el_nne E) (el_ndim E) (el_Int_gradN_dot_tensor2_dV E (r_f0 mem) (mat_Sig M m)));
  do K <- PT_assemble (ls_K st) (element_stiffness v E (r_K mem) (mat_C M m));
  Ok (mkLS (ls_disp st) (ls_geo st) m fint K (ls_solver st)).

(** periodic_elastoplastic.py:122-128: [np.sum(np.abs(.))] and the relative residual *)
Definition sum_abs (x : list R) : R := sumL x Rabs.
Definition residual (Fext Fint : list R) : R :=
  let nfres := sum_abs (map (fun p => fst p - snd p)%R (combine Fext Fint)) in
  let nfext := sum_abs Fext in
  if Req_EM_T nfext 0 then nfres else (nfres / nfext)%R.

Inductive decision := Break | Raise | Continue.
(** periodic_elastoplastic.py:114-134 *)
Definition check (os : nat -> list (nat * nat)) (tol : R) (iiter : nat) (st : loop_state) : res decision :=
  if 0 <? iiter then
    do F <- periodic_forces vt os fext (ls_fint st);
    if Rlt_dec (residual (fst F) (snd F)) tol then Ok Break else if 20 <? iiter then Ok Raise else Ok Continue
  else Ok Continue.

(** periodic_elastoplastic.py:111-112, 136-147: the prescribed displacement update, solve, update of the displacement (and of the geometry) *)
Definition advance (mem : run_memory) (es : list nat) (junk : arr) (iiter : nat) (dgamma : R) (st : loop_state) : res loop_state :=
  let zero := repeat (repeat 0%R (m_ndim v)) (length (ls_disp st)) in
  do du <- (if iiter =? 0 then do c <- get control_nodes 0; do row <- get zero c; do row <- set row 1 dgamma; set zero c row else Ok zero);
  do sol <- PT_solve_nodevec (ls_K st) linsolve (ls_solver st) (r_order mem) (sub2 fext (ls_fint st)) du;
  let disp := add2 (ls_disp st) (fst (fst sol)) in
  do g <- geo_move G es junk disp (ls_geo st);
  Ok (mkLS disp g (ls_mat st) (ls_fint st) (snd sol) (snd (fst sol))).

(** periodic_elastoplastic.py:97-147 [for iiter in range(100)], from iteration [iiter] with [n] to go; [None]: the exception was raised.
    If the range is exhausted, the program goes on to the next increment *)
Fixpoint iterations (n inc iiter : nat) (tol dgamma : R) (st : loop_state) : res (option loop_state) :=
  match n with
  | 0 => Ok (Some st)
  | S n =>
    do st <- evaluate (lm_mem lm inc iiter) st;
    do d <- check (lm_os lm inc iiter) tol iiter st;
    match d with
    | Break => Ok (Some st)
    | Raise => Ok None
    | Continue => do st <- advance (lm_mem lm inc iiter) (lm_es lm inc iiter) (lm_junk lm inc iiter) iiter dgamma st; iterations n inc (S iiter) tol dgamma st
    end
  end.

(** periodic_elastoplastic.py:93-95 [for inc in range(dgamma.size)] *)
Fixpoint increments (inc : nat) (tol : R) (dgammas : list R) (st : loop_state) : res (option loop_state) :=
  match dgammas with
  | [] => Ok (Some st)
  | dgamma :: dgammas =>
    do r <- iterations 100 inc 0 tol dgamma (mkLS (ls_disp st) (ls_geo st) (mat_increment M (ls_mat st)) (ls_fint st) (ls_K st) (ls_solver st));
    match r with Some st => increments (S inc) tol dgammas st | None => Ok None end
  end.
End Loop.
