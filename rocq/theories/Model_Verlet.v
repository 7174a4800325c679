(** Model of the two documented programs for explicit dynamics with their output: kinetic and potential energy in every increment. *)
From Coq Require Import Reals.
From Verif Require Import Model_Element Base Sums Model_Numbering Model_Vector Model_VectorPartitioned Model_Sparse Model_Matrix Model_MatrixPartitioned Model_MatrixDiagonal Model_MeshGeometry Model_Pipeline Model_Regular2d.

(** docs/examples/dynamics/Elastic-Verlet/main.cpp:10-19 [sqdot] (= Elastic-VelocityVerlet/main.cpp:10-19) *)
Definition sqdot (M V : list R) : res R :=
  foldM (fun ret i => do m <- get M i; do x <- get V i; Ok (ret + m * x * x)%R) (seq 0 (length M)) 0%R.

(** [xt::sum(E * dV)[0]] of two arrays of shape (nelem, nip) *)
Definition sum_points (nelem nip : nat) (a b : arr) : R := sumn nelem (fun e => sumn nip (fun q => a [e;q] * b [e;q])%R).

(** displacement, velocity, acceleration, mass matrix *)
Definition dyn_state : Type := list (list R) * list (list R) * list (list R) * MatrixDiagonal.

(** docs/examples/dynamics/Elastic-Verlet/main.cpp:111-137: one increment *)
Definition elastic_verlet_step (p : Vector) (E : Elem) (law : arr -> arr) (fext : list (list R)) (dt : R) (st : dyn_state) (mem : call * call) : res dyn_state :=
  let '(u, v, a, M) := st in
  let v_n := v in let a_n := a in
  let u := add2 (add2 u (scal2 dt v)) (scal2 (/ 2 * (dt * dt)) a) in
  do fint <- internal_force p E law (fst mem) (snd mem) u;
  let fres := sub2 fext fint in
  do r <- MD_solve_nodevec M fres;
  let a := fst r in let M := snd r in
  let v := add2 v_n (scal2 (/ 2 * dt) (add2 a_n a)) in
  Ok (u, v, a, M).

(** docs/examples/dynamics/Elastic-Verlet/main.cpp:139-146 (= Elastic-VelocityVerlet/main.cpp:159-166): kinetic and potential energy.
    [energy]: the energy density as a function of the strain, from the material; [c]: the call that computed the strain in this increment;
    [order]: the order of the iterations in [AsDofs] *)
Definition outputs (p : Vector) (E : Elem) (energy : arr -> arr) (mass : list R) (c : call) (order : list (nat * nat)) (u v : list (list R)) : res (R * R) :=
  do ue <- AsElement_nodevec p u;
  let Eps := el_SymGradN_vector E c (of_rows ue) in
  do V <- AsDofs_nodevec p order v;
  do k <- sqdot mass V;
  Ok ((/ 2 * k)%R, sum_points (m_nelem p) (el_nip E) (energy Eps) (el_dV E)).

(** the calls and the order of the iterations in one increment *)
Record inc_memory := mkInc { i_calls : call * call; i_order : list (nat * nat) }.

(** Elastic-Verlet/main.cpp:109-147, Elastic-VelocityVerlet/main.cpp:110-167: the loop over the increments; [step]: one increment of one of
    the two programs.  Result: the final state and what was stored for every increment. *)
Definition dynamics (step : dyn_state -> call * call -> res dyn_state) (p : Vector) (E : Elem) (energy : arr -> arr) (mass : list R)
    (incs : list inc_memory) (st : dyn_state) : res (dyn_state * list (R * R)) :=
  foldM (fun s m =>
    do st <- step (fst s) (i_calls m);
    do o <- outputs p E energy mass (fst (i_calls m)) (i_order m) (fst (fst (fst st))) (snd (fst (fst st)));
    Ok (st, snd s ++ [o])) incs (st, []).

(** Elastic-Verlet/main.cpp:87-97: the affine displacement to start with; [F]: dFbar (rows, columns), [coor]: at least one node *)
Definition affine_start (F : list (list R)) (coor : list (list R)) : res (list (list R)) :=
  do x0 <- get coor 0;
  foldM (fun u jk =>
      do f <- get2 F (fst jk) (snd jk);
      do c0 <- get x0 (snd jk);
      mapM (fun ux =>
        do xk <- get (snd ux) (snd jk);
        do uj <- get (fst ux) (fst jk);
        set (fst ux) (fst jk) (uj + f * (xk - c0))%R) (combine u coor))
    (list_prod (seq 0 (length x0)) (seq 0 (length x0))) (map (map (fun _ => 0%R)) coor).

(** Elastic-Verlet/main.cpp:30-147 (= Elastic-VelocityVerlet/main.cpp:30-167 with its own [step]): the program, for any mesh, material and density; [memq], [memn]: memory and
    schedules of the two quadratures.  Not modelled: the time T (any number of increments) and the file that is written. *)
Definition dynamics_main (step : Vector -> Elem -> list (list R) -> dyn_state -> call * call -> res dyn_state) (m : Regular) (energy : arr -> arr) (rho : arr)
    (F : list (list R)) (memq memn : memory) (incs : list inc_memory) : res (dyn_state * list (R * R)) :=
  do dofs <- Regular_dofsPeriodic m;
  let vector := mkVector (conn m) 4 dofs 2 in
  do x <- AsElement_nodevec vector (coor m);
  let quad := Quad4_elem (Quad4_new (es_new memq) (nelem m) (of_rows x) 4 (Gauss4_xi (j_xi memq)) (Gauss4_w (j_w memq))
                (j1 memq) (j2 memq) (j3 memq) (j4 memq) (j5 memq)) in
  let nodalQuad := Quad4_new (es_new memn) (nelem m) (of_rows x) 4 (Nodal4_xi (j_xi memn)) (Nodal4_w (j_w memn))
                (j1 memn) (j2 memn) (j3 memn) (j4 memn) (j5 memn) in
  do M <- MD_assemble (new_MatrixDiagonal vector) (to_rows (nelem m) 8 8 (Quad4_int_N_scalar_NT_dV (es_int memn) nodalQuad rho (j_K memn)));
  do mass <- MD_data M;
  do u <- affine_start F (coor m);
  let zero := map (map (fun _ => 0%R)) (coor m) in
  dynamics (step vector quad zero) vector quad energy mass incs (u, zero, zero, M).
