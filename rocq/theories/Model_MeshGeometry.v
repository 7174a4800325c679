(** Model of the geometric functions of Mesh.h: edgesize, centers, elemmap2nodemap, nodal_mass,
    center_of_gravity.  [nne], [ndim]: conn.shape(1), coor.shape(1) (the number of rows is the length
    of the list).  The overloads without a type call [defaultElementType]. *)
From Coq Require Import Reals.
From Verif Require Import Model_Element Base Sums Model_Numbering Model_Vector Model_MatrixDiagonal Model_Misc.

(** Mesh.h:2571-2601 [edgesize]: the views [n0..n3], [x0..x3], [y0..y3] are evaluated row by row *)
Definition edge_length (coor : list (list R)) (n m : nat) : res R :=
  do xn <- get2 coor n 0; do yn <- get2 coor n 1; do xm <- get2 coor m 0; do ym <- get2 coor m 1;
  Ok (sqrt ((xm - xn) * (xm - xn) + (ym - yn) * (ym - yn)))%R.
Definition edgesize (coor : list (list R)) (conn : list (list nat)) (type : ElementType) : res (list (list R)) :=
  match type with
  | Quad4 => mapM (fun e =>
      do n0 <- get2 conn e 0; do n1 <- get2 conn e 1; do n2 <- get2 conn e 2; do n3 <- get2 conn e 3;
      do l0 <- edge_length coor n0 n1; do l1 <- edge_length coor n1 n2;
      do l2 <- edge_length coor n2 n3; do l3 <- edge_length coor n3 n0;
      Ok [l0; l1; l2; l3]) (seq 0 (length conn))
  | _ => Throw
  end.
(** Mesh.h:2612-2615 *)
Definition edgesize' (coor : list (list R)) (ndim : nat) (conn : list (list nat)) (nne : nat) : res (list (list R)) :=
  do t <- defaultElementType ndim nne; edgesize coor conn t.

(** Mesh.h:2626-2646 [centers]: zeros, four times [ret += coor[conn(:, i), :]], [ret /= 4.0]; the array
    statements are evaluated row by row *)
Definition centers (coor : list (list R)) (ndim : nat) (conn : list (list nat)) (type : ElementType) : res (list (list R)) :=
  match type with
  | Quad4 =>
      do ret <- foldM (fun ret i =>
          mapM (fun e => mapM (fun j =>
              do n <- get2 conn e i; do x <- get2 coor n j; do r <- get2 ret e j; Ok (r + x)%R) (seq 0 ndim))
            (seq 0 (length conn)))
        (seq 0 4) (repeat (repeat 0%R ndim) (length conn));
      Ok (map (map (fun r => r / 4)%R) ret)
  | _ => Throw
  end.
(** Mesh.h:2656-2659 *)
Definition centers' (coor : list (list R)) (ndim : nat) (conn : list (list nat)) (nne : nat) : res (list (list R)) :=
  do t <- defaultElementType ndim nne; centers coor ndim conn t.

(** Mesh.h:2671-2701 [elemmap2nodemap]; [N] = coor.shape(0) *)
Definition elemmap2nodemap (elem_map : list nat) (N : nat) (conn : list (list nat)) (type : ElementType) : res (list nat) :=
  match type with
  | Quad4 =>
      foldM (fun ret i =>
          do ws <- mapM (fun e =>
              do old_nd <- get2 conn e i; do em <- get elem_map e; do new_nd <- get2 conn em i;
              Ok (old_nd, new_nd)) (seq 0 (length conn));
          do t <- write_all (repeat N N) ws;
          mapM (fun n => do r <- get ret n; do s <- get t n; Ok (if r =? N then s else r)) (seq 0 N))
        (seq 0 4) (repeat N N)
  | _ => Throw
  end.
(** Mesh.h:2711-2715 *)
Definition elemmap2nodemap' (elem_map : list nat) (N ndim : nat) (conn : list (list nat)) (nne : nat) : res (list nat) :=
  do t <- defaultElementType ndim nne; elemmap2nodemap elem_map N conn t.

(** arrays of rank 3 as arguments and results of the quadrature (whose arrays are functions) *)
Definition of_rows (x : list (list (list R))) : arr := fun k =>
  match k with [e; m; i] => nth i (nth m (nth e x []) []) 0%R | _ => 0%R end.
Definition to_rows (n m d : nat) (a : arr) : list (list (list R)) :=
  map (fun e => map (fun i => map (fun j => a [e; i; j]) (seq 0 d)) (seq 0 m)) (seq 0 n).

(** uninitialised memory and the schedules of the OpenMP loops during one call of [nodal_mass] *)
Record memory := { j_xi : arr; j_w : arr; j1 : arr; j2 : arr; j3 : arr; j4 : arr; j5 : arr; j_K : arr;
                   es_new : list nat; es_int : list nat }.

(** Mesh.h:2732-2754 [nodal_mass] *)
Definition nodal_mass (mem : memory) (coor : list (list R)) (ndim : nat) (conn : list (list nat)) (nne : nat) (type : ElementType)
  : res (list (list R)) :=
  let dof := dofs (length coor) ndim in
  let vector := mkVector conn nne dof ndim in
  let M := new_MatrixDiagonal vector in
  let rho := fun _ : list nat => 1%R in
  match type with
  | Quad4 =>
      do x <- AsElement_nodevec vector coor;
      let quad := Quad4_new (es_new mem) (length conn) (of_rows x) 4 (Nodal4_xi (j_xi mem)) (Nodal4_w (j_w mem))
                    (j1 mem) (j2 mem) (j3 mem) (j4 mem) (j5 mem) in
      let K := Quad4_int_N_scalar_NT_dV (es_int mem) quad rho (j_K mem) in
      do M' <- MD_assemble M (to_rows (length conn) 8 8 K);
      do data <- MD_data M';
      AsNode_dofval vector data
  | _ => Throw
  end.
(** Mesh.h:2768-2771 *)
Definition nodal_mass' (mem : memory) (coor : list (list R)) (ndim : nat) (conn : list (list nat)) (nne : nat) : res (list (list R)) :=
  do t <- defaultElementType ndim nne; nodal_mass mem coor ndim conn nne t.

(** Mesh.h:2777-2794 [average_axis_0]; [d] = weights.shape(1) *)
Definition average_axis_0 (data weights : list (list R)) (d : nat) : res (list R) :=
  mapM (fun j =>
    do s <- foldM (fun s i => do x <- get2 data i j; do w <- get2 weights i j; Ok (fst s + x * w, snd s + w)%R)
      (seq 0 (length weights)) (0, 0)%R;
    Ok (fst s / snd s)%R) (seq 0 d).

(** Mesh.h:2808-2814 [center_of_gravity] and 2826-2831 *)
Definition center_of_gravity (mem : memory) (coor : list (list R)) (ndim : nat) (conn : list (list nat)) (nne : nat) (type : ElementType)
  : res (list R) :=
  do w <- nodal_mass mem coor ndim conn nne type; average_axis_0 coor w ndim.
Definition center_of_gravity' (mem : memory) (coor : list (list R)) (ndim : nat) (conn : list (list nat)) (nne : nat) : res (list R) :=
  do t <- defaultElementType ndim nne; center_of_gravity mem coor ndim conn nne t.
