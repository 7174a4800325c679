(** Model of small utilities: Element.h (isSequential, isDiagonal), Iterate.h, Allocate.h,
    assertions.h, version.h, Mesh.h (defaultElementType). *)
From Coq Require Import Reals Ascii.
From Verif Require Import Base Spec_Misc Model_Numbering Model_Vector Model_Topology.

(** Element.h:95-113 [isSequential] for the flattened array *)
Definition isSequential (dofs : list nat) : res bool :=
  let ndof := amax dofs + 1 in
  do exists_ <- foldM (fun ex i => do c <- get ex i; set ex i (c + 1)) dofs (repeat 0 ndof);
  foldM (fun (ok : bool) i => if ok then do c <- get exists_ i; Ok (negb (c =? 0)) else Ok false) dofs true.

(** [std::numeric_limits<double>::epsilon()] *)
Definition eps : R := (/ 2 ^ 52)%R.

(** Element.h:122-144 [isDiagonal]; [nelem], [N] are [shape(0)], [shape(1)].
    (A "return" inside a parallel loop is not valid OpenMP: this is the serial meaning.) *)
Definition isDiagonal (nelem N : nat) (elemmat : list (list (list R))) : res bool :=
  foldM (fun (ok : bool) eij =>
           if ok then
             if snd (fst eij) =? snd eij then Ok true
             else do x <- get3 elemmat (fst (fst eij)) (snd (fst eij)) (snd eij);
                  Ok (if Rlt_dec eps (Rabs x) then false else true)
           else Ok false)
        (list_prod (list_prod (seq 0 nelem) (seq 0 N)) (seq 0 N)) true.

(** Iterate.h:27-114 [StopList]: the state is the member [m_res] *)
Definition ext_ltb (a b : ext) : bool :=
  match a, b with
  | Fin x, Fin y => if Rlt_dec x y then true else false
  | Fin _, Inf => true
  | _, _ => false
  end.
Definition ext_geb (a b : ext) : bool :=
  match a, b with
  | Fin x, Fin y => if Rlt_dec x y then false else true
  | Inf, Fin _ | Inf, Inf => true
  | _, _ => false
  end.
(** [std::vector::resize(n)] *)
Definition resize (n : nat) (l : list ext) : list ext := firstn n l ++ repeat (Fin 0) (n - length l).
(** Iterate.h:43-46 *)
Definition stop_reset (m_res : list ext) : list ext := map (fun _ => Inf) m_res.
(** Iterate.h:53-57 *)
Definition stop_reset_n (n : nat) (m_res : list ext) : list ext := stop_reset (resize n m_res).
(** Iterate.h:34-38 *)
Definition StopList (n : nat) : list ext := stop_reset (resize n []).
(** [std::rotate(begin, begin + 1, end)]; undefined on an empty vector *)
Definition rotate1 (l : list ext) : res (list ext) :=
  match l with [] => Oob | a :: l' => Ok (l' ++ [a]) end.
(** Iterate.h:69-73 *)
Definition roll_insert (m_res : list ext) (r : ext) : res (list ext) :=
  do l <- rotate1 m_res; set l (length l - 1) r.
(** Iterate.h:80-83; [std::is_sorted] compares neighbours *)
Fixpoint is_sorted (comp : ext -> ext -> bool) (l : list ext) : bool :=
  match l with
  | a :: l' => match l' with b :: _ => negb (comp b a) && is_sorted comp l' | [] => true end
  | [] => true
  end.
Definition descending (m_res : list ext) : bool := is_sorted (fun a b => ext_ltb b a) m_res.
(** Iterate.h:91-94 *)
Definition all_less (m_res : list ext) (tol : ext) : bool := negb (existsb (fun i => ext_geb i tol) m_res).

(** any sequence of calls *)
Definition stop_step (s : list ext) (o : stop_op) : res (list ext) :=
  match o with
  | Reset => Ok (stop_reset s)
  | Reset_n n => Ok (stop_reset_n n s)
  | Insert r => roll_insert s r
  end.
Definition stop_run (n : nat) (h : list stop_op) : res (list ext) := foldM stop_step h (StopList n).

(** strides of a row-major xtensor container: zero for dimensions of extent one *)
Fixpoint strides (shape : list nat) : list nat :=
  match shape with [] => [] | n :: s => (if n =? 1 then 0 else fold_right Nat.mul 1 s) :: strides s end.
(** the position of an index in a strided view with offset zero *)
Fixpoint offset (st ix : list nat) : nat :=
  match st, ix with s :: st', i :: ix' => s * i + offset st' ix' | _, _ => 0 end.
(** all indices of an array, in row-major order *)
Fixpoint indices (shape : list nat) : list (list nat) :=
  match shape with [] => [[]] | n :: s => flat_map (fun i => map (cons i) (indices s)) (seq 0 n) end.
(** Allocate.h:67-103 [asTensor_write::impl], with the shape of the output *)
Definition asTensor {A} (shape : list nat) (data : list A) (ret_shape : list nat) : res (list A) :=
  let ret_strides := strides shape ++ repeat 0 (length ret_shape - length shape) in
  mapM (fun ix => get data (offset ret_strides ix)) (indices ret_shape).
(** Allocate.h:108-146 [asTensor_allocate::impl]: the shape and the data of [AsTensor(arg, shape)] *)
Definition AsTensor {A} (arg_shape : list nat) (data : list A) (shape : list nat) : res (list nat * list A) :=
  let ret_shape := arg_shape ++ shape in
  do d <- asTensor arg_shape data ret_shape; Ok (ret_shape, d).
(** Allocate.h:191-214 [AsTensor<rank>(arg, n)], [AsTensor(rank, arg, n)] *)
Definition AsTensor_n {A} (rank : nat) (arg_shape : list nat) (data : list A) (n : nat) : res (list nat * list A) :=
  AsTensor arg_shape data (repeat n rank).

(** Allocate.h:222-244 [as3d]; [d = arg.shape(1)] *)
Definition as3d (arg : list (list R)) (d : nat) : list (list R) :=
  if d =? 3 then arg
  else let ret := repeat [0%R; 0%R; 0%R] (length arg) in
       if d =? 2 then map (fun r => firstn 2 r ++ [0%R]) arg
       else if d =? 1 then map (fun r => firstn 1 r ++ [0%R; 0%R]) arg
       else ret.

(** Mesh.h:31-36, 45-62 [defaultElementType]; the arguments are [coor.shape(1)], [conn.shape(1)] *)
Inductive ElementType := Unknown | Quad4 | Hex8 | Tri3.
Definition defaultElementType (coor_1 conn_1 : nat) : res ElementType :=
  if (coor_1 =? 2) && (conn_1 =? 3) then Ok Tri3
  else if (coor_1 =? 2) && (conn_1 =? 4) then Ok Quad4
  else if (coor_1 =? 3) && (conn_1 =? 8) then Ok Hex8
  else Throw.

(** assertions.h:19-32 [is_unique], on the flattened array *)
Definition is_unique (flat : list nat) : bool :=
  let u := unique flat in
  let s := std_sort flat in
  if negb (length u =? length s) then false
  else forallb (fun ab => fst ab =? snd ab) (combine u s).

(** version.h:42-47 [detail::unquote]: [std::remove] shifts the kept characters to the front (the
    write position never passes the read position) and returns their number; [erase] drops the rest *)
Definition quote : ascii := Ascii.ascii_of_nat 34.
Definition unquote (arg : list ascii) : res (list ascii) :=
  do r <- foldM (fun st i => do c <- get (fst st) i;
                             if Ascii.eqb c quote then Ok st
                             else do a <- set (fst st) (snd st) c; Ok (a, S (snd st)))
                (seq 0 (length arg)) (arg, 0);
  Ok (firstn (snd r) (fst r)).
