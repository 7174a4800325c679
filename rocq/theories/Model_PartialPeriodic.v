(** Model of the program docs/examples/statics/partial-periodic_elastic.py: a strip that is periodic in the horizontal direction, held at
    the bottom and sheared at the top. *)
From Coq Require Import Reals.
From Verif Require Import Model_Element Base Sums Model_Numbering Model_Vector Model_VectorPartitioned Model_Sparse Model_Matrix Model_MatrixPartitioned Model_Pipeline.

(** partial-periodic_elastic.py:28: [dofs[rgt] = dofs[lft]].  NumPy evaluates the right-hand side (a copy of the rows) before it writes;
    lists of different lengths are refused (simplification: a list of one row would be broadcast). *)
Definition tie_rows (rgt lft : list nat) (d : list (list nat)) : res (list (list nat)) :=
  do rows <- mapM (get d) lft;
  if length rgt =? length lft then foldM (fun a p => set a (fst p) (snd p)) (combine rgt rows) d else Throw.

(** [dofs[nodes, j]] of partial-periodic_elastic.py:34-37 *)
Definition column (d : list (list nat)) (nodes : list nat) (j : nat) : res (list nat) := mapM (fun n => get2 d n j) nodes.

(** what the set-up makes *)
Record Strip := mkStrip { st_dofs : list (list nat); st_iip : list nat; st_vector : VectorPartitioned; st_K : MatrixPartitioned }.

(** partial-periodic_elastic.py:20-48: the DOFs of the nodes on the left and the right side are shared, all DOFs at the bottom and the top are prescribed *)
Definition strip_setup (nnode : nat) (conn : list (list nat)) (nne : nat) (lft rgt bot top : list nat) : res Strip :=
  do d <- tie_rows rgt lft (dofs nnode 2);
  do d <- renumber2 d;
  do b0 <- column d bot 0; do b1 <- column d bot 1; do t0 <- column d top 0; do t1 <- column d top 1;
  let iip := b0 ++ b1 ++ t0 ++ t1 in
  let v := mkVector conn nne d 2 in
  do p <- new_VectorPartitioned v iip;
  do K <- new_MatrixPartitioned v iip;
  Ok (mkStrip d iip p K).

(** partial-periodic_elastic.py:82: [disp[nodes, j] = x] *)
Definition set_column (nodes : list nat) (j : nat) (x : R) (disp : list (list R)) : res (list (list R)) := foldM (fun a n => set2 a n j x) nodes disp.

(** partial-periodic_elastic.py:24-25, 62-104: no external force; the top is moved by [gamma] (0.1 in the program) to the right *)
Definition shear (linsolve : mat -> list R -> list R) (mem : run_memory) (st : Strip) (E : Elem) (law : arr -> arr) (C : arr) (nnode : nat) (top : list nat) (gamma : R)
    : res (list (list R) * list (list R) * list (list R) * list (list R)) :=
  let zero := repeat (repeat 0%R 2) nnode in
  do bc <- set_column top 0 gamma zero;
  statics linsolve mem (st_vector st) (st_K st) new_Solver E law C zero zero bc.
