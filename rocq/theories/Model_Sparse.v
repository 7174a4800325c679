(** Sparse matrices and vectors of Eigen, as far as GooseFEM uses them.  A matrix is its size and
    its entries; assembling from triplets sums duplicates; sizes are checked ([eigen_assert]),
    a mismatch is an out-of-bounds access. *)
From Coq Require Import Reals.
From Verif Require Import Base Sums.

Record mat := mkMat { rows : nat; cols : nat; ent : nat -> nat -> R }.

(** [SparseMatrix::setFromTriplets] on a matrix of size r x c *)
Definition setFromTriplets (r c : nat) (ts : list (nat * nat * R)) : res mat :=
  if forallb (fun t => (fst (fst t) <? r) && (snd (fst t) <? c)) ts
  then Ok (mkMat r c (fun i j => sumL ts (fun t => ind ((fst (fst t) =? i) && (snd (fst t) =? j))%nat * snd t)%R))
  else Oob.

Definition transpose (a : mat) : mat := mkMat (cols a) (rows a) (fun i j => ent a j i).

(** [A * x] *)
Definition mulvec (a : mat) (x : list R) : res (list R) :=
  if length x =? cols a
  then Ok (map (fun i => sumn (cols a) (fun j => ent a i j * nth j x 0)%R) (seq 0 (rows a)))
  else Oob.

(** [A * B], [A + B] *)
Definition mulmat (a b : mat) : res mat :=
  if cols a =? rows b then Ok (mkMat (rows a) (cols b) (fun i j => sumn (cols a) (fun k => ent a i k * ent b k j)%R)) else Oob.
Definition addmat (a b : mat) : res mat :=
  if (rows a =? rows b) && (cols a =? cols b) then Ok (mkMat (rows a) (cols a) (fun i j => ent a i j + ent b i j)%R) else Oob.

(** [x + y], [x - y] for vectors *)
Definition vec2 (f : R -> R -> R) (x y : list R) : res (list R) :=
  if length x =? length y then Ok (map (fun p => f (fst p) (snd p)) (combine x y)) else Oob.
Definition addvec := vec2 Rplus.
Definition subvec := vec2 Rminus.
