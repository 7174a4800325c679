(** Model of the constructor Quad4::FineLayer(coor, conn) (MeshQuad4.h:1072-1133).

    [xt::allclose] compares with a tolerance: [close] is any comparison.  Simplification: comparing arrays of
    different shape is a failed check (xtensor throws, unless one of them can be broadcast to the other). *)
From Coq Require Import Reals ZArith.
From Verif Require Import Base Model_Numbering Model_Regular2d Model_FineLayer.

Section Mapping.
Variable close : R -> R -> bool.
(** [coor(i, j)], [conn(i, j)]: unchecked reads, outside the array [Oob] *)
Definition at2 {A} (a : list (list A)) (i j : nat) : res A := do row <- get a i; get row j.
(** GOOSEFEM_CHECK *)
Definition check {A} (b : bool) (k : res A) : res A := if b then k else Throw.

Fixpoint all2 {A} (f : A -> A -> bool) (a b : list A) : bool :=
  match a, b with [], [] => true | x :: a, y :: b => f x y && all2 f a b | _, _ => false end.
(** [xt::all(xt::equal(a, b))], [xt::allclose(a, b)] for rank 2, rank 1, and against a scalar *)
Definition equal1 : list nat -> list nat -> bool := all2 Nat.eqb.
Definition equal2 : list (list nat) -> list (list nat) -> bool := all2 equal1.
Definition allclose2 : list (list R) -> list (list R) -> bool := all2 (all2 close).
Definition allclose0 (a : list R) (x : R) : bool := forallb (fun y => close y x) a.
(** [xt::amin] *)
Definition aminR (l : list R) : res R := match l with [] => Throw | x :: l => Ok (fold_left Rmin l x) end.
(** [static_cast<size_t>] of a non-negative number *)
Definition to_size (x : R) : nat := Z.to_nat (Int_part x).

(** MeshQuad4.h:1096-1098: [while (conn(eleft, 0) == conn(eleft - 1, 1) && eleft > 0) eleft--;]
    The comparison comes first: for [eleft = 0] it reads row [-1] *)
Fixpoint go_left (conn : list (list nat)) (e : nat) : res nat :=
  do a <- at2 conn e 0;
  match e with
  | O => Oob
  | S e' => do b <- at2 conn e' 1; if a =? b then go_left conn e' else Ok e
  end.
(** MeshQuad4.h:1100-1102: [while (conn(eright, 1) == conn(eright + 1, 0) && eright < conn.shape(0) - 1) eright++;] *)
Fixpoint go_right (fuel : nat) (conn : list (list nat)) (e : nat) : option (res nat) :=
  match fuel with
  | O => None
  | S fuel =>
      match (do a <- at2 conn e 1; do b <- at2 conn (e + 1) 0; Ok ((a =? b) && (e <? length conn - 1))) with
      | Ok true => go_right fuel conn (e + 1)
      | Ok false => Some (Ok e)
      | Oob => Some Oob | Uninit => Some Uninit | Throw => Some Throw
      end
  end.

(** the checks at the end: MeshQuad4.h:1084-1086, 1127-1131 *)
Definition same_mesh (coor : list (list R)) (conn : list (list nat)) (o : option (res FineLayer)) (k : FineLayer -> res FineLayer) : option (res FineLayer) :=
  option_map (fun o => do m <- o;
    do c <- f_conn m; check (equal2 c conn) (
    do x <- f_coor m; check (allclose2 x coor) (k m))) o.

(** MeshQuad4.h:1072-1133 [init_by_mapping] *)
Definition init_by_mapping (coor : list (list R)) (conn : list (list nat)) : option (res FineLayer) :=
  if length conn =? 1 then
    match (do n1 <- at2 conn 0 1; do x1 <- at2 coor n1 0; do n0 <- at2 conn 0 0; do x0 <- at2 coor n0 0; Ok (x1 - x0)%R) with
    | Ok h => same_mesh coor conn (FineLayer_init 1 1 h 1) Ok
    | Oob => Some Oob | Uninit => Some Uninit | Throw => Some Throw
    end
  else
    let emid := (length conn - length conn mod 2) / 2 in
    match go_right (length conn) conn emid with
    | None => None
    | Some er =>
        match (do eleft <- go_left conn emid; do eright <- er;
               do nl <- at2 conn eleft 0; do xl <- at2 coor nl 0; check (close xl 0%R) (
               let es := arange eleft (eright + 1) in
               do dx <- mapM (fun e => do n1 <- at2 conn e 1; do x1 <- at2 coor n1 0; do n0 <- at2 conn e 0; do x0 <- at2 coor n0 0; Ok (x1 - x0)%R) es;
               do dy <- mapM (fun e => do n2 <- at2 conn e 2; do y2 <- at2 coor n2 1; do n1 <- at2 conn e 1; do y1 <- at2 coor n1 1; Ok (y2 - y1)%R) es;
               do hx <- aminR dx; do hy <- aminR dy;
               check (close hx hy) (check (allclose0 dx hx) (check (allclose0 dy hy) (
               do last <- at2 coor (length coor - 1) 1; do first <- at2 coor 0 1;
               Ok (eleft, eright - eleft + 1, to_size ((last - first) / hx), hx)))))) with
        | Ok (eleft, nelx, nely, hx) =>
            same_mesh coor conn (FineLayer_init nelx nely hx 1) (fun m =>
              do mid <- elementsMiddleLayer m; check (equal1 mid (map (Nat.add eleft) (seq 0 nelx))) (Ok m))
        | Oob => Some Oob | Uninit => Some Uninit | Throw => Some Throw
        end
    end.
End Mapping.
