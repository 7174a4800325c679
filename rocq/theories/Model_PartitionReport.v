(** Model of the properties that report the partition of the DOFs: the C++ getters of Tyings::Periodic,
    VectorPartitionedTyings and MatrixPartitionedTyings, and the Python properties bound to them. *)
From Coq Require Import Reals.
From Verif Require Import Base Sums Model_Numbering Model_Vector Model_Sparse Model_Tyings Model_MatrixTyings.

(** the eight properties of one object *)
Record report := mkReport {
  r_nnu : nat; r_nnp : nat; r_nni : nat; r_nnd : nat;
  r_iiu : list nat; r_iip : list nat; r_iii : list nat; r_iid : list nat }.

(** TyingsPeriodic.h:124-222: nnd, nni, nnu, nnp, iid, iii, iiu, iip *)
Definition cpp_Periodic (t : Periodic) : report :=
  mkReport (tp_nnu t) (tp_nnp t) (tp_nni t) (tp_nnd t) (tp_iiu t) (tp_iip t) (tp_iii t) (tp_iid t).

(** VectorPartitionedTyings.h:91-113 (constructor: m_iiu .. m_iid), 116-179 (getters);
    xt::arange(a, b) is a, a + 1, .. b - 1 *)
Definition arange (a b : nat) : list nat := seq a (b - a).
Definition cpp_Vector (t : VectorTyings) : report :=
  mkReport (vt_nnu t) (vt_nnp t) (vt_nni t) (vt_nnd t)
    (arange 0 (vt_nnu t)) (arange (vt_nnu t) (vt_nnu t + vt_nnp t)) (arange 0 (vt_nni t)) (arange (vt_nni t) (vt_nni t + vt_nnd t)).

(** MatrixPartitionedTyings.h:100-111 (constructor), Matrix.h:446-476 (nnu, nnp, iiu, iip), 615-645 (nni, nnd, iii, iid) *)
Definition cpp_Matrix (a : MatrixTyings) : report :=
  mkReport (PT_nnu a) (PT_nnp a) (PT_nni a) (PT_nnd a)
    (arange 0 (PT_nnu a)) (arange (PT_nnu a) (PT_nnu a + PT_nnp a)) (arange 0 (PT_nni a)) (arange (PT_nni a) (PT_nni a + PT_nnd a)).

(** python/TyingsPeriodic.hpp:50-60: nnd, nni, nnu, nnp, iid, iii, iiu, iip, each bound to the getter of that name *)
Definition py_Periodic (t : Periodic) : report :=
  let c := cpp_Periodic t in
  mkReport (r_nnu c) (r_nnp c) (r_nni c) (r_nnd c) (r_iiu c) (r_iip c) (r_iii c) (r_iid c).

(** python/VectorPartitionedTyings.hpp:36-43, each bound to the getter of that name *)
Definition py_Vector (t : VectorTyings) : report :=
  let c := cpp_Vector t in
  mkReport (r_nnu c) (r_nnp c) (r_nni c) (r_nnd c) (r_iiu c) (r_iip c) (r_iii c) (r_iid c).

(** python/Matrix.hpp:87-93 (register_Matrix_MatrixPartitionedBase: nnu, nnp, iiu, iip) and 140-147
    (register_Matrix_MatrixPartitionedTyingsBase: "nni" is bound to nnu, "nnd" to nnp, "iii" to iiu, "iid" to iip);
    both are used by python/MatrixPartitionedTyings.hpp:22-24 *)
Definition py_Matrix (a : MatrixTyings) : report :=
  let c := cpp_Matrix a in
  mkReport (r_nnu c) (r_nnp c) (r_nnu c) (r_nnp c) (r_iiu c) (r_iip c) (r_iiu c) (r_iip c).
