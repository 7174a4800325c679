(** Model of the quadrature classes: Element.h (CRTP base class QuadratureBaseCartesian),
    ElementQuad4.h, ElementQuad4Planar.h, ElementQuad4Axisymmetric.h, ElementHex8.h, detail.h.

    Simplifications:
    - [double] is the real numbers [R]: no rounding; division by zero is [R]'s total division, so
      theorems that need a non-singular Jacobian say so;
    - a rank-n array is a total function from its index list to [R]; the loops of the code run over
      the declared extents, entries outside of them are never part of a statement;
    - [xt::adapt(&a(e, q, 0, 0), shape)] is a view on the entries [e; q; ...] of [a] (row-major
      storage makes the entry (i, j) of the view the entry (e, q, i, j) of the array);
    - arrays allocated by [xt::empty] start with arbitrary contents (an argument);
    - an [omp parallel for] over the elements executes the iterations one after the other in the
      order given by the argument [es], an arbitrary permutation of 0 .. nelem-1 in the theorems:
      iteration [e] reads only inputs and reads or writes only the entries [e; ...] of the output. *)
From Coq Require Import List Arith Reals.
Import ListNotations.
Local Open Scope R_scope.

(** a rank-n array of doubles *)
Definition arr := list nat -> R.

(** a(k) = v *)
Definition upd (k : list nat) (v : R) (a : arr) : arr :=
  fun k' => if list_eq_dec Nat.eq_dec k' k then v else a k'.

(** a(k) += v *)
Definition plus (k : list nat) (v : R) (a : arr) : arr := upd k (a k + v) a.

(** a.fill(v) *)
Definition fill (v : R) (a : arr) : arr := fun _ => v.

(** for (size_t i : is) body(i) *)
Definition forL {S : Type} (is : list nat) (body : nat -> S -> S) (s : S) : S :=
  fold_left (fun s i => body i s) is s.

(** for (size_t i = 0; i < n; ++i) body(i) *)
Definition for_ {S : Type} (n : nat) (body : nat -> S -> S) (s : S) : S := forL (seq 0 n) body s.

(** statements in sequence *)
Definition block {S : Type} (l : list (S -> S)) (s : S) : S := fold_left (fun s f => f s) l s.

(** ** detail.h *)

(** detail.h:27-37, tensor<2>::inv: determinant and inverse (Ainv is overwritten) *)
Definition det2 (A : arr) : R := A [0;0]%nat * A [1;1]%nat - A [0;1]%nat * A [1;0]%nat.
Definition inv2 (A Ainv : arr) : arr :=
  let det := det2 A in
  block
    [ upd [0;0]%nat (A [1;1]%nat / det);
      upd [0;1]%nat (-1 * A [0;1]%nat / det);
      upd [1;0]%nat (-1 * A [1;0]%nat / det);
      upd [1;1]%nat (A [0;0]%nat / det) ] Ainv.

(** detail.h:50-70, tensor<3>::inv *)
Definition det3 (A : arr) : R :=
  (A [0;0]%nat * A [1;1]%nat * A [2;2]%nat + A [0;1]%nat * A [1;2]%nat * A [2;0]%nat + A [0;2]%nat * A [1;0]%nat * A [2;1]%nat) -
  (A [0;2]%nat * A [1;1]%nat * A [2;0]%nat + A [0;1]%nat * A [1;0]%nat * A [2;2]%nat + A [0;0]%nat * A [1;2]%nat * A [2;1]%nat).
Definition inv3 (A Ainv : arr) : arr :=
  let det := det3 A in
  block
    [ upd [0;0]%nat ((A [1;1]%nat * A [2;2]%nat - A [1;2]%nat * A [2;1]%nat) / det);
      upd [0;1]%nat ((A [0;2]%nat * A [2;1]%nat - A [0;1]%nat * A [2;2]%nat) / det);
      upd [0;2]%nat ((A [0;1]%nat * A [1;2]%nat - A [0;2]%nat * A [1;1]%nat) / det);
      upd [1;0]%nat ((A [1;2]%nat * A [2;0]%nat - A [1;0]%nat * A [2;2]%nat) / det);
      upd [1;1]%nat ((A [0;0]%nat * A [2;2]%nat - A [0;2]%nat * A [2;0]%nat) / det);
      upd [1;2]%nat ((A [0;2]%nat * A [1;0]%nat - A [0;0]%nat * A [1;2]%nat) / det);
      upd [2;0]%nat ((A [1;0]%nat * A [2;1]%nat - A [1;1]%nat * A [2;0]%nat) / det);
      upd [2;1]%nat ((A [0;1]%nat * A [2;0]%nat - A [0;0]%nat * A [2;1]%nat) / det);
      upd [2;2]%nat ((A [0;0]%nat * A [1;1]%nat - A [0;1]%nat * A [1;0]%nat) / det) ] Ainv.

(** ** Element.h, QuadratureBaseCartesian: generic loops *)

(** Element.h:892-922, interpQuad_vector_impl; [n] is elemvec.shape(2).
    tq[i] is qvector(e,q,i), fq[m * n + i] is elemvec(e,m,i). *)
Definition base_interpQuad_vector (es : list nat) (nip nne n : nat) (N elemvec qvector : arr) : arr :=
  forL es (fun e => for_ nip (fun q => for_ nne (fun m => for_ n (fun i =>
    plus [e;q;i] (N [q;m] * elemvec [e;m;i]))))) (fill 0 qvector).

(** Element.h:924-955, gradN_vector_impl *)
Definition base_gradN_vector (es : list nat) (nip nne ndim : nat) (dNx elemvec qtensor : arr) : arr :=
  forL es (fun e => for_ nip (fun q => for_ nne (fun m => for_ ndim (fun i => for_ ndim (fun j =>
    plus [e;q;i;j] (dNx [e;q;m;i] * elemvec [e;m;j])))))) (fill 0 qtensor).

(** Element.h:957-988, gradN_vector_T_impl *)
Definition base_gradN_vector_T (es : list nat) (nip nne ndim : nat) (dNx elemvec qtensor : arr) : arr :=
  forL es (fun e => for_ nip (fun q => for_ nne (fun m => for_ ndim (fun i => for_ ndim (fun j =>
    plus [e;q;j;i] (dNx [e;q;m;i] * elemvec [e;m;j])))))) (fill 0 qtensor).

(** Element.h:990-1022, symGradN_vector_impl *)
Definition base_symGradN_vector (es : list nat) (nip nne ndim : nat) (dNx elemvec qtensor : arr) : arr :=
  forL es (fun e => for_ nip (fun q => for_ nne (fun m => for_ ndim (fun i => for_ ndim (fun j =>
    block [ plus [e;q;i;j] (0.5 * dNx [e;q;m;i] * elemvec [e;m;j]);
            plus [e;q;j;i] (0.5 * dNx [e;q;m;i] * elemvec [e;m;j]) ]))))) (fill 0 qtensor).

(** Element.h:1024-1056, int_N_vector_dV_impl; [n] is qvector.shape(2) *)
Definition base_int_N_vector_dV (es : list nat) (nip nne n : nat) (N vol qvector elemvec : arr) : arr :=
  forL es (fun e => for_ nip (fun q => for_ nne (fun m => for_ n (fun i =>
    plus [e;m;i] (N [q;m] * qvector [e;q;i] * vol [e;q]))))) (fill 0 elemvec).

(** Element.h:1131-1176, int_gradN_dot_tensor4_dot_gradNT_dV_impl *)
Definition base_int_gradN_dot_tensor4_dot_gradNT_dV
    (es : list nat) (nip nne ndim : nat) (dNx vol qtensor elemmat : arr) : arr :=
  forL es (fun e => for_ nip (fun q =>
    for_ nne (fun m => for_ nne (fun n =>
    for_ ndim (fun i => for_ ndim (fun j => for_ ndim (fun k => for_ ndim (fun l =>
      plus [e; m * ndim + j; n * ndim + k]%nat
        (dNx [e;q;m;i] * qtensor [e;q;i;j;k;l] * dNx [e;q;n;l] * vol [e;q]))))))))) (fill 0 elemmat).

(** Element.h:1178-1229, compute_dN_impl.  J and Jinv are thread-local; Jinv is overwritten by
    every call of [inv], so its old contents [junk] are irrelevant.  Line 1220 reads
    [dNxiq(m, i)], not [dNxiq(m, j)]. *)
Definition base_jacobian (nne ndim : nat) (dNxi x : arr) (q e : nat) : arr :=
  for_ nne (fun m => for_ ndim (fun i => for_ ndim (fun j =>
    plus [i;j] (dNxi [q;m;i] * x [e;m;j])))) (fun _ => 0).

Definition base_compute_dN (es : list nat) (nip nne ndim : nat)
    (det : arr -> R) (inv : arr -> arr -> arr) (junk w dNxi x : arr) (st : arr * arr) : arr * arr :=
  forL es (fun e => for_ nip (fun q st =>
    let J := base_jacobian nne ndim dNxi x q e in
    let Jinv := inv J junk in
    let Jdet := det J in
    ( for_ nne (fun m => for_ ndim (fun i => for_ ndim (fun j =>
        plus [e;q;m;i] (Jinv [i;j] * dNxi [q;m;i])))) (fst st),
      upd [e;q] (w [q] * Jdet) (snd st) )))
    (fill 0 (fst st), snd st).

(** ** Quad4 *)

(** ElementQuad4.h:53-70, Gauss::xi *)
Definition Gauss4_xi (junk : arr) : arr :=
  block
    [ upd [0;0]%nat (-1 / sqrt 3); upd [0;1]%nat (-1 / sqrt 3);
      upd [1;0]%nat (1 / sqrt 3);  upd [1;1]%nat (-1 / sqrt 3);
      upd [2;0]%nat (1 / sqrt 3);  upd [2;1]%nat (1 / sqrt 3);
      upd [3;0]%nat (-1 / sqrt 3); upd [3;1]%nat (1 / sqrt 3) ] junk.
(** ElementQuad4.h:77-89, Gauss::w *)
Definition Gauss4_w (junk : arr) : arr :=
  block [ upd [0%nat] 1; upd [1%nat] 1; upd [2%nat] 1; upd [3%nat] 1 ] junk.

(** ElementQuad4.h:119-140, Nodal::xi *)
Definition Nodal4_xi (junk : arr) : arr :=
  block
    [ upd [0;0]%nat (-1); upd [0;1]%nat (-1);
      upd [1;0]%nat 1;    upd [1;1]%nat (-1);
      upd [2;0]%nat 1;    upd [2;1]%nat 1;
      upd [3;0]%nat (-1); upd [3;1]%nat 1 ] junk.
(** ElementQuad4.h:147-159, Nodal::w *)
Definition Nodal4_w (junk : arr) : arr :=
  block [ upd [0%nat] 1; upd [1%nat] 1; upd [2%nat] 1; upd [3%nat] 1 ] junk.

(** ElementQuad4.h:190-201, MidPoint::xi *)
Definition MidPoint4_xi (junk : arr) : arr := block [ upd [0;0]%nat 0; upd [0;1]%nat 0 ] junk.
(** ElementQuad4.h:208-217, MidPoint::w *)
Definition MidPoint4_w (junk : arr) : arr := block [ upd [0%nat] 1 ] junk.

(** ElementQuad4.h:287-292 (= ElementQuad4Planar.h, ElementQuad4Axisymmetric.h constructors) *)
Definition Quad4_N (nip : nat) (xi junk : arr) : arr :=
  for_ nip (fun q => block
    [ upd [q;0]%nat (0.25 * (1 - xi [q;0]%nat) * (1 - xi [q;1]%nat));
      upd [q;1]%nat (0.25 * (1 + xi [q;0]%nat) * (1 - xi [q;1]%nat));
      upd [q;2]%nat (0.25 * (1 + xi [q;0]%nat) * (1 + xi [q;1]%nat));
      upd [q;3]%nat (0.25 * (1 - xi [q;0]%nat) * (1 + xi [q;1]%nat)) ]) junk.

(** ElementQuad4.h:294-305 (= ElementQuad4Planar.h, ElementQuad4Axisymmetric.h constructors) *)
Definition Quad4_dNxi (nip : nat) (xi junk : arr) : arr :=
  for_ nip (fun q => block
    [ upd [q;0;0]%nat (-0.25 * (1 - xi [q;1]%nat));
      upd [q;1;0]%nat (0.25 * (1 - xi [q;1]%nat));
      upd [q;2;0]%nat (0.25 * (1 + xi [q;1]%nat));
      upd [q;3;0]%nat (-0.25 * (1 + xi [q;1]%nat));
      upd [q;0;1]%nat (-0.25 * (1 - xi [q;0]%nat));
      upd [q;1;1]%nat (-0.25 * (1 + xi [q;0]%nat));
      upd [q;2;1]%nat (0.25 * (1 + xi [q;0]%nat));
      upd [q;3;1]%nat (0.25 * (1 - xi [q;0]%nat)) ]) junk.

(** the unrolled sum a(0) + a(1) + a(2) + a(3) *)
Definition sum4 (f : nat -> R) : R := f 0%nat + f 1%nat + f 2%nat + f 3%nat.

(** ElementQuad4.h:510-518 (= Planar 297-305, Axisymmetric 411-419): the Jacobian *)
Definition Quad4_jacobian (dNxi x : arr) (q e : nat) (J : arr) : arr :=
  block
    [ upd [0;0]%nat (sum4 (fun m => dNxi [q;m;0]%nat * x [e;m;0]%nat));
      upd [0;1]%nat (sum4 (fun m => dNxi [q;m;0]%nat * x [e;m;1]%nat));
      upd [1;0]%nat (sum4 (fun m => dNxi [q;m;1]%nat * x [e;m;0]%nat));
      upd [1;1]%nat (sum4 (fun m => dNxi [q;m;1]%nat * x [e;m;1]%nat)) ] J.

(** ElementQuad4.h:493-532, compute_dN_impl; [scale] is the extra factor of the volume:
    1 (absent) for Quadrature, m_thick for QuadraturePlanar (ElementQuad4Planar.h:280-319) *)
Definition Quad4_compute_dN (es : list nat) (nip : nat) (junk w dNxi x : arr) (vol_of : R -> R -> R)
    (st : arr * arr) : arr * arr :=
  forL es (fun e => for_ nip (fun q st =>
    let J := Quad4_jacobian dNxi x q e junk in
    let Jinv := inv2 J junk in
    let Jdet := det2 J in
    ( for_ 4 (fun m => block
        [ upd [e;q;m;0]%nat (Jinv [0;0]%nat * dNxi [q;m;0]%nat + Jinv [0;1]%nat * dNxi [q;m;1]%nat);
          upd [e;q;m;1]%nat (Jinv [1;0]%nat * dNxi [q;m;0]%nat + Jinv [1;1]%nat * dNxi [q;m;1]%nat) ]) (fst st),
      upd [e;q] (vol_of (w [q]) Jdet) (snd st) ))) st.

(** members shared by Quad4::Quadrature and Hex8::Quadrature (ElementQuad4.h:534-547,
    ElementHex8.h:383-396); s_nne, s_ndim, s_tdim are constants of the class *)
Record Quadrature := {
  q_nelem : nat; q_nip : nat; q_x : arr; q_w : arr; q_xi : arr;
  q_N : arr; q_dNxi : arr; q_dNx : arr; q_vol : arr }.

(** ElementQuad4.h:276-321: Quadrature(x, xi, w); [junk1..4]: the uninitialised m_N, m_dNxi, m_dNx,
    m_vol, [junk5]: the uninitialised J, Jinv *)
Definition Quad4_new (es : list nat) (nelem : nat) (x : arr) (nip : nat) (xi w : arr)
    (junk1 junk2 junk3 junk4 junk5 : arr) : Quadrature :=
  let dNxi := Quad4_dNxi nip xi junk2 in
  let st := Quad4_compute_dN es nip junk5 w dNxi x (fun w d => w * d) (junk3, junk4) in
  {| q_nelem := nelem; q_nip := nip; q_x := x; q_w := w; q_xi := xi;
     q_N := Quad4_N nip xi junk1; q_dNxi := dNxi; q_dNx := fst st; q_vol := snd st |}.

(** Element.h:564-569, update_x *)
Definition Quad4_update_x (es : list nat) (junk5 x : arr) (Q : Quadrature) : Quadrature :=
  let st := Quad4_compute_dN es (q_nip Q) junk5 (q_w Q) (q_dNxi Q) x (fun w d => w * d) (q_dNx Q, q_vol Q) in
  {| q_nelem := q_nelem Q; q_nip := q_nip Q; q_x := x; q_w := q_w Q; q_xi := q_xi Q;
     q_N := q_N Q; q_dNxi := q_dNxi Q; q_dNx := fst st; q_vol := snd st |}.

(** ElementQuad4.h:324-346, interpQuad_vector_impl *)
Definition Quad4_interpQuad_vector (es : list nat) (Q : Quadrature) (u qvector : arr) : arr :=
  forL es (fun e => for_ (q_nip Q) (fun q => block
    [ upd [e;q;0]%nat (sum4 (fun m => q_N Q [q;m] * u [e;m;0]%nat));
      upd [e;q;1]%nat (sum4 (fun m => q_N Q [q;m] * u [e;m;1]%nat)) ])) (fill 0 qvector).

(** ElementQuad4.h:366-373 (= Planar 149-156) *)
Definition Quad4_grad_block (dNx u : arr) (e q : nat) : arr -> arr := block
  [ upd [e;q;0;0]%nat (sum4 (fun m => dNx [e;q;m;0]%nat * u [e;m;0]%nat));
    upd [e;q;0;1]%nat (sum4 (fun m => dNx [e;q;m;0]%nat * u [e;m;1]%nat));
    upd [e;q;1;0]%nat (sum4 (fun m => dNx [e;q;m;1]%nat * u [e;m;0]%nat));
    upd [e;q;1;1]%nat (sum4 (fun m => dNx [e;q;m;1]%nat * u [e;m;1]%nat)) ].
(** ElementQuad4.h:395-402 (= Planar 180-187) *)
Definition Quad4_grad_T_block (dNx u : arr) (e q : nat) : arr -> arr := block
  [ upd [e;q;0;0]%nat (sum4 (fun m => dNx [e;q;m;0]%nat * u [e;m;0]%nat));
    upd [e;q;1;0]%nat (sum4 (fun m => dNx [e;q;m;0]%nat * u [e;m;1]%nat));
    upd [e;q;0;1]%nat (sum4 (fun m => dNx [e;q;m;1]%nat * u [e;m;0]%nat));
    upd [e;q;1;1]%nat (sum4 (fun m => dNx [e;q;m;1]%nat * u [e;m;1]%nat)) ].
(** ElementQuad4.h:425-432 (= Planar 212-219) *)
Definition Quad4_sym_block (dNx u : arr) (e q : nat) : arr -> arr := block
  [ upd [e;q;0;0]%nat (sum4 (fun m => dNx [e;q;m;0]%nat * u [e;m;0]%nat));
    upd [e;q;1;1]%nat (sum4 (fun m => dNx [e;q;m;1]%nat * u [e;m;1]%nat));
    upd [e;q;0;1]%nat (0.5 * (sum4 (fun m => dNx [e;q;m;0]%nat * u [e;m;1]%nat)
                              + dNx [e;q;0;1]%nat * u [e;0;0]%nat + dNx [e;q;1;1]%nat * u [e;1;0]%nat
                              + dNx [e;q;2;1]%nat * u [e;2;0]%nat + dNx [e;q;3;1]%nat * u [e;3;0]%nat));
    (fun eps => upd [e;q;1;0]%nat (eps [e;q;0;1]%nat) eps) ].

(** ElementQuad4.h:348-375, gradN_vector_impl (no fill: every entry is overwritten) *)
Definition Quad4_gradN_vector (es : list nat) (Q : Quadrature) (u qtensor : arr) : arr :=
  forL es (fun e => for_ (q_nip Q) (fun q => Quad4_grad_block (q_dNx Q) u e q)) qtensor.
(** ElementQuad4.h:377-404, gradN_vector_T_impl *)
Definition Quad4_gradN_vector_T (es : list nat) (Q : Quadrature) (u qtensor : arr) : arr :=
  forL es (fun e => for_ (q_nip Q) (fun q => Quad4_grad_T_block (q_dNx Q) u e q)) qtensor.
(** ElementQuad4.h:406-434, symGradN_vector_impl *)
Definition Quad4_symGradN_vector (es : list nat) (Q : Quadrature) (u qtensor : arr) : arr :=
  forL es (fun e => for_ (q_nip Q) (fun q => Quad4_sym_block (q_dNx Q) u e q)) qtensor.

(** ElementQuad4.h:436-464 (= Planar 223-251, Axisymmetric 241-269), int_N_scalar_NT_dV_impl *)
Definition Quad4_int_N_scalar_NT_dV_impl (es : list nat) (nip : nat) (N vol rho elemmat : arr) : arr :=
  forL es (fun e => for_ nip (fun q => for_ 4 (fun m => for_ 4 (fun n => block
    [ plus [e; m * 2 + 0; n * 2 + 0]%nat (N [q;m] * rho [e;q] * N [q;n] * vol [e;q]);
      plus [e; m * 2 + 1; n * 2 + 1]%nat (N [q;m] * rho [e;q] * N [q;n] * vol [e;q]) ]))))
    (fill 0 elemmat).
Definition Quad4_int_N_scalar_NT_dV (es : list nat) (Q : Quadrature) (rho elemmat : arr) : arr :=
  Quad4_int_N_scalar_NT_dV_impl es (q_nip Q) (q_N Q) (q_vol Q) rho elemmat.

(** ElementQuad4.h:466-491 (= Planar 253-278), int_gradN_dot_tensor2_dV_impl *)
Definition Quad4_int_gradN_dot_tensor2_dV_impl (es : list nat) (nip : nat) (dNx vol sig elemvec : arr) : arr :=
  forL es (fun e => for_ nip (fun q => for_ 4 (fun m => block
    [ plus [e;m;0]%nat ((dNx [e;q;m;0]%nat * sig [e;q;0;0]%nat + dNx [e;q;m;1]%nat * sig [e;q;1;0]%nat) * vol [e;q]);
      plus [e;m;1]%nat ((dNx [e;q;m;0]%nat * sig [e;q;0;1]%nat + dNx [e;q;m;1]%nat * sig [e;q;1;1]%nat) * vol [e;q]) ])))
    (fill 0 elemvec).
Definition Quad4_int_gradN_dot_tensor2_dV (es : list nat) (Q : Quadrature) (sig elemvec : arr) : arr :=
  Quad4_int_gradN_dot_tensor2_dV_impl es (q_nip Q) (q_dNx Q) (q_vol Q) sig elemvec.

(** inherited from the base class: Element.h:1024-1056, 1131-1176 *)
Definition Quad4_int_N_vector_dV (es : list nat) (Q : Quadrature) (n : nat) (qvector elemvec : arr) : arr :=
  base_int_N_vector_dV es (q_nip Q) 4 n (q_N Q) (q_vol Q) qvector elemvec.
Definition Quad4_int_gradN_dot_tensor4_dot_gradNT_dV (es : list nat) (Q : Quadrature) (C elemmat : arr) : arr :=
  base_int_gradN_dot_tensor4_dot_gradNT_dV es (q_nip Q) 4 2 (q_dNx Q) (q_vol Q) C elemmat.

(** ** Quad4 planar (ElementQuad4Planar.h) *)

(** ElementQuad4Planar.h:321-335 *)
Record Planar := { p_base : Quadrature; p_thick : R }.

(** ElementQuad4Planar.h:82-124 *)
Definition Planar_new (es : list nat) (nelem : nat) (x : arr) (nip : nat) (xi w : arr) (thick : R)
    (junk1 junk2 junk3 junk4 junk5 : arr) : Planar :=
  let dNxi := Quad4_dNxi nip xi junk2 in
  let st := Quad4_compute_dN es nip junk5 w dNxi x (fun w d => w * d * thick) (junk3, junk4) in
  {| p_base := {| q_nelem := nelem; q_nip := nip; q_x := x; q_w := w; q_xi := xi;
                  q_N := Quad4_N nip xi junk1; q_dNxi := dNxi; q_dNx := fst st; q_vol := snd st |};
     p_thick := thick |}.

(** Element.h:564-569 with ElementQuad4Planar.h:280-319 *)
Definition Planar_update_x (es : list nat) (junk5 x : arr) (P : Planar) : Planar :=
  let Q := p_base P in
  let st := Quad4_compute_dN es (q_nip Q) junk5 (q_w Q) (q_dNxi Q) x (fun w d => w * d * p_thick P) (q_dNx Q, q_vol Q) in
  {| p_base := {| q_nelem := q_nelem Q; q_nip := q_nip Q; q_x := x; q_w := q_w Q; q_xi := q_xi Q;
                  q_N := q_N Q; q_dNxi := q_dNxi Q; q_dNx := fst st; q_vol := snd st |};
     p_thick := p_thick P |}.

(** ElementQuad4Planar.h:129-158 *)
Definition Planar_gradN_vector (es : list nat) (P : Planar) (u qtensor : arr) : arr :=
  forL es (fun e => for_ (q_nip (p_base P)) (fun q => Quad4_grad_block (q_dNx (p_base P)) u e q)) (fill 0 qtensor).
(** ElementQuad4Planar.h:160-189 *)
Definition Planar_gradN_vector_T (es : list nat) (P : Planar) (u qtensor : arr) : arr :=
  forL es (fun e => for_ (q_nip (p_base P)) (fun q => Quad4_grad_T_block (q_dNx (p_base P)) u e q)) (fill 0 qtensor).
(** ElementQuad4Planar.h:191-221 *)
Definition Planar_symGradN_vector (es : list nat) (P : Planar) (u qtensor : arr) : arr :=
  forL es (fun e => for_ (q_nip (p_base P)) (fun q => Quad4_sym_block (q_dNx (p_base P)) u e q)) (fill 0 qtensor).
(** ElementQuad4Planar.h:223-251 *)
Definition Planar_int_N_scalar_NT_dV (es : list nat) (P : Planar) (rho elemmat : arr) : arr :=
  Quad4_int_N_scalar_NT_dV_impl es (q_nip (p_base P)) (q_N (p_base P)) (q_vol (p_base P)) rho elemmat.
(** ElementQuad4Planar.h:253-278 *)
Definition Planar_int_gradN_dot_tensor2_dV (es : list nat) (P : Planar) (sig elemvec : arr) : arr :=
  Quad4_int_gradN_dot_tensor2_dV_impl es (q_nip (p_base P)) (q_dNx (p_base P)) (q_vol (p_base P)) sig elemvec.
(** inherited: Element.h:892-922, 1024-1056, 1131-1176 (s_ndim = 2: only in-plane components are used) *)
Definition Planar_interpQuad_vector (es : list nat) (P : Planar) (n : nat) (u qvector : arr) : arr :=
  base_interpQuad_vector es (q_nip (p_base P)) 4 n (q_N (p_base P)) u qvector.
Definition Planar_int_N_vector_dV (es : list nat) (P : Planar) (n : nat) (qvector elemvec : arr) : arr :=
  base_int_N_vector_dV es (q_nip (p_base P)) 4 n (q_N (p_base P)) (q_vol (p_base P)) qvector elemvec.
Definition Planar_int_gradN_dot_tensor4_dot_gradNT_dV (es : list nat) (P : Planar) (C elemmat : arr) : arr :=
  base_int_gradN_dot_tensor4_dot_gradNT_dV es (q_nip (p_base P)) 4 2 (q_dNx (p_base P)) (q_vol (p_base P)) C elemmat.

(** ** Quad4 axisymmetric (ElementQuad4Axisymmetric.h) *)

(** ElementQuad4Axisymmetric.h:448-461 (m_B instead of m_dNx) *)
Record Axisym := {
  a_nelem : nat; a_nip : nat; a_x : arr; a_w : arr; a_xi : arr;
  a_N : arr; a_dNxi : arr; a_B : arr; a_vol : arr }.

(** ElementQuad4Axisymmetric.h:390-446, compute_dN_impl *)
Definition Axisym_compute_dN (es : list nat) (nip : nat) (junk w N dNxi x : arr) (st : arr * arr) : arr * arr :=
  forL es (fun e => for_ nip (fun q st =>
    let J := Quad4_jacobian dNxi x q e junk in
    let Jinv := inv2 J junk in
    let Jdet := det2 J in
    let rq := sum4 (fun m => N [q;m] * x [e;m;1]%nat) in
    ( for_ 4 (fun m => block
        [ upd [e;q;m;0;0;0]%nat (Jinv [1;0]%nat * dNxi [q;m;0]%nat + Jinv [1;1]%nat * dNxi [q;m;1]%nat);
          upd [e;q;m;0;2;2]%nat (Jinv [1;0]%nat * dNxi [q;m;0]%nat + Jinv [1;1]%nat * dNxi [q;m;1]%nat);
          upd [e;q;m;1;1;0]%nat (1 / rq * N [q;m]);
          upd [e;q;m;2;0;0]%nat (Jinv [0;0]%nat * dNxi [q;m;0]%nat + Jinv [0;1]%nat * dNxi [q;m;1]%nat);
          upd [e;q;m;2;2;2]%nat (Jinv [0;0]%nat * dNxi [q;m;0]%nat + Jinv [0;1]%nat * dNxi [q;m;1]%nat) ]) (fst st),
      upd [e;q] (w [q] * Jdet * 2 * PI * rq) (snd st) ))) (fill 0 (fst st), snd st).

(** ElementQuad4Axisymmetric.h:75-113 *)
Definition Axisym_new (es : list nat) (nelem : nat) (x : arr) (nip : nat) (xi w : arr)
    (junk1 junk2 junk3 junk4 junk5 : arr) : Axisym :=
  let N := Quad4_N nip xi junk1 in
  let dNxi := Quad4_dNxi nip xi junk2 in
  let st := Axisym_compute_dN es nip junk5 w N dNxi x (junk3, junk4) in
  {| a_nelem := nelem; a_nip := nip; a_x := x; a_w := w; a_xi := xi;
     a_N := N; a_dNxi := dNxi; a_B := fst st; a_vol := snd st |}.

(** Element.h:564-569 *)
Definition Axisym_update_x (es : list nat) (junk5 x : arr) (A : Axisym) : Axisym :=
  let st := Axisym_compute_dN es (a_nip A) junk5 (a_w A) (a_N A) (a_dNxi A) x (a_B A, a_vol A) in
  {| a_nelem := a_nelem A; a_nip := a_nip A; a_x := x; a_w := a_w A; a_xi := a_xi A;
     a_N := a_N A; a_dNxi := a_dNxi A; a_B := fst st; a_vol := snd st |}.

(** ElementQuad4Axisymmetric.h:132-165, gradN_vector_impl *)
Definition Axisym_gradN_vector (es : list nat) (A : Axisym) (u qtensor : arr) : arr :=
  let B := a_B A in
  forL es (fun e => for_ (a_nip A) (fun q => block
    [ upd [e;q;0;0]%nat (sum4 (fun m => B [e;q;m;0;0;0]%nat * u [e;m;1]%nat));
      upd [e;q;1;1]%nat (sum4 (fun m => B [e;q;m;1;1;0]%nat * u [e;m;1]%nat));
      upd [e;q;2;2]%nat (sum4 (fun m => B [e;q;m;2;2;2]%nat * u [e;m;0]%nat));
      upd [e;q;0;2]%nat (sum4 (fun m => B [e;q;m;0;2;2]%nat * u [e;m;0]%nat));
      upd [e;q;2;0]%nat (sum4 (fun m => B [e;q;m;2;0;0]%nat * u [e;m;1]%nat)) ])) (fill 0 qtensor).

(** ElementQuad4Axisymmetric.h:167-200, gradN_vector_T_impl *)
Definition Axisym_gradN_vector_T (es : list nat) (A : Axisym) (u qtensor : arr) : arr :=
  let B := a_B A in
  forL es (fun e => for_ (a_nip A) (fun q => block
    [ upd [e;q;0;0]%nat (sum4 (fun m => B [e;q;m;0;0;0]%nat * u [e;m;1]%nat));
      upd [e;q;1;1]%nat (sum4 (fun m => B [e;q;m;1;1;0]%nat * u [e;m;1]%nat));
      upd [e;q;2;2]%nat (sum4 (fun m => B [e;q;m;2;2;2]%nat * u [e;m;0]%nat));
      upd [e;q;2;0]%nat (sum4 (fun m => B [e;q;m;0;2;2]%nat * u [e;m;0]%nat));
      upd [e;q;0;2]%nat (sum4 (fun m => B [e;q;m;2;0;0]%nat * u [e;m;1]%nat)) ])) (fill 0 qtensor).

(** ElementQuad4Axisymmetric.h:202-237, symGradN_vector_impl *)
Definition Axisym_symGradN_vector (es : list nat) (A : Axisym) (u qtensor : arr) : arr :=
  let B := a_B A in
  forL es (fun e => for_ (a_nip A) (fun q => block
    [ upd [e;q;0;0]%nat (sum4 (fun m => B [e;q;m;0;0;0]%nat * u [e;m;1]%nat));
      upd [e;q;1;1]%nat (sum4 (fun m => B [e;q;m;1;1;0]%nat * u [e;m;1]%nat));
      upd [e;q;2;2]%nat (sum4 (fun m => B [e;q;m;2;2;2]%nat * u [e;m;0]%nat));
      upd [e;q;2;0]%nat (0.5 * (sum4 (fun m => B [e;q;m;0;2;2]%nat * u [e;m;0]%nat)
                                + B [e;q;0;2;0;0]%nat * u [e;0;1]%nat + B [e;q;1;2;0;0]%nat * u [e;1;1]%nat
                                + B [e;q;2;2;0;0]%nat * u [e;2;1]%nat + B [e;q;3;2;0;0]%nat * u [e;3;1]%nat));
      (fun eps => upd [e;q;0;2]%nat (eps [e;q;2;0]%nat) eps) ])) (fill 0 qtensor).

(** ElementQuad4Axisymmetric.h:241-269 *)
Definition Axisym_int_N_scalar_NT_dV (es : list nat) (A : Axisym) (rho elemmat : arr) : arr :=
  Quad4_int_N_scalar_NT_dV_impl es (a_nip A) (a_N A) (a_vol A) rho elemmat.

(** ElementQuad4Axisymmetric.h:271-301, int_gradN_dot_tensor2_dV_impl *)
Definition Axisym_int_gradN_dot_tensor2_dV (es : list nat) (A : Axisym) (sig elemvec : arr) : arr :=
  let B := a_B A in let vol := a_vol A in
  forL es (fun e => for_ (a_nip A) (fun q => for_ 4 (fun m => block
    [ plus [e;m;0]%nat (vol [e;q] * (B [e;q;m;2;2;2]%nat * sig [e;q;2;2]%nat + B [e;q;m;0;2;2]%nat * sig [e;q;0;2]%nat));
      plus [e;m;1]%nat (vol [e;q] * (B [e;q;m;0;0;0]%nat * sig [e;q;0;0]%nat + B [e;q;m;1;1;0]%nat * sig [e;q;1;1]%nat
                                     + B [e;q;m;2;0;0]%nat * sig [e;q;2;0]%nat)) ])))
    (fill 0 elemvec).

(** abbreviations of the next definition: the views B(m,a,b,c), C(a,b,c,d), and
    K(m * s_ndim + i, n * s_ndim + j) += v *)
Definition B_at (B : arr) (e q m a b c : nat) : R := B [e;q;m;a;b;c].
Definition C_at (C : arr) (e q a b c d : nat) : R := C [e;q;a;b;c;d].
Definition K_plus (e m n i j : nat) (v : R) : arr -> arr := plus [e; m * 2 + i; n * 2 + j]%nat v.

(** ElementQuad4Axisymmetric.h:303-388, int_gradN_dot_tensor4_dot_gradNT_dV_impl: 25 statements *)
Definition Axisym_int_gradN_dot_tensor4_dot_gradNT_dV (es : list nat) (A : Axisym) (C elemmat : arr) : arr :=
  let B := a_B A in let vol := a_vol A in
  forL es (fun e => for_ (a_nip A) (fun q => for_ 4 (fun m => for_ 4 (fun n =>
    block
    [ K_plus e m n 1 1 (B_at B e q m 0 0 0 * C_at C e q 0 0 0 0 * B_at B e q n 0 0 0 * vol [e;q]);
      K_plus e m n 1 1 (B_at B e q m 0 0 0 * C_at C e q 0 0 1 1 * B_at B e q n 1 1 0 * vol [e;q]);
      K_plus e m n 1 0 (B_at B e q m 0 0 0 * C_at C e q 0 0 2 2 * B_at B e q n 2 2 2 * vol [e;q]);
      K_plus e m n 1 0 (B_at B e q m 0 0 0 * C_at C e q 0 0 2 0 * B_at B e q n 0 2 2 * vol [e;q]);
      K_plus e m n 1 1 (B_at B e q m 0 0 0 * C_at C e q 0 0 0 2 * B_at B e q n 2 0 0 * vol [e;q]);

      K_plus e m n 1 1 (B_at B e q m 1 1 0 * C_at C e q 1 1 0 0 * B_at B e q n 0 0 0 * vol [e;q]);
      K_plus e m n 1 1 (B_at B e q m 1 1 0 * C_at C e q 1 1 1 1 * B_at B e q n 1 1 0 * vol [e;q]);
      K_plus e m n 1 0 (B_at B e q m 1 1 0 * C_at C e q 1 1 2 2 * B_at B e q n 2 2 2 * vol [e;q]);
      K_plus e m n 1 0 (B_at B e q m 1 1 0 * C_at C e q 1 1 2 0 * B_at B e q n 0 2 2 * vol [e;q]);
      K_plus e m n 1 1 (B_at B e q m 1 1 0 * C_at C e q 1 1 0 2 * B_at B e q n 2 0 0 * vol [e;q]);

      K_plus e m n 0 1 (B_at B e q m 2 2 2 * C_at C e q 2 2 0 0 * B_at B e q n 0 0 0 * vol [e;q]);
      K_plus e m n 0 1 (B_at B e q m 2 2 2 * C_at C e q 2 2 1 1 * B_at B e q n 1 1 0 * vol [e;q]);
      K_plus e m n 0 0 (B_at B e q m 2 2 2 * C_at C e q 2 2 2 2 * B_at B e q n 2 2 2 * vol [e;q]);
      K_plus e m n 0 0 (B_at B e q m 2 2 2 * C_at C e q 2 2 2 0 * B_at B e q n 0 2 2 * vol [e;q]);
      K_plus e m n 0 1 (B_at B e q m 2 2 2 * C_at C e q 2 2 0 2 * B_at B e q n 2 0 0 * vol [e;q]);

      K_plus e m n 0 1 (B_at B e q m 0 2 2 * C_at C e q 0 2 0 0 * B_at B e q n 0 0 0 * vol [e;q]);
      K_plus e m n 0 1 (B_at B e q m 0 2 2 * C_at C e q 0 2 1 1 * B_at B e q n 1 1 0 * vol [e;q]);
      K_plus e m n 0 0 (B_at B e q m 0 2 2 * C_at C e q 0 2 2 2 * B_at B e q n 2 2 2 * vol [e;q]);
      K_plus e m n 0 0 (B_at B e q m 0 2 2 * C_at C e q 0 2 2 0 * B_at B e q n 0 2 2 * vol [e;q]);
      K_plus e m n 0 1 (B_at B e q m 0 2 2 * C_at C e q 0 2 0 2 * B_at B e q n 2 0 0 * vol [e;q]);

      K_plus e m n 1 1 (B_at B e q m 2 0 0 * C_at C e q 2 0 0 0 * B_at B e q n 0 0 0 * vol [e;q]);
      K_plus e m n 1 1 (B_at B e q m 2 0 0 * C_at C e q 2 0 1 1 * B_at B e q n 1 1 0 * vol [e;q]);
      K_plus e m n 1 0 (B_at B e q m 2 0 0 * C_at C e q 2 0 2 2 * B_at B e q n 2 2 2 * vol [e;q]);
      K_plus e m n 1 0 (B_at B e q m 2 0 0 * C_at C e q 2 0 2 0 * B_at B e q n 0 2 2 * vol [e;q]);
      K_plus e m n 1 1 (B_at B e q m 2 0 0 * C_at C e q 2 0 0 2 * B_at B e q n 2 0 0 * vol [e;q]) ]))))
    (fill 0 elemmat).

(** inherited: Element.h:892-922, 1024-1056 *)
Definition Axisym_interpQuad_vector (es : list nat) (A : Axisym) (n : nat) (u qvector : arr) : arr :=
  base_interpQuad_vector es (a_nip A) 4 n (a_N A) u qvector.
Definition Axisym_int_N_vector_dV (es : list nat) (A : Axisym) (n : nat) (qvector elemvec : arr) : arr :=
  base_int_N_vector_dV es (a_nip A) 4 n (a_N A) (a_vol A) qvector elemvec.

(** ** Hex8 (ElementHex8.h) *)

(** ElementHex8.h:46-85, Gauss::xi *)
Definition Hex8_points (h : R) (junk : arr) : arr :=
  block
    [ upd [0;0]%nat (-1 / h); upd [0;1]%nat (-1 / h); upd [0;2]%nat (-1 / h);
      upd [1;0]%nat (1 / h);  upd [1;1]%nat (-1 / h); upd [1;2]%nat (-1 / h);
      upd [2;0]%nat (1 / h);  upd [2;1]%nat (1 / h);  upd [2;2]%nat (-1 / h);
      upd [3;0]%nat (-1 / h); upd [3;1]%nat (1 / h);  upd [3;2]%nat (-1 / h);
      upd [4;0]%nat (-1 / h); upd [4;1]%nat (-1 / h); upd [4;2]%nat (1 / h);
      upd [5;0]%nat (1 / h);  upd [5;1]%nat (-1 / h); upd [5;2]%nat (1 / h);
      upd [6;0]%nat (1 / h);  upd [6;1]%nat (1 / h);  upd [6;2]%nat (1 / h);
      upd [7;0]%nat (-1 / h); upd [7;1]%nat (1 / h);  upd [7;2]%nat (1 / h) ] junk.
Definition Gauss8_xi (junk : arr) : arr := Hex8_points (sqrt 3) junk.
(** ElementHex8.h:130-172, Nodal::xi (written there as -1.0 and +1.0: here -1/1 and 1/1) *)
Definition Nodal8_xi (junk : arr) : arr := Hex8_points 1 junk.
(** ElementHex8.h:92-108 (Gauss::w), 179-195 (Nodal::w) *)
Definition Gauss8_w (junk : arr) : arr :=
  block [ upd [0%nat] 1; upd [1%nat] 1; upd [2%nat] 1; upd [3%nat] 1;
          upd [4%nat] 1; upd [5%nat] 1; upd [6%nat] 1; upd [7%nat] 1 ] junk.

(** ElementHex8.h:265-274 *)
Definition Hex8_N (nip : nat) (xi junk : arr) : arr :=
  for_ nip (fun q => block
    [ upd [q;0]%nat (0.125 * (1 - xi [q;0]%nat) * (1 - xi [q;1]%nat) * (1 - xi [q;2]%nat));
      upd [q;1]%nat (0.125 * (1 + xi [q;0]%nat) * (1 - xi [q;1]%nat) * (1 - xi [q;2]%nat));
      upd [q;2]%nat (0.125 * (1 + xi [q;0]%nat) * (1 + xi [q;1]%nat) * (1 - xi [q;2]%nat));
      upd [q;3]%nat (0.125 * (1 - xi [q;0]%nat) * (1 + xi [q;1]%nat) * (1 - xi [q;2]%nat));
      upd [q;4]%nat (0.125 * (1 - xi [q;0]%nat) * (1 - xi [q;1]%nat) * (1 + xi [q;2]%nat));
      upd [q;5]%nat (0.125 * (1 + xi [q;0]%nat) * (1 - xi [q;1]%nat) * (1 + xi [q;2]%nat));
      upd [q;6]%nat (0.125 * (1 + xi [q;0]%nat) * (1 + xi [q;1]%nat) * (1 + xi [q;2]%nat));
      upd [q;7]%nat (0.125 * (1 - xi [q;0]%nat) * (1 + xi [q;1]%nat) * (1 + xi [q;2]%nat)) ]) junk.

(** ElementHex8.h:276-304 *)
Definition Hex8_dNxi (nip : nat) (xi junk : arr) : arr :=
  for_ nip (fun q => block
    [ upd [q;0;0]%nat (-0.125 * (1 - xi [q;1]%nat) * (1 - xi [q;2]%nat));
      upd [q;1;0]%nat (0.125 * (1 - xi [q;1]%nat) * (1 - xi [q;2]%nat));
      upd [q;2;0]%nat (0.125 * (1 + xi [q;1]%nat) * (1 - xi [q;2]%nat));
      upd [q;3;0]%nat (-0.125 * (1 + xi [q;1]%nat) * (1 - xi [q;2]%nat));
      upd [q;4;0]%nat (-0.125 * (1 - xi [q;1]%nat) * (1 + xi [q;2]%nat));
      upd [q;5;0]%nat (0.125 * (1 - xi [q;1]%nat) * (1 + xi [q;2]%nat));
      upd [q;6;0]%nat (0.125 * (1 + xi [q;1]%nat) * (1 + xi [q;2]%nat));
      upd [q;7;0]%nat (-0.125 * (1 + xi [q;1]%nat) * (1 + xi [q;2]%nat));
      upd [q;0;1]%nat (-0.125 * (1 - xi [q;0]%nat) * (1 - xi [q;2]%nat));
      upd [q;1;1]%nat (-0.125 * (1 + xi [q;0]%nat) * (1 - xi [q;2]%nat));
      upd [q;2;1]%nat (0.125 * (1 + xi [q;0]%nat) * (1 - xi [q;2]%nat));
      upd [q;3;1]%nat (0.125 * (1 - xi [q;0]%nat) * (1 - xi [q;2]%nat));
      upd [q;4;1]%nat (-0.125 * (1 - xi [q;0]%nat) * (1 + xi [q;2]%nat));
      upd [q;5;1]%nat (-0.125 * (1 + xi [q;0]%nat) * (1 + xi [q;2]%nat));
      upd [q;6;1]%nat (0.125 * (1 + xi [q;0]%nat) * (1 + xi [q;2]%nat));
      upd [q;7;1]%nat (0.125 * (1 - xi [q;0]%nat) * (1 + xi [q;2]%nat));
      upd [q;0;2]%nat (-0.125 * (1 - xi [q;0]%nat) * (1 - xi [q;1]%nat));
      upd [q;1;2]%nat (-0.125 * (1 + xi [q;0]%nat) * (1 - xi [q;1]%nat));
      upd [q;2;2]%nat (-0.125 * (1 + xi [q;0]%nat) * (1 + xi [q;1]%nat));
      upd [q;3;2]%nat (-0.125 * (1 - xi [q;0]%nat) * (1 + xi [q;1]%nat));
      upd [q;4;2]%nat (0.125 * (1 - xi [q;0]%nat) * (1 - xi [q;1]%nat));
      upd [q;5;2]%nat (0.125 * (1 + xi [q;0]%nat) * (1 - xi [q;1]%nat));
      upd [q;6;2]%nat (0.125 * (1 + xi [q;0]%nat) * (1 + xi [q;1]%nat));
      upd [q;7;2]%nat (0.125 * (1 - xi [q;0]%nat) * (1 + xi [q;1]%nat)) ]) junk.

(** ElementHex8.h:254-317: the constructor calls the base class compute_dN *)
Definition Hex8_new (es : list nat) (nelem : nat) (x : arr) (nip : nat) (xi w : arr)
    (junk1 junk2 junk3 junk4 junk5 : arr) : Quadrature :=
  let dNxi := Hex8_dNxi nip xi junk2 in
  let st := base_compute_dN es nip 8 3 det3 inv3 junk5 w dNxi x (junk3, junk4) in
  {| q_nelem := nelem; q_nip := nip; q_x := x; q_w := w; q_xi := xi;
     q_N := Hex8_N nip xi junk1; q_dNxi := dNxi; q_dNx := fst st; q_vol := snd st |}.

(** Element.h:564-569 *)
Definition Hex8_update_x (es : list nat) (junk5 x : arr) (Q : Quadrature) : Quadrature :=
  let st := base_compute_dN es (q_nip Q) 8 3 det3 inv3 junk5 (q_w Q) (q_dNxi Q) x (q_dNx Q, q_vol Q) in
  {| q_nelem := q_nelem Q; q_nip := q_nip Q; q_x := x; q_w := q_w Q; q_xi := q_xi Q;
     q_N := q_N Q; q_dNxi := q_dNxi Q; q_dNx := fst st; q_vol := snd st |}.

(** inherited: Element.h:892-1056, 1131-1176 *)
Definition Hex8_interpQuad_vector (es : list nat) (Q : Quadrature) (n : nat) (u qvector : arr) : arr :=
  base_interpQuad_vector es (q_nip Q) 8 n (q_N Q) u qvector.
Definition Hex8_gradN_vector (es : list nat) (Q : Quadrature) (u qtensor : arr) : arr :=
  base_gradN_vector es (q_nip Q) 8 3 (q_dNx Q) u qtensor.
Definition Hex8_gradN_vector_T (es : list nat) (Q : Quadrature) (u qtensor : arr) : arr :=
  base_gradN_vector_T es (q_nip Q) 8 3 (q_dNx Q) u qtensor.
Definition Hex8_symGradN_vector (es : list nat) (Q : Quadrature) (u qtensor : arr) : arr :=
  base_symGradN_vector es (q_nip Q) 8 3 (q_dNx Q) u qtensor.
Definition Hex8_int_N_vector_dV (es : list nat) (Q : Quadrature) (n : nat) (qvector elemvec : arr) : arr :=
  base_int_N_vector_dV es (q_nip Q) 8 n (q_N Q) (q_vol Q) qvector elemvec.
Definition Hex8_int_gradN_dot_tensor4_dot_gradNT_dV (es : list nat) (Q : Quadrature) (C elemmat : arr) : arr :=
  base_int_gradN_dot_tensor4_dot_gradNT_dV es (q_nip Q) 8 3 (q_dNx Q) (q_vol Q) C elemmat.

(** ElementHex8.h:323-352, int_N_scalar_NT_dV_impl *)
Definition Hex8_int_N_scalar_NT_dV (es : list nat) (Q : Quadrature) (rho elemmat : arr) : arr :=
  let N := q_N Q in let vol := q_vol Q in
  forL es (fun e => for_ (q_nip Q) (fun q => for_ 8 (fun m => for_ 8 (fun n => block
    [ plus [e; m * 3 + 0; n * 3 + 0]%nat (N [q;m] * rho [e;q] * N [q;n] * vol [e;q]);
      plus [e; m * 3 + 1; n * 3 + 1]%nat (N [q;m] * rho [e;q] * N [q;n] * vol [e;q]);
      plus [e; m * 3 + 2; n * 3 + 2]%nat (N [q;m] * rho [e;q] * N [q;n] * vol [e;q]) ]))))
    (fill 0 elemmat).

(** ElementHex8.h:354-382, int_gradN_dot_tensor2_dV_impl *)
Definition Hex8_int_gradN_dot_tensor2_dV (es : list nat) (Q : Quadrature) (sig elemvec : arr) : arr :=
  let dNx := q_dNx Q in let vol := q_vol Q in
  forL es (fun e => for_ (q_nip Q) (fun q => for_ 8 (fun m => block
    [ plus [e;m;0]%nat ((dNx [e;q;m;0]%nat * sig [e;q;0;0]%nat + dNx [e;q;m;1]%nat * sig [e;q;1;0]%nat
                         + dNx [e;q;m;2]%nat * sig [e;q;2;0]%nat) * vol [e;q]);
      plus [e;m;1]%nat ((dNx [e;q;m;0]%nat * sig [e;q;0;1]%nat + dNx [e;q;m;1]%nat * sig [e;q;1;1]%nat
                         + dNx [e;q;m;2]%nat * sig [e;q;2;1]%nat) * vol [e;q]);
      plus [e;m;2]%nat ((dNx [e;q;m;0]%nat * sig [e;q;0;2]%nat + dNx [e;q;m;1]%nat * sig [e;q;1;2]%nat
                         + dNx [e;q;m;2]%nat * sig [e;q;2;2]%nat) * vol [e;q]) ])))
    (fill 0 elemvec).
