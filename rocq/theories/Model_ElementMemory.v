(** Model of the quadrature classes at the level of memory: every array is one block of doubles with a shape, every access is an address in
    that block, computed as the code does it (xtensor's strides, views on raw pointers), and an address outside of the block is [Oob].
    Model_Element.v has the same loops on arrays that are functions of their indices.
    Not modelled: J, Jinv and the scalars, local to an iteration (their indices are constants, in bounds).  Uninitialised memory holds
    arbitrary numbers. *)
From Coq Require Import Reals.
From Verif Require Import Model_Element Base Model_Checked.

(** an array: its shape and its entries, row by row *)
Record buf := mkBuf { b_shape : list nat; b_data : list R }.
Definition size (s : list nat) : nat := fold_right Nat.mul 1 s.
(** xtensor's row-major strides: the stride of an extent of 1 is 0 *)
Fixpoint strides (s : list nat) : list nat := match s with [] => [] | d :: s => (if d =? 1 then 0 else size s) :: strides s end.
Fixpoint dot (ix st : list nat) : nat := match ix, st with i :: ix, s :: st => i * s + dot ix st | _, _ => 0 end.
(** the address of b(ix), with operator(): not checked *)
Definition addr (b : buf) (ix : list nat) : nat := dot ix (strides (b_shape b)).
(** the address of the entry (ix) of the view [xt::adapt(&b(ix0), xt::xshape<s...>())] *)
Definition at_ (b : buf) (ix0 s ix : list nat) : nat := addr b ix0 + dot ix (strides s).

(** right-hand sides: numbers read from memory, constants, and their combinations *)
Inductive expr := Cst (r : R) | Ld (b : buf) (a : nat) | Bin (f : R -> R -> R) (x y : expr).
Fixpoint ev (x : expr) : res R :=
  match x with
  | Cst r => Ok r
  | Ld b a => get (b_data b) a
  | Bin f x y => do u <- ev x; do v <- ev y; Ok (f u v)
  end.
Declare Scope mem_scope. Delimit Scope mem_scope with mem.
Notation "x + y" := (Bin Rplus x y) : mem_scope.
Notation "x - y" := (Bin Rminus x y) : mem_scope.
Notation "x * y" := (Bin Rmult x y) : mem_scope.
Local Open Scope mem_scope.
(** b(ix), the entry (ix) of a view, p[k] for a pointer p = &b(ix0) *)
Definition rd (b : buf) (ix : list nat) : expr := Ld b (addr b ix).
Definition rdv (b : buf) (ix0 s ix : list nat) : expr := Ld b (at_ b ix0 s ix).
Definition rdp (b : buf) (ix0 : list nat) (k : nat) : expr := Ld b (addr b ix0 + k)%nat.
Definition sum4e (f : nat -> expr) : expr := f 0 + f 1 + f 2 + f 3.

(** statements: b[a] = x, b[a] += x *)
Definition store (a : nat) (v : R) (b : buf) : res buf := do d <- set (b_data b) a v; Ok (mkBuf (b_shape b) d).
Definition setm (ix : list nat) (x : expr) (b : buf) : res buf := do v <- ev x; store (addr b ix) v b.
Definition setv (ix0 s ix : list nat) (x : expr) (b : buf) : res buf := do v <- ev x; store (at_ b ix0 s ix) v b.
Definition incr (a : nat) (x : expr) (b : buf) : res buf := do v <- ev x; do w <- get (b_data b) a; store a (w + v)%R b.
Definition addv (ix0 s ix : list nat) (x : expr) (b : buf) : res buf := incr (at_ b ix0 s ix) x b.
Definition addp (ix0 : list nat) (k : nat) (x : expr) (b : buf) : res buf := incr (addr b ix0 + k)%nat x b.
Definition zero (b : buf) : buf := mkBuf (b_shape b) (map (fun _ => 0%R) (b_data b)).
Definition loop {S} (l : list nat) (body : nat -> S -> res S) (s : S) : res S := foldM (fun s i => body i s) l s.
Definition loop_ {S} (n : nat) (body : nat -> S -> res S) (s : S) : res S := loop (seq 0 n) body s.
Definition run {S} (l : list (S -> res S)) (s : S) : res S := foldM (fun s f => f s) l s.

(** Element.h:892-922, interpQuad_vector_impl, after the assertions; [n]: elemvec.shape(2) *)
Definition m_base_interpQuad_vector (es : list nat) (nip nne n : nat) (N elemvec : buf) (qvector : buf) : res buf :=
  loop es (fun e => loop_ nip (fun q => loop_ nne (fun m => loop_ n (fun i =>
    addp [e; q; 0] i (rdp N [q; 0] m * rdp elemvec [e; 0; 0] (m * n + i)%nat))))) (zero qvector).
(** Element.h:924-955, gradN_vector_impl *)
Definition m_base_gradN_vector (es : list nat) (nip nne ndim tdim : nat) (dNx elemvec : buf) (qtensor : buf) : res buf :=
  loop es (fun e => loop_ nip (fun q => loop_ nne (fun m => loop_ ndim (fun i => loop_ ndim (fun j =>
    addv [e; q; 0; 0] [tdim; tdim] [i; j] (rdv dNx [e; q; 0; 0] [nne; ndim] [m; i] * rdv elemvec [e; 0; 0] [nne; ndim] [m; j])))))) (zero qtensor).
(** Element.h:957-988, gradN_vector_T_impl *)
Definition m_base_gradN_vector_T (es : list nat) (nip nne ndim tdim : nat) (dNx elemvec : buf) (qtensor : buf) : res buf :=
  loop es (fun e => loop_ nip (fun q => loop_ nne (fun m => loop_ ndim (fun i => loop_ ndim (fun j =>
    addv [e; q; 0; 0] [tdim; tdim] [j; i] (rdv dNx [e; q; 0; 0] [nne; ndim] [m; i] * rdv elemvec [e; 0; 0] [nne; ndim] [m; j])))))) (zero qtensor).
(** Element.h:990-1022, symGradN_vector_impl *)
Definition m_base_symGradN_vector (es : list nat) (nip nne ndim tdim : nat) (dNx elemvec : buf) (qtensor : buf) : res buf :=
  loop es (fun e => loop_ nip (fun q => loop_ nne (fun m => loop_ ndim (fun i => loop_ ndim (fun j => run
    [ addv [e; q; 0; 0] [tdim; tdim] [i; j] (Cst 0.5 * rdv dNx [e; q; 0; 0] [nne; ndim] [m; i] * rdv elemvec [e; 0; 0] [nne; ndim] [m; j]);
      addv [e; q; 0; 0] [tdim; tdim] [j; i] (Cst 0.5 * rdv dNx [e; q; 0; 0] [nne; ndim] [m; i] * rdv elemvec [e; 0; 0] [nne; ndim] [m; j]) ]))))) (zero qtensor).
(** Element.h:1024-1056, int_N_vector_dV_impl; [n]: qvector.shape(2) *)
Definition m_base_int_N_vector_dV (es : list nat) (nip nne n : nat) (N vol qvector : buf) (elemvec : buf) : res buf :=
  loop es (fun e => loop_ nip (fun q => loop_ nne (fun m => loop_ n (fun i =>
    addp [e; 0; 0] (m * n + i)%nat (rdp N [q; 0] m * rdp qvector [e; q; 0] i * rd vol [e; q]))))) (zero elemvec).
(** Element.h:1131-1176, int_gradN_dot_tensor4_dot_gradNT_dV_impl *)
Definition m_base_int_gradN_dot_tensor4_dot_gradNT_dV (es : list nat) (nip nne ndim tdim : nat) (dNx vol qtensor : buf) (elemmat : buf) : res buf :=
  loop es (fun e => loop_ nip (fun q =>
    loop_ nne (fun m => loop_ nne (fun n =>
    loop_ ndim (fun i => loop_ ndim (fun j => loop_ ndim (fun k => loop_ ndim (fun l =>
      addv [e; 0; 0] [nne * ndim; nne * ndim]%nat [m * ndim + j; n * ndim + k]%nat
        (rdv dNx [e; q; 0; 0] [nne; ndim] [m; i] * rdv qtensor [e; q; 0; 0; 0; 0] [tdim; tdim; tdim; tdim] [i; j; k; l]
         * rdv dNx [e; q; 0; 0] [nne; ndim] [n; l] * rd vol [e; q]))))))))) (zero elemmat).

(** evaluation of the entries (i, j) of the local array J, which starts uninitialised *)
Definition local2 (J : nat -> nat -> expr) (junk : arr) : res arr :=
  do a <- ev (J 0 0); do b <- ev (J 0 1); do c <- ev (J 1 0); do d <- ev (J 1 1);
  Ok (block [upd [0; 0] a; upd [0; 1] b; upd [1; 0] c; upd [1; 1] d] junk).
(** Element.h:1202-1210: J(i, j) += dNxiq(m, i) * xe(m, j); J is local *)
Definition m_base_jacobian (nne ndim : nat) (dNxi x : buf) (q e : nat) : res arr :=
  loop_ nne (fun m => loop_ ndim (fun i => loop_ ndim (fun j (J : arr) =>
    do v <- ev (rdv dNxi [q; 0; 0] [nne; ndim] [m; i] * rdv x [e; 0; 0] [nne; ndim] [m; j]); Ok (plus [i; j] v J)))) (fun _ => 0%R).
(** Element.h:1178-1229, compute_dN_impl; the state is (m_dNx, m_vol) *)
Definition on_fst (f : buf -> res buf) (st : buf * buf) : res (buf * buf) := do b <- f (fst st); Ok (b, snd st).
Definition on_snd (f : buf -> res buf) (st : buf * buf) : res (buf * buf) := do b <- f (snd st); Ok (fst st, b).
Definition m_base_compute_dN (es : list nat) (nip nne ndim : nat) (det : arr -> R) (inv : arr -> arr -> arr) (junk : arr) (w dNxi x : buf) (st : buf * buf) : res (buf * buf) :=
  loop es (fun e => loop_ nip (fun q st =>
    do J <- m_base_jacobian nne ndim dNxi x q e;
    let Jinv := inv J junk in
    let Jdet := det J in
    run [ on_fst (loop_ nne (fun m => loop_ ndim (fun i => loop_ ndim (fun j =>
            addv [e; q; 0; 0] [nne; ndim] [m; i] (Cst (Jinv [i; j]) * rdv dNxi [q; 0; 0] [nne; ndim] [m; i])))));
          on_snd (setm [e; q] (rd w [q] * Cst Jdet)) ] st)) (zero (fst st), snd st).

(** ElementQuad4.h:287-305 (= ElementQuad4Planar.h:91-110, ElementQuad4Axisymmetric.h:91-109).  Quad4 and Planar read [xi], the argument of
    the constructor, Axisymmetric its copy m_xi *)
Definition m_Quad4_N (nip : nat) (xi : buf) (N : buf) : res buf :=
  loop_ nip (fun q => run
    [ setm [q; 0] (Cst 0.25 * (Cst 1 - rd xi [q; 0]) * (Cst 1 - rd xi [q; 1]));
      setm [q; 1] (Cst 0.25 * (Cst 1 + rd xi [q; 0]) * (Cst 1 - rd xi [q; 1]));
      setm [q; 2] (Cst 0.25 * (Cst 1 + rd xi [q; 0]) * (Cst 1 + rd xi [q; 1]));
      setm [q; 3] (Cst 0.25 * (Cst 1 - rd xi [q; 0]) * (Cst 1 + rd xi [q; 1])) ]) N.
Definition m_Quad4_dNxi (nip : nat) (xi : buf) (dNxi : buf) : res buf :=
  loop_ nip (fun q => run
    [ setm [q; 0; 0] (Cst (-0.25) * (Cst 1 - rd xi [q; 1]));
      setm [q; 1; 0] (Cst 0.25 * (Cst 1 - rd xi [q; 1]));
      setm [q; 2; 0] (Cst 0.25 * (Cst 1 + rd xi [q; 1]));
      setm [q; 3; 0] (Cst (-0.25) * (Cst 1 + rd xi [q; 1]));
      setm [q; 0; 1] (Cst (-0.25) * (Cst 1 - rd xi [q; 0]));
      setm [q; 1; 1] (Cst (-0.25) * (Cst 1 + rd xi [q; 0]));
      setm [q; 2; 1] (Cst 0.25 * (Cst 1 + rd xi [q; 0]));
      setm [q; 3; 1] (Cst 0.25 * (Cst 1 - rd xi [q; 0])) ]) dNxi.
(** ElementQuad4.h:510-518 (= Planar 297-305, Axisymmetric 411-419) *)
Definition m_Quad4_jacobian (dNxi x : buf) (q e : nat) (junk : arr) : res arr :=
  let dN := rdv dNxi [q; 0; 0] [4; 2] in let xe := rdv x [e; 0; 0] [4; 2] in
  local2 (fun i j => sum4e (fun m => dN [m; i] * xe [m; j])) junk.
(** ElementQuad4.h:493-532, compute_dN_impl (= Planar 280-319, with m_thick); [vol_of]: m_w(q) * Jdet or m_w(q) * Jdet * m_thick *)
Definition m_Quad4_compute_dN (es : list nat) (nip : nat) (junk : arr) (w dNxi x : buf) (vol_of : R -> R -> R) (st : buf * buf) : res (buf * buf) :=
  loop es (fun e => loop_ nip (fun q st =>
    do J <- m_Quad4_jacobian dNxi x q e junk;
    let Jinv := inv2 J junk in
    let Jdet := det2 J in
    let dN := rdv dNxi [q; 0; 0] [4; 2] in
    run [ on_fst (loop_ 4 (fun m => run
            [ setv [e; q; 0; 0] [4; 2] [m; 0] (Cst (Jinv [0; 0]) * dN [m; 0] + Cst (Jinv [0; 1]) * dN [m; 1]);
              setv [e; q; 0; 0] [4; 2] [m; 1] (Cst (Jinv [1; 0]) * dN [m; 0] + Cst (Jinv [1; 1]) * dN [m; 1]) ]));
          on_snd (setm [e; q] (Bin vol_of (rd w [q]) (Cst Jdet))) ] st)) st.
(** ElementQuad4.h:324-346, interpQuad_vector_impl *)
Definition m_Quad4_interpQuad_vector (es : list nat) (nip : nat) (N elemvec : buf) (qvector : buf) : res buf :=
  loop es (fun e => loop_ nip (fun q =>
    let Nq := rdv N [q; 0] [4] in let u := rdv elemvec [e; 0; 0] [4; 2] in
    run [ setv [e; q; 0] [2] [0] (sum4e (fun m => Nq [m] * u [m; 0])); setv [e; q; 0] [2] [1] (sum4e (fun m => Nq [m] * u [m; 1])) ])) (zero qvector).
(** ElementQuad4.h:358-373, 387-402, 416-432 (= Planar 141-156, 172-187, 203-219): the body of the loops; [tdim]: 2 or 3 *)
Definition m_Quad4_grad_block (tdim : nat) (dNx elemvec : buf) (e q : nat) : buf -> res buf :=
  let dN := rdv dNx [e; q; 0; 0] [4; 2] in let u := rdv elemvec [e; 0; 0] [4; 2] in let g := setv [e; q; 0; 0] [tdim; tdim] in
  run [ g [0; 0] (sum4e (fun m => dN [m; 0] * u [m; 0])); g [0; 1] (sum4e (fun m => dN [m; 0] * u [m; 1]));
        g [1; 0] (sum4e (fun m => dN [m; 1] * u [m; 0])); g [1; 1] (sum4e (fun m => dN [m; 1] * u [m; 1])) ].
Definition m_Quad4_grad_T_block (tdim : nat) (dNx elemvec : buf) (e q : nat) : buf -> res buf :=
  let dN := rdv dNx [e; q; 0; 0] [4; 2] in let u := rdv elemvec [e; 0; 0] [4; 2] in let g := setv [e; q; 0; 0] [tdim; tdim] in
  run [ g [0; 0] (sum4e (fun m => dN [m; 0] * u [m; 0])); g [1; 0] (sum4e (fun m => dN [m; 0] * u [m; 1]));
        g [0; 1] (sum4e (fun m => dN [m; 1] * u [m; 0])); g [1; 1] (sum4e (fun m => dN [m; 1] * u [m; 1])) ].
Definition m_Quad4_sym_block (tdim : nat) (dNx elemvec : buf) (e q : nat) : buf -> res buf :=
  let dN := rdv dNx [e; q; 0; 0] [4; 2] in let u := rdv elemvec [e; 0; 0] [4; 2] in let g := setv [e; q; 0; 0] [tdim; tdim] in
  run [ g [0; 0] (sum4e (fun m => dN [m; 0] * u [m; 0])); g [1; 1] (sum4e (fun m => dN [m; 1] * u [m; 1]));
        g [0; 1] (Cst 0.5 * (sum4e (fun m => dN [m; 0] * u [m; 1]) + dN [0; 1] * u [0; 0] + dN [1; 1] * u [1; 0] + dN [2; 1] * u [2; 0] + dN [3; 1] * u [3; 0]));
        (fun b => g [1; 0] (rdv b [e; q; 0; 0] [tdim; tdim] [0; 1]) b) ].
(** ElementQuad4.h:348-434: the loops; QuadraturePlanar (129-221) fills the output with zeros first *)
Definition m_points (es : list nat) (nip : nat) (body : nat -> nat -> buf -> res buf) (b : buf) : res buf := loop es (fun e => loop_ nip (fun q => body e q)) b.
(** ElementQuad4.h:436-464 (= Planar 223-251, Axisymmetric 241-269), int_N_scalar_NT_dV_impl *)
Definition m_Quad4_int_N_scalar_NT_dV (es : list nat) (nip : nat) (N vol qscalar : buf) (elemmat : buf) : res buf :=
  loop es (fun e => loop_ nip (fun q => loop_ 4 (fun m => loop_ 4 (fun n =>
    let Nq := rdv N [q; 0] [4] in let x := Nq [m] * rd qscalar [e; q] * Nq [n] * rd vol [e; q] in
    run [ addv [e; 0; 0] [8; 8] [m * 2 + 0; n * 2 + 0]%nat x; addv [e; 0; 0] [8; 8] [m * 2 + 1; n * 2 + 1]%nat x ])))) (zero elemmat).
(** ElementQuad4.h:466-491 (= Planar 253-278, whose view of the tensor is 3 by 3), int_gradN_dot_tensor2_dV_impl *)
Definition m_Quad4_int_gradN_dot_tensor2_dV (es : list nat) (nip tdim : nat) (dNx vol qtensor : buf) (elemvec : buf) : res buf :=
  loop es (fun e => loop_ nip (fun q => loop_ 4 (fun m =>
    let dN := rdv dNx [e; q; 0; 0] [4; 2] in let sig := rdv qtensor [e; q; 0; 0] [tdim; tdim] in let f := addv [e; 0; 0] [4; 2] in
    run [ f [m; 0] ((dN [m; 0] * sig [0; 0] + dN [m; 1] * sig [1; 0]) * rd vol [e; q]);
          f [m; 1] ((dN [m; 0] * sig [0; 1] + dN [m; 1] * sig [1; 1]) * rd vol [e; q]) ]))) (zero elemvec).

(** ElementQuad4Axisymmetric.h:390-446, compute_dN_impl; the state is (m_B, m_vol) *)
Definition m_Axisym_compute_dN (es : list nat) (nip : nat) (junk : arr) (w N dNxi x : buf) (st : buf * buf) : res (buf * buf) :=
  loop es (fun e => loop_ nip (fun q st =>
    do J <- m_Quad4_jacobian dNxi x q e junk;
    let Jinv := inv2 J junk in
    let Jdet := det2 J in
    let Nq := rdv N [q; 0] [4] in
    do rq <- ev (sum4e (fun m => Nq [m] * rdv x [e; 0; 0] [4; 2] [m; 1]));
    let dN := rdv dNxi [q; 0; 0] [4; 2] in let B := setv [e; q; 0; 0; 0; 0] [4; 3; 3; 3] in
    run [ on_fst (loop_ 4 (fun m => run
            [ B [m; 0; 0; 0] (Cst (Jinv [1; 0]) * dN [m; 0] + Cst (Jinv [1; 1]) * dN [m; 1]);
              B [m; 0; 2; 2] (Cst (Jinv [1; 0]) * dN [m; 0] + Cst (Jinv [1; 1]) * dN [m; 1]);
              B [m; 1; 1; 0] (Cst (1 / rq)%R * Nq [m]);
              B [m; 2; 0; 0] (Cst (Jinv [0; 0]) * dN [m; 0] + Cst (Jinv [0; 1]) * dN [m; 1]);
              B [m; 2; 2; 2] (Cst (Jinv [0; 0]) * dN [m; 0] + Cst (Jinv [0; 1]) * dN [m; 1]) ]));
          on_snd (setm [e; q] (rd w [q] * Cst Jdet * Cst 2 * Cst PI * Cst rq)) ] st)) (zero (fst st), snd st).
(** ElementQuad4Axisymmetric.h:145-163, 180-198, 215-235: the bodies of the loops *)
Definition m_Axisym_grad_block (B elemvec : buf) (e q : nat) : buf -> res buf :=
  let Bq := rdv B [e; q; 0; 0; 0; 0] [4; 3; 3; 3] in let u := rdv elemvec [e; 0; 0] [4; 2] in let g := setv [e; q; 0; 0] [3; 3] in
  run [ g [0; 0] (sum4e (fun m => Bq [m; 0; 0; 0] * u [m; 1])); g [1; 1] (sum4e (fun m => Bq [m; 1; 1; 0] * u [m; 1]));
        g [2; 2] (sum4e (fun m => Bq [m; 2; 2; 2] * u [m; 0])); g [0; 2] (sum4e (fun m => Bq [m; 0; 2; 2] * u [m; 0]));
        g [2; 0] (sum4e (fun m => Bq [m; 2; 0; 0] * u [m; 1])) ].
Definition m_Axisym_grad_T_block (B elemvec : buf) (e q : nat) : buf -> res buf :=
  let Bq := rdv B [e; q; 0; 0; 0; 0] [4; 3; 3; 3] in let u := rdv elemvec [e; 0; 0] [4; 2] in let g := setv [e; q; 0; 0] [3; 3] in
  run [ g [0; 0] (sum4e (fun m => Bq [m; 0; 0; 0] * u [m; 1])); g [1; 1] (sum4e (fun m => Bq [m; 1; 1; 0] * u [m; 1]));
        g [2; 2] (sum4e (fun m => Bq [m; 2; 2; 2] * u [m; 0])); g [2; 0] (sum4e (fun m => Bq [m; 0; 2; 2] * u [m; 0]));
        g [0; 2] (sum4e (fun m => Bq [m; 2; 0; 0] * u [m; 1])) ].
Definition m_Axisym_sym_block (B elemvec : buf) (e q : nat) : buf -> res buf :=
  let Bq := rdv B [e; q; 0; 0; 0; 0] [4; 3; 3; 3] in let u := rdv elemvec [e; 0; 0] [4; 2] in let g := setv [e; q; 0; 0] [3; 3] in
  run [ g [0; 0] (sum4e (fun m => Bq [m; 0; 0; 0] * u [m; 1])); g [1; 1] (sum4e (fun m => Bq [m; 1; 1; 0] * u [m; 1]));
        g [2; 2] (sum4e (fun m => Bq [m; 2; 2; 2] * u [m; 0]));
        g [2; 0] (Cst 0.5 * (sum4e (fun m => Bq [m; 0; 2; 2] * u [m; 0]) + Bq [0; 2; 0; 0] * u [0; 1] + Bq [1; 2; 0; 0] * u [1; 1] + Bq [2; 2; 0; 0] * u [2; 1] + Bq [3; 2; 0; 0] * u [3; 1]));
        (fun b => g [0; 2] (rdv b [e; q; 0; 0] [3; 3] [2; 0]) b) ].
(** ElementQuad4Axisymmetric.h:271-301, int_gradN_dot_tensor2_dV_impl *)
Definition m_Axisym_int_gradN_dot_tensor2_dV (es : list nat) (nip : nat) (B vol qtensor : buf) (elemvec : buf) : res buf :=
  loop es (fun e => loop_ nip (fun q => loop_ 4 (fun m =>
    let Bq := rdv B [e; q; 0; 0; 0; 0] [4; 3; 3; 3] in let sig := rdv qtensor [e; q; 0; 0] [3; 3] in let f := addv [e; 0; 0] [4; 2] in
    run [ f [m; 0] (rd vol [e; q] * (Bq [m; 2; 2; 2] * sig [2; 2] + Bq [m; 0; 2; 2] * sig [0; 2]));
          f [m; 1] (rd vol [e; q] * (Bq [m; 0; 0; 0] * sig [0; 0] + Bq [m; 1; 1; 0] * sig [1; 1] + Bq [m; 2; 0; 0] * sig [2; 0])) ]))) (zero elemvec).
(** ElementQuad4Axisymmetric.h:303-388, int_gradN_dot_tensor4_dot_gradNT_dV_impl: 25 statements K(m * 2 + i, n * 2 + j) += B(m, a) * C(b) * B(n, c) * vol *)
Definition axisym_terms : list ((nat * nat) * (list nat * list nat * list nat)) :=
  let r := [0; 0; 0] in let t := [1; 1; 0] in let z := [2; 2; 2] in let rz := [0; 2; 2] in let zr := [2; 0; 0] in
  [ ((1, 1), (r, [0; 0; 0; 0], r)); ((1, 1), (r, [0; 0; 1; 1], t)); ((1, 0), (r, [0; 0; 2; 2], z)); ((1, 0), (r, [0; 0; 2; 0], rz)); ((1, 1), (r, [0; 0; 0; 2], zr));
    ((1, 1), (t, [1; 1; 0; 0], r)); ((1, 1), (t, [1; 1; 1; 1], t)); ((1, 0), (t, [1; 1; 2; 2], z)); ((1, 0), (t, [1; 1; 2; 0], rz)); ((1, 1), (t, [1; 1; 0; 2], zr));
    ((0, 1), (z, [2; 2; 0; 0], r)); ((0, 1), (z, [2; 2; 1; 1], t)); ((0, 0), (z, [2; 2; 2; 2], z)); ((0, 0), (z, [2; 2; 2; 0], rz)); ((0, 1), (z, [2; 2; 0; 2], zr));
    ((0, 1), (rz, [0; 2; 0; 0], r)); ((0, 1), (rz, [0; 2; 1; 1], t)); ((0, 0), (rz, [0; 2; 2; 2], z)); ((0, 0), (rz, [0; 2; 2; 0], rz)); ((0, 1), (rz, [0; 2; 0; 2], zr));
    ((1, 1), (zr, [2; 0; 0; 0], r)); ((1, 1), (zr, [2; 0; 1; 1], t)); ((1, 0), (zr, [2; 0; 2; 2], z)); ((1, 0), (zr, [2; 0; 2; 0], rz)); ((1, 1), (zr, [2; 0; 0; 2], zr)) ].
Definition m_Axisym_int_gradN_dot_tensor4_dot_gradNT_dV (es : list nat) (nip : nat) (B vol qtensor : buf) (elemmat : buf) : res buf :=
  loop es (fun e => loop_ nip (fun q => loop_ 4 (fun m => loop_ 4 (fun n =>
    let Bq := rdv B [e; q; 0; 0; 0; 0] [4; 3; 3; 3] in let C := rdv qtensor [e; q; 0; 0; 0; 0] [3; 3; 3; 3] in
    run (map (fun t : (nat * nat) * (list nat * list nat * list nat) => let '((i, j), (a, b, c)) := t in
      addv [e; 0; 0] [8; 8] [m * 2 + i; n * 2 + j]%nat (Bq (m :: a) * C b * Bq (n :: c) * rd vol [e; q])) axisym_terms))))) (zero elemmat).

(** ElementHex8.h:265-274, 276-304 *)
Definition m_Hex8_N (nip : nat) (xi : buf) (N : buf) : res buf :=
  loop_ nip (fun q => let p := fun i => Cst 1 + rd xi [q; i] in let m := fun i => Cst 1 - rd xi [q; i] in run
    [ setm [q; 0] (Cst 0.125 * m 0 * m 1 * m 2); setm [q; 1] (Cst 0.125 * p 0 * m 1 * m 2);
      setm [q; 2] (Cst 0.125 * p 0 * p 1 * m 2); setm [q; 3] (Cst 0.125 * m 0 * p 1 * m 2);
      setm [q; 4] (Cst 0.125 * m 0 * m 1 * p 2); setm [q; 5] (Cst 0.125 * p 0 * m 1 * p 2);
      setm [q; 6] (Cst 0.125 * p 0 * p 1 * p 2); setm [q; 7] (Cst 0.125 * m 0 * p 1 * p 2) ]) N.
Definition m_Hex8_dNxi (nip : nat) (xi : buf) (dNxi : buf) : res buf :=
  loop_ nip (fun q => let p := fun i => Cst 1 + rd xi [q; i] in let m := fun i => Cst 1 - rd xi [q; i] in run
    [ setm [q; 0; 0] (Cst (-0.125) * m 1 * m 2); setm [q; 1; 0] (Cst 0.125 * m 1 * m 2);
      setm [q; 2; 0] (Cst 0.125 * p 1 * m 2); setm [q; 3; 0] (Cst (-0.125) * p 1 * m 2);
      setm [q; 4; 0] (Cst (-0.125) * m 1 * p 2); setm [q; 5; 0] (Cst 0.125 * m 1 * p 2);
      setm [q; 6; 0] (Cst 0.125 * p 1 * p 2); setm [q; 7; 0] (Cst (-0.125) * p 1 * p 2);
      setm [q; 0; 1] (Cst (-0.125) * m 0 * m 2); setm [q; 1; 1] (Cst (-0.125) * p 0 * m 2);
      setm [q; 2; 1] (Cst 0.125 * p 0 * m 2); setm [q; 3; 1] (Cst 0.125 * m 0 * m 2);
      setm [q; 4; 1] (Cst (-0.125) * m 0 * p 2); setm [q; 5; 1] (Cst (-0.125) * p 0 * p 2);
      setm [q; 6; 1] (Cst 0.125 * p 0 * p 2); setm [q; 7; 1] (Cst 0.125 * m 0 * p 2);
      setm [q; 0; 2] (Cst (-0.125) * m 0 * m 1); setm [q; 1; 2] (Cst (-0.125) * p 0 * m 1);
      setm [q; 2; 2] (Cst (-0.125) * p 0 * p 1); setm [q; 3; 2] (Cst (-0.125) * m 0 * p 1);
      setm [q; 4; 2] (Cst 0.125 * m 0 * m 1); setm [q; 5; 2] (Cst 0.125 * p 0 * m 1);
      setm [q; 6; 2] (Cst 0.125 * p 0 * p 1); setm [q; 7; 2] (Cst 0.125 * m 0 * p 1) ]) dNxi.
(** ElementHex8.h:323-352, int_N_scalar_NT_dV_impl *)
Definition m_Hex8_int_N_scalar_NT_dV (es : list nat) (nip : nat) (N vol qscalar : buf) (elemmat : buf) : res buf :=
  loop es (fun e => loop_ nip (fun q => loop_ 8 (fun m => loop_ 8 (fun n =>
    let Nq := rdv N [q; 0] [8] in let x := Nq [m] * rd qscalar [e; q] * Nq [n] * rd vol [e; q] in
    run [ addv [e; 0; 0] [24; 24] [m * 3 + 0; n * 3 + 0]%nat x; addv [e; 0; 0] [24; 24] [m * 3 + 1; n * 3 + 1]%nat x;
          addv [e; 0; 0] [24; 24] [m * 3 + 2; n * 3 + 2]%nat x ])))) (zero elemmat).
(** ElementHex8.h:354-382, int_gradN_dot_tensor2_dV_impl *)
Definition m_Hex8_int_gradN_dot_tensor2_dV (es : list nat) (nip : nat) (dNx vol qtensor : buf) (elemvec : buf) : res buf :=
  loop es (fun e => loop_ nip (fun q => loop_ 8 (fun m =>
    let dN := rdv dNx [e; q; 0; 0] [8; 3] in let sig := rdv qtensor [e; q; 0; 0] [3; 3] in let f := addv [e; 0; 0] [8; 3] in
    run [ f [m; 0] ((dN [m; 0] * sig [0; 0] + dN [m; 1] * sig [1; 0] + dN [m; 2] * sig [2; 0]) * rd vol [e; q]);
          f [m; 1] ((dN [m; 0] * sig [0; 1] + dN [m; 1] * sig [1; 1] + dN [m; 2] * sig [2; 1]) * rd vol [e; q]);
          f [m; 2] ((dN [m; 0] * sig [0; 2] + dN [m; 1] * sig [1; 2] + dN [m; 2] * sig [2; 2]) * rd vol [e; q]) ]))) (zero elemvec).

(** ** the objects *)
Inductive eclass := CQuad4 | CPlanar (thick : R) | CAxisym | CHex8.
(** s_nne, s_ndim, s_tdim (= m_tdim): ElementQuad4.h:534-537, ElementQuad4Planar.h:321-324, ElementQuad4Axisymmetric.h:448-451, ElementHex8.h:385-388 *)
Definition s_nne (c : eclass) : nat := match c with CHex8 => 8 | _ => 4 end.
Definition s_ndim (c : eclass) : nat := match c with CHex8 => 3 | _ => 2 end.
Definition s_tdim (c : eclass) : nat := match c with CQuad4 => 2 | _ => 3 end.
(** the members; [m_grad]: m_dNx, or m_B in QuadratureAxisymmetric *)
Record quad := { m_nelem : nat; m_nip : nat; m_x : buf; m_w : buf; m_xi : buf; m_N : buf; m_dNxi : buf; m_grad : buf; m_vol : buf }.

(** Element.h:252-376, the shapes *)
Definition shape_elemvec (c : eclass) (Q : quad) : list nat := [m_nelem Q; s_nne c; s_ndim c].
Definition shape_elemvec_n (c : eclass) (Q : quad) (n : nat) : list nat := [m_nelem Q; s_nne c; n].
Definition shape_elemmat (c : eclass) (Q : quad) : list nat := [m_nelem Q; s_nne c * s_ndim c; s_nne c * s_ndim c]%nat.
Definition shape_qtensor (c : eclass) (Q : quad) (rank : nat) : list nat := m_nelem Q :: m_nip Q :: repeat (s_tdim c) rank.
Definition shape_qscalar (Q : quad) : list nat := [m_nelem Q; m_nip Q].
Definition shape_qvector (c : eclass) (Q : quad) : list nat := [m_nelem Q; m_nip Q; s_tdim c].
Definition shape_qvector_n (Q : quad) (n : nat) : list nat := [m_nelem Q; m_nip Q; n].

(** uninitialised memory of a given shape: the numbers that happen to be there *)
Definition uninit (s : list nat) (garbage : nat -> R) : buf := mkBuf s (map garbage (seq 0 (size s))).

(** compute_dN_impl: ElementQuad4.h:493, ElementQuad4Planar.h:280, ElementQuad4Axisymmetric.h:390, Element.h:1178 (Hex8) *)
Definition m_compute_dN (c : eclass) (es : list nat) (nip : nat) (junk : arr) (w N dNxi x : buf) (st : buf * buf) : res (buf * buf) :=
  match c with
  | CQuad4 => m_Quad4_compute_dN es nip junk w dNxi x (fun w d => (w * d)%R) st
  | CPlanar t => m_Quad4_compute_dN es nip junk w dNxi x (fun w d => (w * d * t)%R) st
  | CAxisym => m_Axisym_compute_dN es nip junk w N dNxi x st
  | CHex8 => m_base_compute_dN es nip 8 3 det3 inv3 junk w dNxi x st
  end.
Definition shape_grad (c : eclass) (nelem nip : nat) : list nat := match c with CAxisym => [nelem; nip; 4; 3; 3; 3] | _ => [nelem; nip; s_nne c; s_ndim c] end.
(** the constructors: ElementQuad4.h:276-318, ElementQuad4Planar.h:82-123, ElementHex8.h:254-317, ElementQuad4Axisymmetric.h:71-112.
    x, xi, w have the ranks 3, 2, 1 of the members m_x, m_xi, m_w.  [ck]: assertions enabled.  [es]: the order of the iterations over the
    nelem elements.  m_N, m_dNxi, m_dNx (m_B), m_vol start uninitialised.  Only in QuadratureAxisymmetric the assertions come first. *)
Definition new_quad (ck : bool) (c : eclass) (es : nat -> list nat) (g1 g2 g3 g4 : nat -> R) (junk : arr) (x xi w : buf) : res quad :=
  match b_shape x, b_shape xi, b_shape w with
  | [nelem; nne; ndim], [_; _], [nip] =>
      let checks := fun (k : res quad) => assert ck (nne =? s_nne c) (assert ck (ndim =? s_ndim c) (assert ck (has_shape (b_shape xi) [nip; s_ndim c]) (assert ck (has_shape (b_shape w) [nip]) k))) in
      let shapes := fun (k : buf -> buf -> res quad) =>
        do N <- (match c with CHex8 => m_Hex8_N | _ => m_Quad4_N end) nip xi (uninit [nip; s_nne c] g1);
        do dNxi <- (match c with CHex8 => m_Hex8_dNxi | _ => m_Quad4_dNxi end) nip xi (uninit [nip; s_nne c; s_ndim c] g2); k N dNxi in
      let rest := fun N dNxi : buf =>
        do st <- m_compute_dN c (es nelem) nip junk w N dNxi x (uninit (shape_grad c nelem nip) g3, uninit [nelem; nip] g4);
        Ok {| m_nelem := nelem; m_nip := nip; m_x := x; m_w := w; m_xi := xi; m_N := N; m_dNxi := dNxi; m_grad := fst st; m_vol := snd st |} in
      match c with CAxisym => checks (shapes rest) | _ => shapes (fun N dNxi => checks (rest N dNxi)) end
  | _, _, _ => Throw
  end.
(** Element.h:564-569, update_x *)
Definition update_x (ck : bool) (c : eclass) (es : nat -> list nat) (junk : arr) (x : buf) (Q : quad) : res quad :=
  assert ck (has_shape (b_shape x) (b_shape (m_x Q)))
  (do st <- m_compute_dN c (es (m_nelem Q)) (m_nip Q) junk (m_w Q) (m_N Q) (m_dNxi Q) x (m_grad Q, m_vol Q);
   Ok {| m_nelem := m_nelem Q; m_nip := m_nip Q; m_x := x; m_w := m_w Q; m_xi := m_xi Q; m_N := m_N Q; m_dNxi := m_dNxi Q; m_grad := fst st; m_vol := snd st |}).

(** the methods that take an array and write an array *)
Inductive method := InterpQuad_vector | GradN_vector | GradN_vector_T | SymGradN_vector | Int_N_vector_dV | Int_N_scalar_NT_dV | Int_gradN_dot_tensor2_dV | Int_gradN_dot_tensor4_dot_gradNT_dV.
(** the assertions on the argument and the output: Element.h:894-897, 927-928, 960-961, 993-994, 1026-1029, 1134-1135; ElementQuad4.h:327-328,
    351-352, 380-381, 409-410, 439-440, 469-470; the same lines in the other classes *)
Definition io_shapes (c : eclass) (Q : quad) (f : method) (n : nat) : list nat * list nat :=
  match f with
  | InterpQuad_vector => match c with CQuad4 => (shape_elemvec c Q, shape_qvector c Q) | _ => (shape_elemvec_n c Q n, shape_qvector_n Q n) end
  | GradN_vector | GradN_vector_T | SymGradN_vector => (shape_elemvec c Q, shape_qtensor c Q 2)
  | Int_N_vector_dV => (shape_qvector_n Q n, shape_elemvec_n c Q n)
  | Int_N_scalar_NT_dV => (shape_qscalar Q, shape_elemmat c Q)
  | Int_gradN_dot_tensor2_dV => (shape_qtensor c Q 2, shape_elemvec c Q)
  | Int_gradN_dot_tensor4_dot_gradNT_dV => (shape_qtensor c Q 4, shape_elemmat c Q)
  end.
(** what follows the assertions *)
Definition kernel (c : eclass) (es : list nat) (Q : quad) (f : method) (n : nat) (arg : buf) (out : buf) : res buf :=
  let nip := m_nip Q in let N := m_N Q in let vol := m_vol Q in let g := m_grad Q in
  match f with
  | InterpQuad_vector => match c with CQuad4 => m_Quad4_interpQuad_vector es nip N arg out | _ => m_base_interpQuad_vector es nip (s_nne c) n N arg out end
  | GradN_vector => match c with
      | CQuad4 => m_points es nip (m_Quad4_grad_block 2 g arg) out
      | CPlanar _ => m_points es nip (m_Quad4_grad_block 3 g arg) (zero out)
      | CAxisym => m_points es nip (m_Axisym_grad_block g arg) (zero out)
      | CHex8 => m_base_gradN_vector es nip 8 3 3 g arg out end
  | GradN_vector_T => match c with
      | CQuad4 => m_points es nip (m_Quad4_grad_T_block 2 g arg) out
      | CPlanar _ => m_points es nip (m_Quad4_grad_T_block 3 g arg) (zero out)
      | CAxisym => m_points es nip (m_Axisym_grad_T_block g arg) (zero out)
      | CHex8 => m_base_gradN_vector_T es nip 8 3 3 g arg out end
  | SymGradN_vector => match c with
      | CQuad4 => m_points es nip (m_Quad4_sym_block 2 g arg) out
      | CPlanar _ => m_points es nip (m_Quad4_sym_block 3 g arg) (zero out)
      | CAxisym => m_points es nip (m_Axisym_sym_block g arg) (zero out)
      | CHex8 => m_base_symGradN_vector es nip 8 3 3 g arg out end
  | Int_N_vector_dV => m_base_int_N_vector_dV es nip (s_nne c) n N vol arg out
  | Int_N_scalar_NT_dV => match c with CHex8 => m_Hex8_int_N_scalar_NT_dV es nip N vol arg out | _ => m_Quad4_int_N_scalar_NT_dV es nip N vol arg out end
  | Int_gradN_dot_tensor2_dV => match c with
      | CHex8 => m_Hex8_int_gradN_dot_tensor2_dV es nip g vol arg out
      | CAxisym => m_Axisym_int_gradN_dot_tensor2_dV es nip g vol arg out
      | _ => m_Quad4_int_gradN_dot_tensor2_dV es nip (s_tdim c) g vol arg out end
  | Int_gradN_dot_tensor4_dot_gradNT_dV => match c with
      | CAxisym => m_Axisym_int_gradN_dot_tensor4_dot_gradNT_dV es nip g vol arg out
      | _ => m_base_int_gradN_dot_tensor4_dot_gradNT_dV es nip (s_nne c) (s_ndim c) (s_tdim c) g vol arg out end
  end.
(** the in-place methods (Element.h:613-616, 681-684, ...).  [InterpQuad_vector] (but the one of Quad4) and [Int_N_vector_dV] read shape(2) of
    their argument before they check: out of bounds if its rank is below 3 *)
Definition call (ck : bool) (c : eclass) (es : nat -> list nat) (Q : quad) (f : method) (arg out : buf) : res buf :=
  let with_n := fun n => let (i, o) := io_shapes c Q f n in
    assert ck (has_shape (b_shape arg) i) (assert ck (has_shape (b_shape out) o) (kernel c (es (m_nelem Q)) Q f n arg out)) in
  match f, c with
  | InterpQuad_vector, CQuad4 => with_n 0
  | InterpQuad_vector, _ | Int_N_vector_dV, _ => match nth_error (b_shape arg) 2 with Some n => with_n n | None => Oob end
  | _, _ => with_n 0
  end.
(** the methods by value make an output that is not initialised: Element.h:598-604 (InterpQuad_vector: shape(2) is read in every class), 635-641,
    667-672, 700-706, 732-738 (Int_N_vector_dV), 771-776, 801-806, 837-842 *)
Definition call_by_value (ck : bool) (c : eclass) (es : nat -> list nat) (Q : quad) (f : method) (g : nat -> R) (arg : buf) : res buf :=
  let with_shape := fun s => call ck c es Q f arg (uninit s g) in
  match f with
  | InterpQuad_vector => match nth_error (b_shape arg) 2 with Some n => with_shape (shape_qvector_n Q n) | None => Oob end
  | Int_N_vector_dV => match nth_error (b_shape arg) 2 with Some n => with_shape (shape_elemvec_n c Q n) | None => Oob end
  | _ => with_shape (snd (io_shapes c Q f 0))
  end.
