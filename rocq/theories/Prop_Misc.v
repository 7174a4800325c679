(** Properties C66-C72: small utilities. *)
From Coq Require Import Reals Lra Ascii.
From Verif Require Import Base Spec Spec_Vector Spec_Misc Model_Misc Proof_Misc.

(** C66 is false of the code: [isSequential] returns true for every array (it never looks at the
    numbers that do not occur), so also for an array with a hole. *)
Theorem C66_isSequential_always_true_partial : forall dofs, isSequential dofs = Ok true.
Proof. exact isSequential_true. Qed.
Print Assumptions C66_isSequential_always_true_partial.
Theorem C66_isSequential_refuted : exists dofs, isSequential dofs = Ok true /\
  exists d, d <= fold_right Nat.max 0 dofs /\ ~ In d dofs.
Proof. exact isSequential_refuted. Qed.
Print Assumptions C66_isSequential_refuted.

(** C67: [isDiagonal] decides whether all off-diagonal entries are at most 2^-52 in magnitude. *)
Theorem C67_isDiagonal : forall nelem N a, shape3 a nelem N N -> exists b, isDiagonal nelem N a = Ok b /\
  (b = true <-> forall e i j, e < nelem -> i < N -> j < N -> i <> j -> (Rabs (val3 a e i j) <= / 2 ^ 52)%R).
Proof. exact isDiagonal_spec. Qed.
Print Assumptions C67_isDiagonal.
Example C67_ex : shape3 [[[1%R; 0%R]; [0%R; 2%R]]] 1 2 2 /\
  (forall e i j, e < 1 -> i < 2 -> j < 2 -> i <> j -> (Rabs (val3 [[[1%R; 0%R]; [0%R; 2%R]]] e i j) <= / 2 ^ 52)%R).
Proof.
  split.
  - split; [reflexivity|]. intros r [<-|[]]. split; [reflexivity|]. simpl. intuition (subst; reflexivity).
  - intros e i j He Hi Hj Hn. assert (E : val3 [[[1%R; 0%R]; [0%R; 2%R]]] e i j = 0%R).
    { destruct e; [|lia]. destruct i as [|[|i]], j as [|[|j]]; try lia; reflexivity. }
    rewrite E, Rabs_R0. apply Rlt_le, Rinv_0_lt_compat, pow_lt. lra.
Qed.

(** C68: after every history of calls (that never makes the list empty) the list holds the last n
    residuals inserted since the last reset, padded with infinity in front. *)
Theorem C68_stop_history : forall n h, (forall h1 h2, h = h1 ++ h2 -> 0 < hist_length n h1) ->
  stop_run n h = Ok (lastn (hist_length n h) (repeat Inf (hist_length n h) ++ hist_inserts [] h)).
Proof. exact stop_run_spec. Qed.
Print Assumptions C68_stop_history.
Example C68_ex : (forall h1 h2, [Insert (Fin 1); Insert (Fin 2); Reset_n 2; Insert (Fin 3)] = h1 ++ h2 -> 0 < hist_length 1 h1) /\
  stop_run 1 [Insert (Fin 1); Insert (Fin 2); Reset_n 2; Insert (Fin 3)] = Ok [Inf; Fin 3].
Proof.
  split; [|reflexivity]. intros h1 h2 E.
  destruct h1 as [|o1 [|o2 [|o3 [|o4 [|o5 h1]]]]]; simpl in E; inversion E; subst; simpl; lia.
Qed.

(** C68: on an empty list [roll_insert] is undefined behaviour. *)
Theorem C68_stop_empty : forall r, stop_run 0 [Insert r] = Oob.
Proof. exact stop_zero. Qed.
Print Assumptions C68_stop_empty.

(** C68: the two criteria, for residuals that are numbers. *)
Theorem C68_descending_partial : forall l, no_nan l -> descending l = true <->
  forall i j a b, i < j -> nth_error l i = Some a -> nth_error l j = Some b -> ~ ext_lt a b.
Proof. exact descending_spec. Qed.
Print Assumptions C68_descending_partial.
Theorem C68_all_less_partial : forall l tol, no_nan l -> tol <> NaN -> all_less l tol = true <-> forall r, In r l -> ext_lt r tol.
Proof. exact all_less_spec. Qed.
Print Assumptions C68_all_less_partial.
Example C68_no_nan : no_nan [Inf; Fin 3] /\ Fin 1 <> NaN.
Proof. split; [|discriminate]. intros r [<-|[<-|[]]]; discriminate. Qed.
(** C68: exactly what they decide if residuals can be NaN: a NaN is never too large, and hides an increase. *)
Theorem C68_all_less : forall l tol, all_less l tol = true <-> forall r, In r l -> r = NaN \/ tol = NaN \/ ext_lt r tol.
Proof. exact all_less_exact. Qed.
Print Assumptions C68_all_less.
Theorem C68_descending : forall l, descending l = true <->
  forall i a b, nth_error l i = Some a -> nth_error l (S i) = Some b -> ~ ext_lt a b.
Proof. exact descending_neighbours. Qed.
Print Assumptions C68_descending.
(** C68: so an iteration that diverges to NaN meets any tolerance, and the criteria are not those of the documentation. *)
Theorem C68_nan_refuted :
  (forall n tol, all_less (repeat NaN n) tol = true /\ descending (repeat NaN n) = true)
  /\ ~ (forall l tol, all_less l tol = true <-> forall r, In r l -> ext_lt r tol)
  /\ ~ (forall l, descending l = true <-> forall i j a b, i < j -> nth_error l i = Some a -> nth_error l j = Some b -> ~ ext_lt a b).
Proof.
  assert (A : forall n tol, all_less (repeat NaN n) tol = true) by (intros n tol; apply all_less_exact; intros r Hr; apply repeat_spec in Hr; auto).
  split; [|split].
  - intros n tol. split; [apply A|]. apply descending_neighbours. intros i a b Hi _. apply nth_error_In, repeat_spec in Hi. subst a. destruct b; tauto.
  - intro H. apply (proj1 (H (repeat NaN 1) (Fin 1)) (A 1 (Fin 1)) NaN). now left.
  - intro H. specialize (proj1 (H [Fin 1; NaN; Fin 2])). intro K. refine (K eq_refl 0 2 (Fin 1) (Fin 2) ltac:(lia) eq_refl eq_refl _). simpl. lra.
Qed.
Print Assumptions C68_nan_refuted.

(** C69: [AsTensor(arg, shape)] has the shape of [arg] followed by [shape], and repeats every entry
    of [arg] over all trailing indices; for every rank. *)
Theorem C69_AsTensor : forall (A : Type) arg_shape (data : list A) shape, length data = numel arg_shape -> exists d,
  AsTensor arg_shape data shape = Ok (arg_shape ++ shape, d) /\ length d = numel (arg_shape ++ shape) /\
  forall ix kx, in_range arg_shape ix -> in_range shape kx -> entry (arg_shape ++ shape) d (ix ++ kx) = entry arg_shape data ix.
Proof. exact @AsTensor_spec. Qed.
Print Assumptions C69_AsTensor.
Theorem C69_AsTensor_rank : forall (A : Type) rank arg_shape (data : list A) n, length data = numel arg_shape -> exists d,
  AsTensor_n rank arg_shape data n = Ok (arg_shape ++ repeat n rank, d) /\
  forall ix kx, in_range arg_shape ix -> in_range (repeat n rank) kx ->
    entry (arg_shape ++ repeat n rank) d (ix ++ kx) = entry arg_shape data ix.
Proof.
  intros A rank s data n L. destruct (AsTensor_spec s data (repeat n rank) L) as [d [E [_ H]]]. exists d. split; [exact E|exact H].
Qed.
Print Assumptions C69_AsTensor_rank.
Example C69_ex : length [10; 20] = numel [2; 1] /\
  AsTensor [2; 1] [10; 20] [3] = Ok ([2; 1; 3], [10; 10; 10; 20; 20; 20]) /\ entry [2; 1; 3] [10; 10; 10; 20; 20; 20] [1; 0; 2] = Some 20.
Proof. repeat split; reflexivity. Qed.

(** C69: [as3d] pads with zero columns. *)
Theorem C69_as3d : forall u n d, shape2 u n d -> 0 < d < 4 -> shape2 (as3d u d) n 3 /\
  forall m i, m < n -> i < 3 -> val2 (as3d u d) m i = if i <? d then val2 u m i else 0%R.
Proof. exact as3d_spec. Qed.
Print Assumptions C69_as3d.
Example C69_as3d_ex : shape2 [[1%R; 2%R]; [3%R; 4%R]] 2 2 /\ as3d [[1%R; 2%R]; [3%R; 4%R]] 2 = [[1%R; 2%R; 0%R]; [3%R; 4%R; 0%R]].
Proof. split; [split; [reflexivity|simpl; intuition (subst; reflexivity)]|reflexivity]. Qed.

(** C70: the element type for the documented shapes, an exception for all others. *)
Theorem C70_defaultElementType : forall ndim nne,
  (forall t, defaultElementType ndim nne = Ok t <->
     (ndim = 2 /\ nne = 3 /\ t = Tri3) \/ (ndim = 2 /\ nne = 4 /\ t = Quad4) \/ (ndim = 3 /\ nne = 8 /\ t = Hex8)) /\
  (defaultElementType ndim nne = Throw <-> ~ (ndim = 2 /\ (nne = 3 \/ nne = 4)) /\ ~ (ndim = 3 /\ nne = 8)).
Proof.
  intros ndim nne. unfold defaultElementType.
  destruct (Nat.eqb_spec ndim 2), (Nat.eqb_spec ndim 3), (Nat.eqb_spec nne 3), (Nat.eqb_spec nne 4), (Nat.eqb_spec nne 8); subst; simpl; try lia;
    (split; [intro t; split; [intro E; inversion E; subst; intuition congruence|
        intros [[? [? ->]]|[[? [? ->]]|[? [? ->]]]]; try reflexivity; congruence]|]);
    (split; [intro E; try discriminate; intuition lia|intro E; try reflexivity; exfalso; intuition lia]).
Qed.
Print Assumptions C70_defaultElementType.

(** C71: [is_unique] decides whether all numbers are different. *)
Theorem C71_is_unique : forall l, is_unique l = true <-> NoDup l.
Proof. exact is_unique_spec. Qed.
Print Assumptions C71_is_unique.
Example C71_ex : is_unique [3; 1; 2] = true /\ is_unique [3; 1; 3] = false.
Proof. split; reflexivity. Qed.

(** C72: [unquote] never accesses memory out of bounds, and keeps all characters except the quotes, in order. *)
Theorem C72_unquote : forall s, unquote s = Ok (filter (fun c => negb (Ascii.eqb c (Ascii.ascii_of_nat 34))) s).
Proof. exact unquote_filter. Qed.
Print Assumptions C72_unquote.
Example C72_ex : unquote ["034"; "1"; "."; "034"; "4"; "034"]%char = Ok ["1"; "."; "4"]%char.
Proof. reflexivity. Qed.
