(** Property C112: periodic tyings, and vectors with tyings, in the build with assertions. *)
From Coq Require Import Reals Lra Lia.
From Verif Require Import Base Spec Sums Spec_Vector Spec_Tyings Model_Numbering Proof_Numbering Model_Vector Proof_Vector Proof_VectorPartitioned Model_Misc Proof_Misc
  Model_Sparse Model_Tyings Proof_Tyings Prop_Tyings Model_Checked Spec_Checked Proof_Checked Model_CheckedTyings Spec_CheckedTyings Proof_CheckedTyings Proof_CheckedTyings2 Proof_CheckedTyings3.

Lemma mapM_not_throw' {A B} (f : A -> res B) l : (forall a, In a l -> f a <> Throw) -> mapM f l <> Throw.
Proof.
  induction l as [|a l IH]; intros H; cbn [mapM]; [discriminate|]. pose proof (H a (or_introl eq_refl)). destruct (f a); cbn [bind]; try congruence.
  assert (mapM f l <> Throw) by (apply IH; intros; apply H; now right). destruct (mapM f l); cbn [bind]; congruence.
Qed.
Lemma apply_not_throw r l : Reorder_apply2 r l <> Throw.
Proof.
  apply mapM_not_throw'. intros row _. apply mapM_not_throw'. intros a _. unfold get_init. destruct (nth_error r a) as [[x|]|]; discriminate.
Qed.

(** C112: with assertions the constructor of Tyings::Periodic throws exactly for the arrays that do not belong together: a shape that is
    wrong, a node that does not exist, a DOF number below the smallest or above the largest one, a DOF that is prescribed twice or that
    depends on two ties. *)
Theorem C112_throws : forall coor dofs control ties iip,
  new_Periodic_checked true coor dofs control ties iip = Throw <-> (forall nnode ndim nt n, ~ tyings_fit in_range coor dofs control ties iip nnode ndim nt n).
Proof.
  intros coor dofs control ties iip. split.
  - intros E nnode ndim nt n F. rewrite (new_fits _ _ _ _ _ _ _ _ _ F) in E. revert E. unfold new_Periodic.
    rewrite (dep_array_rows dofs ties nnode ndim nt) by (intros s Hs; apply (tf_node _ _ _ _ _ _ _ _ _ _ F); lia). cbn [bind].
    destruct (Reorder_total [setdiff1d (setdiff1d (concat (rows2 nnode ndim dofs)) (concat (rows2 nt ndim (dep_array dofs ties ndim nt)))) (rows1 n iip); rows1 n iip; concat (rows2 nt ndim (dep_array dofs ties ndim nt))]) as (r & Er & _).
    rewrite Er. cbn [bind]. pose proof (apply_not_throw r (rows2 nnode ndim dofs)) as A. destruct (Reorder_apply2 r (rows2 nnode ndim dofs)); cbn [bind]; try congruence.
    pose proof (apply_not_throw r (rows2 ndim ndim control)) as B. destruct (Reorder_apply2 r (rows2 ndim ndim control)); cbn [bind]; congruence.
  - apply new_not_fits.
Qed.
Print Assumptions C112_throws.

(** C112: if the DOF numbers have no holes, it accepts exactly the arrays that belong together; the object is the one of the build without
    assertions, which is that of C44. *)
Theorem C112_accepts : forall coor dofs control ties iip, consecutive dofs ->
  ((exists t, new_Periodic_checked true coor dofs control ties iip = Ok t) <-> (exists nnode ndim nt n, tyings_fit is_dof coor dofs control ties iip nnode ndim nt n)) /\
  (forall nnode ndim nt n, tyings_fit is_dof coor dofs control ties iip nnode ndim nt n -> forall ck,
     new_Periodic_checked ck coor dofs control ties iip =
     new_Periodic (rows2 nnode ndim coor) ndim (rows2 nnode ndim dofs) (rows2 ndim ndim control) (map (fun s => (a_ent ties [s; 0], a_ent ties [s; 1])) (seq 0 nt)) (rows1 n iip)) /\
  (forall t, new_Periodic_checked true coor dofs control ties iip = Ok t -> new_Periodic_checked false coor dofs control ties iip = Ok t) /\
  ((forall t, new_Periodic_checked true coor dofs control ties iip <> Ok t) -> new_Periodic_checked true coor dofs control ties iip = Throw).
Proof.
  intros coor dofs control ties iip C.
  assert (A : (exists nnode ndim nt n, tyings_fit is_dof coor dofs control ties iip nnode ndim nt n) -> exists t, new_Periodic_checked true coor dofs control ties iip = Ok t).
  { intros (nnode & ndim & nt & n & F). destruct (new_total _ _ _ _ _ _ _ _ _ F) as [t E]. exists t. rewrite (new_fits _ _ _ _ _ _ _ _ _ (fit_weaken _ _ _ _ _ _ _ _ _ F)). exact E. }
  assert (D : (exists nnode ndim nt n, tyings_fit is_dof coor dofs control ties iip nnode ndim nt n) \/ new_Periodic_checked true coor dofs control ties iip = Throw).
  { destruct (new_cases coor dofs control ties iip) as [E|(nnode & ndim & nt & n & F)]; [now right|left]. exists nnode, ndim, nt, n. now apply fit_strengthen. }
  split; [|split; [|split]].
  - split; [|exact A]. intros [t E]. destruct D as [D|D]; [exact D|rewrite D in E; discriminate].
  - intros nnode ndim nt n F ck. exact (new_fits _ _ _ _ _ _ _ _ _ (fit_weaken _ _ _ _ _ _ _ _ _ F) ck).
  - intros t E. destruct (new_same coor dofs control ties iip) as [Q|Q]; [rewrite Q in E; discriminate|]. now rewrite <- Q.
  - intros N. destruct D as [D|D]; [|exact D]. apply A in D. destruct D as [t E]. exfalso. now apply (N t).
Qed.
Print Assumptions C112_accepts.

Theorem C112_release : forall coor dofs control ties iip t,
  new_Periodic_checked true coor dofs control ties iip = Ok t -> new_Periodic_checked false coor dofs control ties iip = Ok t.
Proof. intros coor dofs control ties iip t E. destruct (new_same coor dofs control ties iip) as [Q|Q]; [rewrite Q in E; discriminate|]. now rewrite <- Q. Qed.
Print Assumptions C112_release.

(** C112: what is not asserted.  Of the objects that are accepted, those that prescribe a DOF that is dependent have a number of independent
    DOFs that is not that of the unknown and the prescribed ones; for all others, Cdi is an access out of bounds if and only if a DOF depends on
    one that is dependent itself. *)
Theorem C112_chained : forall coor dofs control ties iip nnode ndim nt n, tyings_fit is_dof coor dofs control ties iip nnode ndim nt n ->
  forall ck t, new_Periodic_checked ck coor dofs control ties iip = Ok t ->
  (tp_nni t = tp_nnu t + tp_nnp t <-> (forall k, k < n -> ~ depends dofs ties ndim nt (a_ent iip [k]))) /\
  ((forall k, k < n -> ~ depends dofs ties ndim nt (a_ent iip [k])) ->
     ((exists C, Cdi t = Ok C) <-> not_chained dofs control ties iip ndim nt n) /\ ((forall C, Cdi t <> Ok C) -> Cdi t = Oob)).
Proof.
  intros coor dofs control ties iip nnode ndim nt n F ck t E. rewrite (new_fits _ _ _ _ _ _ _ _ _ (fit_weaken _ _ _ _ _ _ _ _ _ F)) in E.
  split; [exact (nni_iff _ _ _ _ _ _ _ _ _ F t E)|]. intros NI. split; [split|].
  - intros [C EC]. exact (Cdi_ok_not_chained _ _ _ _ _ _ _ _ _ F t E NI C EC).
  - intros N. apply (fit_periodic _ _ _ _ _ _ _ _ _ F) in N. destruct (C44_affine _ _ _ _ _ _ _ N t E) as (C & EC & _). eauto.
  - intros N. destruct (Cdi_dec _ _ _ _ _ _ _ _ _ F t E NI) as [[C Q]|Q]; [exfalso; now apply (N C)|exact Q].
Qed.
Print Assumptions C112_chained.

(** C112: the constructor of VectorPartitionedTyings with assertions *)
Theorem C112_vector : forall conn dofs U P I,
  (forall z, valid_mesh conn dofs z -> rows U = rows P -> rows I = rows P -> cols I = cols U + cols P -> forall ck,
     exists v, new_VectorTyings_checked ck conn dofs U P I = Ok v /\ vt_nnu v = cols U /\ vt_nnp v = cols P /\ vt_nni v = cols U + cols P /\ vt_nnd v = rows P) /\
  ((forall z, ~ (valid_mesh conn dofs z /\ rows U = rows P /\ rows I = rows P /\ cols I = cols U + cols P)) ->
     new_VectorTyings_checked true conn dofs U P I = Throw).
Proof.
  intros conn dofs U P I. split.
  - intros z V E1 E2 E3 ck. rewrite (vt_new_ok conn dofs U P I ck z V E1 E2 E3). eexists. split; [reflexivity|]. repeat split.
  - apply vt_new_throw.
Qed.
Print Assumptions C112_vector.

(** C112: the calls to an object that was accepted, and whose DOFs are those of the tyings: every dependent DOF occurs, and no DOF is larger.
    An array of another shape throws; otherwise a result of the right size is given, the same as without assertions. *)
Theorem C112_calls : forall conn dofs U P I v z, valid_mesh conn dofs z -> new_VectorTyings_checked true conn dofs U P I = Ok v ->
  cols U + cols P + rows P = z_ndof z ->
  (forall d, cols U + cols P <= d < z_ndof z -> exists m i, m < z_nnode z /\ i < z_ndim z /\ a_ent dofs [m; i] = d) ->
  (forall o o' arg ret apply, Permutation o (list_prod (seq 0 (z_nnode z)) (seq 0 (z_ndim z))) -> Permutation o' (list_prod (seq 0 (z_nnode z)) (seq 0 (z_ndim z))) ->
     (a_shape arg = nodevec z -> ret = vt_nni v -> exists x, length x = vt_nni v /\ forall ck, T_asDofs_i ck v o o' arg ret apply = Ok (Out1 x)) /\
     (a_shape arg <> nodevec z \/ ret <> vt_nni v -> T_asDofs_i true v o o' arg ret apply = Throw)) /\
  (forall src dest,
     (forall n n', a_shape src = [n] -> a_shape dest = [n'] -> n = z_ndof z \/ n = vt_nni v -> n' = z_ndof z \/ n' = vt_nni v ->
        exists x, length x = n' /\ (forall ck, T_copy_p ck v src dest = Ok (Out1 x)) /\
          forall i, i < n' -> val1 x i = if (vt_nnu v <=? i) && (i <? vt_nni v) then a_ent src [i] else a_ent dest [i]) /\
     (~ ((a_shape src = [z_ndof z] \/ a_shape src = [vt_nni v]) /\ (a_shape dest = [z_ndof z] \/ a_shape dest = [vt_nni v])) -> T_copy_p true v src dest = Throw)).
Proof.
  intros conn dofs U P I v z V E Hn Hall. apply vt_new_inv in E. destruct E as (z' & V' & -> & E1 & E2 & E3).
  assert (Z : the_vector conn dofs z' = the_vector conn dofs z).
  { pose proof (vm_conn _ _ _ V) as A. pose proof (vm_conn _ _ _ V') as A'. pose proof (vm_dofs _ _ _ V) as B. pose proof (vm_dofs _ _ _ V') as B'.
    rewrite A in A'. rewrite B in B'. unfold the_vector. inversion A' as [[Q1 Q2]]. inversion B' as [[Q3 Q4]]. congruence. }
  rewrite Z. clear z' V' Z. split.
  - intros o o' arg ret apply Ho Ho'. split.
    + intros Ha ->. destruct (as_ok conn dofs U P I z V E2 E3 o o' Ho Ho' arg apply Hn Hall) as (x & Ex & Lx). exists x. split; [exact Lx|]. intros ck.
      rewrite (as_same conn dofs U P I z o o' arg Ha ck apply), Ex. reflexivity.
    + exact (as_throw conn dofs U P I z o o' arg ret apply).
  - intros src dest. split.
    + intros n n' Es Ed Hs Hd. assert (L : cols U + cols P <= z_ndof z) by lia.
      destruct (copy_ok conn dofs U P I z V E2 E3 true src dest n n' L Es Ed Hs Hd) as (x & Ex & Lx & Vx). exists x. split; [exact Lx|]. split; [|exact Vx]. intros ck.
      destruct (copy_ok conn dofs U P I z V E2 E3 ck src dest n n' L Es Ed Hs Hd) as (x' & Ex' & Lx' & Vx'). rewrite Ex'. f_equal. f_equal.
      apply (nth_ext _ _ 0%R 0%R); [congruence|]. intros i Hi. rewrite Lx' in Hi. change (val1 x' i = val1 x i). now rewrite Vx, Vx'.
    + apply copy_throw, V.
Qed.
Print Assumptions C112_calls.

(** C112: the sum of the numbers of the DOFs is not asserted: with DOFs beyond the dependent ones the object is accepted, and asDofs_i is an
    access out of bounds in both builds *)
Theorem C112_beyond : forall conn dofs U P I v z, valid_mesh conn dofs z -> new_VectorTyings_checked true conn dofs U P I = Ok v ->
  cols U + cols P + rows P < z_ndof z ->
  forall o o' arg, Permutation o (list_prod (seq 0 (z_nnode z)) (seq 0 (z_ndim z))) -> Permutation o' (list_prod (seq 0 (z_nnode z)) (seq 0 (z_ndim z))) ->
  a_shape arg = nodevec z -> forall ck, T_AsDofs_i ck v o o' arg = Oob.
Proof.
  intros conn dofs U P I v z V E Hn o o' arg Ho Ho' Ha ck. apply vt_new_inv in E. destruct E as (z' & V' & -> & E1 & E2 & E3).
  assert (Z : the_vector conn dofs z' = the_vector conn dofs z).
  { pose proof (vm_conn _ _ _ V) as A. pose proof (vm_conn _ _ _ V') as A'. pose proof (vm_dofs _ _ _ V) as B. pose proof (vm_dofs _ _ _ V') as B'.
    rewrite A in A'. rewrite B in B'. unfold the_vector. inversion A' as [[Q1 Q2]]. inversion B' as [[Q3 Q4]]. congruence. }
  rewrite Z. unfold T_AsDofs_i. rewrite (as_same conn dofs U P I z o o' arg Ha ck true).
  destruct (vm_last _ _ _ V) as (m & i & Hm & Hi & El).
  rewrite (as_oob conn dofs U P I z V E2 E3 o o' Ho Ho' arg m i Hm Hi); [reflexivity|]. unfold vt_nni, vt_nnu, vt_nnp, vt_nnd. cbn [vt_Cdu vt_Cdp]. lia.
Qed.
Print Assumptions C112_beyond.

(** C112: the whole: the tyings, their matrices, and the vector with the renumbered DOFs.  With assertions this gets to the end exactly for
    arrays that belong together and in which nothing is chained; then the result is that of the build without assertions. *)
Theorem C112_program : forall conn coor dofs control ties iip, consecutive dofs ->
  ((exists r, tied_vector true conn coor dofs control ties iip = Ok r) <->
   (exists nnode ndim nt n nelem nne, tyings_fit is_dof coor dofs control ties iip nnode ndim nt n /\ not_chained dofs control ties iip ndim nt n /\
      1 <= ndim /\ a_shape conn = [nelem; nne] /\ forall e m, e < nelem -> m < nne -> a_ent conn [e; m] < nnode)) /\
  (forall r, tied_vector true conn coor dofs control ties iip = Ok r -> tied_vector false conn coor dofs control ties iip = Ok r).
Proof.
  intros conn coor dofs control ties iip C. split; [split|].
  - intros [[t v] E]. unfold tied_vector in E. apply bind_inv in E. destruct E as (t' & Et & E). apply bind_inv in E. destruct E as (U & EU & E).
    apply bind_inv in E. destruct E as (P & EP & E). apply bind_inv in E. destruct E as (I & EI & E). apply bind_inv in E. destruct E as (v' & Ev & E). injection E as -> ->.
    destruct (proj1 (proj1 (C112_accepts coor dofs control ties iip C)) (ex_intro _ t Et)) as (nnode & ndim & nt & n & F).
    destruct (C112_chained _ _ _ _ _ _ _ _ _ F true t Et) as [K1 K2]. apply vt_new_inv in Ev. destruct Ev as (z & V & -> & E1 & E2 & E3).
    assert (Sz : forall k (keep : nat -> bool) s M, bind (tie_triplets t keep s) (setFromTriplets (tp_nnd t) k) = Ok M -> cols M = k).
    { intros k keep s M Q. apply bind_inv in Q. destruct Q as (ts & _ & Q). unfold setFromTriplets in Q. destruct (forallb _ ts); [|discriminate]. injection Q as <-. reflexivity. }
    unfold Cdi in EI. unfold Cdu in EU. unfold Cdp in EP. pose proof (Sz _ _ _ _ EU) as CU. pose proof (Sz _ _ _ _ EP) as CP. pose proof (Sz _ _ _ _ EI) as CI.
    assert (NI : forall k, k < n -> ~ depends dofs ties ndim nt (a_ent iip [k])) by (apply K1; lia).
    specialize (K2 NI). destruct K2 as [K2 _]. assert (NC : not_chained dofs control ties iip ndim nt n) by (apply K2; eauto).
    pose proof Et as Et'. rewrite (new_fits _ _ _ _ _ _ _ _ _ (fit_weaken _ _ _ _ _ _ _ _ _ F)) in Et'.
    destruct (C44_renumber _ _ _ _ _ _ _ (proj1 (fit_periodic _ _ _ _ _ _ _ _ _ F) NC)) as (t2 & Et2 & Sd & _). rewrite Et' in Et2. injection Et2 as <-.
    pose proof (vm_dofs _ _ _ V) as Sh. cbn [a_shape array2] in Sh. rewrite (proj1 Sd) in Sh.
    assert (Nd : tp_ndim t = ndim) by (destruct (obj _ _ _ _ _ _ _ _ _ F t Et') as (_ & _ & _ & _ & Q & _); exact Q). rewrite Nd in Sh. inversion Sh as [[Q1 Q2]].
    exists nnode, ndim, nt, n, (z_nelem z), (z_nne z). split; [exact F|]. split; [exact NC|]. split; [|split; [apply V|]].
    + pose proof (vm_pos _ _ _ V). nia.
    + intros e m He Hm. rewrite Q1. now apply (vm_node _ _ _ V).
  - intros (nnode & ndim & nt & n & nelem & nne & F & NC & Hd & Sc & Hc).
    destruct (new_total _ _ _ _ _ _ _ _ _ F) as [t Et]. pose proof (proj1 (fit_periodic _ _ _ _ _ _ _ _ _ F) NC) as PI.
    destruct (C44_Cdu_Cdp _ _ _ _ _ _ _ PI t Et) as (I & U & P & EI & EU & EP & RU & CU & RP & CP & _).
    destruct (C44_affine _ _ _ _ _ _ _ PI t Et) as (I' & EI' & RI & CI & _). rewrite EI in EI'. injection EI' as <-.
    destruct (C44_renumber _ _ _ _ _ _ _ PI) as (t2 & Et2 & Sd & _ & Np & Ni & Nn & _ & Rng & _ & _ & Onto). rewrite Et in Et2. injection Et2 as <-.
    assert (Nd : tp_ndim t = ndim) by (destruct (obj _ _ _ _ _ _ _ _ _ F t Et) as (_ & _ & _ & _ & Q & _); exact Q).
    assert (V : valid_mesh conn (array2 (length (tp_dofs t)) (tp_ndim t) (tp_dofs t)) (mkSizes nelem nne nnode ndim (tp_nni t + tp_nnd t))).
    { pose proof (tf_pos _ _ _ _ _ _ _ _ _ _ F) as Pn. rewrite Nd, (proj1 Sd).
      assert (Small : tp_nni t + tp_nnd t <= nnode * ndim).
      { rewrite <- (seq_length (tp_nni t + tp_nnd t) 0), <- (shape2_concat_length _ _ _ Sd). apply NoDup_incl_length; [apply seq_NoDup|].
        intros k Hk. apply in_seq in Hk. destruct (Onto k) as (m & i & Hm & Hi & E); [lia|]. apply (In_concat_nth2 _ nnode ndim); eauto. }
      assert (Pos : 0 < tp_nni t + tp_nnd t) by (destruct (Rng 0 0) as [Q _]; lia).
      split; cbn [z_nelem z_nne z_nnode z_ndim z_ndof a_shape array2 a_ent].
      - exact Sc.
      - reflexivity.
      - exact Hc.
      - nia.
      - intros m i Hm Hi. destruct (Rng m i Hm Hi) as [Q _]. unfold idx2, nth2 in Q. lia.
      - intros m i Hm Hi. exact (proj1 (Rng m i Hm Hi)).
      - destruct (Onto (tp_nni t + tp_nnd t - 1)) as (m & i & Hm & Hi & E); [lia|]. exists m, i. split; [exact Hm|]. split; [exact Hi|]. change (idx2 (tp_dofs t) m i + 1 = tp_nni t + tp_nnd t). lia. }
    exists (t, mkVT (the_vector conn (array2 (length (tp_dofs t)) (tp_ndim t) (tp_dofs t)) (mkSizes nelem nne nnode ndim (tp_nni t + tp_nnd t))) U P I).
    unfold tied_vector. rewrite (new_fits _ _ _ _ _ _ _ _ _ (fit_weaken _ _ _ _ _ _ _ _ _ F)), Et. cbn [bind]. rewrite EU, EP, EI. cbn [bind].
    rewrite (vt_new_ok _ _ U P I true _ V); [reflexivity| | |]; lia.
  - intros r E. unfold tied_vector in *. apply bind_inv in E. destruct E as (t & Et & E). rewrite (C112_release _ _ _ _ _ _ Et). cbn [bind].
    apply bind_inv in E. destruct E as (U & -> & E). apply bind_inv in E. destruct E as (P & -> & E). apply bind_inv in E. destruct E as (I & -> & E). cbn [bind].
    apply bind_inv in E. destruct E as (v & Ev & E). apply vt_new_inv in Ev. destruct Ev as (z & V & -> & E1 & E2 & E3). rewrite (vt_new_ok _ _ U P I false z V E1 E2 E3). exact E.
Qed.
Print Assumptions C112_program.

(** ** cases *)
(** a bar: nodes 0 and 1 are tied, node 3 is the control node; its DOF is prescribed *)
Definition line_coor : array R := mkArray [4; 1] (fun ix => match ix with [m; _] => INR m | _ => 0%R end).
Definition line_dofs : array nat := mkArray [4; 1] (fun ix => match ix with [m; _] => m | _ => 0 end).
Definition line_control : array nat := mkArray [1; 1] (fun _ => 3).
Definition line_ties : array nat := mkArray [1; 2] (fun ix => match ix with [_; a] => a | _ => 0 end).
Definition line_iip : array nat := mkArray [1] (fun _ => 3).
Definition line_conn : array nat := mkArray [2; 2] (fun ix => match ix with [e; m] => e + m | _ => 0 end).
Lemma line_consecutive : consecutive line_dofs.
Proof.
  intros nnode ndim E d [_ (m & i & Hm & Hi & L)]. cbn in E, L. inversion E; subst. exists d, 0. repeat split; lia.
Qed.
Lemma line_fits : tyings_fit is_dof line_coor line_dofs line_control line_ties line_iip 4 1 1 1.
Proof.
  split; try reflexivity; cbn; try lia.
  - intros. exists 3, 0. cbn. lia.
  - intros. exists 3, 0. cbn. lia.
Qed.
Lemma line_not_chained : not_chained line_dofs line_control line_ties line_iip 1 1 1.
Proof. split; intros; intros (s0 & i0 & Hs0 & Hi0 & E0); cbn in E0; lia. Qed.
Example C112_ex : exists r, tied_vector true line_conn line_coor line_dofs line_control line_ties line_iip = Ok r /\ tied_vector false line_conn line_coor line_dofs line_control line_ties line_iip = Ok r.
Proof.
  destruct (C112_program line_conn line_coor line_dofs line_control line_ties line_iip line_consecutive) as [P Q].
  destruct (proj2 P) as [r E]; [|exists r; auto]. exists 4, 1, 1, 1, 2, 2. split; [exact line_fits|]. split; [exact line_not_chained|]. split; [lia|]. split; [reflexivity|]. cbn. lia.
Qed.
(** errors that throw: a node that does not exist, a control DOF that is larger than all others, a DOF that is prescribed twice *)
Example C112_ex_throw :
  new_Periodic_checked true line_coor line_dofs line_control (mkArray [1; 2] (fun ix => match ix with [_; a] => 4 * a | _ => 0 end)) line_iip = Throw /\
  new_Periodic_checked true line_coor line_dofs (mkArray [1; 1] (fun _ => 4)) line_ties line_iip = Throw /\
  new_Periodic_checked true line_coor line_dofs line_control line_ties (mkArray [2] (fun _ => 3)) = Throw /\
  new_Periodic_checked true line_coor line_dofs line_control (mkArray [2; 2] (fun ix => match ix with [_; a] => a | _ => 0 end)) line_iip = Throw.
Proof. repeat split; reflexivity. Qed.

(** C112: that every input that is not valid throws is false.  Node 1 is tied to node 0, and node 2 to node 1: the constructor accepts it, and
    the tying matrices are an access out of bounds (Eigen: a column that does not exist) *)
Definition chain_ties : array nat := mkArray [2; 2] (fun ix => match ix with [s; a] => s + a | _ => 0 end).
Theorem C112_refuted : exists conn coor dofs control ties iip, consecutive dofs /\
  tyings_fit is_dof coor dofs control ties iip 4 1 2 1 /\ ~ not_chained dofs control ties iip 1 2 1 /\
  (exists t, new_Periodic_checked true coor dofs control ties iip = Ok t) /\ tied_vector true conn coor dofs control ties iip = Oob.
Proof.
  exists line_conn, line_coor, line_dofs, line_control, chain_ties, line_iip. split; [exact line_consecutive|].
  assert (F : tyings_fit is_dof line_coor line_dofs line_control chain_ties line_iip 4 1 2 1).
  { split; try reflexivity; cbn; try lia.
    - intros. exists 3, 0. cbn. lia.
    - intros. exists 3, 0. cbn. lia. }
  split; [exact F|]. split; [|split].
  - intros N. apply (nc_indep _ _ _ _ _ _ _ N 1 0); [lia|lia|]. exists 0, 0. cbn. lia.
  - apply (C112_accepts line_coor line_dofs line_control chain_ties line_iip line_consecutive). eauto.
  - cbv. reflexivity.
Qed.
Print Assumptions C112_refuted.
(** a dependent DOF that is prescribed: the tyings are accepted, with 3 independent DOFs, but 3 that are unknown and 1 that is prescribed;
    the vector class throws *)
Example C112_ex_prescribed : (exists t, new_Periodic_checked true line_coor line_dofs line_control line_ties (mkArray [1] (fun _ => 1)) = Ok t /\
  tp_nni t = 3 /\ tp_nnu t = 3 /\ tp_nnp t = 1) /\
  tied_vector true line_conn line_coor line_dofs line_control line_ties (mkArray [1] (fun _ => 1)) = Throw.
Proof. split; [eexists; split; [reflexivity|]; repeat split|cbv; reflexivity]. Qed.
(** a control DOF that does not exist, between DOFs that do: uninitialised memory is read *)
Theorem C112_holes_refuted : exists coor dofs control ties iip, tyings_fit in_range coor dofs control ties iip 4 1 1 1 /\
  new_Periodic_checked true coor dofs control ties iip = Uninit.
Proof.
  exists line_coor, (mkArray [4; 1] (fun ix => match ix with [m; _] => 2 * m | _ => 0 end)), (mkArray [1; 1] (fun _ => 3)), line_ties, (mkArray [1] (fun _ => 6)). split; [|reflexivity].
  split; try reflexivity; cbn; try lia.
  - intros. split; [exists 0, 0|exists 3, 0]; cbn; lia.
  - intros. split; [exists 0, 0|exists 3, 0]; cbn; lia.
Qed.
Print Assumptions C112_holes_refuted.
(** a mesh with 4 DOFs and tyings for 3 of them *)
Example C112_ex_beyond : exists v, new_VectorTyings_checked true line_conn line_dofs (mkMat 1 2 (fun _ _ => 0%R)) (mkMat 1 0 (fun _ _ => 0%R)) (mkMat 1 2 (fun _ _ => 0%R)) = Ok v /\
  T_AsDofs_i true v [(0, 0); (1, 0); (2, 0); (3, 0)] [(0, 0); (1, 0); (2, 0); (3, 0)] (mkArray [4; 1] (fun _ => 1%R)) = Oob.
Proof.
  assert (V : valid_mesh line_conn line_dofs (mkSizes 2 2 4 1 4)).
  { split; cbn; try reflexivity; try lia. exists 3, 0. lia. }
  destruct (proj1 (C112_vector line_conn line_dofs (mkMat 1 2 (fun _ _ => 0%R)) (mkMat 1 0 (fun _ _ => 0%R)) (mkMat 1 2 (fun _ _ => 0%R))) _ V eq_refl eq_refl eq_refl true) as (v & E & _).
  exists v. split; [exact E|]. apply (C112_beyond _ _ _ _ _ v _ V E); cbn; auto.
Qed.
