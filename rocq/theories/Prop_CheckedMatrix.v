(** C98, C99: the matrices and their solvers in the library built with its assertions enabled. *)
From Coq Require Import Reals Lra Lia.
From Verif Require Import Base Spec Spec_Vector Model_Numbering Model_Vector Model_VectorPartitioned Model_Sparse Model_Matrix Model_MatrixPartitioned Model_Checked Spec_Checked Proof_Checked Prop_Checked
  Model_CheckedMatrix Spec_CheckedMatrix Proof_CheckedMatrix.

(** C98: which meshes a checked [Matrix] accepts *)
Theorem C98_build : forall conn dofs,
  (forall z, valid_mesh conn dofs z -> exists a, new_Matrix_checked true conn dofs = Ok a /\ new_Matrix_checked false conn dofs = Ok a) /\
  ((forall z, ~ valid_mesh conn dofs z) -> new_Matrix_checked true conn dofs = Throw).
Proof.
  intros conn dofs. unfold new_Matrix_checked. split.
  - intros z V. rewrite !(new_ok _ _ _ _ V). cbn [bind]. eauto.
  - intros H. now rewrite (new_throw _ _ H).
Qed.
(** a checked [Matrix] and its solver, after any program: calls with arrays of any rank, shape and entries, in any order, with any order of
    the parallel iterations, and with the exceptions caught.  The next call succeeds exactly on the documented shapes (and, for [set] and
    [add], with rows and columns that exist), with an output of the documented shape and the result of the build without assertions, and
    throws on everything else: it never accesses an array out of bounds or reads what was not written. *)
Theorem C98_total : forall conn dofs z a linsolve program o c, valid_mesh conn dofs z -> (forall m b, length (linsolve m b) = rows m) ->
  Forall (fun oc => any_order z (fst oc)) program -> any_order z o -> new_Matrix_checked true conn dofs = Ok a ->
  let st := program_m true linsolve program (a, new_Solver) in
  (fits z c -> exists r st', run_mcall true linsolve o st c = Ok (r, st') /\ run_mcall false linsolve o st c = Ok (r, st') /\ has_returned r (returned z c)) /\
  (~ fits z c -> run_mcall true linsolve o st c = Throw).
Proof.
  intros conn dofs z a linsolve l o c V Hs Hl O Ea. cbv zeta. pose proof (m_program conn dofs z linsolve V Hs l (a, new_Solver) Hl (m_inv_new conn dofs z V true a Ea)) as H. split; intros F.
  - destruct (m_fits conn dofs z V linsolve Hs o _ c O H F) as [r [st' [E [S _]]]]. exists r, st'. split; [apply E|]. split; [apply E|exact S].
  - now apply (m_throws conn dofs z V linsolve o _ c H).
Qed.
(** so a program that is without exceptions in the checked build is the same program in the build without assertions *)
Theorem C98_release : forall conn dofs z a linsolve program, valid_mesh conn dofs z -> (forall m b, length (linsolve m b) = rows m) ->
  Forall (fun oc => any_order z (fst oc)) program -> Forall (fun oc => fits z (snd oc)) program -> new_Matrix_checked true conn dofs = Ok a ->
  program_m false linsolve program (a, new_Solver) = program_m true linsolve program (a, new_Solver).
Proof.
  intros conn dofs z a linsolve l V Hs Hl Hf Ea. pose proof (m_inv_new conn dofs z V true a Ea) as H. unfold program_m. revert H. generalize (a, new_Solver). clear Ea.
  induction l as [|[o c] l IH]; intros st H; [reflexivity|]. cbn [fold_left fst snd]. apply Forall_cons_iff in Hl, Hf. destruct Hl as [O Hl], Hf as [F Hf]. cbn [fst snd] in *.
  destruct (m_fits conn dofs z V linsolve Hs o st c O H F) as [r [st' [E [_ H']]]]. unfold caught at 2 4. rewrite !E. cbn [snd]. now apply IH.
Qed.
(** the by-value methods: their output is made with the right shape, whatever is in its memory *)
Theorem C98_by_value : forall conn dofs z a linsolve program o x garbage, valid_mesh conn dofs z -> (forall m b, length (linsolve m b) = rows m) ->
  Forall (fun oc => any_order z (fst oc)) program -> any_order z o -> new_Matrix_checked true conn dofs = Ok a ->
  let st := program_m true linsolve program (a, new_Solver) in
  (a_shape x = dofval z \/ a_shape x = nodevec z ->
     (exists y, run_mcall true linsolve o st (Dot x (empty_like x garbage)) = Ok (Some y, st) /\ out_shape y (a_shape x)) /\
     (exists y st', run_mcall true linsolve o st (Solve x (empty_like x garbage)) = Ok (Some y, st') /\ out_shape y (a_shape x))) /\
  (~ (a_shape x = dofval z \/ a_shape x = nodevec z) ->
     run_mcall true linsolve o st (Dot x (empty_like x garbage)) = Throw /\ run_mcall true linsolve o st (Solve x (empty_like x garbage)) = Throw).
Proof.
  intros conn dofs z a linsolve l o x g V Hs Hl O Ea. cbv zeta.
  destruct (C98_total conn dofs z a linsolve l o (Dot x (empty_like x g)) V Hs Hl O Ea) as [D1 D2]. destruct (C98_total conn dofs z a linsolve l o (Solve x (empty_like x g)) V Hs Hl O Ea) as [S1 S2].
  cbv zeta in *. set (st := program_m true linsolve l (a, new_Solver)) in *. cbn [fits returned] in *.
  assert (F : fits_two z x (empty_like x g) <-> a_shape x = dofval z \/ a_shape x = nodevec z) by (unfold fits_two; cbn [empty_like a_shape]; tauto). split; intros H.
  - apply F in H. split.
    + destruct (D1 H) as [r [st' [E [_ R]]]]. destruct r as [y|]; [|destruct R]. exists y. split; [|exact R]. rewrite E. f_equal. f_equal.
      unfold run_mcall in E. destruct st as [m s]. cbv zeta in E. cbn [empty_like a_shape] in E. destruct (a_shape x) as [|n [|d [|]]]; try discriminate.
      all: repeat (apply assert_ok in E; destruct E as [E _]); destruct (has_shape _ _); try discriminate; unfold with_out in E.
      * destruct (M_dot_dofval m _); cbn [bind] in E; try discriminate. now inversion E.
      * destruct (M_dot_nodevec m _ _); cbn [bind] in E; try discriminate. now inversion E.
    + destruct (S1 H) as [r [st' [E [_ R]]]]. destruct r as [y|]; [|destruct R]. eauto.
  - rewrite <- F in H. auto.
Qed.

(** a bar of two elements, a solver that gives zeros: a program with a good and a bad call, and then the calls of the theorem *)
Definition zeros (m : mat) (b : list R) : list R := repeat 0%R (rows m).
Example C98_ex_zeros : forall m b, length (zeros m b) = rows m.
Proof. intros. apply repeat_length. Qed.
Definition bar_program : list (schedule * mcall) := [(bar_order, Assemble (entries [2; 2; 2])); (bar_order, Assemble (entries [2; 2])); (bar_order, AddBlock (mkArray [1] (fun _ => 3)) (mkArray [1] (fun _ => 0)) (entries [1; 1]))].
Example C98_ex : forall a, new_Matrix_checked true bar_conn bar_dofs = Ok a -> let st := program_m true zeros bar_program (a, new_Solver) in
  (exists y, run_mcall true zeros bar_order st (Dot (entries [3; 1]) (entries [3; 1])) = Ok (Some y, st) /\ out_shape y [3; 1]) /\
  run_mcall true zeros bar_order st (Dot (entries [3; 1]) (entries [3])) = Throw /\
  run_mcall true zeros bar_order st (SetBlock (mkArray [1] (fun _ => 3)) (mkArray [1] (fun _ => 0)) (entries [1; 1])) = Throw /\
  run_mcall false zeros bar_order st (SetBlock (mkArray [1] (fun _ => 3)) (mkArray [1] (fun _ => 0)) (entries [1; 1])) = Oob.
Proof.
  intros a Ea. cbv zeta. assert (P : Forall (fun oc => any_order bar (fst oc)) bar_program) by (repeat constructor; cbn [fst]; apply C94_ex_order). split.
  - destruct (C98_by_value _ _ _ a zeros bar_program bar_order (entries [3; 1]) (a_ent (entries [3; 1])) C94_ex_valid C98_ex_zeros P C94_ex_order Ea) as [H _]. destruct (H (or_intror eq_refl)) as [D _]. exact D.
  - destruct (C98_total _ _ _ a zeros bar_program bar_order (Dot (entries [3; 1]) (entries [3])) C94_ex_valid C98_ex_zeros P C94_ex_order Ea) as [_ H].
    destruct (C98_total _ _ _ a zeros bar_program bar_order (SetBlock (mkArray [1] (fun _ => 3)) (mkArray [1] (fun _ => 0)) (entries [1; 1])) C94_ex_valid C98_ex_zeros P C94_ex_order Ea) as [_ H2].
    split; [apply H; intros [[Q _]|[_ Q]]; discriminate|]. split.
    + apply H2. intros [nr [nc [E1 [_ [_ [B _]]]]]]. injection E1 as <-. specialize (B 0 ltac:(lia)). cbn in B. lia.
    + injection Ea as <-. reflexivity.
Qed.

(** C99: the same for [MatrixPartitioned] and its solver.  What the constructor accepts; [without_holes]: see C99_hole *)
Theorem C99_build : forall conn dofs iip,
  (forall z n, valid_mesh conn dofs z -> valid_iip iip z n -> without_holes dofs z ->
     exists a, new_MatrixPartitioned_checked true conn dofs iip = Ok a /\ new_MatrixPartitioned_checked false conn dofs iip = Ok a) /\
  ((forall z n, valid_mesh conn dofs z -> ~ valid_iip iip z n) -> new_MatrixPartitioned_checked true conn dofs iip = Throw).
Proof.
  intros conn dofs iip. split; [|apply p_matrix_throw]. intros z n V I W. destruct (p_matrix conn dofs iip z n V I W true) as [a [E [F _]]]. destruct (p_matrix conn dofs iip z n V I W false) as [a' [E' [F' _]]].
  rewrite F in F'. injection F' as F'. rewrite <- F' in E'. eauto.
Qed.
(** the assertions do not see a hole in the DOF numbers: then the constructor reads a number that was never written, in both builds *)
Theorem C99_hole : forall conn dofs iip z n d ck, valid_mesh conn dofs z -> valid_iip iip z n -> d < z_ndof z ->
  (forall m i, m < z_nnode z -> i < z_ndim z -> a_ent dofs [m; i] <> d) -> (forall k, k < n -> a_ent iip [k] <> d) -> new_MatrixPartitioned_checked ck conn dofs iip = Uninit.
Proof. intros. now apply (p_matrix_hole conn dofs iip z n d ck). Qed.
(** every call after every program *)
Theorem C99_total : forall conn dofs iip z n a linsolve program o c, valid_mesh conn dofs z -> valid_iip iip z n -> without_holes dofs z ->
  (forall m b, length (linsolve m b) = rows m) -> Forall (fun oc => any_order z (fst oc)) program -> any_order z o -> new_MatrixPartitioned_checked true conn dofs iip = Ok a ->
  let st := program_p true linsolve program (a, new_Solver) in let nu := z_ndof z - n in
  (fits_p z nu n c -> exists r st', run_pcall true linsolve o st c = Ok (r, st') /\ run_pcall false linsolve o st c = Ok (r, st') /\ has_returned r (returned_p z nu n c)) /\
  (~ fits_p z nu n c -> run_pcall true linsolve o st c = Throw).
Proof.
  intros conn dofs iip z n a linsolve l o c V I W Hs Hl O Ea. cbv zeta.
  pose proof (Proof_MatrixPartitioned.ii_length (the_vector conn dofs z) (z_nelem z) (z_nne z) (z_nnode z) (z_ndim z) (z_ndof z) eq_refl eq_refl (c_mesh conn dofs z V) (rows1 n iip) (p_prescribed iip z n I) (p_holes conn dofs z W)) as L. rewrite rows1_length in L.
  assert (N : z_ndof z - n = length (setdiff1d (concat (m_dofs (the_vector conn dofs z))) (rows1 n iip))) by lia. rewrite N.
  assert (H0 : p_inv conn dofs iip z n (a, new_Solver)).
  { destruct (p_matrix conn dofs iip z n V I W true) as [a' [E [_ H]]]. rewrite Ea in E. injection E as <-. split; [eauto|]. split; [reflexivity|discriminate]. }
  pose proof (p_program conn dofs iip z n V I W linsolve Hs l _ Hl H0) as H. split; intros F.
  - destruct (p_fits conn dofs iip z n V I W linsolve Hs o _ c O H F) as [r [st' [E [S _]]]]. exists r, st'. split; [apply E|]. split; [apply E|exact S].
  - now apply (p_throws conn dofs iip z n V I linsolve o _ c H).
Qed.

(** the bar with its last DOF prescribed *)
Example C99_ex_holes : without_holes bar_dofs bar.
Proof. intros d Hd. exists d, 0. cbn in *. lia. Qed.
Definition bar_program_p : list (schedule * pcall) := [(bar_order, Common (Assemble (entries [2; 2; 2]))); (bar_order, Common (Solve (entries [3]) (entries [4])))].
Example C99_ex : exists a, new_MatrixPartitioned_checked true bar_conn bar_dofs bar_iip = Ok a /\
  let st := program_p true zeros bar_program_p (a, new_Solver) in
  (exists y st', run_pcall true zeros bar_order st (Common (Solve (entries [3]) (entries [3]))) = Ok (Some y, st') /\ out_shape y [3]) /\
  (exists y st', run_pcall true zeros bar_order st (Reaction_p (entries [2]) (entries [1]) (entries [1])) = Ok (Some y, st') /\ out_shape y [1]) /\
  run_pcall true zeros bar_order st (Reaction_p (entries [2]) (entries [1]) (entries [2])) = Throw.
Proof.
  destruct (C99_build bar_conn bar_dofs bar_iip) as [A _]. destruct (A bar 1 C94_ex_valid C95_ex_valid C99_ex_holes) as [a [Ea _]]. exists a. split; [exact Ea|]. cbv zeta.
  assert (P : Forall (fun oc => any_order bar (fst oc)) bar_program_p) by (repeat constructor; cbn [fst]; apply C94_ex_order).
  pose proof (fun c => C99_total _ _ _ _ _ a zeros bar_program_p bar_order c C94_ex_valid C95_ex_valid C99_ex_holes C98_ex_zeros P C94_ex_order Ea) as T. cbv zeta in T. split; [|split].
  - destruct (T (Common (Solve (entries [3]) (entries [3])))) as [H _]. destruct H as [[y|] [st' [E [_ R]]]]; [left; now split|eauto|destruct R].
  - destruct (T (Reaction_p (entries [2]) (entries [1]) (entries [1]))) as [H _]. destruct H as [[y|] [st' [E [_ R]]]]; [now repeat split|eauto|destruct R].
  - destruct (T (Reaction_p (entries [2]) (entries [1]) (entries [2]))) as [_ H]. apply H. cbn. intros [_ [_ Q]]. discriminate.
Qed.
(** DOF 1 is missing: accepted by a checked [Vector], and not seen by the assertions of the matrix *)
Definition hole_dofs := mkArray [3; 1] (fun ix => match ix with [0; _] => 0 | _ => 2 end).
Example C99_ex_hole : valid_mesh bar_conn hole_dofs bar /\ new_MatrixPartitioned_checked true bar_conn hole_dofs bar_iip = Uninit.
Proof.
  assert (V : valid_mesh bar_conn hole_dofs bar).
  { constructor; try reflexivity; cbn; try lia; [intros [|[|[|]]] i H; lia|intros [|[|[|]]] i H; lia|]. exists 1, 0. lia. }
  split; [exact V|]. apply (C99_hole _ _ _ bar 1 1 true V C95_ex_valid); [cbn; lia| |]; cbn; [intros [|[|[|]]] i H; lia|lia].
Qed.

Print Assumptions C98_build.
Print Assumptions C98_total.
Print Assumptions C98_release.
Print Assumptions C98_by_value.
Print Assumptions C99_build.
Print Assumptions C99_hole.
Print Assumptions C99_total.
