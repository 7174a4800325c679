(** C109: the diagonal matrices in the library built with its assertions enabled. *)
From Coq Require Import Reals Lra Lia.
From Verif Require Import Base Spec Spec_Vector Model_Numbering Model_Vector Model_VectorPartitioned Model_MatrixDiagonal Model_Checked Spec_Checked Proof_Checked Prop_Checked
  Model_CheckedMatrix Spec_CheckedMatrix Proof_CheckedMatrix Prop_CheckedMatrix Model_CheckedDiagonal Spec_CheckedDiagonal Proof_CheckedDiagonal.

(** which meshes (and prescribed DOFs) the constructors accept; on those they do the same in both builds *)
Theorem C109_build : forall conn dofs,
  (forall z, valid_mesh conn dofs z -> exists a, new_MatrixDiagonal_checked true conn dofs = Ok a /\ new_MatrixDiagonal_checked false conn dofs = Ok a) /\
  ((forall z, ~ valid_mesh conn dofs z) -> new_MatrixDiagonal_checked true conn dofs = Throw).
Proof.
  intros conn dofs. unfold new_MatrixDiagonal_checked. split.
  - intros z V. rewrite !(new_ok _ _ _ _ V). cbn [bind]. eauto.
  - intros H. now rewrite (new_throw _ _ H).
Qed.
Theorem C109_build_partitioned : forall conn dofs iip,
  (forall z n, valid_mesh conn dofs z -> valid_iip iip z n ->
     exists a, new_MatrixDiagonalPartitioned_checked true conn dofs iip = Ok a /\ new_MatrixDiagonalPartitioned_checked false conn dofs iip = Ok a) /\
  ((forall z n, valid_mesh conn dofs z -> ~ valid_iip iip z n) -> new_MatrixDiagonalPartitioned_checked true conn dofs iip = Throw).
Proof.
  intros conn dofs iip. split; [|apply dp_matrix_throw]. intros z n V I. destruct (dp_matrix conn dofs iip z n V I) as [p [_ E]]. rewrite !E. eauto.
Qed.

(** a checked [MatrixDiagonal]: calls that are rejected, then one that gives the matrix its value ([assemble] or [set]), then any calls with
    arrays of any rank, shape and entries, with the exceptions caught.  The next call succeeds exactly on what is documented - for [assemble]
    on element matrices of the right shape that are diagonal - with an output of the documented shape and the result of the build without
    assertions, and throws on everything else. *)
Theorem C109_total : forall conn dofs z a rejected first program c, valid_mesh conn dofs z -> new_MatrixDiagonal_checked true conn dofs = Ok a ->
  Forall (fun c => ~ fits_d z c) rejected -> fits_d z first -> gives first = true ->
  let st := program_d true (rejected ++ first :: program) a in
  (fits_d z c -> exists r st', run_dcall true st c = Ok (r, st') /\ run_dcall false st c = Ok (r, st') /\ has_returned r (returned_d z c)) /\
  (~ fits_d z c -> run_dcall true st c = Throw).
Proof.
  intros conn dofs z a l1 f l c V Ea Hr Ff Gf. cbv zeta. unfold new_MatrixDiagonal_checked in Ea. rewrite (new_ok _ _ _ _ V) in Ea. cbn [bind] in Ea. injection Ea as <-.
  unfold program_d. rewrite fold_left_app. fold (program_d true l1 (new_MatrixDiagonal (the_vector conn dofs z))). rewrite (d_rejected conn dofs z V l1 (new_MatrixDiagonal (the_vector conn dofs z)) eq_refl Hr). cbn [fold_left].
  destruct (d_gives conn dofs z V _ f (raw_new conn dofs z V) Ff Gf) as [a' [A [E H]]]. assert (E2 : caught (fun a => run_dcall true a f) (new_MatrixDiagonal (the_vector conn dofs z)) = a') by (unfold caught; now rewrite E). rewrite E2. fold (program_d true l a'). destruct (d_program conn dofs z V l a' A H) as [A' H']. split; intros F.
  - destruct (d_fits conn dofs z V _ A' c H' F) as [r [st' [A'' [E' [R _]]]]]. exists r, st'. rewrite !E'. auto.
  - exact (d_throws conn dofs z V _ c (proj1 H') F).
Qed.
(** before the matrix has a value: a call that is rejected is still rejected, but the assertions do not see that there is no value, so
    that every other call that does not give one reads what was never written, in both builds *)
Theorem C109_first : forall conn dofs z a rejected c ck, valid_mesh conn dofs z -> new_MatrixDiagonal_checked true conn dofs = Ok a ->
  Forall (fun c => ~ fits_d z c) rejected -> let st := program_d true rejected a in
  (~ fits_d z c -> run_dcall true st c = Throw) /\ (fits_d z c -> gives c = false -> run_dcall ck st c = Uninit).
Proof.
  intros conn dofs z a l c ck V Ea Hr. cbv zeta. unfold new_MatrixDiagonal_checked in Ea. rewrite (new_ok _ _ _ _ V) in Ea. cbn [bind] in Ea. injection Ea as <-.
  rewrite (d_rejected conn dofs z V l (new_MatrixDiagonal (the_vector conn dofs z)) eq_refl Hr). split; intros F; [exact (d_throws conn dofs z V (new_MatrixDiagonal (the_vector conn dofs z)) c eq_refl F)|]. intros G. exact (d_first conn dofs z V c ck F G).
Qed.
(** the warning of the documentation, that [assemble] ignores the off-diagonal entries, holds only without the assertions: with them, after
    any program, an off-diagonal entry above 2^-52 is rejected *)
Theorem C109_off_diagonal : forall conn dofs z a program K e r c, valid_mesh conn dofs z -> new_MatrixDiagonal_checked true conn dofs = Ok a -> a_shape K = elemmat z ->
  e < z_nelem z -> r < z_nne z * z_ndim z -> c < z_nne z * z_ndim z -> r <> c -> (/ 2 ^ 52 < Rabs (a_ent K [e; r; c]))%R ->
  let st := program_d true program a in
  run_dcall true st (DiagAssemble K) = Throw /\ exists st', run_dcall false st (DiagAssemble K) = Ok (None, st').
Proof.
  intros conn dofs z a l K e r c V Ea S He Hr Hc N B. cbv zeta. unfold new_MatrixDiagonal_checked in Ea. rewrite (new_ok _ _ _ _ V) in Ea. cbn [bind] in Ea. injection Ea as <-.
  assert (Q : raw conn dofs z (program_d true l (new_MatrixDiagonal (the_vector conn dofs z)))).
  { destruct (d_any conn dofs z V l (new_MatrixDiagonal (the_vector conn dofs z)) (or_introl eq_refl)) as [->|[A H]]; [exact (raw_new conn dofs z V)|exact (is_raw conn dofs z _ A H)]. }
  destruct Q as [Ev L]. set (a := program_d _ _ _) in *. split.
  - apply (d_throws conn dofs z V a _ Ev). intros [_ H]. specialize (H e r c He Hr Hc N). lra.
  - destruct (Proof_MatrixDiagonal.MD_assemble_spec (the_vector conn dofs z) (z_nelem z) (z_nne z) (z_nnode z) (z_ndim z) (z_ndof z) eq_refl eq_refl (c_mesh conn dofs z V) a _ Ev L (rows3_shape (z_nelem z) (z_nne z * z_ndim z) (z_nne z * z_ndim z) K)) as [a' [E _]].
    exists a'. unfold run_dcall, diag_arg. cbv zeta. rewrite S. unfold elemmat, assert. cbn [andb]. now rewrite E.
Qed.

(** the same for [MatrixDiagonalPartitioned] *)
Theorem C109_total_partitioned : forall conn dofs iip z n a rejected first program c, valid_mesh conn dofs z -> valid_iip iip z n -> without_holes dofs z ->
  new_MatrixDiagonalPartitioned_checked true conn dofs iip = Ok a -> let nu := z_ndof z - n in
  Forall (fun c => ~ fits_dp z nu n c) rejected -> fits_dp z nu n first -> gives_p first = true ->
  let st := program_dp true (rejected ++ first :: program) a in
  (fits_dp z nu n c -> exists r st', run_dpcall true st c = Ok (r, st') /\ run_dpcall false st c = Ok (r, st') /\ has_returned r (returned_dp z nu n c)) /\
  (~ fits_dp z nu n c -> run_dpcall true st c = Throw).
Proof.
  intros conn dofs iip z n a l1 f l c V I W Ea. cbv zeta. intros Hr Ff Gf. destruct (dp_matrix conn dofs iip z n V I) as [p [Ep E0]]. rewrite E0 in Ea. injection Ea as <-.
  destruct (p_sizes conn dofs iip z n V I W p Ep) as [_ [P2 P3]].
  unfold program_dp. rewrite fold_left_app. fold (program_dp true l1 (mkMDP p (empty (m_nnu p)) (empty (m_nnp p)) (empty (m_nnu p)) true)). rewrite (dp_rejected conn dofs iip z n V I W p Ep l1) by (reflexivity || assumption). cbn [fold_left].
  destruct f as [f|? ? ?|? ? ?|? ? ?|? ?|? ? ?]; try discriminate. cbn [fits_dp gives_p] in Ff, Gf.
  destruct (dp_gives conn dofs iip z n V I W p Ep (mkMDP p (empty (m_nnu p)) (empty (m_nnp p)) (empty (m_nnu p)) true) f) as [a' [A [E H]]]; [|exact Ff|exact Gf|].
  { split; [reflexivity|]. cbn [Auu App]. unfold empty. rewrite !repeat_length. now split. }
  set (a0 := mkMDP p _ _ _ _) in *. assert (E2 : caught (fun a => run_dpcall true a (DCommon f)) a0 = a') by (unfold caught; now rewrite E). rewrite E2. fold (program_dp true l a'). destruct (dp_program conn dofs iip z n V I W p Ep l a' A H) as [A' H']. split; intros F.
  - destruct (dp_fits conn dofs iip z n V I W p Ep _ A' c H' F) as [r [st' [A'' [E' [R _]]]]]. exists r, st'. rewrite !E'. auto.
  - exact (dp_throws conn dofs iip z n V I W p Ep _ c (proj1 H') F).
Qed.

(** the bar of two elements: a rejected [set], an accepted one, and then the calls of the theorems *)
Definition lumped (s : list nat) : array R := mkArray s (fun ix => match ix with [_; r; c] => if r =? c then 2%R else 0%R | _ => 1%R end).
Example C109_ex_diagonal : diagonal_elemmat bar (lumped [2; 2; 2]).
Proof. split; [reflexivity|]. intros e r c _ _ _ N. cbn [lumped a_ent]. apply Nat.eqb_neq in N. rewrite N, Rabs_R0. apply Rlt_le, Rinv_0_lt_compat, pow_lt. lra. Qed.
Example C109_ex : exists a, new_MatrixDiagonal_checked true bar_conn bar_dofs = Ok a /\
  let st := program_d true [DiagSet (entries [4]); DiagAssemble (lumped [2; 2; 2]); DiagDot (entries [3]) (entries [3; 1])] a in
  (exists y st', run_dcall true st (DiagSolve (entries [3; 1]) (entries [3; 1])) = Ok (Some y, st') /\ out_shape y [3; 1]) /\
  run_dcall true st (DiagSolve (entries [3; 1]) (entries [3])) = Throw /\
  run_dcall true st (DiagAssemble (entries [2; 2; 2])) = Throw /\ run_dcall true a (DiagDot (entries [3]) (entries [3])) = Uninit.
Proof.
  destruct (C109_build bar_conn bar_dofs) as [B _]. destruct (B bar C94_ex_valid) as [a [Ea _]]. exists a. split; [exact Ea|]. cbv zeta.
  assert (R : Forall (fun c => ~ fits_d bar c) [DiagSet (entries [4])]) by (constructor; [intros Q; discriminate|constructor]).
  pose proof (fun c => C109_total _ _ _ a [DiagSet (entries [4])] (DiagAssemble (lumped [2; 2; 2])) [DiagDot (entries [3]) (entries [3; 1])] c C94_ex_valid Ea R C109_ex_diagonal eq_refl) as T. cbv zeta in T. cbn [app] in T.
  split; [|split; [|split]].
  - destruct (T (DiagSolve (entries [3; 1]) (entries [3; 1]))) as [H _]. destruct H as [[y|] [st' [E [_ Q]]]]; [right; now split|eauto|destruct Q].
  - apply T. intros [[Q _]|[_ Q]]; discriminate.
  - apply T. intros [_ Q]. specialize (Q 0 0 1). cbn [bar z_nelem z_nne z_ndim Nat.mul Nat.add] in Q. specialize (Q ltac:(lia) ltac:(lia) ltac:(lia) ltac:(lia)). change (a_ent (entries [2; 2; 2]) [0; 0; 1]) with 1%R in Q. rewrite Rabs_R1 in Q.
    assert (P : (/ 2 ^ 52 < 1)%R) by (rewrite <- Rinv_1; apply Rinv_lt_contravar; [rewrite Rmult_1_l; apply pow_lt; lra|apply Rlt_pow_R1; [lra|lia]]). lra.
  - destruct (C109_first _ _ _ a [] (DiagDot (entries [3]) (entries [3])) true C94_ex_valid Ea (Forall_nil _)) as [_ H]. apply H; [left; now split|reflexivity].
Qed.
Example C109_ex_off_diagonal : forall a, new_MatrixDiagonal_checked true bar_conn bar_dofs = Ok a -> exists a', run_dcall false a (DiagAssemble (entries [2; 2; 2])) = Ok (None, a').
Proof.
  intros a Ea. destruct (C109_off_diagonal _ _ _ a [] (entries [2; 2; 2]) 0 0 1 C94_ex_valid Ea eq_refl) as [_ H]; try (cbn; lia); [|exact H].
  change (a_ent (entries [2; 2; 2]) [0; 0; 1]) with 1%R. rewrite Rabs_R1, <- Rinv_1 at 1. apply Rinv_lt_contravar; [rewrite Rmult_1_l; apply pow_lt; lra|apply Rlt_pow_R1; [lra|lia]].
Qed.
Example C109_ex_partitioned : exists a, new_MatrixDiagonalPartitioned_checked true bar_conn bar_dofs bar_iip = Ok a /\
  let st := program_dp true [DCommon (DiagSet (entries [4])); DCommon (DiagSet (entries [3])); DDot_u (entries [1]) (entries [2]) (entries [1])] a in
  (exists y st', run_dpcall true st (DSolve_u (entries [2]) (entries [1]) (entries [2])) = Ok (Some y, st') /\ out_shape y [2]) /\
  run_dpcall true st (DReaction_p (entries [2]) (entries [1]) (entries [2])) = Throw.
Proof.
  destruct (C109_build_partitioned bar_conn bar_dofs bar_iip) as [B _]. destruct (B bar 1 C94_ex_valid C95_ex_valid) as [a [Ea _]]. exists a. split; [exact Ea|]. cbv zeta.
  assert (R : Forall (fun c => ~ fits_dp bar 2 1 c) [DCommon (DiagSet (entries [4]))]) by (constructor; [intros Q; discriminate|constructor]).
  pose proof (fun c => C109_total_partitioned _ _ _ _ _ a [DCommon (DiagSet (entries [4]))] (DCommon (DiagSet (entries [3]))) [DDot_u (entries [1]) (entries [2]) (entries [1])] c C94_ex_valid C95_ex_valid C99_ex_holes Ea R eq_refl eq_refl) as T. cbv zeta in T. cbn [app] in T.
  split.
  - destruct (T (DSolve_u (entries [2]) (entries [1]) (entries [2]))) as [H _]. destruct H as [[y|] [st' [E [_ Q]]]]; [now repeat split|eauto|destruct Q].
  - apply T. intros [_ [_ Q]]. discriminate.
Qed.

Print Assumptions C109_build.
Print Assumptions C109_build_partitioned.
Print Assumptions C109_total.
Print Assumptions C109_first.
Print Assumptions C109_off_diagonal.
Print Assumptions C109_total_partitioned.
