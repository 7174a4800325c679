(** C113: matrices with tyings and their solver in the library built with its assertions enabled. *)
From Coq Require Import Reals Lra.
From Verif Require Import Base Spec Sums Spec_Vector Spec_Matrix Spec_MatrixTyings Model_Numbering Model_Vector Proof_Vector Proof_Vector2 Model_Sparse Model_Matrix Model_MatrixTyings Proof_MatrixTyings
  Model_Checked Spec_Checked Proof_Checked Prop_Checked Model_CheckedMatrix Spec_CheckedMatrix Proof_CheckedMatrix Prop_CheckedMatrix
  Model_CheckedMatrixTyings Spec_CheckedMatrixTyings Prop_MatrixTyings.
From Verif Require Proof_CheckedMatrixTyings.
From Verif Require Import Proof_CheckedMatrixTyings2 Proof_CheckedMatrixTyings3.

(** C113: the constructor accepts exactly tying matrices of matching sizes for the DOFs of the mesh, and gives the object of the build without
    assertions; it throws on everything else *)
Theorem C113_build : forall conn dofs Cdu Cdp,
  ((exists a, new_MatrixTyings_checked true conn dofs Cdu Cdp = Ok a) <-> (exists z, tied_mesh conn dofs Cdu Cdp z)) /\
  ((forall a, new_MatrixTyings_checked true conn dofs Cdu Cdp <> Ok a) -> new_MatrixTyings_checked true conn dofs Cdu Cdp = Throw) /\
  (forall a, new_MatrixTyings_checked true conn dofs Cdu Cdp = Ok a -> new_MatrixTyings_checked false conn dofs Cdu Cdp = Ok a).
Proof.
  intros conn dofs Cdu Cdp. split; [split|split].
  - intros [a E]. eapply mt_new_inv; exact E.
  - intros [z V]. eexists. exact (mt_new_ok _ _ _ _ z true V).
  - intros N. apply mt_new_throw. intros z V. exact (N _ (mt_new_ok _ _ _ _ z true V)).
  - intros a E. destruct (mt_new_inv _ _ _ _ _ E) as [z V]. rewrite (mt_new_ok _ _ _ _ z true V) in E. now rewrite (mt_new_ok _ _ _ _ z false V).
Qed.
Print Assumptions C113_build.

(** C113: a call that returns does so with the same result without assertions: for every object, and for a whole program *)
Theorem C113_release : forall linsolve,
  (forall o st c r, run_tcall true linsolve o st c = Ok r -> run_tcall false linsolve o st c = Ok r) /\
  (forall program st, (forall before o c after, program = before ++ (o, c) :: after -> exists r, run_tcall true linsolve o (program_t true linsolve before st) c = Ok r) ->
     program_t false linsolve program st = program_t true linsolve program st).
Proof.
  intros linsolve. split; [intros; now apply t_release|].
  intros program. induction program as [|[o c] l IH]; intros st H; [reflexivity|].
  destruct (H [] o c l eq_refl) as [r E]. cbn in E. unfold program_t. cbn [fold_left fst snd]. unfold caught at 2 4. rewrite E, (t_release _ _ _ _ _ E). apply IH.
  intros before o' c' after ->. destruct (H ((o, c) :: before) o' c' after eq_refl) as [r' E']. exists r'. revert E'. unfold program_t at 1. cbn [fold_left fst snd]. unfold caught at 2. rewrite E. auto.
Qed.
Print Assumptions C113_release.

(** C113: dot and reaction throw, always *)
Theorem C113_not_implemented : forall ck linsolve o st x b p,
  run_tcall ck linsolve o st (TDot x b) = Throw /\ run_tcall ck linsolve o st (TReaction x b) = Throw /\ run_tcall ck linsolve o st (TReaction_p x b p) = Throw.
Proof. intros. split; [|split]; apply t_not_implemented; exact I. Qed.
Print Assumptions C113_not_implemented.

(** C113: every call after every program that catches exceptions: it returns an output of the right shape (the same in both builds) if its
    arguments fit, and throws otherwise.  It never accesses an array out of bounds or reads what was not written; except for (1) a
    connectivity with a node that does not exist, (2) a solve with values per DOF if there are more dependent than prescribed DOFs. *)
Theorem C113_total_partial : forall conn dofs Cdu Cdp z a linsolve program o c, tied_mesh conn dofs Cdu Cdp z -> new_MatrixTyings_checked true conn dofs Cdu Cdp = Ok a ->
  nodes_exist conn z -> (forall m b, length (linsolve m b) = rows m) ->
  Forall (fun oc => any_order z (fst oc)) program -> any_order z o -> Forall (fun oc => safe (cols Cdp) (rows Cdp) (snd oc)) program ->
  let st := program_t true linsolve program (a, new_Solver) in let fits := fits_t z (cols Cdu) (cols Cdp) (rows Cdp) in
  (fits c -> safe (cols Cdp) (rows Cdp) c -> exists r st', run_tcall true linsolve o st c = Ok (r, st') /\ run_tcall false linsolve o st c = Ok (r, st') /\ has_returned r (returned_t z (cols Cdu) c)) /\
  (~ fits c -> run_tcall true linsolve o st c = Throw).
Proof.
  intros conn dofs Cdu Cdp z a linsolve l o c V Ea Hc Hs Hl O Hsafe. cbv zeta. rewrite (mt_new_ok _ _ _ _ z true V) in Ea. injection Ea as <-.
  pose proof (t_program conn dofs Cdu Cdp z V linsolve Hc Hs l _ Hl Hsafe (inv_new conn dofs Cdu Cdp z V Hc)) as I.
  pose proof (inv_const _ _ _ _ _ _ I) as C. split.
  - intros F S. destruct (t_fits conn dofs Cdu Cdp z V linsolve Hc Hs o _ c O I S F) as (r & st' & E & R & _). exists r, st'. auto.
  - intros F. apply (t_throws conn dofs Cdu Cdp z V linsolve o _ c C F). now rewrite (proj2 (proj2 C)).
Qed.
Print Assumptions C113_total_partial.

(** C113: the two exceptions.  (1) nothing is asserted about the nodes in the connectivity: if one does not exist, every matrix of the right
    shape is an access out of bounds, after every program, also with assertions *)
Theorem C113_conn : forall conn dofs Cdu Cdp z a linsolve program o K e m ck, tied_mesh conn dofs Cdu Cdp z -> new_MatrixTyings_checked true conn dofs Cdu Cdp = Ok a ->
  e < z_nelem z -> m < z_nne z -> z_nnode z <= a_ent conn [e; m] -> a_shape K = elemmat z ->
  run_tcall ck linsolve o (program_t ck linsolve program (a, new_Solver)) (TAssem K) = Oob.
Proof.
  intros conn dofs Cdu Cdp z a linsolve l o K e m ck V Ea He Hm Hb EK. rewrite (mt_new_ok _ _ _ _ z true V) in Ea. injection Ea as <-.
  apply (t_conn_oob conn dofs Cdu Cdp z V linsolve o _ K ck e m); try assumption. apply t_const_program. repeat split.
Qed.
Print Assumptions C113_conn.
(** (2) the solve with values per DOF reads the dependent values through the prescribed DOFs, and outside of these if there are more *)
Theorem C113_dofval : forall conn dofs Cdu Cdp z a linsolve program o b x ck, tied_mesh conn dofs Cdu Cdp z -> new_MatrixTyings_checked true conn dofs Cdu Cdp = Ok a ->
  nodes_exist conn z -> (forall m b, length (linsolve m b) = rows m) ->
  Forall (fun oc => any_order z (fst oc)) program -> Forall (fun oc => safe (cols Cdp) (rows Cdp) (snd oc)) program ->
  cols Cdp < rows Cdp -> a_shape b = dofval z -> a_shape x = dofval z ->
  run_tcall ck linsolve o (program_t true linsolve program (a, new_Solver)) (TSolve' b x) = Oob.
Proof.
  intros conn dofs Cdu Cdp z a linsolve l o b x ck V Ea Hc Hs Hl Hsafe L Eb Ex. rewrite (mt_new_ok _ _ _ _ z true V) in Ea. injection Ea as <-.
  apply (t_dofval_oob conn dofs Cdu Cdp z V linsolve Hc Hs); try assumption. now apply t_program, inv_new.
Qed.
Print Assumptions C113_dofval.

(** C113: what the matrix and the solver then contain.  After every program the dense form is the matrix assembled last among the arrays of
    the right shape (the others left no trace), and the solution for nodal values is that of the condensed system: it has the prescribed
    values, satisfies the tyings, and the reduced residual is zero *)
Theorem C113_dense : forall conn dofs Cdu Cdp z a linsolve program o, tied_mesh conn dofs Cdu Cdp z -> new_MatrixTyings_checked true conn dofs Cdu Cdp = Ok a ->
  nodes_exist conn z -> without_holes dofs z -> (forall m b, length (linsolve m b) = rows m) ->
  Forall (fun oc => any_order z (fst oc)) program -> Forall (fun oc => safe (cols Cdp) (rows Cdp) (snd oc)) program ->
  let st := program_t true linsolve program (a, new_Solver) in
  exists dn, run_tcall true linsolve o st (TDense [z_ndof z; z_ndof z]) = Ok (Some (Out2 dn), st) /\ is_dense (z_ndof z) dn (last_fitting conn dofs z program (fun _ _ => 0%R)).
Proof.
  intros conn dofs Cdu Cdp z a linsolve l o V Ea Hc Hh Hs Hl Hsafe. rewrite (mt_new_ok _ _ _ _ z true V) in Ea. injection Ea as <-.
  now apply (exact_dense conn dofs Cdu Cdp z V Hc Hh linsolve Hs).
Qed.
Print Assumptions C113_dense.
Theorem C113_solution : forall conn dofs Cdu Cdp z a linsolve program o b x, tied_mesh conn dofs Cdu Cdp z -> new_MatrixTyings_checked true conn dofs Cdu Cdp = Ok a ->
  nodes_exist conn z -> without_holes dofs z -> (forall m b, length (linsolve m b) = rows m) ->
  Forall (fun oc => any_order z (fst oc)) program -> any_order z o -> Forall (fun oc => safe (cols Cdp) (rows Cdp) (snd oc)) program ->
  let A := last_fitting conn dofs z program (fun _ _ => 0%R) in let nu := cols Cdu in let ni := nu + cols Cdp in let T := tie nu ni Cdu Cdp in
  solves_matrix linsolve nu (condensed (z_ndof z) T A) -> a_shape b = nodevec z -> a_shape x = nodevec z ->
  (forall m i n j, m < z_nnode z -> i < z_ndim z -> n < z_nnode z -> j < z_ndim z -> a_ent dofs [m; i] = a_ent dofs [n; j] -> a_ent b [m; i] = a_ent b [n; j] /\ a_ent x [m; i] = a_ent x [n; j]) ->
  exists y st' Y B, run_tcall true linsolve o (program_t true linsolve program (a, new_Solver)) (TSolve' b x) = Ok (Some (Out2 y), st') /\ shape2 y (z_nnode z) (z_ndim z) /\
    (forall m i, m < z_nnode z -> i < z_ndim z -> val2 y m i = Y (a_ent dofs [m; i]) /\ a_ent b [m; i] = B (a_ent dofs [m; i])) /\
    (forall m i, m < z_nnode z -> i < z_ndim z -> nu <= a_ent dofs [m; i] < ni -> val2 y m i = a_ent x [m; i]) /\
    (forall d, d < z_ndof z -> Y d = sumn ni (fun j => T d j * Y j)%R) /\
    (forall i, i < nu -> sumn (z_ndof z) (fun c => T c i * (mv (z_ndof z) A Y c - B c))%R = 0%R).
Proof.
  intros conn dofs Cdu Cdp z a linsolve l o b x V Ea Hc Hh Hs Hl O Hsafe. cbv zeta. rewrite (mt_new_ok _ _ _ _ z true V) in Ea. injection Ea as <-.
  now apply (exact_solve conn dofs Cdu Cdp z V Hc Hh linsolve Hs).
Qed.
Print Assumptions C113_solution.

(** a bar of two elements with one unknown, one prescribed and one dependent DOF: u_2 = u_0 *)
Example C113_ex_valid : tied_mesh bar_conn bar_dofs tCdu tCdp bar /\ nodes_exist bar_conn bar.
Proof.
  split; [constructor; try reflexivity; cbn; try lia; exists 2, 0; lia|]. intros e m He Hm. cbn in *. lia.
Qed.
Definition bar_program_t : list (schedule * tcall) := [(bar_order, TAssem (entries [2; 2; 2])); (bar_order, TAssem (entries [2; 2])); (bar_order, TDot (entries [3]) (entries [3])); (bar_order, TSolve' (entries [3]) (entries [4]))].
Example C113_ex : exists a, new_MatrixTyings_checked true bar_conn bar_dofs tCdu tCdp = Ok a /\
  let st := program_t true zeros bar_program_t (a, new_Solver) in
  (exists y st', run_tcall true zeros bar_order st (TSolve' (entries [3; 1]) (entries [3; 1])) = Ok (Some y, st') /\ out_shape y [3; 1]) /\
  (exists y st', run_tcall true zeros bar_order st (TSolve_u (entries [1]) (entries [1]) (entries [1]) (entries [1])) = Ok (Some y, st') /\ out_shape y [1]) /\
  run_tcall true zeros bar_order st (TSolve_u (entries [1]) (entries [2]) (entries [1]) (entries [1])) = Throw /\
  run_tcall true zeros bar_order st (TSolve' (entries [3; 1]) (entries [3])) = Throw.
Proof.
  destruct C113_ex_valid as [V Hc]. destruct (proj2 (proj1 (C113_build _ _ _ _)) (ex_intro _ _ V)) as [a Ea]. exists a. split; [exact Ea|]. cbv zeta.
  assert (P : Forall (fun oc => any_order bar (fst oc)) bar_program_t) by (repeat constructor; cbn [fst]; apply C94_ex_order).
  assert (Q : forall c, safe (cols tCdp) (rows tCdp) c) by (intros c; left; apply le_n).
  pose proof (fun c => C113_total_partial _ _ _ _ _ a zeros bar_program_t bar_order c V Ea Hc C98_ex_zeros P C94_ex_order (proj2 (Forall_forall _ _) (fun oc _ => Q (snd oc)))) as T. cbv zeta in T.
  split; [|split; [|split]].
  - destruct (T (TSolve' (entries [3; 1]) (entries [3; 1]))) as [H _]. destruct H as ([y|] & st' & E & _ & R); [right; now split|apply Q|eauto|destruct R].
  - destruct (T (TSolve_u (entries [1]) (entries [1]) (entries [1]) (entries [1]))) as [H _]. destruct H as ([y|] & st' & E & _ & R); [now repeat split|apply Q|eauto|destruct R].
  - destruct (T (TSolve_u (entries [1]) (entries [2]) (entries [1]) (entries [1]))) as [_ H]. apply H. cbn. intros (_ & F & _). discriminate.
  - destruct (T (TSolve' (entries [3; 1]) (entries [3]))) as [_ H]. apply H. cbn. intros [[F _]|[_ F]]; discriminate.
Qed.
(** what the throwing calls of that program leave: the matrix of the first *)
Example C113_ex_last : last_fitting bar_conn bar_dofs bar bar_program_t (fun _ _ => 0%R) = last_fitting bar_conn bar_dofs bar [(bar_order, TAssem (entries [2; 2; 2]))] (fun _ _ => 0%R) /\
  last_fitting bar_conn bar_dofs bar bar_program_t (fun _ _ => 0%R) 1 1 = 3%R.
Proof.
  split; [reflexivity|]. unfold last_fitting, bar_program_t. unfold entries; cbn [a_shape]; unfold elemmat; cbn [bar z_nelem z_nne z_ndim z_nnode Nat.mul Nat.add]. cbn [list_eq_dec list_rec list_rect Nat.eq_dec nat_rec nat_rect]. unfold assembled, sum_elem, sum_node, sumn, sumL, ind, idx2, val3, nth3, nth2. simpl. lra.
Qed.
(** accepted although a node of the connectivity does not exist; or more dependent than prescribed DOFs *)
Definition far_conn := mkArray [2; 2] (fun ix => match ix with [e; m] => e + m + 1 | _ => 0 end).
Definition dCdu := mkMat 2 1 (fun _ _ => 1%R).
Definition dCdp := mkMat 2 0 (fun _ _ => 0%R).
(** C113 as stated is false: it never accesses an array out of bounds with its assertions enabled *)
Theorem C113_refuted :
  (exists a, new_MatrixTyings_checked true far_conn bar_dofs tCdu tCdp = Ok a /\ run_tcall true zeros bar_order (a, new_Solver) (TAssem (entries [2; 2; 2])) = Oob) /\
  (exists a, new_MatrixTyings_checked true bar_conn bar_dofs dCdu dCdp = Ok a /\ run_tcall true zeros bar_order (a, new_Solver) (TSolve' (entries [3]) (entries [3])) = Oob).
Proof.
  split.
  - assert (V : tied_mesh far_conn bar_dofs tCdu tCdp bar) by (constructor; try reflexivity; cbn; try lia; exists 2, 0; lia).
    destruct (proj2 (proj1 (C113_build _ _ _ _)) (ex_intro _ _ V)) as [a Ea]. exists a. split; [exact Ea|].
    apply (C113_conn _ _ _ _ _ a zeros [] bar_order (entries [2; 2; 2]) 1 1 true V Ea); cbn; try reflexivity; lia.
  - assert (V : tied_mesh bar_conn bar_dofs dCdu dCdp bar) by (constructor; try reflexivity; cbn; try lia; exists 2, 0; lia).
    destruct (proj2 (proj1 (C113_build _ _ _ _)) (ex_intro _ _ V)) as [a Ea]. exists a. split; [exact Ea|].
    apply (C113_dofval _ _ _ _ _ a zeros [] bar_order _ _ true V Ea); try reflexivity; try (exact (Forall_nil _)); [exact (proj2 C113_ex_valid)|exact C98_ex_zeros|cbn; lia].
Qed.
Print Assumptions C113_refuted.
