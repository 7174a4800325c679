(** Proofs about the matrices in the checked build. *)
From Coq Require Import Reals Lra Lia.
From Verif Require Import Base Sums Spec Spec_Vector Spec_Matrix Model_Numbering Model_Vector Model_VectorPartitioned Model_Misc Model_Sparse Model_Matrix Model_MatrixPartitioned
  Proof_Numbering Proof_Misc Proof_Vector Proof_VectorPartitioned Proof_Matrix Proof_MatrixPartitioned Model_Checked Spec_Checked Proof_Checked Model_CheckedMatrix Spec_CheckedMatrix.

Lemma c_elemmat conn dofs z : valid_mesh conn dofs z -> shape_elemmat (the_vector conn dofs z) = elemmat z.
Proof. intros V. unfold shape_elemmat, elemmat. now rewrite (proj1 (c_sizes conn dofs z V)). Qed.

Lemma ndof_pos conn dofs z : valid_mesh conn dofs z -> 1 <= z_ndof z.
Proof. intros V. destruct (vm_last _ _ _ V) as [n [i [_ [_ E]]]]. lia. Qed.

(** the arguments of [set] and [add] *)
Lemma block_fits {A} ck z rs cs m (k : list nat -> list nat -> list (list R) -> res A) : 1 <= z_ndof z -> fits_block z rs cs m ->
  exists r c x, block_args ck (z_ndof z) rs cs m k = k r c x /\ (forall d, In d r \/ In d c -> d < z_ndof z) /\ shape2 x (length r) (length c) /\
    (r, c, x) = (rows1 (hd 0 (a_shape rs)) rs, rows1 (hd 0 (a_shape cs)) cs, rows2 (hd 0 (a_shape rs)) (hd 0 (a_shape cs)) m).
Proof.
  intros P [nr [nc [Er [Ec [Em [Hr Hc]]]]]]. unfold block_args. rewrite Er, Ec, Em. cbn [hd]. rewrite !Nat.eqb_refl, !assert_true.
  assert (Ar : forall d, In d (rows1 nr rs) -> d < z_ndof z) by (intros d H; apply in_rows1 in H; destruct H as [i [Hi <-]]; auto).
  assert (Ac : forall d, In d (rows1 nc cs) -> d < z_ndof z) by (intros d H; apply in_rows1 in H; destruct H as [i [Hi <-]]; auto).
  assert (E1 : (amax (rows1 nc cs) <? z_ndof z) = true). { apply Nat.ltb_lt. enough (amax (rows1 nc cs) <= z_ndof z - 1) by lia. apply amax_lub. intros x Hx. apply Ac in Hx. lia. }
  assert (E2 : (amax (rows1 nr rs) <? z_ndof z) = true). { apply Nat.ltb_lt. enough (amax (rows1 nr rs) <= z_ndof z - 1) by lia. apply amax_lub. intros x Hx. apply Ar in Hx. lia. }
  rewrite E1, E2, !assert_true. do 3 eexists. split; [reflexivity|]. split; [intros d [H|H]; auto|]. split; [|reflexivity]. rewrite !rows1_length. apply rows2_shape.
Qed.
Lemma block_throws {A} z rs cs m (k : list nat -> list nat -> list (list R) -> res A) : ~ fits_block z rs cs m -> block_args true (z_ndof z) rs cs m k = Throw.
Proof.
  intros H. unfold block_args. destruct (a_shape rs) as [|nr [|]] eqn:Er; try reflexivity. destruct (a_shape cs) as [|nc [|]] eqn:Ec; try reflexivity. destruct (a_shape m) as [|mr [|mc [|]]] eqn:Em; try reflexivity.
  apply assert_throw. intros E1. apply assert_throw. intros E2. apply assert_throw. intros E3. apply assert_throw. intros E4. exfalso. apply H.
  apply Nat.eqb_eq in E1, E2. apply Nat.ltb_lt in E3, E4. subst mr mc. exists nr, nc. repeat split; try assumption.
  - intros i Hi. apply Nat.le_lt_trans with (amax (rows1 nr rs)); [|exact E4]. apply amax_ge. apply in_rows1. eauto.
  - intros i Hi. apply Nat.le_lt_trans with (amax (rows1 nc cs)); [|exact E3]. apply amax_ge. apply in_rows1. eauto.
Qed.
Lemma assemble_fits {A} ck z K (k : list (list (list R)) -> res A) : a_shape K = elemmat z -> assemble_arg ck (elemmat z) K k = k (rows3 (z_nelem z) (z_nne z * z_ndim z) (z_nne z * z_ndim z) K).
Proof. intros E. unfold assemble_arg. now rewrite E, has_shape_refl, assert_true. Qed.
Lemma assemble_throws {A} z K (k : list (list (list R)) -> res A) : a_shape K <> elemmat z -> assemble_arg true (elemmat z) K k = Throw.
Proof. intros E. unfold assemble_arg. now rewrite (has_shape_neq _ _ E). Qed.


Section M.
Variables conn dofs : array nat.
Variable z : sizes.
Hypothesis V : valid_mesh conn dofs z.
Let v := the_vector conn dofs z.
Let Hm := c_mesh conn dofs z V.
Variable linsolve : mat -> list R -> list R.
Hypothesis Hsolve : forall a b, length (linsolve a b) = rows a.

Definition solver_ok (n : nat) (s : Solver) : Prop := (S_data s = None -> S_factor s = true) /\ (forall m, S_data s = Some m -> rows m = n).
Lemma factorize_ok n ch m s : rows m = n -> solver_ok n s -> solver_ok n (factorize ch m s) /\ exists m', S_data (factorize ch m s) = Some m' /\ rows m' = n.
Proof.
  intros Hr [F1 F2]. unfold factorize. destruct (negb ch && negb (S_factor s))%bool eqn:E.
  - split; [split; assumption|]. apply andb_true_iff in E. destruct E as [_ E]. destruct (S_data s) as [m'|] eqn:D; [eauto|]. rewrite (F1 eq_refl) in E. discriminate.
  - split; [split; cbn; [discriminate|]; intros m' Em; injection Em as <-; exact Hr|]. cbn. eauto.
Qed.
Lemma S_solve_ok n ch m s b : rows m = n -> solver_ok n s -> length b = n -> exists x, S_solve linsolve (factorize ch m s) b = Ok x /\ length x = n.
Proof using Hsolve.
  intros Hr F L. destruct (proj2 (factorize_ok n ch m s Hr F)) as [m' [E R']]. exists (linsolve m' b). unfold S_solve. rewrite E, L, R', Nat.eqb_refl. split; [reflexivity|]. now rewrite Hsolve.
Qed.

Definition m_inv (st : Matrix * Solver) : Prop := M_v (fst st) = v /\ rows (M_A (fst st)) = z_ndof z /\ cols (M_A (fst st)) = z_ndof z /\ solver_ok (z_ndof z) (snd st).
Lemma m_inv_new ck a : new_Matrix_checked ck conn dofs = Ok a -> m_inv (a, new_Solver).
Proof using V.
  unfold new_Matrix_checked. rewrite (new_ok _ _ _ _ V). cbn [bind]. intros E. injection E as <-. pose proof (vector_ndof conn dofs z V) as Z. split; [reflexivity|]. split; [exact Z|]. split; [exact Z|]. split; [reflexivity|discriminate].
Qed.

Lemma m_fits o st c : any_order z o -> m_inv st -> fits z c -> exists r st', (forall ck, run_mcall ck linsolve o st c = Ok (r, st')) /\ has_returned r (returned z c) /\ m_inv st'.
Proof using V Hsolve Hm.
  intros O [Hv [Hr [Hc Hs]]] F. destruct st as [a s]. cbn [fst snd] in *. unfold run_mcall. cbv zeta. rewrite Hv. unfold v. rewrite (c_elemmat conn dofs z V), (c_dofval conn dofs z V), (c_nodevec conn dofs z V), (vector_ndof conn dofs z V). fold v.
  destruct c as [K|rs cs m|rs cs m|ret|x b|b x]; cbn [fits returned] in *.
  - destruct (assemble_spec v (z_nelem z) (z_nne z) (z_nnode z) (z_ndim z) (z_ndof z) eq_refl eq_refl Hm a _ Hv (rows3_shape (z_nelem z) (z_nne z * z_ndim z) (z_nne z * z_ndim z) K)) as [a' [E [Hv' [_ [Hr' [Hc' _]]]]]].
    exists None, (a', s). split; [|split; [exact I|repeat split; assumption || apply Hs]]. intros ck. rewrite assemble_fits by exact F. now rewrite E.
  - pose proof (fun ck => block_fits ck z rs cs m (fun rs0 cs0 m0 => do a' <- M_set a rs0 cs0 m0; Ok (@None output, (a', s))) (ndof_pos _ _ _ V) F) as B.
    destruct (B true) as [r [c [x [_ [Hd [Sx Ex]]]]]].
    destruct (set_spec v (z_nelem z) (z_nne z) (z_nnode z) (z_ndim z) (z_ndof z) eq_refl eq_refl Hm a _ _ _ Hv Hd Sx) as [a' [E [Hv' [_ [Hr' [Hc' _]]]]]].
    exists None, (a', s). split; [|split; [exact I|repeat split; assumption || apply Hs]]. intros ck. destruct (B ck) as [r' [c' [x' [-> [_ [_ Ex']]]]]]. rewrite <- Ex' in Ex. injection Ex as -> -> ->. now rewrite E.
  - pose proof (fun ck => block_fits ck z rs cs m (fun rs0 cs0 m0 => do a' <- M_add a rs0 cs0 m0; Ok (@None output, (a', s))) (ndof_pos _ _ _ V) F) as B.
    destruct (B true) as [r [c [x [_ [Hd [Sx Ex]]]]]].
    destruct (add_spec v (z_nelem z) (z_nne z) (z_nnode z) (z_ndim z) (z_ndof z) eq_refl eq_refl Hm a _ _ _ Hv Hr Hc Hd Sx) as [a' [E [Hv' [_ [Hr' [Hc' _]]]]]].
    exists None, (a', s). split; [|split; [exact I|repeat split; assumption || apply Hs]]. intros ck. destruct (B ck) as [r' [c' [x' [-> [_ [_ Ex']]]]]]. rewrite <- Ex' in Ex. injection Ex as -> -> ->. now rewrite E.
  - destruct (todense_spec v (z_nelem z) (z_nne z) (z_nnode z) (z_ndim z) (z_ndof z) eq_refl eq_refl Hm a Hv Hr Hc) as [dn [E [Sd _]]].
    exists (Some (Out2 dn)), (a, s). split; [|split; [exact Sd|repeat split; assumption || apply Hs]]. intros ck. rewrite F, has_shape_refl, assert_true. unfold with_out. now rewrite E.
  - destruct F as [[Ex Eb]|[Ex Eb]]; rewrite Ex, Eb.
    + destruct (dot_dofval_spec v (z_nelem z) (z_nne z) (z_nnode z) (z_ndim z) (z_ndof z) eq_refl eq_refl Hm a (rows1 (z_ndof z) x) Hv Hr Hc (rows1_length _ _)) as [y [E [L _]]].
      exists (Some (Out1 y)), (a, s). split; [|split; [exact L|repeat split; assumption || apply Hs]]. intros ck. cbn [dofval]. rewrite !has_shape_refl, !assert_true. unfold with_out. now rewrite E.
    + destruct (AsDofs_nodevec_any v (z_nelem z) (z_nne z) (z_nnode z) (z_ndim z) (z_ndof z) eq_refl eq_refl Hm (s_node o) _ (c_node conn dofs z V o O) (rows2_shape (z_nnode z) (z_ndim z) x)) as [d [Ed [Ld _]]].
      destruct (mulvec_spec (M_A a) d) as [y [Ey [Ly _]]]; [congruence|].
      destruct (AsNode_dofval_spec v (z_nelem z) (z_nne z) (z_nnode z) (z_ndim z) (z_ndof z) eq_refl eq_refl Hm y) as [w [Ew [Sw _]]]; [congruence|].
      exists (Some (Out2 w)), (a, s). split; [|split; [exact Sw|repeat split; assumption || apply Hs]]. intros ck. cbn [nodevec]. rewrite !has_shape_refl, !assert_true. unfold with_out, M_dot_nodevec. rewrite Hv, Ed. cbn [bind]. rewrite Ey. cbn [bind]. now rewrite Ew.
  - pose proof (proj1 (factorize_ok (z_ndof z) (M_changed a) (M_A a) s Hr Hs)) as Hs'. destruct F as [[Ex Eb]|[Ex Eb]]; rewrite Ex, Eb.
    + destruct (S_solve_ok (z_ndof z) (M_changed a) (M_A a) s (rows1 (z_ndof z) b) Hr Hs (rows1_length _ _)) as [y [E L]].
      do 2 eexists. split; [intros ck; cbn [dofval]; rewrite !has_shape_refl, !assert_true; unfold MS_solve_dofval; rewrite E; cbn [bind fst snd]; reflexivity|]. split; [exact L|]. repeat split; try assumption; apply Hs'.
    + destruct (AsDofs_nodevec_any v (z_nelem z) (z_nne z) (z_nnode z) (z_ndim z) (z_ndof z) eq_refl eq_refl Hm (s_node o) _ (c_node conn dofs z V o O) (rows2_shape (z_nnode z) (z_ndim z) b)) as [d [Ed [Ld _]]].
      destruct (S_solve_ok (z_ndof z) (M_changed a) (M_A a) s d Hr Hs Ld) as [y [E L]].
      destruct (AsNode_dofval_spec v (z_nelem z) (z_nne z) (z_nnode z) (z_ndim z) (z_ndof z) eq_refl eq_refl Hm y L) as [w [Ew [Sw _]]].
      do 2 eexists. split; [intros ck; cbn [nodevec]; rewrite !has_shape_refl, !assert_true; unfold MS_solve_nodevec; rewrite Hv, Ed; cbn [bind]; rewrite E; cbn [bind]; rewrite Ew; cbn [bind fst snd]; reflexivity|]. split; [exact Sw|]. repeat split; try assumption; apply Hs'.
Qed.

Lemma m_throws o st c : m_inv st -> ~ fits z c -> run_mcall true linsolve o st c = Throw.
Proof using V.
  intros [Hv _] F. destruct st as [a s]. cbn [fst snd] in *. unfold run_mcall. cbv zeta. rewrite Hv. unfold v. rewrite (c_elemmat conn dofs z V), (c_dofval conn dofs z V), (c_nodevec conn dofs z V), (vector_ndof conn dofs z V). fold v.
  destruct c as [K|rs cs m|rs cs m|ret|x b|b x]; cbn [fits] in *.
  - now apply assemble_throws.
  - now apply block_throws.
  - now apply block_throws.
  - now rewrite (has_shape_neq _ _ F).
  - unfold fits_two in F. destruct (a_shape x) as [|n [|d [|]]], (a_shape b) as [|n' [|d' [|]]]; try reflexivity; apply assert_throw; intros E1; apply assert_throw; intros E2; apply has_shape_eq in E1, E2; exfalso; apply F; [left|right]; now split.
  - unfold fits_two in F. destruct (a_shape b) as [|n [|d [|]]], (a_shape x) as [|n' [|d' [|]]]; try reflexivity; apply assert_throw; intros E1; apply assert_throw; intros E2; apply has_shape_eq in E1, E2; exfalso; apply F; [left|right]; now split.
Qed.
End M.

Lemma assert_cases {A} ck c (k : res A) (x : A) : k = Ok x \/ k = Throw -> assert ck c k = Ok x \/ assert ck c k = Throw.
Proof. unfold assert. destruct (_ && _)%bool; auto. Qed.
Lemma shape_dec (s t : list nat) : s = t \/ s <> t.
Proof. destruct (list_eq_dec Nat.eq_dec s t); auto. Qed.
Lemma fits_block_dec z rs cs m : 1 <= z_ndof z -> fits_block z rs cs m \/ ~ fits_block z rs cs m.
Proof.
  intros P. assert (E : block_args true (z_ndof z) rs cs m (fun _ _ _ => Ok tt) = Ok tt \/ block_args true (z_ndof z) rs cs m (fun _ _ _ => Ok tt) = Throw).
  { unfold block_args. destruct (a_shape rs) as [|nr [|]]; auto. destruct (a_shape cs) as [|nc [|]]; auto. destruct (a_shape m) as [|mr [|mc [|]]]; auto. repeat apply assert_cases. now left. }
  destruct E as [E|E].
  - left. unfold block_args in E. destruct (a_shape rs) as [|nr [|]] eqn:Er; try discriminate. destruct (a_shape cs) as [|nc [|]] eqn:Ec; try discriminate. destruct (a_shape m) as [|mr [|mc [|]]] eqn:Em; try discriminate.
    apply assert_ok in E. destruct E as [E E1]. apply assert_ok in E. destruct E as [E E2]. apply assert_ok in E. destruct E as [E E3]. apply assert_ok in E. destruct E as [E E4].
    apply Nat.eqb_eq in E1, E2. apply Nat.ltb_lt in E3, E4. subst mr mc. exists nr, nc. repeat split; try assumption.
    + intros i Hi. apply Nat.le_lt_trans with (amax (rows1 nr rs)); [|exact E4]. apply amax_ge. apply in_rows1. eauto.
    + intros i Hi. apply Nat.le_lt_trans with (amax (rows1 nc cs)); [|exact E3]. apply amax_ge. apply in_rows1. eauto.
  - right. intros H. destruct (block_fits true z rs cs m (fun _ _ _ => Ok tt) P H) as [? [? [? [E' _]]]]. congruence.
Qed.
Lemma fits_two_dec z x y : fits_two z x y \/ ~ fits_two z x y.
Proof. unfold fits_two. destruct (shape_dec (a_shape x) (dofval z)), (shape_dec (a_shape y) (dofval z)), (shape_dec (a_shape x) (nodevec z)), (shape_dec (a_shape y) (nodevec z)); tauto. Qed.
Lemma fits_dec z c : 1 <= z_ndof z -> fits z c \/ ~ fits z c.
Proof. intros P. destruct c; cbn [fits]; auto using shape_dec, fits_block_dec, fits_two_dec. Qed.
Lemma fits_p_dec z nu np c : 1 <= z_ndof z -> fits_p z nu np c \/ ~ fits_p z nu np c.
Proof.
  intros P. destruct c as [c|x b|xu xp bp|bu xp xu]; cbn [fits_p]; auto using fits_dec, fits_two_dec.
  - destruct (shape_dec (a_shape xu) [nu]), (shape_dec (a_shape xp) [np]), (shape_dec (a_shape bp) [np]); tauto.
  - destruct (shape_dec (a_shape bu) [nu]), (shape_dec (a_shape xp) [np]), (shape_dec (a_shape xu) [nu]); tauto.
Qed.

Lemma m_program conn dofs z linsolve : valid_mesh conn dofs z -> (forall a b, length (linsolve a b) = rows a) ->
  forall l st, Forall (fun oc => any_order z (fst oc)) l -> m_inv conn dofs z st -> m_inv conn dofs z (program_m true linsolve l st).
Proof.
  intros V Hs. unfold program_m. induction l as [|[o c] l IH]; intros st F H; [exact H|]. cbn [fold_left]. apply Forall_cons_iff in F. destruct F as [O F]. apply IH; [exact F|]. cbn [fst snd] in *. unfold caught.
  destruct (fits_dec z c (ndof_pos _ _ _ V)) as [Q|Q].
  - destruct (m_fits conn dofs z V linsolve Hs o st c O H Q) as [r [st' [E [_ H']]]]. now rewrite E.
  - now rewrite (m_throws conn dofs z V linsolve o st c H Q).
Qed.

Section P.
Variables conn dofs iip : array nat.
Variable z : sizes.
Variable n : nat.
Hypothesis V : valid_mesh conn dofs z.
Hypothesis I : valid_iip iip z n.
Hypothesis W : without_holes dofs z.
Let v := the_vector conn dofs z.
Let ii := rows1 n iip.
Let Hm := c_mesh conn dofs z V.
Let Hp := p_prescribed iip z n I.
Variable linsolve : mat -> list R -> list R.
Hypothesis Hsolve : forall a b, length (linsolve a b) = rows a.

Lemma p_holes : no_holes (m_dofs v) (z_ndof z).
Proof using W. intros d Hd. destruct (W d Hd) as [m [i [A [B E]]]]. unfold v. cbn [the_vector m_dofs]. apply in_rows2. eauto. Qed.
Let Hh := p_holes.
Notation is := (mp_is v (z_ndof z) ii).

Lemma p_matrix ck : exists a, new_MatrixPartitioned_checked ck conn dofs iip = Ok a /\ new_MatrixPartitioned v ii = Ok a /\ is a (fun _ _ => 0%R).
Proof.
  destruct (mp_new v (z_nelem z) (z_nne z) (z_nnode z) (z_ndim z) (z_ndof z) eq_refl eq_refl Hm ii Hp Hh) as [a [E [H _]]]. exists a. split; [|split; assumption].
  unfold new_MatrixPartitioned_checked. rewrite (vm_conn _ _ _ V), (vm_dofs _ _ _ V), (proj1 I). cbv zeta. fold ii. change (mkVector (rows2 (z_nelem z) (z_nne z) conn) (z_nne z) (rows2 (z_nnode z) (z_ndim z) dofs) (z_ndim z)) with v.
  rewrite (proj2 (is_unique_spec ii) (p_NoDup iip z n I)), (proj2 (is_unique_spec (setdiff1d (concat (m_dofs v)) ii)) (setdiff1d_NoDup _ _)), !assert_true.
  pose proof (vector_ndof conn dofs z V) as Q. fold v in Q.
  assert (E1 : (amax (concat (m_conn v)) + 1 <=? z_nnode z) = true).
  { pose proof (new_ok true conn dofs z V) as N. unfold new_Vector in N. rewrite (vm_conn _ _ _ V), (vm_dofs _ _ _ V) in N. cbv zeta in N. apply assert_ok in N. exact (proj2 N). }
  assert (E2 : (m_ndof v <=? z_nnode z * z_ndim z) = true).
  { pose proof (new_ok true conn dofs z V) as N. unfold new_Vector in N. rewrite (vm_conn _ _ _ V), (vm_dofs _ _ _ V) in N. cbv zeta in N. apply assert_ok in N. destruct N as [N _]. apply assert_ok in N. exact (proj2 N). }
  assert (E3 : (amax ii <=? amax (concat (m_dofs v))) = true).
  { apply Nat.leb_le. apply amax_lub. intros x Hx. apply Hp in Hx. unfold m_ndof in Q. lia. }
  now rewrite E1, E2, E3, !assert_true.
Qed.

Definition p_inv (st : MatrixPartitioned * Solver) : Prop := (exists B, is (fst st) B) /\ solver_ok (m_nnu (MP_p (fst st))) (snd st).
Lemma p_inv_sizes st : p_inv st -> let p := MP_p (fst st) in new_VectorPartitioned v ii = Ok p /\ vp_v p = v /\ m_nnu p = length (setdiff1d (concat (m_dofs v)) ii) /\ m_nnp p = n.
Proof using V I Hm Hp.
  intros [[B [[Ep _] _]] _]. split; [exact Ep|]. split; [exact (proj1 (vp_facts v (z_nelem z) (z_nne z) (z_nnode z) (z_ndim z) (z_ndof z) eq_refl eq_refl Hm ii Hp _ Ep))|]. split; [exact (p_nnu conn dofs iip z n V I _ Ep)|exact (p_nnp conn dofs iip z n V I _ Ep)].
Qed.

Lemma out1_inv x y : out1 x = Ok (Out1 y) -> x = Ok y.
Proof. unfold out1. destruct x; cbn; intros E; inversion E; reflexivity. Qed.
Lemma sel_nodevec p o x : any_order z o -> new_VectorPartitioned v ii = Ok p -> exists xu xp, AsDofs_u_nodevec p (s_node o) (rows2 (z_nnode z) (z_ndim z) x) = Ok xu /\ AsDofs_p_nodevec p (s_node o) (rows2 (z_nnode z) (z_ndim z) x) = Ok xp /\
  length xu = m_nnu p /\ length xp = m_nnp p.
Proof using V I.
  intros O Ep. set (y := mkArray (nodevec z) (a_ent x)). assert (S : In (a_shape y) [dofval z; nodevec z; elemvec z]) by (right; now left).
  destruct (p_select conn dofs iip z n V I p Ep o O false true y S) as [xu [Eu Lu]]. destruct (p_select conn dofs iip z n V I p Ep o O false false y S) as [xp [Eq Lq]].
  unfold P_select in Eu, Eq. cbn [y a_shape nodevec] in Eu, Eq. apply out1_inv in Eu, Eq. exists xu, xp. split; [exact Eu|]. split; [exact Eq|]. split; [exact Lu|]. rewrite Lq. symmetry. exact (p_nnp conn dofs iip z n V I p Ep).
Qed.
Lemma sel_dofval p x : new_VectorPartitioned v ii = Ok p -> length x = z_ndof z -> exists xu xp, AsDofs_u_dofval p x = Ok xu /\ AsDofs_p_dofval p x = Ok xp /\ length xu = m_nnu p /\ length xp = m_nnp p.
Proof using V I Hm Hp.
  intros Ep L. destruct (select_spec v (z_nelem z) (z_nne z) (z_nnode z) (z_ndim z) (z_ndof z) eq_refl eq_refl Hm ii Hp p Ep x L) as [xu [xp [E1 [E2 [L1 [L2 _]]]]]].
  exists xu, xp. split; [exact E1|]. split; [exact E2|]. split; [rewrite L1; symmetry; exact (p_nnu conn dofs iip z n V I p Ep)|]. rewrite L2. symmetry. rewrite (p_nnp conn dofs iip z n V I p Ep). unfold ii. now rewrite rows1_length.
Qed.
Lemma B_any a B xu xp : is a B -> length xu = m_nnu (MP_p a) -> length xp = m_nnp (MP_p a) ->
  exists bu bp, B_u a xu xp = Ok bu /\ B_p a xu xp = Ok bp /\ length bu = m_nnu (MP_p a) /\ length bp = m_nnp (MP_p a).
Proof using V I Hm Hp.
  intros [[Ep _] [[[S1 [S2 [S3 S4]]] [S5 [S6 [S7 S8]]]] _ _ _ _]] Lu Lp. assert (N : length (setdiff1d (concat (m_dofs v)) ii) = m_nnu (MP_p a)) by (symmetry; exact (p_nnu conn dofs iip z n V I _ Ep)). rewrite N in *.
  assert (E : length ii = m_nnp (MP_p a)) by (rewrite (p_nnp conn dofs iip z n V I _ Ep); apply rows1_length). rewrite E in *.
  destruct (mulvec_spec (A_uu a) xu) as [y1 [E1 [L1 _]]]; [congruence|]. destruct (mulvec_spec (A_up a) xp) as [y2 [E2 [L2 _]]]; [congruence|].
  destruct (mulvec_spec (A_pu a) xu) as [y3 [E3 [L3 _]]]; [congruence|]. destruct (mulvec_spec (A_pp a) xp) as [y4 [E4 [L4 _]]]; [congruence|].
  unfold B_u, B_p. rewrite E1, E2, E3, E4. cbn [bind].
  destruct (vec2_spec Rplus y1 y2 (m_nnu (MP_p a))) as [bu [Eu [Lbu _]]]; [congruence|congruence|].
  destruct (vec2_spec Rplus y3 y4 (m_nnp (MP_p a))) as [bp [Eq [Lbp _]]]; [congruence|congruence|]. exists bu, bp. auto.
Qed.
Lemma write_u_any p val b : new_VectorPartitioned v ii = Ok p -> length b = z_ndof z -> length val = m_nnu p -> exists y, (do w <- index_writes (m_iiu p) val; write_all b w) = Ok y /\ length y = z_ndof z.
Proof using V I Hm Hp Hh.
  intros Ep Lb Lv. destruct (vp_facts v (z_nelem z) (z_nne z) (z_nnode z) (z_ndim z) (z_ndof z) eq_refl eq_refl Hm ii Hp p Ep) as [_ [E1 _]]. unfold m_nnu in Lv. rewrite E1 in *.
  destruct (write_index (setdiff1d (concat (m_dofs v)) ii) val b (z_ndof z)) as [y [W' [Ly _]]]; [exact Lb|apply setdiff1d_NoDup|exact (iiu_bound v (z_nelem z) (z_nne z) (z_nnode z) (z_ndim z) (z_ndof z) eq_refl eq_refl Hm ii Hp Hh)|exact Lv|]. eauto.
Qed.
Lemma write_p_any p val b : new_VectorPartitioned v ii = Ok p -> length b = z_ndof z -> length val = m_nnp p -> exists y, (do w <- index_writes (m_iip p) val; write_all b w) = Ok y /\ length y = z_ndof z.
Proof using V I Hm Hp Hh.
  intros Ep Lb Lv. destruct (vp_facts v (z_nelem z) (z_nne z) (z_nnode z) (z_ndim z) (z_ndof z) eq_refl eq_refl Hm ii Hp p Ep) as [_ [_ [E1 _]]]. unfold m_nnp in Lv. rewrite E1 in *.
  destruct (write_index ii val b (z_ndof z)) as [y [W' [Ly _]]]; [exact Lb|apply Hp|apply Hp|exact Lv|]. eauto.
Qed.
Lemma fill_any (f : nat -> nat -> res R) : (forall m i, m < z_nnode z -> i < z_ndim z -> exists x, f m i = Ok x) -> exists y, fill2 (m_nnode v) (m_ndim v) f = Ok y /\ shape2 y (z_nnode z) (z_ndim z).
Proof using V.
  intros H. pose proof (proj1 (proj2 (c_sizes conn dofs z V))) as N. fold v in N. rewrite N. change (m_ndim v) with (z_ndim z).
  rewrite (fill2_Ok _ _ _ (fun m i => match f m i with Ok x => x | _ => 0%R end)).
  - eexists. split; [reflexivity|apply tab2_shape].
  - intros m i A B. destruct (H m i A B) as [x E]. now rewrite E.
Qed.
Lemma sub_any a B bu xp s : is a B -> length bu = m_nnu (MP_p a) -> length xp = m_nnp (MP_p a) -> solver_ok (m_nnu (MP_p a)) s ->
  exists t r x, mulvec (A_up a) xp = Ok t /\ subvec bu t = Ok r /\ S_solve linsolve (factorize (MP_changed a) (A_uu a) s) r = Ok x /\ length x = m_nnu (MP_p a).
Proof using V I Hm Hp Hsolve.
  intros [[Ep _] [[[S1 [S2 [S3 S4]]] _] _ _ _ _]] Lu Lp Hs. assert (N : length (setdiff1d (concat (m_dofs v)) ii) = m_nnu (MP_p a)) by (symmetry; exact (p_nnu conn dofs iip z n V I _ Ep)). rewrite N in *.
  assert (E : length ii = m_nnp (MP_p a)) by (rewrite (p_nnp conn dofs iip z n V I _ Ep); apply rows1_length). rewrite E in *.
  destruct (mulvec_spec (A_up a) xp) as [t [Et [Lt _]]]; [congruence|]. destruct (vec2_spec Rminus bu t (m_nnu (MP_p a))) as [r [Er [Lr _]]]; [congruence|congruence|].
  destruct (S_solve_ok linsolve Hsolve (m_nnu (MP_p a)) (MP_changed a) (A_uu a) s r S1 Hs Lr) as [x [Ex Lx]]. exists t, r, x. auto.
Qed.
Lemma part_any p (f : nat -> nat -> nat -> res R) m i : new_VectorPartitioned v ii = Ok p -> (forall k, k < m_nnu p + m_nnp p -> exists x, f k m i = Ok x) -> m < z_nnode z -> i < z_ndim z ->
  exists x, (do k <- get2 (m_part p) m i; f k m i) = Ok x.
Proof using V I.
  intros Ep Hf A B. destruct (p_part conn dofs iip z n V I p Ep m i A B) as [-> L]. cbn [bind]. now apply Hf.
Qed.

Lemma p_fits o st c : any_order z o -> p_inv st -> let nu := length (setdiff1d (concat (m_dofs v)) ii) in
  fits_p z nu n c -> exists r st', (forall ck, run_pcall ck linsolve o st c = Ok (r, st')) /\ has_returned r (returned_p z nu n c) /\ p_inv st'.
Proof using V I W Hm Hp Hh Hsolve.
  intros O H nu F. destruct (p_inv_sizes st H) as [Ep [Ev [Eu En]]]. fold nu in Eu. destruct st as [a s]. cbn [fst snd] in *. destruct H as [[B HB] Hs]. cbn [fst snd] in *.
  unfold run_pcall. cbv zeta. rewrite Ev, Eu, En. unfold v. rewrite (c_elemmat conn dofs z V), (c_dofval conn dofs z V), (c_nodevec conn dofs z V), (vector_ndof conn dofs z V). fold v.
  assert (K0 : p_inv (a, s)) by (split; [now exists B|exact Hs]).
  assert (S1 : rows (A_uu a) = m_nnu (MP_p a)). { destruct HB as [_ [[[T _] _] _ _ _ _]]. rewrite T. symmetry. exact Eu. }
  assert (Ks : p_inv (mkMP (MP_p a) (MP_part1d a) (A_uu a) (A_up a) (A_pu a) (A_pp a) (changed_after (MP_changed a) s), factorize (MP_changed a) (A_uu a) s)).
  { split; [exists B; exact HB|]. cbn [fst snd MP_p]. exact (proj1 (factorize_ok (m_nnu (MP_p a)) (MP_changed a) (A_uu a) s S1 Hs)). }
  assert (G : forall (l : list R) k m, length l = m -> k < m -> exists x, get l k = Ok x) by (intros l k m L Hk; exists (nth k l 0%R); apply get_nth; lia).
  assert (G2 : forall (x : array R) m i, m < z_nnode z -> i < z_ndim z -> exists y, get2 (rows2 (z_nnode z) (z_ndim z) x) m i = Ok y).
  { intros x m i A C. exists (val2 (rows2 (z_nnode z) (z_ndim z) x) m i). apply (get2_nth 0%R _ (z_nnode z) (z_ndim z)); [apply rows2_shape|exact A|exact C]. }
  assert (U : forall a', (exists C, is a' C) -> p_inv (a', s)).
  { intros a' [C HC]. split; [now exists C|]. cbn [fst snd]. destruct HC as [[Ep' _] _]. rewrite Ep in Ep'. injection Ep' as <-. exact Hs. }
  destruct c as [[K|rs cs m|rs cs m|ret|x b|b x]|x b|xu xp bp|bu xp xu]; cbn [fits_p fits returned_p returned] in *.
  - destruct (mp_assemble v (z_nelem z) (z_nne z) (z_nnode z) (z_ndim z) (z_ndof z) eq_refl eq_refl Hm ii Hp Hh a B _ HB (rows3_shape (z_nelem z) (z_nne z * z_ndim z) (z_nne z * z_ndim z) K)) as [a' [E [H' _]]].
    exists None, (a', s). split; [|split; [exact Logic.I|apply U; eauto]]. intros ck. rewrite assemble_fits by exact F. now rewrite E.
  - pose proof (fun ck => block_fits ck z rs cs m (fun rs0 cs0 m0 => do a' <- MP_set a rs0 cs0 m0; Ok (@None output, (a', s))) (ndof_pos _ _ _ V) F) as BF.
    destruct (BF true) as [r [c [x [_ [Hd [Sx Ex]]]]]].
    destruct (mp_set v (z_nelem z) (z_nne z) (z_nnode z) (z_ndim z) (z_ndof z) eq_refl eq_refl Hm ii Hp Hh a B _ _ _ HB Hd Sx) as [a' [E [H' _]]].
    exists None, (a', s). split; [|split; [exact Logic.I|apply U; eauto]]. intros ck. destruct (BF ck) as [r' [c' [x' [-> [_ [_ Ex']]]]]]. rewrite <- Ex' in Ex. injection Ex as -> -> ->. now rewrite E.
  - pose proof (fun ck => block_fits ck z rs cs m (fun rs0 cs0 m0 => do a' <- MP_add a rs0 cs0 m0; Ok (@None output, (a', s))) (ndof_pos _ _ _ V) F) as BF.
    destruct (BF true) as [r [c [x [_ [Hd [Sx Ex]]]]]].
    destruct (mp_add v (z_nelem z) (z_nne z) (z_nnode z) (z_ndim z) (z_ndof z) eq_refl eq_refl Hm ii Hp Hh a B _ _ _ HB Hd Sx) as [a' [E [H' _]]].
    exists None, (a', s). split; [|split; [exact Logic.I|apply U; eauto]]. intros ck. destruct (BF ck) as [r' [c' [x' [-> [_ [_ Ex']]]]]]. rewrite <- Ex' in Ex. injection Ex as -> -> ->. now rewrite E.
  - destruct (mp_todense v (z_nelem z) (z_nne z) (z_nnode z) (z_ndim z) (z_ndof z) eq_refl eq_refl Hm ii Hp Hh a B HB) as [dn [E [Sd _]]].
    exists (Some (Out2 dn)), (a, s). split; [|split; [exact Sd|exact K0]]. intros ck. rewrite F, has_shape_refl, assert_true. unfold with_out. now rewrite E.
  - destruct F as [[Ex Eb]|[Ex Eb]]; rewrite Ex, Eb.
    + destruct (mp_dot_dofval v (z_nelem z) (z_nne z) (z_nnode z) (z_ndim z) (z_ndof z) eq_refl eq_refl Hm ii Hp Hh a B (rows1 (z_ndof z) x) (rows1 (z_ndof z) b) HB (rows1_length _ _) (rows1_length _ _)) as [y [E [L _]]].
      exists (Some (Out1 y)), (a, s). split; [|split; [exact L|exact K0]]. intros ck. cbn [dofval]. rewrite !has_shape_refl, !assert_true. unfold with_out. now rewrite E.
    + destruct (sel_nodevec (MP_p a) o x O Ep) as [yu [yp [E1 [E2 [L1 L2]]]]]. destruct (B_any a B yu yp HB L1 L2) as [cu [cp [E3 [E4 [L3 L4]]]]].
      destruct (fill_any (fun m i => do k <- get2 (m_part (MP_p a)) m i; if k <? m_nnu (MP_p a) then get cu k else get cp (k - m_nnu (MP_p a)))) as [y [Ey Sy]].
      { intros m i A C. apply (part_any (MP_p a) (fun k _ _ => if k <? m_nnu (MP_p a) then get cu k else get cp (k - m_nnu (MP_p a))) m i Ep); try assumption. intros k Hk. destruct (Nat.ltb_spec k (m_nnu (MP_p a))); [now apply (G _ _ _ L3)|apply (G _ _ _ L4); lia]. }
      exists (Some (Out2 y)), (a, s). split; [|split; [exact Sy|exact K0]]. intros ck. cbn [nodevec]. rewrite !has_shape_refl, !assert_true. unfold with_out, MP_dot_nodevec. rewrite E1. cbn [bind]. rewrite E2. cbn [bind]. rewrite E3. cbn [bind]. rewrite E4. cbn [bind]. rewrite Ev, Ey. reflexivity.
  - destruct F as [[Ex Eb]|[Ex Eb]]; rewrite Ex, Eb.
    + destruct (sel_dofval (MP_p a) (rows1 (z_ndof z) b) Ep (rows1_length _ _)) as [yu [_ [E1 [_ [L1 _]]]]]. destruct (sel_dofval (MP_p a) (rows1 (z_ndof z) x) Ep (rows1_length _ _)) as [_ [yp [_ [E2 [_ L2]]]]].
      destruct (sub_any a B yu yp s HB L1 L2 Hs) as [t [r [X [E3 [E4 [E5 L5]]]]]]. destruct (write_u_any (MP_p a) X (rows1 (z_ndof z) x) Ep (rows1_length _ _) L5) as [y [Ey Ly]].
      do 2 eexists. split; [intros ck; cbn [dofval]; rewrite !has_shape_refl, !assert_true; unfold MPS_solve_dofval; rewrite E1; cbn [bind]; rewrite E2; cbn [bind]; rewrite E3; cbn [bind]; rewrite E4; cbn [bind]; rewrite E5; cbn [bind]; destruct (index_writes (m_iiu (MP_p a)) X); try discriminate; cbn [bind] in *; rewrite Ey; cbn [bind fst snd]; reflexivity|]. split; [exact Ly|exact Ks].
    + destruct (sel_nodevec (MP_p a) o b O Ep) as [yu [_ [E1 [_ [L1 _]]]]]. destruct (sel_nodevec (MP_p a) o x O Ep) as [_ [yp [_ [E2 [_ L2]]]]].
      destruct (sub_any a B yu yp s HB L1 L2 Hs) as [t [r [X [E3 [E4 [E5 L5]]]]]].
      destruct (fill_any (fun m i => do k <- get2 (m_part (MP_p a)) m i; if k <? m_nnu (MP_p a) then get X k else get2 (rows2 (z_nnode z) (z_ndim z) x) m i)) as [y [Ey Sy]].
      { intros m i A C. apply (part_any (MP_p a) (fun k m i => if k <? m_nnu (MP_p a) then get X k else get2 (rows2 (z_nnode z) (z_ndim z) x) m i) m i Ep); try assumption. intros k Hk. destruct (Nat.ltb_spec k (m_nnu (MP_p a))); [now apply (G _ _ _ L5)|now apply G2]. }
      do 2 eexists. split; [intros ck; cbn [nodevec]; rewrite !has_shape_refl, !assert_true; unfold MPS_solve_nodevec; rewrite E1; cbn [bind]; rewrite E2; cbn [bind]; rewrite E3; cbn [bind]; rewrite E4; cbn [bind]; rewrite E5; cbn [bind]; rewrite Ev, Ey; cbn [bind fst snd]; reflexivity|]. split; [exact Sy|exact Ks].
  - destruct F as [[Ex Eb]|[Ex Eb]]; rewrite Ex, Eb.
    + destruct (mp_reaction_dofval v (z_nelem z) (z_nne z) (z_nnode z) (z_ndim z) (z_ndof z) eq_refl eq_refl Hm ii Hp Hh a B (rows1 (z_ndof z) x) (rows1 (z_ndof z) b) HB (rows1_length _ _) (rows1_length _ _)) as [y [E [L _]]].
      exists (Some (Out1 y)), (a, s). split; [|split; [exact L|exact K0]]. intros ck. cbn [dofval]. rewrite !has_shape_refl, !assert_true. unfold with_out. now rewrite E.
    + destruct (sel_nodevec (MP_p a) o x O Ep) as [yu [yp [E1 [E2 [L1 L2]]]]]. destruct (B_any a B yu yp HB L1 L2) as [cu [cp [E3 [E4 [L3 L4]]]]].
      destruct (fill_any (fun m i => do k <- get2 (m_part (MP_p a)) m i; if m_nnu (MP_p a) <=? k then get cp (k - m_nnu (MP_p a)) else get2 (rows2 (z_nnode z) (z_ndim z) b) m i)) as [y [Ey Sy]].
      { intros m i A C. apply (part_any (MP_p a) (fun k m i => if m_nnu (MP_p a) <=? k then get cp (k - m_nnu (MP_p a)) else get2 (rows2 (z_nnode z) (z_ndim z) b) m i) m i Ep); try assumption. intros k Hk. destruct (Nat.leb_spec (m_nnu (MP_p a)) k); [apply (G _ _ _ L4); lia|now apply G2]. }
      exists (Some (Out2 y)), (a, s). split; [|split; [exact Sy|exact K0]]. intros ck. cbn [nodevec]. rewrite !has_shape_refl, !assert_true. unfold with_out, MP_reaction_nodevec. rewrite E1. cbn [bind]. rewrite E2. cbn [bind]. rewrite E4. cbn [bind]. rewrite Ev, Ey. reflexivity.
  - destruct F as [F1 [F2 F3]]. destruct (B_any a B (rows1 nu xu) (rows1 n xp) HB) as [_ [cp [_ [E4 [_ L4]]]]]; [now rewrite rows1_length|now rewrite rows1_length|].
    exists (Some (Out1 cp)), (a, s). split; [|split; [now rewrite En in L4|exact K0]]. intros ck. rewrite F1, F2, F3, !Nat.eqb_refl, !assert_true. unfold with_out, MP_reaction_p. now rewrite E4.
  - destruct F as [F1 [F2 F3]]. destruct (sub_any a B (rows1 nu bu) (rows1 n xp) s HB) as [t [r [X [E3 [E4 [E5 L5]]]]]]; [now rewrite rows1_length|now rewrite rows1_length|exact Hs|].
    do 2 eexists. split; [intros ck; rewrite F1, F2, F3, !has_shape_refl, !assert_true; unfold MPS_solve_u; rewrite E3; cbn [bind]; rewrite E4; cbn [bind]; rewrite E5; cbn [bind fst snd]; reflexivity|]. split; [now rewrite Eu in L5|exact Ks].
Qed.

Lemma p_throws o st c : p_inv st -> ~ fits_p z (length (setdiff1d (concat (m_dofs v)) ii)) n c -> run_pcall true linsolve o st c = Throw.
Proof using V I Hm Hp.
  intros H F. destruct (p_inv_sizes st H) as [Ep [Ev [Eu En]]]. destruct st as [a s]. cbn [fst snd] in *.
  unfold run_pcall. cbv zeta. rewrite Ev, Eu, En. set (nu := length (setdiff1d (concat (m_dofs v)) ii)) in *. unfold v. rewrite (c_elemmat conn dofs z V), (c_dofval conn dofs z V), (c_nodevec conn dofs z V), (vector_ndof conn dofs z V). fold v.
  destruct c as [[K|rs cs m|rs cs m|ret|x b|b x]|x b|xu xp bp|bu xp xu]; cbn [fits_p fits] in *.
  - now apply assemble_throws.
  - now apply block_throws.
  - now apply block_throws.
  - now rewrite (has_shape_neq _ _ F).
  - unfold fits_two in F. destruct (a_shape x) as [|n0 [|d [|]]], (a_shape b) as [|n' [|d' [|]]]; try reflexivity; apply assert_throw; intros E1; apply assert_throw; intros E2; apply has_shape_eq in E1, E2; exfalso; apply F; [left|right]; now split.
  - unfold fits_two in F. destruct (a_shape b) as [|n0 [|d [|]]], (a_shape x) as [|n' [|d' [|]]]; try reflexivity; apply assert_throw; intros E1; apply assert_throw; intros E2; apply has_shape_eq in E1, E2; exfalso; apply F; [left|right]; now split.
  - unfold fits_two in F. destruct (a_shape x) as [|n0 [|d [|]]], (a_shape b) as [|n' [|d' [|]]]; try reflexivity; apply assert_throw; intros E1; apply assert_throw; intros E2; apply has_shape_eq in E1, E2; exfalso; apply F; [left|right]; now split.
  - destruct (a_shape xu) as [|k1 [|]], (a_shape xp) as [|k2 [|]], (a_shape bp) as [|k3 [|]]; try reflexivity. apply assert_throw; intros E1; apply assert_throw; intros E2; apply assert_throw; intros E3. apply Nat.eqb_eq in E1, E2, E3. exfalso. apply F. now rewrite E1, E2, E3.
  - destruct (a_shape bu) as [|k1 [|]], (a_shape xp) as [|k2 [|]], (a_shape xu) as [|k3 [|]]; try reflexivity. apply assert_throw; intros E1; apply assert_throw; intros E2; apply assert_throw; intros E3. apply has_shape_eq in E1, E2, E3. exfalso. apply F. now rewrite E1, E2, E3.
Qed.

Lemma p_program : forall l st, Forall (fun oc => any_order z (fst oc)) l -> p_inv st -> p_inv (program_p true linsolve l st).
Proof.
  unfold program_p. induction l as [|[o c] l IH]; intros st F H; [exact H|]. cbn [fold_left]. apply Forall_cons_iff in F. destruct F as [O F]. apply IH; [exact F|]. cbn [fst snd] in *. unfold caught.
  destruct (fits_p_dec z (length (setdiff1d (concat (m_dofs v)) ii)) n c (ndof_pos _ _ _ V)) as [Q|Q].
  - destruct (p_fits o st c O H Q) as [r [st' [E [_ H']]]]. now rewrite E.
  - now rewrite (p_throws o st c H Q).
Qed.
End P.

(** which meshes and prescribed DOFs the constructor of a partitioned matrix rejects *)
Lemma p_matrix_throw conn dofs iip : (forall z n, valid_mesh conn dofs z -> ~ valid_iip iip z n) -> new_MatrixPartitioned_checked true conn dofs iip = Throw.
Proof.
  intros H. unfold new_MatrixPartitioned_checked. destruct (a_shape conn) as [|nelem [|nne [|]]] eqn:Sc; try reflexivity. destruct (a_shape dofs) as [|nnode [|ndim [|]]] eqn:Sd; try reflexivity.
  destruct (a_shape iip) as [|n [|]] eqn:Si; try reflexivity. cbv zeta. set (v := mkVector (rows2 nelem nne conn) nne (rows2 nnode ndim dofs) ndim).
  apply assert_throw. intros E1. apply assert_throw. intros E2. apply assert_throw. intros E3. apply assert_throw. intros E4. exfalso.
  assert (Ev : new_Vector true conn dofs = Ok v). { unfold new_Vector. rewrite Sc, Sd. cbv zeta. fold v. now rewrite E2, E4, !assert_true. }
  destruct (new_inv _ _ _ Ev) as [V _]. apply (H _ n V). split; [exact Si|]. split.
  - intros k Hk. apply Nat.leb_le in E3. cbn [sizes_of z_ndof]. unfold m_ndof. assert (Q : a_ent iip [k] <= amax (rows1 n iip)) by (apply amax_ge, in_rows1; eauto). lia.
  - apply is_unique_spec in E1. unfold rows1 in E1. intros k l Hk Hl E.
    assert (N := proj1 (NoDup_nth (map (fun i => a_ent iip [i]) (seq 0 n)) (a_ent iip [0])) E1 k l).
    rewrite !map_length, !seq_length in N. apply N; [lia|lia|]. rewrite !(map_nth (fun i => a_ent iip [i])), !seq_nth by lia. exact E.
Qed.

Lemma mapM_uninit {A B} (f : A -> res B) l a : (forall b, In b l -> (exists y, f b = Ok y) \/ f b = Uninit) -> In a l -> f a = Uninit -> mapM f l = Uninit.
Proof.
  induction l as [|b l IH]; intros H Ha E; [destruct Ha|]. cbn. destruct (H b (or_introl eq_refl)) as [[y Ey]|Ey]; rewrite Ey; [|reflexivity]. cbn [bind].
  destruct Ha as [->|Ha]; [congruence|]. rewrite IH; [reflexivity|intros c Hc; apply H; now right|exact Ha|exact E].
Qed.

(** a DOF number that no node has and that is not prescribed: the constructor reads an entry of the renumbering that was not written *)
Lemma p_matrix_hole conn dofs iip z n d ck : valid_mesh conn dofs z -> valid_iip iip z n -> d < z_ndof z ->
  (forall m i, m < z_nnode z -> i < z_ndim z -> a_ent dofs [m; i] <> d) -> (forall k, k < n -> a_ent iip [k] <> d) -> new_MatrixPartitioned_checked ck conn dofs iip = Uninit.
Proof.
  intros V I Hd Hn Hk. set (v := the_vector conn dofs z). set (ii := rows1 n iip). pose proof (vector_ndof conn dofs z V) as Q. fold v in Q.
  assert (E0 : new_MatrixPartitioned_checked ck conn dofs iip = new_MatrixPartitioned v ii).
  { unfold new_MatrixPartitioned_checked. rewrite (vm_conn _ _ _ V), (vm_dofs _ _ _ V), (proj1 I). cbv zeta. fold ii. change (mkVector (rows2 (z_nelem z) (z_nne z) conn) (z_nne z) (rows2 (z_nnode z) (z_ndim z) dofs) (z_ndim z)) with v.
    rewrite (proj2 (is_unique_spec ii) (p_NoDup iip z n I)), (proj2 (is_unique_spec (setdiff1d (concat (m_dofs v)) ii)) (setdiff1d_NoDup _ _)), !assert_true.
    pose proof (new_ok true conn dofs z V) as N. unfold new_Vector in N. rewrite (vm_conn _ _ _ V), (vm_dofs _ _ _ V) in N. cbv zeta in N. apply assert_ok in N. destruct N as [N E1]. apply assert_ok in N. destruct N as [_ E2].
    assert (E3 : (amax ii <=? amax (concat (m_dofs v))) = true). { apply Nat.leb_le. apply amax_lub. intros x Hx. apply (p_prescribed iip z n I) in Hx. unfold m_ndof in Q. lia. }
    unfold v at 1. rewrite E3. cbn [the_vector m_conn] in *. rewrite E1. fold v in E2 |- *. change (m_ndof v <=? z_nnode z * z_ndim z) with (m_ndof (mkVector (rows2 (z_nelem z) (z_nne z) conn) (z_nne z) (rows2 (z_nnode z) (z_ndim z) dofs) (z_ndim z)) <=? z_nnode z * z_ndim z). now rewrite E2, !assert_true. }
  rewrite E0. unfold new_MatrixPartitioned. destruct (new_VP v ii (p_NoDup iip z n I)) as [p Ep]. rewrite Ep. cbn [bind].
  destruct (vp_facts v (z_nelem z) (z_nne z) (z_nnode z) (z_ndim z) (z_ndof z) eq_refl eq_refl (c_mesh conn dofs z V) ii (p_prescribed iip z n I) p Ep) as [_ [-> [-> _]]].
  set (iiu := setdiff1d (concat (m_dofs v)) ii).
  assert (HN : NoDup (concat [iiu; ii])). { simpl. rewrite app_nil_r. apply NoDup_app_intro; [apply setdiff1d_NoDup|exact (p_NoDup iip z n I)|]. intros x Hx. apply setdiff1d_In in Hx. tauto. }
  destruct (Reorder_Ok [iiu; ii] HN) as [r [Er [Hr Ho]]]. simpl in Hr, Ho. rewrite app_nil_r in Hr, Ho. rewrite Er. cbn [bind]. rewrite Q.
  assert (L : z_ndof z <= length r).
  { destruct (vm_last _ _ _ V) as [m [i [A [B E]]]]. assert (X : In (a_ent dofs [m; i]) (iiu ++ ii)).
    { apply in_or_app. destruct (in_dec Nat.eq_dec (a_ent dofs [m; i]) ii) as [Y|Y]; [now right|left]. apply setdiff1d_In. split; [|exact Y]. unfold v. cbn [the_vector m_dofs]. apply in_rows2. eauto. }
    apply In_nth_error in X. destruct X as [k X]. pose proof (Hr k _ X) as Y. assert (Z : nth_error r (a_ent dofs [m; i]) <> None) by congruence. apply nth_error_Some in Z. lia. }
  assert (Gi : forall b, b < z_ndof z -> (exists y, get_init r b = Ok y) \/ get_init r b = Uninit).
  { intros b Hb. unfold get_init. destruct (nth_error r b) as [[y|]|] eqn:E; eauto. apply nth_error_None in E. lia. }
  unfold Reorder_apply. rewrite (mapM_uninit (get_init r) (seq 0 (z_ndof z)) d); [reflexivity| |apply in_seq; lia|].
  - intros b Hb. apply in_seq in Hb. apply Gi. lia.
  - assert (X : ~ In d (iiu ++ ii)).
    { intros X. apply in_app_or in X. destruct X as [X|X].
      - apply setdiff1d_In in X. destruct X as [X _]. unfold v in X. cbn [the_vector m_dofs] in X. apply in_rows2 in X. destruct X as [m [i [A [B E]]]]. exact (Hn m i A B E).
      - apply in_rows1 in X. destruct X as [k [A E]]. exact (Hk k A E). }
    destruct (Ho d X) as [_ [Y|Y]]; unfold get_init; rewrite Y; [reflexivity|]. apply nth_error_None in Y. lia.
Qed.
