(** The calls to a matrix with tyings in the checked build. *)
From Coq Require Import Reals Lra.
From Verif Require Import Base Spec Sums Spec_Vector Spec_Matrix Spec_MatrixTyings Model_Numbering Proof_Numbering Model_Vector Proof_Vector Model_Misc Proof_Misc Model_Sparse
  Model_VectorPartitioned Model_Matrix Model_MatrixPartitioned Model_MatrixTyings Model_Checked Spec_Checked Proof_Checked Model_CheckedMatrix Spec_CheckedMatrix Proof_CheckedMatrix
  Model_CheckedMatrixTyings Spec_CheckedMatrixTyings Proof_CheckedMatrixTyings.

Lemma pos_of conn dofs Cu Cp z : tied_mesh conn dofs Cu Cp z -> 1 <= z_nnode z * z_ndim z /\ 1 <= z_ndof z.
Proof. intros V. destruct (tm_last _ _ _ _ _ V) as (n & i & Hn & Hi & E). nia. Qed.
Lemma tm_amax conn dofs Cu Cp z : tied_mesh conn dofs Cu Cp z -> amax (concat (rows2 (z_nnode z) (z_ndim z) dofs)) + 1 = z_ndof z.
Proof.
  intros V. destruct (tm_last _ _ _ _ _ V) as (n & i & Hn & Hi & E).
  assert (Q1 : amax (concat (rows2 (z_nnode z) (z_ndim z) dofs)) + 1 <= z_ndof z) by (apply amax_concat; [apply (pos_of _ _ _ _ _ V)|apply (tm_below _ _ _ _ _ V)]).
  assert (Q2 : a_ent dofs [n; i] <= amax (concat (rows2 (z_nnode z) (z_ndim z) dofs))) by (apply amax_ge, in_rows2; eauto). lia.
Qed.
(** what is accepted *)
Lemma mt_new_ok conn dofs Cu Cp z ck : tied_mesh conn dofs Cu Cp z -> new_MatrixTyings_checked ck conn dofs Cu Cp = Ok (new_MatrixTyings (the_vector conn dofs z) Cu Cp).
Proof.
  intros V. unfold new_MatrixTyings_checked. rewrite (tm_conn _ _ _ _ _ V), (tm_dofs _ _ _ _ _ V). fold (the_vector conn dofs z). cbv zeta.
  assert (N : PT_ndof (new_MatrixTyings (the_vector conn dofs z) Cu Cp) = z_ndof z) by exact (tm_ndof _ _ _ _ _ V).
  cbn [m_dofs the_vector]. rewrite N, (tm_amax _ _ _ _ _ V), (tm_rows _ _ _ _ _ V), !Nat.eqb_refl, (proj2 (Nat.leb_le _ _) (tm_range _ _ _ _ _ V)), !assert_true. reflexivity.
Qed.
Lemma mt_new_throw conn dofs Cu Cp : (forall z, ~ tied_mesh conn dofs Cu Cp z) -> new_MatrixTyings_checked true conn dofs Cu Cp = Throw.
Proof.
  intros H. unfold new_MatrixTyings_checked. destruct (a_shape conn) as [|nelem [|nne [|]]] eqn:Ec; try reflexivity. destruct (a_shape dofs) as [|nnode [|ndim [|]]] eqn:Ed; try reflexivity. cbv zeta. cbn [m_dofs].
  apply assert_throw. intros E1. apply assert_throw. intros E2. apply assert_throw. intros E3. exfalso.
  apply Nat.eqb_eq in E1, E3. apply Nat.leb_le in E2. set (n := PT_ndof _) in *.
  assert (N : n = cols Cu + cols Cp + rows Cp) by reflexivity.
  assert (NE : concat (rows2 nnode ndim dofs) <> []).
  { intro Q. assert (L : nnode * ndim = 0).
    { destruct nnode as [|k]; [reflexivity|]. destruct ndim as [|k']; [lia|]. exfalso. assert (I : In (a_ent dofs [0; 0]) (concat (rows2 (S k) (S k') dofs))) by (apply in_rows2; exists 0, 0; repeat split; lia). rewrite Q in I. destruct I. }
    lia. }
  apply (H (mkSizes nelem nne nnode ndim n)). split; cbn [z_nelem z_nne z_nnode z_ndim z_ndof]; try assumption; try lia.
  - intros m i Hm Hi. assert (a_ent dofs [m; i] <= amax (concat (rows2 nnode ndim dofs))) by (apply amax_ge, in_rows2; eauto). lia.
  - pose proof (amax_in (concat (rows2 nnode ndim dofs)) NE) as I. apply in_rows2 in I. destruct I as (m & i & Hm & Hi & E). exists m, i. split; [exact Hm|]. split; [exact Hi|]. rewrite E. lia.
Qed.
Lemma mt_new_inv conn dofs Cu Cp a : new_MatrixTyings_checked true conn dofs Cu Cp = Ok a -> exists z, tied_mesh conn dofs Cu Cp z.
Proof.
  intros E. unfold new_MatrixTyings_checked in E. destruct (a_shape conn) as [|nelem [|nne [|]]] eqn:Ec; try discriminate. destruct (a_shape dofs) as [|nnode [|ndim [|]]] eqn:Ed; try discriminate. cbv zeta in E. cbn [m_dofs] in E.
  apply assert_ok in E. destruct E as [E E1]. apply assert_ok in E. destruct E as [E E2]. apply assert_ok in E. destruct E as [_ E3].
  apply Nat.eqb_eq in E1, E3. apply Nat.leb_le in E2. set (n := PT_ndof _) in *.
  assert (N : n = cols Cu + cols Cp + rows Cp) by reflexivity.
  assert (NE : concat (rows2 nnode ndim dofs) <> []).
  { intro Q. assert (L : nnode * ndim = 0).
    { destruct nnode as [|k]; [reflexivity|]. destruct ndim as [|k']; [lia|]. exfalso. assert (I : In (a_ent dofs [0; 0]) (concat (rows2 (S k) (S k') dofs))) by (apply in_rows2; exists 0, 0; repeat split; lia). rewrite Q in I. destruct I. }
    lia. }
  exists (mkSizes nelem nne nnode ndim n). split; cbn [z_nelem z_nne z_nnode z_ndim z_ndof]; try assumption; try lia.
  - intros m i Hm Hi. assert (a_ent dofs [m; i] <= amax (concat (rows2 nnode ndim dofs))) by (apply amax_ge, in_rows2; eauto). lia.
  - pose proof (amax_in (concat (rows2 nnode ndim dofs)) NE) as I. apply in_rows2 in I. destruct I as (m & i & Hm & Hi & E'). exists m, i. split; [exact Hm|]. split; [exact Hi|]. rewrite E'. lia.
Qed.
(** what is the same without assertions *)
Lemma assert_same {A} c (k k' : res A) r : (k = Ok r -> k' = Ok r) -> assert true c k = Ok r -> assert false c k' = Ok r.
Proof. intros H E. apply assert_ok in E. destruct E as [E _]. cbn. auto. Qed.
Lemma t_release linsolve o st c r : run_tcall true linsolve o st c = Ok r -> run_tcall false linsolve o st c = Ok r.
Proof.
  destruct st as [a s]. unfold run_tcall. cbv zeta. destruct c as [K|ret|x b|x b|xu xp bp|b x|bu bd xp xu].
  - unfold assemble_arg. apply assert_same. auto.
  - apply assert_same. auto.
  - destruct (a_shape x) as [|n [|d [|]]], (a_shape b) as [|n' [|d' [|]]]; try discriminate; (apply assert_same, assert_same; auto).
  - destruct (a_shape x) as [|n [|d [|]]], (a_shape b) as [|n' [|d' [|]]]; try discriminate; (apply assert_same, assert_same; auto).
  - auto.
  - destruct (a_shape b) as [|n [|d [|]]], (a_shape x) as [|n' [|d' [|]]]; try discriminate; (apply assert_same, assert_same; auto).
  - destruct (a_shape bu) as [|n1 [|]]; try discriminate; destruct (a_shape bd) as [|n2 [|]]; try discriminate; destruct (a_shape xp) as [|n3 [|]]; try discriminate; destruct (a_shape xu) as [|n4 [|]]; try discriminate.
    apply assert_same, assert_same, assert_same, assert_same. auto.
Qed.
Lemma t_not_implemented ck linsolve o st c : match c with TDot _ _ | TReaction _ _ | TReaction_p _ _ _ => True | _ => False end -> run_tcall ck linsolve o st c = Throw.
Proof.
  destruct st as [a s]. unfold run_tcall. cbv zeta.
  assert (A : forall {X} ck c, @assert X ck c Throw = Throw) by (intros X [] []; reflexivity).
  destruct c as [K|ret|x b|x b|xu xp bp|b x|bu bd xp xu]; intros []; unfold with_out; cbn [bind PT_dot_dofval PT_dot_nodevec PT_reaction_dofval PT_reaction_nodevec PT_reaction_p].
  - destruct (a_shape x) as [|n [|d [|]]], (a_shape b) as [|n' [|d' [|]]]; rewrite ?A; reflexivity.
  - destruct (a_shape x) as [|n [|d [|]]], (a_shape b) as [|n' [|d' [|]]]; rewrite ?A; reflexivity.
  - destruct (a_shape xu) as [|n1 [|]]; try reflexivity; destruct (a_shape xp) as [|n3 [|]]; try reflexivity; destruct (a_shape bp) as [|n4 [|]]; reflexivity.
Qed.
Lemma fits_t_dec z nu np nd c : fits_t z nu np nd c \/ ~ fits_t z nu np nd c.
Proof.
  destruct c as [K|ret|x b|x b|xu xp bp|b x|bu bd xp xu]; cbn [fits_t].
  - apply shape_dec. - apply shape_dec. - now right. - now right. - now right. - apply fits_two_dec.
  - destruct (shape_dec (a_shape bu) [nu]) as [A|A]; [|right; tauto]. destruct (shape_dec (a_shape bd) [nd]) as [B|B]; [|right; tauto].
    destruct (shape_dec (a_shape xp) [np]) as [C|C]; [|right; tauto]. destruct (shape_dec (a_shape xu) [nu]) as [D|D]; [|right; tauto]. left. auto.
Qed.

Section M.
Variables conn dofs : array nat.
Variables Cu Cp : mat.
Variable z : sizes.
Hypothesis V : tied_mesh conn dofs Cu Cp z.
Let v := the_vector conn dofs z.
Variable linsolve : mat -> list R -> list R.
Let nu := cols Cu. Let np := cols Cp. Let nd := rows Cp.

(** the constants of the object *)
Definition t_const (st : MatrixTyings * Solver) : Prop := PT_v (fst st) = v /\ PT_Cdu (fst st) = Cu /\ PT_Cdp (fst st) = Cp.
Lemma t_const_sizes st : t_const st -> PT_nnu (fst st) = nu /\ PT_nnd (fst st) = nd /\ PT_ndof (fst st) = z_ndof z /\ shape_nodevec (PT_v (fst st)) = nodevec z /\ shape_elemmat (PT_v (fst st)) = elemmat z.
Proof.
  intros [H1 [H2 H3]]. unfold PT_ndof, PT_nni, PT_nnu, PT_nnp, PT_nnd. rewrite H1, H2, H3. split; [reflexivity|]. split; [reflexivity|]. split; [exact (tm_ndof _ _ _ _ _ V)|].
  unfold shape_nodevec, shape_elemmat, nodevec, elemmat, m_nelem, m_nnode. cbn [v the_vector m_conn m_dofs m_nne m_ndim].
  rewrite (proj1 (rows2_shape (z_nnode z) (z_ndim z) dofs)), (proj1 (rows2_shape (z_nelem z) (z_nne z) conn)). auto.
Qed.
(** no call changes the constants *)
Lemma bind_ok {A B} (x : res A) (f : A -> res B) y : bind x f = Ok y -> exists w, x = Ok w /\ f w = Ok y.
Proof. destruct x; cbn; try discriminate. eauto. Qed.
Lemma factorize_const a s w : PT_factorize a s = Ok w -> PT_v (fst w) = PT_v a /\ PT_Cdu (fst w) = PT_Cdu a /\ PT_Cdp (fst w) = PT_Cdp a.
Proof.
  unfold PT_factorize. destruct (_ && _); intros E; [injection E as <-; auto|]. apply bind_ok in E. destruct E as (uu & _ & E). apply bind_ok in E. destruct E as (up & _ & E). injection E as <-. cbn. auto.
Qed.
Ltac inv_bind E := repeat (apply bind_ok in E; destruct E as (? & ? & E)).
Lemma t_const_keep ck o st c r st' : t_const st -> run_tcall ck linsolve o st c = Ok (r, st') -> t_const st'.
Proof.
  intros C E. destruct st as [a s]. unfold run_tcall in E. cbv zeta in E.
  assert (A : forall {X} c (k : res X) y, assert ck c k = Ok y -> k = Ok y) by (intros X c0 k y Q; destruct ck, c0; cbn in Q; try discriminate; exact Q).
  assert (W : forall w, PT_factorize a s = Ok w -> t_const (fst w, snd w)).
  { intros w Ew. destruct (factorize_const a s w Ew) as (Q1 & Q2 & Q3). destruct C as (C1 & C2 & C3). cbn [fst] in *. split; [|split]; cbn [fst]; congruence. }
  destruct c as [K|ret|x b|x b|xu xp bp|b x|bu bd xp xu].
  - unfold assemble_arg in E. apply A in E. destruct (a_shape K) as [|n1 [|n2 [|n3 [|]]]]; try discriminate. apply bind_ok in E. destruct E as (a' & Ea & E). injection E as <- <-.
    unfold PT_assemble in Ea. inv_bind Ea. injection Ea as <-. destruct C as (C1 & C2 & C3). split; [|split]; cbn; assumption.
  - apply A in E. destruct (has_shape _ _); [|discriminate]. unfold with_out in E. inv_bind E. injection E as <- <-. exact C.
  - exfalso. pose proof (t_not_implemented ck linsolve o (a, s) (TDot x b) I) as Q. unfold run_tcall in Q. cbv zeta in Q. rewrite Q in E. discriminate.
  - exfalso. pose proof (t_not_implemented ck linsolve o (a, s) (TReaction x b) I) as Q. unfold run_tcall in Q. cbv zeta in Q. rewrite Q in E. discriminate.
  - exfalso. pose proof (t_not_implemented ck linsolve o (a, s) (TReaction_p xu xp bp) I) as Q. unfold run_tcall in Q. cbv zeta in Q. rewrite Q in E. discriminate.
  - destruct (a_shape b) as [|n [|d [|]]], (a_shape x) as [|n' [|d' [|]]]; try discriminate; apply A in E; apply A in E; apply bind_ok in E; destruct E as (q & Eq & E); injection E as <- <-.
    + unfold PT_solve_dofval in Eq. apply bind_ok in Eq. destruct Eq as (w & Ew & Eq). inv_bind Eq. injection Eq as <-. cbn [fst snd]. now apply W.
    + unfold PT_solve_nodevec in Eq. apply bind_ok in Eq. destruct Eq as (w & Ew & Eq). inv_bind Eq. injection Eq as <-. cbn [fst snd]. now apply W.
  - destruct (a_shape bu) as [|n1 [|]]; try discriminate; destruct (a_shape bd) as [|n2 [|]]; try discriminate; destruct (a_shape xp) as [|n3 [|]]; try discriminate; destruct (a_shape xu) as [|n4 [|]]; try discriminate.
    do 4 apply A in E. destruct (n4 =? PT_nnu a); [|discriminate]. apply bind_ok in E. destruct E as (q & Eq & E). injection E as <- <-.
    unfold PT_solve_u in Eq. apply bind_ok in Eq. destruct Eq as (w & Ew & Eq). inv_bind Eq. injection Eq as <-. cbn [fst snd]. now apply W.
Qed.
Lemma t_const_program ck : forall l st, t_const st -> t_const (program_t ck linsolve l st).
Proof.
  induction l as [|[o c] l IH]; intros st C; [exact C|]. unfold program_t. cbn [fold_left fst snd]. apply IH. unfold caught. destruct (run_tcall ck linsolve o st c) as [[r st']| | |] eqn:E; try exact C. exact (t_const_keep _ _ _ _ _ _ C E).
Qed.
(** what does not fit, throws *)
Lemma t_throws o st c : t_const st -> ~ fits_t z nu np nd c -> cols (PT_Cdp (fst st)) = np -> run_tcall true linsolve o st c = Throw.
Proof.
  intros H F Hp. destruct (t_const_sizes st H) as (S1 & S2 & S3 & S4 & S5). destruct st as [a s]. cbn [fst] in *.
  assert (S6 : PT_nnp a = np) by exact Hp.
  destruct c as [K|ret|x b|x b|xu xp bp|b x|bu bd xp xu]; try (apply t_not_implemented; exact I); unfold run_tcall; cbv zeta; cbn [fits_t] in F; rewrite ?S1, ?S2, ?S3, ?S4, ?S5, ?S6.
  - now apply assemble_throws.
  - now rewrite (has_shape_neq _ _ F).
  - destruct (a_shape b) as [|n [|d [|]]] eqn:Eb, (a_shape x) as [|n' [|d' [|]]] eqn:Ex; try reflexivity; apply assert_throw; intros E1; apply assert_throw; intros E2; exfalso; apply F; apply has_shape_eq in E1, E2; rewrite <- Eb in E1; rewrite <- Ex in E2; [left|right]; now split.
  - destruct (a_shape bu) as [|n1 [|]] eqn:E1; try reflexivity; destruct (a_shape bd) as [|n2 [|]] eqn:E2; try reflexivity; destruct (a_shape xp) as [|n3 [|]] eqn:E3; try reflexivity; destruct (a_shape xu) as [|n4 [|]] eqn:E4; try reflexivity.
    apply assert_throw. intros Q1. apply assert_throw. intros Q2. apply assert_throw. intros Q3. apply assert_throw. intros Q4. exfalso. apply F. apply Nat.eqb_eq in Q1, Q2, Q3, Q4. subst n1 n2 n3 n4. auto.
Qed.
(** the nodes exist *)
Section Nodes.
Hypothesis Hnode : nodes_exist conn z.
Hypothesis Hsolve : forall a b, length (linsolve a b) = rows a.
Lemma tm_mesh : mesh_dofs (m_conn v) (m_dofs v) (z_nelem z) (z_nne z) (z_nnode z) (z_ndim z) (z_ndof z).
Proof using V Hnode.
  constructor; [apply rows2_shape|apply rows2_shape| |].
  - intros e m He Hm. cbn [v the_vector m_conn]. rewrite rows2_nth by assumption. now apply Hnode.
  - pose proof (tm_amax _ _ _ _ _ V). unfold amax in *. cbn [v the_vector m_dofs]. lia.
Qed.
Lemma tm_sizes : tying_sizes Cu Cp nu np nd.
Proof using V. split; try reflexivity. exact (tm_rows _ _ _ _ _ V). Qed.
Let sum : nu + np + nd = z_ndof z := tm_ndof _ _ _ _ _ V.
Definition inv (st : MatrixTyings * Solver) : Prop := t_inv v Cu Cp nu np nd st.
Lemma inv_const st : inv st -> t_const st.
Proof. intros [[A H] _]. split; [apply (pt_v _ _ _ _ _ _ _ _ H)|]. split; [apply (pt_u _ _ _ _ _ _ _ _ H)|apply (pt_p _ _ _ _ _ _ _ _ H)]. Qed.
Lemma inv_new : inv (new_MatrixTyings v Cu Cp, new_Solver).
Proof using V Hnode. split; [|now left]. eexists. exact (pt_new v _ _ _ _ _ eq_refl eq_refl tm_mesh Cu Cp _ _ _ tm_sizes sum). Qed.
Lemma order_ok o : any_order z o -> Permutation (s_node o) (node_iters v).
Proof using V Hnode.
  intros [O _]. replace (node_iters v) with (list_prod (seq 0 (z_nnode z)) (seq 0 (z_ndim z))); [exact O|].
  unfold node_iters, m_nnode. cbn [v the_vector m_ndim m_dofs]. now rewrite (proj1 (rows2_shape (z_nnode z) (z_ndim z) dofs)).
Qed.
Lemma t_fits o st c : any_order z o -> inv st -> safe np nd c -> fits_t z nu np nd c ->
  exists r st', (forall ck, run_tcall ck linsolve o st c = Ok (r, st')) /\ has_returned r (returned_t z nu c) /\ inv st'.
Proof using V Hnode Hsolve.
  intros O I S F. pose proof (inv_const st I) as C. destruct (t_const_sizes st C) as (S1 & S2 & S3 & S4 & S5). destruct I as [[A H] Fs]. pose proof (conj (ex_intro _ A H) Fs) as I. destruct st as [a s]. cbn [fst snd] in *.
  assert (S6 : PT_nnp a = np) by (unfold PT_nnp; destruct C as (_ & _ & C3); cbn [fst] in C3; now rewrite C3).
  pose proof tm_mesh as M. pose proof tm_sizes as Ts. unfold run_tcall. cbv zeta. rewrite S1, S2, S3, S4, S5, S6.
  destruct c as [K|ret|x b|x b|xu xp bp|b x|bu bd xp xu]; cbn [fits_t returned_t] in *; try (destruct F; fail).
  - destruct (pt_assemble v _ _ _ _ _ eq_refl eq_refl M Cu Cp nu np nd Ts sum a A _ H (rows3_shape (z_nelem z) (z_nne z * z_ndim z) (z_nne z * z_ndim z) K)) as (a' & E & H' & Ch).
    exists None, (a', s). split; [intros ck; rewrite assemble_fits by exact F; now rewrite E|]. split; [exact Logic.I|]. split; [eauto|]. right. left. exact Ch.
  - destruct (pt_todense v _ _ _ _ _ eq_refl eq_refl M Cu Cp nu np nd Ts sum a A H) as (dn & E & Sd & _).
    exists (Some (Out2 dn)), (a, s). split; [|split; [exact Sd|exact I]]. intros ck. rewrite F, has_shape_refl, assert_true. unfold with_out. now rewrite E.
  - destruct F as [[Eb Ex]|[Eb Ex]].
    + assert (L : nd <= np) by (destruct S as [L|N]; [exact L|exfalso; apply N; cbn; rewrite Eb; unfold dofval; eauto]).
      destruct (solve_dofval_any v _ _ _ _ _ eq_refl eq_refl M Cu Cp nu np nd Ts sum linsolve Hsolve a s (rows1 (z_ndof z) b) (rows1 (z_ndof z) x) I L (rows1_length _ _) (rows1_length _ _)) as (y & s' & a' & E & Ly & I').
      exists (Some (Out1 y)), (a', s'). split; [|split; [cbn; rewrite Eb; exact Ly|exact I']]. intros ck. rewrite Eb, Ex. unfold dofval at 1 2. cbv iota beta. fold (dofval z). unfold dofval. rewrite has_shape_refl, !assert_true, E. reflexivity.
    + destruct (solve_nodevec_any v _ _ _ _ _ eq_refl eq_refl M Cu Cp nu np nd Ts sum linsolve Hsolve a s (s_node o) (rows2 (z_nnode z) (z_ndim z) b) (rows2 (z_nnode z) (z_ndim z) x) I (order_ok o O) (rows2_shape _ _ _) (rows2_shape _ _ _)) as (y & s' & a' & E & Ly & I').
      exists (Some (Out2 y)), (a', s'). split; [|split; [cbn; rewrite Eb; exact Ly|exact I']]. intros ck. rewrite Eb, Ex. unfold nodevec at 1 2. cbv iota beta. unfold nodevec. rewrite has_shape_refl, !assert_true, E. reflexivity.
  - destruct F as (E1 & E2 & E3 & E4).
    destruct (solve_u_any v _ _ _ _ _ eq_refl eq_refl M Cu Cp nu np nd Ts sum linsolve Hsolve a s (rows1 nu bu) (rows1 nd bd) (rows1 np xp) I (rows1_length _ _) (rows1_length _ _)) as (y & s' & a' & E & Ly & I').
    exists (Some (Out1 y)), (a', s'). split; [|split; [exact Ly|exact I']]. intros ck. rewrite E1, E2, E3, E4, !Nat.eqb_refl, !assert_true, E. reflexivity.
Qed.
Lemma t_dofval_oob o st b x ck : inv st -> np < nd -> a_shape b = dofval z -> a_shape x = dofval z -> run_tcall ck linsolve o st (TSolve' b x) = Oob.
Proof using V Hnode Hsolve.
  intros I L Eb Ex. destruct (t_const_sizes st (inv_const st I)) as (S1 & S2 & S3 & S4 & S5). destruct st as [a s]. cbn [fst] in *. unfold run_tcall. cbv zeta. rewrite Eb, Ex. unfold dofval. cbv iota beta. rewrite S3, has_shape_refl, !assert_true.
  rewrite (solve_dofval_oob v _ _ _ _ _ eq_refl eq_refl tm_mesh Cu Cp nu np nd tm_sizes sum linsolve Hsolve a s (rows1 (z_ndof z) b) (rows1 (z_ndof z) x) I L (rows1_length _ _)). reflexivity.
Qed.
Lemma t_program : forall l st, Forall (fun oc => any_order z (fst oc)) l -> Forall (fun oc => safe np nd (snd oc)) l -> inv st -> inv (program_t true linsolve l st).
Proof using V Hnode Hsolve.
  induction l as [|[o c] l IH]; intros st Ho Hs I; [exact I|]. unfold program_t. cbn [fold_left fst snd]. apply Forall_cons_iff in Ho, Hs. destruct Ho as [O Ho], Hs as [S Hs]. cbn [fst snd] in *. apply IH; try assumption.
  destruct (fits_t_dec z nu np nd c) as [F|F].
  - destruct (t_fits o st c O I S F) as (r & st' & E & _ & I'). unfold caught. rewrite E. exact I'.
  - unfold caught. rewrite (t_throws o st c (inv_const st I) F); [exact I|]. now rewrite (proj2 (proj2 (inv_const st I))).
Qed.
End Nodes.
(** a node that does not exist *)
Lemma mapM_oob {A B} (f : A -> res B) : forall l x, In x l -> f x = Oob -> (forall y, In y l -> (exists b, f y = Ok b) \/ f y = Oob) -> mapM f l = Oob.
Proof.
  induction l as [|y l IH]; intros x Hx E H; [destruct Hx|]. cbn [mapM]. destruct (H y (or_introl eq_refl)) as [[b Eb]|Eb]; rewrite Eb; cbn [bind]; [|reflexivity].
  destruct Hx as [->|Hx]; [congruence|]. rewrite (IH x Hx E); [reflexivity|]. intros w Hw. apply H. now right.
Qed.
Lemma get_two {A} (l : list A) i : (exists x, get l i = Ok x) \/ get l i = Oob.
Proof. unfold get. destruct (nth_error l i); eauto. Qed.
Lemma bind_two {A B} (x : res A) (f : A -> res B) : ((exists y, x = Ok y) \/ x = Oob) -> (forall y, (exists w, f y = Ok w) \/ f y = Oob) -> (exists w, bind x f = Ok w) \/ bind x f = Oob.
Proof. intros [[y ->]| ->] H; cbn [bind]; auto. Qed.
Lemma mapM_two {A B} (f : A -> res B) : forall l, (forall y, (exists b, f y = Ok b) \/ f y = Oob) -> (exists b, mapM f l = Ok b) \/ mapM f l = Oob.
Proof. induction l as [|y l IH]; intros H; cbn [mapM]; [eauto|]. apply bind_two; [auto|]. intros b. apply bind_two; [auto|]. eauto. Qed.
Lemma t_conn_oob o st K ck e m : t_const st -> e < z_nelem z -> m < z_nne z -> z_nnode z <= a_ent conn [e; m] -> a_shape K = elemmat z -> run_tcall ck linsolve o st (TAssem K) = Oob.
Proof.
  intros C He Hm Hbad EK. destruct (t_const_sizes st C) as (_ & _ & _ & _ & S5). destruct st as [a s]. cbn [fst] in *. unfold run_tcall. cbv zeta. rewrite S5, assemble_fits by exact EK.
  enough (Q : forall K, elemmat_triplets (PT_v a) (elem_dof (PT_v a)) K = Oob) by (unfold PT_assemble; rewrite Q; reflexivity).
  intros K'. destruct C as [C1 _]. cbn [fst] in C1. rewrite C1. unfold elemmat_triplets.
  assert (G3 : forall e r c, (exists x, get3 K' e r c = Ok x) \/ get3 K' e r c = Oob).
  { intros. unfold get3. apply bind_two; [apply get_two|]. intros y. unfold get2. apply bind_two; [apply get_two|]. intros; apply get_two. }
  assert (ED : forall e m i, (exists x, elem_dof v e m i = Ok x) \/ elem_dof v e m i = Oob).
  { intros. unfold elem_dof, get2. apply bind_two; [apply bind_two; [apply get_two|intros; apply get_two]|]. intros y. apply bind_two; [apply get_two|intros; apply get_two]. }
  rewrite (mapM_oob _ (elem_iters v) ((e, m), 0)); [reflexivity| | |].
  - unfold elem_iters. apply in_prod_iff. destruct (tm_last _ _ _ _ _ V) as (n & i & _ & Hi & _). split.
    + apply in_prod_iff. unfold m_nelem. cbn [v the_vector m_conn m_nne]. rewrite (proj1 (rows2_shape (z_nelem z) (z_nne z) conn)). rewrite !in_seq. lia.
    + cbn [v the_vector m_ndim]. apply in_seq. lia.
  - cbn [fst snd]. assert (Q : elem_dof v e m 0 = Oob); [|now rewrite Q].
    unfold elem_dof. rewrite (get2_nth 0 _ (z_nelem z) (z_nne z)); [|apply rows2_shape|assumption|assumption]. cbn [bind v the_vector m_conn m_dofs]. rewrite rows2_nth by assumption.
    unfold get2, get. rewrite (proj2 (nth_error_None _ _)); [reflexivity|]. now rewrite (proj1 (rows2_shape (z_nnode z) (z_ndim z) dofs)).
  - intros [[e' m'] i'] _. cbn [fst snd]. apply bind_two; [apply ED|]. intros di. apply mapM_two. intros [n j]. cbn [fst snd]. apply bind_two; [apply ED|]. intros dj. apply bind_two; [apply G3|]. eauto.
Qed.
End M.
