(** What a matrix with tyings and its solver give after a program that catches exceptions. *)
From Coq Require Import Reals Lra.
From Verif Require Import Base Spec Sums Spec_Vector Spec_Matrix Spec_MatrixTyings Model_Numbering Proof_Numbering Model_Vector Proof_Vector Proof_Vector2 Model_Misc Proof_Misc Model_Sparse
  Model_VectorPartitioned Model_Matrix Model_MatrixPartitioned Model_MatrixTyings Proof_MatrixTyings Model_Checked Spec_Checked Proof_Checked Model_CheckedMatrix Spec_CheckedMatrix Proof_CheckedMatrix
  Model_CheckedMatrixTyings Spec_CheckedMatrixTyings.
From Verif Require Proof_CheckedMatrixTyings.
From Verif Require Import Proof_CheckedMatrixTyings2.

Section S.
Variables conn dofs : array nat.
Variables Cu Cp : mat.
Variable z : sizes.
Hypothesis V : tied_mesh conn dofs Cu Cp z.
Hypothesis Hnode : nodes_exist conn z.
Hypothesis Hh : without_holes dofs z.
Let v := the_vector conn dofs z.
Variable linsolve : mat -> list R -> list R.
Hypothesis Hsolve : forall a b, length (linsolve a b) = rows a.
Let nu := cols Cu. Let np := cols Cp. Let nd := rows Cp.
Let M := tm_mesh conn dofs Cu Cp z V Hnode.
Let Ts := tm_sizes conn dofs Cu Cp z V.
Let sum : nu + np + nd = z_ndof z := tm_ndof _ _ _ _ _ V.
Lemma holes : no_holes (m_dofs v) (z_ndof z).
Proof using Hh. intros d Hd. destruct (Hh d Hd) as (m & i & Hm & Hi & E). cbn [v the_vector m_dofs]. apply in_rows2. eauto. Qed.
Definition exact_inv (st : MatrixTyings * Solver) (A : nat -> nat -> R) : Prop :=
  inv conn dofs Cu Cp z st /\ pt_is v Cu Cp nu np nd (fst st) A /\ t_fresh (z_ndof z) Cu Cp nu np A (fst st) (snd st).
Definition entry (A : nat -> nat -> R) (oc : schedule * tcall) := last_fitting conn dofs z [oc] A.
Lemma exact_step o st c A : any_order z o -> safe np nd c -> exact_inv st A -> exact_inv (caught (fun st => run_tcall true linsolve o st c) st) (entry A (o, c)).
Proof using All.
  intros O S (I & H & F). destruct (fits_t_dec z nu np nd c) as [Ft|Ft].
  - destruct (t_fits conn dofs Cu Cp z V linsolve Hnode Hsolve o st c O I S Ft) as (r & st' & E & _ & I'). unfold caught. rewrite E. cbn [snd]. split; [exact I'|]. specialize (E true). clear I'.
    pose proof (inv_const _ _ _ _ _ _ I) as C. destruct (t_const_sizes conn dofs Cu Cp z V st C) as (S1 & S2 & S3 & S4 & S5). destruct st as [a s]. cbn [fst snd] in *.
    assert (S6 : PT_nnp a = np) by (unfold PT_nnp; destruct C as (_ & _ & C3); cbn [fst] in C3; now rewrite C3).
    unfold run_tcall in E. cbv zeta in E. rewrite S1, S2, S3, S4, S5, S6 in E.
    destruct c as [K|ret|x b|x b|xu xp bp|b x|bu bd xp xu]; cbn [fits_t] in Ft; try (destruct Ft; fail); unfold entry; cbn [last_fitting].
    + destruct (list_eq_dec Nat.eq_dec (a_shape K) (elemmat z)) as [_|N]; [|now destruct N]. rewrite assemble_fits in E by exact Ft.
      destruct (pt_assemble v _ _ _ _ _ eq_refl eq_refl M holes Cu Cp nu np nd Ts sum a A _ H (rows3_shape (z_nelem z) (z_nne z * z_ndim z) (z_nne z * z_ndim z) K)) as (a' & E' & H' & Ch).
      rewrite E' in E. cbn [bind] in E. injection E as <- <-. cbn [fst snd]. split; [exact H'|]. right. left. exact Ch.
    + rewrite Ft, has_shape_refl, assert_true in E. unfold with_out in E. destruct (PT_todense a); try discriminate. cbn [bind] in E. injection E as <- <-. auto.
    + destruct (pt_factorize v _ _ _ _ _ eq_refl eq_refl M holes Cu Cp nu np nd Ts sum linsolve a A s H F) as (w & Ew & Hw & Cw).
      destruct Ft as [[Eb Ex]|[Eb Ex]]; rewrite Eb, Ex in E; [unfold dofval at 1 2 in E|unfold nodevec at 1 2 in E]; cbv iota beta in E; apply assert_ok in E; destruct E as [E _]; apply assert_ok in E; destruct E as [E _].
      * destruct (PT_solve_dofval a linsolve s _ _) as [q| | |] eqn:Eq; try discriminate. cbn [bind] in E. injection E as <- <-. cbn [fst snd].
        assert (W : snd q = fst w /\ snd (fst q) = snd w) by (exact (w_dofval v _ _ _ _ _ eq_refl eq_refl M holes Cu Cp nu np nd Ts sum linsolve a s w _ _ q Ew Eq)). destruct W as [-> ->]. split; [exact Hw|]. right. right. now destruct w.
      * destruct (PT_solve_nodevec a linsolve s _ _ _) as [q| | |] eqn:Eq; try discriminate. cbn [bind] in E. injection E as <- <-. cbn [fst snd].
        assert (W : snd q = fst w /\ snd (fst q) = snd w) by (exact (w_nodevec v _ _ _ _ _ eq_refl eq_refl M holes Cu Cp nu np nd Ts sum linsolve a s w _ _ _ q Ew Eq)). destruct W as [-> ->]. split; [exact Hw|]. right. right. now destruct w.
    + destruct (pt_factorize v _ _ _ _ _ eq_refl eq_refl M holes Cu Cp nu np nd Ts sum linsolve a A s H F) as (w & Ew & Hw & Cw).
      destruct Ft as (E1 & E2 & E3 & E4). rewrite E1, E2, E3, E4, !Nat.eqb_refl, !assert_true in E.
      destruct (PT_solve_u a linsolve s _ _ _) as [q| | |] eqn:Eq; try discriminate. cbn [bind] in E. injection E as <- <-. cbn [fst snd].
      assert (W : snd q = fst w /\ snd (fst q) = snd w) by (exact (w_u v _ _ _ _ _ eq_refl eq_refl M holes Cu Cp nu np nd Ts sum linsolve a s w _ _ _ q Ew Eq)). destruct W as [-> ->]. split; [exact Hw|]. right. right. now destruct w.
  - unfold caught. rewrite (t_throws conn dofs Cu Cp z V linsolve o st c (inv_const _ _ _ _ _ _ I) Ft); [|now rewrite (proj2 (proj2 (inv_const _ _ _ _ _ _ I)))].
    replace (entry A (o, c)) with A; [split; [exact I|]; split; assumption|]. unfold entry. cbn [last_fitting]. destruct c; try reflexivity. cbn [fits_t] in Ft. destruct (list_eq_dec _ _ _); [now destruct Ft|reflexivity].
Qed.
Lemma last_cons oc l A : last_fitting conn dofs z (oc :: l) A = last_fitting conn dofs z l (entry A oc).
Proof. destruct oc as [o []]; reflexivity. Qed.
Lemma exact_program : forall l st A, Forall (fun oc => any_order z (fst oc)) l -> Forall (fun oc => safe np nd (snd oc)) l -> exact_inv st A -> exact_inv (program_t true linsolve l st) (last_fitting conn dofs z l A).
Proof using All.
  induction l as [|[o c] l IH]; intros st A Ho Hs I; [exact I|]. rewrite last_cons. unfold program_t. cbn [fold_left fst snd]. apply Forall_cons_iff in Ho, Hs. destruct Ho as [O Ho], Hs as [S Hs]. cbn [fst snd] in *.
  apply IH; try assumption. now apply exact_step.
Qed.
Lemma exact_new : exact_inv (new_MatrixTyings v Cu Cp, new_Solver) (fun _ _ => 0%R).
Proof using All. split; [now apply inv_new|]. split; [|now left]. exact (pt_new v _ _ _ _ _ eq_refl eq_refl M holes Cu Cp _ _ _ Ts sum). Qed.

Lemma exact_dense l o : Forall (fun oc => any_order z (fst oc)) l -> Forall (fun oc => safe np nd (snd oc)) l ->
  exists dn, run_tcall true linsolve o (program_t true linsolve l (new_MatrixTyings v Cu Cp, new_Solver)) (TDense [z_ndof z; z_ndof z])
     = Ok (Some (Out2 dn), program_t true linsolve l (new_MatrixTyings v Cu Cp, new_Solver)) /\ is_dense (z_ndof z) dn (last_fitting conn dofs z l (fun _ _ => 0%R)).
Proof using All.
  intros Hl Hsafe. destruct (exact_program l _ _ Hl Hsafe exact_new) as (I & H & F). set (st := program_t true linsolve l (new_MatrixTyings v Cu Cp, new_Solver)) in *.
  pose proof (inv_const _ _ _ _ _ _ I) as C. destruct (t_const_sizes conn dofs Cu Cp z V st C) as (S1 & S2 & S3 & S4 & S5). destruct st as [a s]. cbn [fst snd] in *.
  destruct (pt_todense v _ _ _ _ _ eq_refl eq_refl M holes Cu Cp nu np nd Ts sum a _ H) as (dn & E & D). exists dn. split; [|exact D].
  unfold run_tcall. cbv zeta. rewrite S3, has_shape_refl, assert_true. unfold with_out. now rewrite E.
Qed.

Lemma exact_solve l o b x : Forall (fun oc => any_order z (fst oc)) l -> any_order z o -> Forall (fun oc => safe np nd (snd oc)) l ->
  let A := last_fitting conn dofs z l (fun _ _ => 0%R) in let T := tie nu (nu + np) Cu Cp in
  solves_matrix linsolve nu (condensed (z_ndof z) T A) -> a_shape b = nodevec z -> a_shape x = nodevec z ->
  (forall m i n j, m < z_nnode z -> i < z_ndim z -> n < z_nnode z -> j < z_ndim z -> a_ent dofs [m; i] = a_ent dofs [n; j] -> a_ent b [m; i] = a_ent b [n; j] /\ a_ent x [m; i] = a_ent x [n; j]) ->
  exists y st' Y B, run_tcall true linsolve o (program_t true linsolve l (new_MatrixTyings v Cu Cp, new_Solver)) (TSolve' b x) = Ok (Some (Out2 y), st') /\ shape2 y (z_nnode z) (z_ndim z) /\
    (forall m i, m < z_nnode z -> i < z_ndim z -> val2 y m i = Y (a_ent dofs [m; i]) /\ a_ent b [m; i] = B (a_ent dofs [m; i])) /\
    (forall m i, m < z_nnode z -> i < z_ndim z -> nu <= a_ent dofs [m; i] < nu + np -> val2 y m i = a_ent x [m; i]) /\
    (forall d, d < z_ndof z -> Y d = sumn (nu + np) (fun j => T d j * Y j)%R) /\
    (forall i, i < nu -> sumn (z_ndof z) (fun c => T c i * (mv (z_ndof z) A Y c - B c))%R = 0%R).
Proof using All.
  intros Hl O Hsafe A T HS Eb Ex Hag. destruct (exact_program l _ _ Hl Hsafe exact_new) as (I & H & F). fold A in H, F.
  set (st := program_t true linsolve l (new_MatrixTyings v Cu Cp, new_Solver)) in *. pose proof (inv_const _ _ _ _ _ _ I) as C. destruct (t_const_sizes conn dofs Cu Cp z V st C) as (S1 & S2 & S3 & S4 & S5). destruct st as [a s]. cbn [fst snd] in *.
  set (B2 := rows2 (z_nnode z) (z_ndim z) b). set (X2 := rows2 (z_nnode z) (z_ndim z) x).
  assert (D : forall m i, m < z_nnode z -> i < z_ndim z -> idx2 (m_dofs v) m i = a_ent dofs [m; i]) by (intros; cbn [v the_vector m_dofs]; unfold idx2; now apply rows2_nth).
  assert (VB : forall m i, m < z_nnode z -> i < z_ndim z -> val2 B2 m i = a_ent b [m; i]) by (intros m i Hm Hi; exact (tab2_nth 0%R _ _ (fun m i => a_ent _ [m; i]) m i Hm Hi)).
  assert (VX : forall m i, m < z_nnode z -> i < z_ndim z -> val2 X2 m i = a_ent x [m; i]) by (intros m i Hm Hi; exact (tab2_nth 0%R _ _ (fun m i => a_ent _ [m; i]) m i Hm Hi)).
  assert (Ab : agree2 (m_dofs v) (z_nnode z) (z_ndim z) B2) by (intros m i n j Hm Hi Hn Hj E; rewrite !D in E by assumption; rewrite !VB by assumption; now apply Hag).
  assert (Ax : agree2 (m_dofs v) (z_nnode z) (z_ndim z) X2) by (intros m i n j Hm Hi Hn Hj E; rewrite !D in E by assumption; rewrite !VX by assumption; now apply Hag).
  pose proof (order_ok conn dofs Cu Cp z V Hnode o O) as Op.
  destruct (AsDofs_nodevec_spec v _ _ _ _ _ eq_refl eq_refl M (s_node o) B2 Op (rows2_shape _ _ _) Ab) as (B & _ & LB & QB & _).
  destruct (AsDofs_nodevec_spec v _ _ _ _ _ eq_refl eq_refl M (s_node o) X2 Op (rows2_shape _ _ _) Ax) as (X & _ & LX & QX & _).
  destruct (pt_solve_nodevec v _ _ _ _ _ eq_refl eq_refl M holes Cu Cp nu np nd Ts sum linsolve a A s (s_node o) B2 X2 B X H F HS Op (rows2_shape _ _ _) (conj LB QB) (rows2_shape _ _ _) (conj LX QX)) as (y & s' & a' & Y & E & _ & _ & Sy & (LY & DY) & HP & HT & HR).
  exists y, (a', s'), (val1 Y), (val1 B). split; [|split; [exact Sy|]].
  - unfold run_tcall. cbv zeta. rewrite S3, S4, Eb, Ex. unfold nodevec at 1 2. cbv iota beta. unfold nodevec. rewrite has_shape_refl, !assert_true. fold B2 X2. rewrite E. reflexivity.
  - split; [intros m i Hm Hi; rewrite <- D, <- VB by assumption; split; symmetry; [now apply DY|now apply QB]|]. split; [|split; [exact HT|exact HR]].
    intros m i Hm Hi Hd. rewrite <- D in Hd by assumption. rewrite <- VX, <- DY, <- QX by assumption. now apply HP.
Qed.
End S.
