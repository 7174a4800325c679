(** Proofs about the diagonal matrices in the checked build. *)
From Coq Require Import Reals Lra Lia.
From Verif Require Import Base Sums Spec Spec_Vector Spec_Matrix Model_Numbering Model_Vector Model_VectorPartitioned Model_Misc Model_Sparse Model_Matrix Spec_MatrixOps
  Proof_Numbering Proof_Misc Proof_Vector Proof_VectorPartitioned Proof_Matrix Model_MatrixDiagonal Spec_MatrixDiagonal Proof_MatrixDiagonal Proof_MatrixDiagonalPartitioned
  Model_Checked Spec_Checked Proof_Checked Model_CheckedMatrix Spec_CheckedMatrix Proof_CheckedMatrix Model_CheckedDiagonal Spec_CheckedDiagonal.

Lemma rows3_val n k d (a : array R) e i j : e < n -> i < k -> j < d -> val3 (rows3 n k d a) e i j = a_ent a [e; i; j].
Proof.
  intros He Hi Hj. unfold val3, nth3, rows3. rewrite (nth_indep _ [] (map (fun m => map (fun i0 => a_ent a [0; m; i0]) (seq 0 d)) (seq 0 k))) by (rewrite map_length, seq_length; lia).
  rewrite (map_nth (fun e0 => map (fun m => map (fun i0 => a_ent a [e0; m; i0]) (seq 0 d)) (seq 0 k)) (seq 0 n) 0), seq_nth by lia. unfold nth2.
  rewrite (nth_indep _ [] (map (fun i0 => a_ent a [0 + e; 0; i0]) (seq 0 d))) by (rewrite map_length, seq_length; lia).
  rewrite (map_nth (fun m => map (fun i0 => a_ent a [0 + e; m; i0]) (seq 0 d)) (seq 0 k) 0), seq_nth by lia.
  rewrite (nth_indep _ 0%R (a_ent a [0 + e; 0 + i; 0])) by (rewrite map_length, seq_length; lia).
  rewrite (map_nth (fun i0 => a_ent a [0 + e; 0 + i; i0]) (seq 0 d) 0), seq_nth by lia. reflexivity.
Qed.

Lemma diag_test z K : a_shape K = elemmat z -> exists b, isDiagonal (z_nelem z) (z_nne z * z_ndim z) (rows3 (z_nelem z) (z_nne z * z_ndim z) (z_nne z * z_ndim z) K) = Ok b /\ (b = true <-> diagonal_elemmat z K).
Proof.
  intros E. destruct (isDiagonal_spec (z_nelem z) (z_nne z * z_ndim z) (rows3 (z_nelem z) (z_nne z * z_ndim z) (z_nne z * z_ndim z) K) (rows3_shape _ _ _ _)) as [b [Eb Hb]]. exists b. split; [exact Eb|]. rewrite Hb. unfold diagonal_elemmat, eps. split.
  - intros H. split; [exact E|]. intros e r c A B C D. rewrite <- (rows3_val (z_nelem z) (z_nne z * z_ndim z) (z_nne z * z_ndim z) K e r c A B C). now apply H.
  - intros [_ H] e r c A B C D. rewrite rows3_val by assumption. now apply H.
Qed.
Lemma diag_fits {A} ck z K (k : list (list (list R)) -> res A) : diagonal_elemmat z K -> diag_arg ck (elemmat z) K k = k (rows3 (z_nelem z) (z_nne z * z_ndim z) (z_nne z * z_ndim z) K).
Proof.
  intros H. pose proof (proj1 H) as E. unfold diag_arg. rewrite E, has_shape_refl, assert_true. unfold elemmat. destruct ck; [|reflexivity]. destruct (diag_test z K E) as [b [Eb Hb]]. rewrite Eb. cbn [bind]. apply Hb in H. rewrite H. reflexivity.
Qed.
Lemma diag_throws {A} z K (k : list (list (list R)) -> res A) : ~ diagonal_elemmat z K -> diag_arg true (elemmat z) K k = Throw.
Proof.
  intros H. unfold diag_arg. destruct (shape_dec (a_shape K) (elemmat z)) as [E|E]; [|now rewrite (has_shape_neq _ _ E)].
  rewrite E, has_shape_refl, assert_true. unfold elemmat. destruct (diag_test z K E) as [b [Eb Hb]]. rewrite Eb. cbn [bind]. destruct b; [exfalso; apply H; now apply Hb|reflexivity].
Qed.
Lemma diagonal_dec z K : diagonal_elemmat z K \/ ~ diagonal_elemmat z K.
Proof.
  destruct (shape_dec (a_shape K) (elemmat z)) as [E|E]; [|right; intros [F _]; auto]. destruct (diag_test z K E) as [b [_ Hb]]. destruct b; [left; now apply Hb|right]. intros H. apply Hb in H. discriminate.
Qed.
Lemma fits_d_dec z c : fits_d z c \/ ~ fits_d z c.
Proof. destruct c; cbn [fits_d]; auto using diagonal_dec, shape_dec, fits_two_dec. Qed.
Lemma fits_dp_dec z nu np c : fits_dp z nu np c \/ ~ fits_dp z nu np c.
Proof.
  destruct c as [c|xu xp y|xu xp y|xu xp y|x b|xu xp y]; cbn [fits_dp]; auto using fits_d_dec, fits_two_dec;
    destruct (shape_dec (a_shape xu) [nu]), (shape_dec (a_shape xp) [np]), (shape_dec (a_shape y) [nu]), (shape_dec (a_shape y) [np]); tauto.
Qed.

Section D.
Variables conn dofs : array nat.
Variable z : sizes.
Hypothesis V : valid_mesh conn dofs z.
Let v := the_vector conn dofs z.
Let Hm := c_mesh conn dofs z V.
Notation is := (md_is v (z_ndof z)).

Definition raw (a : MatrixDiagonal) : Prop := MD_v a = v /\ length (MD_A a) = z_ndof z.
Lemma is_raw a A : is a A -> raw a.
Proof. intros [E [[L _] _]]. now split. Qed.

(** the sizes in the assertions *)
Ltac open_sizes := unfold v; rewrite ?(c_elemmat conn dofs z V), ?(c_nodevec conn dofs z V), ?(vector_ndof conn dofs z V); fold v.

Lemma d_gives a c : raw a -> fits_d z c -> gives c = true -> exists a' A, (forall ck, run_dcall ck a c = Ok (None, a')) /\ is a' A.
Proof using V Hm.
  intros [Ev L] F G. unfold run_dcall. cbv zeta. rewrite Ev. open_sizes. destruct c as [K|B| |ret|x b|b x]; try discriminate; cbn [fits_d] in F.
  - destruct (MD_assemble_spec v (z_nelem z) (z_nne z) (z_nnode z) (z_ndim z) (z_ndof z) eq_refl eq_refl Hm a _ Ev L (rows3_shape (z_nelem z) (z_nne z * z_ndim z) (z_nne z * z_ndim z) K)) as [a' [E H]].
    exists a'. eexists. split; [|exact H]. intros ck. rewrite diag_fits by exact F. now rewrite E.
  - rewrite F. destruct (MD_set_spec v (z_nelem z) (z_nne z) (z_nnode z) (z_ndim z) (z_ndof z) eq_refl eq_refl Hm a (rows1 (z_ndof z) B) Ev L (rows1_length _ _)) as [a' [E H]].
    exists a'. eexists. split; [|exact H]. intros ck. cbn [dofval]. rewrite Nat.eqb_refl, assert_true. now rewrite E.
Qed.
Lemma d_fits a A c : is a A -> fits_d z c -> exists r a' A', (forall ck, run_dcall ck a c = Ok (r, a')) /\ has_returned r (returned_d z c) /\ is a' A'.
Proof using V Hm.
  intros H F. destruct (gives c) eqn:G.
  { destruct (d_gives a c (is_raw a A H) F G) as [a' [A' [E H']]]. exists None, a', A'. split; [exact E|]. split; [|exact H']. destruct c; try discriminate; exact I. }
  pose proof (proj1 H) as Ev. unfold run_dcall. cbv zeta. rewrite Ev. open_sizes. destruct c as [K|B| |ret|x b|b x]; try discriminate; cbn [fits_d returned_d] in *; clear G.
  - destruct (MD_data_spec v (z_nelem z) (z_nne z) (z_nnode z) (z_ndim z) (z_ndof z) eq_refl eq_refl Hm a A H) as [l [E [L _]]]. exists (Some (Out1 l)), a, A. split; [|split; [exact L|exact H]]. intros ck. unfold with_out. now rewrite E.
  - destruct (MD_todense_spec v (z_nelem z) (z_nne z) (z_nnode z) (z_ndim z) (z_ndof z) eq_refl eq_refl Hm a A H) as [M [E [S _]]]. exists (Some (Out2 M)), a, A. split; [|split; [exact S|exact H]]. intros ck. rewrite F, has_shape_refl, assert_true. unfold with_out. now rewrite E.
  - destruct F as [[Ex Eb]|[Ex Eb]]; rewrite Ex, Eb.
    + destruct (MD_dot_dofval_spec v (z_nelem z) (z_nne z) (z_nnode z) (z_ndim z) (z_ndof z) eq_refl eq_refl Hm a A (rows1 (z_ndof z) x) H (rows1_length _ _)) as [y [E [L _]]].
      exists (Some (Out1 y)), a, A. split; [|split; [exact L|exact H]]. intros ck. cbn [dofval]. rewrite !Nat.eqb_refl, !assert_true. unfold with_out. now rewrite E.
    + destruct (MD_dot_nodevec_spec v (z_nelem z) (z_nne z) (z_nnode z) (z_ndim z) (z_ndof z) eq_refl eq_refl Hm a A (rows2 (z_nnode z) (z_ndim z) x) H (rows2_shape _ _ _)) as [y [E [L _]]].
      exists (Some (Out2 y)), a, A. split; [|split; [exact L|exact H]]. intros ck. cbn [nodevec]. rewrite !has_shape_refl, !assert_true. unfold with_out. now rewrite E.
  - destruct F as [[Ex Eb]|[Ex Eb]]; rewrite Ex, Eb.
    + destruct (MD_solve_dofval_spec v (z_nelem z) (z_nne z) (z_nnode z) (z_ndim z) (z_ndof z) eq_refl eq_refl Hm a A (rows1 (z_ndof z) b) H (rows1_length _ _)) as [y [a' [E [H' [L _]]]]].
      exists (Some (Out1 y)), a', A. split; [|split; [exact L|exact H']]. intros ck. cbn [dofval]. rewrite !Nat.eqb_refl, !assert_true, E. reflexivity.
    + destruct (MD_solve_nodevec_spec v (z_nelem z) (z_nne z) (z_nnode z) (z_ndim z) (z_ndof z) eq_refl eq_refl Hm a A (rows2 (z_nnode z) (z_ndim z) b) H (rows2_shape _ _ _)) as [y [a' [E [H' [L _]]]]].
      exists (Some (Out2 y)), a', A. split; [|split; [exact L|exact H']]. intros ck. cbn [nodevec]. rewrite !has_shape_refl, !assert_true, E. reflexivity.
Qed.
Lemma d_throws a c : MD_v a = v -> ~ fits_d z c -> run_dcall true a c = Throw.
Proof using V.
  intros Ev F. unfold run_dcall. cbv zeta. rewrite Ev. open_sizes. destruct c as [K|B| |ret|x b|b x]; cbn [fits_d] in F.
  - now apply diag_throws.
  - destruct (a_shape B) as [|n [|]]; try reflexivity. apply assert_throw. intros E. apply Nat.eqb_eq in E. exfalso. apply F. now rewrite E.
  - exfalso. auto.
  - now rewrite (has_shape_neq _ _ F).
  - unfold fits_two in F. destruct (a_shape x) as [|n [|d [|]]], (a_shape b) as [|n' [|d' [|]]]; try reflexivity; apply assert_throw; intros E1; apply assert_throw; intros E2; exfalso; apply F.
    + apply Nat.eqb_eq in E1, E2. left. rewrite E1, E2. now split.
    + apply has_shape_eq in E1, E2. right. now split.
  - unfold fits_two in F. destruct (a_shape b) as [|n [|d [|]]], (a_shape x) as [|n' [|d' [|]]]; try reflexivity; apply assert_throw; intros E1; apply assert_throw; intros E2; exfalso; apply F.
    + apply Nat.eqb_eq in E1, E2. left. rewrite E1, E2. now split.
    + apply has_shape_eq in E1, E2. right. now split.
Qed.
(** before the matrix has a value *)
Lemma init_empty n d : d < n -> get_init (@empty R n) d = Uninit.
Proof. intros Hd. unfold get_init, empty. rewrite (nth_error_nth' _ None) by (rewrite repeat_length; lia). now rewrite nth_repeat. Qed.
Lemma fill1_uninit {A} n (f : nat -> res A) : 0 < n -> f 0 = Uninit -> fill1 n f = Uninit.
Proof. intros Hn E. unfold fill1. destruct n as [|n]; [lia|]. cbn. now rewrite E. Qed.
Lemma mapM_first {A} n (f : nat -> res A) : 0 < n -> f 0 = Uninit -> mapM f (seq 0 n) = Uninit.
Proof. intros Hn E. destruct n as [|n]; [lia|]. cbn. now rewrite E. Qed.
Lemma fill2_uninit {A} n d (f : nat -> nat -> res A) : 0 < n -> 0 < d -> f 0 0 = Uninit -> fill2 n d f = Uninit.
Proof. intros Hn Hd E. unfold fill2. destruct n as [|n]; [lia|]. destruct d as [|d]; [lia|]. cbn. now rewrite E. Qed.
Lemma d_first c ck : fits_d z c -> gives c = false -> run_dcall ck (new_MatrixDiagonal v) c = Uninit.
Proof using V Hm.
  intros F G. unfold run_dcall. cbv zeta. change (MD_v (new_MatrixDiagonal v)) with v. open_sizes.
  pose proof (ndof_pos conn dofs z V) as P. pose proof (vector_ndof conn dofs z V) as Q. fold v in Q.
  assert (FA : MD_factorize (new_MatrixDiagonal v) = Uninit).
  { unfold MD_factorize. cbn [new_MatrixDiagonal MD_changed negb MD_v MD_A]. rewrite Q. rewrite fill1_uninit; [reflexivity|lia|]. now rewrite init_empty by lia. }
  destruct c as [K|B| |ret|x b|b x]; try discriminate; cbn [fits_d] in F; clear G.
  - unfold with_out, MD_data. cbn [new_MatrixDiagonal MD_v MD_A]. rewrite Q, fill1_uninit; [reflexivity|lia|]. apply init_empty. lia.
  - rewrite F, has_shape_refl, assert_true. unfold with_out, MD_todense. cbn [new_MatrixDiagonal MD_v MD_A]. rewrite Q. rewrite mapM_first; [reflexivity|lia|]. now rewrite init_empty by lia.
  - destruct F as [[Ex Eb]|[Ex Eb]]; rewrite Ex, Eb; cbn [dofval nodevec]; rewrite ?Nat.eqb_refl, ?has_shape_refl, !assert_true; unfold with_out.
    + unfold MD_dot_dofval. cbn [new_MatrixDiagonal MD_v MD_A]. rewrite Q, fill1_uninit; [reflexivity|lia|]. now rewrite init_empty by lia.
    + unfold MD_dot_nodevec. cbn [new_MatrixDiagonal MD_v MD_A]. rewrite Q.
      destruct (V_sizes v (z_nelem z) (z_nne z) (z_nnode z) (z_ndim z) (z_ndof z) eq_refl eq_refl Hm) as [_ [S2 _]]. rewrite S2. change (m_ndim v) with (z_ndim z).
      destruct (vm_last _ _ _ V) as [m [i [Hmm [Hii _]]]]. 
      assert (G0 : get2 (m_dofs v) 0 0 = Ok (idx2 (m_dofs v) 0 0)) by (apply (V_get_dof v (z_nelem z) (z_nne z) (z_nnode z) (z_ndim z) (z_ndof z) eq_refl eq_refl Hm); lia).
      assert (D0 : idx2 (m_dofs v) 0 0 < z_ndof z) by (apply (V_dof v (z_nelem z) (z_nne z) (z_nnode z) (z_ndim z) (z_ndof z) eq_refl eq_refl Hm); lia).
      rewrite fill2_uninit; [reflexivity|lia|lia|]. rewrite G0. cbn [bind]. now rewrite init_empty by exact D0.
  - destruct F as [[Ex Eb]|[Ex Eb]]; rewrite Ex, Eb; cbn [dofval nodevec]; rewrite ?Nat.eqb_refl, ?has_shape_refl, !assert_true; unfold MD_solve_dofval, MD_solve_nodevec; rewrite FA; reflexivity.
Qed.
Lemma raw_new : raw (new_MatrixDiagonal v).
Proof using V. split; [reflexivity|]. cbn [new_MatrixDiagonal MD_A]. unfold empty. rewrite repeat_length. exact (vector_ndof conn dofs z V). Qed.
(** a program whose calls are all rejected leaves the matrix as it was *)
Lemma d_rejected : forall l a, MD_v a = v -> Forall (fun c => ~ fits_d z c) l -> program_d true l a = a.
Proof using V. unfold program_d. induction l as [|c l IH]; intros a E F; [reflexivity|]. cbn [fold_left]. apply Forall_cons_iff in F. destruct F as [F Fl]. unfold caught at 2. rewrite (d_throws a c E F). now apply IH. Qed.
Lemma d_program : forall l a A, is a A -> exists A', is (program_d true l a) A'.
Proof using V Hm.
  unfold program_d. induction l as [|c l IH]; intros a A H; [eauto|]. cbn [fold_left]. destruct (fits_d_dec z c) as [F|F].
  - destruct (d_fits a A c H F) as [r [a' [A' [E [_ H']]]]]. unfold caught at 2. rewrite E. cbn [snd]. exact (IH a' A' H').
  - unfold caught at 2. rewrite (d_throws a c (proj1 H) F). exact (IH a A H).
Qed.
(** any program *)
Lemma d_any : forall l a, (a = new_MatrixDiagonal v \/ exists A, is a A) -> let a' := program_d true l a in a' = new_MatrixDiagonal v \/ exists A, is a' A.
Proof using V Hm.
  cbv zeta. unfold program_d. induction l as [|c l IH]; intros a H; [exact H|]. cbn [fold_left]. apply IH. destruct H as [->|[A H]].
  - unfold caught. destruct (fits_d_dec z c) as [F|F]; [|rewrite (d_throws (new_MatrixDiagonal v) c eq_refl F); now left].
    destruct (gives c) eqn:G; [|rewrite (d_first c true F G); now left]. destruct (d_gives _ c raw_new F G) as [a' [A [E H]]]. rewrite E. right. eauto.
  - right. exact (d_program [c] a A H).
Qed.
End D.

Lemma map_some_read l : read_all (map Some l) = Ok l.
Proof. induction l as [|x l IH]; [reflexivity|]. unfold read_all in *. cbn [map mapM bind]. now rewrite IH. Qed.
Lemma read_rows (l : list (list R)) : mapM read_all (map (map Some) l) = Ok l.
Proof. induction l as [|x l IH]; [reflexivity|]. cbn [map mapM]. rewrite map_some_read. cbn [bind]. now rewrite IH. Qed.
Lemma some_rows (y : list (list (option R))) n d : shape2 y n d -> (forall m i, m < n -> i < d -> exists r, nth2 None y m i = Some r) -> exists w, y = map (map Some) w /\ shape2 w n d.
Proof.
  intros [L S] H. assert (Q : exists w, y = map (map Some) w).
  { revert n L H. induction y as [|a y IH]; intros n L H; [now exists []|]. cbn in L.
    destruct (IH) with (n := length y) as [w Ew]; [intros r Hr; apply S; now right|reflexivity|intros m i Hm' Hi; apply (H (Datatypes.S m) i); lia|].
    destruct (some_entries a d) as [u Eu]; [apply S; now left| |exists (u :: w); cbn; now rewrite Eu, Ew].
    intros k Hk. destruct (H 0 k) as [r Hr]; [lia|exact Hk|]. exists r. unfold nth2 in Hr. cbn in Hr. rewrite <- Hr. apply nth_error_nth'. rewrite (S a (or_introl eq_refl)). exact Hk. }
  destruct Q as [w Ew]. exists w. split; [exact Ew|]. subst y. rewrite map_length in L. split; [exact L|]. intros r Hr. specialize (S (map Some r) (in_map _ _ _ Hr)). now rewrite map_length in S.
Qed.

Section P.
Variables conn dofs iip : array nat.
Variable z : sizes.
Variable n : nat.
Hypothesis V : valid_mesh conn dofs z.
Hypothesis I : valid_iip iip z n.
Hypothesis W : without_holes dofs z.
Let v := the_vector conn dofs z.
Let ii := rows1 n iip.
Let Hm := c_mesh conn dofs z V.
Let Hp := p_prescribed iip z n I.
Let Hh := p_holes conn dofs z W.
Variable p : VectorPartitioned.
Hypothesis Ep : new_VectorPartitioned v ii = Ok p.
Notation is := (mdp_is v ii p).
Let nu := z_ndof z - n.

Definition praw (a : MatrixDiagonalPartitioned) : Prop := MDP_p a = p /\ length (Auu a) = nu /\ length (App a) = n.
Lemma p_size : length (setdiff1d (concat (m_dofs v)) ii) = nu /\ length ii = n.
Proof using V I W Hm Hp Hh.
  pose proof (Proof_MatrixPartitioned.ii_length v (z_nelem z) (z_nne z) (z_nnode z) (z_ndim z) (z_ndof z) eq_refl eq_refl Hm ii Hp Hh) as L. unfold ii in L at 2. rewrite rows1_length in L.
  unfold nu, ii. rewrite rows1_length. split; [|reflexivity]. fold ii. change (m_dofs v) with (m_dofs (the_vector conn dofs z)) in *. lia.
Qed.
Lemma p_sizes : vp_v p = v /\ m_nnu p = nu /\ m_nnp p = n.
Proof using V I W Hm Hp Hh Ep.
  destruct (F v (z_nelem z) (z_nne z) (z_nnode z) (z_ndim z) (z_ndof z) eq_refl eq_refl Hm ii Hp Hh p Ep) as [E1 [_ [_ [E4 [E5 _]]]]]. destruct p_size as [S1 S2]. split; [exact E1|]. split; [now rewrite E4|now rewrite E5].
Qed.
Lemma is_praw a A : is a A -> praw a.
Proof using V I W Hm Hp Hh Ep. intros [E [[L1 _] [[L2 _] _]]]. destruct p_size as [S1 S2]. rewrite S1 in L1. rewrite S2 in L2. now repeat split. Qed.
Ltac open_sizes := unfold v; rewrite ?(c_elemmat conn dofs z V), ?(c_nodevec conn dofs z V), ?(vector_ndof conn dofs z V); fold v.

Lemma dp_gives a c : praw a -> fits_d z c -> gives c = true -> exists a' A, (forall ck, run_dpcall ck a (DCommon c) = Ok (None, a')) /\ is a' A.
Proof using V I W Hm Hp Hh Ep.
  intros [Ev [L1 L2]] Q G. destruct p_size as [S1 S2]. unfold run_dpcall. cbv zeta. rewrite Ev, (proj1 p_sizes). open_sizes. destruct c as [K|B| |ret|x b|b x]; try discriminate; cbn [fits_d] in Q.
  - destruct (MDP_assemble_spec v (z_nelem z) (z_nne z) (z_nnode z) (z_ndim z) (z_ndof z) eq_refl eq_refl Hm ii Hp Hh p Ep a (rows3 (z_nelem z) (z_nne z * z_ndim z) (z_nne z * z_ndim z) K) Ev) as [a' [E H]]; [congruence|congruence|apply rows3_shape|].
    exists a'. eexists. split; [|exact H]. intros ck. rewrite diag_fits by exact Q. now rewrite E.
  - rewrite Q. destruct (MDP_set_spec v (z_nelem z) (z_nne z) (z_nnode z) (z_ndim z) (z_ndof z) eq_refl eq_refl Hm ii Hp Hh p Ep a (rows1 (z_ndof z) B) Ev (rows1_length _ _)) as [a' [E H]].
    exists a'. eexists. split; [|exact H]. intros ck. cbn [dofval]. rewrite Nat.eqb_refl, assert_true. now rewrite E.
Qed.
Lemma ent1 (x : array R) k : k < z_ndof z -> nth_error (map Some (rows1 (z_ndof z) x)) k = Some (Some (a_ent x [k])).
Proof. intros Hk. unfold rows1. rewrite !nth_error_map, nth_error_seq. destruct (Nat.ltb_spec k (z_ndof z)); [reflexivity|lia]. Qed.

Lemma dp_fits a A c : is a A -> fits_dp z nu n c -> exists r a' A', (forall ck, run_dpcall ck a c = Ok (r, a')) /\ has_returned r (returned_dp z nu n c) /\ is a' A'.
Proof using V I W Hm Hp Hh Ep.
  intros H Q. destruct (gives_p c) eqn:G.
  { destruct c as [c|xu xp y|xu xp y|xu xp y|x b|xu xp y]; try discriminate. destruct (dp_gives a c (is_praw a A H) Q G) as [a' [A' [E H']]]. exists None, a', A'. split; [exact E|]. split; [|exact H']. destruct c; try discriminate; exact Logic.I. }
  destruct p_size as [S1 S2]. destruct p_sizes as [P1 [P2 P3]]. pose proof (proj1 H) as Ev. unfold run_dpcall. cbv zeta. rewrite Ev, P1, P2, P3. open_sizes.
  destruct c as [[K|B| |ret|x b|b x]|xu xp y|xu xp y|bu xp y|x b|xu xp y]; try discriminate; cbn [fits_d fits_dp returned_d returned_dp] in *; clear G.
  - destruct (MDP_data_spec v (z_nelem z) (z_nne z) (z_nnode z) (z_ndim z) (z_ndof z) eq_refl eq_refl Hm ii Hp Hh p Ep a A H) as [l [E [L _]]]. exists (Some (Out1 l)), a, A. split; [|split; [exact L|exact H]]. intros ck. unfold with_out. now rewrite E.
  - destruct (MDP_todense_spec v (z_nelem z) (z_nne z) (z_nnode z) (z_ndim z) (z_ndof z) eq_refl eq_refl Hm ii Hp Hh p Ep a A H) as [M [E [S _]]]. exists (Some (Out2 M)), a, A. split; [|split; [exact S|exact H]]. intros ck. rewrite Q, has_shape_refl, assert_true. unfold with_out. now rewrite E.
  - destruct Q as [[Ex Eb]|[Ex Eb]]; rewrite Ex, Eb.
    + destruct (MDP_dot_dofval_spec v (z_nelem z) (z_nne z) (z_nnode z) (z_ndim z) (z_ndof z) eq_refl eq_refl Hm ii Hp Hh p Ep a A (rows1 (z_ndof z) x) (rows1 (z_ndof z) b) H (rows1_length _ _) (rows1_length _ _)) as [y [E [L _]]].
      exists (Some (Out1 y)), a, A. split; [|split; [exact L|exact H]]. intros ck. cbn [dofval]. rewrite !Nat.eqb_refl, !assert_true. unfold with_out. now rewrite E.
    + destruct (MDP_dot_nodevec_spec v (z_nelem z) (z_nne z) (z_nnode z) (z_ndim z) (z_ndof z) eq_refl eq_refl Hm ii Hp Hh p Ep a A (rows2 (z_nnode z) (z_ndim z) x) H (rows2_shape _ _ _)) as [y [E [L _]]].
      exists (Some (Out2 y)), a, A. split; [|split; [exact L|exact H]]. intros ck. cbn [nodevec]. rewrite !has_shape_refl, !assert_true. unfold with_out. now rewrite E.
  - destruct Q as [[Ex Eb]|[Ex Eb]]; rewrite Ex, Eb.
    + destruct (MDP_solve_dofval_spec v (z_nelem z) (z_nne z) (z_nnode z) (z_ndim z) (z_ndof z) eq_refl eq_refl Hm ii Hp Hh p Ep a A (rows1 (z_ndof z) b) (map Some (rows1 (z_ndof z) x)) H (rows1_length _ _)) as [y [a' [E [H' [L Y]]]]]; [rewrite map_length; apply rows1_length|].
      destruct (some_entries y (z_ndof z) L) as [w Ew].
      { intros d Hd. destruct (Y d Hd) as [Y1 Y2]. destruct (in_dec Nat.eq_dec d ii) as [T|T]; [rewrite (Y1 T), ent1 by exact Hd; eauto|rewrite (Y2 T); eauto]. }
      exists (Some (Out1 w)), a', A. subst y. rewrite map_length in L. split; [|split; [exact L|exact H']]. intros ck. cbn [dofval]. rewrite !Nat.eqb_refl, !assert_true, E. cbn [bind fst snd]. now rewrite map_some_read.
    + assert (Sx : shape2 (map (map Some) (rows2 (z_nnode z) (z_ndim z) x)) (z_nnode z) (z_ndim z)).
      { destruct (rows2_shape (z_nnode z) (z_ndim z) x) as [A1 A2]. split; [now rewrite map_length|]. intros r Hr. apply in_map_iff in Hr. destruct Hr as [q [<- Hq]]. rewrite map_length. now apply A2. }
      destruct (MDP_solve_nodevec_spec v (z_nelem z) (z_nne z) (z_nnode z) (z_ndim z) (z_ndof z) eq_refl eq_refl Hm ii Hp Hh p Ep a A (rows2 (z_nnode z) (z_ndim z) b) (map (map Some) (rows2 (z_nnode z) (z_ndim z) x)) H (rows2_shape _ _ _) Sx) as [y [a' [E [H' [L Y]]]]].
      destruct (some_rows y (z_nnode z) (z_ndim z) L) as [w [Ew Sw]].
      { intros m i Am Ai. destruct (Y m i Am Ai) as [Y1 Y2]. destruct (in_dec Nat.eq_dec (idx2 (m_dofs v) m i) ii) as [T|T]; [rewrite (Y1 T)|rewrite (Y2 T); eauto].
        destruct (rows2_shape (z_nnode z) (z_ndim z) x) as [A1 A2]. unfold nth2. rewrite (nth_indep _ [] (map Some [])) by (rewrite map_length; lia). rewrite (map_nth (map Some)).
        assert (Lr : length (nth m (rows2 (z_nnode z) (z_ndim z) x) []) = z_ndim z) by (apply A2, nth_In; lia).
        rewrite (nth_indep _ None (Some 0%R)) by (rewrite map_length; lia). rewrite (map_nth Some). eauto. }
      exists (Some (Out2 w)), a', A. subst y. split; [|split; [exact Sw|exact H']]. intros ck. cbn [nodevec]. rewrite !has_shape_refl, !assert_true, E. cbn [bind fst snd]. now rewrite read_rows.
  - destruct Q as [E1 [E2 E3]]. rewrite E1, E2, E3. destruct (MDP_dot_u_spec v (z_nelem z) (z_nne z) (z_nnode z) (z_ndim z) (z_ndof z) eq_refl eq_refl Hm ii Hp Hh p Ep a A (rows1 nu xu) (rows1 n xp) H) as [w [E [L _]]]; [rewrite S1; apply rows1_length|].
    exists (Some (Out1 w)), a, A. split; [|split; [cbn; congruence|exact H]]. intros ck. rewrite !Nat.eqb_refl, !assert_true. unfold with_out. now rewrite E.
  - destruct Q as [E1 [E2 E3]]. rewrite E1, E2, E3. destruct (MDP_dot_p_spec v (z_nelem z) (z_nne z) (z_nnode z) (z_ndim z) (z_ndof z) eq_refl eq_refl Hm ii Hp Hh p Ep a A (rows1 nu xu) (rows1 n xp) H) as [w [E [L _]]]; [rewrite S2; apply rows1_length|].
    exists (Some (Out1 w)), a, A. split; [|split; [cbn; congruence|exact H]]. intros ck. rewrite !Nat.eqb_refl, !assert_true. unfold with_out. now rewrite E.
  - destruct Q as [E1 [E2 E3]]. rewrite E1, E2, E3. destruct (MDP_solve_u_spec v (z_nelem z) (z_nne z) (z_nnode z) (z_ndim z) (z_ndof z) eq_refl eq_refl Hm ii Hp Hh p Ep a A (rows1 nu bu) (rows1 n xp) H) as [w [a' [E [H' [L _]]]]]; [rewrite S1; apply rows1_length|].
    exists (Some (Out1 w)), a', A. split; [|split; [cbn; congruence|exact H']]. intros ck. rewrite !Nat.eqb_refl, !assert_true, E. reflexivity.
  - destruct Q as [[Ex Eb]|[Ex Eb]]; rewrite Ex, Eb.
    + destruct (MDP_reaction_dofval_spec v (z_nelem z) (z_nne z) (z_nnode z) (z_ndim z) (z_ndof z) eq_refl eq_refl Hm ii Hp Hh p Ep a A (rows1 (z_ndof z) x) (rows1 (z_ndof z) b) H (rows1_length _ _) (rows1_length _ _)) as [y [E [L _]]].
      exists (Some (Out1 y)), a, A. split; [|split; [exact L|exact H]]. intros ck. cbn [dofval]. rewrite !Nat.eqb_refl, !assert_true. unfold with_out. now rewrite E.
    + destruct (MDP_reaction_nodevec_spec v (z_nelem z) (z_nne z) (z_nnode z) (z_ndim z) (z_ndof z) eq_refl eq_refl Hm ii Hp Hh p Ep a A (rows2 (z_nnode z) (z_ndim z) x) (rows2 (z_nnode z) (z_ndim z) b) H (rows2_shape _ _ _) (rows2_shape _ _ _)) as [y [E [L _]]].
      exists (Some (Out2 y)), a, A. split; [|split; [exact L|exact H]]. intros ck. cbn [nodevec]. rewrite !has_shape_refl, !assert_true. unfold with_out. now rewrite E.
  - destruct Q as [E1 [E2 E3]]. rewrite E1, E2, E3. destruct (MDP_reaction_p_spec v (z_nelem z) (z_nne z) (z_nnode z) (z_ndim z) (z_ndof z) eq_refl eq_refl Hm ii Hp Hh p Ep a A (rows1 nu xu) (rows1 n xp) (map Some (rows1 n y)) H) as [_ R]; [rewrite S2; apply rows1_length|].
    destruct R as [r [E [L [Y _]]]]; [rewrite S2, map_length, rows1_length; lia|]. rewrite map_length, rows1_length in L.
    destruct (some_entries r n L) as [w Ew]; [intros d Hd; rewrite Y by (rewrite S2; exact Hd); eauto|]. subst r. rewrite map_length in L.
    exists (Some (Out1 w)), a, A. split; [|split; [exact L|exact H]]. intros ck. rewrite !Nat.eqb_refl, !assert_true, E. cbn [bind]. now rewrite map_some_read.
Qed.

Lemma dp_throws a c : MDP_p a = p -> ~ fits_dp z nu n c -> run_dpcall true a c = Throw.
Proof using V I W Hm Hp Hh Ep.
  intros Ev Q. destruct p_sizes as [P1 [P2 P3]]. unfold run_dpcall. cbv zeta. rewrite Ev, P1, P2, P3. open_sizes.
  destruct c as [[K|B| |ret|x b|b x]|xu xp y|xu xp y|xu xp y|x b|xu xp y]; cbn [fits_dp fits_d] in Q.
  - now apply diag_throws.
  - destruct (a_shape B) as [|k [|]]; try reflexivity. apply assert_throw. intros E. apply Nat.eqb_eq in E. exfalso. apply Q. now rewrite E.
  - exfalso. auto.
  - now rewrite (has_shape_neq _ _ Q).
  - unfold fits_two in Q. destruct (a_shape x) as [|k [|d [|]]], (a_shape b) as [|k' [|d' [|]]]; try reflexivity; apply assert_throw; intros E1; apply assert_throw; intros E2; exfalso; apply Q.
    + apply Nat.eqb_eq in E1, E2. left. rewrite E1, E2. now split.
    + apply has_shape_eq in E1, E2. right. now split.
  - unfold fits_two in Q. destruct (a_shape b) as [|k [|d [|]]], (a_shape x) as [|k' [|d' [|]]]; try reflexivity; apply assert_throw; intros E1; apply assert_throw; intros E2; exfalso; apply Q.
    + apply Nat.eqb_eq in E1, E2. left. rewrite E1, E2. now split.
    + apply has_shape_eq in E1, E2. right. now split.
  - destruct (a_shape xu) as [|k1 [|]], (a_shape xp) as [|k2 [|]], (a_shape y) as [|k3 [|]]; try reflexivity. apply assert_throw; intros E1; apply assert_throw; intros E2; apply assert_throw; intros E3. apply Nat.eqb_eq in E1, E2, E3. exfalso. apply Q. now rewrite E1, E2, E3.
  - destruct (a_shape xu) as [|k1 [|]], (a_shape xp) as [|k2 [|]], (a_shape y) as [|k3 [|]]; try reflexivity. apply assert_throw; intros E1; apply assert_throw; intros E2; apply assert_throw; intros E3. apply Nat.eqb_eq in E1, E2, E3. exfalso. apply Q. now rewrite E1, E2, E3.
  - destruct (a_shape xu) as [|k1 [|]], (a_shape xp) as [|k2 [|]], (a_shape y) as [|k3 [|]]; try reflexivity. apply assert_throw; intros E1; apply assert_throw; intros E2; apply assert_throw; intros E3. apply Nat.eqb_eq in E1, E2, E3. exfalso. apply Q. now rewrite E1, E2, E3.
  - unfold fits_two in Q. destruct (a_shape x) as [|k [|d [|]]], (a_shape b) as [|k' [|d' [|]]]; try reflexivity; apply assert_throw; intros E1; apply assert_throw; intros E2; exfalso; apply Q.
    + apply Nat.eqb_eq in E1, E2. left. rewrite E1, E2. now split.
    + apply has_shape_eq in E1, E2. right. now split.
  - destruct (a_shape xu) as [|k1 [|]], (a_shape xp) as [|k2 [|]], (a_shape y) as [|k3 [|]]; try reflexivity. apply assert_throw; intros E1; apply assert_throw; intros E2; apply assert_throw; intros E3. apply Nat.eqb_eq in E1, E2, E3. exfalso. apply Q. now rewrite E1, E2, E3.
Qed.
Lemma dp_rejected : forall l a, MDP_p a = p -> Forall (fun c => ~ fits_dp z nu n c) l -> program_dp true l a = a.
Proof using V I W Hm Hp Hh Ep. unfold program_dp. induction l as [|c l IH]; intros a E Q; [reflexivity|]. cbn [fold_left]. apply Forall_cons_iff in Q. destruct Q as [Q Ql]. unfold caught at 2. rewrite (dp_throws a c E Q). now apply IH. Qed.
Lemma dp_program : forall l a A, is a A -> exists A', is (program_dp true l a) A'.
Proof using V I W Hm Hp Hh Ep.
  unfold program_dp. induction l as [|c l IH]; intros a A H; [eauto|]. cbn [fold_left]. destruct (fits_dp_dec z nu n c) as [Q|Q].
  - destruct (dp_fits a A c H Q) as [r [a' [A' [E [_ H']]]]]. unfold caught at 2. rewrite E. cbn [snd]. exact (IH a' A' H').
  - unfold caught at 2. rewrite (dp_throws a c (proj1 H) Q). exact (IH a A H).
Qed.
End P.

Lemma dp_matrix conn dofs iip z n : valid_mesh conn dofs z -> valid_iip iip z n -> exists p, new_VectorPartitioned (the_vector conn dofs z) (rows1 n iip) = Ok p /\
  forall ck, new_MatrixDiagonalPartitioned_checked ck conn dofs iip = Ok (mkMDP p (empty (m_nnu p)) (empty (m_nnp p)) (empty (m_nnu p)) true).
Proof.
  intros V I. set (v := the_vector conn dofs z). set (ii := rows1 n iip). destruct (new_VP v ii (p_NoDup iip z n I)) as [p Ep]. exists p. split; [exact Ep|]. intros ck.
  unfold new_MatrixDiagonalPartitioned_checked. rewrite (vm_conn _ _ _ V), (vm_dofs _ _ _ V), (proj1 I). cbv zeta. fold ii. change (mkVector (rows2 (z_nelem z) (z_nne z) conn) (z_nne z) (rows2 (z_nnode z) (z_ndim z) dofs) (z_ndim z)) with v.
  rewrite (proj2 (is_unique_spec ii) (p_NoDup iip z n I)), (proj2 (is_unique_spec (setdiff1d (concat (m_dofs v)) ii)) (setdiff1d_NoDup _ _)), !assert_true.
  pose proof (vector_ndof conn dofs z V) as Q. fold v in Q.
  assert (E1 : (amax (concat (m_conn v)) + 1 <=? z_nnode z) = true).
  { pose proof (new_ok true conn dofs z V) as N. unfold new_Vector in N. rewrite (vm_conn _ _ _ V), (vm_dofs _ _ _ V) in N. cbv zeta in N. apply assert_ok in N. exact (proj2 N). }
  assert (E2 : (m_ndof v <=? z_nnode z * z_ndim z) = true).
  { pose proof (new_ok true conn dofs z V) as N. unfold new_Vector in N. rewrite (vm_conn _ _ _ V), (vm_dofs _ _ _ V) in N. cbv zeta in N. apply assert_ok in N. destruct N as [N _]. apply assert_ok in N. exact (proj2 N). }
  assert (E3 : (amax ii <=? amax (concat (m_dofs v))) = true).
  { apply Nat.leb_le. apply amax_lub. intros x Hx. apply (p_prescribed iip z n I) in Hx. unfold m_ndof in Q. lia. }
  rewrite E1, E2, E3, !assert_true. unfold new_MatrixDiagonalPartitioned. now rewrite Ep.
Qed.
Lemma dp_matrix_throw conn dofs iip : (forall z n, valid_mesh conn dofs z -> ~ valid_iip iip z n) -> new_MatrixDiagonalPartitioned_checked true conn dofs iip = Throw.
Proof.
  intros H. unfold new_MatrixDiagonalPartitioned_checked. destruct (a_shape conn) as [|nelem [|nne [|]]] eqn:Sc; try reflexivity. destruct (a_shape dofs) as [|nnode [|ndim [|]]] eqn:Sd; try reflexivity.
  destruct (a_shape iip) as [|n [|]] eqn:Si; try reflexivity. cbv zeta. set (v := mkVector (rows2 nelem nne conn) nne (rows2 nnode ndim dofs) ndim).
  apply assert_throw. intros E1. apply assert_throw. intros E2. apply assert_throw. intros E4. apply assert_throw. intros E3. exfalso.
  assert (Ev : new_Vector true conn dofs = Ok v). { unfold new_Vector. rewrite Sc, Sd. cbv zeta. fold v. now rewrite E2, E4, !assert_true. }
  destruct (new_inv _ _ _ Ev) as [V _]. apply (H _ n V). split; [exact Si|]. split.
  - intros k Hk. apply Nat.leb_le in E3. cbn [sizes_of z_ndof]. unfold m_ndof. assert (Q : a_ent iip [k] <= amax (rows1 n iip)) by (apply amax_ge, in_rows1; eauto). lia.
  - apply is_unique_spec in E1. unfold rows1 in E1. intros k l Hk Hl E.
    assert (N := proj1 (NoDup_nth (map (fun i => a_ent iip [i]) (seq 0 n)) (a_ent iip [0])) E1 k l).
    rewrite !map_length, !seq_length in N. apply N; [lia|lia|]. rewrite !(map_nth (fun i => a_ent iip [i])), !seq_nth by lia. exact E.
Qed.
