(** Lemmas for C108_raise. *)
From Coq Require Import Reals Lra Lia.
From Verif Require Import Model_Element Spec_Element Base Spec Sums Spec_Vector Model_Numbering Model_Vector Model_Sparse Model_Tyings Model_Matrix Model_MatrixPartitioned Model_MatrixTyings Model_MeshGeometry Model_Pipeline Spec_Pipeline
  Model_PeriodicProgram Model_FiniteStrain Model_NewtonLoop Spec_NewtonLoop Proof_NewtonLoop.

Lemma inv {A B} (x : res A) (f : A -> res B) r : bind x f = Ok r -> exists a, x = Ok a /\ f a = Ok r.
Proof. destruct x; cbn [bind]; intros H; try discriminate. eauto. Qed.
Lemma set_len {B} (l : list B) i x l' : set l i x = Ok l' -> length l' = length l.
Proof.
  intros E. destruct (le_lt_dec (length l) i) as [L|L]; [rewrite (set_Oob l i x L) in E; discriminate|]. destruct (set_Ok l i x L) as (l2 & E2 & L2 & _). congruence.
Qed.
Lemma foldM_len {A B} (f : list B -> A -> res (list B)) : (forall r a r', f r a = Ok r' -> length r' = length r) -> forall l r r', foldM f l r = Ok r' -> length r' = length r.
Proof.
  intros H. induction l as [|a l IH]; intros r r' E; cbn [foldM] in E; [now injection E as <-|]. apply inv in E. destruct E as (r1 & E1 & E2). rewrite (IH _ _ E2). exact (H _ _ _ E1).
Qed.
Lemma AsDofs_i_length t o o' x y : AsDofs_i t o o' x = Ok y -> length y = vt_nni t.
Proof.
  unfold AsDofs_i, asDofs_i. intros E. apply inv in E. destruct E as (ws & _ & E). apply inv in E. destruct E as (di & Ed & E).
  assert (L : length di = vt_nni t). { unfold write_all in Ed. apply foldM_len in Ed; [now rewrite repeat_length in Ed|]. intros r a r'. apply set_len. }
  cbn [negb] in E. apply inv in E. destruct E as (dd & _ & E). apply inv in E. destruct E as (Dd & _ & E). apply inv in E. destruct E as (Di & _ & E).
  apply foldM_len in E; [congruence|]. intros r a r' F. apply inv in F. destruct F as (u & _ & F). unfold add_at in F. apply inv in F. destruct F as (w & _ & F). exact (set_len _ _ _ _ F).
Qed.
Lemma forces_length vt os fext fint Fx Fi : periodic_forces vt os fext fint = Ok (Fx, Fi) -> length Fx = length Fi.
Proof.
  unfold periodic_forces. intros E. apply inv in E. destruct E as (Gx & E1 & E). apply inv in E. destruct E as (Gi & E2 & E). apply inv in E. destruct E as (Fr & E3 & E). injection E as <- <-.
  apply AsDofs_i_length in E1, E2. unfold vt_copy_p in E3. apply foldM_len in E3; [congruence|]. intros r a r' F. apply inv in F. destruct F as (w & _ & F). exact (set_len _ _ _ _ F).
Qed.
Lemma residual_above Fx Fi tol : length Fx = length Fi -> ~ (residual Fx Fi < tol)%R -> (tol * reference Fx <= sumn (length Fx) (fun d => Rabs (val1 Fx d - val1 Fi d)))%R.
Proof.
  intros L. unfold residual, reference. rewrite (diff_abs Fx Fi L), sum_abs_eq. pose proof (magnitude_pos Fx) as P. destruct (Req_EM_T (magnitude Fx) 0) as [Z|Z]; [lra|]. intros Hr.
  assert (Q : (0 < magnitude Fx)%R) by lra. apply Rnot_lt_le in Hr. apply (Rmult_le_compat_r (magnitude Fx)) in Hr; [|lra]. unfold Rdiv in Hr. rewrite Rmult_assoc, Rinv_l, Rmult_1_r in Hr by lra. exact Hr.
Qed.

Section S.
Variables (M : Material) (G : Geometry) (linsolve : mat -> list R -> list R) (vt : VectorTyings) (cn : list nat) (lm : loop_memory) (fext : list (list R)) (tol : R).
Notation v := (vt_v vt).
(** a state in which strain, stress and internal force are those of its displacement *)
Definition evaluated (s : loop_state M G) : Prop :=
  exists ue m0 c c', AsElement_nodevec v (ls_disp _ _ s) = Ok ue /\ ls_mat _ _ s = mat_refresh M m0 (geo_strain G (ls_geo _ _ s) c (of_rows ue)) /\
    AssembleNode v (to_rows (m_nelem v) (el_nne (geo_elem G (ls_geo _ _ s))) (el_ndim (geo_elem G (ls_geo _ _ s))) (el_Int_gradN_dot_tensor2_dV (geo_elem G (ls_geo _ _ s)) c' (mat_Sig M (ls_mat _ _ s)))) = Ok (ls_fint _ _ s).
(** the forces are not in balance *)
Definition above (inc i : nat) (s : loop_state M G) : Prop :=
  exists Fx Fi, periodic_forces vt (lm_os lm inc i) fext (ls_fint _ _ s) = Ok (Fx, Fi) /\ (tol * reference Fx <= sumn (length Fx) (fun d => Rabs (val1 Fx d - val1 Fi d)))%R.

Lemma evaluate_inv mem st st1 : evaluate M G vt mem st = Ok st1 -> evaluated st1.
Proof.
  unfold evaluate. intros E. apply inv in E. destruct E as (ue & Eu & E). apply inv in E. destruct E as (fint & Ef & E). apply inv in E. destruct E as (K & _ & E). injection E as <-.
  exists ue, (ls_mat _ _ st), (r_eps0 mem), (r_f0 mem). cbn [ls_disp ls_mat ls_geo ls_fint]. auto.
Qed.
Lemma check_inv inc i st d : check M G vt fext (lm_os lm inc i) tol i st = Ok d ->
  (d = Break \/ 0 < i -> d = Break \/ above inc i st) /\ (d = Raise -> 20 < i) /\ (d = Continue -> i <= 20).
Proof.
  unfold check. destruct (Nat.ltb_spec 0 i) as [L|L].
  - intros E. apply inv in E. destruct E as ([Fx Fi] & EF & E). cbn [fst snd] in E. destruct (Rlt_dec (residual Fx Fi) tol) as [Q|Q]; [injection E as <-; repeat split; auto; discriminate|].
    assert (A : above inc i st). { exists Fx, Fi. split; [exact EF|]. apply residual_above; [exact (forces_length _ _ _ _ _ _ EF)|exact Q]. }
    destruct (Nat.ltb_spec 20 i); injection E as <-; (split; [auto|split; intros; (discriminate || lia)]).
  - intros E. injection E as <-. split; [intros [?|?]; [discriminate|lia]|]. split; [discriminate|lia].
Qed.
Lemma iterations_none inc dg : forall n i st, iterations M G linsolve vt cn lm fext n inc i tol dg st = Ok None -> i <= 21 ->
  exists s : nat -> loop_state M G, forall j, 1 <= j -> i <= j <= 21 -> evaluated (s j) /\ above inc j (s j).
Proof.
  induction n as [|n IH]; intros i st E Hi; cbn [iterations] in E; [discriminate|].
  apply inv in E. destruct E as (st1 & E1 & E). apply inv in E. destruct E as (d & Ed & E). pose proof (check_inv _ _ _ _ Ed) as (A & B & C).
  assert (A' : 0 < i -> d <> Break -> evaluated st1 /\ above inc i st1). { intros Q1 Q2. split; [exact (evaluate_inv _ _ _ E1)|]. destruct (A (or_intror Q1)); [congruence|assumption]. }
  destruct d; [discriminate| |].
  - specialize (B eq_refl). exists (fun _ => st1). intros j H1 H2. replace j with i by lia. apply A'; [lia|discriminate].
  - specialize (C eq_refl). apply inv in E. destruct E as (st2 & _ & E). destruct (IH _ _ E ltac:(lia)) as [s Hs].
    exists (fun j => if j =? i then st1 else s j). intros j H1 H2. destruct (Nat.eqb_spec j i) as [->|N]; [apply A'; [lia|discriminate]|]. apply Hs; lia.
Qed.
Lemma increments_none : forall dgammas inc st, increments M G linsolve vt cn lm fext inc tol dgammas st = Ok None ->
  exists k sk, k < length dgammas /\ increments M G linsolve vt cn lm fext inc tol (firstn k dgammas) st = Ok (Some sk) /\
    exists s : nat -> loop_state M G, forall j, 1 <= j <= 21 -> evaluated (s j) /\ above (inc + k) j (s j).
Proof.
  induction dgammas as [|dg dgs IH]; intros inc st E; cbn [increments] in E; [discriminate|]. apply inv in E. destruct E as (r & Er & E). destruct r as [st1|].
  - destruct (IH _ _ E) as (k & sk & Lk & Ek & s & Hs). exists (S k), sk. split; [cbn; lia|]. split; [cbn [firstn increments]; rewrite Er; exact Ek|]. exists s. intros j Hj. replace (inc + S k) with (S inc + k) by lia. now apply Hs.
  - destruct (iterations_none _ _ _ _ _ Er ltac:(lia)) as [s Hs]. exists 0, st. split; [cbn; lia|]. split; [reflexivity|]. exists s. intros j Hj. rewrite Nat.add_0_r. apply Hs; lia.
Qed.
End S.
