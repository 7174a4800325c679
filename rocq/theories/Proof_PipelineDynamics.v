(** The dynamics program: one increment, momentum, reversibility. *)
From Coq Require Import Reals Lra Lia.
From Verif Require Import Model_Element Spec_Element Base Spec Sums Spec_Vector Spec_Matrix Spec_MatrixDiagonal Model_Numbering Model_Vector Proof_Vector Proof_Matrix Model_MatrixDiagonal Proof_MatrixDiagonal Model_MeshGeometry Model_Pipeline Spec_Pipeline Proof_PipelineElem Proof_Pipeline Proof_PipelineBalance.

Section D.
Set Default Proof Using "All".
Variable v : Vector.
Variable E : Elem.
Variables nelem nnode ndof : nat.
Notation nne := (el_nne E). Notation ndim := (el_ndim E).
Hypothesis Hne : m_nne v = nne.
Hypothesis Hnd : m_ndim v = ndim.
Hypothesis Hmd : mesh_dofs (m_conn v) (m_dofs v) nelem nne nnode ndim ndof.
Notation dof := (idx2 (m_dofs v)).
Notation node := (idx2 (m_conn v)).
Notation mdis := (md_is v ndof).
Notation nodal u := (shape2 u nnode ndim /\ agree2 (m_dofs v) nnode ndim u).
Notation shp u := (shape2 u nnode ndim).

Lemma scal2_shape t a : shape2 a nnode ndim -> shape2 (scal2 t a) nnode ndim.
Proof. apply scale_shape. Qed.
Lemma scal2_val t a n i : shape2 a nnode ndim -> n < nnode -> i < ndim -> val2 (scal2 t a) n i = (t * val2 a n i)%R.
Proof. apply scale_val. Qed.
Lemma add2_shape a b : shape2 a nnode ndim -> shape2 b nnode ndim -> shape2 (add2 a b) nnode ndim.
Proof. apply zip2_shape. Qed.
Lemma sub2_shape a b : shape2 a nnode ndim -> shape2 b nnode ndim -> shape2 (sub2 a b) nnode ndim.
Proof. apply zip2_shape. Qed.
Lemma add2_val a b n i : shape2 a nnode ndim -> shape2 b nnode ndim -> n < nnode -> i < ndim -> val2 (add2 a b) n i = (val2 a n i + val2 b n i)%R.
Proof. intros. unfold add2. now rewrite (zip2_val Rplus _ _ nnode ndim). Qed.
Lemma sub2_val a b n i : shape2 a nnode ndim -> shape2 b nnode ndim -> n < nnode -> i < ndim -> val2 (sub2 a b) n i = (val2 a n i - val2 b n i)%R.
Proof. intros. unfold sub2. now rewrite (zip2_val Rminus _ _ nnode ndim). Qed.

Ltac shps := repeat first [assumption | apply scal2_shape | apply add2_shape | apply sub2_shape].

(** the internal force and its degrees of freedom *)
Lemma force_dofs law c1 c2 u : shape2 u nnode ndim -> exists sig f b, internal_force v E law c1 c2 u = Ok f /\ nodal f /\
  AssembleDofs_elemvec v (to_rows nelem nne ndim (el_Int_gradN_dot_tensor2_dV E c2 sig)) = Ok b /\ length b = ndof /\
  forall n i, n < nnode -> i < ndim -> val2 f n i = val1 b (dof n i).
Proof.
  intros Hu. destruct (AsElement_nodevec_spec v nelem nne nnode ndim ndof Hne Hnd Hmd u Hu) as [ue [Eu [Su Hue]]].
  set (sig := law (el_SymGradN_vector E c1 (of_rows ue))). exists sig.
  destruct (AssembleDofs_elemvec_spec v nelem nne nnode ndim ndof Hne Hnd Hmd _ (to_rows_shape nelem nne ndim (el_Int_gradN_dot_tensor2_dV E c2 sig))) as [b [Eb [Lb Vb]]].
  destruct (AsNode_dofval_spec v nelem nne nnode ndim ndof Hne Hnd Hmd b Lb) as [f [Ef [Sf Vf]]].
  exists f, b. split.
  - unfold internal_force, internal_force_of. rewrite Eu. cbn [bind]. destruct (V_sizes v nelem nne nnode ndim ndof Hne Hnd Hmd) as [-> _].
    unfold AssembleNode. fold sig. rewrite Eb. cbn [bind]. exact Ef.
  - split; [|split; [exact Eb|split; [exact Lb|exact Vf]]]. split; [exact Sf|].
    intros m i n j Hm Hi Hn Hj Ed. rewrite !Vf by assumption. now rewrite Ed.
Qed.

(** one increment *)
Lemma verlet_spec law fext dt M A c1 c2 u w a : mdis M A -> nodal fext -> shp u -> nodal w -> nodal a ->
  exists f u' w' a' M', internal_force v E law c1 c2 u' = Ok f /\ nodal f /\ verlet_step v E law fext dt (u, w, a, M) (c1, c2) = Ok (u', w', a', M') /\
    mdis M' A /\ shp u' /\ nodal w' /\ nodal a' /\ forall n i, n < nnode -> i < ndim ->
      val2 u' n i = (val2 u n i + dt * val2 w n i + / 2 * (dt * dt) * val2 a n i)%R /\
      val2 a' n i = (1 / A (dof n i) * (val2 fext n i - val2 f n i))%R /\
      val2 w' n i = (val2 w n i + / 2 * dt * (val2 a n i + val2 a' n i))%R.
Proof.
  intros HM [Sf Af] Su [Sw Aw] [Sa Aa].
  set (u' := add2 (add2 u (scal2 dt w)) (scal2 (/ 2 * (dt * dt)) a)).
  assert (Su' : shape2 u' nnode ndim) by (apply add2_shape; [apply add2_shape|]; try assumption; now apply scal2_shape).
  assert (Vu' : forall n i, n < nnode -> i < ndim -> val2 u' n i = (val2 u n i + dt * val2 w n i + / 2 * (dt * dt) * val2 a n i)%R).
  { intros n i Hn Hi. unfold u'. rewrite !add2_val, !scal2_val by shps. reflexivity. }
  destruct (force_dofs law c1 c2 u' Su') as [sig [f [b [Ef [[Sff Aff] _]]]]].
  assert (Sr : shape2 (sub2 fext f) nnode ndim) by now apply sub2_shape.
  destruct (MD_solve_nodevec_spec v nelem nne nnode ndim ndof Hne Hnd Hmd M A (sub2 fext f) HM Sr) as [a1 [M1 [E1 [H1 [S1 V1]]]]].
  destruct (MD_solve_nodevec_spec v nelem nne nnode ndim ndof Hne Hnd Hmd M1 A (sub2 fext f) H1 Sr) as [a2 [M2 [E2 [H2 [S2 V2]]]]].
  destruct (MD_solve_nodevec_spec v nelem nne nnode ndim ndof Hne Hnd Hmd M2 A (sub2 fext f) H2 Sr) as [a3 [M3 [E3 [H3 [S3 V3]]]]].
  assert (Va : forall n i, n < nnode -> i < ndim -> val2 a3 n i = (1 / A (dof n i) * (val2 fext n i - val2 f n i))%R).
  { intros n i Hn Hi. now rewrite V3, sub2_val. }
  assert (Vw : forall n i, n < nnode -> i < ndim -> val2 (add2 w (scal2 (/ 2 * dt) (add2 a a2))) n i = (val2 w n i + / 2 * dt * (val2 a n i + val2 a3 n i))%R).
  { intros n i Hn Hi. rewrite add2_val, scal2_val, add2_val, V2, V3 by shps. reflexivity. }
  assert (Aa3 : agree2 (m_dofs v) nnode ndim a3).
  { intros m i n j Hm Hi Hn Hj Ed. rewrite !Va by assumption. now rewrite Ed, (Af m i n j), (Aff m i n j). }
  exists f, u', (add2 w (scal2 (/ 2 * dt) (add2 a a2))), a3, M3. split; [exact Ef|]. split; [now split|]. split.
  { unfold verlet_step. cbn [fst snd]. fold u'. rewrite Ef. cbn [bind]. rewrite E1. cbn [bind fst snd]. rewrite E2. cbn [bind fst snd]. rewrite E3. reflexivity. }
  split; [exact H3|]. split; [|split; [|split]].
  - exact Su'.
  - split; [apply add2_shape; [assumption|apply scal2_shape; now apply add2_shape]|].
    intros m i n j Hm Hi Hn Hj Ed. rewrite !Vw by assumption. now rewrite (Aw m i n j), (Aa m i n j), (Aa3 m i n j).
  - now split.
  - intros n i Hn Hi. split; [now apply Vu'|]. split; [now apply Va|now apply Vw].
Qed.

(** a mass for every degree of freedom: every one is of some node *)
Lemma mass_no_holes Km d : assembled_diag (m_conn v) (m_dofs v) nelem nne ndim Km d <> 0%R -> exists n i, n < nnode /\ i < ndim /\ dof n i = d.
Proof.
  intros Hm. destruct (in_dec Nat.eq_dec d (concat (m_dofs v))) as [Hin|Hin].
  - apply in_concat in Hin. destruct Hin as [r [Hr Hd]]. apply (In_nth _ _ []) in Hr. destruct Hr as [n [Hn <-]]. apply (In_nth _ _ 0) in Hd. destruct Hd as [i [Hi <-]].
    destruct (md_dofs _ _ _ _ _ _ _ Hmd) as [L S]. rewrite L in Hn. exists n, i. split; [exact Hn|]. split; [|reflexivity].
    rewrite S in Hi; [exact Hi|]. apply nth_In. lia.
  - exfalso. apply Hm. unfold assembled_diag, sum_elem. apply sumn_zero. intros e He. apply sumn_zero. intros m Hm'. apply sumn_zero. intros i Hi.
    destruct (Nat.eqb_spec (dof (node e m) i) d) as [Ed|Ed]; [|unfold ind; lra]. exfalso. apply Hin. rewrite <- Ed.
    pose proof (V_node v nelem nne nnode ndim ndof Hne Hnd Hmd e m He Hm') as Hn. destruct (md_dofs _ _ _ _ _ _ _ Hmd) as [L S].
    apply in_concat. exists (nth (node e m) (m_dofs v) []). split; [apply nth_In; lia|]. apply nth_In. rewrite S; [exact Hi|apply nth_In; lia].
Qed.


(** reversibility *)
Section R.
Variable x : arr.
Hypothesis Hx : elem_obj nelem x E.
Variable law : arr -> arr.
Hypothesis Hlaw : local_law nelem E law.
Variable fext : list (list R).
Hypothesis Nf : nodal fext.
Variable dt : R.
Variable A : nat -> R.

Lemma force_call c1 c2 c1' c2' u : valid_call nelem c1 -> valid_call nelem c2 -> valid_call nelem c1' -> valid_call nelem c2' -> shape2 u nnode ndim ->
  internal_force v E law c1 c2 u = internal_force v E law c1' c2' u.
Proof.
  intros H1 H2 H1' H2' Hu. destruct (elem_obj_raw _ _ _ Hx) as [B Ho].
  apply (force_ext v E nelem nnode ndof Hne Hnd Hmd B Ho); try assumption. intros ue Hue e q i j He Hq Hi Hj.
  apply Hlaw; try assumption. intros i' j' Hi' Hj'. rewrite (o_sym2 nelem E B Ho c1 c1 (of_rows ue) (of_rows ue)), (o_sym2 nelem E B Ho c1' c1 (of_rows ue) (of_rows ue)) by (try assumption; reflexivity). reflexivity.
Qed.

Definition in_balance (u a : list (list R)) : Prop := forall c1 c2 f, valid_call nelem c1 -> valid_call nelem c2 -> internal_force v E law c1 c2 u = Ok f ->
  forall n i, n < nnode -> i < ndim -> val2 a n i = (1 / A (dof n i) * (val2 fext n i - val2 f n i))%R.
Definition ok_calls (c : call * call) := valid_call nelem (fst c) /\ valid_call nelem (snd c).
Notation step := (verlet_step v E law fext dt).

Lemma reverse_step M c M' c' u w a : mdis M A -> mdis M' A -> ok_calls c -> ok_calls c' -> shp u -> nodal w -> nodal a -> in_balance u a ->
  exists u1 w1 a1 M1, step (u, w, a, M) c = Ok (u1, w1, a1, M1) /\ mdis M1 A /\ shp u1 /\ nodal w1 /\ nodal a1 /\ in_balance u1 a1 /\
    exists M2, step (u1, scal2 (-1) w1, a1, M') c' = Ok (u, scal2 (-1) w, a, M2) /\ mdis M2 A.
Proof.
  destruct c as [c1 c2], c' as [c3 c4]. intros HM HM' [H1 H2] [H3 H4] Nu Nw Na Hb. cbn [fst snd] in *.
  destruct (verlet_spec law fext dt M A c1 c2 u w a HM Nf Nu Nw Na) as [f [u1 [w1 [a1 [M1 [Ef [Nff [E1 [HM1 [Nu1 [Nw1 [Na1 V1]]]]]]]]]]]].
  exists u1, w1, a1, M1. split; [exact E1|]. split; [exact HM1|]. split; [exact Nu1|]. split; [exact Nw1|]. split; [exact Na1|].
  assert (B1 : in_balance u1 a1).
  { intros c c' f' Hc Hc' Ef' n i Hn Hi. rewrite (force_call c c' c1 c2 u1) in Ef' by assumption. rewrite Ef in Ef'. injection Ef' as <-. now apply V1. }
  split; [exact B1|].
  assert (Nn : nodal (scal2 (-1) w1)).
  { destruct Nw1 as [S1 A1]. split; [shps|]. intros m i n j Hm Hi Hn Hj Ed. rewrite !scal2_val by assumption. now rewrite (A1 m i n j). }
  destruct (verlet_spec law fext dt M' A c3 c4 u1 (scal2 (-1) w1) a1 HM' Nf Nu1 Nn Na1) as [f2 [u2 [w2 [a2 [M2 [Ef2 [Nf2 [E2 [HM2 [Nu2 [Nw2 [Na2 V2]]]]]]]]]]]].
  pose proof Nu as Su. pose proof Nu1 as Su1. pose proof Nu2 as Su2. destruct Nw as [Sw Aw], Na as [Sa Aa], Nw1 as [Sw1 Aw1], Na1 as [Sa1 Aa1], Nw2 as [Sw2 Aw2], Na2 as [Sa2 Aa2].
  assert (Eu : u2 = u).
  { apply (list_ext2 0%R _ _ nnode ndim); try assumption. intros n i Hn Hi. change (val2 u2 n i = val2 u n i). destruct (V1 n i Hn Hi) as [Y1 [_ Y3]]. destruct (V2 n i Hn Hi) as [Z1 [_ _]].
    rewrite Z1, scal2_val, Y3, Y1 by assumption. field. }
  rewrite Eu in *.
  assert (Ea : a2 = a).
  { apply (list_ext2 0%R _ _ nnode ndim); try assumption. intros n i Hn Hi. change (val2 a2 n i = val2 a n i). rewrite (proj1 (proj2 (V2 n i Hn Hi))). symmetry. now apply (Hb c3 c4). }
  rewrite Ea in *.
  assert (Ew : w2 = scal2 (-1) w).
  { apply (list_ext2 0%R _ _ nnode ndim); try assumption; [shps|]. intros n i Hn Hi. change (val2 w2 n i = val2 (scal2 (-1) w) n i). destruct (V1 n i Hn Hi) as [_ [_ Y3]]. destruct (V2 n i Hn Hi) as [_ [_ Z3]].
    rewrite Z3, !scal2_val, Y3 by assumption. field. }
  rewrite Ew in *. exists M2. split; [exact E2|exact HM2].
Qed.

Lemma foldM_app {S X} (g : S -> X -> res S) l1 l2 s s' : foldM g l1 s = Ok s' -> foldM g (l1 ++ l2) s = foldM g l2 s'.
Proof.
  revert s. induction l1 as [|a l1 IH]; intros s H; cbn [foldM app] in *; [now injection H as ->|].
  destruct (g s a); cbn [bind] in *; try discriminate. now apply IH.
Qed.

Lemma reverse cs : forall cs', length cs' = length cs -> Forall ok_calls cs -> Forall ok_calls cs' ->
  forall M u w a, mdis M A -> shp u -> nodal w -> nodal a -> in_balance u a ->
  exists u1 w1 a1 M1, foldM step cs (u, w, a, M) = Ok (u1, w1, a1, M1) /\ mdis M1 A /\
    forall M', mdis M' A -> exists M2, foldM step cs' (u1, scal2 (-1) w1, a1, M') = Ok (u, scal2 (-1) w, a, M2) /\ mdis M2 A.
Proof.
  induction cs as [|c cs IH]; intros cs' Lc Hc Hc' M u w a HM Nu Nw Na Hb.
  - destruct cs'; [|discriminate]. exists u, w, a, M. split; [reflexivity|]. split; [exact HM|]. intros M' HM'. exists M'. split; [reflexivity|exact HM'].
  - destruct (exists_last (l := cs')) as [cs1 [c' Ecs]]; [intro Z; rewrite Z in Lc; discriminate|]. rewrite Ecs in *.
    rewrite app_length in Lc. cbn [length] in Lc. apply Forall_app in Hc' as [Hc1 Hc']. apply Forall_inv in Hc'.
    pose proof (Forall_inv Hc) as Hc0. apply Forall_inv_tail in Hc.
    destruct (reverse_step M c M c' u w a HM HM Hc0 Hc' Nu Nw Na Hb) as [u1 [w1 [a1 [M1 [E1 [HM1 [Nu1 [Nw1 [Na1 [B1 _]]]]]]]]]].
    destruct (IH cs1 ltac:(lia) Hc Hc1 M1 u1 w1 a1 HM1 Nu1 Nw1 Na1 B1) as [u2 [w2 [a2 [M2 [E2 [HM2 R2]]]]]].
    exists u2, w2, a2, M2. split; [cbn [foldM]; rewrite E1; exact E2|]. split; [exact HM2|]. intros M' HM'.
    destruct (R2 M' HM') as [M3 [E3 HM3]].
    destruct (reverse_step M c M3 c' u w a HM HM3 Hc0 Hc' Nu Nw Na Hb) as [u1' [w1' [a1' [M1' [E1' [_ [_ [_ [_ [_ [M4 [E4 HM4]]]]]]]]]]]].
    rewrite E1 in E1'. injection E1' as <- <- <- <-. exists M4. split; [|exact HM4].
    rewrite (foldM_app _ _ _ _ _ E3). cbn [foldM]. rewrite E4. reflexivity.
Qed.
End R.

Variable x : arr.
Hypothesis Hx : cartesian_obj nelem x E.

(** the momentum in a direction in which the forces are in balance, after any number of increments *)
Lemma momentum fext dt order Km M mass y F : MD_assemble (new_MatrixDiagonal v) Km = Ok M -> shape3 Km nelem (nne * ndim) (nne * ndim) -> MD_data M = Ok mass -> (forall d, d < ndof -> val1 mass d <> 0%R) ->
  nodal fext -> Permutation order (node_iters v) -> AsDofs_nodevec v order fext = Ok F ->
  length y = ndof -> (forall t : nat -> R, (forall n i, n < nnode -> i < ndim -> val1 y (dof n i) = t i) ->
  forall mems : list ((arr -> arr) * (call * call)), Forall (fun c => valid_call nelem (fst (snd c)) /\ valid_call nelem (snd (snd c))) mems ->
  forall M0 u w a W A, mdis M0 (val1 mass) -> shp u -> nodal w -> nodal a -> AsDofs_nodevec v order w = Ok W -> AsDofs_nodevec v order a = Ok A ->
  sumn ndof (fun d => val1 y d * (val1 mass d * val1 A d))%R = sumn ndof (fun d => val1 y d * val1 F d)%R ->
  exists u' w' a' M' W', foldM (fun st c => verlet_step v E (fst c) fext dt st (snd c)) mems (u, w, a, M0) = Ok (u', w', a', M') /\ shp u' /\ nodal w' /\ nodal a' /\ agree2 (m_dofs v) nnode ndim (sub2 u' u) /\ MD_data M' = Ok mass /\
    AsDofs_nodevec v order w' = Ok W' /\
    sumn ndof (fun d => val1 y d * (val1 mass d * val1 W' d))%R =
      (sumn ndof (fun d => val1 y d * (val1 mass d * val1 W d)) + INR (length mems) * dt * sumn ndof (fun d => val1 y d * val1 F d))%R).
Proof.
  intros EM SK Ed Hm Nf Ho EF Ly t Hy. pose proof Nf as [Sf Af].
  destruct (AsDofs_values v nelem nne nnode ndim ndof Hne Hnd Hmd order fext Ho Sf Af) as [F' [EF' [LF [VF _]]]]. rewrite EF in EF'. injection EF' as <-.
  assert (mass_ok : forall d, d < ndof -> exists n i, n < nnode /\ i < ndim /\ dof n i = d).
  { intros d Hd. apply (mass_no_holes Km).
    destruct (MD_assemble_spec v nelem nne nnode ndim ndof Hne Hnd Hmd (new_MatrixDiagonal v) Km eq_refl) as [M' [EM' HM']]; [|exact SK|].
    { unfold new_MatrixDiagonal. cbn [MD_A]. unfold empty. rewrite repeat_length. apply (V_sizes v nelem nne nnode ndim ndof Hne Hnd Hmd). }
    rewrite EM in EM'. injection EM' as <-. destruct (MD_data_spec v nelem nne nnode ndim ndof Hne Hnd Hmd M _ HM') as [l [El [_ Vl]]].
    rewrite Ed in El. injection El as <-. rewrite <- Vl by exact Hd. now apply Hm. }
  assert (Lm : length mass = ndof).
  { destruct (MD_assemble_spec v nelem nne nnode ndim ndof Hne Hnd Hmd (new_MatrixDiagonal v) Km eq_refl) as [M' [EM' HM']]; [|exact SK|].
    { unfold new_MatrixDiagonal. cbn [MD_A]. unfold empty. rewrite repeat_length. apply (V_sizes v nelem nne nnode ndim ndof Hne Hnd Hmd). }
    rewrite EM in EM'. injection EM' as <-. destruct (MD_data_spec v nelem nne nnode ndim ndof Hne Hnd Hmd M _ HM') as [l [El [Ll Vl]]].
    rewrite Ed in El. now injection El as <-. }
  induction mems as [|[law [c1 c2]] mems IH]; intros Hc M0 u w a W A HM Nu Nw Na EW EA HA.
  - exists u, w, a, M0, W. cbn [foldM length INR]. split; [reflexivity|]. split; [exact Nu|]. split; [exact Nw|]. split; [exact Na|]. split.
    { intros m i n j Hm' Hi Hn Hj _. rewrite !sub2_val by assumption. ring. }
    split.
    { destruct (MD_data_spec v nelem nne nnode ndim ndof Hne Hnd Hmd M0 _ HM) as [l [El [Ll Vl]]]. rewrite El. f_equal. apply (list_ext1 0%R _ _ ndof); assumption. }
    split; [exact EW|]. lra.
  - apply Forall_inv in Hc as Hc0. cbn [fst snd] in Hc0. destruct Hc0 as [Hc1 Hc2]. apply Forall_inv_tail in Hc.
    destruct (verlet_spec law fext dt M0 (val1 mass) c1 c2 u w a HM Nf Nu Nw Na) as [f [u1 [w1 [a1 [M1 [Ef [Nff [E1 [HM1 [Nu1 [Nw1 [Na1 V1]]]]]]]]]]]].
    destruct (force_dofs law c1 c2 u1 Nu1) as [sig [f' [b [Ef' [_ [Eb [Lb Vb]]]]]]]. rewrite Ef in Ef'. injection Ef' as <-.
    pose proof (translation v E nelem nnode ndof Hne Hnd Hmd x c2 sig y b t Hx Hc2 Ly Hy Eb) as Z.
    destruct (AsDofs_values v nelem nne nnode ndim ndof Hne Hnd Hmd order w Ho (proj1 Nw) (proj2 Nw)) as [W' [EW' [_ [VW _]]]]. rewrite EW in EW'. injection EW' as <-.
    destruct (AsDofs_values v nelem nne nnode ndim ndof Hne Hnd Hmd order a Ho (proj1 Na) (proj2 Na)) as [A' [EA' [_ [VA _]]]]. rewrite EA in EA'. injection EA' as <-.
    destruct (AsDofs_values v nelem nne nnode ndim ndof Hne Hnd Hmd order w1 Ho (proj1 Nw1) (proj2 Nw1)) as [W1 [EW1 [_ [VW1 _]]]].
    destruct (AsDofs_values v nelem nne nnode ndim ndof Hne Hnd Hmd order a1 Ho (proj1 Na1) (proj2 Na1)) as [A1 [EA1 [_ [VA1 _]]]].
    assert (dA1 : forall d, d < ndof -> (val1 mass d * val1 A1 d)%R = (val1 F d - val1 b d)%R).
    { intros d Hd. destruct (mass_ok d Hd) as [n [i [Hn [Hi Ed']]]]. rewrite <- Ed'. rewrite VA1, VF, (proj1 (proj2 (V1 n i Hn Hi))), Vb by assumption. field. rewrite Ed'. now apply Hm. }
    assert (dW1 : forall d, d < ndof -> val1 W1 d = (val1 W d + / 2 * dt * (val1 A d + val1 A1 d))%R).
    { intros d Hd. destruct (mass_ok d Hd) as [n [i [Hn [Hi Ed']]]]. rewrite <- Ed'. rewrite VW1, VW, VA, VA1 by assumption. now apply V1. }
    assert (HA1 : sumn ndof (fun d => val1 y d * (val1 mass d * val1 A1 d))%R = sumn ndof (fun d => val1 y d * val1 F d)%R).
    { transitivity (sumn ndof (fun d => val1 y d * val1 F d + (-1) * (val1 y d * val1 b d)))%R.
      - apply sumn_ext. intros d Hd. rewrite dA1 by exact Hd. ring.
      - rewrite sumn_plus, sumn_scal, Z. ring. }
    destruct (IH Hc M1 u1 w1 a1 W1 A1 HM1 Nu1 Nw1 Na1 EW1 EA1 HA1) as [u2 [w2 [a2 [M2 [W2 [E2 [Nu2 [Nw2 [Na2 [G2 [D2 [EW2 S2]]]]]]]]]]]].
    exists u2, w2, a2, M2, W2. split; [cbn [foldM fst snd]; rewrite E1; exact E2|]. split; [exact Nu2|]. split; [exact Nw2|]. split; [exact Na2|]. split.
    { intros m i n j Hm' Hi Hn Hj Eij. specialize (G2 m i n j Hm' Hi Hn Hj Eij). rewrite !sub2_val in G2 |- * by assumption.
      rewrite (proj1 (V1 m i Hm' Hi)), (proj1 (V1 n j Hn Hj)), (proj2 Nw m i n j), (proj2 Na m i n j) in G2 by assumption. lra. }
    split; [exact D2|]. split; [exact EW2|].
    rewrite S2. cbn [length]. rewrite S_INR.
    assert (X : sumn ndof (fun d => val1 y d * (val1 mass d * val1 W1 d))%R = (sumn ndof (fun d => val1 y d * (val1 mass d * val1 W d)) + dt * sumn ndof (fun d => val1 y d * val1 F d))%R).
    { transitivity (sumn ndof (fun d => val1 y d * (val1 mass d * val1 W d) + ((/ 2 * dt) * (val1 y d * (val1 mass d * val1 A d)) + (/ 2 * dt) * (val1 y d * (val1 mass d * val1 A1 d)))))%R.
      - apply sumn_ext. intros d Hd. rewrite dW1 by exact Hd. ring.
      - rewrite !sumn_plus, !sumn_scal, HA, HA1. field. }
    rewrite X. ring.
Qed.
End D.

Lemma md_is_ext v ndof M A B : md_is v ndof M A -> (forall d, d < ndof -> A d = B d) -> md_is v ndof M B.
Proof.
  intros [H1 [H2 H3]] HAB. split; [exact H1|]. split; [now apply (holds_ext _ _ A)|]. intros Hc. apply (holds_ext _ _ (fun d => 1 / A d)%R); [now apply H3|].
  intros d Hd. now rewrite HAB.
Qed.
