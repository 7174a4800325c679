(** Property C96: the energy in the documented programs for explicit dynamics. *)
From Coq Require Import Reals Lra Lia.
From Verif Require Import Model_Element Spec_Element Proof_Element Proof_ElementQuad4 Base Spec Sums Spec_Vector Spec_Matrix Spec_MatrixDiagonal Model_Numbering Model_Vector Proof_Vector Proof_Matrix Model_MatrixDiagonal Proof_MatrixDiagonal Prop_MatrixPartitioned Model_MeshGeometry Model_Pipeline Spec_Pipeline Proof_PipelineElem Proof_Pipeline Proof_PipelineBalance Proof_PipelineDynamics Proof_PipelineEx Spec_Periodic Model_Verlet Spec_Verlet Proof_Verlet.

(** the mass matrix of the programs *)
Lemma mass_facts conn dofs nelem nnode ndof E Km M mass : mesh_dofs conn dofs nelem (el_nne E) nnode (el_ndim E) ndof ->
  shape3 Km nelem (el_nne E * el_ndim E) (el_nne E * el_ndim E) -> MD_assemble (new_MatrixDiagonal (mkVector conn (el_nne E) dofs (el_ndim E))) Km = Ok M -> MD_data M = Ok mass ->
  md_is (mkVector conn (el_nne E) dofs (el_ndim E)) ndof M (val1 mass) /\ length mass = ndof /\
  (forall d, d < ndof -> val1 mass d = assembled_diag conn dofs nelem (el_nne E) (el_ndim E) Km d) /\
  ((forall d, d < ndof -> val1 mass d <> 0%R) -> forall d, d < ndof -> exists n i, n < nnode /\ i < el_ndim E /\ idx2 dofs n i = d).
Proof.
  intros Hm SK EM Ed. set (v := mkVector conn (el_nne E) dofs (el_ndim E)) in *.
  destruct (MD_assemble_spec v nelem _ nnode _ ndof eq_refl eq_refl Hm (new_MatrixDiagonal v) Km eq_refl) as [M' [EM' HM']]; [|exact SK|].
  { unfold new_MatrixDiagonal. cbn [MD_A]. unfold empty. rewrite repeat_length. apply (V_sizes v nelem _ nnode _ ndof eq_refl eq_refl Hm). }
  rewrite EM in EM'. injection EM' as <-. destruct (MD_data_spec v nelem _ nnode _ ndof eq_refl eq_refl Hm M _ HM') as [l [El [Ll Vl]]].
  rewrite Ed in El. injection El as <-. split; [apply (md_is_ext v ndof M _ _ HM'); intros d Hd; symmetry; now apply Vl|]. split; [exact Ll|]. split; [exact Vl|].
  intros Hmass d Hd. apply (mass_no_holes v E nelem nnode ndof eq_refl eq_refl Hm Km). specialize (Hmass d Hd). rewrite Vl in Hmass by exact Hd. exact Hmass.
Qed.

(** the two programs (one with the corrector iterations, one without) make the same increments and store the same energies, for any material,
    mesh and input, also invalid input *)
Theorem C96_same : forall v E law energy mass fext dt incs st,
  dynamics (verlet_step v E law fext dt) v E energy mass incs st = dynamics (elastic_verlet_step v E law fext dt) v E energy mass incs st.
Proof.
  intros v E law energy mass fext dt incs st. unfold dynamics. generalize (st, @nil (R * R)). induction incs as [|m incs IH]; intros s; cbn [foldM]; [reflexivity|].
  rewrite step_same. destruct (elastic_verlet_step _ _ _ _ _ _ _) as [s1| | |]; cbn [bind]; try reflexivity. destruct (outputs _ _ _ _ _ _ _ _) as [o| | |]; cbn [bind]; try reflexivity. apply IH.
Qed.
Print Assumptions C96_same.

(** the entries that are stored are the energies of the state after every increment *)
Theorem C96_outputs : forall step v E energy mass incs st st' outs, dynamics step v E energy mass incs st = Ok (st', outs) ->
  foldM step (map i_calls incs) st = Ok st' /\ length outs = length incs /\
  forall k m, nth_error incs k = Some m -> exists uk wk ak Mk, foldM step (map i_calls (firstn (S k) incs)) st = Ok (uk, wk, ak, Mk) /\
    outputs v E energy mass (fst (i_calls m)) (i_order m) uk wk = Ok (nth k outs (0%R, 0%R)).
Proof.
  intros step v E energy mass incs st st' outs.
  assert (G : forall incs st o1 st' outs, foldM (fun s m => do st <- step (fst s) (i_calls m);
    do o <- outputs v E energy mass (fst (i_calls m)) (i_order m) (fst (fst (fst st))) (snd (fst (fst st))); Ok (st, snd s ++ [o])) incs (st, o1) = Ok (st', outs) ->
    exists o2, outs = o1 ++ o2 /\ foldM step (map i_calls incs) st = Ok st' /\ length o2 = length incs /\
    forall k m, nth_error incs k = Some m -> exists uk wk ak Mk, foldM step (map i_calls (firstn (S k) incs)) st = Ok (uk, wk, ak, Mk) /\
    outputs v E energy mass (fst (i_calls m)) (i_order m) uk wk = Ok (nth k o2 (0%R, 0%R))).
  { clear. induction incs as [|m incs IH]; intros st o1 st' outs H; cbn [foldM] in H.
    - injection H as <- <-. exists []. rewrite app_nil_r. split; [reflexivity|]. split; [reflexivity|]. split; [reflexivity|]. intros k m Hk. destruct k; discriminate.
    - cbn [fst snd] in H. destruct (step st (i_calls m)) as [st1| | |] eqn:E1; try discriminate. cbn [bind] in H.
      destruct (outputs _ _ _ _ _ _ _ _) as [o| | |] eqn:Eo; try discriminate. cbn [bind] in H.
      destruct (IH _ _ _ _ H) as [o2 [-> [Er [Lo Ho]]]]. exists (o :: o2). split; [now rewrite <- app_assoc|]. split; [cbn [map foldM]; rewrite E1; exact Er|]. split; [cbn [length]; now rewrite Lo|].
      intros [|k] m' Hk; cbn [nth_error] in Hk.
      + injection Hk as <-. destruct st1 as [[[u1 w1] a1] M1]. exists u1, w1, a1, M1. split; [cbn [firstn map foldM]; rewrite E1; reflexivity|exact Eo].
      + destruct (Ho k m' Hk) as [uk [wk [ak [Mk [Ek Ok]]]]]. exists uk, wk, ak, Mk. split; [|exact Ok]. cbn [firstn map foldM]. rewrite E1. exact Ek. }
  intros H. destruct (G _ _ _ _ _ H) as [o2 [Eq R]]. cbn [app] in Eq. subst o2. exact R.
Qed.
Print Assumptions C96_outputs.

(** balance of energy, for a linear material and any constant external force: from an initial acceleration that is that of the initial forces, for every
    number of increments, the energy Ekin + Epot - dt^2/8 a.M.a has changed by exactly the work of the external force *)
Theorem C96_energy : forall conn dofs nelem nnode ndof x E, elem_obj nelem x E -> mesh_dofs conn dofs nelem (el_nne E) nnode (el_ndim E) ndof ->
  let v := mkVector conn (el_nne E) dofs (el_ndim E) in
  (* the mass matrix *)
  forall Km M mass, shape3 Km nelem (el_nne E * el_ndim E) (el_nne E * el_ndim E) -> MD_assemble (new_MatrixDiagonal v) Km = Ok M -> MD_data M = Ok mass ->
  (forall d, d < ndof -> val1 mass d <> 0%R) ->
  (* the material *)
  forall C law energy, linear_law nelem E law C -> stored_energy nelem E law energy -> minor_symmetric nelem E C -> major_symmetric nelem E C ->
  (* external force, initial state *)
  forall dt fext u w c f a M0, nodal dofs nnode (el_ndim E) fext -> shape2 u nnode (el_ndim E) -> nodal dofs nnode (el_ndim E) w ->
  valid_calls nelem c -> internal_force v E law (fst c) (snd c) u = Ok f -> MD_solve_nodevec M (sub2 fext f) = Ok (a, M0) ->
  forall order F A, Permutation order (list_prod (seq 0 nnode) (seq 0 (el_ndim E))) -> AsDofs_nodevec v order fext = Ok F -> AsDofs_nodevec v order a = Ok A ->
  forall ekin epot, outputs v E energy mass (fst c) order u w = Ok (ekin, epot) ->
  forall incs, Forall (valid_calls nelem) incs ->
  exists u' w' a' M' A' D, foldM (elastic_verlet_step v E law fext dt) incs (u, w, a, M0) = Ok (u', w', a', M') /\
    AsDofs_nodevec v order a' = Ok A' /\ AsDofs_nodevec v order (sub2 u' u) = Ok D /\
    forall c' order', valid_call nelem c' -> Permutation order' (list_prod (seq 0 nnode) (seq 0 (el_ndim E))) ->
    exists ekin' epot', outputs v E energy mass c' order' u' w' = Ok (ekin', epot') /\
      (ekin' + epot' - dt * dt / 8 * mass_product ndof mass A' A' = ekin + epot - dt * dt / 8 * mass_product ndof mass A A + sumn ndof (fun d => val1 F d * val1 D d))%R.
Proof.
  intros conn dofs nelem nnode ndof x E H Hm v Km M mass SK EM Ed Hmass C law energy Hl He Hmi Hma dt fext u w c f a M0 Nf Su Nw [Hc1 Hc2] Ef Es order F A.
  destruct (mass_facts conn dofs nelem nnode ndof E Km M mass Hm SK EM Ed) as [HM [Lm [_ Hh]]]. specialize (Hh Hmass). fold v in HM, EM.
  rewrite <- (node_iters_eq conn dofs nelem _ nnode _ ndof Hm). fold v. intros Ho EF EA ekin epot Eo incs Hi.
  destruct (force_dofs v E nelem nnode ndof eq_refl eq_refl Hm law (fst c) (snd c) u Su) as [_ [f' [_ [Ef' [[Sf Af] _]]]]]. rewrite Ef in Ef'. injection Ef' as <-.
  destruct (MD_solve_nodevec_spec v nelem _ nnode _ ndof eq_refl eq_refl Hm M _ (sub2 fext f) HM) as [a' [M0' [Es' [HM0 [Sa Va]]]]].
  { apply zip2_shape; [apply Nf|exact Sf]. }
  rewrite Es in Es'. injection Es' as <- <-.
  assert (Va' : forall n i, n < nnode -> i < el_ndim E -> val2 a n i = (1 / val1 mass (idx2 dofs n i) * (val2 fext n i - val2 f n i))%R).
  { intros n i Hn Hi'. rewrite Va by assumption. unfold sub2. now rewrite (zip2_val Rminus _ _ nnode (el_ndim E)) by (try assumption; apply Nf). }
  assert (Na : nodal dofs nnode (el_ndim E) a).
  { split; [exact Sa|]. intros m i n j Hm' Hi' Hn Hj Ed'. rewrite !Va' by assumption. rewrite Ed', (Af m i n j), (proj2 Nf m i n j) by assumption. reflexivity. }
  assert (DV : forall z Z, nodal dofs nnode (el_ndim E) z -> AsDofs_nodevec v order z = Ok Z -> dofs_of v E nnode ndof Z z).
  { intros z Z [Sz Az] EZ. destruct (AsDofs_values v nelem _ nnode _ ndof eq_refl eq_refl Hm order z Ho Sz Az) as [Z' [EZ' [LZ [VZ _]]]]. rewrite EZ in EZ'. injection EZ' as <-. split; [exact LZ|exact VZ]. }
  pose proof (DV _ _ Nf EF) as DF. pose proof (DV _ _ Na EA) as DA.
  destruct (outputs_spec v E nelem nnode ndof eq_refl eq_refl Hm x H C law energy Hl He Hmi Hma mass (fst c) order u w Hc1 Ho Lm Su Nw) as [W [_ [LW [VW Eo']]]].
  rewrite Eo in Eo'. injection Eo' as -> ->.
  assert (B0 : bal v E nelem nnode ndof C mass F u A) by (exact (bal_of_solve v E nelem nnode ndof eq_refl eq_refl Hm x H C law energy Hl He Hmi Hma mass Lm Hmass Hh fext Nf F DF dt (fst c) (snd c) u f a A Hc1 Hc2 Su Ef DA Va')).
  destruct (run_energy v E nelem nnode ndof eq_refl eq_refl Hm x H C law energy Hl He Hmi Hma mass Lm Hmass Hh fext Nf F DF dt incs Hi M0 u w a W A HM0 Su Nw Na (conj LW VW) DA B0)
    as [u' [w' [a' [M' [E1 [HM' [Su' [Nw' [Na' [Nd [W' [A' [D [DW' [DA' [DD [B' S]]]]]]]]]]]]]]]]].
  assert (EX : forall z Z, nodal dofs nnode (el_ndim E) z -> dofs_of v E nnode ndof Z z -> AsDofs_nodevec v order z = Ok Z).
  { intros z Z [Sz Az] [LZ VZ]. destruct (AsDofs_values v nelem _ nnode _ ndof eq_refl eq_refl Hm order z Ho Sz Az) as [Z' [-> [LZ' [VZ' _]]]]. f_equal. apply (nth_ext _ _ 0%R 0%R); [congruence|].
    intros d Hd. destruct (Hh d ltac:(lia)) as [n [i [Hn [Hi' Ed']]]]. change (val1 Z' d = val1 Z d). rewrite <- Ed'. change dofs with (m_dofs v). rewrite VZ, VZ' by assumption. reflexivity. }
  exists u', w', a', M', A', D. split; [exact E1|]. split; [exact (EX _ _ Na' DA')|]. split; [exact (EX _ _ Nd DD)|]. intros c' order' Hc' Ho'.
  destruct (outputs_spec v E nelem nnode ndof eq_refl eq_refl Hm x H C law energy Hl He Hmi Hma mass c' order' u' w' Hc' Ho' Lm Su' Nw') as [W2 [_ [LW2 [VW2 Eo2]]]].
  do 2 eexists. split; [exact Eo2|].
  assert (EW : mass_product ndof mass W2 W2 = mp ndof mass (val1 W') (val1 W')). { apply sumn_ext. intros d Hd. destruct (Hh d Hd) as [n [i [Hn [Hi' <-]]]]. change dofs with (m_dofs v). rewrite VW2 by assumption. destruct DW' as [_ DW']. rewrite DW' by assumption. reflexivity. }
  rewrite EW. exact S.
Qed.
Print Assumptions C96_energy.

(** boundedness: no external force, a stable time step, a material that stores energy.  For every number of increments, any initial displacement
    (also one that is not periodic), velocity and acceleration, the program returns and Ekin(k) + (1 - theta) Epot(k) <= Ekin(l) + Epot(l) for all
    increments k and l: the sum of the two is the same in all increments up to theta times the potential energy *)
Theorem C96_bounded : forall conn dofs nelem nnode ndof x E, elem_obj nelem x E -> mesh_dofs conn dofs nelem (el_nne E) nnode (el_ndim E) ndof ->
  let v := mkVector conn (el_nne E) dofs (el_ndim E) in
  forall Km M mass, shape3 Km nelem (el_nne E * el_ndim E) (el_nne E * el_ndim E) -> MD_assemble (new_MatrixDiagonal v) Km = Ok M -> MD_data M = Ok mass ->
  (forall d, d < ndof -> (0 < val1 mass d)%R) ->
  forall C law energy, linear_law nelem E law C -> stored_energy nelem E law energy -> minor_symmetric nelem E C -> major_symmetric nelem E C ->
  positive_stiffness nelem E C -> positive_volume nelem E ->
  forall dt theta, (0 < theta <= 1)%R -> stable_step conn dofs nelem nnode ndof E C mass dt theta ->
  forall u w a fext, shape2 u nnode (el_ndim E) -> nodal dofs nnode (el_ndim E) w -> nodal dofs nnode (el_ndim E) a ->
  shape2 fext nnode (el_ndim E) -> (forall n i, n < nnode -> i < el_ndim E -> val2 fext n i = 0%R) ->
  forall incs, Forall (fun m => valid_calls nelem (i_calls m) /\ Permutation (i_order m) (list_prod (seq 0 nnode) (seq 0 (el_ndim E)))) incs ->
  exists st outs, dynamics (elastic_verlet_step v E law fext dt) v E energy mass incs (u, w, a, M) = Ok (st, outs) /\ length outs = length incs /\
    let ekin k := fst (nth k outs (0%R, 0%R)) in let epot k := snd (nth k outs (0%R, 0%R)) in
    forall k l, k < length incs -> l < length incs -> (0 <= ekin k /\ 0 <= epot k /\ ekin k + (1 - theta) * epot k <= ekin l + epot l)%R /\
      (* from rest *)
      ((forall n i, n < nnode -> i < el_ndim E -> val2 w n i = 0%R /\ val2 a n i = 0%R) ->
        (epot 0%nat = / 2 * twice_energy conn nelem E C u /\ ekin k + (1 - theta) * epot k <= epot 0%nat <= ekin k + epot k)%R).
Proof.
  intros conn dofs nelem nnode ndof x E H Hm v Km M mass SK EM Ed Hmass C law energy Hl He Hmi Hma HP HV dt theta Ht Hs u w a fext Su Nw Na Sf F0 incs Hi.
  destruct incs as [|m incs]. { exists (u, w, a, M), []. split; [reflexivity|]. split; [reflexivity|]. intros ekin epot k l Hk. cbn in Hk. lia. }
  assert (Hmass' : forall d, d < ndof -> val1 mass d <> 0%R) by (intros d Hd; specialize (Hmass d Hd); lra).
  destruct (mass_facts conn dofs nelem nnode ndof E Km M mass Hm SK EM Ed) as [HM [Lm [_ Hh]]]. specialize (Hh Hmass'). fold v in HM, EM.
  assert (Nf : nodal dofs nnode (el_ndim E) fext) by (split; [exact Sf|]; intros p i q j Hp Hi' Hq Hj _; now rewrite !F0).
  set (F := repeat 0%R ndof). assert (V0 : forall d, val1 F d = 0%R). { intros d. unfold F, val1. destruct (Nat.lt_ge_cases d ndof); [apply nth_repeat|apply nth_overflow; rewrite repeat_length; lia]. }
  assert (DF : dofs_of v E nnode ndof F fext) by (split; [apply repeat_length|]; intros n i Hn Hi'; now rewrite V0, F0).
  assert (Hi2 : Forall (valid_inc v nelem) (m :: incs)).
  { eapply Forall_impl; [|exact Hi]. intros m' [P1 P2]. split; [exact P1|]. change (node_iters v) with (node_iters (mkVector conn (el_nne E) dofs (el_ndim E))). rewrite (node_iters_eq conn dofs nelem _ nnode _ ndof Hm). exact P2. }
  assert (Hpos : forall y, shape2 y nnode (el_ndim E) -> (0 <= kf v E nelem C y y)%R).
  { intros y Sy. unfold kf, integral. apply sumn_nonneg. intros e He'. apply sumn_nonneg. intros q Hq. apply Rmult_le_pos; [now apply HP|now apply HV]. }
  assert (Hcfl : forall y Y, nodal (m_dofs v) nnode (el_ndim E) y -> dofs_of v E nnode ndof Y y -> (dt * dt * kf v E nelem C y y <= 4 * theta * mp ndof mass (val1 Y) (val1 Y))%R).
  { intros y Y Ny [LY VY]. exact (Hs y Y Ny LY VY). }
  destruct (program_bounded v E nelem nnode ndof eq_refl eq_refl Hm x H C law energy Hl He Hmi Hma mass Lm Hmass' Hh fext Nf F DF dt Hpos Hmass theta Ht (fun d _ => V0 d) Hcfl m incs M u w a Hi2 HM Su Nw Na) as [st [outs [e [E1 [L [B BR]]]]]].
  exists st, outs. split; [exact E1|]. split; [exact L|]. intros ekin epot k l Hk Hl'. rewrite Forall_forall in B.
  destruct (B (nth k outs (0, 0)%R)) as [B1 [B2 B3]]; [apply nth_In; now rewrite L|]. destruct (B (nth l outs (0, 0)%R)) as [_ [_ B4]]; [apply nth_In; now rewrite L|].
  unfold ekin, epot. split; [split; [exact B1|]; split; [exact B2|]; lra|]. intros Z. destruct (BR Z) as [-> ->]. split; [reflexivity|]. lra.
Qed.
Print Assumptions C96_bounded.

(** the time step is stable if it is for every element on its own *)
Theorem C96_cfl : forall conn dofs nelem nnode ndof E, mesh_dofs conn dofs nelem (el_nne E) nnode (el_ndim E) ndof ->
  let v := mkVector conn (el_nne E) dofs (el_ndim E) in
  forall Km M mass, shape3 Km nelem (el_nne E * el_ndim E) (el_nne E * el_ndim E) -> MD_assemble (new_MatrixDiagonal v) Km = Ok M -> MD_data M = Ok mass ->
  forall C dt theta, stable_elements conn nelem nnode E C Km dt theta -> stable_step conn dofs nelem nnode ndof E C mass dt theta.
Proof.
  intros conn dofs nelem nnode ndof E Hm v Km M mass SK EM Ed C dt theta Hs w W [Sw _] LW VW.
  destruct (mass_facts conn dofs nelem nnode ndof E Km M mass Hm SK EM Ed) as [_ [_ [Vm _]]].
  assert (EE : twice_energy conn nelem E C w = sumn nelem (fun e => twice_energy_in conn nelem E C w e)) by reflexivity.
  assert (MM : mass_product ndof mass W W = sumn nelem (fun e => sumn (el_nne E) (fun m => sumn (el_ndim E) (fun i => val3 Km e (m * el_ndim E + i) (m * el_ndim E + i) * (val2 w (idx2 conn e m) i * val2 w (idx2 conn e m) i))%R))).
  { unfold mass_product.
    transitivity (sumn ndof (fun d => sumn nelem (fun e => sumn (el_nne E) (fun m => sumn (el_ndim E) (fun i => ind (idx2 dofs (idx2 conn e m) i =? d)%nat * (val3 Km e (m * el_ndim E + i) (m * el_ndim E + i) * (val1 W d * val1 W d))))))%R).
    { apply sumn_ext. intros d Hd. rewrite Vm by exact Hd. unfold assembled_diag, sum_elem. rewrite <- sumn_scal_r. apply sumn_ext. intros e He. rewrite <- sumn_scal_r. apply sumn_ext. intros m Hm'. rewrite <- sumn_scal_r. apply sumn_ext. intros i Hi. ring. }
    rewrite sumn_swap. apply sumn_ext. intros e He. rewrite sumn_swap. apply sumn_ext. intros m Hm'. rewrite sumn_swap. apply sumn_ext. intros i Hi.
    pose proof (V_node v nelem _ nnode _ ndof eq_refl eq_refl Hm e m He Hm') as Hn. cbn [m_conn v] in Hn. 
    rewrite (sumn_delta' ndof (idx2 dofs (idx2 conn e m) i) (fun d => val3 Km e (m * el_ndim E + i) (m * el_ndim E + i) * (val1 W d * val1 W d))%R).
    - now rewrite VW.
    - exact (V_dof v nelem _ nnode _ ndof eq_refl eq_refl Hm (idx2 conn e m) i Hn Hi). }
  rewrite EE, MM, <- !sumn_scal.
  assert (LE : forall n (f g : nat -> R), (forall i, i < n -> (f i <= g i)%R) -> (sumn n f <= sumn n g)%R). { intros n f g Hfg. unfold sumn. apply sumL_le. intros i Hi. apply in_seq in Hi. apply Hfg. lia. }
  apply LE. intros e He. now apply Hs.
Qed.
Print Assumptions C96_cfl.

(** the square with a linear material: the hypotheses, with time step 1 and margin 1/2 *)
Lemma sq_dNx m i : m < 4 -> i < 2 -> q_dNx sqQ [0;0;m;i] = ((if i =? 0 then ind ((m =? 1) || (m =? 2)) else ind ((m =? 2) || (m =? 3))) - / 2)%R.
Proof.
  intros Hm Hi. rewrite (f_dNx (Quad4_facts _ _ _ _ _ _ sq_obj)) by lia. unfold gshape2. rewrite sq_jac. unfold dinterp2. rewrite !sumn4.
  destruct m as [|[|[|[|]]]]; try lia; destruct i as [|[|]]; try lia; unfold dshape2, nodes, sq, point, MidPoint4_xi, ind; blk; cbn; lra.
Qed.
Example C96_ex : exists Km M mass, shape3 Km 1 8 8 /\ MD_assemble (new_MatrixDiagonal sq_v) Km = Ok M /\ MD_data M = Ok mass /\ (forall d, d < 8 -> (0 < val1 mass d)%R) /\
  stable_elements sq_conn 1 4 sqE Isym Km 1 (/ 2) /\
  linear_law 1 sqE (ddot42 2 Isym) Isym /\
  stored_energy 1 sqE (ddot42 2 Isym) (fun A k => match k with [e;q] => / 2 * sumn 2 (fun i => sumn 2 (fun j => ddot42 2 Isym A [e;q;i;j] * A [e;q;i;j])) | _ => 0 end)%R /\
  (* a motion that is not at rest *)
  nodal sq_dofs 4 2 (nodes4 1 0 0 0 0 0 0 0) /\ twice_energy sq_conn 1 sqE Isym (nodes4 1 0 0 0 0 0 0 0) <> 0%R.
Proof.
  assert (TE : forall w e, e < 1 -> let y m i := val2 w m i in let a := (/ 2 * (- y 0%nat 0%nat + y 1%nat 0%nat + y 2%nat 0%nat - y 3%nat 0%nat))%R in let b := (/ 2 * (- y 0%nat 1%nat + y 1%nat 1%nat + y 2%nat 1%nat - y 3%nat 1%nat))%R in
    let c := (/ 2 * (- y 0%nat 0%nat - y 1%nat 0%nat + y 2%nat 0%nat + y 3%nat 0%nat))%R in let d := (/ 2 * (- y 0%nat 1%nat - y 1%nat 1%nat + y 2%nat 1%nat + y 3%nat 1%nat))%R in
    twice_energy_in sq_conn 1 sqE Isym w e = ((a * a + d * d + (b + c) * (b + c) / 2) / 4)%R).
  { intros w e He y a b c d. assert (e = 0) as -> by lia. unfold twice_energy_in. set (G := el_GradN_vector _ _ _).
    assert (HG : forall i j, i < 2 -> j < 2 -> G [0;0;i;j] = sumn 4 (fun m => (q_dNx sqQ [0;0;m;i]%nat * y m j)%R)).
    { intros i j Hi Hj. unfold G. rewrite (r_grad _ _ _ (Quad4_raw _ _ _ _ _ _ sq_obj)) by (try exact Hi; try exact Hj; try (cbn; lia); unfold valid_call, schedule; cbn; reflexivity).
      change (el_nne sqE) with 4. change (el_ndim sqE) with 2. apply sumn_ext. intros m Hm. unfold Bcart. cbn [at_elements]. unfold y. assert (idx2 sq_conn 0 m = m) as -> by (destruct m as [|[|[|[|]]]]; try lia; reflexivity).
      destruct j as [|[|]]; try lia; unfold sumn, sumL; cbn [seq fold_right]; unfold ind; cbn; ring. }
    change (el_nip sqE) with 1. change (el_tdim sqE) with 2. unfold sumn at 1. unfold sumL at 1. cbn [seq fold_right]. rewrite sq_vol.
    unfold sumn, sumL, ddot42, sumn, sumL. cbn [seq fold_right]. rewrite !HG by lia. rewrite !sumn4. rewrite !sq_dNx by lia. unfold Isym, ind. cbn [Nat.eqb andb orb]. unfold a, b, c, d. field. }
  exists [repeat (repeat 1%R 8) 8]. do 2 eexists. split; [|split; [reflexivity|split; [reflexivity|split; [|split; [|split; [|split; [|split]]]]]]].
  - split; [reflexivity|]. intros r [<-|[]]. split; [reflexivity|]. intros r Hr. apply repeat_spec in Hr. rewrite Hr. reflexivity.
  - intros d Hd. do 8 (destruct d as [|d]; [unfold val1; cbn; lra|]). lia.
  - intros w e _ He. rewrite TE by exact He. assert (e = 0) as -> by lia. change (el_nne sqE) with 4. change (el_ndim sqE) with 2.
    apply (Rle_trans _ (4 * / 2 * sumn 4 (fun m => sumn 2 (fun i => val2 w m i * val2 w m i)))%R).
    + cbv zeta. unfold sumn, sumL. cbn [seq fold_right].
      set (a0 := val2 w 0 0). set (a1 := val2 w 1 0). set (a2 := val2 w 2 0). set (a3 := val2 w 3 0). set (b0 := val2 w 0 1). set (b1 := val2 w 1 1). set (b2 := val2 w 2 1). set (b3 := val2 w 3 1).
      assert (S : forall p q r s : R, ((p + q + r + s) * (p + q + r + s) <= 4 * (p * p + q * q + r * r + s * s))%R).
      { intros p q r s. pose proof (Rle_0_sqr (p - q)). pose proof (Rle_0_sqr (p - r)). pose proof (Rle_0_sqr (p - s)). pose proof (Rle_0_sqr (q - r)). pose proof (Rle_0_sqr (q - s)). pose proof (Rle_0_sqr (r - s)). unfold Rsqr in *. nra. }
      pose proof (S (- a0) a1 a2 (- a3))%R as S1. pose proof (S (- b0) b1 b2 (- b3))%R as S2. pose proof (S (- a0) (- a1) a2 a3)%R as S3. pose proof (S (- b0) (- b1) b2 b3)%R as S4.
      set (A := (- a0 + a1 + a2 - a3)%R) in *. set (B := (- b0 + b1 + b2 - b3)%R) in *. set (C := (- a0 - a1 + a2 + a3)%R) in *. set (D := (- b0 - b1 + b2 + b3)%R) in *.
      replace (- a0 + a1 + a2 + - a3)%R with A in S1 by (unfold A; ring). replace (- b0 + b1 + b2 + - b3)%R with B in S2 by (unfold B; ring). replace (- a0 + - a1 + a2 + a3)%R with C in S3 by (unfold C; ring). replace (- b0 + - b1 + b2 + b3)%R with D in S4 by (unfold D; ring).
      assert (P : ((B + C) * (B + C) <= 2 * (B * B) + 2 * (C * C))%R) by (pose proof (Rle_0_sqr (B - C)); unfold Rsqr in *; nra).
      match goal with |- (?l <= _)%R => replace l with ((A * A + D * D + (B + C) * (B + C) / 2) / 16)%R by field end.
      set (SA := (a0 * a0 + a1 * a1 + a2 * a2 + a3 * a3)%R). set (SB := (b0 * b0 + b1 * b1 + b2 * b2 + b3 * b3)%R).
      replace (- a0 * - a0 + a1 * a1 + a2 * a2 + - a3 * - a3)%R with SA in S1 by (unfold SA; ring). replace (- a0 * - a0 + - a1 * - a1 + a2 * a2 + a3 * a3)%R with SA in S3 by (unfold SA; ring).
      replace (- b0 * - b0 + b1 * b1 + b2 * b2 + - b3 * - b3)%R with SB in S2 by (unfold SB; ring). replace (- b0 * - b0 + - b1 * - b1 + b2 * b2 + b3 * b3)%R with SB in S4 by (unfold SB; ring).
      match goal with |- (_ <= ?r)%R => replace r with (2 * (SA + SB))%R by (unfold SA, SB; field) end. 
      assert (0 <= SA)%R by (unfold SA; nra). assert (0 <= SB)%R by (unfold SB; nra). lra.
    + apply Req_le. f_equal. apply sumn_ext. intros m Hm. apply sumn_ext. intros i Hi. assert (idx2 sq_conn 0 m = m) as -> by (destruct m as [|[|[|[|]]]]; try lia; reflexivity).
      assert (val3 [repeat (repeat 1%R 8) 8] 0 (m * 2 + i) (m * 2 + i) = 1%R) as ->; [|ring]. destruct m as [|[|[|[|]]]]; try lia; destruct i as [|[|]]; try lia; reflexivity.
  - intros A e q i j _ _ _ _. reflexivity.
  - intros A e q _ _. reflexivity.
  - split; [split; [reflexivity|]; cbn; intuition (subst; reflexivity)|]. intros m i n j Hm Hi Hn Hj E.
    destruct m as [|[|[|[|]]]]; try lia; destruct n as [|[|[|[|]]]]; try lia; destruct i as [|[|]]; try lia; destruct j as [|[|]]; try lia; try reflexivity; discriminate.
  - unfold twice_energy, integral. change (twice_energy_in sq_conn 1 sqE Isym (nodes4 1 0 0 0 0 0 0 0) 0 + 0 <> 0)%R. rewrite TE by lia. unfold nodes4, val2. cbn. lra.
Qed.
