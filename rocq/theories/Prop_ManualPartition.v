(** Property C103: solving for the unknown DOFs by hand gives what the solver for nodal vectors gives. *)
From Coq Require Import Reals Lra Lia.
From Verif Require Import Model_Element Spec_Element Base Spec Sums Spec_Vector Spec_Matrix Spec_MatrixOps Model_Numbering Model_Vector Proof_Vector Model_VectorPartitioned Proof_VectorPartitioned Model_Sparse
  Model_Matrix Proof_Matrix Model_MatrixPartitioned Proof_MatrixPartitioned Model_Pipeline Spec_Pipeline Proof_PipelineElem Proof_Pipeline Proof_PipelineEx Prop_Pipeline Model_ManualPartition.

Lemma bind_Ok {A B} (x : res A) (f : A -> res B) r : bind x f = Ok r -> exists a, x = Ok a /\ f a = Ok r.
Proof. destruct x; cbn; intros H; try discriminate. eauto. Qed.

Theorem C103_manual : forall conn dofs nelem nnode ndof x E iip, elem_obj nelem x E -> mesh_dofs conn dofs nelem (el_nne E) nnode (el_ndim E) ndof ->
  prescribed ndof iip -> no_holes dofs ndof ->
  let v := mkVector conn (el_nne E) dofs (el_ndim E) in
  (* whatever was done before with the matrix and the solver *)
  forall linsolve ops K0 K s p, Forall (fun o => match o with PMat o => valid_op nelem (el_nne E) (el_ndim E) ndof o | _ => True end) ops ->
  new_MatrixPartitioned v iip = Ok K0 -> foldM (run_pop linsolve) ops (K0, new_Solver) = Ok (K, s) -> new_VectorPartitioned v iip = Ok p ->
  forall mem C fext disp0 u0 u_p, valid_memory nelem nnode (el_ndim E) mem -> minor_symmetric nelem E C ->
  (forall K', MP_assemble K (element_stiffness v E (r_K mem) C) = Ok K' -> solves linsolve (A_uu K')) ->
  nodal dofs nnode (el_ndim E) fext -> shape2 disp0 nnode (el_ndim E) -> (forall n j, n < nnode -> j < el_ndim E -> val2 disp0 n j = 0%R) ->
  (* any memory for the DOF values; a value for each prescribed DOF *)
  length u0 = ndof -> length u_p = length iip ->
  exists disp fint fext' fres, statics_manual linsolve mem p K s E (ddot42 (el_tdim E) C) C fext disp0 u0 u_p = Ok (disp, fint, fext', fres) /\
    nodal dofs nnode (el_ndim E) disp /\ shape2 fres nnode (el_ndim E) /\
    (forall c1 c2, valid_call nelem c1 -> valid_call nelem c2 -> internal_force v E (ddot42 (el_tdim E) C) c1 c2 disp = Ok fint) /\
    (forall m i, m < nnode -> i < el_ndim E ->
      val2 fres m i = 0%R /\
      (forall k, nth_error iip k = Some (idx2 dofs m i) -> val2 disp m i = val1 u_p k) /\
      (~ In (idx2 dofs m i) iip -> val2 fext' m i = val2 fext m i) /\
      val2 fext' m i = val2 fint m i) /\
    (* the same as the program that solves with nodal vectors, for all nodal displacements with the prescribed values *)
    forall bc, nodal dofs nnode (el_ndim E) bc -> (forall m i k, m < nnode -> i < el_ndim E -> nth_error iip k = Some (idx2 dofs m i) -> val2 bc m i = val1 u_p k) ->
      statics linsolve mem p K s E (ddot42 (el_tdim E) C) C fext disp0 bc = Ok (disp, fint, fext', fres).
Proof.
  intros conn dofs nelem nnode ndof x E iip H Hm Hi Hh v linsolve ops K0 K s p Hok E0 Er Ep mem C fext disp0 u0 u_p HM HC Hs Nf S0 Z0 Lu0 Lup.
  (* with a suitable nodal displacement *)
  assert (Main : forall bc, nodal dofs nnode (el_ndim E) bc -> (forall m i k, m < nnode -> i < el_ndim E -> nth_error iip k = Some (idx2 dofs m i) -> val2 bc m i = val1 u_p k) ->
    forall r, statics linsolve mem p K s E (ddot42 (el_tdim E) C) C fext disp0 bc = Ok r -> statics_manual linsolve mem p K s E (ddot42 (el_tdim E) C) C fext disp0 u0 u_p = Ok r).
  { intros bc [Sb Ab] Hbc r Est. destruct (elem_obj_raw _ _ _ H) as [B Ho]. pose proof HM as (M1 & M2 & M3 & M4 & M5 & M6).
    destruct (vp_facts v nelem (el_nne E) nnode (el_ndim E) ndof eq_refl eq_refl Hm iip Hi p Ep) as (Vp & Eu & Eip & Sp & Hp).
    assert (Nit : node_iters v = list_prod (seq 0 nnode) (seq 0 (el_ndim E))) by (unfold node_iters; destruct (V_sizes v nelem (el_nne E) nnode (el_ndim E) ndof eq_refl eq_refl Hm) as [_ [-> _]]; reflexivity).
    rewrite <- Nit in M6. unfold statics, statics_manual in *. rewrite Vp in *. cbv zeta in *.
    apply bind_Ok in Est. destruct Est as [f0 [Ef0 Est]]. rewrite Ef0. cbn [bind].
    apply bind_Ok in Est. destruct Est as [K' [EK Est]]. rewrite EK. cbn [bind].
    apply bind_Ok in Est. destruct Est as [sol [Es Est]].
    assert (Ia : MP_p K' = p /\ MP_changed K' = true /\ cols (A_uu K') = m_nnu p /\ rows (A_uu K') = m_nnu p).
    { destruct (assemble_step v E nelem nnode ndof eq_refl eq_refl Hm B Ho iip Hi Hh linsolve ops K0 K s (element_stiffness v E (r_K mem) C) Hok E0 Er) as [a' [Ea [[[Q _] Q'] _]]].
      - apply (K_shape v E nelem nnode ndof eq_refl eq_refl Hm B Ho).
      - rewrite EK in Ea. injection Ea as <-. rewrite Ep in Q. destruct Q' as [[[Q1 [Q2 _]] _] _ _ _ _]. unfold m_nnu. rewrite Eu. split; [now injection Q|].
        split; [|auto]. unfold MP_assemble in EK. apply bind_Ok in EK. destruct EK as [ts [_ EK]]. apply bind_Ok in EK. destruct EK as [b [_ EK]]. injection EK as <-. reflexivity. }
    destruct Ia as (Ia & Ch & Cc & Cr).
    pose proof (Hs K' EK) as HsK.
    unfold MPS_solve_nodevec in Es. rewrite Ia, Vp in Es. apply bind_Ok in Es. destruct Es as [Bu [EBu Es]]. rewrite EBu. cbn [bind]. apply bind_Ok in Es. destruct Es as [Xp [EXp Es]].
    assert (EX : Xp = u_p).
    { destruct (AsDofs_up_nodevec v nelem (el_nne E) nnode (el_ndim E) ndof eq_refl eq_refl Hm iip Hi p Ep (r_order mem) bc M6 Sb Ab) as (xu & xp & _ & Exp & _ & Lxp & Vx & _).
      rewrite EXp in Exp. injection Exp as <-. apply (nth_ext _ _ 0%R 0%R); [congruence|]. intros k Hk. rewrite Lxp in Hk.
      assert (Hd : nth k iip 0 < ndof) by (apply Hi, nth_In, Hk). pose proof (Hh _ Hd) as Hin. apply in_concat in Hin. destruct Hin as [rr [Hr Hdr]]. destruct (md_dofs _ _ _ _ _ _ _ Hm) as [Lr Sr].
      destruct (In_nth _ _ [] Hr) as [n [Hn En]]. destruct (In_nth _ _ 0 Hdr) as [i [Hi' Ei]]. rewrite (Sr rr Hr) in Hi'. rewrite Lr in Hn.
      assert (Ed : nth_error iip k = Some (idx2 dofs n i)) by (rewrite (nth_error_nth' iip 0 Hk); f_equal; unfold idx2, nth2; now rewrite En).
      destruct (Vx n i Hn Hi') as [_ V2]. change (val1 Xp k = val1 u_p k). rewrite (V2 k Ed). now apply Hbc. }
    rewrite EX in Es. apply bind_Ok in Es. destruct Es as [t [Et Es]]. apply bind_Ok in Es. destruct Es as [rr [Err Es]]. apply bind_Ok in Es. destruct Es as [Xu [EXu Es]]. apply bind_Ok in Es. destruct Es as [y [Ey Es]]. injection Es as <-.
    unfold MPS_solve_u. rewrite Et. cbn [bind]. rewrite Err. cbn [bind]. rewrite EXu. cbn [bind fst snd]. cbn [fst snd] in Est.
    assert (LXu : length Xu = length (m_iiu p)).
    { unfold S_solve, factorize in EXu. rewrite Ch in EXu. cbn [negb andb S_data] in EXu. destruct (Nat.eqb_spec (length rr) (rows (A_uu K'))) as [Lr|]; [|discriminate]. injection EXu as <-. destruct (HsK rr Lr) as [L _]. rewrite L, Cc. reflexivity. }
    assert (Du : NoDup (m_iiu p) /\ forall d, In d (m_iiu p) -> d < ndof).
    { rewrite Eu. split; [apply setdiff1d_NoDup|]. intros d. apply (iiu_lt v nelem (el_nne E) nnode (el_ndim E) ndof eq_refl eq_refl Hm). }
    destruct (write_index (m_iiu p) Xu u0 ndof Lu0 (proj1 Du) (proj2 Du) LXu) as (u1 & Eu1 & Lu1 & Vu1 & _).
    assert (Ei1 : length u_p = length (m_iip p)) by (now rewrite Eip).
    destruct (write_index (m_iip p) u_p u1 ndof Lu1 ltac:(rewrite Eip; apply Hi) ltac:(rewrite Eip; apply Hi) Ei1) as (u2 & Eu2 & Lu2 & Vu2 & Wu2).
    assert (P1 : put u0 (m_iiu p) Xu = Ok u1) by (unfold put; rewrite LXu, Nat.eqb_refl; exact Eu1).
    assert (P2 : put u1 (m_iip p) u_p = Ok u2) by (unfold put; rewrite Ei1, Nat.eqb_refl; exact Eu2).
    rewrite P1. cbn [bind]. rewrite P2. cbn [bind]. clear P1 P2.
    destruct (V_sizes v nelem (el_nne E) nnode (el_ndim E) ndof eq_refl eq_refl Hm) as (Z1 & Z2 & Z3).
    assert (Ed : AsNode_dofval v u2 = Ok y); [|rewrite Ed; cbn [bind]; exact Est].
    rewrite <- Ey. unfold AsNode_dofval. rewrite Z2. change (m_ndim v) with (el_ndim E). rewrite !(fill2_Ok _ _ _ (fun m i => val1 u2 (idx2 dofs m i))); [reflexivity| |].
    - intros m i Hm' Hi'. rewrite (vp_get_part v nelem (el_nne E) nnode (el_ndim E) ndof eq_refl eq_refl Hm iip Hi p Ep) by assumption. cbn [bind].
      rewrite (vp_nnu v nelem (el_nne E) nnode (el_ndim E) ndof eq_refl eq_refl Hm iip Hi p Ep).
      destruct (vp_part v nelem (el_nne E) nnode (el_ndim E) ndof eq_refl eq_refl Hm iip Hi p Ep m i Hm' Hi') as [(P1 & P2 & P3)|(P1 & P2 & P3)].
      + rewrite (proj2 (Nat.ltb_lt _ _) P1). rewrite Wu2; [|apply (V_dof v nelem (el_nne E) nnode (el_ndim E) ndof eq_refl eq_refl Hm); assumption|now rewrite Eip].
        rewrite <- Eu in P2. change (m_dofs v) with dofs in P2. rewrite (Vu1 _ _ P2). apply get_nth. rewrite LXu, Eu. exact P1.
      + rewrite (proj2 (Nat.ltb_ge _ _) P1). rewrite <- Eip in P2. change (m_dofs v) with dofs in P2. rewrite (Vu2 _ _ P2). rewrite Eip in P2 |- *. pose proof (Hbc m i _ Hm' Hi' P2) as Hb'. etransitivity; [apply (get2_nth 0%R bc nnode (el_ndim E)); assumption|]. f_equal. exact Hb'.
    - intros m i Hm' Hi'. rewrite (V_get_dof v nelem (el_nne E) nnode (el_ndim E) ndof eq_refl eq_refl Hm) by assumption. cbn [bind]. apply get_nth. rewrite Lu2. now apply (V_dof v nelem (el_nne E) nnode (el_ndim E) ndof eq_refl eq_refl Hm). }
  (* there is such a nodal displacement *)
  destruct (write_index iip u_p (repeat 0%R ndof) ndof (repeat_length _ _) (proj1 Hi) (proj2 Hi) Lup) as (w & _ & Lw & Vw & _).
  set (bc := tab2 nnode (el_ndim E) (fun m i => val1 w (idx2 dofs m i))).
  assert (Vb : forall m i, m < nnode -> i < el_ndim E -> val2 bc m i = val1 w (idx2 dofs m i)) by (intros m i Hm' Hi'; unfold val2, bc; exact (tab2_nth 0%R nnode (el_ndim E) (fun m i => val1 w (idx2 dofs m i)) m i Hm' Hi')).
  assert (Nb : nodal dofs nnode (el_ndim E) bc) by (split; [apply tab2_shape|]; intros m i n j H1 H2 H3 H4 Eq; rewrite !Vb by assumption; now rewrite Eq).
  assert (Hb : forall m i k, m < nnode -> i < el_ndim E -> nth_error iip k = Some (idx2 dofs m i) -> val2 bc m i = val1 u_p k) by (intros m i k H1 H2 H3; rewrite Vb by assumption; now apply Vw).
  destruct (C82_statics conn dofs nelem nnode ndof x E iip H Hm Hi Hh linsolve ops K0 K s p Hok E0 Er Ep mem C fext disp0 bc HM HC Hs Nf Nb S0 Z0) as (disp & fint & fext' & fres & Est & Nd & Sr & Fi & V).
  pose proof (Main bc Nb Hb _ Est) as Em. exists disp, fint, fext', fres. split; [exact Em|]. split; [exact Nd|]. split; [exact Sr|]. split; [exact Fi|]. split.
  - intros m i H1 H2. destruct (V m i H1 H2) as (V1 & V2 & V3 & V4). split; [exact V1|]. split; [|split; [exact V3|exact V4]]. intros k Hk. rewrite V2 by (eapply nth_error_In; exact Hk). now apply Hb.
  - intros bc' Nb' Hb'. destruct (C82_statics conn dofs nelem nnode ndof x E iip H Hm Hi Hh linsolve ops K0 K s p Hok E0 Er Ep mem C fext disp0 bc' HM HC Hs Nf Nb' S0 Z0) as (d2 & f2 & e2 & r2 & Est2 & _).
    pose proof (Main bc' Nb' Hb' _ Est2) as Em2. rewrite Em in Em2. injection Em2 as -> -> -> ->. exact Est2.
Qed.
Print Assumptions C103_manual.

Definition sq_up : list R := map (fun d => if d =? 5 then 1%R else 0%R) sq_iip.
Example C103_ex : exists K0 p, new_MatrixPartitioned sq_v sq_iip = Ok K0 /\ new_VectorPartitioned sq_v sq_iip = Ok p /\
  exists disp fint fext' fres, statics_manual div1 sq_mem p K0 new_Solver sqE (ddot42 2 Isym) Isym (nodes4 0 0 0 0 0 0 0 3) (nodes4 0 0 0 0 0 0 0 0) (repeat 7%R 8) sq_up = Ok (disp, fint, fext', fres) /\
    val2 disp 2 1 = 1%R /\ val2 fint 3 1 = 3%R /\ val2 fres 3 1 = 0%R.
Proof.
  destruct (mp_new sq_v 1 4 4 2 8 eq_refl eq_refl sq_mesh sq_iip sq_prescribed sq_holes) as [K0 [E0 [[[Ep _] _] _]]].
  exists K0, (MP_p K0). split; [exact E0|]. split; [exact Ep|].
  destruct (C103_manual sq_conn sq_dofs 1 4 8 sq sqE sq_iip sq_elem sq_mesh sq_prescribed sq_holes div1 [] K0 K0 new_Solver (MP_p K0) (Forall_nil _) E0 eq_refl Ep
    sq_mem Isym (nodes4 0 0 0 0 0 0 0 3) (nodes4 0 0 0 0 0 0 0 0) (repeat 7%R 8) sq_up sq_memory (Isym_minor _ _)) as [disp [fint [fext' [fres [Er [_ [_ [_ [H _]]]]]]]]].
  - intros K'. now apply (sq_solves K0 K0), sq_valid.
  - apply sq_nodal.
  - apply (sq_nodal 0 0 0 0 0 0 0 0).
  - intros n j Hn Hj. cbn in Hj. destruct n as [|[|[|[|]]]]; try lia; destruct j as [|[|]]; try lia; reflexivity.
  - reflexivity.
  - apply map_length.
  - exists disp, fint, fext', fres. split; [exact Er|]. destruct (H 2 1 ltac:(lia) ltac:(cbn; lia)) as [_ [H21 _]]. destruct (H 3 1 ltac:(lia) ltac:(cbn; lia)) as [H31 [_ [H32 H33]]].
    split; [rewrite (H21 5 eq_refl); reflexivity|]. split; [|exact H31]. rewrite <- H33. apply H32. cbn. lia.
Qed.
