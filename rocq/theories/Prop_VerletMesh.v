(** Property C97: the documented programs for explicit dynamics, from the mesh to the energies. *)
From Coq Require Import Reals Lra Lia.
From Verif Require Import Model_Element Spec_Element Proof_Element Proof_ElementQuad4 Base Spec Spec2d Sums Spec_Vector Spec_Matrix Spec_MatrixDiagonal Model_Numbering Model_Vector Proof_Vector Proof_Matrix Model_MatrixDiagonal Proof_MatrixDiagonal
  Model_Regular2d Proof_Regular2d Prop_Regular2d Spec_Patch Proof_PatchRegular Model_MeshGeometry Model_Pipeline Spec_Pipeline Proof_PipelineElem Proof_Pipeline Proof_PipelineBalance Proof_PipelineDynamics Proof_PipelineEx Spec_Periodic Spec_Macro Proof_Macro Spec_Spd Prop_Spd
  Model_Verlet Spec_Verlet Proof_Verlet Prop_Verlet Proof_VerletMesh.

(** the schedules are permutations of the elements *)
Definition valid_mem (n : nat) (mem : memory) : Prop := schedule n (es_new mem) /\ schedule n (es_int mem).

(** for every regular mesh with periodic DOFs, any elastic material and density, any displacement gradient to start with, and every number of increments: if
    dt^2 L <= theta rho0 h^2, with L an upper bound of the stiffness and rho0 a lower bound of the density, then the program returns, and
    in all increments Ekin + (1 - theta) Epot <= E0 <= Ekin + Epot with E0 = Epot(0) the energy of the homogeneous strain *)
Theorem C97_program : forall m, 1 <= nelx m -> 1 <= nely m -> (0 < hh m)%R ->
  forall C law energy L rho rho0, elastic_2d (nelem m) 4 C law energy L -> (0 < rho0)%R -> (forall e q, e < nelem m -> q < 4 -> (rho0 <= rho [e;q])%R) ->
  forall dt theta, (0 < theta <= 1)%R -> (dt * dt * L <= theta * rho0 * (hh m * hh m))%R ->
  forall F memq memn incs, shape2 F 2 2 -> valid_mem (nelem m) memq -> valid_mem (nelem m) memn ->
  Forall (fun i => valid_calls (nelem m) (i_calls i) /\ Permutation (i_order i) (list_prod (seq 0 (nnode m)) (seq 0 2))) incs ->
  exists st outs, dynamics_main (fun v E fext => elastic_verlet_step v E law fext dt) m energy rho F memq memn incs = Ok (st, outs) /\ length outs = length incs /\
    let ekin k := fst (nth k outs (0%R, 0%R)) in let epot k := snd (nth k outs (0%R, 0%R)) in
    let E0 := sumn (nelem m) (fun e => sumn 4 (fun q => energy (hom_strain F) [e;q] * (hh m * hh m / 4)))%R in
    forall k, k < length incs -> epot 0 = E0 /\ (0 <= ekin k /\ 0 <= epot k /\ ekin k + (1 - theta) * epot k <= E0 <= ekin k + epot k)%R.
Proof.
  intros m Hx Hy Hh C law energy L rho rho0 HM Hr Hrho dt theta Ht Hdt F memq memn incs SF [Hq _] [Hn Hn'] Hincs.
  destruct (C15_dofsPeriodic_quad4 m Hx Hy Hh) as [D [ED _]]. destruct (periodic_mesh_dofs m D Hx Hy Hh ED) as [Hm Hho].
  unfold dynamics_main. rewrite ED. cbn [bind]. set (v := mkVector (conn m) 4 D 2) in *.
  destruct (AsElement_nodevec_spec v (nelem m) 4 (nnode m) 2 _ eq_refl eq_refl Hm (coor m) (coor_shape m)) as [xe [-> [Sxe Vxe]]]. cbn [bind]. set (x := of_rows xe) in *.
  assert (HX : on_mesh (conn m) (nelem m) (coor m) x). { intros e n i He Hn1 Hi. unfold x. rewrite of_rows_val. now apply Vxe. }
  pose proof (Quad4_obj_new (nelem m) 4 (Gauss4_xi (j_xi memq)) (Gauss4_w (j_w memq)) (es_new memq) x (j1 memq) (j2 memq) (j3 memq) (j4 memq) (j5 memq) Hq) as HQ.
  pose proof (Quad4_obj_new (nelem m) 4 (Nodal4_xi (j_xi memn)) (Nodal4_w (j_w memn)) (es_new memn) x (j1 memn) (j2 memn) (j3 memn) (j4 memn) (j5 memn) Hn) as HN.
  set (Q := Quad4_new (es_new memq) _ _ _ _ _ _ _ _ _ _) in *. set (Qn := Quad4_new (es_new memn) _ _ _ _ _ _ _ _ _ _) in *. set (E := Quad4_elem Q) in *.
  destruct (program_mass m D x Qn _ _ (es_int memn) rho (j_K memn) rho0 Hx Hy Hh ED HN HX Hn' Hr Hrho) as [KB KP]. set (Km := to_rows _ _ _ _) in *.
  assert (SK : shape3 Km (nelem m) (el_nne E * el_ndim E) (el_nne E * el_ndim E)) by apply to_rows_shape.
  destruct (MD_assemble_spec v (nelem m) 4 (nnode m) 2 _ eq_refl eq_refl Hm (new_MatrixDiagonal v) Km eq_refl) as [M [EM HMd]]; [|exact SK|].
  { unfold new_MatrixDiagonal. cbn [MD_A]. unfold empty. rewrite repeat_length. apply (V_sizes v (nelem m) 4 (nnode m) 2 _ eq_refl eq_refl Hm). }
  rewrite EM. cbn [bind]. destruct (MD_data_spec v (nelem m) 4 (nnode m) 2 _ eq_refl eq_refl Hm M _ HMd) as [mass [Ed [Lm Vm]]]. rewrite Ed. cbn [bind].
  destruct (affine_start_spec F (coor m) (nnode m) 2 SF (coor_shape m)) as [u [-> [Su Vu]]]; [unfold nnode; nia|]. cbn [bind].
  set (zero := map (map (fun _ => 0%R)) (coor m)).
  assert (Sz : shape2 zero (nnode m) 2). { split; [unfold zero; rewrite map_length; apply coor_shape|]. intros r Hr'. apply in_map_iff in Hr'. destruct Hr' as [r' [<- Hr']]. rewrite map_length. now apply (coor_shape m). }
  assert (Vz : forall n i, val2 zero n i = 0%R).
  { intros n i. unfold val2, nth2, zero. destruct (Nat.lt_ge_cases n (length (coor m))) as [Ln|Ln].
    - rewrite (nth_indep _ [] (map (fun _ : R => 0%R) [])) by (now rewrite map_length). rewrite (map_nth (map (fun _ : R => 0%R))). exact (map_nth (fun _ : R => 0%R) (nth n (coor m) []) 0%R i).
    - rewrite (nth_overflow (map _ _)) by (now rewrite map_length). now destruct i. }
  assert (Nz : nodal D (nnode m) 2 zero) by (split; [exact Sz|]; intros a i b j _ _ _ _ _; now rewrite !Vz).
  assert (Hmass : forall d, d < nelx m * nely m * 2 -> (0 < val1 mass d)%R) by (intros d Hd; rewrite Vm by exact Hd; now apply KP).
  destruct (regular_full m _ _ x Q Hh HQ HX) as [_ [HA HV]].
  assert (HE : elem_obj (nelem m) x E) by exact (affine_elem _ _ _ HA).
  assert (Enip : el_nip E = 4) by exact (f_nip (Quad4_facts _ _ _ _ _ _ HQ)).
  assert (P : (0 < hh m * hh m)%R) by (apply Rmult_lt_0_compat; assumption).
  assert (Hlaw : linear_law (nelem m) E law C) by (intros A e q i j He Hq' Hi Hj; rewrite Enip in Hq'; now apply HM).
  assert (Hen : stored_energy (nelem m) E law energy) by (intros A e q He Hq'; rewrite Enip in Hq'; now apply (em_energy _ _ _ _ _ _ HM)).
  assert (Hmi : minor_symmetric (nelem m) E C) by (intros e q i j He Hq' Hi Hj k l Hk Hl; rewrite Enip in Hq'; now apply (em_minor _ _ _ _ _ _ HM)).
  assert (Hma : major_symmetric (nelem m) E C) by (intros e q i j He Hq' Hi Hj k l Hk Hl; rewrite Enip in Hq'; now apply (em_major _ _ _ _ _ _ HM)).
  assert (Hps : positive_stiffness (nelem m) E C) by (intros A e q He Hq'; rewrite Enip in Hq'; now apply (em_bound _ _ _ _ _ _ HM)).
  assert (Hst : stable_step (conn m) D (nelem m) (nnode m) (nelx m * nely m * 2) E C mass dt theta).
  { apply (C96_cfl (conn m) D (nelem m) (nnode m) _ E Hm Km M mass SK EM Ed C dt theta). intros w e Sw He. unfold twice_energy_in. set (G := el_GradN_vector _ _ _).
    rewrite Enip. change (el_tdim E) with 2. change (el_dV E) with (q_vol Q). change (el_nne E) with 4. change (el_ndim E) with 2.
    assert (Hc0 : valid_call (nelem m) (mkCall (seq 0 (nelem m)) (fun _ => 0%R))) by (unfold valid_call, schedule; cbn; reflexivity).
    pose proof (square_bound m _ _ x Q _ (at_elements (conn m) w) e Hh HQ HX Hc0 He) as SB. cbv zeta in SB. fold E in SB. fold G in SB. cbn [at_elements] in SB.
    set (W2 := sumn 4 (fun n => sumn 2 (fun i => val2 w (idx2 (conn m) e n) i * val2 w (idx2 (conn m) e n) i)%R)) in *.
    set (GG := sumn 4 (fun q => sumn 2 (fun i => sumn 2 (fun k => G [e;q;i;k] * G [e;q;i;k])) * q_vol Q [e;q])%R) in *.
    assert (LE : forall n (f g : nat -> R), (forall i, i < n -> (f i <= g i)%R) -> (sumn n f <= sumn n g)%R). { intros n f g Hfg. unfold sumn. apply sumL_le. intros i Hi. apply in_seq in Hi. apply Hfg. lia. }
    assert (HVp : forall q, q < 4 -> (0 <= q_vol Q [e;q])%R). { intros q Hq'. apply (HV e q He). cbn [Quad4_elem el_nip]. now rewrite (f_nip (Quad4_facts _ _ _ _ _ _ HQ)). }
    assert (HW : (0 <= W2)%R) by (apply sumn_nonneg; intros; apply sumn_nonneg; intros; nra).
    assert (HGG : (0 <= GG)%R). { apply sumn_nonneg. intros q Hq'. apply Rmult_le_pos; [|now apply HVp]. apply sumn_nonneg. intros. apply sumn_nonneg. intros. nra. }
    set (KE := sumn 4 _). assert (B1 : (KE <= L * GG)%R).
    { unfold KE, GG. rewrite <- sumn_scal. apply LE. intros q Hq'. rewrite <- Rmult_assoc. apply Rmult_le_compat_r; [now apply HVp|]. now apply (em_bound _ _ _ _ _ _ HM). }
    assert (HKE : (0 <= KE)%R). { apply sumn_nonneg. intros q Hq'. apply Rmult_le_pos; [|now apply HVp]. now apply (em_bound _ _ _ _ _ _ HM). }
    apply (Rle_trans _ (4 * theta * (rho0 * (hh m * hh m / 4) * W2))%R).
    - destruct (Rle_or_lt 0 L) as [HL|HL].
      + apply (Rle_trans _ (dt * dt * L * W2)%R).
        * rewrite (Rmult_assoc (dt * dt)). apply Rmult_le_compat_l; [nra|]. apply (Rle_trans _ _ _ B1). apply Rmult_le_compat_l; [exact HL|exact SB].
        * apply (Rle_trans _ (theta * rho0 * (hh m * hh m) * W2)%R); [now apply Rmult_le_compat_r|]. right. field.
      + assert (KE = 0)%R as -> by nra. rewrite Rmult_0_r. repeat apply Rmult_le_pos; lra.
    - apply Rmult_le_compat_l; [lra|]. unfold W2. rewrite <- sumn_scal. apply LE. intros n Hn1. rewrite <- sumn_scal. apply LE. intros i Hi. apply Rmult_le_compat_r; [nra|]. now apply KB. }
  destruct (C96_bounded (conn m) D (nelem m) (nnode m) _ x E HE Hm Km M mass SK EM Ed Hmass C law energy Hlaw Hen Hmi Hma Hps HV dt theta Ht Hst u zero zero zero Su Nz Nz Sz (fun n i _ _ => Vz n i) incs Hincs) as [st [outs [Er [Lo B]]]].
  exists st, outs. split; [exact Er|]. split; [exact Lo|]. intros k Hk. cbv zeta in B.
  set (E0 := sumn (nelem m) (fun e => sumn 4 (fun q => energy (hom_strain F) [e;q] * (hh m * hh m / 4)))%R). set (epot := fun k => snd (nth k outs (0%R, 0%R))). destruct (B k k Hk Hk) as [[B1 [B2 _]] B3]. destruct (B3 (fun n i _ _ => conj (Vz n i) (Vz n i))) as [B4 B5].
  assert (EE : epot 0 = E0).
  { unfold epot. rewrite B4. unfold twice_energy. set (G := el_GradN_vector _ _ _). unfold E0, integral. rewrite <- sumn_scal. apply sumn_ext. intros e He. rewrite Enip, <- sumn_scal. apply sumn_ext. intros q Hq'. rewrite <- Rmult_assoc.
    assert (Vol : el_dV E [e;q] = (hh m * hh m / 4)%R).
    { change (el_dV E) with (q_vol Q). rewrite (f_vol (Quad4_facts _ _ _ _ _ _ HQ)) by assumption. rewrite (regular_jac m x e _ HX He). assert (W : Gauss4_w (j_w memq) [q] = 1%R) by (revert q Hq'; apply lt4; unfold Gauss4_w; blk; reflexivity). rewrite W. ring. }
    rewrite Vol. f_equal. rewrite (em_energy _ _ _ _ _ _ HM) by assumption. f_equal. change (el_tdim E) with 2.
    assert (HG : forall i j, i < 2 -> j < 2 -> G [e;q;i;j] = val2 F j i).
    { intros i j Hi Hj. unfold G. pose proof (affine_grad (nelem m) x E (mkCall (seq 0 (nelem m)) (fun _ => 0%R)) (fun i => - sumn 2 (fun k => val2 F i k * val2 (coor m) 0 k))%R (fun i j => val2 F i j) (at_elements (conn m) u) HA) as AG.
      change (el_ndim E) with 2 in AG. rewrite AG; try assumption; try (now rewrite Enip).
      - apply Nat.ltb_lt in Hi, Hj. now rewrite Hi, Hj.
      - unfold valid_call, schedule. cbn. reflexivity.
      - intros e' n i' He' Hn1 Hi'. cbn [at_elements]. rewrite Vu; [|now apply (V_node v (nelem m) 4 (nnode m) 2 _ eq_refl eq_refl Hm)|exact Hi'].
        rewrite (HX e' n 0 He' Hn1 ltac:(lia)) || idtac. unfold sumn, sumL. cbn [seq fold_right]. rewrite !HX by (assumption || lia). ring. }
    assert (HS : forall i j, i < 2 -> j < 2 -> law (hom_strain F) [e;q;i;j] = ddot42 2 C G [e;q;i;j]).
    { intros i j Hi Hj. rewrite (em_law _ _ _ _ _ _ HM) by assumption. unfold ddot42, sumn, sumL. cbn [seq fold_right]. rewrite !HG by lia. cbn [hom_strain]. rewrite (em_minor _ _ _ _ _ _ HM e q i j 1 0) by (assumption || lia). lra. }
    assert (SY : forall i j, i < 2 -> j < 2 -> ddot42 2 C G [e;q;i;j] = ddot42 2 C G [e;q;j;i]).
    { intros i j Hi Hj. cbn [ddot42]. apply sumn_ext. intros a Ha. apply sumn_ext. intros b Hb. f_equal.
      rewrite (em_major _ _ _ _ _ _ HM e q i j a b) by assumption. rewrite (em_minor _ _ _ _ _ _ HM e q b a j i) by assumption. now rewrite (em_major _ _ _ _ _ _ HM e q b a i j) by assumption. }
    unfold sumn, sumL. cbn [seq fold_right]. rewrite !HS by lia. cbn [hom_strain]. rewrite !HG by lia. rewrite (SY 1 0) by lia. field. }
  split; [exact EE|]. change (snd (nth 0 outs (0%R, 0%R))) with (epot 0) in B5. rewrite EE in B5. split; [exact B1|]. split; [exact B2|]. exact B5.
Qed.
Print Assumptions C97_program.

(** the program with the corrector steps returns the same *)
Theorem C97_same : forall m law energy rho F memq memn incs dt,
  dynamics_main (fun v E fext => verlet_step v E law fext dt) m energy rho F memq memn incs = dynamics_main (fun v E fext => elastic_verlet_step v E law fext dt) m energy rho F memq memn incs.
Proof.
  intros. unfold dynamics_main. destruct (Regular_dofsPeriodic m) as [D| | |]; try reflexivity. cbn [bind]. destruct (AsElement_nodevec _ _) as [xe| | |]; try reflexivity. cbn [bind].
  destruct (MD_assemble _ _) as [M| | |]; try reflexivity. cbn [bind]. destruct (MD_data M) as [mass| | |]; try reflexivity. cbn [bind]. destruct (affine_start F (coor m)) as [u| | |]; try reflexivity. cbn [bind].
  apply C96_same.
Qed.
Print Assumptions C97_same.

(** the parameters of the documented programs (lines 25-28, 70-71): 60 x 60 elements of size 1, bulk modulus 100, shear modulus 10 in a quarter of the
    elements and 1 elsewhere, density 1, time step 0.01; then theta = 1/50, and the energy of the shear strain is positive *)
Definition iso_modulus (e : nat) : R := if e <? 900 then 10%R else 1%R.
Definition iso_C : arr := fun k => match k with [e;q;i;j;k;l] => ((100 - iso_modulus e) * (ind (i =? j) * ind (k =? l)) + 2 * iso_modulus e * Isym [e;q;i;j;k;l])%R | _ => 0%R end.
Definition iso_energy : arr -> arr := fun A k => match k with [e;q] => (/ 2 * sumn 2 (fun i => sumn 2 (fun j => ddot42 2 iso_C A [e;q;i;j] * A [e;q;i;j])))%R | _ => 0%R end.
Example C97_ex : let m := mkRegular 60 60 1 in let F := [[0; 1 / 20]; [0; 0]]%R in
  elastic_2d (nelem m) 4 iso_C (ddot42 2 iso_C) iso_energy 200 /\ (1 / 100 * (1 / 100) * 200 <= 1 / 50 * 1 * (hh m * hh m))%R /\ shape2 F 2 2 /\
  (0 < sumn (nelem m) (fun e => sumn 4 (fun q => iso_energy (hom_strain F) [e;q] * (hh m * hh m / 4))))%R.
Proof.
  intros m F.
  assert (Q : forall A e q, sumn 2 (fun i => sumn 2 (fun j => ddot42 2 iso_C A [e;q;i;j] * A [e;q;i;j])%R) =
    (100 * ((A [e;q;0%nat;0%nat] + A [e;q;1%nat;1%nat]) * (A [e;q;0%nat;0%nat] + A [e;q;1%nat;1%nat])) + iso_modulus e * ((A [e;q;0%nat;0%nat] - A [e;q;1%nat;1%nat]) * (A [e;q;0%nat;0%nat] - A [e;q;1%nat;1%nat]) + (A [e;q;0%nat;1%nat] + A [e;q;1%nat;0%nat]) * (A [e;q;0%nat;1%nat] + A [e;q;1%nat;0%nat])))%R).
  { intros A e q. unfold sumn, sumL, ddot42, sumn, sumL. cbn [seq fold_right]. unfold iso_C, Isym, ind. cbn [Nat.eqb andb].
    generalize (iso_modulus e), (A [e;q;0%nat;0%nat]), (A [e;q;0%nat;1%nat]), (A [e;q;1%nat;0%nat]), (A [e;q;1%nat;1%nat]). intros. field. }
  assert (IM : forall e, (1 <= iso_modulus e <= 10)%R) by (intros e; unfold iso_modulus; destruct (e <? 900); lra).
  split; [|split; [cbn; lra|split; [split; [reflexivity|]; intros r [<-|[<-|[]]]; reflexivity|]]].
  - split; try reflexivity.
    + intros. unfold iso_C, Isym. rewrite (Nat.eqb_sym k l). lra.
    + intros e q i j k l _ _ _ _ _ _. unfold iso_C, Isym. rewrite (Nat.eqb_sym l k), (Nat.eqb_sym j i), (Nat.eqb_sym l i), (Nat.eqb_sym k j), (Nat.eqb_sym l j), (Nat.eqb_sym k i). rewrite (andb_comm (j =? l)). lra.
    + intros A e q _ _. rewrite Q. specialize (IM e). unfold sumn, sumL. cbn [seq fold_right]. revert IM. generalize (iso_modulus e), (A [e;q;0%nat;0%nat]), (A [e;q;0%nat;1%nat]), (A [e;q;1%nat;0%nat]), (A [e;q;1%nat;1%nat]). intros g a b c d IM.
      pose proof (Rle_0_sqr (a + d)) as S1. pose proof (Rle_0_sqr (a - d)) as S2. pose proof (Rle_0_sqr (b + c)) as S3. pose proof (Rle_0_sqr (b - c)) as S4. unfold Rsqr in *.
      set (X := ((a - d) * (a - d) + (b + c) * (b + c))%R). assert (0 <= X)%R by (unfold X; lra). assert (0 <= g * X)%R by (apply Rmult_le_pos; lra). assert (g * X <= 10 * X)%R by (apply Rmult_le_compat_r; lra).
      split; [lra|]. assert (100 * ((a + d) * (a + d)) + 10 * X <= 200 * (a * a + (b * b + 0) + (c * c + (d * d + 0) + 0)))%R; [unfold X; lra|lra].
  - assert (T : forall e q, (0 < iso_energy (hom_strain F) [e;q] * (hh m * hh m / 4))%R).
    { intros e q. cbn [iso_energy]. rewrite Q. cbn [hom_strain]. unfold F, val2, nth2. cbn [nth]. specialize (IM e). cbn [hh m]. nra. }
    assert (P : forall n (f : nat -> R), (forall i, (0 < f i)%R) -> (0 < sumn (S n) f)%R). { intros n f Hf. induction n as [|n IH]; rewrite sumn_S; [change (sumn 0 f) with 0%R; specialize (Hf 0); lra|]. specialize (Hf (S n)). lra. }
    assert (exists n, nelem m = S n) as [n ->] by (exists (60 * 60 - 1); reflexivity). apply P. intros e. apply P. intros q. apply T.
Qed.
