(** Proofs about the program with periodic tyings. *)
From Coq Require Import Reals Lra Lia.
From Verif Require Import Model_Element Spec_Element Base Spec Sums Spec_Vector Spec_Matrix Spec_Tyings Model_Numbering Model_Vector Proof_Vector Model_Sparse Model_Tyings Prop_Tyings
  Model_Matrix Proof_Matrix Model_MatrixPartitioned Model_MatrixTyings Spec_MatrixTyings Proof_MatrixTyings Proof_Tyings2 Model_MeshGeometry Model_Pipeline Spec_Pipeline Proof_PipelineElem Proof_Pipeline Proof_PipelineBalance
  Model_PeriodicProgram Spec_Periodic.

(** ** ties in terms of DOFs *)
Section Defs.
Local Open Scope R_scope.
(** the values of the control DOFs are F *)
Definition control_values (dofs control : list (list nat)) (nnode ndim : nat) (u : list (list R)) (F : nat -> nat -> R) : Prop :=
  forall j k m i, (j < ndim)%nat -> (k < ndim)%nat -> (m < nnode)%nat -> (i < ndim)%nat -> idx2 dofs m i = idx2 control j k -> val2 u m i = F j k.

(** every tied pair (independent a, dependent b) is displaced as u_b = u_a + F (x_b - x_a), with F the values of the control DOFs *)
Definition tied (coor : list (list R)) (dofs control : list (list nat)) (ties : list (nat * nat)) (nnode ndim : nat) (F : nat -> nat -> R) (u : list (list R)) : Prop :=
  control_values dofs control nnode ndim u F /\
  forall a b j, In (a, b) ties -> (j < ndim)%nat -> val2 u b j = val2 u a j + sumn ndim (fun k => F j k * (val2 coor b k - val2 coor a k)).

(** a virtual displacement: nodal values that respect the ties (for some F) and vanish on the prescribed DOFs *)
Definition virtual (coor : list (list R)) (dofs control : list (list nat)) (ties : list (nat * nat)) (iip : list nat) (nnode ndim : nat) (w : list (list R)) : Prop :=
  nodal dofs nnode ndim w /\ (exists G, tied coor dofs control ties nnode ndim G w) /\
  forall m i, (m < nnode)%nat -> (i < ndim)%nat -> In (idx2 dofs m i) iip -> val2 w m i = 0.

End Defs.

Lemma elem_obj_ndim nelem x E : elem_obj nelem x E -> 0 < el_ndim E.
Proof. intros []; cbn; lia. Qed.

Section T.
Set Default Proof Using "All".
Variables (coor : list (list R)) (dofs control : list (list nat)) (ties : list (nat * nat)) (iip : list nat) (nnode ndim : nat).
Hypothesis H : periodic_input coor dofs control ties iip nnode ndim.
Variable t : Periodic.
Hypothesis Et : new_Periodic coor ndim dofs control ties iip = Ok t.
Variables Cu Cp : mat.
Hypothesis ECu : Cdu t = Ok Cu.
Hypothesis ECp : Cdp t = Ok Cp.
Notation nnu := (tp_nnu t). Notation nnp := (tp_nnp t). Notation nnd := (tp_nnd t).
Notation nni := (nnu + nnp). Notation ndof := (nni + nnd).
Notation T := (tie nnu nni Cu Cp).
Notation dof := (idx2 (tp_dofs t)).

Record renumbered : Prop := {
  rn_dofs : shape2 (tp_dofs t) nnode ndim; rn_control : shape2 (tp_control t) ndim ndim;
  rn_nni : tp_nni t = nni;
  rn_same : forall m i n j, m < nnode -> i < ndim -> n < nnode -> j < ndim -> (dof m i = dof n j <-> idx2 dofs m i = idx2 dofs n j);
  rn_lt : forall m i, m < nnode -> i < ndim -> dof m i < ndof;
  rn_p : forall m i, m < nnode -> i < ndim -> (nnu <= dof m i < nni <-> In (idx2 dofs m i) iip);
  rn_d : forall m i, m < nnode -> i < ndim -> (nni <= dof m i <-> dependent dofs ndim ties (idx2 dofs m i));
  rn_c : forall j k m i, j < ndim -> k < ndim -> m < nnode -> i < ndim -> (idx2 (tp_control t) j k = dof m i <-> idx2 control j k = idx2 dofs m i);
  rn_all : forall k, k < ndof -> exists m i, m < nnode /\ i < ndim /\ dof m i = k }.
Lemma rn : renumbered.
Proof using H Et.
  destruct (C44_renumber _ _ _ _ _ _ _ H) as [t' [E' [H1 [H2 [H3 [H4 [H5 [H6 [H7 [H8 [H9 H10]]]]]]]]]]]. rewrite Et in E'. injection E' as E'. rewrite <- E' in *.
  rewrite H4 in *. split; try assumption; intros m i Hm Hi; now apply H7.
Qed.

Lemma sizes : tying_sizes Cu Cp nnu nnp nnd.
Proof.
  destruct (C44_Cdu_Cdp _ _ _ _ _ _ _ H t Et) as [C [U [P [_ [EU [EP [R1 [C1 [R2 [C2 _]]]]]]]]]]. rewrite ECu in EU. rewrite ECp in EP. injection EU as EU. injection EP as EP.
  rewrite EU, EP. now split.
Qed.

Lemma mesh_of conn nelem nne : 0 < ndim -> connects conn nelem nne nnode -> mesh_dofs conn (tp_dofs t) nelem nne nnode ndim ndof.
Proof using H Et.
  intros Hd [Sc Hc]. destruct rn as [R1 _ _ _ R5 _ _ _ R9]. split; try assumption.
  assert (Pos : exists m i, m < nnode /\ i < ndim).
  { destruct (pi_ctrl _ _ _ _ _ _ _ H 0 0 Hd Hd) as [Hin _]. apply in_concat in Hin. destruct Hin as [r [Hr Hx]]. destruct (pi_dofs _ _ _ _ _ _ _ H) as [L1 L2].
    exists 0, 0. split; [|exact Hd]. rewrite <- L1. destruct dofs; [destruct Hr|cbn; lia]. }
  destruct Pos as [m0 [i0 [Hm0 Hi0]]]. pose proof (R5 m0 i0 Hm0 Hi0) as Lt.
  assert (Hin : forall d, In d (concat (tp_dofs t)) <-> d < ndof).
  { intro d. split.
    - intro Hx. apply in_concat in Hx. destruct Hx as [r [Hr Hx]]. apply (In_nth _ _ []) in Hr. destruct Hr as [m [Hm <-]]. apply (In_nth _ _ 0) in Hx. destruct Hx as [i [Hi <-]].
      destruct R1 as [L1 L2]. assert (Li : length (nth m (tp_dofs t) []) = ndim) by (apply L2, nth_In; exact Hm). rewrite Li in Hi. rewrite L1 in Hm. exact (R5 m i Hm Hi).
    - intro Hx. destruct (R9 d Hx) as [m [i [Hm [Hi <-]]]]. destruct R1 as [L1 L2]. apply in_concat. exists (nth m (tp_dofs t) []). split; [apply nth_In; now rewrite L1|].
      unfold idx2, nth2. apply nth_In. rewrite L2; [exact Hi|]. apply nth_In. now rewrite L1. }
  change (ndof = S (amax (concat (tp_dofs t)))).
  assert (L : amax (concat (tp_dofs t)) <= ndof - 1) by (apply amax_lub; intros d Hx; apply Hin in Hx; lia).
  assert (G : ndof - 1 <= amax (concat (tp_dofs t))) by (apply amax_ge, Hin; lia). lia.
Qed.
Lemma holes_of : no_holes (tp_dofs t) ndof.
Proof using H Et.
  intros d Hx. destruct rn as [R1 _ _ _ R5 _ _ _ R9]. destruct (R9 d Hx) as [m [i [Hm [Hi <-]]]]. destruct R1 as [L1 L2]. apply in_concat. exists (nth m (tp_dofs t) []).
  split; [apply nth_In; now rewrite L1|]. unfold idx2, nth2. apply nth_In. rewrite L2; [exact Hi|]. apply nth_In. now rewrite L1.
Qed.
Lemma nodal_of u : nodal dofs nnode ndim u <-> nodal (tp_dofs t) nnode ndim u.
Proof using H Et.
  destruct rn as [_ _ _ R4 _ _ _ _ _].
  split; intros [Su Au]; (split; [exact Su|]); intros m i n j Hm Hi Hn Hj Ed; apply Au; try assumption; now apply R4.
Qed.

(** the ties in terms of DOF values *)
Definition all_tied (Y : list R) : Prop := forall d, d < ndof -> val1 Y d = sumn nni (fun j => T d j * val1 Y j)%R.

Lemma tied_iff u Y : dof_values (tp_dofs t) nnode ndim ndof u Y ->
  (all_tied Y <-> tied coor dofs control ties nnode ndim (fun j k => val1 Y (idx2 (tp_control t) j k)) u).
Proof.
  intros [LY VY]. pose proof rn as [_ _ R3 _ _ _ _ R8 _].
  destruct (C44_affine _ _ _ _ _ _ _ H t Et) as [C [EC [RC [CC HC]]]]. rewrite R3 in *.
  destruct (HC u Y (conj LY VY)) as [z [Ez Hz]].
  destruct (C44_Cdu_Cdp _ _ _ _ _ _ _ H t Et) as [C' [U [P [EC' [EU [EP [_ [_ [_ [_ HUP]]]]]]]]]]. rewrite EC in EC'. injection EC' as EC'. rewrite <- EC' in HUP.
  rewrite ECu in EU. rewrite ECp in EP. injection EU as EU. injection EP as EP. rewrite <- EU, <- EP in HUP.
  assert (LF : length (firstn nni Y) = cols C) by (rewrite firstn_length, CC; lia).
  rewrite (mulvec_Ok C _ LF) in Ez. injection Ez as Ez. rewrite CC, RC in Ez.
  assert (HT : forall k, k < nnd -> sumn nni (fun j => T (nni + k) j * val1 Y j)%R = nth k z 0%R).
  { intros k Hk. rewrite <- Ez. pose proof (tab1_nth 0%R nnd (fun i => sumn nni (fun j => ent C i j * nth j (firstn nni Y) 0)%R) k Hk) as ET. unfold tab1 in ET. rewrite ET. clear ET. apply sumn_ext. intros j Hj. destruct (HUP k Hk) as [H1 H2].
    replace (nth j (firstn nni Y) 0%R) with (val1 Y j). 2:{ unfold val1. symmetry. rewrite <- (firstn_skipn nni Y) at 2. rewrite app_nth1; [reflexivity|rewrite firstn_length; lia]. }
    f_equal. unfold tie. destruct (Nat.ltb_spec (nni + k) nni); [lia|]. replace (nni + k - nni) with k by lia. destruct (Nat.ltb_spec j nnu) as [L|L]; [now apply H1|].
    rewrite H2 by lia. f_equal. lia. }
  assert (HS : forall k, k < nnd -> nth k (skipn nni Y) 0%R = val1 Y (nni + k)).
  { intros k Hk. unfold val1. rewrite <- (firstn_skipn nni Y) at 2. rewrite app_nth2 by (rewrite firstn_length; lia). f_equal. rewrite firstn_length. lia. }
  assert (Lz : length z = nnd) by (rewrite <- Ez, map_length, seq_length; reflexivity).
  assert (Eq : all_tied Y <-> z = skipn nni Y).
  { split.
    - intro HA. apply (nth_ext _ _ 0%R 0%R); [rewrite skipn_length; lia|]. intros k Hk. rewrite Lz in Hk. rewrite <- HT, HS by exact Hk. symmetry. apply HA. lia.
    - intros HA d Hd. destruct (le_lt_dec nni d) as [L|L].
      + replace d with (nni + (d - nni)) by lia. rewrite HT by lia. rewrite HA, HS by lia. reflexivity.
      + rewrite (sumn_ext _ _ (fun j => ind (d =? j)%nat * val1 Y j)%R); [symmetry; now apply sumn_delta'|]. intros j Hj. unfold tie. now destruct (Nat.ltb_spec d nni); [|lia]. }
  rewrite Eq, Hz. split; [|now intros [_ HA]]. intro HA. split; [|exact HA].
  intros j k m i Hj Hk Hm Hi Ed. rewrite <- VY by assumption. f_equal. symmetry. apply R8; try assumption. now symmetry.
Qed.

Lemma control_at j k : j < ndim -> k < ndim -> exists m i, m < nnode /\ i < ndim /\ idx2 dofs m i = idx2 control j k.
Proof using H.
  intros Hj Hk. destruct (pi_ctrl _ _ _ _ _ _ _ H j k Hj Hk) as [Hin _]. apply in_concat in Hin. destruct Hin as [r [Hr Hx]]. destruct (pi_dofs _ _ _ _ _ _ _ H) as [L1 L2].
  apply (In_nth _ _ []) in Hr. destruct Hr as [m [Hm <-]]. apply (In_nth _ _ 0) in Hx. destruct Hx as [i [Hi Ei]]. exists m, i.
  assert (Li : length (nth m dofs []) = ndim) by (apply L2, nth_In; exact Hm). rewrite Li in Hi. rewrite L1 in Hm. auto.
Qed.
Lemma tied_F F G u : tied coor dofs control ties nnode ndim F u -> (forall j k, j < ndim -> k < ndim -> F j k = G j k) -> tied coor dofs control ties nnode ndim G u.
Proof using.
  intros [H1 H2] HG. split.
  - intros j k m i Hj Hk Hm Hi Ed. rewrite <- HG by assumption. now apply H1.
  - intros a b j Hab Hj. rewrite (H2 a b j Hab Hj). f_equal. apply sumn_ext. intros k Hk. now rewrite HG.
Qed.
Lemma tied_control F u Y : tied coor dofs control ties nnode ndim F u -> dof_values (tp_dofs t) nnode ndim ndof u Y ->
  forall j k, j < ndim -> k < ndim -> F j k = val1 Y (idx2 (tp_control t) j k).
Proof using H Et.
  intros [H1 _] [_ VY] j k Hj Hk. destruct (control_at j k Hj Hk) as [m [i [Hm [Hi Ed]]]]. rewrite <- (H1 j k m i) by assumption. rewrite <- VY by assumption. f_equal.
  symmetry. apply (rn_c rn); try assumption. now symmetry.
Qed.
Lemma tied_all F u Y : tied coor dofs control ties nnode ndim F u -> dof_values (tp_dofs t) nnode ndim ndof u Y -> all_tied Y.
Proof. intros HT HY. apply (tied_iff u Y HY). apply (tied_F F); [exact HT|]. now apply (tied_control F u Y). Qed.

(** independent DOFs, and work *)
Lemma work_tied (f W : nat -> R) : (forall d, d < ndof -> W d = sumn nni (fun j => T d j * W j)%R) ->
  sumn ndof (fun d => W d * f d)%R = sumn nni (fun j => W j * sumn ndof (fun c => T c j * f c))%R.
Proof using.
  intro HW. rewrite (sumn_ext _ _ (fun d => sumn nni (fun j => W j * (T d j * f d)))%R).
  - rewrite sumn_swap. apply sumn_ext. intros j Hj. now rewrite sumn_scal.
  - intros d Hd. rewrite (HW d Hd) at 1. rewrite <- sumn_scal_r. apply sumn_ext. intros j Hj. ring.
Qed.
Lemma work_virtual (f W : nat -> R) : (forall d, d < ndof -> W d = sumn nni (fun j => T d j * W j)%R) -> (forall d, nnu <= d < nni -> W d = 0%R) ->
  (forall i, i < nnu -> sumn ndof (fun c => T c i * f c)%R = 0%R) -> sumn ndof (fun d => W d * f d)%R = 0%R.
Proof using.
  intros HW HP Hf. rewrite (work_tied f W HW). apply sumn_zero. intros j Hj. destruct (le_lt_dec nnu j) as [L|L]; [rewrite HP by lia; ring|]. rewrite Hf by exact L. ring.
Qed.
End T.
Unset Default Proof Using.

(** ** one element class and the tyings *)
Section N.
Set Default Proof Using "All".
Variables (coor : list (list R)) (dofs control : list (list nat)) (ties : list (nat * nat)) (iip : list nat) (nnode : nat).
Variables (conn : list (list nat)) (nelem : nat) (x : arr) (E : Elem).
Notation nne := (el_nne E). Notation ndim := (el_ndim E). Notation td := (el_tdim E).
Hypothesis HE : elem_obj nelem x E.
Hypothesis H : periodic_input coor dofs control ties iip nnode ndim.
Hypothesis Hc : connects conn nelem nne nnode.
Variable t : Periodic.
Hypothesis Et : new_Periodic coor ndim dofs control ties iip = Ok t.
Variables Cu Cp : mat.
Hypothesis ECu : Cdu t = Ok Cu.
Hypothesis ECp : Cdp t = Ok Cp.
Notation nnu := (tp_nnu t). Notation nnp := (tp_nnp t). Notation nnd := (tp_nnd t).
Notation nni := (nnu + nnp). Notation ndof := (nni + nnd).
Notation T := (tie nnu nni Cu Cp).
Notation dof := (idx2 (tp_dofs t)).
Notation v := (mkVector conn nne (tp_dofs t) ndim).
Notation asm := (assembled conn (tp_dofs t) nelem nne ndim).
Notation DV := (dof_values (tp_dofs t) nnode ndim ndof).

Lemma ndim_pos : 0 < ndim.
Proof using HE. exact (elem_obj_ndim _ _ _ HE). Qed.
Lemma Hmd : mesh_dofs conn (tp_dofs t) nelem nne nnode ndim ndof.
Proof using HE H Hc Et. exact (mesh_of coor dofs control ties iip nnode ndim H t Et conn nelem nne ndim_pos Hc). Qed.
Lemma Hholes : no_holes (tp_dofs t) ndof.
Proof using H Et. exact (holes_of coor dofs control ties iip nnode ndim H t Et). Qed.
Lemma iters : node_iters v = list_prod (seq 0 nnode) (seq 0 ndim).
Proof using HE H Hc Et. unfold node_iters. destruct (V_sizes v nelem nne nnode ndim ndof eq_refl eq_refl Hmd) as [_ [-> _]]. reflexivity. Qed.

Lemma values u : nodal (tp_dofs t) nnode ndim u -> exists Y, DV u Y.
Proof using HE H Hc Et.
  intros [Su Au]. destruct (AsDofs_values v nelem nne nnode ndim ndof eq_refl eq_refl Hmd (node_iters v) u (Permutation_refl _) Su Au) as [Y [_ [LY [VY _]]]]. exists Y. now split.
Qed.
Lemma values_unique u Y Y' : DV u Y -> DV u Y' -> forall d, d < ndof -> val1 Y d = val1 Y' d.
Proof using H Et.
  intros [_ V1] [_ V2] d Hd. destruct (rn_all _ _ _ _ _ _ _ (rn coor dofs control ties iip nnode ndim H t Et) d Hd) as [m [i [Hm [Hi <-]]]]. now rewrite V1, V2.
Qed.
Lemma values_zip f u w Y Z : nodal (tp_dofs t) nnode ndim u -> nodal (tp_dofs t) nnode ndim w -> DV u Y -> DV w Z ->
  exists W, DV (zip2 f u w) W /\ nodal (tp_dofs t) nnode ndim (zip2 f u w) /\ forall d, d < ndof -> val1 W d = f (val1 Y d) (val1 Z d).
Proof using HE H Hc Et.
  intros [Su Au] [Sw Aw] [LY VY] [LZ VZ].
  assert (N : nodal (tp_dofs t) nnode ndim (zip2 f u w)).
  { split; [now apply zip2_shape|]. intros m i n j Hm Hi Hn Hj Ed. rewrite !(zip2_val f _ _ nnode ndim) by assumption. now rewrite (Au m i n j), (Aw m i n j). }
  destruct (values _ N) as [W [LW VW]]. exists W. split; [now split|]. split; [exact N|]. intros d Hd.
  destruct (rn_all _ _ _ _ _ _ _ (rn coor dofs control ties iip nnode ndim H t Et) d Hd) as [m [i [Hm [Hi <-]]]]. rewrite VW, VY, VZ by assumption. now apply (zip2_val f _ _ nnode ndim).
Qed.

(** the internal force, as values of the DOFs, and its work *)
Lemma force_dofs law c1 c2 u : shape2 u nnode ndim -> exists ue f b, AsElement_nodevec v u = Ok ue /\ internal_force v E law c1 c2 u = Ok f /\ nodal (tp_dofs t) nnode ndim f /\ DV f b /\
  (valid_call nelem c2 -> forall c w we W, valid_call nelem c -> nodal (tp_dofs t) nnode ndim w -> AsElement_nodevec v w = Ok we -> DV w W ->
   sumn ndof (fun d => val1 W d * val1 b d)%R = integral nelem E (law (el_SymGradN_vector E c1 (of_rows ue))) (el_GradN_vector E c (of_rows we))).
Proof using HE H Hc Et.
  intros Su. destruct (elem_obj_raw _ _ _ HE) as [B Ho].
  destruct (force_spec v E nelem nnode ndof eq_refl eq_refl Hmd B Ho el_SymGradN_vector law c1 c2 u Su) as [ue [f [Eu [Ef [Sf [Vf Af]]]]]].
  set (fe := to_rows nelem nne ndim (el_Int_gradN_dot_tensor2_dV E c2 (law (el_SymGradN_vector E c1 (of_rows ue))))).
  destruct (AssembleDofs_elemvec_spec v nelem nne nnode ndim ndof eq_refl eq_refl Hmd fe (to_rows_shape _ _ _ _)) as [b [Eb [Lb Vb]]].
  exists ue, f, b. split; [exact Eu|]. split; [exact Ef|]. split; [now split|]. split.
  { split; [exact Lb|]. intros m i Hm Hi. rewrite Vf by assumption. rewrite Vb by now apply (V_dof v nelem nne nnode ndim ndof eq_refl eq_refl Hmd).
    unfold sum_elem. apply sumn_ext. intros e He. apply sumn_ext. intros k Hk. apply sumn_ext. intros j Hj. f_equal. unfold fe. now rewrite to_rows_val. }
  intros H2 c w we W Hcc [Sw Aw] Ew [LW VW].
  destruct (AsElement_dofval_spec v nelem nne nnode ndim ndof eq_refl eq_refl Hmd W LW) as [We [EWe [SWe VWe]]].
  destruct (virtual_work v E nelem nnode ndof eq_refl eq_refl Hmd x c2 c (law (el_SymGradN_vector E c1 (of_rows ue))) W We HE H2 Hcc LW EWe) as [b' [Eb' [_ HW]]].
  fold fe in Eb'. rewrite Eb in Eb'. injection Eb' as Eb'. rewrite <- Eb' in HW. rewrite HW.
  destruct (AsElement_nodevec_spec v nelem nne nnode ndim ndof eq_refl eq_refl Hmd w Sw) as [we' [Ew' [Swe Vwe]]]. rewrite Ew in Ew'. injection Ew' as Ew'. rewrite <- Ew' in Swe, Vwe.
  replace We with we; [reflexivity|]. apply (list_ext3 0%R _ _ nelem nne ndim); try assumption. intros e m i He Hm Hi.
  change (val3 we e m i = val3 We e m i). rewrite VWe, Vwe by assumption. symmetry. apply VW; [now apply (V_node v nelem nne nnode ndim ndof eq_refl eq_refl Hmd)|assumption].
Qed.

(** ** forces on the independent DOFs *)
Variable Ci : mat.
Hypothesis ECi : Cdi t = Ok Ci.
Notation vt := (mkVT v Cu Cp Ci).
Definition orders (os : nat -> list (nat * nat)) : Prop := forall n, Permutation (os n) (list_prod (seq 0 nnode) (seq 0 ndim)).

Lemma Ci_spec : rows Ci = nnd /\ cols Ci = nni /\ forall k j, k < nnd -> j < nni -> ent Ci k j = T (nni + k) j.
Proof.
  pose proof (rn_nni _ _ _ _ _ _ _ (rn coor dofs control ties iip nnode ndim H t Et)) as R3.
  destruct (C44_affine _ _ _ _ _ _ _ H t Et) as [C [EC [RC [CC _]]]]. rewrite ECi in EC. injection EC as EC. rewrite <- EC in RC, CC.
  destruct (C44_Cdu_Cdp _ _ _ _ _ _ _ H t Et) as [C' [U [P [EC' [EU [EP [_ [_ [_ [_ HUP]]]]]]]]]]. rewrite ECi in EC'. injection EC' as EC'. rewrite <- EC' in HUP.
  rewrite ECu in EU. rewrite ECp in EP. injection EU as EU. injection EP as EP. rewrite <- EU, <- EP in HUP.
  split; [exact RC|]. split; [now rewrite CC|]. intros k j Hk Hj. destruct (HUP k Hk) as [H1 H2]. unfold tie. destruct (Nat.ltb_spec (nni + k) nni); [lia|]. replace (nni + k - nni) with k by lia.
  destruct (Nat.ltb_spec j nnu) as [L|L]; [symmetry; now apply H1|]. rewrite H2 by lia. f_equal. lia.
Qed.
Lemma T_indep a j : a < nni -> T a j = ind (a =? j)%nat.
Proof using. intro L. unfold tie. now destruct (Nat.ltb_spec a nni); [|lia]. Qed.
Lemma sum_split (f : nat -> R) j : j < nni -> sumn ndof (fun c => T c j * f c)%R = (f j + sumn nnd (fun k => T (nni + k) j * f (nni + k)%nat))%R.
Proof using.
  intro Hj. rewrite sumn_app. f_equal. rewrite (sumn_ext _ _ (fun a => ind (a =? j)%nat * f a)%R); [now apply sumn_delta|]. intros a Ha. now rewrite T_indep.
Qed.

Lemma forces_i order order' f b : Permutation order (list_prod (seq 0 nnode) (seq 0 ndim)) -> Permutation order' (list_prod (seq 0 nnode) (seq 0 ndim)) ->
  shape2 f nnode ndim -> DV f b -> exists Fi, AsDofs_i vt order order' f = Ok Fi /\ length Fi = nni /\ forall d, d < nni -> val1 Fi d = sumn ndof (fun c => T c d * val1 b c)%R.
Proof.
  intros P1 P2 Sf Db. destruct Ci_spec as [RC [CC VC]]. pose proof (sizes coor dofs control ties iip nnode ndim H t Et Cu Cp ECu ECp) as [X1 X2 X3 X4].
  destruct (C45_AsDofs_i conn (tp_dofs t) nelem nne nnode ndim ndof Cu Cp Ci Hmd Hholes) with (order := order) (order' := order') (u := f) (y := b) as [_ [Fi [EF [LF VF]]]]; try assumption; try lia.
  exists Fi. split; [exact EF|]. split; [now rewrite LF|]. rewrite CC, RC in VF. intros d Hx. rewrite (VF d Hx), (sum_split (val1 b) d Hx). f_equal. apply sumn_ext. intros k Hk. now rewrite VC.
Qed.

(** the virtual displacement of one unknown *)
Lemma unit_virtual d : d < nnu -> exists w W, virtual coor dofs control ties iip nnode ndim w /\ DV w W /\ forall c, c < ndof -> val1 W c = T c d.
Proof.
  intro Hx. set (W := tab1 ndof (fun c => T c d)). assert (VW : forall c, c < ndof -> val1 W c = T c d) by (intros c Hcc; exact (tab1_nth 0%R ndof (fun c => T c d) c Hcc)).
  assert (LW : length W = ndof) by apply tab1_length. pose proof (rn coor dofs control ties iip nnode ndim H t Et) as RN.
  destruct (AsNode_dofval_spec v nelem nne nnode ndim ndof eq_refl eq_refl Hmd W LW) as [w [_ [Sw Vw]]].
  assert (DW : DV w W) by (split; [exact LW|intros m i Hm Hi; symmetry; now apply Vw]).
  exists w, W. split; [|split; [exact DW|exact VW]]. split; [|split].
  - apply (nodal_of coor dofs control ties iip nnode ndim H t Et). split; [exact Sw|]. intros m i n j Hm Hi Hn Hj Ed. rewrite !Vw by assumption. cbn [m_dofs]. now rewrite Ed.
  - exists (fun j k => val1 W (idx2 (tp_control t) j k)). apply (tied_iff coor dofs control ties iip nnode ndim H t Et Cu Cp ECu ECp w W DW). intros c Hcc. rewrite VW by exact Hcc.
    transitivity (sumn nni (fun j => ind (j =? d)%nat * T c j)%R); [symmetry; apply (sumn_delta nni d (fun j => T c j)); lia|]. apply sumn_ext. intros j Hj. rewrite VW by lia. rewrite (T_indep j d) by exact Hj. ring.
  - intros m i Hm Hi Hp. rewrite Vw by assumption. cbn [m_dofs]. apply (rn_p _ _ _ _ _ _ _ RN) in Hp; try assumption. rewrite VW by lia. rewrite T_indep by lia.
    unfold ind. destruct (Nat.eqb_spec (dof m i) d); [lia|reflexivity].
Qed.

Lemma forces_spec os fext fint bx bi : orders os -> shape2 fext nnode ndim -> shape2 fint nnode ndim -> DV fext bx -> DV fint bi ->
  exists Fx Fi, periodic_forces vt os fext fint = Ok (Fx, Fi) /\ length Fx = nni /\ length Fi = nni /\
    (forall d, nnu <= d < nni -> val1 Fx d = val1 Fi d) /\
    (forall F w W, nodal dofs nnode ndim w -> tied coor dofs control ties nnode ndim F w -> DV w W ->
       sumn nni (fun d => val1 Fi d * val1 W d)%R = sumn ndof (fun d => val1 bi d * val1 W d)%R) /\
    (Fx = Fi <-> forall w W, virtual coor dofs control ties iip nnode ndim w -> DV w W -> sumn ndof (fun d => val1 bi d * val1 W d)%R = sumn ndof (fun d => val1 bx d * val1 W d)%R).
Proof.
  intros Hos Sx Si Dx Di. destruct (forces_i (os 0) (os 1) fext bx (Hos 0) (Hos 1) Sx Dx) as [Fx [Ex [Lx Vx]]]. destruct (forces_i (os 2) (os 3) fint bi (Hos 2) (Hos 3) Si Di) as [Fi [Ei [Li Vi]]].
  pose proof (sizes coor dofs control ties iip nnode ndim H t Et Cu Cp ECu ECp) as [X1 X2 X3 X4].
  destruct (copy_p_spec vt Fi Fx) as [Fr [Er [Lr Vr]]].
  { unfold vt_nni, vt_nnu, vt_nnp. cbn [vt_Cdu vt_Cdp]. lia. } { lia. }
  cbn [vt_Cdu vt_Cdp] in Vr. rewrite X1, X2 in Vr.
  assert (HW : forall (f : list R) W, all_tied t Cu Cp W -> sumn ndof (fun d => val1 f d * val1 W d)%R = sumn nni (fun j => val1 W j * sumn ndof (fun c => T c j * val1 f c))%R).
  { intros f W TW. rewrite <- (work_tied t Cu Cp (val1 f) (val1 W) TW). apply sumn_ext. intros. ring. }
  exists Fr, Fi. split; [unfold periodic_forces; rewrite Ex; cbn [bind]; rewrite Ei; cbn [bind]; rewrite Er; reflexivity|]. split; [lia|]. split; [exact Li|]. split; [|split].
  - intros d [L1 L2]. rewrite Vr. rewrite (proj2 (Nat.leb_le _ _) L1), (proj2 (Nat.ltb_lt _ _) L2). reflexivity.
  - intros F w W Nw Tw DW. rewrite (HW bi W (tied_all coor dofs control ties iip nnode ndim H t Et Cu Cp ECu ECp F w W Tw DW)). apply sumn_ext. intros d Hx. rewrite Vi by exact Hx. ring.
  - split.
    + intros EF w W [Nw [[G Tw] Zw]] DW. pose proof (tied_all coor dofs control ties iip nnode ndim H t Et Cu Cp ECu ECp G w W Tw DW) as TW. rewrite !(HW _ W TW). apply sumn_ext. intros d Hx.
      destruct (le_lt_dec nnu d) as [L|L].
      * assert (Z : val1 W d = 0%R); [|rewrite Z; ring]. assert (Hd' : d < ndof) by lia. pose proof (rn coor dofs control ties iip nnode ndim H t Et) as RN.
        destruct (rn_all _ _ _ _ _ _ _ RN d Hd') as [m [i [Hm [Hi Ed]]]]. destruct DW as [_ VW]. rewrite <- Ed, VW by assumption.
        apply Zw; try assumption. apply (rn_p _ _ _ _ _ _ _ RN); try assumption. lia.
      * f_equal. rewrite <- Vx, <- Vi by exact Hx. rewrite <- EF. rewrite Vr. destruct (Nat.leb_spec nnu d); [lia|]. reflexivity.
    + intros HV. apply (nth_ext _ _ 0%R 0%R); [lia|]. intros d Hx. change (val1 Fr d = val1 Fi d). assert (Hdi : d < nni) by lia. rewrite Vr. destruct (Nat.leb_spec nnu d) as [L|L].
      * rewrite (proj2 (Nat.ltb_lt _ _) Hdi). reflexivity.
      * cbn [andb]. destruct (unit_virtual d L) as [w [W [Vw [DW HWd]]]]. specialize (HV w W Vw DW). rewrite Vi, Vx by exact Hdi.
        rewrite (sumn_ext _ _ (fun c => T c d * val1 bi c)%R) in HV by (intros c Hcc; rewrite HWd by exact Hcc; ring).
        rewrite (sumn_ext _ (fun c => val1 bx c * val1 W c)%R (fun c => T c d * val1 bx c)%R) in HV by (intros c Hcc; rewrite HWd by exact Hcc; ring). now symmetry.
Qed.

(** ** one iteration *)
Variable linsolve : mat -> list R -> list R.

Record good_iteration (it : iteration) : Prop := {
  gi_mem : valid_memory nelem nnode ndim (it_mem it); gi_fext : nodal dofs nnode ndim (it_fext it); gi_du : nodal dofs nnode ndim (it_du it);
  gi_solve : solves_matrix linsolve nnu (condensed ndof T (asm (element_stiffness v E (r_K (it_mem it)) (it_C it)))) }.

Lemma newton_one a A s disp F it : pt_is v Cu Cp nnu nnp nnd a A -> t_fresh ndof Cu Cp nnu nnp A a s -> good_iteration it ->
  nodal dofs nnode ndim disp -> tied coor dofs control ties nnode ndim F disp ->
  exists disp' a' s' F', newton_tyings linsolve v E (disp, a, s) it = Ok (disp', a', s') /\
    pt_is v Cu Cp nnu nnp nnd a' (asm (element_stiffness v E (r_K (it_mem it)) (it_C it))) /\
    t_fresh ndof Cu Cp nnu nnp (asm (element_stiffness v E (r_K (it_mem it)) (it_C it))) a' s' /\
    nodal dofs nnode ndim disp' /\ tied coor dofs control ties nnode ndim F' disp' /\
    (forall m i, m < nnode -> i < ndim -> In (idx2 dofs m i) iip -> val2 disp' m i = (val2 disp m i + val2 (it_du it) m i)%R) /\
    (minor_symmetric nelem E (it_C it) -> linear_law nelem E (it_law it) (it_C it) ->
     forall c1 c2 ue w we W Fx, valid_call nelem c1 -> valid_call nelem c2 -> AsElement_nodevec v disp' = Ok ue ->
     virtual coor dofs control ties iip nnode ndim w -> AsElement_nodevec v w = Ok we -> DV w W -> DV (it_fext it) Fx ->
     integral nelem E (it_law it (el_SymGradN_vector E c1 (of_rows ue))) (el_GradN_vector E c2 (of_rows we)) = sumn ndof (fun d => val1 W d * val1 Fx d)%R).
Proof using HE H Hc Et ECu ECp.
  intros Ha Hf [GM GF GD GS] Nd Td. pose proof GM as [M1 [M2 [M3 [_ [_ M6]]]]]. destruct (elem_obj_raw _ _ _ HE) as [B Ho].
  pose proof (rn coor dofs control ties iip nnode ndim H t Et) as RN.
  apply (nodal_of coor dofs control ties iip nnode ndim H t Et) in Nd. apply (nodal_of coor dofs control ties iip nnode ndim H t Et) in GF. apply (nodal_of coor dofs control ties iip nnode ndim H t Et) in GD.
  destruct (force_dofs (it_law it) (r_eps0 (it_mem it)) (r_f0 (it_mem it)) disp (proj1 Nd)) as [ue [f0 [b0 [Eu [Ef [Nf [Df _]]]]]]].
  destruct (values _ GF) as [Fx DFx]. destruct (values _ GD) as [D0 DD0]. destruct (values _ Nd) as [Y0 DY0].
  destruct (values_zip Rminus (it_fext it) f0 Fx b0 GF Nf DFx Df) as [Rs [DR [NR VR]]].
  pose proof (sizes coor dofs control ties iip nnode ndim H t Et Cu Cp ECu ECp) as SZ.
  destruct (pt_assemble v nelem nne nnode ndim ndof eq_refl eq_refl Hmd Hholes Cu Cp nnu nnp nnd SZ eq_refl a A (element_stiffness v E (r_K (it_mem it)) (it_C it)) Ha
    (K_shape v E nelem nnode ndof eq_refl eq_refl Hmd B Ho _ _)) as [a1 [Ea [Ha1 Ch]]].
  assert (P6 : Permutation (r_order (it_mem it)) (node_iters v)) by (rewrite iters; exact M6).
  destruct (pt_solve_nodevec v nelem nne nnode ndim ndof eq_refl eq_refl Hmd Hholes Cu Cp nnu nnp nnd SZ eq_refl linsolve a1 _ s (r_order (it_mem it)) _ (it_du it) Rs D0 Ha1 (or_intror (or_introl Ch)) GS P6
    (proj1 NR) DR (proj1 GD) DD0) as [y [s' [a' [Y [Es [Ha' [Co [Sy [DY [HP [HT HR]]]]]]]]]]].
  change (DV y Y) in DY.
  assert (Ny : nodal (tp_dofs t) nnode ndim y).
  { split; [exact Sy|]. intros m i n j Hm Hi Hn Hj Ed. destruct DY as [_ VY]. rewrite <- (VY m i), <- (VY n j) by assumption. now rewrite Ed. }
  destruct (values_zip Rplus disp y Y0 Y Nd Ny DY0 DY) as [Z [DZ [NZ VZ]]].
  assert (TZ : all_tied t Cu Cp Z).
  { pose proof (tied_all coor dofs control ties iip nnode ndim H t Et Cu Cp ECu ECp F disp Y0 Td DY0) as T0. intros d Hd. rewrite VZ by exact Hd. rewrite (T0 d Hd), (HT d Hd), <- sumn_plus. apply sumn_ext.
    intros j Hj. rewrite VZ by lia. ring. }
  exists (add2 disp y), a', s', (fun j k => val1 Z (idx2 (tp_control t) j k)). split.
  { unfold newton_tyings. cbn [fst snd]. rewrite Ef. cbn [bind]. rewrite Ea. cbn [bind]. unfold sub2. rewrite Es. reflexivity. }
  split; [exact Ha'|]. split; [right; right; exact Co|]. split; [now apply (nodal_of coor dofs control ties iip nnode ndim H t Et)|]. split; [|split].
  - apply (tied_iff coor dofs control ties iip nnode ndim H t Et Cu Cp ECu ECp _ Z DZ). exact TZ.
  - intros m i Hm Hi Hp. unfold add2. rewrite (zip2_val Rplus _ _ nnode ndim) by (try assumption; apply Nd). f_equal.
    destruct DY as [_ VY]. destruct DD0 as [_ VD]. rewrite <- VY, <- VD by assumption. apply HP. now apply (rn_p _ _ _ _ _ _ _ RN).
  - intros HC HL c1 c2 ue' w we W Fx' H1 H2 Eue' [Nw [[G Tw] Zw]] Ew DW DFx'. apply (nodal_of coor dofs control ties iip nnode ndim H t Et) in Nw.
    rewrite (sumn_ext _ _ (fun d => val1 W d * val1 Fx d)%R) by (intros d Hd; f_equal; now apply (values_unique (it_fext it))).
    (* the internal force of the new displacement *)
    destruct (force_dofs (ddot42 td (it_C it)) c1 c1 (add2 disp y) (proj1 NZ)) as [ue2 [f2 [b2 [Eu2 [Ef2 [Nf2 [Df2 HW]]]]]]]. rewrite Eue' in Eu2. injection Eu2 as Eu2. rewrite <- Eu2 in HW.
    specialize (HW H1 c2 w we W H2 Nw Ew DW).
    transitivity (integral nelem E (ddot42 td (it_C it) (el_SymGradN_vector E c1 (of_rows ue'))) (el_GradN_vector E c2 (of_rows we))).
    { unfold integral. apply sumn_ext. intros e He. apply sumn_ext. intros q Hq. f_equal. apply sumn_ext. intros i Hi. apply sumn_ext. intros j Hj. f_equal. now apply HL. }
    rewrite <- HW.
    (* that of the old displacement and of the update *)
    destruct (force_dofs (ddot42 td (it_C it)) c1 c1 y Sy) as [uy [fy [_ [_ [Efy [Nfy [_ _]]]]]]].
    assert (Ef0 : internal_force v E (ddot42 td (it_C it)) c1 c1 disp = Ok f0).
    { rewrite <- Ef. unfold internal_force. rewrite (force_ext v E nelem nnode ndof eq_refl eq_refl Hmd B Ho el_SymGradN_vector el_SymGradN_vector (it_law it) (ddot42 td (it_C it))
        (r_eps0 (it_mem it)) (r_f0 (it_mem it)) (r_eps0 (it_mem it)) (r_f0 (it_mem it)) disp M2 M2 (proj1 Nd)) by (intros; apply HL).
      exact (eq_trans (sym_force v E nelem nnode ndof eq_refl eq_refl Hmd B Ho (it_C it) c1 c1 c1 c1 disp HC H1 H1 H1 H1 (proj1 Nd))
        (eq_sym (sym_force v E nelem nnode ndof eq_refl eq_refl Hmd B Ho (it_C it) (r_eps0 (it_mem it)) (r_f0 (it_mem it)) c1 c1 disp HC M1 M2 H1 H1 (proj1 Nd)))). }
    destruct (force_add v E nelem nnode ndof eq_refl eq_refl Hmd B Ho el_SymGradN_vector (it_C it) c1 c1 disp y f0 fy (sym_linear v E nelem nnode ndof eq_refl eq_refl Hmd B Ho) H1 H1 (proj1 Nd) Sy Ef0 Efy)
      as [g [Eg [_ Vg]]]. change (internal_force v E (ddot42 td (it_C it)) c1 c1 (add2 disp y) = Ok g) in Eg. rewrite Ef2 in Eg. injection Eg as Eg. rewrite <- Eg in Vg.
    destruct (AsDofs_values v nelem nne nnode ndim ndof eq_refl eq_refl Hmd (node_iters v) y (Permutation_refl _) Sy (proj2 Ny)) as [Yy [EYy [LYy [VYy _]]]].
    destruct (K_mv v E nelem nnode ndof eq_refl eq_refl Hmd B Ho (r_K (it_mem it)) (it_C it) c1 c1 (node_iters v) y Yy M3 H1 H1 (Permutation_refl _) Sy (proj2 Ny) EYy) as [fy' [Efy' [_ Vfy]]].
    rewrite <- (sym_force v E nelem nnode ndof eq_refl eq_refl Hmd B Ho (it_C it) c1 c1 c1 c1 y HC H1 H1 H1 H1 Sy) in Efy'. rewrite Efy in Efy'. injection Efy' as Efy'. rewrite <- Efy' in Vfy.
    assert (Vb2 : forall d, d < ndof -> (val1 b2 d - val1 Fx d = mv ndof (asm (element_stiffness v E (r_K (it_mem it)) (it_C it))) (val1 Y) d - val1 Rs d)%R).
    { intros d Hd. rewrite VR by exact Hd. destruct (rn_all _ _ _ _ _ _ _ RN d Hd) as [m [i [Hm [Hi Ed]]]]. destruct Df2 as [_ V2]. destruct Df as [_ V0]. rewrite <- Ed, V2, V0 by assumption.
      rewrite Vg, Vfy by assumption. cbn [m_conn m_dofs]. replace (mv ndof (asm (element_stiffness v E (r_K (it_mem it)) (it_C it))) (val1 Yy) (dof m i)) with (mv ndof (asm (element_stiffness v E (r_K (it_mem it)) (it_C it))) (val1 Y) (dof m i)); [ring|].
      unfold mv. apply sumn_ext. intros j Hj. f_equal. apply (values_unique y); [exact DY|now split|exact Hj]. }
    pose proof (tied_all coor dofs control ties iip nnode ndim H t Et Cu Cp ECu ECp G w W Tw DW) as TW.
    assert (E0 : sumn ndof (fun d => val1 W d * (val1 b2 d - val1 Fx d))%R = 0%R).
    { apply (work_virtual t Cu Cp (fun d => val1 b2 d - val1 Fx d)%R (val1 W) TW).
      - intros d Hd. assert (Hd' : d < ndof) by lia. destruct (rn_all _ _ _ _ _ _ _ RN d Hd') as [m [i [Hm [Hi Ed]]]]. destruct DW as [_ VW]. rewrite <- Ed, VW by assumption.
        apply Zw; try assumption. apply (rn_p _ _ _ _ _ _ _ RN); try assumption. now rewrite Ed.
      - intros i Hi. rewrite <- (HR i Hi). apply sumn_ext. intros c Hcc. f_equal. now apply Vb2. }
    rewrite (sumn_ext _ _ (fun d => val1 W d * val1 b2 d + (-1) * (val1 W d * val1 Fx d))%R) in E0 by (intros; ring). rewrite sumn_plus, sumn_scal in E0. lra.
Qed.

(** any number of iterations *)
Lemma newton_many its : Forall good_iteration its -> forall a A s disp F, pt_is v Cu Cp nnu nnp nnd a A -> t_fresh ndof Cu Cp nnu nnp A a s ->
  nodal dofs nnode ndim disp -> tied coor dofs control ties nnode ndim F disp ->
  exists disp' a' s' F', foldM (newton_tyings linsolve v E) its (disp, a, s) = Ok (disp', a', s') /\
    nodal dofs nnode ndim disp' /\ tied coor dofs control ties nnode ndim F' disp' /\
    (forall m i, m < nnode -> i < ndim -> In (idx2 dofs m i) iip -> val2 disp' m i = (val2 disp m i + sumL its (fun it => val2 (it_du it) m i))%R) /\
    (forall before it, its = before ++ [it] -> minor_symmetric nelem E (it_C it) -> linear_law nelem E (it_law it) (it_C it) ->
     forall c1 c2 ue w we W Fx, valid_call nelem c1 -> valid_call nelem c2 -> AsElement_nodevec v disp' = Ok ue ->
     virtual coor dofs control ties iip nnode ndim w -> AsElement_nodevec v w = Ok we -> DV w W -> DV (it_fext it) Fx ->
     integral nelem E (it_law it (el_SymGradN_vector E c1 (of_rows ue))) (el_GradN_vector E c2 (of_rows we)) = sumn ndof (fun d => val1 W d * val1 Fx d)%R).
Proof using HE H Hc Et ECu ECp.
  induction its as [|it its IH]; intros Hg a A s disp F Ha Hf Nd Td.
  - exists disp, a, s, F. cbn [foldM]. split; [reflexivity|]. split; [exact Nd|]. split; [exact Td|]. split; [intros; unfold sumL; cbn; lra|]. intros before it Eq. destruct before; discriminate.
  - destruct (newton_one a A s disp F it Ha Hf (Forall_inv Hg) Nd Td) as [d1 [a1 [s1 [F1 [E1 [Ha1 [Hf1 [N1 [T1 [V1 W1]]]]]]]]]].
    destruct (IH (Forall_inv_tail Hg) a1 _ s1 d1 F1 Ha1 Hf1 N1 T1) as [d2 [a2 [s2 [F2 [E2 [N2 [T2 [V2 W2]]]]]]]].
    exists d2, a2, s2, F2. split; [cbn [foldM]; rewrite E1; exact E2|]. split; [exact N2|]. split; [exact T2|]. split.
    + intros m i Hm Hi Hp. rewrite V2, V1 by assumption. unfold sumL. cbn [map fold_right]. lra.
    + intros before it' Eq. destruct before as [|i0 before].
      * cbn [app] in Eq. injection Eq as E' Eits. rewrite Eits in E2. cbn [foldM] in E2. injection E2 as E2 _ _. rewrite <- E', <- E2. exact W1.
      * cbn [app] in Eq. injection Eq as _ Eits. exact (W2 before it' Eits).
Qed.
End N.
Unset Default Proof Using.

(** ** the set-up *)
Section S.
Set Default Proof Using "All".
Variables (coor : list (list R)) (dofs : list (list nat)) (ties : list (nat * nat)) (fixed : list nat) (nnode ndim : nat).
Hypothesis Sc : shape2 coor nnode ndim.
Hypothesis Sd : shape2 dofs nnode ndim.
Hypothesis Hd : forall m i n j, m < nnode -> i < ndim -> n < nnode -> j < ndim -> idx2 dofs m i = idx2 dofs n j -> m = n /\ i = j.
Hypothesis Ht : wf_ties nnode ties.
Hypothesis Hf1 : NoDup fixed.
Hypothesis Hf2 : forall n, In n fixed -> n < nnode /\ ~ In n (map snd ties).
Notation c := (new_Control coor nnode ndim dofs).
Notation N := (nnode + ndim).
Definition fixed_dofs := concat (map (fun n => nth n (tc_dofs c) []) fixed).

Lemma row_in (D : list (list nat)) n k m : shape2 D n k -> m < n -> forall d, In d (nth m D []) <-> exists i, i < k /\ idx2 D m i = d.
Proof using.
  intros [L1 L2] Hm d. assert (L : length (nth m D []) = k) by (apply L2, nth_In; lia). split.
  - intro Hx. apply (In_nth _ _ 0) in Hx. destruct Hx as [i [Hi Ei]]. exists i. split; [lia|exact Ei].
  - intros [i [Hi <-]]. unfold idx2, nth2. apply nth_In. lia.
Qed.
Lemma all_in (D : list (list nat)) n k : shape2 D n k -> forall d, In d (concat D) <-> exists m i, m < n /\ i < k /\ idx2 D m i = d.
Proof using.
  intros S d. rewrite in_concat. split.
  - intros [r [Hr Hx]]. apply (In_nth _ _ []) in Hr. destruct Hr as [m [Hm Er]]. rewrite <- Er in Hx. pose proof (proj1 S) as L1. rewrite L1 in Hm. apply (row_in D n k m S Hm) in Hx.
    destruct Hx as [i [Hi Ei]]. now exists m, i.
  - intros [m [i [Hm [Hi Ei]]]]. exists (nth m D []). split; [apply nth_In; rewrite (proj1 S); exact Hm|]. apply (row_in D n k m S Hm). now exists i.
Qed.
Lemma rows_NoDup (D : list (list nat)) n k (l : list nat) : shape2 D n k -> (forall m i m' j, m < n -> i < k -> m' < n -> j < k -> idx2 D m i = idx2 D m' j -> m = m' /\ i = j) ->
  NoDup l -> (forall m, In m l -> m < n) -> NoDup (concat (map (fun m => nth m D []) l)).
Proof using.
  intros S Hinj. induction l as [|m l IH]; intros ND Hl; [constructor|]. cbn [map concat]. assert (Hm : m < n) by (apply Hl; now left). inversion ND as [|? ? N1 N2].
  apply NoDup_app_intro; [| |].
  - assert (L : length (nth m D []) = k) by (apply (proj2 S), nth_In; rewrite (proj1 S); exact Hm).
    apply (NoDup_nth _ 0). intros i j Hi Hj Eij. rewrite L in Hi, Hj. now apply (Hinj m i m j).
  - apply IH; [exact N2|]. intros m' Hm'. apply Hl. now right.
  - intros d Hx Hy. apply (row_in D n k m S Hm) in Hx. destruct Hx as [i [Hi Ei]]. apply in_concat in Hy. destruct Hy as [r [Hr Hy]]. apply in_map_iff in Hr. destruct Hr as [m' [Er Hm']].
    assert (Lm : m' < n) by (apply Hl; now right). rewrite <- Er in Hy. apply (row_in D n k m' S Lm) in Hy. destruct Hy as [j [Hj Ej]].
    destruct (Hinj m i m' j Hm Hi Lm Hj) as [-> _]; [congruence|]. contradiction.
Qed.

Lemma ctrl : shape2 (tc_coor c) N ndim /\ shape2 (tc_dofs c) N ndim /\ shape2 (tc_control_dofs c) ndim ndim /\ tc_control_nodes c = seq nnode ndim /\
  (forall m i, m < nnode -> i < ndim -> val2 (tc_coor c) m i = val2 coor m i /\ idx2 (tc_dofs c) m i = idx2 dofs m i) /\
  (forall j k, j < ndim -> k < ndim -> val2 (tc_coor c) (nnode + j) k = 0%R /\ idx2 (tc_dofs c) (nnode + j) k = idx2 (tc_control_dofs c) j k) /\
  (forall j k m i, j < ndim -> k < ndim -> m < nnode -> i < ndim -> idx2 (tc_control_dofs c) j k <> idx2 dofs m i) /\
  (forall j k j' k', j < ndim -> k < ndim -> j' < ndim -> k' < ndim -> idx2 (tc_control_dofs c) j k = idx2 (tc_control_dofs c) j' k' -> j = j' /\ k = k').
Proof using Sc Sd.
  destruct (C43_Control coor dofs nnode ndim Sc Sd) as [H1 [H2 [H3 [H4 [H5 H6]]]]]. destruct (C43_Control_fresh coor dofs nnode ndim Sc Sd) as [H7 H8].
  repeat (split; [assumption|]). split; [|split; assumption]. intros j k Hj Hk. destruct (H6 j k Hj Hk) as [A1 [A2 _]]. auto.
Qed.

Lemma all_distinct : forall m i n j, m < N -> i < ndim -> n < N -> j < ndim -> idx2 (tc_dofs c) m i = idx2 (tc_dofs c) n j -> m = n /\ i = j.
Proof using Sc Sd Hd.
  destruct ctrl as [_ [_ [_ [_ [C1 [C2 [C3 C4]]]]]]]. intros m i n j Hm Hi Hn Hj.
  destruct (le_lt_dec nnode m) as [Lm|Lm], (le_lt_dec nnode n) as [Ln|Ln].
  - replace m with (nnode + (m - nnode)) by lia. replace n with (nnode + (n - nnode)) by lia. rewrite (proj2 (C2 (m - nnode) i ltac:(lia) Hi)), (proj2 (C2 (n - nnode) j ltac:(lia) Hj)).
    intro Eq. apply C4 in Eq; lia.
  - replace m with (nnode + (m - nnode)) by lia. rewrite (proj2 (C2 (m - nnode) i ltac:(lia) Hi)), (proj2 (C1 n j Ln Hj)). intro Eq. exfalso. apply (C3 (m - nnode) i n j) in Eq; lia.
  - replace n with (nnode + (n - nnode)) by lia. rewrite (proj2 (C2 (n - nnode) j ltac:(lia) Hj)), (proj2 (C1 m i Lm Hi)). intro Eq. exfalso. symmetry in Eq. apply (C3 (n - nnode) j m i) in Eq; lia.
  - rewrite (proj2 (C1 n j Ln Hj)), (proj2 (C1 m i Lm Hi)). now apply Hd.
Qed.
Lemma dep_in d : dependent (tc_dofs c) ndim ties d -> exists b i, In b (map snd ties) /\ b < nnode /\ i < ndim /\ idx2 (tc_dofs c) b i = d.
Proof using Ht.
  intros [a [b [i [Hab [Hi Ed]]]]]. exists b, i. split; [exact (in_map snd _ _ Hab)|]. split; [now apply (proj1 Ht) in Hab|]. auto.
Qed.

Lemma setup_input : periodic_input (tc_coor c) (tc_dofs c) (tc_control_dofs c) ties (concat (tc_control_dofs c) ++ fixed_dofs) N ndim.
Proof.
  destruct ctrl as [S1 [S2 [S3 [_ [C1 [C2 [C3 C4]]]]]]]. destruct Ht as [T1 [T2 T3]].
  assert (Hfix : forall d, In d fixed_dofs <-> exists n i, In n fixed /\ i < ndim /\ idx2 (tc_dofs c) n i = d).
  { intro d. unfold fixed_dofs. rewrite in_concat. split.
    - intros [r [Hr Hx]]. apply in_map_iff in Hr. destruct Hr as [n [Er Hn]]. rewrite <- Er in Hx. assert (Ln : n < N) by (destruct (Hf2 n Hn); lia). apply (row_in _ N ndim n S2 Ln) in Hx.
      destruct Hx as [i [Hi Ei]]. now exists n, i.
    - intros [n [i [Hn [Hi Ei]]]]. exists (nth n (tc_dofs c) []). split; [apply in_map_iff; now exists n|]. apply (row_in _ N ndim n S2); [destruct (Hf2 n Hn); lia|now exists i]. }
  assert (Hc : forall d, In d (concat (tc_control_dofs c)) <-> exists j k, j < ndim /\ k < ndim /\ idx2 (tc_control_dofs c) j k = d) by (apply all_in; exact S3).
  assert (Nd : forall j k, j < ndim -> k < ndim -> ~ dependent (tc_dofs c) ndim ties (idx2 (tc_control_dofs c) j k)).
  { intros j k Hj Hk Hx. apply dep_in in Hx. destruct Hx as [b [i [_ [Hb [Hi Ei]]]]]. rewrite (proj2 (C1 b i Hb Hi)) in Ei. symmetry in Ei. exact (C3 j k b i Hj Hk Hb Hi Ei). }
  split; try assumption.
  - intros a b Hab. apply T1 in Hab. lia.
  - intros s u a b a' b' i j Es Eu Hi Hj Eq. pose proof (nth_error_In _ _ Es) as I1. pose proof (nth_error_In _ _ Eu) as I2. apply T1 in I1. apply T1 in I2.
    destruct (all_distinct b i b' j) as [Eb Ei]; try assumption; try lia. split; [|exact Ei].
    apply (proj1 (NoDup_nth_error (map snd ties)) T2).
    + rewrite map_length. apply nth_error_Some. congruence.
    + rewrite !nth_error_map, Es, Eu. cbn. now rewrite Eb.
  - intros a b i Hab Hi Hx. pose proof (T1 a b Hab) as [La _]. apply dep_in in Hx. destruct Hx as [b' [i' [Hin [Lb [Hi' Eq]]]]].
    destruct (all_distinct b' i' a i) as [Eb _]; try assumption; try lia. apply (T3 a); [exact (in_map fst _ _ Hab)|]. now rewrite <- Eb.
  - intros j k Hj Hk. split; [|now apply Nd]. apply (all_in _ N ndim S2). exists (nnode + j), k. split; [lia|]. split; [exact Hk|]. exact (proj2 (C2 j k Hj Hk)).
  - apply NoDup_app_intro.
    + rewrite <- (map_id (tc_control_dofs c)). replace (map (fun x => x) (tc_control_dofs c)) with (map (fun m => nth m (tc_control_dofs c) []) (seq 0 ndim)).
      * apply (rows_NoDup (tc_control_dofs c) ndim ndim (seq 0 ndim) S3); [intros; now apply C4|apply seq_NoDup|]. intros m Hm. apply in_seq in Hm. lia.
      * apply (nth_ext _ _ [] []); [now rewrite !map_length, seq_length, (proj1 S3)|]. intros n Hn. rewrite map_length, seq_length in Hn. rewrite map_id.
        exact (tab1_nth [] ndim (fun m => nth m (tc_control_dofs c) []) n Hn).
    + apply (rows_NoDup (tc_dofs c) N ndim fixed S2 all_distinct Hf1). intros m Hm. destruct (Hf2 m Hm). lia.
    + intros d Hx Hy. apply Hc in Hx. destruct Hx as [j [k [Hj [Hk Ed]]]]. apply Hfix in Hy. destruct Hy as [n [i [Hn [Hi En]]]]. destruct (Hf2 n Hn) as [Ln _].
      rewrite (proj2 (C1 n i Ln Hi)) in En. apply (C3 j k n i Hj Hk Ln Hi). congruence.
  - intros d Hx. apply in_app_or in Hx. destruct Hx as [Hx|Hx].
    + apply Hc in Hx. destruct Hx as [j [k [Hj [Hk Ed]]]]. rewrite <- Ed. split; [|now apply Nd]. apply (all_in _ N ndim S2). exists (nnode + j), k. split; [lia|]. split; [exact Hk|]. exact (proj2 (C2 j k Hj Hk)).
    + apply Hfix in Hx. destruct Hx as [n [i [Hn [Hi En]]]]. destruct (Hf2 n Hn) as [Ln Nn]. split.
      * apply (all_in _ N ndim S2). exists n, i. split; [lia|]. auto.
      * intro Hy. apply dep_in in Hy. destruct Hy as [b [i' [Hb [Lb [Hi' Eb]]]]]. destruct (all_distinct b i' n i) as [E1 _]; try assumption; try lia. apply Nn. now rewrite <- E1.
Qed.

Lemma setup_ok conn nne : exists t cu cp ci, new_Periodic (tc_coor c) ndim (tc_dofs c) (tc_control_dofs c) ties (concat (tc_control_dofs c) ++ fixed_dofs) = Ok t /\
  Cdu t = Ok cu /\ Cdp t = Ok cp /\ Cdi t = Ok ci /\
  periodic_setup coor nnode ndim dofs conn nne ties fixed =
    Ok (mkPS t (tc_coor c) (tc_control_nodes c) (mkVT (mkVector conn nne (tp_dofs t) ndim) cu cp ci) (new_MatrixTyings (mkVector conn nne (tp_dofs t) ndim) cu cp)).
Proof.
  destruct (C44_renumber _ _ _ _ _ _ _ setup_input) as [t [Et _]]. destruct (C44_Cdu_Cdp _ _ _ _ _ _ _ setup_input t Et) as [ci [cu [cp [E1 [E2 [E3 _]]]]]].
  exists t, cu, cp, ci. split; [exact Et|]. split; [exact E2|]. split; [exact E3|]. split; [exact E1|]. unfold periodic_setup.
  destruct ctrl as [_ [S2 _]].
  assert (EM : mapM (get (tc_dofs c)) fixed = Ok (map (fun n => nth n (tc_dofs c) []) fixed)).
  { apply mapM_Ok. intros n Hn. apply get_nth. rewrite (proj1 S2). destruct (Hf2 n Hn). lia. }
  rewrite EM. cbn [bind]. fold fixed_dofs. rewrite Et. cbn [bind]. rewrite E2. cbn [bind]. rewrite E3. cbn [bind]. rewrite E1. reflexivity.
Qed.
End S.
