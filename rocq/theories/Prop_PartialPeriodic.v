(** Property C102: the strip that is periodic in the horizontal direction, held at the bottom and sheared at the top. *)
From Coq Require Import Reals Lra Lia.
From Verif Require Import Model_Element Spec_Element Proof_Element Proof_ElementQuad4 Proof_ElementMath Base Spec Spec2d Sums Spec_Vector Spec_Matrix Spec_MatrixOps Spec_Tiling Model_Numbering Proof_Numbering Model_Vector Proof_Vector Model_VectorPartitioned Model_Sparse
  Model_Matrix Proof_Matrix Model_MatrixPartitioned Model_MeshGeometry Model_Regular2d Proof_Regular2d Model_FineLayer Model_Pipeline Spec_Pipeline Spec_Patch Proof_PipelineElem Proof_Pipeline Proof_PipelineBalance
  Prop_Pipeline Proof_Patch Prop_Patch Spec_Macro Proof_Macro Spec_Spd Prop_Spd Spec_Divergence Proof_Divergence Spec_QuadMesh Proof_QuadMesh Prop_QuadMesh
  Model_PartialPeriodic Spec_PartialPeriodic Proof_PartialPeriodic Proof_PartialPeriodicForce.

(** C102: the set-up works on every mesh: opposite nodes on the left and on the right share their DOFs (and nothing else is shared), the DOFs
    are numbered without holes, the prescribed DOFs are those of the nodes at the bottom and at the top *)
Theorem C102_setup : forall X C lft rgt bot top Lx Ly, strip_mesh X C lft rgt bot top Lx Ly ->
  exists st, strip_setup (length X) C 4 lft rgt bot top = Ok st /\ shape2 (st_dofs st) (length X) 2 /\
    (forall m i n j, m < length X -> i < 2 -> n < length X -> j < 2 -> idx2 (st_dofs st) m i = idx2 (st_dofs st) n j <-> same_node X Lx Ly m n /\ i = j) /\
    (forall d, In d (concat (st_dofs st)) <-> d < (length X - length lft) * 2) /\
    NoDup (st_iip st) /\ (forall m i, m < length X -> i < 2 -> In (idx2 (st_dofs st) m i) (st_iip st) <-> at_bottom X m \/ at_top X Ly m) /\
    (forall d, In d (st_iip st) -> In d (concat (st_dofs st))).
Proof.
  intros X C lft rgt bot top Lx Ly H. destruct (strip_setup_ok _ _ _ _ _ _ _ _ H) as [st [E S]]. exists st. split; [exact E|]. pose proof (ss_mesh _ _ _ _ _ _ S) as Hm. split; [apply Hm|].
  split; [apply (ss_same _ _ _ _ _ _ S)|]. pose proof (ss_holes _ _ _ _ _ _ S) as Hh. split.
  - intros d. split; [|apply Hh]. intros Hd. apply in_concat in Hd. destruct Hd as [r [Hr Hd]]. destruct (md_dofs _ _ _ _ _ _ _ Hm) as [L1 L2]. apply (In_nth _ _ []) in Hr. destruct Hr as [n [Hn <-]].
    apply (In_nth _ _ 0) in Hd. destruct Hd as [i [Hi <-]]. rewrite L2 in Hi by (now apply nth_In). pose proof (V_dof (mkVector C 4 (st_dofs st) 2) (length C) 4 (length X) 2 _ eq_refl eq_refl Hm) as K. apply K; [now rewrite <- L1|exact Hi].
  - split; [apply (ss_prescribed _ _ _ _ _ _ S)|]. split; [apply (ss_iip _ _ _ _ _ _ S)|]. intros d Hd. apply Hh. now apply (ss_prescribed _ _ _ _ _ _ S).
Qed.
Print Assumptions C102_setup.

(** the displacements of a strip: periodic, zero at the bottom, (gamma, 0) at the top *)
Definition sheared (X : list (list R)) (Lx Ly gamma : R) (u : list (list R)) : Prop :=
  shape2 u (length X) 2 /\ (forall a b i, across X Lx Ly a b -> i < 2 -> val2 u a i = val2 u b i) /\
  (forall n, at_bottom X n -> val2 u n 0 = 0%R /\ val2 u n 1 = 0%R) /\ (forall n, at_top X Ly n -> val2 u n 0 = gamma /\ val2 u n 1 = 0%R).

Lemma zeros_val n i j : val2 (repeat (repeat 0%R 2) n) i j = 0%R.
Proof.
  unfold val2, nth2. destruct (Nat.lt_ge_cases i n) as [L|L].
  - rewrite (nth_indep _ [] (repeat 0%R 2)) by (rewrite repeat_length; exact L). rewrite nth_repeat. destruct j as [|[|[|]]]; reflexivity.
  - rewrite (nth_overflow (repeat _ _)) by (rewrite repeat_length; exact L). now destruct j.
Qed.
Lemma zeros_shape n : shape2 (repeat (repeat 0%R 2) n) n 2.
Proof. split; [apply repeat_length|]. intros r Hr. apply repeat_spec in Hr. now subst. Qed.

Lemma set_column_ok l j g n : j < 2 -> (forall k, In k l -> k < n) -> forall u, shape2 u n 2 ->
  exists u', set_column l j g u = Ok u' /\ shape2 u' n 2 /\ forall m i, m < n -> i < 2 -> val2 u' m i = if (in_dec Nat.eq_dec m l) then (if i =? j then g else val2 u m i) else val2 u m i.
Proof.
  intros Hj. induction l as [|k l IH]; intros Hl u Su; unfold set_column; cbn [foldM].
  - exists u. split; [reflexivity|]. split; [exact Su|]. reflexivity.
  - destruct (Proof_Numbering.set2_Ok u n 2 k j g Su (Hl k (or_introl eq_refl)) Hj) as [u1 [E1 [S1 V1]]]. rewrite E1. cbn [bind].
    destruct (IH (fun k' H => Hl k' (or_intror H)) u1 S1) as [u2 [E2 [S2 V2]]]. exists u2. split; [exact E2|]. split; [exact S2|]. intros m i Hm Hi. rewrite V2 by assumption.
    assert (V1' : val2 u1 m i = if ((m =? k) && (i =? j))%bool then g else val2 u m i).
    { unfold val2, nth2. pose proof (V1 m i) as V. unfold at2 in V. rewrite (nth_error_nth' u1 []) in V by (rewrite (proj1 S1); exact Hm). rewrite (nth_error_nth' u []) in V by (rewrite (proj1 Su); exact Hm).
      rewrite (nth_error_nth' (nth m u1 []) 0%R) in V by (now rewrite (shape2_row u1 n 2)). rewrite (nth_error_nth' (nth m u []) 0%R) in V by (now rewrite (shape2_row u n 2)). destruct ((m =? k) && (i =? j))%bool; injection V as ->; reflexivity. }
    rewrite V1'. destruct (in_dec Nat.eq_dec m (k :: l)) as [I|I], (in_dec Nat.eq_dec m l) as [J|J]; destruct (Nat.eqb_spec m k) as [K|K]; destruct (i =? j); cbn [andb]; try reflexivity; exfalso; cbn in I; intuition congruence.
Qed.

(** ** what the run gives, for one body *)
Section R.
Variables (X : list (list R)) (C : list (list nat)) (lft rgt bot top : list nat) (Lx Ly : R).
Hypothesis H : strip_mesh X C lft rgt bot top Lx Ly.
Variables (th : R) (x : arr) (E : Elem) (Cs : arr).
Hypothesis HB : mesh_body X C th x E.
Hypothesis HC : strictly_elastic (length C) E Cs.
Hypothesis HMa : major_symmetric (length C) E Cs.
Hypothesis HMi : minor_symmetric (length C) E Cs.
Variable st : Strip.
Hypothesis Est : strip_setup (length X) C 4 lft rgt bot top = Ok st.
Notation nn := (length X). Notation ne := (length C). Notation D := (st_dofs st). Notation v := (mkVector C 4 (st_dofs st) 2).
Notation ndof := ((length X - length lft) * 2).

Lemma run_system : strip_system X C Lx Ly ndof st.
Proof using H Est. destruct (strip_setup_ok _ _ _ _ _ _ _ _ H) as [st' [E' S]]. rewrite Est in E'. injection E' as <-. exact S. Qed.

Lemma run_held : no_mechanism v ne ndof E Cs (st_iip st).
Proof using H Est HB HC.
  pose proof run_system as S. destruct (strip_quad _ _ _ _ _ _ _ _ H) as (ties & rg & lf & obot & otop & bl & br & tl & tr & Q & _). pose proof (strip_facts_of _ _ _ _ _ _ _ _ H) as F.
  destruct (sf_nonempty _ _ _ _ _ _ _ F) as [a Ha]. destruct (sf_top_nonempty _ _ _ _ _ _ _ F) as [b Hb]. apply (sf_bot _ _ _ _ _ _ _ F) in Ha. apply (sf_top _ _ _ _ _ _ _ F) in Hb.
  destruct Ha as [xa Na]. destruct Hb as [xb Nb]. assert (La : a < nn) by (apply nth_error_Some; unfold node_at in Na; congruence). assert (Lb : b < nn) by (apply nth_error_Some; unfold node_at in Nb; congruence).
  apply (C93_held X C ties bot rg top lf Lx Ly Q th x E Cs D ndof (st_iip st) a b 1 HB HC (ss_mesh _ _ _ _ _ _ S) (ss_holes _ _ _ _ _ _ S) La Lb ltac:(lia)).
  - rewrite (proj2 (node_val _ _ _ _ Na)), (proj2 (node_val _ _ _ _ Nb)). pose proof (sf_Ly _ _ _ _ _ _ _ F). lra.
  - apply (ss_iip _ _ _ _ _ _ S); [exact La|lia|left; now exists xa].
  - apply (ss_iip _ _ _ _ _ _ S); [exact La|lia|left; now exists xa].
  - apply (ss_iip _ _ _ _ _ _ S); [exact Lb|lia|right; now exists xb].
Qed.

(** nodal values of a strip: those that are equal on opposite nodes *)
Lemma strip_nodal u : nodal D nn 2 u <-> shape2 u nn 2 /\ (forall a b i, across X Lx Ly a b -> i < 2 -> val2 u a i = val2 u b i).
Proof using H Est.
  pose proof run_system as S. split; intros [Su Au]; (split; [exact Su|]).
  - intros a b i A Hi. assert (L : a < nn /\ b < nn) by (destruct A as [y [_ [A1 A2]]]; split; apply nth_error_Some; unfold node_at in *; congruence).
    apply Au; try tauto. apply (ss_same _ _ _ _ _ _ S); try tauto. split; [right; now left|reflexivity].
  - intros m i n j Hm Hi Hn Hj Eq. apply (ss_same _ _ _ _ _ _ S) in Eq; try assumption. destruct Eq as [[->|[A|A]] ->]; [reflexivity|now apply Au|symmetry; now apply Au].
Qed.

Lemma at_edge_dec n : n < nn -> (at_bottom X n \/ at_top X Ly n) \/ (~ at_bottom X n /\ ~ at_top X Ly n).
Proof using H Est.
  intros Hn. pose proof run_system as S. destruct (in_dec Nat.eq_dec (idx2 D n 0) (st_iip st)) as [I|I].
  - left. apply (ss_iip _ _ _ _ _ _ S n 0 Hn ltac:(lia)). exact I.
  - right. split; intros K; apply I; apply (ss_iip _ _ _ _ _ _ S n 0 Hn ltac:(lia)); auto.
Qed.

Lemma run_ok linsolve mem gamma : spd_solver linsolve -> valid_memory ne nn 2 mem ->
  exists disp fint fext fres, shear linsolve mem st E (ddot42 (el_tdim E) Cs) Cs nn top gamma = Ok (disp, fint, fext, fres) /\
    sheared X Lx Ly gamma disp /\ shape2 fres nn 2 /\
    (forall c1 c2, valid_call ne c1 -> valid_call ne c2 -> internal_force v E (ddot42 (el_tdim E) Cs) c1 c2 disp = Ok fint) /\
    (forall n j, n < nn -> j < 2 -> val2 fres n j = 0%R /\ val2 fext n j = val2 fint n j /\ (~ at_bottom X n -> ~ at_top X Ly n -> val2 fint n j = 0%R)).
Proof using H Est HB HC HMa HMi.
  intros HL HM. pose proof run_system as S. pose proof (strip_facts_of _ _ _ _ _ _ _ _ H) as F. destruct (strip_dims X C lft rgt bot top Lx Ly H th x E HB ndof st S) as (D4 & D2 & Dt & HE & HA & HX).
  assert (Tn : forall n, In n top -> n < nn) by (intros n Hn; apply (sf_top _ _ _ _ _ _ _ F) in Hn; destruct Hn as [x' Hx]; apply nth_error_Some; unfold node_at in Hx; congruence).
  destruct (set_column_ok top 0 gamma nn ltac:(lia) Tn (repeat (repeat 0%R 2) nn) (zeros_shape nn)) as [bc [Ebc [Sbc Vbc]]].
  assert (Nz : nodal D nn 2 (repeat (repeat 0%R 2) nn)) by (apply strip_nodal; split; [apply zeros_shape|intros; now rewrite !zeros_val]).
  assert (BT : forall n, at_bottom X n -> ~ at_top X Ly n).
  { intros n [x1 N1] [x2 N2]. destruct (node_fun _ _ _ _ _ _ N1 N2). pose proof (sf_Ly _ _ _ _ _ _ _ F). lra. }
  assert (Vb : forall n i, n < nn -> i < 2 -> (at_top X Ly n -> val2 bc n i = if i =? 0 then gamma else 0%R) /\ (~ at_top X Ly n -> val2 bc n i = 0%R)).
  { intros n i Hn Hi. rewrite Vbc by assumption. rewrite zeros_val. destruct (in_dec Nat.eq_dec n top) as [I|I]; (split; [intros K|intros K]); try reflexivity.
    - exfalso. apply K. now apply (sf_top _ _ _ _ _ _ _ F). - exfalso. apply I. now apply (sf_top _ _ _ _ _ _ _ F). }
  assert (Nb : nodal D nn 2 bc).
  { apply strip_nodal. split; [exact Sbc|]. intros a b i A Hi. assert (L : a < nn /\ b < nn) by (destruct A as [y [_ [A1 A2]]]; split; apply nth_error_Some; unfold node_at in *; congruence).
    rewrite (proj2 (Vb a i (proj1 L) Hi)), (proj2 (Vb b i (proj2 L) Hi)); [reflexivity| |]; intros [x' N]; destruct A as [y [Hy [A1 A2]]]; [destruct (node_fun _ _ _ _ _ _ N A2)|destruct (node_fun _ _ _ _ _ _ N A1)]; lra. }
  destruct (strip_quad _ _ _ _ _ _ _ _ H) as (ties & rg & lf & obot & otop & bl & br & tl & tr & Q & _). pose proof (quad_mesh_facts _ _ _ _ _ _ _ _ _ Q) as M. destruct (body_facts _ _ _ _ _ _ _ _ _ _ _ _ M HB) as (_ & _ & _ & _ & HV & _).
  pose proof (C82_statics C D ne nn ndof x E (st_iip st) HE) as T. cbv zeta in T. rewrite D4, D2 in T.
  destruct (T (ss_mesh _ _ _ _ _ _ S) (ss_prescribed _ _ _ _ _ _ S) (ss_holes _ _ _ _ _ _ S) linsolve [] (st_K st) (st_K st) new_Solver (st_vector st) (Forall_nil _) (ss_K _ _ _ _ _ _ S) eq_refl (ss_p _ _ _ _ _ _ S)
    mem Cs (repeat (repeat 0%R 2) nn) (repeat (repeat 0%R 2) nn) bc HM HMi) as [disp [fint [fext [fres [Er [Nd [Sr [Fi V]]]]]]]]; try assumption.
  { intros K' Ea. pose proof (C90_statics_spd C D ne nn ndof x E (st_iip st) HE) as T2. cbv zeta in T2. rewrite D4, D2 in T2.
    destruct (T2 (ss_mesh _ _ _ _ _ _ S) (ss_prescribed _ _ _ _ _ _ S) (ss_holes _ _ _ _ _ _ S) (r_K mem) Cs (st_vector st) (st_K st) K' ltac:(apply HM) HMa (elastic_positive _ _ _ HC) HV run_held (ss_p _ _ _ _ _ _ S) (ss_Kp _ _ _ _ _ _ S) Ea) as [Q1 [_ Q2]]. now apply HL. }
  { apply zeros_shape. } { intros; apply zeros_val. }
  exists disp, fint, fext, fres. split; [unfold shear; rewrite Ebc; cbn [bind]; exact Er|].
  split; [|split; [exact Sr|split; [exact Fi|]]].
  - destruct (proj1 (strip_nodal disp) Nd) as [Sd Ad]. split; [exact Sd|]. split; [exact Ad|]. split.
    + intros n K. assert (Hn : n < nn) by (destruct K as [x' N]; apply nth_error_Some; unfold node_at in N; congruence).
      destruct (V n 0 Hn ltac:(lia)) as [_ [V0 _]]. destruct (V n 1 Hn ltac:(lia)) as [_ [V1 _]]. rewrite V0, V1 by (apply (ss_iip _ _ _ _ _ _ S); [exact Hn|lia|now left]).
      split; apply Vb; auto.
    + intros n K. assert (Hn : n < nn) by (destruct K as [x' N]; apply nth_error_Some; unfold node_at in N; congruence).
      destruct (V n 0 Hn ltac:(lia)) as [_ [V0 _]]. destruct (V n 1 Hn ltac:(lia)) as [_ [V1 _]]. rewrite V0, V1 by (apply (ss_iip _ _ _ _ _ _ S); [exact Hn|lia|now right]).
      split; [exact (proj1 (Vb n 0 Hn ltac:(lia)) K)|exact (proj1 (Vb n 1 Hn ltac:(lia)) K)].
  - intros n j Hn Hj. destruct (V n j Hn Hj) as [V0 [_ [V1 V2]]]. split; [exact V0|]. split; [exact V2|]. intros K1 K2. rewrite <- V2, V1; [apply zeros_val|]. intros I. apply (ss_iip _ _ _ _ _ _ S n j Hn Hj) in I. tauto.
Qed.

Lemma run_unique gamma c u1 u2 f1 f2 : valid_call ne c -> sheared X Lx Ly gamma u1 -> sheared X Lx Ly gamma u2 ->
  internal_force v E (ddot42 (el_tdim E) Cs) c c u1 = Ok f1 -> internal_force v E (ddot42 (el_tdim E) Cs) c c u2 = Ok f2 ->
  (forall n j, n < nn -> j < 2 -> ~ at_bottom X n -> ~ at_top X Ly n -> val2 f1 n j = 0%R /\ val2 f2 n j = 0%R) -> u1 = u2.
Proof using H Est HB HC HMi.
  intros Hc (S1 & A1 & B1 & T1) (S2 & A2 & B2 & T2) E1 E2 Hf. pose proof run_system as S. destruct (strip_dims X C lft rgt bot top Lx Ly H th x E HB ndof st S) as (D4 & D2 & Dt & HE & HA & HX).
  destruct (elem_obj_raw _ _ _ HE) as [B Ho]. apply (list_ext2 0%R u1 u2 nn 2 S1 S2). intros m i Hm Hi. fold (val2 u1) (val2 u2).
  pose proof (unique C D E ne nn ndof B Ho) as T. rewrite D4, D2 in T. change (val2 u1 m i = val2 u2 m i).
  apply (T (ss_mesh _ _ _ _ _ _ S) (st_iip st) (ss_holes _ _ _ _ _ _ S) Cs c u1 u2 f1 f2 Hc HMi run_held); try assumption; try (apply strip_nodal; auto).
  - intros n k Hn Hk I. apply (ss_iip _ _ _ _ _ _ S n k Hn Hk) in I. destruct I as [I|I]; [destruct (B1 n I), (B2 n I)|destruct (T1 n I), (T2 n I)]; destruct k as [|[|]]; [congruence|congruence|lia|congruence|congruence|lia].
  - intros n k Hn Hk I. destruct (Hf n k Hn Hk) as [-> ->]; [| |reflexivity]; intros K; apply I, (ss_iip _ _ _ _ _ _ S n k Hn Hk); auto.
Qed.
End R.

(** C102: the program runs on every mesh, for every linear elastic material and every shear: the displacement is periodic, zero at the bottom and
    (gamma, 0) at the top; the nodes that are not at the bottom or the top are in equilibrium (with what is assembled from both sides); the
    residual that the program checks is zero; and no other such displacement is in equilibrium *)
Theorem C102_shear : forall X C lft rgt bot top Lx Ly, strip_mesh X C lft rgt bot top Lx Ly ->
  forall th x E Cs, mesh_body X C th x E -> strictly_elastic (length C) E Cs -> major_symmetric (length C) E Cs -> minor_symmetric (length C) E Cs ->
  forall linsolve mem gamma, spd_solver linsolve -> valid_memory (length C) (length X) 2 mem ->
  exists st disp fint fext fres, strip_setup (length X) C 4 lft rgt bot top = Ok st /\
    shear linsolve mem st E (ddot42 (el_tdim E) Cs) Cs (length X) top gamma = Ok (disp, fint, fext, fres) /\
    let solution u f := sheared X Lx Ly gamma u /\ internal_force (mkVector C 4 (st_dofs st) 2) E (ddot42 (el_tdim E) Cs) (r_eps0 mem) (r_f0 mem) u = Ok f /\
      forall n j, n < length X -> j < 2 -> ~ at_bottom X n -> ~ at_top X Ly n -> val2 f n j = 0%R in
    solution disp fint /\ (forall n j, n < length X -> j < 2 -> val2 fres n j = 0%R /\ val2 fext n j = val2 fint n j) /\
    forall u f, solution u f -> u = disp.
Proof.
  intros X C lft rgt bot top Lx Ly H th x E Cs HB HC HMa HMi linsolve mem gamma HL HM. destruct (strip_setup_ok _ _ _ _ _ _ _ _ H) as [st [Est S]].
  destruct (run_ok X C lft rgt bot top Lx Ly H th x E Cs HB HC HMa HMi st Est linsolve mem gamma HL HM) as (disp & fint & fext & fres & Er & Sd & _ & Fi & V).
  exists st, disp, fint, fext, fres. split; [exact Est|]. split; [exact Er|]. pose proof HM as (M1 & M2 & _). cbv zeta.
  assert (So : sheared X Lx Ly gamma disp /\ internal_force (mkVector C 4 (st_dofs st) 2) E (ddot42 (el_tdim E) Cs) (r_eps0 mem) (r_f0 mem) disp = Ok fint /\
      forall n j, n < length X -> j < 2 -> ~ at_bottom X n -> ~ at_top X Ly n -> val2 fint n j = 0%R).
  { split; [exact Sd|]. split; [now apply Fi|]. intros n j Hn Hj. now apply V. }
  split; [exact So|]. split; [intros n j Hn Hj; destruct (V n j Hn Hj) as (V1 & V2 & _); auto|].
  intros u f (Su & Eu & Vu). symmetry.
  destruct (strip_dims X C lft rgt bot top Lx Ly H th x E HB _ st S) as (D4 & D2 & Dt & HE & HA & HX). destruct (elem_obj_raw _ _ _ HE) as [B Ho].
  apply (run_unique X C lft rgt bot top Lx Ly H th x E Cs HB HC HMi st Est gamma (r_eps0 mem) disp u fint f M1 Sd Su); [now apply Fi| |].
  - rewrite <- Eu. pose proof (sym_force (mkVector C 4 (st_dofs st) 2) E (length C) (length X) ((length X - length lft) * 2)) as T. cbn [m_nne m_ndim m_conn m_dofs] in T. rewrite D4, D2 in T.
    rewrite (T eq_refl eq_refl (ss_mesh _ _ _ _ _ _ S) B Ho Cs (r_eps0 mem) (r_eps0 mem) (r_eps0 mem) (r_f0 mem) u HMi M1 M1 M1 M2 (proj1 Su)).
    symmetry. apply (T eq_refl eq_refl (ss_mesh _ _ _ _ _ _ S) B Ho Cs (r_eps0 mem) (r_f0 mem) (r_eps0 mem) (r_f0 mem) u HMi M1 M2 M1 M2 (proj1 Su)).
  - intros n j Hn Hj K1 K2. split; [now apply So|now apply Vu].
Qed.
Print Assumptions C102_shear.

(** C102: if the material is the same everywhere, the result is simple shear: the horizontal displacement is proportional to the height *)
Theorem C102_uniform : forall X C lft rgt bot top Lx Ly, strip_mesh X C lft rgt bot top Lx Ly ->
  forall th x E Cs, mesh_body X C th x E -> strictly_elastic (length C) E Cs -> major_symmetric (length C) E Cs -> minor_symmetric (length C) E Cs -> uniform_stiffness (length C) E Cs ->
  forall linsolve mem gamma st, spd_solver linsolve -> valid_memory (length C) (length X) 2 mem -> strip_setup (length X) C 4 lft rgt bot top = Ok st ->
  exists disp fint fext fres, shear linsolve mem st E (ddot42 (el_tdim E) Cs) Cs (length X) top gamma = Ok (disp, fint, fext, fres) /\
    forall n, n < length X -> val2 disp n 0 = (gamma * val2 X n 1 / Ly)%R /\ val2 disp n 1 = 0%R.
Proof.
  intros X C lft rgt bot top Lx Ly H th x E Cs HB HC HMa HMi HU linsolve mem gamma st HL HM Est. pose proof (run_system X C lft rgt bot top Lx Ly H st Est) as S.
  destruct (run_ok X C lft rgt bot top Lx Ly H th x E Cs HB HC HMa HMi st Est linsolve mem gamma HL HM) as (disp & fint & fext & fres & Er & Sd & _ & Fi & V).
  exists disp, fint, fext, fres. split; [exact Er|]. pose proof HM as (M1 & M2 & _). pose proof (strip_facts_of _ _ _ _ _ _ _ _ H) as F. pose proof (sf_Ly _ _ _ _ _ _ _ F) as PLy.
  destruct (strip_dims X C lft rgt bot top Lx Ly H th x E HB _ st S) as (D4 & D2 & Dt & HE & HA & HX). destruct (elem_obj_raw _ _ _ HE) as [B Ho].
  set (G := fun i j : nat => if ((i =? 0) && (j =? 1))%bool then (gamma / Ly)%R else 0%R).
  set (u := tab2 (length X) 2 (fun n i => (0 + sumn 2 (fun j => G i j * val2 X n j))%R)).
  assert (Vu : forall n i, n < length X -> i < 2 -> val2 u n i = (0 + sumn 2 (fun j => G i j * val2 X n j))%R) by (intros n i Hn Hi; unfold val2, u; exact (tab2_nth 0%R (length X) 2 (fun n i => (0 + sumn 2 (fun j => G i j * val2 X n j))%R) n i Hn Hi)).
  assert (Su : shape2 u (length X) 2) by apply tab2_shape.
  assert (Vu' : forall n, n < length X -> val2 u n 0 = (gamma * val2 X n 1 / Ly)%R /\ val2 u n 1 = 0%R).
  { intros n Hn. rewrite !Vu by lia. rewrite !Proof_Element.sumn2. unfold G. cbn. split; [field; lra|ring]. }
  assert (Sh : sheared X Lx Ly gamma u).
  { split; [exact Su|]. split; [|split].
    - intros a b i A Hi. assert (L : a < length X /\ b < length X) by (destruct A as [y [_ [A1 A2]]]; split; apply nth_error_Some; unfold node_at in *; congruence). destruct A as [y [_ [A1 A2]]]. apply node_val in A1, A2.
      destruct i as [|[|]]; [| |lia]; [rewrite (proj1 (Vu' a (proj1 L))), (proj1 (Vu' b (proj2 L))), (proj2 A1), (proj2 A2); reflexivity|rewrite (proj2 (Vu' a (proj1 L))), (proj2 (Vu' b (proj2 L))); reflexivity].
    - intros n K. assert (Hn : n < length X) by (destruct K as [x' N]; apply nth_error_Some; unfold node_at in N; congruence). destruct K as [x' N]. apply node_val in N. rewrite (proj1 (Vu' n Hn)), (proj2 (Vu' n Hn)), (proj2 N). split; [field; lra|reflexivity].
    - intros n K. assert (Hn : n < length X) by (destruct K as [x' N]; apply nth_error_Some; unfold node_at in N; congruence). destruct K as [x' N]. apply node_val in N. rewrite (proj1 (Vu' n Hn)), (proj2 (Vu' n Hn)), (proj2 N). split; [field; lra|reflexivity]. }
  pose proof (force_spec (mkVector C 4 (st_dofs st) 2) E (length C) (length X) ((length X - length lft) * 2)) as T. cbn [m_nne m_ndim m_conn m_dofs] in T. rewrite D4, D2 in T.
  destruct (T eq_refl eq_refl (ss_mesh _ _ _ _ _ _ S) B Ho el_SymGradN_vector (ddot42 (el_tdim E) Cs) (r_eps0 mem) (r_eps0 mem) u Su) as (ue & f & Eue & Ef & _ & _). clear T.
  destruct (AsElement_nodevec_spec (mkVector C 4 (st_dofs st) 2) (length C) 4 (length X) 2 _ eq_refl eq_refl (ss_mesh _ _ _ _ _ _ S) u Su) as [ue' [Eue' [_ Vue]]]. rewrite Eue in Eue'. injection Eue' as <-.
  assert (Un : exists T, uniform (length C) E (ddot42 (el_tdim E) Cs (el_SymGradN_vector E (r_eps0 mem) (of_rows ue))) T).
  { destruct (strip_quad _ _ _ _ _ _ _ _ H) as (ties & rg & lf & obot & otop & bl & br & tl & tr & Q & _). pose proof (quad_mesh_facts _ _ _ _ _ _ _ _ _ Q) as M. destruct (body_facts _ _ _ _ _ _ _ _ _ _ _ _ M HB) as (_ & HSh & _).
    apply (uniform_homogeneous _ _ _ HU _ (fun i j => if ((i <? 2) && (j <? 2))%bool then ((G j i + G i j) / 2)%R else 0%R)).
    pose proof (Proof_Patch.affine_grad C (st_dofs st) E (length C) (length X) ((length X - length lft) * 2) X x (sheet_patch _ _ _ _ HSh)) as T. rewrite D4, D2 in T.
    apply (T (ss_mesh _ _ _ _ _ _ S) HX (r_eps0 mem) (fun _ => 0%R) G (of_rows ue) M1). intros e m i He Hm Hi. rewrite of_rows_val, Vue by assumption. cbn [m_conn].
    rewrite Vu; [|now apply (md_node _ _ _ _ _ _ _ (ss_mesh _ _ _ _ _ _ S))|exact Hi]. f_equal. apply sumn_ext. intros k Hk. now rewrite HX. }
  destruct Un as [T Un].
  assert (Ea : AssembleNode (mkVector C 4 (st_dofs st) 2) (to_rows (length C) 4 2 (el_Int_gradN_dot_tensor2_dV E (r_eps0 mem) (ddot42 (el_tdim E) Cs (el_SymGradN_vector E (r_eps0 mem) (of_rows ue))))) = Ok f).
  { pose proof Ef as Ef'. unfold internal_force_of in Ef'. rewrite Eue in Ef'. cbn [bind] in Ef'. rewrite D4, D2 in Ef'. exact Ef'. }
  assert (Eq : disp = u).
  { apply (run_unique X C lft rgt bot top Lx Ly H th x E Cs HB HC HMi st Est gamma (r_eps0 mem) disp u fint f M1 Sd Sh); [now apply Fi|exact Ef|]. intros n j Hn Hj K1 K2. split; [now apply V|].
    apply (strip_uniform X C lft rgt bot top Lx Ly H th x E HB _ st S (r_eps0 mem) _ T f M1 Un Ea n j Hn Hj K1 K2). }
  rewrite Eq. exact Vu'.
Qed.
Print Assumptions C102_uniform.

(** C102: the forces that hold the strip: those at the top add up to the total of the stress on horizontal planes, divided by the height; those at
    the bottom add up to the opposite (also if the material varies from point to point) *)
Theorem C102_force : forall X C lft rgt bot top Lx Ly, strip_mesh X C lft rgt bot top Lx Ly ->
  forall th x E Cs, mesh_body X C th x E -> strictly_elastic (length C) E Cs -> major_symmetric (length C) E Cs -> minor_symmetric (length C) E Cs ->
  forall linsolve mem gamma st, spd_solver linsolve -> valid_memory (length C) (length X) 2 mem -> strip_setup (length X) C 4 lft rgt bot top = Ok st ->
  exists disp fint fext fres ue, shear linsolve mem st E (ddot42 (el_tdim E) Cs) Cs (length X) top gamma = Ok (disp, fint, fext, fres) /\
    AsElement_nodevec (mkVector C 4 (st_dofs st) 2) disp = Ok ue /\
    let stress := ddot42 (el_tdim E) Cs (el_SymGradN_vector E (r_eps0 mem) (of_rows ue)) in
    forall j, j < 2 -> sumL top (fun n => val2 fext n j) = (total (length C) E stress 1 j / Ly)%R /\ sumL bot (fun n => val2 fext n j) = (- (total (length C) E stress 1 j / Ly))%R.
Proof.
  intros X C lft rgt bot top Lx Ly H th x E Cs HB HC HMa HMi linsolve mem gamma st HL HM Est. pose proof (run_system X C lft rgt bot top Lx Ly H st Est) as S.
  destruct (run_ok X C lft rgt bot top Lx Ly H th x E Cs HB HC HMa HMi st Est linsolve mem gamma HL HM) as (disp & fint & fext & fres & Er & Sd & _ & Fi & V).
  pose proof HM as (M1 & M2 & _). pose proof (strip_facts_of _ _ _ _ _ _ _ _ H) as F. pose proof (sf_Ly _ _ _ _ _ _ _ F) as PLy.
  destruct (strip_dims X C lft rgt bot top Lx Ly H th x E HB _ st S) as (D4 & D2 & Dt & HE & HA & HX).
  destruct (AsElement_nodevec_spec (mkVector C 4 (st_dofs st) 2) (length C) 4 (length X) 2 _ eq_refl eq_refl (ss_mesh _ _ _ _ _ _ S) disp (proj1 Sd)) as [ue [Eue _]].
  exists disp, fint, fext, fres, ue. split; [exact Er|]. split; [exact Eue|]. intros stress j Hj.
  assert (Ea : AssembleNode (mkVector C 4 (st_dofs st) 2) (to_rows (length C) 4 2 (el_Int_gradN_dot_tensor2_dV E (r_f0 mem) stress)) = Ok fint).
  { pose proof (Fi (r_eps0 mem) (r_f0 mem) M1 M2) as Ef. unfold internal_force in Ef. unfold internal_force_of in Ef. rewrite Eue in Ef. cbn [bind] in Ef. rewrite D4, D2 in Ef. exact Ef. }
  assert (R : forall a g, (a * sumL bot (fun n => val2 fint n j) + (a + g * Ly) * sumL top (fun n => val2 fint n j) = g * total (length C) E stress 1 j)%R).
  { intros a g. apply (strip_reaction X C lft rgt bot top Lx Ly H th x E HB _ st S (r_f0 mem) stress fint a g j M2 Ea); [|exact Hj]. intros n k Hn Hk. now apply V. }
  assert (Eb : sumL bot (fun n => val2 fext n j) = sumL bot (fun n => val2 fint n j)).
  { apply sumL_ext. intros n I. apply V; [|exact Hj]. apply (sf_bot _ _ _ _ _ _ _ F) in I. destruct I as [x' N]. apply nth_error_Some. unfold node_at in N. congruence. }
  assert (Et : sumL top (fun n => val2 fext n j) = sumL top (fun n => val2 fint n j)).
  { apply sumL_ext. intros n I. apply V; [|exact Hj]. apply (sf_top _ _ _ _ _ _ _ F) in I. destruct I as [x' N]. apply nth_error_Some. unfold node_at in N. congruence. }
  rewrite Eb, Et. pose proof (R 0%R (/ Ly)%R) as R1. pose proof (R 1%R (- / Ly)%R) as R2. assert (I : (/ Ly * Ly = 1)%R) by (field; lra). replace (- / Ly * Ly)%R with (-1)%R in R2 by lra. rewrite I in R1. unfold Rdiv. split; lra.
Qed.
Print Assumptions C102_force.
