(** Proofs about strips: ties, virtual work, uniform stress. *)
From Coq Require Import Reals Lra Lia.
From Verif Require Import Model_Element Spec_Element Proof_Element Proof_ElementQuad4 Proof_ElementMath Prop_ElementPlanar Base Spec Spec2d Sums Spec_Vector Spec_Matrix Spec_MatrixOps Spec_Tiling Model_Numbering Model_Vector Proof_Vector Model_VectorPartitioned Model_Sparse
  Model_Matrix Proof_Matrix Model_MatrixPartitioned Model_MeshGeometry Model_Regular2d Proof_Regular2d Model_FineLayer Model_Pipeline Spec_Pipeline Spec_Patch Proof_PipelineElem Proof_Pipeline Proof_PipelineBalance
  Prop_Pipeline Proof_Patch Spec_Macro Proof_Macro Spec_Divergence Proof_Divergence Spec_QuadMesh Proof_QuadMesh Proof_QuadMeshObj Prop_Divergence Prop_QuadMesh
  Model_PartialPeriodic Spec_PartialPeriodic Proof_PartialPeriodic.

Lemma strip_ties X C ties bot rgt top lft Lx Ly a b : mesh_facts X C ties bot rgt top lft Lx Ly -> In (a, b) ties ->
  ((at_bottom X a \/ at_top X Ly a) /\ (at_bottom X b \/ at_top X Ly b)) \/ across X Lx Ly a b.
Proof.
  intros M Hab. destruct (mf_ties _ _ _ _ _ _ _ _ _ M) as [W [Cg Ls]]. destruct (mf_domain _ _ _ _ _ _ _ _ _ M) as [D1 [D2 D3]]. pose proof (mf_Lx _ _ _ _ _ _ _ _ _ M) as PLx. pose proof (mf_Ly _ _ _ _ _ _ _ _ _ M) as PLy.
  destruct (proj1 W a b Hab) as [La Lb]. destruct (D1 a La) as (x & y & Na). destruct (D1 b Lb) as (x' & y' & Nb). pose proof (D2 a x y Na) as Da. pose proof (D2 b x' y' Nb) as Db.
  destruct (Cg a b x y x' y' Hab Na Nb) as (p & q & Ex & Ey).
  assert (Ib : In b (map snd ties)) by (apply in_map_iff; now exists (a, b)). apply Ls in Ib. destruct Ib as (x1 & y1 & Nb' & Hb). destruct (node_fun _ _ _ _ _ _ Nb Nb') as [<- <-].
  assert (Ia : ~ In a (map snd ties)) by (apply W; apply in_map_iff; now exists (a, b)).
  assert (Xa : x <> Lx) by (intros ->; apply Ia, Ls; do 2 eexists; split; [exact Na|auto]). assert (Ya : y <> Ly) by (intros ->; apply Ia, Ls; do 2 eexists; split; [exact Na|auto]).
  assert (I0 : forall z L, (0 < L)%R -> (- L < IZR z * L < L)%R -> z = 0%Z). { intros z L HL Hz. apply one_IZR_lt1. split; apply (Rmult_lt_reg_r L); lra. }
  destruct (Req_dec y' Ly) as [E|E].
  - left. rewrite E in Nb, Ey. assert (Y0 : y = 0%R).
    { assert (q = 1%Z) as ->; [|lra]. assert (q - 1 = 0)%Z; [|lia]. apply (I0 _ Ly PLy). rewrite minus_IZR. lra. }
    rewrite Y0 in Na. split; [left; now exists x|right; now exists x'].
  - destruct Hb as [Hb|Hb]; [|contradiction]. rewrite Hb in Nb, Ex. assert (q = 0)%Z by (apply (I0 _ Ly PLy); lra). subst q. assert (Y1 : y' = y) by lra. rewrite Y1 in Nb.
    assert (X0 : x = 0%R). { assert (p = 1%Z) as ->; [|lra]. assert (p - 1 = 0)%Z; [|lia]. apply (I0 _ Lx PLx). rewrite minus_IZR. lra. }
    rewrite X0 in Na. destruct (Req_dec y 0) as [E'|E']; [rewrite E' in Na, Nb; left; split; left; [now exists 0%R|now exists Lx]|].
    right. exists y. split; [lra|]. auto.
Qed.

(** the gradient has no components out of the plane *)
Lemma body_plane X C th x E c u e q i j : mesh_body X C th x E -> valid_call (length C) c -> e < length C -> q < el_nip E -> i < el_tdim E -> j < el_tdim E -> 2 <= i \/ 2 <= j ->
  el_GradN_vector E c u [e;q;i;j] = 0%R.
Proof.
  intros [nip xi w x' Q HR HX HQ|nip xi w thick x' P Ht HR HX HP] Hc He Hq Hi Hj Hij.
  - cbn in Hi, Hj. lia.
  - cbn [Planar_elem el_nip] in Hq. rewrite (f_nip (proj2 (Planar_facts _ _ _ _ _ _ _ HP))) in Hq. cbn in Hi, Hj. cbn [Planar_elem el_GradN_vector].
    apply (C61_out_of_plane _ _ _ _ _ _ _ HP _ Hc); try assumption. destruct Hij; [left; lia|right; lia].
Qed.

Lemma sumn_support n l f : NoDup l -> (forall k, In k l -> k < n) -> (forall k, k < n -> ~ In k l -> f k = 0%R) -> sumn n f = sumL l f.
Proof.
  intros ND Hl Hf. transitivity (sumn n (fun k => sumL l (fun i => ind (i =? k) * f i)))%R.
  - apply sumn_ext. intros k Hk. destruct (in_dec Nat.eq_dec k l) as [I|I]; [symmetry; now apply sumL_delta|]. rewrite Hf by assumption. symmetry. apply sumL_zero. intros i Ii. destruct (Nat.eqb_spec i k) as [->|]; [contradiction|]. unfold ind. ring.
  - unfold sumn at 1. rewrite sumL_swap. apply sumL_ext. intros i Ii. change (sumn n (fun k => ind (i =? k) * f i)%R = f i). exact (sumn_delta' n i (fun _ => f i) (Hl i Ii)).
Qed.
Lemma NoDup_map_inj_on {A B} (h : A -> B) l : (forall a b, In a l -> In b l -> h a = h b -> a = b) -> NoDup l -> NoDup (map h l).
Proof.
  induction l as [|a l IH]; intros Hi ND; cbn; [constructor|]. apply NoDup_cons_iff in ND. destruct ND as [N1 N2]. constructor.
  - intros I. apply in_map_iff in I. destruct I as [b [Eb Ib]]. apply N1. rewrite <- (Hi b a); cbn; auto.
  - apply IH; [|exact N2]. intros b c Hb Hc. apply Hi; now right.
Qed.

Section S.
Set Default Proof Using "All".
Variables (X : list (list R)) (C : list (list nat)) (olft orgt bot top : list nat) (Lx Ly : R).
Hypothesis H : strip_mesh X C olft orgt bot top Lx Ly.
Variables (th : R) (x : arr) (E : Elem).
Hypothesis HB : mesh_body X C th x E.
Variables (ndof : nat) (st : Strip).
Hypothesis HS : strip_system X C Lx Ly ndof st.
Notation nn := (length X). Notation ne := (length C). Notation D := (st_dofs st).
Notation v := (mkVector C 4 (st_dofs st) 2).

Lemma strip_mesh_facts : exists ties rgt lft, quad_mesh X C ties bot rgt top lft Lx Ly.
Proof. destruct (strip_quad _ _ _ _ _ _ _ _ H) as (ties & rgt & lft & _ & _ & _ & _ & _ & _ & Q & _). now exists ties, rgt, lft. Qed.

Lemma strip_dims : el_nne E = 4 /\ el_ndim E = 2 /\ 2 <= el_tdim E /\ elem_obj ne x E /\ affine_obj ne x E /\ on_mesh C ne X x.
Proof.
  destruct strip_mesh_facts as (ties & rgt & lft & Q). pose proof (quad_mesh_facts _ _ _ _ _ _ _ _ _ Q) as M. destruct (body_facts _ _ _ _ _ _ _ _ _ _ _ _ M HB) as (HX & HSh & HF & HA & HV & D4 & D2 & Dt).
  repeat (split; [assumption|]). split; [now apply affine_elem|]. auto.
Qed.

(** the work of the assembled forces of a stress on a displacement of the DOFs *)
Lemma strip_work c c' sig y f : valid_call ne c -> valid_call ne c' -> length y = ndof ->
  AssembleNode v (to_rows ne 4 2 (el_Int_gradN_dot_tensor2_dV E c sig)) = Ok f ->
  exists b Y, AssembleDofs_elemvec v (to_rows ne 4 2 (el_Int_gradN_dot_tensor2_dV E c sig)) = Ok b /\ length b = ndof /\
    (forall n j, n < nn -> j < 2 -> val2 f n j = val1 b (idx2 D n j)) /\
    (forall e m i, e < ne -> m < 4 -> i < 2 -> of_rows Y [e;m;i] = val1 y (idx2 D (idx2 C e m) i)) /\
    sumn ndof (fun d => val1 y d * val1 b d)%R = integral ne E sig (el_GradN_vector E c' (of_rows Y)).
Proof.
  intros Hc Hc' Ly' Ef. destruct strip_dims as (D4 & D2 & Dt & HE & _). pose proof (ss_mesh _ _ _ _ _ _ HS) as Hm.
  pose proof (C84_virtual_work C D ne nn ndof x E HE) as T. cbv zeta in T. rewrite D4, D2 in T. destruct (T Hm c c' sig y Hc Hc' Ly') as (Y & b & EY & Eb & Lb & Wk).
  destruct (AsElement_dofval_spec v ne 4 nn 2 ndof eq_refl eq_refl Hm y Ly') as [Y' [EY' [_ VY]]]. rewrite EY in EY'. injection EY' as <-.
  destruct (AsNode_dofval_spec v ne 4 nn 2 ndof eq_refl eq_refl Hm b Lb) as [f' [Ef' [_ Vf]]]. unfold AssembleNode in Ef. rewrite Eb in Ef. cbn [bind] in Ef. rewrite Ef' in Ef. injection Ef as <-.
  exists b, Y. split; [exact Eb|]. split; [exact Lb|]. split; [intros n j Hn Hj; now apply Vf|]. split; [|exact Wk]. intros e m i He Hm' Hi. rewrite of_rows_val. now apply VY.
Qed.

(** a uniform stress does no work on a displacement that is zero at the bottom and the top *)
Lemma strip_uniform c sig S f : valid_call ne c -> uniform ne E sig S -> AssembleNode v (to_rows ne 4 2 (el_Int_gradN_dot_tensor2_dV E c sig)) = Ok f ->
  forall n j, n < nn -> j < 2 -> ~ at_bottom X n -> ~ at_top X Ly n -> val2 f n j = 0%R.
Proof.
  intros Hc HU Ef n j Hn Hj Nb Nt. destruct strip_dims as (D4 & D2 & Dt & HE & HA & HX). pose proof (ss_mesh _ _ _ _ _ _ HS) as Hm.
  destruct strip_mesh_facts as (ties & rgt & lft & Q). pose proof (quad_mesh_facts _ _ _ _ _ _ _ _ _ Q) as M. destruct (body_facts _ _ _ _ _ _ _ _ _ _ _ _ M HB) as (_ & HSh & _).
  assert (Ld : idx2 D n j < ndof). { pose proof (V_dof v ne 4 nn 2 ndof eq_refl eq_refl Hm) as K. cbn in K. now apply K. }
  set (d := idx2 D n j) in *. set (y := tab1 ndof (fun k => ind (k =? d))).
  assert (Ly' : length y = ndof) by apply tab1_length. assert (Vy : forall k, k < ndof -> val1 y k = ind (k =? d)) by (intros k Hk; unfold val1, y; now rewrite (tab1_nth 0%R ndof (fun k => ind (k =? d)) k Hk)).
  destruct (strip_work c c sig y f Hc Hc Ly' Ef) as (b & Y & Eb & Lb & Vf & VY & Wk). rewrite Vf by assumption. fold d.
  assert (Eb' : val1 b d = sumn ndof (fun k => val1 y k * val1 b k)%R). { rewrite (sumn_ext ndof _ (fun k => ind (k =? d) * val1 b k)%R) by (intros k Hk; now rewrite Vy). now rewrite sumn_delta. }
  rewrite Eb', Wk. clear Eb'.
  set (w := tab2 nn 2 (fun p i => val1 y (idx2 D p i))).
  assert (Vw : forall p i, p < nn -> i < 2 -> val2 w p i = val1 y (idx2 D p i)) by (intros p i Hp Hi; unfold val2, w; exact (tab2_nth 0%R nn 2 (fun p i => val1 y (idx2 D p i)) p i Hp Hi)).
  assert (Hw : nodal_elem C ne w (of_rows Y)).
  { intros e m i He Hm' Hi. rewrite VY by assumption. symmetry. apply Vw; [now apply (md_node _ _ _ _ _ _ _ Hm)|exact Hi]. }
  assert (Dlt : forall p i, p < nn -> i < 2 -> idx2 D p i < ndof) by (intros p i Hp Hi; pose proof (V_dof v ne 4 nn 2 ndof eq_refl eq_refl Hm) as K; cbn in K; now apply K).
  assert (Zw : forall p i, p < nn -> i < 2 -> at_bottom X p \/ at_top X Ly p -> val2 w p i = 0%R).
  { intros p i Hp Hi Hb. rewrite Vw, Vy by auto. destruct (Nat.eqb_spec (idx2 D p i) d) as [Ed|Ed]; [exfalso|reflexivity]. apply (ss_iip _ _ _ _ _ _ HS p i Hp Hi) in Hb. rewrite Ed in Hb. apply (ss_iip _ _ _ _ _ _ HS n j Hn Hj) in Hb. tauto. }
  destruct (C92_cell X C ties bot rgt top lft Lx Ly Q th x E HSh HX) as [_ HG].
  assert (T0 : forall i k, i < 2 -> k < 2 -> total ne E (el_GradN_vector E c (of_rows Y)) i k = 0%R).
  { intros i k Hi Hk. rewrite (HG w (of_rows Y) (fun _ _ => 0%R) Hw); try assumption; [ring|]. intros a b' l Hab Hl. rewrite (sumn_zero 2); [|intros; ring].
    destruct (proj1 (proj1 (mf_ties _ _ _ _ _ _ _ _ _ M)) a b' Hab) as [La Lb'].
    destruct (strip_ties _ _ _ _ _ _ _ _ _ a b' M Hab) as [[A1 A2]|A]; [rewrite !Zw by assumption; ring|].
    rewrite !Vw by assumption. replace (idx2 D b' l) with (idx2 D a l); [ring|]. apply (ss_same _ _ _ _ _ _ HS); try assumption. split; [right; now left|reflexivity]. }
  unfold integral. transitivity (sumn (el_tdim E) (fun i => sumn (el_tdim E) (fun k => S i k * total ne E (el_GradN_vector E c (of_rows Y)) i k)))%R.
  - unfold total. transitivity (sumn ne (fun e => sumn (el_nip E) (fun q => sumn (el_tdim E) (fun i => sumn (el_tdim E) (fun k => S i k * (el_GradN_vector E c (of_rows Y) [e;q;i;k] * el_dV E [e;q]))))))%R.
    + apply sumn_ext. intros e He. apply sumn_ext. intros q Hq. rewrite <- sumn_scal_r. apply sumn_ext. intros i Hi. rewrite <- sumn_scal_r. apply sumn_ext. intros k Hk. rewrite HU by assumption. ring.
    + rewrite (sumn_ext ne _ (fun e => sumn (el_tdim E) (fun i => sumn (el_nip E) (fun q => sumn (el_tdim E) (fun k => S i k * (el_GradN_vector E c (of_rows Y) [e;q;i;k] * el_dV E [e;q]))))))%R by (intros e He; now rewrite sumn_swap).
      rewrite sumn_swap. apply sumn_ext. intros i Hi. rewrite (sumn_ext ne _ (fun e => sumn (el_tdim E) (fun k => sumn (el_nip E) (fun q => S i k * (el_GradN_vector E c (of_rows Y) [e;q;i;k] * el_dV E [e;q])))))%R by (intros e He; now rewrite sumn_swap).
      rewrite sumn_swap. apply sumn_ext. intros k Hk. rewrite <- sumn_scal. apply sumn_ext. intros e He. now rewrite sumn_scal.
  - apply sumn_zero. intros i Hi. apply sumn_zero. intros k Hk. destruct (Nat.lt_ge_cases i 2) as [Li|Li]; [destruct (Nat.lt_ge_cases k 2) as [Lk|Lk]; [rewrite T0 by assumption; ring|]|].
    + unfold total. rewrite (sumn_zero ne); [ring|]. intros e He. apply sumn_zero. intros q Hq. rewrite (body_plane X C th x E c (of_rows Y) e q i k HB Hc He Hq Hi Hk); [ring|now right].
    + unfold total. rewrite (sumn_zero ne); [ring|]. intros e He. apply sumn_zero. intros q Hq. rewrite (body_plane X C th x E c (of_rows Y) e q i k HB Hc He Hq Hi Hk); [ring|now left].
Qed.

(** the forces at the bottom and at the top of a stress that is in equilibrium elsewhere *)
Lemma strip_reaction c sig f a g j : valid_call ne c -> AssembleNode v (to_rows ne 4 2 (el_Int_gradN_dot_tensor2_dV E c sig)) = Ok f ->
  (forall n j, n < nn -> j < 2 -> ~ at_bottom X n -> ~ at_top X Ly n -> val2 f n j = 0%R) -> j < 2 ->
  (a * sumL bot (fun n => val2 f n j) + (a + g * Ly) * sumL top (fun n => val2 f n j) = g * total ne E sig 1 j)%R.
Proof.
  intros Hc Ef Hf Hj. destruct strip_dims as (D4 & D2 & Dt & HE & HA & HX). pose proof (ss_mesh _ _ _ _ _ _ HS) as Hm. pose proof (strip_facts_of _ _ _ _ _ _ _ _ H) as F.
  set (w := tab2 nn 2 (fun n i => if i =? j then (a + g * val2 X n 1)%R else 0%R)).
  assert (Vw : forall p i, p < nn -> i < 2 -> val2 w p i = if i =? j then (a + g * val2 X p 1)%R else 0%R) by (intros p i Hp Hi; unfold val2 at 1, w; exact (tab2_nth 0%R nn 2 (fun n i => if i =? j then (a + g * val2 X n 1)%R else 0%R) p i Hp Hi)).
  assert (Aw : agree2 (m_dofs v) nn 2 w).
  { intros m i n k Hm' Hi Hn Hk Eq. apply (ss_same _ _ _ _ _ _ HS) in Eq; try assumption. destruct Eq as [Q <-]. rewrite !Vw by assumption. destruct (i =? j); [|reflexivity].
    destruct Q as [->|[[y [_ [N1 N2]]]|[y [_ [N1 N2]]]]]; [reflexivity| |]; apply node_val in N1, N2; rewrite (proj2 N1), (proj2 N2); reflexivity. }
  destruct (AsDofs_values v ne 4 nn 2 ndof eq_refl eq_refl Hm (node_iters v) w (Permutation_refl _) (tab2_shape _ _ _) Aw) as (y & _ & Ly' & Vy & _). cbn [m_dofs] in Vy.
  destruct (strip_work c c sig y f Hc Hc Ly' Ef) as (b & Y & Eb & Lb & Vf & VY & Wk).
  rewrite (integral_affine ne x E sig (el_GradN_vector E c (of_rows Y)) c (fun i => if i =? j then a else 0%R) (fun i k => if ((i =? j) && (k =? 1))%bool then g else 0%R) (of_rows Y) HA Hc eq_refl) in Wk.
  2:{ rewrite D4, D2. intros e m i He Hm' Hi. assert (Ln : idx2 C e m < nn) by (now apply (md_node _ _ _ _ _ _ _ Hm)). rewrite VY, Vy, Vw by assumption. rewrite Proof_Element.sumn2. rewrite !HX by (try assumption; lia).
      destruct (i =? j); cbn; ring. }
  assert (W2 : sumn 2 (fun i => sumn 2 (fun k => (if ((i =? j) && (k =? 1))%bool then g else 0) * total ne E sig k i))%R = (g * total ne E sig 1 j)%R).
  { rewrite !Proof_Element.sumn2. destruct j as [|[|]]; cbn; [ring|ring|lia]. }
  rewrite D2, W2 in Wk. rewrite <- Wk. clear Wk W2.
  assert (Bl : forall n, In n bot -> n < nn /\ val2 X n 1 = 0%R).
  { intros n I. apply (sf_bot _ _ _ _ _ _ _ F) in I. destruct I as [x' N]. split; [apply nth_error_Some; unfold node_at in N; congruence|apply (node_val _ _ _ _ N)]. }
  assert (Tl : forall n, In n top -> n < nn /\ val2 X n 1 = Ly).
  { intros n I. apply (sf_top _ _ _ _ _ _ _ F) in I. destruct I as [x' N]. split; [apply nth_error_Some; unfold node_at in N; congruence|apply (node_val _ _ _ _ N)]. }
  assert (BTl : forall n, In n (bot ++ top) -> n < nn) by (intros n I; apply in_app_or in I; destruct I as [I|I]; [now apply Bl|now apply Tl]).
  assert (Nd : NoDup (map (fun n => idx2 D n j) (bot ++ top))).
  { pose proof (sf_Ly _ _ _ _ _ _ _ F) as PLy. apply NoDup_map_inj_on.
    - intros m n Im In' Eq. assert (Hm' : m < nn) by auto. assert (Hn : n < nn) by auto. apply (ss_same _ _ _ _ _ _ HS) in Eq; try assumption. destruct Eq as [[Eq|Eq] _]; [exact Eq|exfalso].
      assert (Kz : val2 X m 1 = 0%R \/ val2 X m 1 = Ly) by (apply in_app_or in Im; destruct Im as [I|I]; [left; now apply Bl|right; now apply Tl]).
      destruct Eq as [[z [Hz [N1 N2]]]|[z [Hz [N1 N2]]]]; [apply node_val in N1; rewrite (proj2 N1) in Kz|apply node_val in N2; rewrite (proj2 N2) in Kz]; lra.
    - apply NoDup_app_intro; [apply (sf_bot _ _ _ _ _ _ _ F)|apply (sf_top _ _ _ _ _ _ _ F)|]. intros n I1 I2. destruct (Bl n I1) as [_ E1]. destruct (Tl n I2) as [_ E2]. lra. }
  assert (Dlt : forall p i, p < nn -> i < 2 -> idx2 D p i < ndof) by (intros p i Hp Hi; pose proof (V_dof v ne 4 nn 2 ndof eq_refl eq_refl Hm) as K; cbn in K; now apply K).
  rewrite (sumn_support ndof (map (fun n => idx2 D n j) (bot ++ top))).
  - rewrite sumL_map, sumL_app. f_equal.
    + rewrite <- sumL_scal. apply sumL_ext. intros n I. destruct (Bl n I) as [Hn Ez]. rewrite Vy, Vw, Vf by assumption. rewrite Nat.eqb_refl, Ez. ring.
    + rewrite <- sumL_scal. apply sumL_ext. intros n I. destruct (Tl n I) as [Hn Ez]. rewrite Vy, Vw, Vf by assumption. rewrite Nat.eqb_refl, Ez. ring.
  - exact Nd.
  - intros d I. apply in_map_iff in I. destruct I as [n [<- I]]. apply Dlt; auto.
  - intros d Hd I. pose proof (ss_holes _ _ _ _ _ _ HS d Hd) as K. apply in_concat in K. destruct K as [r [Hr Hdr]]. destruct (md_dofs _ _ _ _ _ _ _ Hm) as [Lr Sr].
    destruct (In_nth _ _ [] Hr) as [n [Hn En]]. destruct (In_nth _ _ 0 Hdr) as [i [Hi Ei]]. rewrite (Sr r Hr) in Hi. assert (Ed : d = idx2 D n i) by (unfold idx2, nth2; now rewrite En). rewrite Lr in Hn.
    rewrite Ed in I |- *. rewrite Vy by assumption. rewrite Vw by assumption. destruct (Nat.eqb_spec i j) as [->|Nj]; [|ring].
    rewrite <- Vf by assumption. rewrite Hf; [ring|assumption|assumption| |]; intros K; apply I, in_map_iff; exists n; (split; [reflexivity|]); apply in_or_app; [left; now apply (sf_bot _ _ _ _ _ _ _ F)|right; now apply (sf_top _ _ _ _ _ _ _ F)].
Qed.
End S.
