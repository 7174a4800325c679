(** The diagonal mass matrix of a body of hexahedra with nodal integration. *)
From Coq Require Import Reals Lra Lia List Arith Permutation.
From Verif Require Import Model_Element Spec_Element Proof_Element Proof_ElementQuad4 Proof_ElementMath Proof_ElementHex8 Base Spec Spec2d Spec3d Sums Spec_Vector Spec_Matrix Spec_MatrixDiagonal Spec_LumpedMass Model_Vector Proof_Vector Proof_Matrix Model_MatrixDiagonal Prop_MatrixDiagonal
  Model_MeshGeometry Proof_Pipeline Proof_PipelineBalance.
Import ListNotations.
Local Open Scope R_scope.

Lemma h_mass_nodal nelem j j' x Q es rho old e m i n k : Hex8_obj nelem 8 (Nodal8_xi j) (Gauss8_w j') x Q ->
  schedule nelem es -> (e < nelem)%nat -> (m < 8)%nat -> (n < 8)%nat -> (i < 3)%nat -> (k < 3)%nat ->
  Hex8_int_N_scalar_NT_dV es Q rho old [e; m * 3 + i; n * 3 + k]%nat = if ((m =? n) && (i =? k))%nat then rho [e;m] * q_vol Q [e;m] else 0.
Proof.
  intros H Hes He Hm Hn Hi Hk. pose proof (Hex8_facts _ _ _ _ _ _ H) as F. rewrite (h_mass_at _ _ _ _ _ _ F _ Hes) by assumption.
  assert (P : forall l q, (l < 8)%nat -> (q < 8)%nat -> Spec_Element.shape3 l (point (Nodal8_xi j) q) = if (l =? q)%nat then 1 else 0).
  { intros l q Hl Hq. rewrite <- (shape3_corner l q Hl Hq). unfold Spec_Element.shape3, point. pose proof (Hex8_points_at 1 j) as A. unfold Nodal8_xi.
    revert q Hq. apply lt8; corners3;
    repeat match type of A with _ /\ _ => let A1 := fresh in destruct A as [A1 A]; rewrite ?A1; clear A1 end; rewrite ?A; field. }
  rewrite (Bool.andb_comm). destruct (Nat.eqb_spec i k) as [->|]; cbn [andb]; [|reflexivity].
  rewrite sumn8. rewrite !P by (assumption || lia).
  revert m Hm. apply lt8; revert n Hn; apply lt8; cbn [Nat.eqb]; ring.
Qed.

Lemma pick N (f : nat -> R) a : (a < N)%nat -> (forall b, (b < N)%nat -> 0 <= f b) -> f a <= sumn N f.
Proof.
  intros Ha Hf. replace N with (a + (1 + (N - a - 1)))%nat by lia. rewrite sumn_app, sumn_app. rewrite (sumn_S 0). change (sumn 0 (fun i0 => f (a + i0)%nat)) with 0. rewrite Nat.add_0_r.
  assert (0 <= sumn a f) by (apply sumn_nonneg; intros; apply Hf; lia). assert (0 <= sumn (N - a - 1) (fun i0 => f (a + (1 + i0))%nat)) by (apply sumn_nonneg; intros; apply Hf; lia). lra.
Qed.

Section D.
Variables (conn dofs : list (list nat)) (nelem nne nnode ndim ndof : nat).
Hypothesis Hmd : mesh_dofs conn dofs nelem nne nnode ndim ndof.
Notation dof := (idx2 dofs). Notation node := (idx2 conn).
Variable K : list (list (list R)).

(** every DOF is on the diagonal of the matrix of some element, and these diagonals are positive *)
Lemma diag_pos : (forall e m i, (e < nelem)%nat -> (m < nne)%nat -> (i < ndim)%nat -> 0 < val3 K e (m * ndim + i) (m * ndim + i)) ->
  (forall n, (n < nnode)%nat -> exists e m, (e < nelem)%nat /\ (m < nne)%nat /\ node e m = n) -> no_holes dofs ndof ->
  forall d, (d < ndof)%nat -> 0 < assembled_diag conn dofs nelem nne ndim K d.
Proof.
  intros HK Hused Hho d Hd. specialize (Hho d Hd). apply (In_concat_nth2 dofs nnode ndim) in Hho; [|apply Hmd]. destruct Hho as (n & i & Hn & Hi & Ed).
  destruct (Hused n Hn) as (e & m & He & Hm & En). unfold assembled_diag, sum_elem.
  assert (T : forall e m i, (e < nelem)%nat -> (m < nne)%nat -> (i < ndim)%nat -> 0 <= ind (dof (node e m) i =? d)%nat * val3 K e (m * ndim + i) (m * ndim + i)).
  { intros e' m' i' He' Hm' Hi'. pose proof (HK e' m' i' He' Hm' Hi'). unfold ind. destruct (_ =? _)%nat; lra. }
  apply (Rlt_le_trans _ (ind (dof (node e m) i =? d)%nat * val3 K e (m * ndim + i) (m * ndim + i))).
  - rewrite En, Ed, Nat.eqb_refl. unfold ind. pose proof (HK e m i He Hm Hi). lra.
  - eapply Rle_trans; [|apply (pick nelem _ e He); intros; apply sumn_nonneg; intros; apply sumn_nonneg; intros; now apply T].
    eapply Rle_trans; [|apply (pick nne _ m Hm); intros; apply sumn_nonneg; intros; now apply T].
    eapply Rle_trans; [|apply (pick ndim _ i Hi); intros; now apply T]. apply Rle_refl.
Qed.
Lemma diag_total : sumn ndof (assembled_diag conn dofs nelem nne ndim K) = sum_elem nelem nne ndim (fun e m i => val3 K e (m * ndim + i) (m * ndim + i)).
Proof.
  unfold assembled_diag, sum_elem. rewrite sumn_swap. apply sumn_ext. intros e He. rewrite sumn_swap. apply sumn_ext. intros m Hm. rewrite sumn_swap. apply sumn_ext. intros i Hi.
  assert (B : (dof (node e m) i < ndof)%nat) by (apply (mesh_dof _ _ _ _ _ _ _ Hmd); [now apply (md_node _ _ _ _ _ _ _ Hmd)|exact Hi]).
  now rewrite (sumn_delta' ndof (dof (node e m) i) (fun _ => val3 K e (m * ndim + i) (m * ndim + i)) B).
Qed.
End D.

Lemma node_used conn nelem nne nnode : Spec.shape2 conn nelem nne -> (forall p, (p < nnode)%nat -> exists e, In e conn /\ In p e) ->
  forall n, (n < nnode)%nat -> exists e m, (e < nelem)%nat /\ (m < nne)%nat /\ idx2 conn e m = n.
Proof.
  intros [L S] H n Hn. destruct (H n Hn) as (E & HE & Hp). pose proof (S E HE) as LE. apply (In_nth _ _ []) in HE. destruct HE as (e & He & Ee). apply (In_nth _ _ 0%nat) in Hp. destruct Hp as (m & Hm & Em).
  exists e, m. split; [lia|]. split; [lia|]. unfold idx2, nth2. now rewrite Ee.
Qed.

Section G.
Local Close Scope R_scope.
Variables (conn dofs : list (list nat)) (nelem nne nnode ndim ndof : nat).
Hypothesis Hmd : mesh_dofs conn dofs nelem nne nnode ndim ndof.
Hypothesis Hho : no_holes dofs ndof.
Hypothesis Hused : forall n, n < nnode -> exists e m, e < nelem /\ m < nne /\ idx2 conn e m = n.

(** element matrices with the positive numbers [W e a], one per node, on the diagonal *)
Lemma good_of (W : nat -> nat -> R) K total : 1 <= ndim -> Spec_Vector.shape3 K nelem (nne * ndim) (nne * ndim) ->
  (forall e a i b k, e < nelem -> a < nne -> i < ndim -> b < nne -> k < ndim -> val3 K e (a * ndim + i) (b * ndim + k) = if ((a =? b) && (i =? k))%nat%bool then W e a else 0%R) ->
  (forall e a, e < nelem -> a < nne -> (0 < W e a)%R) -> (INR ndim * sumn nelem (fun e => sumn nne (W e)))%R = total ->
  good_mass conn dofs nelem nne nnode ndim ndof K total.
Proof.
  intros Hd SK VK HW HT.
  assert (DK : forall e a i, e < nelem -> a < nne -> i < ndim -> val3 K e (a * ndim + i) (a * ndim + i) = W e a).
  { intros e a i He Ha Hi. rewrite VK by assumption. now rewrite !Nat.eqb_refl. }
  split.
  { intros e r c He Hr Hc Hrc. pose proof (Nat.div_mod r ndim ltac:(lia)) as R1. pose proof (Nat.div_mod c ndim ltac:(lia)) as C1.
    pose proof (Nat.mod_upper_bound r ndim ltac:(lia)) as R2. pose proof (Nat.mod_upper_bound c ndim ltac:(lia)) as C2.
    assert (R3 : r / ndim < nne) by (apply Nat.div_lt_upper_bound; lia). assert (C3 : c / ndim < nne) by (apply Nat.div_lt_upper_bound; lia).
    replace r with (r / ndim * ndim + r mod ndim) by lia. replace c with (c / ndim * ndim + c mod ndim) by lia. rewrite VK by assumption.
    destruct (Nat.eqb_spec (r / ndim) (c / ndim)) as [E1|]; [|reflexivity]. destruct (Nat.eqb_spec (r mod ndim) (c mod ndim)) as [E2|]; [|reflexivity]. exfalso. apply Hrc. rewrite R1, C1, E1, E2. reflexivity. }
  assert (HP : forall d, d < ndof -> (0 < assembled_diag conn dofs nelem nne ndim K d)%R).
  { apply (diag_pos conn dofs nelem nne nnode ndim ndof Hmd K); [|exact Hused|exact Hho]. intros e a i He Ha Hi. rewrite DK by assumption. auto. }
  assert (HF : Forall (valid_dop nelem nne nnode ndim ndof) [DAssemble K]) by (constructor; [exact SK|constructor]).
  destruct (C53_history conn dofs nelem nne nnode ndim ndof Hmd (DAssemble K) [] eq_refl HF) as (M & EM & (mass & Emass & Lm & Vm) & _ & _ & Dn).
  destruct (C53_inverse conn dofs nelem nne nnode ndim ndof Hmd (DAssemble K) [] eq_refl HF) as (M2 & EM2 & _ & Sn & _ & Dn2).
  { intros d Hd'. specialize (HP d Hd'). cbn [fold_left diag_after]. lra. }
  rewrite EM in EM2. injection EM2 as <-. cbn [foldM run_dop] in EM. cbn [fold_left diag_after] in Vm, Dn.
  assert (EM' : MD_assemble (new_MatrixDiagonal (mkVector conn nne dofs ndim)) K = Ok M) by (destruct (MD_assemble _ K); cbn [bind] in EM; congruence).
  exists M, mass. split; [exact EM'|]. split; [exact Emass|]. split; [exact Lm|]. split; [intros d Hd'; rewrite Vm by exact Hd'; now apply HP|]. split.
  - rewrite (sumn_ext ndof _ (assembled_diag conn dofs nelem nne ndim K)) by (intros d Hd'; now apply Vm). rewrite (diag_total conn dofs nelem nne nnode ndim ndof Hmd K).
    rewrite <- HT. unfold sum_elem. rewrite <- sumn_scal. apply sumn_ext. intros e He. rewrite <- sumn_scal. apply sumn_ext. intros a Ha.
    rewrite (sumn_ext ndim _ (fun _ => W e a)) by (intros i Hi; now apply DK). unfold sumn. now rewrite sumL_const, seq_length.
  - intros f Hf.
    set (x0 := map (fun n => map (fun i => (val2 f n i / val1 mass (idx2 dofs n i))%R) (seq 0 ndim)) (seq 0 nnode)).
    assert (S0 : Spec.shape2 x0 nnode ndim). { split; [unfold x0; now rewrite map_length, seq_length|]. intros l Hl. unfold x0 in Hl. apply in_map_iff in Hl. destruct Hl as (n & <- & _). now rewrite map_length, seq_length. }
    assert (V0 : forall n i, n < nnode -> i < ndim -> val2 x0 n i = (val2 f n i / val1 mass (idx2 dofs n i))%R).
    { intros n i Hn Hi. unfold val2 at 1, nth2, x0. set (g := fun n => map (fun i => (val2 f n i / val1 mass (idx2 dofs n i))%R) (seq 0 ndim)).
      rewrite (nth_indep _ [] (g 0)) by (rewrite map_length, seq_length; exact Hn). rewrite (map_nth g), seq_nth by exact Hn. cbn [Nat.add]. unfold g.
      rewrite (nth_indep _ 0%R ((fun i => (val2 f n i / val1 mass (idx2 dofs n i))%R) 0)) by (rewrite map_length, seq_length; exact Hi).
      rewrite (map_nth (fun i => (val2 f n i / val1 mass (idx2 dofs n i))%R)), seq_nth by exact Hi. reflexivity. }
    destruct (Dn x0 S0) as (b & Eb & Sb & Vb). destruct (Dn2 x0 S0) as (b' & M' & Eb' & Es). rewrite Eb in Eb'. injection Eb' as <-.
    assert (B : forall n i, n < nnode -> i < ndim -> idx2 dofs n i < ndof) by (intros n i Hn Hi; now apply (mesh_dof _ _ _ _ _ _ _ Hmd)).
    assert (Q0 : forall n i, n < nnode -> i < ndim -> (val1 mass (idx2 dofs n i) * val2 x0 n i = val2 f n i)%R).
    { intros n i Hn Hi. rewrite V0 by assumption. pose proof (HP _ (B n i Hn Hi)) as P. rewrite (Vm _ (B n i Hn Hi)). field. lra. }
    assert (Ef : b = f).
    { apply (list_ext2 0%R b f nnode ndim Sb Hf). intros n i Hn Hi. fold (val2 b n i) (val2 f n i). rewrite Vb, <- Q0 by assumption. rewrite Vm; [reflexivity|]. now apply B. }
    subst b. exists x0, M'. split; [exact Es|]. split; [exact Eb|]. split; [exact S0|exact Q0].
Qed.
End G.
