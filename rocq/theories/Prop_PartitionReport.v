(** Property C111: the partition of the DOFs as reported by the tyings, the vector and the matrix. *)
From Coq Require Import Reals Lra.
From Verif Require Import Base Spec Sums Spec_Vector Spec_Tyings Model_Numbering Model_Vector Model_Sparse Model_Tyings Model_MatrixTyings
  Proof_Tyings Proof_Tyings2 Prop_Tyings Model_PartitionReport Spec_PartitionReport.

Lemma arange_len a b : length (arange a b) = b - a.
Proof. apply seq_length. Qed.
Lemma arange_In a b d : In d (arange a b) <-> a <= d < b.
Proof. unfold arange. rewrite in_seq. lia. Qed.

(** the four ranges of the numbering of C44 *)
Lemma ranges_right : forall coor dofs control ties iip nnode ndim t, periodic_input coor dofs control ties iip nnode ndim ->
  new_Periodic coor ndim dofs control ties iip = Ok t ->
  forall nnu nnp nnd, nnu = tp_nnu t -> nnp = tp_nnp t -> nnd = tp_nnd t ->
  right_report dofs (tp_dofs t) nnode ndim ties iip
    (mkReport nnu nnp (nnu + nnp) nnd (arange 0 nnu) (arange nnu (nnu + nnp)) (arange 0 (nnu + nnp)) (arange (nnu + nnp) (nnu + nnp + nnd))).
Proof.
  intros coor dofs control ties iip nnode ndim t H E nnu nnp nnd -> -> ->.
  destruct (C44_renumber _ _ _ _ _ _ _ H) as (t' & E' & _ & _ & _ & Ni & _ & _ & Hn & _ & _ & Hs).
  rewrite E in E'. injection E' as <-.
  split; cbn [r_nnu r_nnp r_nni r_nnd r_iiu r_iip r_iii r_iid].
  - rewrite !arange_len. lia.
  - repeat split; apply seq_NoDup.
  - intros d Hd. rewrite !arange_In in Hd. apply Hs. lia.
  - intros m i Hm Hi. destruct (Hn m i Hm Hi) as (H0 & H1 & H2). rewrite arange_In, <- H2. lia.
  - intros m i Hm Hi. destruct (Hn m i Hm Hi) as (H0 & H1 & H2). rewrite arange_In, <- H2. lia.
  - intros m i Hm Hi. destruct (Hn m i Hm Hi) as (H0 & H1 & H2). rewrite arange_In, <- H1. lia.
  - intros m i Hm Hi. destruct (Hn m i Hm Hi) as (H0 & H1 & H2). rewrite arange_In, <- H1, <- H2. lia.
Qed.

Lemma iip_arange t : tp_iip t = arange (tp_nnu t) (tp_nnu t + tp_nnp t).
Proof.
  unfold tp_iip, arange. replace (tp_nnu t + tp_nnp t - tp_nnu t) with (tp_nnp t) by lia.
  generalize (tp_nnu t) as s. induction (tp_nnp t) as [|n IH]; intro s; [reflexivity|].
  cbn [seq map]. f_equal. rewrite <- seq_shift, map_map. rewrite <- (IH (S s)). apply map_ext. intro. lia.
Qed.

(** what all objects of one set of tyings report *)
Lemma same_reports : forall coor dofs control ties iip nnode ndim t C Um Pm v vec, periodic_input coor dofs control ties iip nnode ndim ->
  new_Periodic coor ndim dofs control ties iip = Ok t -> Cdi t = Ok C -> Cdu t = Ok Um -> Cdp t = Ok Pm -> vec = mkVT v Um Pm C ->
  let c := mkReport (tp_nnu t) (tp_nnp t) (tp_nnu t + tp_nnp t) (tp_nnd t) (arange 0 (tp_nnu t)) (arange (tp_nnu t) (tp_nnu t + tp_nnp t))
     (arange 0 (tp_nnu t + tp_nnp t)) (arange (tp_nnu t + tp_nnp t) (tp_nnu t + tp_nnp t + tp_nnd t)) in
  cpp_Periodic t = c /\ cpp_Vector vec = c /\ forall a, PT_Cdu a = Um -> PT_Cdp a = Pm -> cpp_Matrix a = c.
Proof.
  intros coor dofs control ties iip nnode ndim t C Um Pm v vec H E EC EU EP -> c.
  destruct (C44_Cdu_Cdp _ _ _ _ _ _ _ H t E) as (C' & U' & P' & EC' & EU' & EP' & R1 & C1 & R2 & C2 & _).
  rewrite EU in EU'. injection EU' as <-. rewrite EP in EP'. injection EP' as <-.
  destruct (C44_renumber _ _ _ _ _ _ _ H) as (t' & E' & _ & _ & _ & Ni & _). rewrite E in E'. injection E' as <-.
  split; [|split].
  - unfold cpp_Periodic, c. rewrite iip_arange. unfold tp_iiu, tp_iii, tp_iid, arange. rewrite Ni. f_equal; f_equal; lia.
  - unfold cpp_Vector, c, vt_nni, vt_nnu, vt_nnp, vt_nnd. cbn [vt_Cdu vt_Cdp]. rewrite C1, C2, R2. reflexivity.
  - intros a A1 A2. unfold cpp_Matrix, c, PT_nni, PT_nnu, PT_nnp, PT_nnd. rewrite A1, A2, C1, C2, R2. reflexivity.
Qed.

(** C111, C++ (all objects) and Python (tyings and vector): the tyings, the vector and the matrix - also after
    it has been assembled: any matrix that has these Cdu and Cdp - report the same partition, and it is the right one *)
Theorem C111_report : forall coor dofs control ties iip nnode ndim t C Um Pm v, periodic_input coor dofs control ties iip nnode ndim ->
  new_Periodic coor ndim dofs control ties iip = Ok t -> Cdi t = Ok C -> Cdu t = Ok Um -> Cdp t = Ok Pm ->
  let vec := mkVT v Um Pm C in
  right_report dofs (tp_dofs t) nnode ndim ties iip (cpp_Periodic t) /\
  cpp_Vector vec = cpp_Periodic t /\
  (forall a, PT_Cdu a = Um -> PT_Cdp a = Pm -> cpp_Matrix a = cpp_Periodic t) /\
  py_Periodic t = cpp_Periodic t /\ py_Vector vec = cpp_Periodic t.
Proof.
  intros coor dofs control ties iip nnode ndim t C Um Pm v H E EC EU EP vec.
  destruct (same_reports _ _ _ _ _ _ _ t C Um Pm v vec H E EC EU EP eq_refl) as (S1 & S2 & S3).
  rewrite S1. split; [|split; [exact S2|split; [exact S3|split]]].
  - exact (ranges_right _ _ _ _ _ _ _ t H E _ _ _ eq_refl eq_refl eq_refl).
  - exact S1.
  - exact S2.
Qed.
Print Assumptions C111_report.

(** C111, Python matrix: the unknown and prescribed DOFs are right.  The independent DOFs are right only if nothing
    is prescribed, the number of dependent DOFs only if it is that of the prescribed ones, and the dependent DOFs
    only if there are no dependent and no prescribed DOFs: a matrix with tyings that are tyings is never right *)
Theorem C111_python_matrix_partial : forall coor dofs control ties iip nnode ndim t C Um Pm a, periodic_input coor dofs control ties iip nnode ndim ->
  new_Periodic coor ndim dofs control ties iip = Ok t -> Cdi t = Ok C -> Cdu t = Ok Um -> Cdp t = Ok Pm -> PT_Cdu a = Um -> PT_Cdp a = Pm ->
  let m := py_Matrix a in let p := py_Periodic t in
  r_nnu m = r_nnu p /\ r_nnp m = r_nnp p /\ r_iiu m = r_iiu p /\ r_iip m = r_iip p /\
  (r_nni m = r_nni p <-> iip = []) /\ (r_iii m = r_iii p <-> iip = []) /\
  (r_nnd m = r_nnd p <-> length iip = length ties * ndim) /\ (r_iid m = r_iid p <-> iip = [] /\ length ties * ndim = 0).
Proof.
  intros coor dofs control ties iip nnode ndim t C Um Pm a H E EC EU EP A1 A2 m p.
  destruct (same_reports _ _ _ _ _ _ _ t C Um Pm (mkVector [] 0 [] 0) _ H E EC EU EP eq_refl) as (S1 & _ & S3).
  destruct (C44_renumber _ _ _ _ _ _ _ H) as (t' & E' & _ & _ & Np & _ & Nd & _). rewrite E in E'. injection E' as <-.
  unfold m, p, py_Matrix, py_Periodic. rewrite (S3 a A1 A2), S1. cbn [r_nnu r_nnp r_nni r_nnd r_iiu r_iip r_iii r_iid].
  assert (L0 : iip = [] <-> tp_nnp t = 0).
  { rewrite Np. destruct iip; cbn [length]; split; intro K; try reflexivity; try discriminate K. }
  rewrite <- Np, <- Nd, L0. do 4 (split; [reflexivity|]).
  split; [lia|]. split; [split; intro K|split; [lia|split; intro K]].
  - apply (f_equal (@length _)) in K. rewrite !arange_len in K. lia.
  - rewrite K. now rewrite Nat.add_0_r.
  - apply (f_equal (@length _)) in K as L. rewrite !arange_len in L. unfold arange in K.
    replace (tp_nnu t + tp_nnp t - tp_nnu t) with (tp_nnp t) in K by lia.
    replace (tp_nnu t + tp_nnp t + tp_nnd t - (tp_nnu t + tp_nnp t)) with (tp_nnd t) in K by lia.
    destruct (tp_nnp t) as [|k], (tp_nnd t) as [|n]; try discriminate K; [split; reflexivity|].
    cbn [seq] in K. injection K as K _. lia.
  - destruct K as [-> ->]. unfold arange. now rewrite !Nat.add_0_r, !Nat.sub_diag.
Qed.
Print Assumptions C111_python_matrix_partial.

(** the tyings of C44_ex: DOFs 0 - 3 unknown, 4 - 5 prescribed, 6 - 7 dependent.  The Python matrix says that the
    independent DOFs are 0 - 3 and the dependent ones 4 - 5; 6 and 7 are in neither list *)
Theorem C111_python_matrix_refuted : exists coor dofs control ties iip nnode ndim t C Um Pm v,
  periodic_input coor dofs control ties iip nnode ndim /\ new_Periodic coor ndim dofs control ties iip = Ok t /\
  Cdi t = Ok C /\ Cdu t = Ok Um /\ Cdp t = Ok Pm /\
  let r := py_Matrix (new_MatrixTyings v Um Pm) in
  ~ right_report dofs (tp_dofs t) nnode ndim ties iip r /\
  r_iii r = [0; 1; 2; 3] /\ r_iid r = [4; 5] /\ r_iid (py_Periodic t) = [6; 7] /\ r_iii (py_Periodic t) = [0; 1; 2; 3; 4; 5].
Proof.
  destruct (C44_ex) as (t & E & D & K & N1 & N2 & N3).
  destruct (C44_Cdu_Cdp _ _ _ _ _ _ _ C44_ex_input t E) as (C & Um & Pm & EC & EU & EP & R1 & C1 & R2 & C2 & _).
  do 7 eexists. exists t, C, Um, Pm, (mkVector [] 0 [] 0). split; [exact C44_ex_input|]. split; [exact E|].
  split; [exact EC|]. split; [exact EU|]. split; [exact EP|].
  assert (Er : py_Matrix (new_MatrixTyings (mkVector [] 0 [] 0) Um Pm) = mkReport 4 2 4 2 [0;1;2;3] [4;5] [0;1;2;3] [4;5]).
  { unfold py_Matrix, cpp_Matrix, PT_nni, PT_nnu, PT_nnp, PT_nnd. cbn [new_MatrixTyings PT_Cdu PT_Cdp]. rewrite C1, C2, R2, N1, N2, N3. reflexivity. }
  cbv zeta. rewrite Er. split; [|split; [|split; [|split]]]; try reflexivity.
  - intros [_ _ _ Hd _ _ _]. cbn [r_iid] in Hd. pose proof (Hd 1 0 ltac:(lia) ltac:(lia)) as [_ H1].
    rewrite D in H1. cbn in H1. assert (X : 4 = 6 \/ 5 = 6 \/ False); [|lia]. apply H1.
    exists 0, 1, 0. split; [left; reflexivity|]. split; [lia|reflexivity].
  - destruct (same_reports _ _ _ _ _ _ _ t C Um Pm (mkVector [] 0 [] 0) _ C44_ex_input E EC EU EP eq_refl) as (S1 & _).
    unfold py_Periodic. rewrite S1, N1, N2, N3. reflexivity.
  - destruct (same_reports _ _ _ _ _ _ _ t C Um Pm (mkVector [] 0 [] 0) _ C44_ex_input E EC EU EP eq_refl) as (S1 & _).
    unfold py_Periodic. rewrite S1, N1, N2, N3. reflexivity.
Qed.
Print Assumptions C111_python_matrix_refuted.
