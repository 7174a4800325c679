(** A concrete case for the patch test: 2 x 2 elements, Gauss integration, one unknown DOF. *)
From Coq Require Import Reals Lra Lia.
From Verif Require Import Model_Element Spec_Element Proof_Element Proof_ElementQuad4 Proof_ElementMath Base Spec Sums Spec_Vector Spec_Matrix Spec_MatrixOps Model_Numbering Model_Vector Model_VectorPartitioned
  Model_Sparse Model_Matrix Model_MatrixPartitioned Model_MeshGeometry Model_Regular2d Model_Pipeline Spec_Pipeline Spec_Patch
  Proof_Vector Proof_Numbering Proof_Matrix Proof_MatrixPartitioned Prop_MatrixPartitioned Proof_Regular2d Proof_PipelineElem Proof_Pipeline Proof_PipelineBalance Proof_PipelineEx Prop_Pipeline
  Proof_Patch Proof_PatchRigid Proof_PatchRegular Prop_Patch.

Definition p4 : Regular := mkRegular 2 2 1.
Definition p4_x : arr := fun k => match k with [e;m;i] => val2 (coor p4) (idx2 (conn p4) e m) i | _ => 0%R end.
Definition p4_Q : Quadrature := Quad4_new [2;0;3;1] 4 p4_x 4 (Gauss4_xi junk) (Gauss4_w junk) junk junk junk junk junk.
Definition p4_E : Elem := Quad4_elem p4_Q.
Definition p4_v : Vector := mkVector (conn p4) 4 (dofs 9 2) 2.
(** all DOFs but the vertical displacement of the node in the centre *)
Definition p4_iip : list nat := [0;1;2;3;4;5;6;7;8;10;11;12;13;14;15;16;17].
Definition p4_call : call := mkCall [3;1;2;0] junk.

Lemma p4_sched l : Permutation l [0;1;2;3] -> schedule 4 l.
Proof. intros H. exact H. Qed.
Lemma p4_valid : valid_call 4 p4_call.
Proof. apply p4_sched. cbn [c_es p4_call]. apply NoDup_Permutation; [repeat constructor; cbn; lia|repeat constructor; cbn; lia|]. intros k. cbn. tauto. Qed.
Lemma p4_obj : Quad4_obj (nelem p4) 4 (Gauss4_xi junk) (Gauss4_w junk) p4_x p4_Q.
Proof. apply Quad4_obj_new. apply NoDup_Permutation; [repeat constructor; cbn; lia|apply seq_NoDup|]. intros k. cbn. tauto. Qed.
Lemma p4_on : on_mesh (conn p4) (nelem p4) (coor p4) p4_x.
Proof. intros e m i He Hm Hi. reflexivity. Qed.
Lemma p4_elem : elem_obj 4 p4_x p4_E.
Proof. econstructor. exact p4_obj. Qed.
Lemma p4_patch : patch_obj 4 p4_x p4_E.
Proof.
  apply (patch_Quad4 _ _ _ _ _ _ p4_obj (centred_Gauss _ _)). intros e q He Hq. rewrite (regular_jac p4 p4_x e _ p4_on He). cbn. lra.
Qed.
Lemma p4_mesh : mesh_dofs (conn p4) (dofs 9 2) 4 4 9 2 18.
Proof. exact (regular_mesh_dofs p4). Qed.
Lemma p4_holes : no_holes (dofs 9 2) 18.
Proof. exact (dofs_no_holes 9 2). Qed.
Lemma p4_prescribed : prescribed 18 p4_iip.
Proof. split; [repeat constructor; cbn; lia|]. cbn. lia. Qed.
Lemma Isym_elastic nelem Q : strictly_elastic nelem (Quad4_elem Q) Isym.
Proof.
  intros A e q He Hq energy.
  set (a := A [e;q;0;0]). set (b := A [e;q;0;1]). set (c := A [e;q;1;0]). set (d := A [e;q;1;1]).
  assert (Ee : energy = (a * a + d * d + (b + c) * (b + c) / 2)%R).
  { unfold energy. cbn [Quad4_elem el_tdim]. unfold sumn, sumL, ddot42, sumn, sumL. cbn [seq fold_right]. unfold Isym, ind. cbn [Nat.eqb andb]. fold a b c d. field. }
  rewrite Ee. clear Ee energy.
  pose proof (Rle_0_sqr a) as Ha. pose proof (Rle_0_sqr d) as Hd. pose proof (Rle_0_sqr (b + c)) as Hb. unfold Rsqr in *. split; [lra|]. intros Z.
  assert (a = 0)%R by (apply Rsqr_0_uniq; unfold Rsqr; lra). assert (d = 0)%R by (apply Rsqr_0_uniq; unfold Rsqr; lra). assert (b + c = 0)%R by (apply Rsqr_0_uniq; unfold Rsqr; lra).
  intros i j Hi Hj. cbn in Hi, Hj. destruct i as [|[|i]]; try lia; destruct j as [|[|j]]; try lia; fold a b c d; lra.
Qed.
Lemma p4_stable : no_mechanism p4_v 4 18 p4_E Isym p4_iip.
Proof.
  apply (C87_regular_mesh p4 ltac:(cbn; lia) ltac:(cbn; lia) ltac:(cbn; lra) junk junk p4_x p4_Q Isym p4_iip p4_obj p4_on (Isym_elastic _ _)).
  - intros n Hn. cbn in Hn. destruct Hn as [<-|[<-|[<-|[]]]]; cbn; lia.
  - cbn. lia.
Qed.

(** one unknown: division solves the system *)
Lemma one_unknown K0 K K' c : new_MatrixPartitioned p4_v p4_iip = Ok K0 -> MP_p K = MP_p K0 -> valid_call 4 c -> MP_assemble K (element_stiffness p4_v p4_E c Isym) = Ok K' -> solves div1 (A_uu K').
Proof.
  intros E0 Ep Hc Ea. pose proof (Quad4_raw _ _ _ _ _ _ p4_obj) as Ho. pose proof (K_shape p4_v p4_E 4 9 18 eq_refl eq_refl p4_mesh _ Ho c Isym) as SK.
  destruct (assemble_step p4_v p4_E 4 9 18 eq_refl eq_refl p4_mesh _ Ho p4_iip p4_prescribed p4_holes div1 [] K0 K0 new_Solver _ (Forall_nil _) E0 eq_refl SK) as [K1 [E1 [[_ H1] _]]].
  assert (EA : A_uu K' = A_uu K1).
  { clear H1 E0. revert Ea E1. unfold MP_assemble. rewrite Ep. destruct (elemmat_triplets _ _ _); cbn [bind]; try discriminate.
    destruct (part_blocks _ _); cbn [bind]; try discriminate. intros [= <-] [= <-]. reflexivity. }
  rewrite EA. clear Ea EA E1. destruct H1 as [[[R1 [C1 _]] _] V1 _ _ _].
  apply solves1; [rewrite R1; reflexivity|rewrite C1; reflexivity|]. rewrite V1 by (cbn; lia).
  change (nth 0 (setdiff1d (concat (m_dofs p4_v)) p4_iip) 0) with 9.
  (* the entry is the energy of a unit displacement *)
  set (y := tab1 18 (fun d => ind (d =? 9))).
  assert (Ly : length y = 18) by apply tab1_length. assert (Vy : forall d, d < 18 -> val1 y d = ind (d =? 9)) by (intros d Hd; unfold val1, y; now apply (tab1_nth 0%R 18 (fun d => ind (d =? 9)))).
  destruct (AsElement_dofval_spec p4_v 4 4 9 2 18 eq_refl eq_refl p4_mesh y Ly) as [Y [EY _]].
  destruct (assemble_spec p4_v 4 4 9 2 18 eq_refl eq_refl p4_mesh (new_Matrix p4_v) _ eq_refl SK) as [M [EM [VM [_ [RM [CM HM]]]]]].
  destruct (K_energy p4_v p4_E 4 9 18 eq_refl eq_refl p4_mesh _ Ho c c Isym y Y (new_Matrix p4_v) M Hc Hc eq_refl EM Ly EY) as [b [Eb En]].
  destruct (dot_dofval_spec p4_v 4 4 9 2 18 eq_refl eq_refl p4_mesh M y VM RM CM Ly) as [b' [Eb' [_ Hb]]]. rewrite Eb in Eb'. injection Eb' as <-.
  intros Z.
  assert (N : forall d, d < 18 -> val1 y d = 0%R).
  { apply (p4_stable c y Y Hc Ly); [|exact EY|].
    - intros d Hd. rewrite Vy by (apply (proj2 p4_prescribed d Hd)). destruct (Nat.eqb_spec d 9) as [->|]; [|reflexivity]. cbn in Hd. lia.
    - rewrite <- En. rewrite (sumn_ext 18 _ (fun d => ind (d =? 9)%nat * val1 b d)%R) by (intros d Hd; now rewrite Vy). rewrite sumn_delta by lia.
      rewrite Hb by lia. unfold mv. rewrite (sumn_ext 18 _ (fun d => ind (d =? 9)%nat * ent (M_A M) 9 d)%R) by (intros d Hd; rewrite Vy by assumption; ring). rewrite sumn_delta by lia.
      rewrite HM. exact Z. }
  specialize (N 9 ltac:(lia)). rewrite Vy in N by lia. unfold ind in N. cbn in N. lra.
Qed.

Definition p4_mem : run_memory := {| r_eps0 := p4_call; r_f0 := p4_call; r_K := p4_call; r_eps1 := p4_call; r_f1 := p4_call; r_order := list_prod (seq 0 9) (seq 0 2) |}.
Lemma p4_memory : valid_memory 4 9 2 p4_mem.
Proof. repeat apply conj; try exact p4_valid. reflexivity. Qed.
Lemma p4_nodal (g : nat -> nat -> R) : nodal (dofs 9 2) 9 2 (tab2 9 2 g).
Proof.
  split; [apply tab2_shape|]. intros m i n j Hm Hi Hn Hj E. destruct (proj1 (C86_regular_mesh p4 m Hm) i n j Hi Hn Hj (eq_sym E)) as [-> ->]. reflexivity.
Qed.
Lemma p4_val (g : nat -> nat -> R) n i : n < 9 -> i < 2 -> val2 (tab2 9 2 g) n i = g n i.
Proof. intros Hn Hi. unfold val2. now apply tab2_nth. Qed.

(** all hypotheses of C86_patch are met, and the program gives the affine displacement in the centre: (1 + 2 x - y) vertically *)
Example C86_ex : exists K0 p, new_MatrixPartitioned p4_v p4_iip = Ok K0 /\ new_VectorPartitioned p4_v p4_iip = Ok p /\
  let aff (n i : nat) := ((if i =? 0 then 0 else 1) + sumn 2 (fun j => (if i =? 0 then 1 else if j =? 0 then 2 else -1) * val2 (coor p4) n j))%R in
  let bc := tab2 9 2 (fun n i => if ((n =? 4) && (i =? 1))%bool then 0%R else aff n i) in
  exists disp fint fext' fres, statics div1 p4_mem p K0 new_Solver p4_E (ddot42 2 Isym) Isym (tab2 9 2 (fun _ _ => 0%R)) (tab2 9 2 (fun _ _ => 0%R)) bc = Ok (disp, fint, fext', fres) /\
    val2 disp 4 1 = 2%R.
Proof.
  destruct (mp_new p4_v 4 4 9 2 18 eq_refl eq_refl p4_mesh p4_iip p4_prescribed p4_holes) as [K0 [E0 [[[Ep _] _] _]]].
  exists K0, (MP_p K0). split; [exact E0|]. split; [exact Ep|]. intros aff bc.
  destruct (C86_patch (conn p4) (dofs 9 2) 4 9 18 (coor p4) p4_x p4_E p4_iip p4_patch p4_mesh p4_on p4_prescribed p4_holes div1 [] K0 K0 new_Solver (MP_p K0) (Forall_nil _) E0 eq_refl Ep
    p4_mem Isym (tab2 9 2 (fun _ _ => 0%R)) (tab2 9 2 (fun _ _ => 0%R)) bc p4_memory (Isym_minor _ _)) with (a := fun i => (if i =? 0 then 0 else 1)%R) (G := fun i j => (if i =? 0 then 1 else if j =? 0 then 2 else -1)%R)
    as [disp [fint [fext' [fres [Er [Sd Vd]]]]]].
  - exists (fun i j k l => Isym [0;0;i;j;k;l]). intros e q i j He Hq Hi Hj k l Hk Hl. reflexivity.
  - exact p4_stable.
  - intros K'. now apply (one_unknown K0 K0), p4_valid.
  - apply p4_nodal.
  - apply p4_nodal.
  - apply tab2_shape.
  - intros n j Hn Hj. now apply p4_val.
  - intros n i Hn Hi Hin. unfold bc. rewrite p4_val by assumption. destruct (Nat.eqb_spec n 4) as [->|]; [|reflexivity]. destruct (Nat.eqb_spec i 1) as [->|]; [|reflexivity]. cbn in Hin. lia.
  - intros n i Hn Hi Hin. split; [now apply p4_val|]. split; [|apply (C86_regular_mesh p4 n Hn)].
    assert (n = 4) as ->.
    { destruct i as [|[|i]]; [| |lia]; do 9 (destruct n as [|n]; [try reflexivity; cbn in Hin; lia|]); lia. }
    apply (C86_regular_mesh p4 4); cbn; lia.
  - exists disp, fint, fext', fres. split; [exact Er|]. rewrite Vd by lia. unfold sumn, sumL. cbn [seq fold_right Nat.eqb].
    assert (X : nth_error (coor p4) 4 = Some [(1 * INR 1)%R; (1 * INR 1)%R]) by (apply (coor_at p4 1 1); cbn; lia). unfold val2, nth2. rewrite (nth_error_nth _ _ _ X). cbn [nth INR]. lra.
Qed.

(** a material and a mesh without mechanism; and a mechanism for a single integration point: the hourglass *)
Example C87_ex : strictly_elastic 4 p4_E Isym /\ no_mechanism p4_v 4 18 p4_E Isym p4_iip /\ full_obj 4 p4_x p4_E /\ ~ not_on_a_line 1 (MidPoint4_xi junk) /\
  ~ rigid p4_x (fun k => match k with [_;m;0] => if Nat.even m then 1%R else (-1)%R | _ => 0%R end) 0.
Proof.
  split; [apply Isym_elastic|]. split; [exact p4_stable|]. split; [|split].
  - apply (full_Quad4 _ 4 (Gauss4_xi junk) (Gauss4_w junk) p4_x p4_Q p4_obj (line_Gauss _)). intros e q He Hq. rewrite (f_vol (Quad4_facts _ _ _ _ _ _ p4_obj)) by assumption.
    rewrite (regular_jac p4 p4_x e _ p4_on He). assert (W : Gauss4_w junk [q] = 1%R) by (revert q Hq; apply lt4; unfold Gauss4_w; blk; reflexivity). rewrite W. cbn. lra.
  - intros H. destruct (H 0 1 0)%R as [_ [A _]]; [|lra]. intros q Hq. assert (q = 0) as -> by lia. unfold MidPoint4_xi. blk. lra.
  - intros [s [t [r H]]]. pose proof (H 0 ltac:(lia)) as [A _]. pose proof (H 1 ltac:(lia)) as [B _]. cbn [Nat.even] in A, B.
    unfold p4_x in A, B. destruct (regular_coor p4 0 ltac:(cbn; lia)) as [jx [jy [_ [_ [_ V]]]]]. rewrite V in A, B by lia. lra.
Qed.
