(** Matrices with tyings, without a condition on holes in the numbering of the DOFs. *)
From Coq Require Import Reals Lra.
From Verif Require Import Base Spec Sums Spec_Vector Spec_Matrix Spec_Tyings Model_Numbering Proof_Numbering Model_Vector Proof_Vector Proof_Vector2 Model_Sparse
  Model_VectorPartitioned Proof_VectorPartitioned Model_Tyings Proof_Tyings Proof_Tyings2 Model_Matrix Spec_MatrixOps Model_MatrixPartitioned Proof_Matrix
  Proof_MatrixPartitioned Model_MatrixTyings Spec_MatrixTyings.
From Verif Require Import Proof_Misc Model_Misc Model_Checked Spec_Checked Proof_Checked Model_CheckedMatrix Spec_CheckedMatrix Proof_CheckedMatrix Model_CheckedMatrixTyings Spec_CheckedMatrixTyings.
From Verif Require Import Proof_MatrixTyings.

Lemma solve_dofval_eq (linsolve : mat -> list R -> list R) a s b x : PT_solve_dofval a linsolve s b x =
  do w <- PT_factorize a s; do B_u <- PT_u_dofval a b; do B_d <- PT_d_dofval a b; do X_p <- PT_p_dofval a x;
  do X_u <- PT_core linsolve w B_u X_p; do X_d <- PT_X_d a X_u X_p;
  do y <- (do wu <- index_writes (PT_ii a U) X_u; do y <- write_all x wu; do wd <- index_writes (PT_ii a D) X_d; write_all y wd);
  Ok (y, snd w, fst w).
Proof.
  unfold PT_solve_dofval. destruct (PT_factorize a s); cbn [bind]; try reflexivity. destruct (PT_u_dofval a b); cbn [bind]; try reflexivity.
  destruct (PT_d_dofval a b); cbn [bind]; try reflexivity. destruct (PT_p_dofval a x); cbn [bind]; try reflexivity.
  destruct (PT_core _ _ _ _) as [X| | |]; cbn [bind]; try reflexivity. destruct (PT_X_d a X _) as [Z| | |]; cbn [bind]; try reflexivity.
  destruct (index_writes (PT_ii a U) X); cbn [bind]; try reflexivity. destruct (write_all x _); cbn [bind]; try reflexivity.
  destruct (index_writes (PT_ii a D) Z); cbn [bind]; reflexivity.
Qed.

Section T.
Set Default Proof Using "All".
Variable v : Vector.
Variables nelem nne nnode ndim ndof : nat.
Hypothesis Hne : m_nne v = nne.
Hypothesis Hnd : m_ndim v = ndim.
Hypothesis Hmd : mesh_dofs (m_conn v) (m_dofs v) nelem nne nnode ndim ndof.
Variables Cu Cp : mat.
Variables nnu nnp nnd : nat.
Hypothesis Hts : tying_sizes Cu Cp nnu nnp nnd.
Hypothesis Hn : nnu + nnp + nnd = ndof.
Notation dof := (idx2 (m_dofs v)).
Notation node := (idx2 (m_conn v)).
Notation asm := (assembled (m_conn v) (m_dofs v) nelem nne ndim).
Notation nni := (nnu + nnp).
Notation T := (tie nnu nni Cu Cp).

Definition sz (q : part) : nat := match q with U => nnu | P => nnp | D => nnd end.
Definition off (q : part) : nat := match q with U => 0 | P => nnu | D => nni end.

Record pt_is (a : MatrixTyings) (A : nat -> nat -> R) : Prop := {
  pt_v : PT_v a = v; pt_u : PT_Cdu a = Cu; pt_p : PT_Cdp a = Cp;
  pt_r : forall p q, rows (PT_A a p q) = sz p; pt_c : forall p q, cols (PT_A a p q) = sz q;
  pt_e : forall p q i j, i < sz p -> j < sz q -> ent (PT_A a p q) i j = A (off p + i) (off q + j) }.

Lemma pt_sizes a A : pt_is a A -> PT_nnu a = nnu /\ PT_nnp a = nnp /\ PT_nnd a = nnd /\ PT_nni a = nni /\ PT_ndof a = ndof.
Proof.
  intro H. unfold PT_ndof, PT_nni, PT_nnu, PT_nnp, PT_nnd. rewrite (pt_u a A H), (pt_p a A H).
  rewrite (ts_nnu _ _ _ _ _ Hts), (ts_nnp _ _ _ _ _ Hts), (ts_nnd' _ _ _ _ _ Hts). auto.
Qed.
Lemma pt_sz a A q : pt_is a A -> PT_size a q = sz q.
Proof. intro H. destruct (pt_sizes a A H) as [H1 [H2 [H3 _]]]. destruct q; cbn; assumption. Qed.
Lemma pt_off a A q : pt_is a A -> PT_off a q = off q.
Proof. intro H. destruct (pt_sizes a A H) as [H1 [_ [_ [H4 _]]]]. destruct q; cbn; try assumption; reflexivity. Qed.
Lemma pt_ii a A q : pt_is a A -> PT_ii a q = seq (off q) (sz q).
Proof. intro H. unfold PT_ii. now rewrite (pt_off a A q H), (pt_sz a A q H). Qed.
Lemma off_lt q i : i < sz q -> off q + i < ndof.
Proof. destruct q; cbn; lia. Qed.

Theorem pt_new : pt_is (new_MatrixTyings v Cu Cp) (fun _ _ => 0%R).
Proof.
  pose proof (ts_nnu _ _ _ _ _ Hts). pose proof (ts_nnp _ _ _ _ _ Hts). pose proof (ts_nnd' _ _ _ _ _ Hts).
  split; try reflexivity; intros p q; destruct p, q; cbn; assumption.
Qed.

(** ** assemble *)
Lemma branch_spec a A di dj p q : pt_is a A ->
  (same (fst (branch a di dj)) p && same (snd (branch a di dj)) q = true -> di < ndof -> dj < ndof -> off p <= di < off p + sz p /\ off q <= dj < off q + sz q) /\
  (forall i j, i < sz p -> j < sz q -> di = off p + i -> dj = off q + j -> same (fst (branch a di dj)) p && same (snd (branch a di dj)) q = true).
Proof.
  intro H. destruct (pt_sizes a A H) as [H1 [_ [_ [H4 _]]]]. unfold branch. rewrite H1, H4.
  destruct (Nat.ltb_spec di nnu), (Nat.ltb_spec dj nnu), (Nat.ltb_spec di nni), (Nat.ltb_spec dj nni); try lia; cbn [andb fst snd];
    destruct p, q; cbn [same andb sz off]; split; intros; try discriminate; try lia; reflexivity.
Qed.

Lemma tblock_spec a A p q ts : pt_is a A -> (forall t, In t ts -> trow t < ndof /\ tcol t < ndof) ->
  exists m, tblock a p q ts = Ok m /\ rows m = sz p /\ cols m = sz q /\ forall i j, i < sz p -> j < sz q -> ent m i j = entT ts (off p + i) (off q + j).
Proof.
  intros H Hb. unfold tblock. rewrite (pt_sz a A p H), (pt_sz a A q H), (pt_off a A p H), (pt_off a A q H). apply sel_Ok.
  - intros t Ht Hs. destruct (Hb t Ht). now apply (proj1 (branch_spec a A (trow t) (tcol t) p q H)).
  - intros i j Hi Hj. now apply (proj2 (branch_spec a A (off p + i) (off q + j) p q H) i j).
Qed.

Theorem pt_assemble a A K : pt_is a A -> shape3 K nelem (nne * ndim) (nne * ndim) ->
  exists a', PT_assemble a K = Ok a' /\ pt_is a' (asm K) /\ PT_changed a' = true.
Proof.
  intros H HK. unfold PT_assemble. rewrite (pt_v a A H).
  destruct (elemmat_triplets_spec v nelem nne nnode ndim ndof (elem_dof v) (fun e m i => dof (node e m) i) ndof K Hne Hnd Hmd) as [ts [E [Hb Hs]]].
  - intros e m i He Hm Hi. split; [now apply (V_elem_dof v nelem nne nnode ndim ndof Hne Hnd Hmd)|].
    apply (V_dof v nelem nne nnode ndim ndof Hne Hnd Hmd); [now apply (V_node v nelem nne nnode ndim ndof Hne Hnd Hmd)|exact Hi].
  - exact HK.
  - rewrite E. cbn [bind].
    assert (Es : forall r c, entT ts r c = asm K r c).
    { intros r c. unfold entT. rewrite (Hs (fun x y => ind ((x =? r) && (y =? c))%nat)). unfold assembled, sum_elem.
      apply sumn_ext. intros e He. apply sumn_ext. intros m Hm. apply sumn_ext. intros i Hi. apply sumn_ext. intros n Hn'. apply sumn_ext. intros j Hj.
      rewrite ind_and. lra. }
    destruct (tblock_spec a A U U ts H Hb) as [uu [-> U1]]. cbn [bind].
    destruct (tblock_spec a A U P ts H Hb) as [up [-> U2]]. cbn [bind].
    destruct (tblock_spec a A P U ts H Hb) as [pu [-> U3]]. cbn [bind].
    destruct (tblock_spec a A P P ts H Hb) as [pp [-> U4]]. cbn [bind].
    destruct (tblock_spec a A U D ts H Hb) as [ud [-> U5]]. cbn [bind].
    destruct (tblock_spec a A P D ts H Hb) as [pd [-> U6]]. cbn [bind].
    destruct (tblock_spec a A D U ts H Hb) as [du [-> U7]]. cbn [bind].
    destruct (tblock_spec a A D P ts H Hb) as [dp [-> U8]]. cbn [bind].
    destruct (tblock_spec a A D D ts H Hb) as [dd [-> U9]]. cbn [bind].
    eexists. split; [reflexivity|]. split; [|reflexivity]. split; cbn [PT_v PT_Cdu PT_Cdp PT_A].
    + reflexivity. + exact (pt_u a A H). + exact (pt_p a A H).
    + intros [] []; tauto.
    + intros [] []; tauto.
    + intros p q i j Hi Hj. rewrite <- Es. destruct p, q; firstorder.
Qed.

(** ** dense *)
Lemma seq_nth_error o n k d : nth_error (seq o n) k = Some d <-> k < n /\ d = o + k.
Proof.
  split.
  - intro H. pose proof (In_nth_error_lt _ _ _ H) as L. rewrite seq_length in L. split; [exact L|]. apply (nth_error_nth _ _ 0) in H. rewrite seq_nth in H by exact L. lia.
  - intros [H ->]. rewrite (nth_error_nth' _ 0) by (now rewrite seq_length). now rewrite seq_nth.
Qed.

Lemma part_of d : d < ndof -> exists q i, i < sz q /\ d = off q + i.
Proof.
  intro H. destruct (le_lt_dec nni d); [exists D, (d - nni); cbn; lia|]. destruct (le_lt_dec nnu d); [exists P, (d - nnu)|exists U, d]; cbn; lia.
Qed.
Lemma part_inj p q i j : i < sz p -> j < sz q -> off p + i = off q + j -> p = q /\ i = j.
Proof. destruct p, q; cbn; intros; split; try reflexivity; lia. Qed.

Lemma dense_loop a A : pt_is a A -> forall l z, shape2 z ndof ndof ->
  exists z', foldM (fun z pq => do w <- dense_writes (get (PT_ii a (fst pq))) (get (PT_ii a (snd pq))) (PT_A a (fst pq) (snd pq)); write2_all z w) l z = Ok z' /\
    shape2 z' ndof ndof /\ forall p q i j, i < sz p -> j < sz q -> val2 z' (off p + i) (off q + j) =
      if existsb (fun pq => same (fst pq) p && same (snd pq) q) l then A (off p + i) (off q + j) else val2 z (off p + i) (off q + j).
Proof.
  intros H. induction l as [|[p0 q0] l IH]; intros z Sz; cbn [foldM].
  - exists z. split; [reflexivity|]. split; [exact Sz|]. reflexivity.
  - cbn [fst snd]. rewrite (pt_ii a A p0 H), (pt_ii a A q0 H).
    destruct (dense_block (seq (off p0) (sz p0)) (seq (off q0) (sz q0)) (PT_A a p0 q0) z ndof) as [z1 [E1 [S1 [I1 O1]]]].
    + rewrite seq_length. apply H. + rewrite seq_length. apply H. + apply seq_NoDup. + apply seq_NoDup.
    + intros d Hd. apply in_seq in Hd. destruct p0; cbn in *; lia.
    + intros d Hd. apply in_seq in Hd. destruct q0; cbn in *; lia.
    + exact Sz.
    + destruct (dense_writes _ _ _) as [w1| | |]; try discriminate. cbn [bind] in *. rewrite E1. cbn [bind]. destruct (IH z1 S1) as [z' [E [S' V]]]. exists z'. split; [exact E|]. split; [exact S'|].
      intros p q i j Hi Hj. rewrite V by assumption. cbn [existsb fst snd].
      assert (X : (exists i' j', i' < sz p0 /\ j' < sz q0 /\ off p + i = off p0 + i' /\ off q + j = off q0 + j') <-> same p0 p && same q0 q = true).
      { split.
        - intros [i' [j' [Hi' [Hj' [E3 E4]]]]]. destruct (part_inj p p0 i i' Hi Hi' E3) as [-> _]. destruct (part_inj q q0 j j' Hj Hj' E4) as [-> _]. now destruct p0, q0.
        - intro E3. assert (p0 = p /\ q0 = q) as [-> ->] by (destruct p0, p, q0, q; try discriminate; auto). eauto 10. }
      destruct (same p0 p && same q0 q) eqn:Es.
      * cbn [orb]. destruct (proj2 X eq_refl) as [i' [j' [Hi' [Hj' [E3 E4]]]]].
        rewrite (I1 i' j'); [|apply seq_nth_error; auto|apply seq_nth_error; auto]. rewrite (pt_e a A H) by assumption. rewrite E3, E4. now destruct (existsb _ l).
      * cbn [orb]. destruct (existsb _ l); [reflexivity|]. apply O1; [now apply off_lt|now apply off_lt|]. intros [Y1 Y2].
        rewrite in_seq in Y1, Y2. assert (F : false = true); [|discriminate]. apply X. exists (off p + i - off p0), (off q + j - off q0). lia.
Qed.

Theorem pt_todense a A : pt_is a A -> exists dn, PT_todense a = Ok dn /\ is_dense ndof dn A.
Proof.
  intro H. unfold PT_todense. destruct (pt_sizes a A H) as [_ [_ [_ [_ ->]]]].
  set (z := repeat (repeat 0%R ndof) ndof).
  assert (S0 : shape2 z ndof ndof).
  { split; [apply repeat_length|]. intros r Hx. apply repeat_spec in Hx. rewrite Hx. apply repeat_length. }
  destruct (dense_loop a A H [(U, U); (U, P); (P, U); (P, P); (D, U); (D, P); (U, D); (P, D); (D, D)] z S0) as [z' [E [S' V]]].
  exists z'. split; [exact E|]. split; [exact S'|]. intros r c Hr Hc.
  destruct (part_of r Hr) as [p [i [Hi ->]]]. destruct (part_of c Hc) as [q [j [Hj ->]]]. rewrite V by assumption. now destruct p, q.
Qed.

Lemma range_dofval o n x : o + n <= length x ->
  exists y, fill1 n (fun d => do k <- get (seq o n) d; get x k) = Ok y /\ length y = n /\ forall k, k < n -> val1 y k = val1 x (o + k).
Proof.
  intro L. rewrite (fill1_Ok _ _ (fun d => val1 x (o + d))).
  - eexists. split; [reflexivity|]. split; [apply tab1_length|]. intros k Hk. unfold val1 at 1. now rewrite tab1_nth.
  - intros d Hd. rewrite (get_nth 0) by now rewrite seq_length. cbn [bind]. rewrite seq_nth by exact Hd. now apply get_nth; lia.
Qed.

(** ** the condensed system *)
Lemma tie_sum f i : i < nni -> sumn ndof (fun a => T a i * f a)%R = (f i + sumn nnd (fun k => T (nni + k) i * f (nni + k)%nat))%R.
Proof.
  intro Hi. rewrite <- Hn. rewrite sumn_app. f_equal.
  rewrite (sumn_ext _ _ (fun a => ind (a =? i)%nat * f a)%R); [now apply sumn_delta|].
  intros a Ha. unfold tie. now destruct (Nat.ltb_spec a nni); [|lia].
Qed.

Lemma tie_u k i : i < nnu -> T (nni + k) i = ent Cu k i.
Proof. intro H. unfold tie. destruct (Nat.ltb_spec (nni + k) nni); [lia|]. destruct (Nat.ltb_spec i nnu); [|lia]. f_equal. lia. Qed.
Lemma tie_p k i : T (nni + k) (nnu + i) = ent Cp k i.
Proof. unfold tie. destruct (Nat.ltb_spec (nni + k) nni); [lia|]. destruct (Nat.ltb_spec (nnu + i) nnu); [lia|]. f_equal; lia. Qed.

(** x_a = sum_j T a j x_j: nothing to show for independent DOFs *)
Lemma tie_indep a x : a < nni -> sumn nni (fun j => T a j * x j)%R = x a.
Proof.
  intro Ha. rewrite (sumn_ext _ _ (fun j => ind (a =? j)%nat * x j)%R); [now apply sumn_delta'|].
  intros j Hj. unfold tie. now destruct (Nat.ltb_spec a nni); [|lia].
Qed.
Lemma tie_dep k x : sumn nni (fun j => T (nni + k) j * x j)%R = (sumn nnu (fun j => ent Cu k j * x j) + sumn nnp (fun j => ent Cp k j * x (nnu + j)%nat))%R.
Proof.
  rewrite sumn_app. f_equal; apply sumn_ext; intros j Hj; [now rewrite tie_u|now rewrite tie_p].
Qed.

Lemma condensed_eq A i j : i < nni -> j < nni -> condensed ndof T A i j =
  (A i j + sumn nnd (fun l => A i (nni + l)%nat * T (nni + l) j) + sumn nnd (fun k => T (nni + k) i * A (nni + k)%nat j)
   + sumn nnd (fun l => sumn nnd (fun k => T (nni + k) i * A (nni + k)%nat (nni + l)%nat) * T (nni + l) j))%R.
Proof.
  intros Hi Hj. unfold condensed.
  rewrite (sumn_ext _ _ (fun a => T a i * (A a j + sumn nnd (fun l => A a (nni + l)%nat * T (nni + l) j)))%R).
  2:{ intros a Ha. rewrite sumn_scal. f_equal. rewrite (sumn_ext _ _ (fun b => T b j * A a b)%R) by (intros; lra).
      rewrite (tie_sum (A a) j Hj). f_equal. apply sumn_ext. intros. lra. }
  rewrite (tie_sum (fun a => A a j + sumn nnd (fun l => A a (nni + l)%nat * T (nni + l) j))%R i Hi).
  assert (E : sumn nnd (fun k => T (nni + k) i * (A (nni + k)%nat j + sumn nnd (fun l => A (nni + k)%nat (nni + l)%nat * T (nni + l) j)))%R =
    (sumn nnd (fun k => T (nni + k) i * A (nni + k)%nat j) + sumn nnd (fun l => sumn nnd (fun k => T (nni + k) i * A (nni + k)%nat (nni + l)%nat) * T (nni + l) j))%R).
  { rewrite (sumn_ext nnd _ (fun k => T (nni + k) i * A (nni + k)%nat j + sumn nnd (fun l => T (nni + k) i * A (nni + k)%nat (nni + l)%nat * T (nni + l) j))%R).
    2:{ intros k Hk. rewrite Rmult_plus_distr_l, <- sumn_scal. f_equal. apply sumn_ext. intros. lra. }
    rewrite sumn_plus. f_equal. rewrite sumn_swap. apply sumn_ext. intros l Hl. now rewrite sumn_scal_r. }
  rewrite E.
  lra.
Qed.

Lemma condense_spec a A q C : pt_is a A -> (q = U /\ C = Cu \/ q = P /\ C = Cp) ->
  exists m, condense a q C = Ok m /\ rows m = nnu /\ cols m = sz q /\
    forall i j, i < nnu -> j < sz q -> ent m i j = condensed ndof T A i (off q + j).
Proof.
  intros H Hq. unfold condense. rewrite (pt_u a A H).
  assert (SC : rows C = nnd /\ cols C = sz q /\ off q + sz q <= nni /\ forall k j, k < nnd -> j < sz q -> ent C k j = T (nni + k) (off q + j)).
  { destruct Hts as [X1 X2 X3 X4]. destruct Hq as [[-> ->]|[-> ->]]; cbn [sz off]; (split; [assumption|]; split; [assumption|]; split; [lia|]); intros k j Hk Hj; symmetry; [now apply tie_u|apply tie_p]. }
  destruct SC as [SC1 [SC2 [SC3 SC4]]].
  assert (ST : rows (transpose Cu) = nnu /\ cols (transpose Cu) = nnd /\ forall i k, i < nnu -> ent (transpose Cu) i k = T (nni + k) i).
  { destruct Hts as [X1 X2 X3 X4]. cbn. split; [assumption|]. split; [assumption|]. intros. symmetry. now apply tie_u. }
  destruct ST as [ST1 [ST2 ST3]].
  destruct (mulmat_spec (PT_A a U D) C nnd) as [t1 [-> [R1 [C1 V1]]]]; [apply H|exact SC1|]. rewrite (pt_r a A H) in R1. cbn [bind].
  destruct (addmat_spec (PT_A a U q) t1 nnu (sz q)) as [s1 [-> [R2 [C2 V2]]]]; [apply H|apply H|exact R1|congruence|]. cbn [bind].
  destruct (mulmat_spec (transpose Cu) (PT_A a D q) nnd) as [t2 [-> [R3 [C3 V3]]]]; [exact ST2|apply H|]. rewrite (pt_c a A H) in C3. cbn [bind].
  destruct (addmat_spec s1 t2 nnu (sz q)) as [s2 [-> [R4 [C4 V4]]]]; [exact R2|exact C2|congruence|exact C3|]. cbn [bind].
  destruct (mulmat_spec (transpose Cu) (PT_A a D D) nnd) as [t3 [-> [R5 [C5 V5]]]]; [exact ST2|apply H|]. rewrite (pt_c a A H) in C5. cbn [bind].
  destruct (mulmat_spec t3 C nnd) as [t4 [-> [R6 [C6 V6]]]]; [exact C5|exact SC1|]. cbn [bind].
  destruct (addmat_spec s2 t4 nnu (sz q)) as [s3 [-> [R7 [C7 V7]]]]; [exact R4|exact C4|congruence|congruence|].
  exists s3. split; [reflexivity|]. split; [exact R7|]. split; [exact C7|]. intros i j Hi Hj.
  rewrite V7, V4, V2, V1, V3, V6. rewrite condensed_eq by lia. rewrite (pt_e a A H U q i j Hi Hj). cbn [off Nat.add]. f_equal; [f_equal; [f_equal|]|].
  - apply sumn_ext. intros k Hk. rewrite (pt_e a A H U D i k Hi Hk), SC4 by assumption. reflexivity.
  - apply sumn_ext. intros k Hk. rewrite ST3, (pt_e a A H D q k j Hk Hj) by assumption. reflexivity.
  - apply sumn_ext. intros l Hl. rewrite V5, SC4 by assumption. f_equal. apply sumn_ext. intros k Hk. rewrite ST3, (pt_e a A H D D k l Hk Hl) by assumption. reflexivity.
Qed.
(** ** what is done with arrays of the right size *)
Lemma keep_any a A q keep order u : pt_is a A -> (forall d, d < ndof -> keep d = true -> off q <= d < off q + sz q) ->
  Permutation order (node_iters v) -> shape2 u nnode ndim -> exists y, keep_nodevec a keep (off q) (sz q) order u = Ok y /\ length y = sz q.
Proof.
  intros H Hk Ho Su. unfold keep_nodevec. rewrite (pt_v a A H).
  assert (Hin : forall a, In a order <-> fst a < nnode /\ snd a < ndim).
  { intro c. rewrite <- (in_node_iters v nelem nne nnode ndim ndof Hne Hnd Hmd). split; apply Permutation_in; [exact Ho|now symmetry]. }
  set (key := fun c : nat * nat => dof (fst c) (snd c)). set (uv := fun c : nat * nat => val2 u (fst c) (snd c)).
  rewrite (mapM_Ok _ _ (fun c => if keep (key c) then [(key c - off q, uv c)] else [])).
  2:{ intros c Hc. apply Hin in Hc. rewrite (V_get_dof v nelem nne nnode ndim ndof Hne Hnd Hmd) by apply Hc. cbn [bind]. fold (key c).
      destruct (keep (key c)); [|reflexivity]. rewrite (get2_nth 0%R u nnode ndim) by (tauto || exact Su). reflexivity. }
  cbn [bind]. rewrite concat_if_filter.
  destruct (write_all_Ok (map (fun c => (key c - off q, uv c)) (filter (fun c => keep (key c)) order)) (repeat 0%R (sz q))) as (y & E & Ly & _).
  { intros k x Hx. apply in_map_iff in Hx. destruct Hx as (c & Ec & Hc). injection Ec as <- <-. apply filter_In in Hc. destruct Hc as [Hc K]. apply Hin in Hc.
    assert (B : key c < ndof) by (apply (V_dof v nelem nne nnode ndim ndof Hne Hnd Hmd); apply Hc). specialize (Hk _ B K). rewrite repeat_length. lia. }
  exists y. split; [exact E|]. now rewrite Ly, repeat_length.
Qed.
Lemma parts_any a A order u : pt_is a A -> Permutation order (node_iters v) -> shape2 u nnode ndim ->
  (exists y, PT_u_nodevec a order u = Ok y /\ length y = nnu) /\ (exists y, PT_p_nodevec a order u = Ok y /\ length y = nnp) /\ (exists y, PT_d_nodevec a order u = Ok y /\ length y = nnd).
Proof.
  intros H Ho Su. destruct (pt_sizes a A H) as [H1 [H2 [H3 [H4 _]]]]. unfold PT_u_nodevec, PT_p_nodevec, PT_d_nodevec. rewrite H1, H2, H3, H4. split; [|split].
  - apply (keep_any a A U _ order u H); try assumption. intros d Hd K. apply Nat.ltb_lt in K. cbn. lia.
  - apply (keep_any a A P _ order u H); try assumption. intros d Hd K. apply andb_prop in K. destruct K as [K1 K2]. apply Nat.leb_le in K1. apply Nat.ltb_lt in K2. cbn. lia.
  - apply (keep_any a A D _ order u H); try assumption. intros d Hd K. apply Nat.leb_le in K. cbn. lia.
Qed.
Definition sized_of (w : MatrixTyings * Solver) : Prop :=
  rows (PT_ACup (fst w)) = nnu /\ cols (PT_ACup (fst w)) = nnp /\ exists m, S_data (snd w) = Some m /\ rows m = nnu.
Definition t_inv (w : MatrixTyings * Solver) : Prop := (exists A, pt_is (fst w) A) /\ (S_factor (snd w) = true \/ PT_changed (fst w) = true \/ sized_of w).
Lemma factorize_any a s : t_inv (a, s) -> exists w, PT_factorize a s = Ok w /\ t_inv w /\ sized_of w.
Proof.
  intros [[A H] F]. cbn [fst snd] in *. unfold PT_factorize. destruct (negb (PT_changed a) && negb (S_factor s)) eqn:E.
  - apply andb_prop in E. destruct E as [E1 E2].
    assert (Q : sized_of (a, s)) by (destruct F as [F|[F|F]]; [rewrite F in E2; discriminate|rewrite F in E1; discriminate|exact F]).
    exists (a, s). split; [reflexivity|]. split; [split; [now exists A|auto]|exact Q].
  - destruct (condense_spec a A U Cu H) as [uu [Euu [R1 [C1 V1]]]]; [now left|]. destruct (condense_spec a A P Cp H) as [up [Eup [R2 [C2 V2]]]]; [now right|].
    rewrite (pt_u a A H), (pt_p a A H), Euu. cbn [bind]. rewrite Eup. cbn [bind]. eexists. split; [reflexivity|].
    match goal with |- t_inv ?w /\ _ => assert (Q : sized_of w) end.
    { unfold sized_of. cbn [fst snd PT_ACup S_data]. split; [exact R2|]. split; [exact C2|]. eauto. }
    split; [|exact Q]. split; [exists A; destruct H; split; cbn; assumption || reflexivity|auto].
Qed.
Variable linsolve : mat -> list R -> list R.
Hypothesis Hsolve : forall a b, length (linsolve a b) = rows a.
Lemma core_any w bu xp : sized_of w -> length bu = nnu -> length xp = nnp -> exists X, PT_core linsolve w bu xp = Ok X /\ length X = nnu.
Proof.
  intros [R1 [C1 [m [Em Rm]]]] Lb Lx. unfold PT_core.
  destruct (mulvec_spec (PT_ACup (fst w)) xp) as [t [-> [Lt Vt]]]; [congruence|]. cbn [bind].
  destruct (vec2_spec Rminus bu t nnu) as [r [Er [Lr Vr]]]; [exact Lb|congruence|]. unfold subvec. rewrite Er. cbn [bind].
  unfold S_solve. rewrite Em, Lr, Rm, Nat.eqb_refl. eexists. split; [reflexivity|]. now rewrite Hsolve.
Qed.
Lemma xd_any a A X xp : pt_is a A -> length X = nnu -> length xp = nnp -> exists Z, PT_X_d a X xp = Ok Z /\ length Z = nnd.
Proof.
  intros H LX Lx. unfold PT_X_d. rewrite (pt_u a A H), (pt_p a A H). destruct Hts as [X1 X2 X3 X4].
  destruct (mulvec_spec Cu X) as [t [-> [Lt Vt]]]; [congruence|]. destruct (mulvec_spec Cp xp) as [t' [-> [Lt' Vt']]]; [congruence|]. cbn [bind].
  destruct (vec2_spec Rplus t t' nnd) as [z [Ez [Lz Vz]]]; [congruence|congruence|]. eauto.
Qed.
Lemma solve_nodevec_any a s order b x : t_inv (a, s) -> Permutation order (node_iters v) -> shape2 b nnode ndim -> shape2 x nnode ndim ->
  exists y s' a', PT_solve_nodevec a linsolve s order b x = Ok (y, s', a') /\ shape2 y nnode ndim /\ t_inv (a', s').
Proof.
  intros I Ho Sb Sx. destruct (proj1 I) as [A H]. cbn [fst] in H. unfold PT_solve_nodevec. destruct (factorize_any a s I) as (w & -> & Iw & Sw). cbn [bind].
  destruct (parts_any a A order b H Ho Sb) as [(bu & -> & Lbu) [_ (bd & -> & Lbd)]]. cbn [bind].
  destruct (parts_any a A order x H Ho Sx) as [_ [(xp & -> & Lxp) _]]. cbn [bind].
  assert (ST : cols (transpose (PT_Cdu a)) = nnd /\ rows (transpose (PT_Cdu a)) = nnu) by (destruct Hts as [X1 X2 X3 X4]; rewrite (pt_u a A H); cbn; split; assumption).
  destruct (mulvec_spec (transpose (PT_Cdu a)) bd) as [t [-> [Lt _]]]; [destruct ST; congruence|]. cbn [bind].
  destruct (vec2_spec Rplus bu t nnu) as [b' [Eb [Lb' _]]]; [exact Lbu|destruct ST; congruence|]. unfold addvec at 1. rewrite Eb. cbn [bind].
  destruct (core_any w b' xp Sw Lb' Lxp) as (X & -> & LX). cbn [bind]. destruct (xd_any a A X xp H LX Lxp) as (Z & -> & LZ). cbn [bind].
  rewrite (pt_v a A H). destruct (pt_sizes a A H) as [H1 [_ [_ [H4 _]]]]. rewrite H1, H4.
  destruct (V_sizes v nelem nne nnode ndim ndof Hne Hnd Hmd) as [_ [E2 _]]. rewrite E2, Hnd.
  rewrite (fill2_Ok nnode ndim _ (fun m i => if dof m i <? nnu then val1 X (dof m i) else if nni <=? dof m i then val1 Z (dof m i - nni) else val2 x m i)).
  - cbn [bind]. exists (tab2 nnode ndim (fun m i => if dof m i <? nnu then val1 X (dof m i) else if nni <=? dof m i then val1 Z (dof m i - nni) else val2 x m i)), (snd w), (fst w).
    split; [reflexivity|]. split; [apply tab2_shape|]. now destruct w.
  - intros m i Hm Hi. rewrite (V_get_dof v nelem nne nnode ndim ndof Hne Hnd Hmd) by assumption. cbn [bind].
    assert (B : dof m i < ndof) by (now apply (V_dof v nelem nne nnode ndim ndof Hne Hnd Hmd)).
    destruct (Nat.ltb_spec (dof m i) nnu); [apply get_nth; lia|]. destruct (Nat.leb_spec nni (dof m i)); [apply get_nth; lia|]. now apply get2_nth with (n := nnode) (d := ndim).
Qed.
Lemma dofval_any a A x : pt_is a A -> length x = ndof ->
  (exists y, PT_u_dofval a x = Ok y /\ length y = nnu) /\ (exists y, PT_p_dofval a x = Ok y /\ length y = nnp) /\ (nnd <= nnp -> exists y, PT_d_dofval a x = Ok y).
Proof.
  intros H L. unfold PT_u_dofval, PT_p_dofval, PT_d_dofval. destruct (pt_sizes a A H) as [-> [-> [-> _]]]. rewrite (pt_ii a A U H), (pt_ii a A P H). cbn [off sz].
  split; [destruct (range_dofval 0 nnu x) as (y & E & Ly & _); [lia|eauto]|]. split; [destruct (range_dofval nnu nnp x) as (y & E & Ly & _); [lia|eauto]|]. intro Ld.
  rewrite (fill1_Ok _ _ (fun d => val1 x (nnu + d))); [eauto|]. intros d Hd. rewrite (get_nth 0) by (rewrite seq_length; lia). cbn [bind]. rewrite seq_nth by lia. now apply get_nth; lia.
Qed.
Lemma d_oob a A x : pt_is a A -> nnp < nnd -> nni <= length x -> PT_d_dofval a x = Oob.
Proof.
  intros H L Lx. unfold PT_d_dofval. destruct (pt_sizes a A H) as [_ [_ [-> _]]]. rewrite (pt_ii a A P H). cbn [off sz].
  unfold fill1. replace nnd with (nnp + S (nnd - nnp - 1)) by lia. rewrite seq_app, mapM_app. cbn [Nat.add].
  rewrite (mapM_Ok _ _ (fun d => val1 x (nnu + d))).
  2:{ intros d Hd. apply in_seq in Hd. rewrite (get_nth 0) by (rewrite seq_length; lia). cbn [bind]. rewrite seq_nth by lia. now apply get_nth; lia. }
  cbn [bind seq mapM]. unfold get at 1. rewrite (proj2 (nth_error_None (seq nnu nnp) nnp)) by (rewrite seq_length; lia). reflexivity.
Qed.
Lemma solve_dofval_oob a s b x : t_inv (a, s) -> nnp < nnd -> length b = ndof -> PT_solve_dofval a linsolve s b x = Oob.
Proof.
  intros I L Lb. destruct (proj1 I) as [A H]. cbn [fst] in H. unfold PT_solve_dofval. destruct (factorize_any a s I) as [w [-> _]]. cbn [bind].
  destruct (dofval_any a A b H Lb) as [(bu & -> & _) _]. cbn [bind]. rewrite (d_oob a A b H L) by lia. reflexivity.
Qed.
Lemma writes_any a A X Z x : pt_is a A -> length X = nnu -> length Z = nnd -> length x = ndof ->
  exists y, (do wu <- index_writes (PT_ii a U) X; do y <- write_all x wu; do wd <- index_writes (PT_ii a D) Z; write_all y wd) = Ok y /\ length y = ndof.
Proof.
  intros H LX LZ Lx. rewrite (pt_ii a A U H), (pt_ii a A D H). cbn [off sz].
  destruct (write_index (seq 0 nnu) X x ndof) as [y1 [W1 [L1 _]]]; [exact Lx|apply seq_NoDup|intros d Hd; apply in_seq in Hd; lia|now rewrite seq_length|].
  destruct (index_writes (seq 0 nnu) X) as [w| | |]; try discriminate. cbn [bind] in *. rewrite W1. cbn [bind].
  destruct (write_index (seq nni nnd) Z y1 ndof) as [y2 [W2 [L2 _]]]; [exact L1|apply seq_NoDup|intros d Hd; apply in_seq in Hd; lia|now rewrite seq_length|]. eauto.
Qed.
Lemma solve_dofval_any a s b x : t_inv (a, s) -> nnd <= nnp -> length b = ndof -> length x = ndof ->
  exists y s' a', PT_solve_dofval a linsolve s b x = Ok (y, s', a') /\ length y = ndof /\ t_inv (a', s').
Proof.
  intros I L Lb Lx. destruct (proj1 I) as [A H]. cbn [fst] in H. rewrite solve_dofval_eq. destruct (factorize_any a s I) as (w & -> & Iw & Sw). cbn [bind].
  destruct (dofval_any a A b H Lb) as [(bu & -> & Lbu) [_ Q]]. destruct (Q L) as [bd ->]. cbn [bind].
  destruct (dofval_any a A x H Lx) as [_ [(xp & -> & Lxp) _]]. cbn [bind].
  destruct (core_any w bu xp Sw Lbu Lxp) as (X & -> & LX). cbn [bind]. destruct (xd_any a A X xp H LX Lxp) as (Z & -> & LZ). cbn [bind].
  destruct (writes_any a A X Z x H LX LZ Lx) as (y & -> & Ly). cbn [bind]. exists y, (snd w), (fst w). split; [reflexivity|]. split; [exact Ly|]. now destruct w.
Qed.
Lemma solve_u_any a s bu bd xp : t_inv (a, s) -> length bu = nnu -> length xp = nnp -> exists y s' a', PT_solve_u a linsolve s bu bd xp = Ok (y, s', a') /\ length y = nnu /\ t_inv (a', s').
Proof.
  intros I Lb Lx. unfold PT_solve_u. destruct (factorize_any a s I) as (w & -> & Iw & Sw). cbn [bind]. destruct (core_any w bu xp Sw Lb Lx) as (X & -> & LX). cbn [bind].
  exists X, (snd w), (fst w). split; [reflexivity|]. split; [exact LX|]. now destruct w.
Qed.
End T.
Unset Default Proof Using.
