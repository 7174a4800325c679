(** Periodic tyings with assertions: ties that depend on dependent DOFs; the program that makes a vector with tyings. *)
From Coq Require Import Reals Lra Lia.
From Verif Require Import Base Spec Sums Spec_Vector Spec_Tyings Model_Numbering Proof_Numbering Model_Vector Proof_Vector Proof_VectorPartitioned Model_Misc Proof_Misc
  Model_Sparse Model_Tyings Proof_Tyings Proof_Tyings2 Model_Checked Spec_Checked Proof_Checked Model_CheckedTyings Spec_CheckedTyings Proof_CheckedTyings.

Lemma bind_inv {A B} (x : res A) (f : A -> res B) r : bind x f = Ok r -> exists a, x = Ok a /\ f a = Ok r.
Proof. destruct x; cbn; intros H; try discriminate. eauto. Qed.

Section Chained.
Variables (coor : array R) (dofs control ties iip : array nat) (nnode ndim nt n : nat).
Hypothesis F : tyings_fit is_dof coor dofs control ties iip nnode ndim nt n.
Let D := rows2 nnode ndim dofs.
Let Co := rows2 ndim ndim control.
Let X := rows2 nnode ndim coor.
Let T := pairs nt ties.
Let ii := rows1 n iip.
Let iid := concat (rows2 nt ndim (dep_array dofs ties ndim nt)).
Let iii := setdiff1d (concat D) iid.
Let iiu := setdiff1d iii ii.

Lemma T_length : length T = nt. Proof. unfold T, pairs. now rewrite map_length, seq_length. Qed.
Lemma T_nth s : s < nt -> nth_error T s = Some (a_ent ties [s; 0], a_ent ties [s; 1]).
Proof. intros Hs. unfold T, pairs. rewrite nth_error_map, (nth_error_nth' _ 0) by (rewrite seq_length; exact Hs). now rewrite seq_nth. Qed.
Lemma T_inv s a b : nth_error T s = Some (a, b) -> s < nt /\ a = a_ent ties [s; 0] /\ b = a_ent ties [s; 1].
Proof.
  intros E. assert (Hs : s < nt) by (rewrite <- T_length; apply nth_error_Some; congruence). rewrite T_nth in E by exact Hs. injection E as <- <-. auto.
Qed.
Lemma D_at m i : m < nnode -> i < ndim -> idx2 D m i = a_ent dofs [m; i].
Proof. apply rows2_nth. Qed.
Lemma node0 s : s < nt -> a_ent ties [s; 0] < nnode. Proof. intros. apply (tf_node _ _ _ _ _ _ _ _ _ _ F); lia. Qed.
Lemma node1 s : s < nt -> a_ent ties [s; 1] < nnode. Proof. intros. apply (tf_node _ _ _ _ _ _ _ _ _ _ F); lia. Qed.

Lemma dependent_depends d : dependent D ndim T d <-> depends dofs ties ndim nt d.
Proof.
  split.
  - intros (a & b & i & Hin & Hi & E). apply In_nth_error in Hin. destruct Hin as [s Hs]. apply T_inv in Hs. destruct Hs as (Hs & -> & ->).
    rewrite D_at in E by auto using node1. exists s, i. auto.
  - intros (s & i & Hs & Hi & E). exists (a_ent ties [s; 0]), (a_ent ties [s; 1]), i. split; [now apply nth_error_In with s, T_nth|]. split; [exact Hi|].
    now rewrite D_at by auto using node1.
Qed.
Lemma in_ii d : In d ii <-> exists k, k < n /\ a_ent iip [k] = d. Proof. apply in_rows1. Qed.

(** the arrays are valid input if nothing is chained *)
Lemma fit_periodic : not_chained dofs control ties iip ndim nt n <-> periodic_input X D Co T ii nnode ndim.
Proof.
  split.
  - intros N. split.
    + apply rows2_shape.
    + apply rows2_shape.
    + apply rows2_shape.
    + intros a b Hin. apply In_nth_error in Hin. destruct Hin as [s Hs]. apply T_inv in Hs. destruct Hs as (Hs & -> & ->). auto using node0, node1.
    + intros s t a b a' b' i j Es Et Hi Hj E. apply T_inv in Es, Et. destruct Es as (Hs & -> & ->), Et as (Ht & -> & ->).
      rewrite !D_at in E by auto using node1. now apply (tf_dep _ _ _ _ _ _ _ _ _ _ F).
    + intros a b i Hin Hi. apply In_nth_error in Hin. destruct Hin as [s Hs]. apply T_inv in Hs. destruct Hs as (Hs & -> & ->).
      rewrite dependent_depends, D_at by auto using node0. now apply (nc_indep _ _ _ _ _ _ _ N).
    + intros j k Hj Hk. unfold Co. rewrite rows2_nth by assumption. split; [apply is_dof_rows, (tf_ctrl _ _ _ _ _ _ _ _ _ _ F); assumption|].
      rewrite dependent_depends. now apply (nc_ctrl _ _ _ _ _ _ _ N).
    + apply NoDup_rows1, (tf_iip1 _ _ _ _ _ _ _ _ _ _ F).
    + intros d Hd. apply in_ii in Hd. destruct Hd as (k & Hk & <-). split; [apply is_dof_rows, (tf_iip2 _ _ _ _ _ _ _ _ _ _ F); exact Hk|].
      rewrite dependent_depends. now apply (nc_iip _ _ _ _ _ _ _ N).
  - intros P. split.
    + intros s i Hs Hi. rewrite <- dependent_depends, <- D_at by auto using node0.
      apply (pi_indep _ _ _ _ _ _ _ P _ (a_ent ties [s; 1])); [now apply nth_error_In with s, T_nth|exact Hi].
    + intros j k Hj Hk. rewrite <- dependent_depends. rewrite <- (rows2_nth ndim ndim control j k) by assumption. now apply (pi_ctrl _ _ _ _ _ _ _ P).
    + intros k Hk. rewrite <- dependent_depends. apply (pi_iip2 _ _ _ _ _ _ _ P). apply in_ii. eauto.
Qed.

(** the object *)
Variable t : Periodic.
Hypothesis E : new_Periodic X ndim D Co T ii = Ok t.
Lemma obj : tp_nnu t = length iiu /\ tp_nnp t = n /\ tp_nni t = length iii /\ tp_nnd t = length iid /\ tp_ndim t = ndim /\ tp_tyings t = T /\ tp_coor t = X /\
  exists r, Reorder [iiu; ii; iid] = Ok r /\ Reorder_apply2 r D = Ok (tp_dofs t) /\ Reorder_apply2 r Co = Ok (tp_control t).
Proof.
  revert E. unfold new_Periodic. unfold D at 1, T at 1. rewrite (dep_array_rows dofs ties nnode ndim nt) by (intros; now apply node1). cbn [bind].
  fold iid. fold iii. fold iiu. destruct (Reorder _) as [r| | |] eqn:Er; try discriminate. cbn [bind].
  destruct (Reorder_apply2 r D) as [d| | |] eqn:Ed; try discriminate. destruct (Reorder_apply2 r Co) as [c| | |] eqn:Ec; try discriminate. cbn [bind]. intros Q. injection Q as <-.
  cbn [tp_nnu tp_nnp tp_nni tp_nnd tp_ndim tp_tyings tp_coor tp_dofs tp_control]. unfold ii at 1. rewrite rows1_length. repeat (split; [reflexivity|]). eauto.
Qed.
Lemma ii_NoDup : NoDup ii. Proof. apply NoDup_rows1, (tf_iip1 _ _ _ _ _ _ _ _ _ _ F). Qed.
Lemma iid_NoDup' : NoDup iid.
Proof. apply NoDup_rows2. intros s s' i j Hs Hs' Hi Hj Q. now apply (tf_dep _ _ _ _ _ _ _ _ _ _ F). Qed.
Lemma ii_dof d : In d ii -> In d (concat D).
Proof. intros Hd. apply in_ii in Hd. destruct Hd as (k & Hk & <-). apply is_dof_rows, (tf_iip2 _ _ _ _ _ _ _ _ _ _ F); exact Hk. Qed.

(** the prescribed DOFs that are dependent are missing from the independent ones *)
Lemma nni_count : length iii = length iiu + length (filter (fun d => negb (mem d iid)) ii).
Proof.
  rewrite <- app_length. apply Permutation_length. apply NoDup_Permutation.
  - apply setdiff1d_NoDup.
  - apply NoDup_app_intro; [apply setdiff1d_NoDup|apply NoDup_filter, ii_NoDup|]. intros d Hd Hf. apply filter_In in Hf. unfold iiu in Hd. apply setdiff1d_In in Hd. tauto.
  - intros d. rewrite in_app_iff, filter_In. unfold iiu. rewrite setdiff1d_In. unfold iii. rewrite setdiff1d_In.
    assert (M : negb (mem d iid) = true <-> ~ In d iid). { rewrite negb_true_iff, <- not_true_iff_false. unfold mem. rewrite existsb_exists. split; intros Q N; apply Q; [exists d; rewrite Nat.eqb_refl; auto|]. destruct N as (x & Hx & Ex). apply Nat.eqb_eq in Ex. now subst x. }
    rewrite M. destruct (in_dec Nat.eq_dec d ii) as [Hd|Hd]; [pose proof (ii_dof d Hd); tauto|tauto].
Qed.
Lemma filter_lt {A} (f : A -> bool) l : length (filter f l) <= length l /\ (length (filter f l) = length l -> forall x, In x l -> f x = true).
Proof.
  induction l as [|a l [IH1 IH2]]; [split; [reflexivity|intros _ x []]|]. cbn [filter]. destruct (f a) eqn:Fa; cbn [length].
  - split; [lia|]. intros Q x [<-|Hx]; [exact Fa|]. apply IH2; [lia|exact Hx].
  - split; [lia|]. intros Q. exfalso. lia.
Qed.
Lemma nni_iff : tp_nni t = tp_nnu t + tp_nnp t <-> (forall k, k < n -> ~ depends dofs ties ndim nt (a_ent iip [k])).
Proof.
  destruct obj as (-> & -> & -> & _). rewrite nni_count. assert (L : length ii = n) by apply rows1_length. split.
  - intros Q k Hk Hd. assert (Q' : length (filter (fun d => negb (mem d iid)) ii) = length ii) by lia.
    assert (Hin : In (a_ent iip [k]) ii) by (apply in_ii; eauto).
    assert (B : negb (mem (a_ent iip [k]) iid) = true) by (apply (proj2 (filter_lt _ ii) Q' _ Hin)).
    apply depends_rows in Hd. fold iid in Hd. apply negb_true_iff in B. unfold mem in B. rewrite <- not_true_iff_false, existsb_exists in B. apply B. exists (a_ent iip [k]). now rewrite Nat.eqb_refl.
  - intros H. f_equal. rewrite <- L. f_equal. rewrite (filter_ext_in (fun d => negb (mem d iid)) (fun _ => true) ii); [clear; induction ii as [|x l IH]; [reflexivity|cbn; now rewrite IH]|].
    intros d Hd. apply in_ii in Hd. destruct Hd as (k & Hk & <-). specialize (H k Hk). apply negb_true_iff, not_true_iff_false. unfold mem. rewrite existsb_exists.
    intros (x & Hx & Ex). apply Nat.eqb_eq in Ex. subst x. apply H. now apply depends_rows.
Qed.

(** positions *)
Hypothesis NI : forall k, k < n -> ~ depends dofs ties ndim nt (a_ent iip [k]).
Lemma all_NoDup : NoDup (concat [iiu; ii; iid]).
Proof.
  cbn [concat]. rewrite app_nil_r. apply NoDup_app_intro; [apply setdiff1d_NoDup| |].
  - apply NoDup_app_intro; [apply ii_NoDup|apply iid_NoDup'|]. intros d Hd Q. apply in_ii in Hd. destruct Hd as (k & Hk & <-). apply (NI k Hk). now apply depends_rows.
  - intros d Hd Q. unfold iiu, iii in Hd. rewrite !setdiff1d_In in Hd. apply in_app_or in Q. tauto.
Qed.
Lemma all_In d : In d (concat D) -> In d (concat [iiu; ii; iid]).
Proof.
  intros Hd. cbn [concat]. rewrite app_nil_r, !in_app_iff. unfold iiu, iii. rewrite !setdiff1d_In. destruct (in_dec Nat.eq_dec d iid); [tauto|]. destruct (in_dec Nat.eq_dec d ii); tauto.
Qed.
Lemma position k d : nth_error (concat [iiu; ii; iid]) k = Some d -> In d iid -> tp_nni t <= k.
Proof.
  intros Hk Hd. destruct obj as (N1 & N2 & N3 & _). rewrite (proj2 nni_iff NI), N1, N2. pose proof all_NoDup as N. cbn [concat] in Hk, N. rewrite app_nil_r, app_assoc in Hk, N.
  assert (L : length (iiu ++ ii) = length iiu + n) by (rewrite app_length; unfold ii; now rewrite rows1_length). rewrite <- L.
  destruct (Nat.lt_ge_cases k (length (iiu ++ ii))) as [Q|Q]; [exfalso|exact Q]. rewrite nth_error_app1 in Hk by exact Q. apply nth_error_In in Hk.
  apply NoDup_app_inv in N. destruct N as [_ [_ N]]. now apply (N d).
Qed.
Lemma dof_position m i : m < nnode -> i < ndim -> get2 (tp_dofs t) m i = Ok (idx2 (tp_dofs t) m i) /\ (depends dofs ties ndim nt (a_ent dofs [m; i]) -> tp_nni t <= idx2 (tp_dofs t) m i).
Proof.
  intros Hm Hi. destruct obj as (_ & _ & _ & _ & _ & _ & _ & r & Er & Ed & Ec).
  destruct (Reorder_apply2_spec _ r D nnode ndim all_NoDup Er (rows2_shape _ _ _)) as (d & Ed' & Sd & Vd); [exact all_In|]. rewrite Ed in Ed'. injection Ed' as <-.
  split; [now apply (get2_nth 0 _ nnode ndim)|]. intros Hd. apply (position _ (a_ent dofs [m; i])); [rewrite <- D_at by assumption; now apply Vd|]. now apply depends_rows.
Qed.
Lemma control_position j k : j < ndim -> k < ndim -> get2 (tp_control t) j k = Ok (idx2 (tp_control t) j k) /\ (depends dofs ties ndim nt (a_ent control [j; k]) -> tp_nni t <= idx2 (tp_control t) j k).
Proof.
  intros Hj Hk. destruct obj as (_ & _ & _ & _ & _ & _ & _ & r & Er & Ed & Ec).
  destruct (Reorder_apply2_spec _ r Co ndim ndim all_NoDup Er (rows2_shape _ _ _)) as (c & Ec' & Sc & Vc).
  { intros a Ha. apply all_In. apply in_rows2 in Ha. destruct Ha as (j' & k' & Hj' & Hk' & <-). apply is_dof_rows, (tf_ctrl _ _ _ _ _ _ _ _ _ _ F); assumption. }
  rewrite Ec in Ec'. injection Ec' as <-.
  split; [now apply (get2_nth 0 _ ndim ndim)|]. intros Hd. apply (position _ (a_ent control [j; k])); [rewrite <- (rows2_nth ndim ndim control) by assumption; now apply Vc|]. now apply depends_rows.
Qed.

(** the entries of Cdi *)
Definition row_of (s j : nat) : list (nat * nat * R) :=
  (s * ndim + j, idx2 (tp_dofs t) (a_ent ties [s; 0]) j - 0, 1%R) ::
  concat (map (fun k => [(s * ndim + j, idx2 (tp_control t) j k - 0, (val2 X (a_ent ties [s; 1%nat]) k - val2 X (a_ent ties [s; 0%nat]) k)%R)]) (seq 0 ndim)).
Lemma entries : tie_triplets t (fun _ => true) 0 = Ok (concat (map (fun ij => row_of (fst ij) (snd ij)) (list_prod (seq 0 nt) (seq 0 ndim)))).
Proof.
  unfold tie_triplets. destruct obj as (_ & _ & _ & _ & -> & -> & -> & _). rewrite T_length.
  rewrite (mapM_Ok _ _ (fun ij => row_of (fst ij) (snd ij))); [reflexivity|]. intros [s j] Hin. apply in_prod_iff in Hin. rewrite !in_seq in Hin. cbn [fst snd].
  unfold get at 1. rewrite T_nth by lia. cbn [bind fst snd]. destruct (dof_position (a_ent ties [s; 0]) j) as [-> _]; [apply node0; lia|lia|]. cbn [bind].
  rewrite (mapM_Ok _ _ (fun k => [(s * ndim + j, idx2 (tp_control t) j k - 0, (val2 X (a_ent ties [s; 1%nat]) k - val2 X (a_ent ties [s; 0%nat]) k)%R)])); [reflexivity|].
  intros k Hk. apply in_seq in Hk. destruct (control_position j k) as [-> _]; [lia|lia|]. cbn [bind].
  rewrite !(get2_nth 0%R X nnode ndim) by (try apply rows2_shape; try apply node0; try apply node1; lia). reflexivity.
Qed.

Lemma Cdi_dec : (exists C, Cdi t = Ok C) \/ Cdi t = Oob.
Proof. unfold Cdi. rewrite entries. cbn [bind]. unfold setFromTriplets. destruct (forallb _ _); eauto. Qed.
Lemma Cdi_ok_not_chained C : Cdi t = Ok C -> not_chained dofs control ties iip ndim nt n.
Proof.
  unfold Cdi. rewrite entries. cbn [bind]. unfold setFromTriplets.
  match goal with |- context [forallb ?f ?l] => destruct (forallb f l) eqn:Q end; [|discriminate]. intros _. rewrite forallb_forall in Q.
  assert (W : forall s j x, s < nt -> j < ndim -> In x (row_of s j) -> snd (fst x) < tp_nni t).
  { intros s j x Hs Hj Hx. assert (In x (concat (map (fun ij => row_of (fst ij) (snd ij)) (list_prod (seq 0 nt) (seq 0 ndim))))) as Hin.
    { apply in_concat. exists (row_of s j). split; [|exact Hx]. apply in_map_iff. exists (s, j). split; [reflexivity|]. apply in_prod_iff. rewrite !in_seq. lia. }
    apply Q in Hin. apply andb_true_iff in Hin. destruct Hin as [_ Hin]. now apply Nat.ltb_lt in Hin. }
  split; [| |exact NI].
  - intros s i Hs Hi Hd. apply (proj2 (dof_position (a_ent ties [s; 0]) i (node0 s Hs) Hi)) in Hd.
    specialize (W s i _ Hs Hi (or_introl eq_refl)). cbn [fst snd] in W. lia.
  - intros j k Hj Hk Hd. assert (Hs : 0 < nt) by (destruct Hd as (s & i & Hs & _); lia).
    apply (proj2 (control_position j k Hj Hk)) in Hd.
    specialize (W 0 j (0 * ndim + j, idx2 (tp_control t) j k - 0, (val2 X (a_ent ties [0%nat; 1%nat]) k - val2 X (a_ent ties [0%nat; 0%nat]) k)%R) Hs Hj). cbn [fst snd] in W.
    enough (idx2 (tp_control t) j k - 0 < tp_nni t) by lia. apply W. right. apply in_concat. exists [(0 * ndim + j, idx2 (tp_control t) j k - 0, (val2 X (a_ent ties [0%nat; 1%nat]) k - val2 X (a_ent ties [0%nat; 0%nat]) k)%R)]. split; [|left; reflexivity]. apply in_map_iff. exists k. split; [reflexivity|apply in_seq; lia].
Qed.
End Chained.
