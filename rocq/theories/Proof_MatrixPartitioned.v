(** Proofs about MatrixPartitioned and MatrixPartitionedSolver. *)
From Coq Require Import Reals Lra.
From Verif Require Import Base Spec Sums Spec_Vector Spec_Matrix Model_Numbering Proof_Numbering Model_Vector Proof_Vector Proof_Vector2 Model_Sparse
  Model_VectorPartitioned Proof_VectorPartitioned Model_Tyings Proof_Tyings Proof_Tyings2 Model_Matrix Spec_MatrixOps Model_MatrixPartitioned Proof_Matrix.

(** writes at given places *)
Lemma write_index l val b n : length b = n -> NoDup l -> (forall d, In d l -> d < n) -> length val = length l ->
  exists b', bind (index_writes l val) (write_all b) = Ok b' /\ length b' = n /\
    (forall k d, nth_error l k = Some d -> val1 b' d = val1 val k) /\
    (forall d, d < n -> ~ In d l -> val1 b' d = val1 b d).
Proof.
  intros Lb Hn Hl Lv. rewrite index_writes_Ok by exact Lv. cbn [bind].
  destruct (write_all_Ok (combine l val) b) as [r [E [L [Hout [_ Hany]]]]].
  { intros k x Hin. apply in_combine_l in Hin. rewrite Lb. auto. }
  rewrite map_fst_combine' in Hout, Hany by assumption.
  exists r. split; [exact E|]. split; [congruence|]. split.
  - intros k d Hk. pose proof (nth_error_In _ _ Hk) as Hin. destruct (Hany d Hin) as [x [Hx1 Hx2]].
    apply In_combine_nth in Hx1; [|exact Lv]. destruct Hx1 as [k' [Hk' [Hv _]]].
    assert (Ek : k' = k) by (eapply NoDup_nth_error_inj; [exact Hn|exact Hk'|exact Hk]). rewrite Ek in Hv.
    unfold val1 at 1. apply nth_error_nth. congruence.
  - intros d Hd H1. unfold val1. specialize (Hout d H1). rewrite (nth_error_nth' b 0%R) in Hout by lia.
    apply nth_error_nth. exact Hout.
Qed.

Lemma In_nth_error_lt {A} (l : list A) k a : nth_error l k = Some a -> k < length l.
Proof. intro H. apply nth_error_Some. congruence. Qed.

(** the entries of four blocks are those of A *)
Record blocks (iiu iip : list nat) (A : nat -> nat -> R) (uu up pu pp : mat) : Prop := {
  b_size : (rows uu = length iiu /\ cols uu = length iiu /\ rows up = length iiu /\ cols up = length iip) /\
           (rows pu = length iip /\ cols pu = length iiu /\ rows pp = length iip /\ cols pp = length iip);
  b_uu : forall i j, i < length iiu -> j < length iiu -> ent uu i j = A (nth i iiu 0) (nth j iiu 0);
  b_up : forall i j, i < length iiu -> j < length iip -> ent up i j = A (nth i iiu 0) (nth j iip 0);
  b_pu : forall i j, i < length iip -> j < length iiu -> ent pu i j = A (nth i iip 0) (nth j iiu 0);
  b_pp : forall i j, i < length iip -> j < length iip -> ent pp i j = A (nth i iip 0) (nth j iip 0) }.

Section P.
Set Default Proof Using "All".
Variable v : Vector.
Variables nelem nne nnode ndim ndof : nat.
Hypothesis Hne : m_nne v = nne.
Hypothesis Hnd : m_ndim v = ndim.
Hypothesis Hmd : mesh_dofs (m_conn v) (m_dofs v) nelem nne nnode ndim ndof.
Variable iip : list nat.
Hypothesis Hiip : prescribed ndof iip.
Hypothesis Hh : no_holes (m_dofs v) ndof.
Notation dof := (idx2 (m_dofs v)).
Notation node := (idx2 (m_conn v)).
Notation asm := (assembled (m_conn v) (m_dofs v) nelem nne ndim).
Notation iiu := (setdiff1d (concat (m_dofs v)) iip).
Notation ii := (iiu ++ iip).

Lemma ii_NoDup : NoDup ii.
Proof. pose proof (vp_NoDup v ndof iip Hiip) as H. simpl in H. now rewrite app_nil_r in H. Qed.

Lemma iiu_bound d : In d iiu -> d < ndof.
Proof. exact (iiu_lt v nelem nne nnode ndim ndof Hne Hnd Hmd iip d). Qed.

Lemma ii_In d : In d ii <-> d < ndof.
Proof.
  rewrite in_app_iff. split.
  - intros [H|H]; [now apply iiu_bound|now apply Hiip].
  - intro H. destruct (in_dec Nat.eq_dec d iip); [now right|left]. apply setdiff1d_In. auto.
Qed.

Lemma ii_perm : Permutation ii (seq 0 ndof).
Proof.
  apply NoDup_Permutation; [apply ii_NoDup|apply seq_NoDup|]. intro d. rewrite ii_In, in_seq. lia.
Qed.

Lemma ii_length : length iiu + length iip = ndof.
Proof. rewrite <- app_length. rewrite (Permutation_length ii_perm). apply seq_length. Qed.

Lemma sum_split f : (sumn (length iiu) (fun k => f (nth k iiu 0%nat)) + sumn (length iip) (fun k => f (nth k iip 0%nat)))%R = sumn ndof f.
Proof. rewrite <- (sumn_reindex ndof ii f ii_perm), sumL_app. now rewrite <- !sumL_nth. Qed.

Lemma ii_inj k d r : nth_error ii k = Some d -> r < ndof -> (k =? r) = (d =? nth r ii 0).
Proof.
  intros Hk Hr. assert (Lr : nth_error ii r = Some (nth r ii 0)) by (apply nth_error_nth'; rewrite app_length, ii_length; exact Hr).
  destruct (Nat.eqb_spec k r) as [->|N], (Nat.eqb_spec d (nth r ii 0)) as [E|E]; auto.
  - rewrite Hk in Lr. injection Lr as Lr. contradiction.
  - exfalso. apply N. eapply NoDup_nth_error_inj; [apply ii_NoDup|exact Hk|congruence].
Qed.

Lemma nth_ii_u i : i < length iiu -> nth i ii 0 = nth i iiu 0.
Proof. intro H. now apply app_nth1. Qed.
Lemma nth_ii_p i : nth (length iiu + i) ii 0 = nth i iip 0.
Proof. rewrite app_nth2 by lia. f_equal. lia. Qed.

(** ** construction *)
Definition mp_ok (a : MatrixPartitioned) : Prop := new_VectorPartitioned v iip = Ok (MP_p a) /\
  length (MP_part1d a) = ndof /\ forall d, d < ndof -> nth_error ii (nth d (MP_part1d a) 0) = Some d.
Definition mp_is (a : MatrixPartitioned) (A : nat -> nat -> R) : Prop :=
  mp_ok a /\ blocks iiu iip A (A_uu a) (A_up a) (A_pu a) (A_pp a).

Theorem mp_new : exists a, new_MatrixPartitioned v iip = Ok a /\ mp_is a (fun _ _ => 0%R) /\ MP_changed a = true.
Proof.
  unfold new_MatrixPartitioned. destruct (vp_new v nelem nne nnode ndim ndof Hne Hnd Hmd iip Hiip) as [p [Ep _]].
  rewrite Ep. cbn [bind]. destruct (vp_facts v nelem nne nnode ndim ndof Hne Hnd Hmd iip Hiip p Ep) as [_ [E1 [E2 _]]]. unfold m_nnu, m_nnp. rewrite E1, E2.
  assert (N2 : NoDup (concat [iiu; iip])) by (simpl; rewrite app_nil_r; apply ii_NoDup).
  destruct (Reorder_Ok [iiu; iip] N2) as [r [Er [Hr _]]]. simpl concat in Hr. rewrite app_nil_r in Hr.
  rewrite Er. cbn [bind]. destruct (V_sizes v nelem nne nnode ndim ndof Hne Hnd Hmd) as [_ [_ ->]].
  set (f := fun a => match nth_error r a with Some (Some k) => k | _ => 0 end).
  assert (Hf : forall d, d < ndof -> get_init r d = Ok (f d) /\ nth_error ii (f d) = Some d).
  { intros d Hd. apply ii_In, In_nth_error in Hd. destruct Hd as [k Hk]. pose proof (Hr k d Hk) as E. unfold f. rewrite E.
    split; [now apply get_init_Some|exact Hk]. }
  unfold Reorder_apply. rewrite (mapM_Ok _ _ f). 2:{ intros d Hd. apply in_seq in Hd. apply Hf. lia. }
  cbn [bind]. eexists. split; [reflexivity|]. split; [|reflexivity]. split.
  - split; [exact Ep|]. cbn [MP_part1d]. split; [now rewrite map_length, seq_length|]. intros d Hd. rewrite nth_map_seq by exact Hd. now apply Hf.
  - split; cbn; auto 10.
Qed.

(** ** triplets *)
Lemma part_blocks_spec p ts : new_VectorPartitioned v iip = Ok p -> (forall t, In t ts -> trow t < ndof /\ tcol t < ndof) ->
  exists b, part_blocks p ts = Ok b /\ forall A, (forall r c, r < ndof -> c < ndof -> entT ts r c = A (nth r ii 0) (nth c ii 0)) ->
    blocks iiu iip A (fst (fst (fst b))) (snd (fst (fst b))) (snd (fst b)) (snd b).
Proof.
  intros Ep Hb. unfold part_blocks. rewrite (vp_nnu v nelem nne nnode ndim ndof Hne Hnd Hmd iip Hiip p Ep), (vp_nnp v nelem nne nnode ndim ndof Hne Hnd Hmd iip Hiip p Ep).
  set (nu := length iiu). set (np := length iip). pose proof ii_length as HN. fold nu np in HN.
  destruct (sel_Ok (fun di dj => (di <? nu) && (dj <? nu)) 0 0 nu nu ts) as [uu [E1 [R1 [C1 H1]]]].
  { intros t Ht. destruct (Nat.ltb_spec (trow t) nu), (Nat.ltb_spec (tcol t) nu); cbn; intro; try discriminate; lia. }
  { intros i j Hi Hj. destruct (Nat.ltb_spec (0 + i) nu), (Nat.ltb_spec (0 + j) nu); cbn; try lia; reflexivity. }
  rewrite E1. cbn [bind].
  destruct (sel_Ok (fun di dj => negb ((di <? nu) && (dj <? nu)) && (di <? nu)) 0 nu nu np ts) as [up [E2 [R2 [C2 H2]]]].
  { intros t Ht. specialize (Hb t Ht). destruct (Nat.ltb_spec (trow t) nu), (Nat.ltb_spec (tcol t) nu); cbn; intro; try discriminate; lia. }
  { intros i j Hi Hj. destruct (Nat.ltb_spec (0 + i) nu), (Nat.ltb_spec (nu + j) nu); cbn; try lia; reflexivity. }
  rewrite E2. cbn [bind].
  destruct (sel_Ok (fun di dj => negb ((di <? nu) && (dj <? nu)) && negb (di <? nu) && (dj <? nu)) nu 0 np nu ts) as [pu [E3 [R3 [C3 H3]]]].
  { intros t Ht. specialize (Hb t Ht). destruct (Nat.ltb_spec (trow t) nu), (Nat.ltb_spec (tcol t) nu); cbn; intro; try discriminate; lia. }
  { intros i j Hi Hj. destruct (Nat.ltb_spec (nu + i) nu), (Nat.ltb_spec (0 + j) nu); cbn; try lia; reflexivity. }
  rewrite E3. cbn [bind].
  destruct (sel_Ok (fun di dj => negb ((di <? nu) && (dj <? nu)) && negb (di <? nu) && negb (dj <? nu)) nu nu np np ts) as [pp [E4 [R4 [C4 H4]]]].
  { intros t Ht. specialize (Hb t Ht). destruct (Nat.ltb_spec (trow t) nu), (Nat.ltb_spec (tcol t) nu); cbn; intro; try discriminate; lia. }
  { intros i j Hi Hj. destruct (Nat.ltb_spec (nu + i) nu), (Nat.ltb_spec (nu + j) nu); cbn; try lia; reflexivity. }
  rewrite E4. cbn [bind]. eexists. split; [reflexivity|]. intros A HA. cbn [fst snd]. split; auto 10; intros i j Hi Hj; fold nu np in Hi, Hj.
  - rewrite H1 by assumption. rewrite HA by lia. cbn [Nat.add]. now rewrite !nth_ii_u.
  - rewrite H2 by assumption. rewrite HA by lia. cbn [Nat.add]. unfold nu. now rewrite (nth_ii_u i), nth_ii_p.
  - rewrite H3 by assumption. rewrite HA by lia. cbn [Nat.add]. unfold nu. now rewrite (nth_ii_u j), nth_ii_p.
  - rewrite H4 by assumption. rewrite HA by lia. unfold nu. now rewrite !nth_ii_p.
Qed.

Lemma ii_nth_lt k d : nth_error ii k = Some d -> k < ndof.
Proof. intro H. apply In_nth_error_lt in H. rewrite app_length, ii_length in H. exact H. Qed.

Theorem mp_assemble a B K : mp_is a B -> shape3 K nelem (nne * ndim) (nne * ndim) ->
  exists a', MP_assemble a K = Ok a' /\ mp_is a' (asm K) /\ MP_changed a' = true.
Proof.
  intros [[Ep [L1 P1]] _] HK. unfold MP_assemble.
  destruct (vp_facts v nelem nne nnode ndim ndof Hne Hnd Hmd iip Hiip _ Ep) as [Ev [_ [_ [_ Hpart]]]]. rewrite Ev.
  destruct (elemmat_triplets_spec v nelem nne nnode ndim ndof (fun e m i => do n <- get2 (m_conn v) e m; get2 (m_part (MP_p a)) n i)
     (fun e m i => idx2 (m_part (MP_p a)) (node e m) i) ndof K Hne Hnd Hmd) as [ts [E [Hb Hs]]].
  - intros e m i He Hm Hi. rewrite (V_get_node v nelem nne nnode ndim ndof Hne Hnd Hmd) by assumption. cbn [bind].
    pose proof (V_node v nelem nne nnode ndim ndof Hne Hnd Hmd e m He Hm) as Hn.
    split; [now apply (vp_get_part v nelem nne nnode ndim ndof Hne Hnd Hmd iip Hiip _ Ep)|].
    eapply ii_nth_lt. now apply Hpart.
  - exact HK.
  - rewrite E. cbn [bind]. destruct (part_blocks_spec (MP_p a) ts Ep Hb) as [b [Eb Hblk]]. rewrite Eb. cbn [bind].
    eexists. split; [reflexivity|]. split; [|reflexivity]. split; [split; [exact Ep|split; assumption]|]. apply Hblk.
    intros r c Hr Hc. unfold entT. rewrite (Hs (fun x y => ind ((x =? r) && (y =? c))%nat)). unfold assembled, sum_elem.
    apply sumn_ext. intros e He. apply sumn_ext. intros m Hm. apply sumn_ext. intros i Hi. apply sumn_ext. intros n Hn. apply sumn_ext. intros j Hj.
    rewrite ind_and.
    rewrite (ii_inj (idx2 (m_part (MP_p a)) (node e m) i) (dof (node e m) i) r); [|apply Hpart; [now apply (V_node v nelem nne nnode ndim ndof Hne Hnd Hmd)|exact Hi]|exact Hr].
    rewrite (ii_inj (idx2 (m_part (MP_p a)) (node e n) j) (dof (node e n) j) c); [lra|apply Hpart; [now apply (V_node v nelem nne nnode ndim ndof Hne Hnd Hmd)|exact Hj]|exact Hc].
Qed.

Lemma mp_block a rs cs M : mp_ok a -> (forall r, In r rs \/ In r cs -> r < ndof) -> shape2 M (length rs) (length cs) ->
  exists ts, block_triplets (get (MP_part1d a)) rs cs M = Ok ts /\ (forall t, In t ts -> trow t < ndof /\ tcol t < ndof) /\
    forall r c, r < ndof -> c < ndof -> entT ts r c = block rs cs M (nth r ii 0) (nth c ii 0).
Proof.
  intros [Ep [L1 P1]] Hr HM. destruct (block_triplets_spec (get (MP_part1d a)) (fun d => nth d (MP_part1d a) 0) ndof rs cs M) as [ts [E [Hb Hs]]].
  - intros d Hd. specialize (Hr d Hd). split; [apply get_nth; lia|]. eapply ii_nth_lt. now apply P1.
  - exact HM.
  - exists ts. split; [exact E|]. split; [exact Hb|]. intros r c Hr' Hc. unfold entT. rewrite (Hs (fun x y => ind ((x =? r) && (y =? c))%nat)).
    unfold block. apply sumn_ext. intros i Hi. apply sumn_ext. intros j Hj. rewrite ind_and.
    rewrite (ii_inj _ (nth i rs 0) r); [|apply P1, Hr; left; now apply nth_In|exact Hr'].
    rewrite (ii_inj _ (nth j cs 0) c); [lra|apply P1, Hr; right; now apply nth_In|exact Hc].
Qed.

Theorem mp_set a B rs cs M : mp_is a B -> (forall r, In r rs \/ In r cs -> r < ndof) -> shape2 M (length rs) (length cs) ->
  exists a', MP_set a rs cs M = Ok a' /\ mp_is a' (block rs cs M) /\ MP_changed a' = true.
Proof.
  intros [Hok _] Hr HM. unfold MP_set. destruct (mp_block a rs cs M Hok Hr HM) as [ts [E [Hb Hs]]]. rewrite E. cbn [bind].
  destruct Hok as [Ep [L1 P1]]. destruct (part_blocks_spec (MP_p a) ts Ep Hb) as [b [Eb Hblk]]. rewrite Eb. cbn [bind].
  eexists. split; [reflexivity|]. split; [|reflexivity]. split; [split; [exact Ep|split; assumption]|]. now apply Hblk.
Qed.

Lemma addmat_Ok a b r c : rows a = r -> cols a = c -> rows b = r -> cols b = c ->
  addmat a b = Ok (mkMat r c (fun i j => ent a i j + ent b i j)%R).
Proof. intros H1 H2 H3 H4. unfold addmat. rewrite H1, H2, H3, H4, !Nat.eqb_refl. reflexivity. Qed.

Theorem mp_add a B rs cs M : mp_is a B -> (forall r, In r rs \/ In r cs -> r < ndof) -> shape2 M (length rs) (length cs) ->
  exists a', MP_add a rs cs M = Ok a' /\ mp_is a' (fun r c => B r c + block rs cs M r c)%R /\ MP_changed a' = true.
Proof.
  intros [Hok HB] Hr HM. unfold MP_add. destruct (mp_block a rs cs M Hok Hr HM) as [ts [E [Hb Hs]]]. rewrite E. cbn [bind].
  destruct Hok as [Ep [L1 P1]]. destruct (part_blocks_spec (MP_p a) ts Ep Hb) as [b [Eb Hblk]]. rewrite Eb. cbn [bind].
  specialize (Hblk _ Hs). destruct b as [[[uu up] pu] pp]. cbn [fst snd] in *.
  destruct HB as [[[S1 [S2 [S3 S4]]] [S5 [S6 [S7 S8]]]] B1 B2 B3 B4]. destruct Hblk as [[[T1 [T2 [T3 T4]]] [T5 [T6 [T7 T8]]]] D1 D2 D3 D4].
  rewrite (addmat_Ok _ _ _ _ S1 S2 T1 T2), (addmat_Ok _ _ _ _ S3 S4 T3 T4), (addmat_Ok _ _ _ _ S5 S6 T5 T6), (addmat_Ok _ _ _ _ S7 S8 T7 T8). cbn [bind].
  eexists. split; [reflexivity|]. split; [|reflexivity]. split; [split; [exact Ep|split; assumption]|]. cbn [A_uu A_up A_pu A_pp with_blocks fst snd].
  split; cbn [rows cols ent]; auto 10; intros i j Hi Hj.
  - now rewrite B1, D1.
  - now rewrite B2, D2.
  - now rewrite B3, D3.
  - now rewrite B4, D4.
Qed.

(** ** products *)
Notation xof l x xl := (length xl = length l /\ forall k d, nth_error l k = Some d -> val1 xl k = x d).

Lemma B_spec a A x xu xp : mp_is a A -> xof iiu x xu -> xof iip x xp ->
  exists bu bp, B_u a xu xp = Ok bu /\ B_p a xu xp = Ok bp /\ xof iiu (mv ndof A x) bu /\ xof iip (mv ndof A x) bp.
Proof.
  intros [_ [[[S1 [S2 [S3 S4]]] [S5 [S6 [S7 S8]]]] B1 B2 B3 B4]] [Lu Hu] [Lp Hp]. unfold B_u, B_p.
  assert (X : forall f, (sumn (length iiu) (fun k => f (nth k iiu 0%nat) * val1 xu k) + sumn (length iip) (fun k => f (nth k iip 0%nat) * val1 xp k) = sumn ndof (fun d => f d * x d))%R).
  { intro f. rewrite <- (sum_split (fun d => f d * x d)%R). f_equal; apply sumn_ext; intros k Hk.
    - now rewrite (Hu k (nth k iiu 0)) by now apply nth_error_nth'.
    - now rewrite (Hp k (nth k iip 0)) by now apply nth_error_nth'. }
  destruct (mulvec_spec (A_uu a) xu) as [y1 [E1 [L1 V1]]]; [congruence|]. destruct (mulvec_spec (A_up a) xp) as [y2 [E2 [L2 V2]]]; [congruence|].
  destruct (mulvec_spec (A_pu a) xu) as [y3 [E3 [L3 V3]]]; [congruence|]. destruct (mulvec_spec (A_pp a) xp) as [y4 [E4 [L4 V4]]]; [congruence|].
  rewrite E1, E2, E3, E4. cbn [bind].
  destruct (vec2_spec Rplus y1 y2 (length iiu)) as [bu [Eu [Lbu Vbu]]]; [congruence|congruence|].
  destruct (vec2_spec Rplus y3 y4 (length iip)) as [bp [Ep [Lbp Vbp]]]; [congruence|congruence|].
  exists bu, bp. split; [exact Eu|]. split; [exact Ep|]. split; (split; [assumption|]); intros k d Hk; pose proof (In_nth_error_lt _ _ _ Hk) as Hlt; apply (nth_error_nth _ _ 0) in Hk.
  - rewrite Vbu by exact Hlt. rewrite V1, V2 by congruence. unfold mv. rewrite <- X. rewrite S2, S4. f_equal; apply sumn_ext; intros j Hj.
    + now rewrite B1, Hk.
    + now rewrite B2, Hk.
  - rewrite Vbp by exact Hlt. rewrite V3, V4 by congruence. unfold mv. rewrite <- X. rewrite S6, S8. f_equal; apply sumn_ext; intros j Hj.
    + now rewrite B3, Hk.
    + now rewrite B4, Hk.
Qed.

(** the DOF values of consistent nodal values *)
Lemma nodevec_dofs p order u : new_VectorPartitioned v iip = Ok p -> Permutation order (node_iters v) -> shape2 u nnode ndim -> agree2 (m_dofs v) nnode ndim u ->
  exists x xu xp, AsDofs_nodevec v order u = Ok x /\ length x = ndof /\ (forall m i, m < nnode -> i < ndim -> val1 x (dof m i) = val2 u m i) /\
    AsDofs_u_nodevec p order u = Ok xu /\ AsDofs_p_nodevec p order u = Ok xp /\ xof iiu (val1 x) xu /\ xof iip (val1 x) xp.
Proof.
  intros Ep Ho Hu Ha. destruct (AsDofs_nodevec_spec v nelem nne nnode ndim ndof Hne Hnd Hmd order u Ho Hu Ha) as [x [Ex [Lx [Hx _]]]].
  destruct (AsDofs_up_nodevec v nelem nne nnode ndim ndof Hne Hnd Hmd iip Hiip p Ep order u Ho Hu Ha) as [xu [xp [Eu [Ep' [Lu [Lp [H _]]]]]]].
  exists x, xu, xp. do 5 (split; [assumption|]).
  assert (D : forall d, d < ndof -> exists m i, m < nnode /\ i < ndim /\ dof m i = d).
  { intros d Hd. apply (In_concat_nth2 (m_dofs v) nnode ndim d (md_dofs _ _ _ _ _ _ _ Hmd)). now apply Hh. }
  split; (split; [assumption|]); intros k d Hk; destruct (D d) as [m [i [Hm [Hi Ed]]]];
    try (apply iiu_bound; eapply nth_error_In; exact Hk); try (apply Hiip; eapply nth_error_In; exact Hk); rewrite <- Ed in *; rewrite Hx by assumption; now apply (H m i Hm Hi).
Qed.

Lemma dofval_dofs p x : new_VectorPartitioned v iip = Ok p -> length x = ndof ->
  exists xu xp, AsDofs_u_dofval p x = Ok xu /\ AsDofs_p_dofval p x = Ok xp /\ xof iiu (val1 x) xu /\ xof iip (val1 x) xp.
Proof.
  intros Ep L. destruct (select_spec v nelem nne nnode ndim ndof Hne Hnd Hmd iip Hiip p Ep x L) as [xu [xp [E1 [E2 [L1 [L2 [H1 H2]]]]]]].
  exists xu, xp. auto 10.
Qed.

Lemma ii_cases d : d < ndof -> (exists k, nth_error iiu k = Some d) \/ (exists k, nth_error iip k = Some d).
Proof.
  intro H. apply ii_In, in_app_or in H. destruct H as [H|H]; apply In_nth_error in H; destruct H as [k Hk]; eauto.
Qed.

Lemma iip_not_u d : In d iip -> ~ In d iiu.
Proof. intros H H2. apply setdiff1d_In in H2. tauto. Qed.

Theorem mp_dot_dofval a A x b : mp_is a A -> length x = ndof -> length b = ndof ->
  exists y, MP_dot_dofval a x b = Ok y /\ length y = ndof /\ forall d, d < ndof -> val1 y d = mv ndof A (val1 x) d.
Proof.
  intros Ha Lx Lb. pose proof Ha as [[Ep _] _]. unfold MP_dot_dofval.
  destruct (dofval_dofs _ x Ep Lx) as [xu [xp [Eu [Exp [Hu Hp]]]]]. rewrite Eu, Exp. cbn [bind].
  destruct (B_spec a A _ xu xp Ha Hu Hp) as [bu [bp [E1 [E2 [[L1 V1] [L2 V2]]]]]]. rewrite E1, E2. cbn [bind].
  destruct (vp_facts v nelem nne nnode ndim ndof Hne Hnd Hmd iip Hiip _ Ep) as [_ [-> [-> _]]].
  destruct (write_index iiu bu b ndof) as [b1 [W1 [Lb1 [I1 O1]]]]; [exact Lb|apply setdiff1d_NoDup|apply iiu_bound|exact L1|].
  destruct (index_writes iiu bu) as [w| | |]; try discriminate. cbn [bind] in *. rewrite W1. cbn [bind].
  destruct (write_index iip bp b1 ndof) as [b2 [W2 [Lb2 [I2 O2]]]]; [exact Lb1|apply Hiip|apply Hiip|exact L2|].
  exists b2. split; [exact W2|]. split; [exact Lb2|]. intros d Hd. destruct (ii_cases d Hd) as [[k Hk]|[k Hk]].
  - rewrite O2; [|exact Hd|]. + rewrite (I1 k d Hk). now apply V1. + intro Hin. apply (iip_not_u d Hin). eapply nth_error_In; exact Hk.
  - rewrite (I2 k d Hk). now apply V2.
Qed.

Theorem mp_reaction_dofval a A x b : mp_is a A -> length x = ndof -> length b = ndof ->
  exists y, MP_reaction_dofval a x b = Ok y /\ length y = ndof /\
    (forall d, In d iip -> val1 y d = mv ndof A (val1 x) d) /\ (forall d, d < ndof -> ~ In d iip -> val1 y d = val1 b d).
Proof.
  intros Ha Lx Lb. pose proof Ha as [[Ep _] _]. unfold MP_reaction_dofval.
  destruct (dofval_dofs _ x Ep Lx) as [xu [xp [Eu [Exp [Hu Hp]]]]]. rewrite Eu, Exp. cbn [bind].
  destruct (B_spec a A _ xu xp Ha Hu Hp) as [bu [bp [E1 [E2 [[L1 V1] [L2 V2]]]]]]. rewrite E2. cbn [bind].
  destruct (vp_facts v nelem nne nnode ndim ndof Hne Hnd Hmd iip Hiip _ Ep) as [_ [_ [-> _]]].
  destruct (write_index iip bp b ndof) as [b2 [W2 [Lb2 [I2 O2]]]]; [exact Lb|apply Hiip|apply Hiip|exact L2|].
  exists b2. split; [exact W2|]. split; [exact Lb2|]. split; [|exact O2]. intros d Hd. apply In_nth_error in Hd. destruct Hd as [k Hk].
  rewrite (I2 k d Hk). now apply V2.
Qed.

Lemma part_read p xu xp y m i : new_VectorPartitioned v iip = Ok p -> xof iiu y xu -> xof iip y xp -> m < nnode -> i < ndim ->
  let k := idx2 (m_part p) m i in
  (In (dof m i) iip /\ m_nnu p <= k /\ get xp (k - m_nnu p) = Ok (y (dof m i))) \/ (~ In (dof m i) iip /\ k < m_nnu p /\ get xu k = Ok (y (dof m i))).
Proof.
  intros Ep [Lu Hu] [Lp Hp] Hm Hi k. rewrite (vp_nnu v nelem nne nnode ndim ndof Hne Hnd Hmd iip Hiip p Ep).
  destruct (vp_part v nelem nne nnode ndim ndof Hne Hnd Hmd iip Hiip p Ep m i Hm Hi) as [[H1 [H2 H3]]|[H1 [H2 H3]]]; [right|left]; fold k in H1, H2;
    (split; [exact H3|]); (split; [exact H1|]).
  - rewrite (get_nth 0%R) by lia. f_equal. now apply Hu.
  - pose proof (In_nth_error_lt _ _ _ H2). rewrite (get_nth 0%R) by lia. f_equal. now apply Hp.
Qed.

Theorem mp_dot_nodevec a A order u x : mp_is a A -> Permutation order (node_iters v) -> shape2 u nnode ndim -> agree2 (m_dofs v) nnode ndim u ->
  AsDofs_nodevec v order u = Ok x ->
  exists y, MP_dot_nodevec a order u = Ok y /\ shape2 y nnode ndim /\ forall m i, m < nnode -> i < ndim -> val2 y m i = mv ndof A (val1 x) (dof m i).
Proof.
  intros Ha Ho Su Hu Ex. pose proof Ha as [[Ep _] _]. unfold MP_dot_nodevec.
  destruct (nodevec_dofs _ order u Ep Ho Su Hu) as [x' [xu [xp [Ex' [Lx [Hx [Eu [Exp [Xu Xp]]]]]]]]]. rewrite Ex in Ex'. injection Ex' as Ex'. rewrite <- Ex' in *.
  rewrite Eu, Exp. cbn [bind]. destruct (B_spec a A _ xu xp Ha Xu Xp) as [bu [bp [E1 [E2 [V1 V2]]]]]. rewrite E1, E2. cbn [bind].
  destruct (vp_sizes v nelem nne nnode ndim ndof Hne Hnd Hmd iip Hiip _ Ep) as [_ [-> [_ [_ ->]]]].
  rewrite (fill2_Ok _ _ _ (fun m i => mv ndof A (val1 x) (dof m i))).
  - eexists. split; [reflexivity|]. split; [apply tab2_shape|]. intros m i Hm Hi. unfold val2. now rewrite tab2_nth by assumption.
  - intros m i Hm Hi. rewrite (vp_get_part v nelem nne nnode ndim ndof Hne Hnd Hmd iip Hiip _ Ep) by assumption. cbn [bind].
    destruct (part_read _ bu bp _ m i Ep V1 V2 Hm Hi) as [[_ [Hk G]]|[_ [Hk G]]]; destruct (Nat.ltb_spec (idx2 (m_part (MP_p a)) m i) (m_nnu (MP_p a))); try lia; exact G.
Qed.

Theorem mp_reaction_nodevec a A order u b x : mp_is a A -> Permutation order (node_iters v) -> shape2 u nnode ndim -> agree2 (m_dofs v) nnode ndim u ->
  shape2 b nnode ndim -> AsDofs_nodevec v order u = Ok x ->
  exists y, MP_reaction_nodevec a order u b = Ok y /\ shape2 y nnode ndim /\ forall m i, m < nnode -> i < ndim ->
    (In (dof m i) iip -> val2 y m i = mv ndof A (val1 x) (dof m i)) /\ (~ In (dof m i) iip -> val2 y m i = val2 b m i).
Proof.
  intros Ha Ho Su Hu Sb Ex. pose proof Ha as [[Ep _] _]. unfold MP_reaction_nodevec.
  destruct (nodevec_dofs _ order u Ep Ho Su Hu) as [x' [xu [xp [Ex' [Lx [Hx [Eu [Exp [Xu Xp]]]]]]]]]. rewrite Ex in Ex'. injection Ex' as Ex'. rewrite <- Ex' in *.
  rewrite Eu, Exp. cbn [bind]. destruct (B_spec a A _ xu xp Ha Xu Xp) as [bu [bp [E1 [E2 [V1 V2]]]]]. rewrite E2. cbn [bind].
  destruct (vp_sizes v nelem nne nnode ndim ndof Hne Hnd Hmd iip Hiip _ Ep) as [_ [-> [_ [_ ->]]]].
  rewrite (fill2_Ok _ _ _ (fun m i => if m_nnu (MP_p a) <=? idx2 (m_part (MP_p a)) m i then mv ndof A (val1 x) (dof m i) else val2 b m i)).
  - eexists. split; [reflexivity|]. split; [apply tab2_shape|]. intros m i Hm Hi.
    destruct (part_read _ bu bp _ m i Ep V1 V2 Hm Hi) as [[Hin [Hk _]]|[Hin [Hk _]]]; unfold val2 at 1 3; rewrite !tab2_nth by assumption;
      destruct (Nat.leb_spec (m_nnu (MP_p a)) (idx2 (m_part (MP_p a)) m i)); try lia; split; intro; try contradiction; reflexivity.
  - intros m i Hm Hi. rewrite (vp_get_part v nelem nne nnode ndim ndof Hne Hnd Hmd iip Hiip _ Ep) by assumption. cbn [bind].
    destruct (part_read _ bu bp _ m i Ep V1 V2 Hm Hi) as [[_ [Hk G]]|[_ [Hk G]]]; destruct (Nat.leb_spec (m_nnu (MP_p a)) (idx2 (m_part (MP_p a)) m i)); try lia.
    + exact G.
    + now apply (get2_nth 0%R _ nnode ndim).
Qed.
End P.
Unset Default Proof Using.

(** ** dense *)
Lemma dense_block l l' a z n : rows a = length l -> cols a = length l' -> NoDup l -> NoDup l' ->
  (forall d, In d l -> d < n) -> (forall d, In d l' -> d < n) -> shape2 z n n ->
  exists z', bind (dense_writes (get l) (get l') a) (write2_all z) = Ok z' /\ shape2 z' n n /\
    (forall i j r c, nth_error l i = Some r -> nth_error l' j = Some c -> val2 z' r c = ent a i j) /\
    (forall r c, r < n -> c < n -> ~ (In r l /\ In c l') -> val2 z' r c = val2 z r c).
Proof.
  intros HR HC N1 N2 B1 B2 Sz. unfold dense_writes. rewrite HR, HC.
  rewrite (mapM_Ok _ _ (fun rc => (nth (fst rc) l 0, nth (snd rc) l' 0, ent a (fst rc) (snd rc)))).
  2:{ intros [i j] H. apply in_prod_iff in H. rewrite !in_seq in H. cbn [fst snd]. rewrite (get_nth 0 l) by lia. cbn [bind]. now rewrite (get_nth 0 l') by lia. }
  cbn [bind].
  set (ws := map _ _).
  assert (In3 : forall r c x, In (r, c, x) ws <-> exists i j, nth_error l i = Some r /\ nth_error l' j = Some c /\ x = ent a i j).
  { intros r c x. unfold ws. rewrite in_map_iff. split.
    - intros [[i j] [E H]]. cbn [fst snd] in E. injection E as E1 E2 E3. apply in_prod_iff in H. rewrite !in_seq in H. exists i, j.
      rewrite <- E1, <- E2. split; [apply nth_error_nth'; lia|]. split; [apply nth_error_nth'; lia|congruence].
    - intros [i [j [Hi [Hj ->]]]]. exists (i, j). cbn [fst snd]. rewrite (nth_error_nth _ _ 0 Hi), (nth_error_nth _ _ 0 Hj). split; [reflexivity|].
      apply in_prod_iff. rewrite !in_seq. apply In_nth_error_lt in Hi. apply In_nth_error_lt in Hj. lia. }
  destruct (write2_all_Ok 0%R n n ws z Sz) as [u [E [Su [Hout Hany]]]].
  { intros k j x H. apply In3 in H. destruct H as [i' [j' [H1 [H2 _]]]]. apply nth_error_In in H1. apply nth_error_In in H2. auto. }
  exists u. split; [exact E|]. split; [exact Su|]. split.
  - intros i j r c Hi Hj. destruct (Hany r c) as [x [Hx1 Hx2]].
    + apply in_map_iff. exists (r, c, ent a i j). split; [reflexivity|]. apply In3. eauto.
    + unfold val2. rewrite Hx2. apply In3 in Hx1. destruct Hx1 as [i' [j' [H1 [H2 ->]]]].
      rewrite (NoDup_nth_error_inj _ _ _ _ N1 H1 Hi), (NoDup_nth_error_inj _ _ _ _ N2 H2 Hj). reflexivity.
  - intros r c Hr Hc Hn. unfold val2. apply Hout; auto. intro Hin. apply in_map_iff in Hin. destruct Hin as [[[r' c'] x] [E1 H]]. cbn [fst] in E1.
    injection E1 as Er Ec. apply In3 in H. destruct H as [i [j [H1 [H2 _]]]]. apply Hn. apply nth_error_In in H1. apply nth_error_In in H2. rewrite <- Er, <- Ec. auto.
Qed.

Section P2.
Set Default Proof Using "All".
Variable v : Vector.
Variables nelem nne nnode ndim ndof : nat.
Hypothesis Hne : m_nne v = nne.
Hypothesis Hnd : m_ndim v = ndim.
Hypothesis Hmd : mesh_dofs (m_conn v) (m_dofs v) nelem nne nnode ndim ndof.
Variable iip : list nat.
Hypothesis Hiip : prescribed ndof iip.
Hypothesis Hh : no_holes (m_dofs v) ndof.
Notation dof := (idx2 (m_dofs v)).
Notation iiu := (setdiff1d (concat (m_dofs v)) iip).
Notation mpis := (mp_is v ndof iip).

Theorem mp_todense a A : mpis a A -> exists dn, MP_todense a = Ok dn /\ is_dense ndof dn A.
Proof.
  intros [[Ep _] [[[S1 [S2 [S3 S4]]] [S5 [S6 [S7 S8]]]] B1 B2 B3 B4]]. unfold MP_todense.
  destruct (vp_sizes v nelem nne nnode ndim ndof Hne Hnd Hmd iip Hiip _ Ep) as [_ [_ [-> _]]].
  destruct (vp_facts v nelem nne nnode ndim ndof Hne Hnd Hmd iip Hiip _ Ep) as [_ [-> [-> _]]].
  set (z := repeat (repeat 0%R ndof) ndof).
  assert (S0 : shape2 z ndof ndof).
  { split; [apply repeat_length|]. intros r Hx. apply repeat_spec in Hx. rewrite Hx. apply repeat_length. }
  assert (Nu : NoDup iiu) by apply setdiff1d_NoDup. pose proof (proj1 Hiip) as Np. pose proof (proj2 Hiip) as Bp.
  assert (Bu : forall d, In d iiu -> d < ndof) by (apply (iiu_bound v nelem nne nnode ndim ndof Hne Hnd Hmd iip Hiip Hh)).
  destruct (dense_block iiu iiu (A_uu a) z ndof S1 S2 Nu Nu Bu Bu S0) as [z1 [E1 [Z1 [I1 O1]]]].
  destruct (dense_writes (get iiu) (get iiu) (A_uu a)) as [w1| | |]; try discriminate. cbn [bind] in *. rewrite E1. cbn [bind].
  destruct (dense_block iiu iip (A_up a) z1 ndof S3 S4 Nu Np Bu Bp Z1) as [z2 [E2 [Z2 [I2 O2]]]].
  destruct (dense_writes (get iiu) (get iip) (A_up a)) as [w2| | |]; try discriminate. cbn [bind] in *. rewrite E2. cbn [bind].
  destruct (dense_block iip iiu (A_pu a) z2 ndof S5 S6 Np Nu Bp Bu Z2) as [z3 [E3 [Z3 [I3 O3]]]].
  destruct (dense_writes (get iip) (get iiu) (A_pu a)) as [w3| | |]; try discriminate. cbn [bind] in *. rewrite E3. cbn [bind].
  destruct (dense_block iip iip (A_pp a) z3 ndof S7 S8 Np Np Bp Bp Z3) as [z4 [E4 [Z4 [I4 O4]]]].
  destruct (dense_writes (get iip) (get iip) (A_pp a)) as [w4| | |]; try discriminate. cbn [bind] in *.
  exists z4. split; [exact E4|]. split; [exact Z4|]. intros r c Hr Hc.
  assert (X : forall d, In d iip -> ~ In d iiu) by (intros d Hd Hd'; apply setdiff1d_In in Hd'; tauto).
  destruct (ii_cases v nelem nne nnode ndim ndof Hne Hnd Hmd iip Hiip Hh r Hr) as [[i Hi]|[i Hi]], (ii_cases v nelem nne nnode ndim ndof Hne Hnd Hmd iip Hiip Hh c Hc) as [[j Hj]|[j Hj]];
    pose proof (nth_error_In _ _ Hi) as Ii; pose proof (nth_error_In _ _ Hj) as Ij; pose proof (In_nth_error_lt _ _ _ Hi) as Li; pose proof (In_nth_error_lt _ _ _ Hj) as Lj.
  - rewrite O4, O3, O2, (I1 i j r c Hi Hj), B1 by (try assumption; pose proof (X r); pose proof (X c); tauto). now rewrite (nth_error_nth _ _ 0 Hi), (nth_error_nth _ _ 0 Hj).
  - rewrite O4, O3, (I2 i j r c Hi Hj), B2 by (try assumption; pose proof (X r); pose proof (X c); tauto). now rewrite (nth_error_nth _ _ 0 Hi), (nth_error_nth _ _ 0 Hj).
  - rewrite O4, (I3 i j r c Hi Hj), B3 by (try assumption; pose proof (X r); pose proof (X c); tauto). now rewrite (nth_error_nth _ _ 0 Hi), (nth_error_nth _ _ 0 Hj).
  - rewrite (I4 i j r c Hi Hj), B4 by auto. now rewrite (nth_error_nth _ _ 0 Hi), (nth_error_nth _ _ 0 Hj).
Qed.

(** ** histories *)
Notation mop_ok := (valid_op nelem nne ndim ndof).
Notation mop_entry := (entry_after (m_conn v) (m_dofs v) nelem nne ndim).

Lemma mpis_ext a A B : (forall r c, A r c = B r c) -> mpis a A -> mpis a B.
Proof. intros E [H [S B1 B2 B3 B4]]. split; [exact H|]. split; auto; intros; rewrite <- E; auto. Qed.

Lemma run_mp_step o a A : mpis a A -> mop_ok o -> exists a', run_mp o a = Ok a' /\ mpis a' (fun r c => mop_entry r c (A r c) o) /\ MP_changed a' = true.
Proof.
  intros Ha Ho. destruct o as [K|rs cs M|rs cs M]; simpl in *.
  - exact (mp_assemble v nelem nne nnode ndim ndof Hne Hnd Hmd iip Hiip Hh a A K Ha Ho).
  - destruct Ho as [O1 O2]. exact (mp_set v nelem nne nnode ndim ndof Hne Hnd Hmd iip Hiip Hh a A rs cs M Ha O1 O2).
  - destruct Ho as [O1 O2]. exact (mp_add v nelem nne nnode ndim ndof Hne Hnd Hmd iip Hiip Hh a A rs cs M Ha O1 O2).
Qed.

Lemma run_mps_spec : forall ops a A, mpis a A -> Forall mop_ok ops ->
  exists a', foldM (fun a o => run_mp o a) ops a = Ok a' /\ mpis a' (fun r c => fold_left (mop_entry r c) ops (A r c)).
Proof.
  induction ops as [|o ops IH]; intros a A Ha Hok; simpl.
  - exists a. auto.
  - pose proof (Forall_inv Hok) as Ho. pose proof (Forall_inv_tail Hok) as Hos.
    destruct (run_mp_step o a A Ha Ho) as [a1 [E1 [H1 _]]]. rewrite E1. cbn [bind]. exact (IH a1 _ H1 Hos).
Qed.

Theorem partitioned_equals : forall ops, Forall mop_ok ops ->
  exists a0 a m, new_MatrixPartitioned v iip = Ok a0 /\ foldM (fun a o => run_mp o a) ops a0 = Ok a /\
    foldM (fun a o => run_mop o a) ops (new_Matrix v) = Ok m /\
    MP_todense a = M_todense m /\
    (forall x b, length x = ndof -> length b = ndof -> MP_dot_dofval a x b = M_dot_dofval m x) /\
    (forall order u, Permutation order (node_iters v) -> shape2 u nnode ndim -> agree2 (m_dofs v) nnode ndim u ->
       MP_dot_nodevec a order u = M_dot_nodevec m order u).
Proof.
  intros ops Hok. destruct (mp_new v nelem nne nnode ndim ndof Hne Hnd Hmd iip Hiip Hh) as [a0 [E0 [H0 _]]].
  destruct (run_mps_spec ops a0 _ H0 Hok) as [a [Ea Ha]].
  destruct (V_sizes v nelem nne nnode ndim ndof Hne Hnd Hmd) as [_ [_ Z]].
  destruct (run_mops_spec v nelem nne nnode ndim ndof Hne Hnd Hmd ops (new_Matrix v) eq_refl Z Z Hok) as [m [Em [Vm [Rm [Cm Hm]]]]].
  change (ent (M_A (new_Matrix v))) with (fun _ _ : nat => 0%R) in Hm.
  assert (Ha' : mpis a (ent (M_A m))) by (apply (mpis_ext a _ _ (fun r c => eq_sym (Hm r c)) Ha)).
  exists a0, a, m. do 3 (split; [assumption|]). split; [|split].
  - destruct (mp_todense a _ Ha') as [d1 [D1 [S1 V1]]]. destruct (todense_spec v nelem nne nnode ndim ndof Hne Hnd Hmd m Vm Rm Cm) as [d2 [D2 [S2 V2]]].
    rewrite D1, D2. f_equal. apply (list_ext2 0%R _ _ ndof ndof S1 S2). intros i j Hi Hj. change (val2 d1 i j = val2 d2 i j). now rewrite V1, V2.
  - intros x b Lx Lb. destruct (mp_dot_dofval v nelem nne nnode ndim ndof Hne Hnd Hmd iip Hiip Hh a _ x b Ha' Lx Lb) as [y [Ey [Ly Vy]]].
    destruct (dot_dofval_spec v nelem nne nnode ndim ndof Hne Hnd Hmd m x Vm Rm Cm Lx) as [y2 [Ey2 [Ly2 Vy2]]].
    rewrite Ey, Ey2. f_equal. apply (nth_ext _ _ 0%R 0%R); [congruence|]. intros d Hd. change (val1 y d = val1 y2 d). rewrite Vy, Vy2 by congruence. reflexivity.
  - intros order u Ho Su Hu. destruct (AsDofs_nodevec_spec v nelem nne nnode ndim ndof Hne Hnd Hmd order u Ho Su Hu) as [x [Ex [Lx _]]].
    destruct (mp_dot_nodevec v nelem nne nnode ndim ndof Hne Hnd Hmd iip Hiip Hh a _ order u x Ha' Ho Su Hu Ex) as [y [Ey [Sy Vy]]].
    destruct (dot_nodevec_spec v nelem nne nnode ndim ndof Hne Hnd Hmd m order u x Vm Rm Cm Ho Su Hu Ex) as [b [w [Ew [Eb Ebw]]]].
    destruct (dot_dofval_spec v nelem nne nnode ndim ndof Hne Hnd Hmd m x Vm Rm Cm Lx) as [b2 [Eb2 [Lb2 Vb2]]]. rewrite Eb in Eb2. injection Eb2 as Eb2. rewrite <- Eb2 in *.
    destruct (AsNode_dofval_spec v nelem nne nnode ndim ndof Hne Hnd Hmd b Lb2) as [w2 [Ew2 [Sw Vw]]]. rewrite Ebw in Ew2. injection Ew2 as Ew2. rewrite <- Ew2 in *.
    rewrite Ey, Ew. f_equal. apply (list_ext2 0%R _ _ nnode ndim Sy Sw). intros i j Hi Hj. change (val2 y i j = val2 w i j). rewrite Vy, Vw by assumption.
    symmetry. apply Vb2. now apply (V_dof v nelem nne nnode ndim ndof Hne Hnd Hmd).
Qed.

(** ** solver *)
Variable linsolve : mat -> list R -> list R.
Definition p_fresh (a : MatrixPartitioned) (s : Solver) : Prop := S_factor s = true \/ MP_changed a = true \/ S_data s = Some (A_uu a).

Lemma p_factorized a s : p_fresh a s -> S_data (factorize (MP_changed a) (A_uu a) s) = Some (A_uu a).
Proof.
  intros F. unfold factorize. destruct (MP_changed a) eqn:C; [reflexivity|]. destruct (S_factor s) eqn:D; [reflexivity|]. simpl.
  destruct F as [H|[H|H]]; congruence.
Qed.

Notation xof l x xl := (length xl = length l /\ forall k d, nth_error l k = Some d -> val1 xl k = x d).

(** the core of the solve: X_u solves the unknown rows *)
Lemma core a A s bu xp (b x : nat -> R) : mpis a A -> p_fresh a s -> solves linsolve (A_uu a) -> xof iiu b bu -> xof iip x xp ->
  exists t r X, mulvec (A_up a) xp = Ok t /\ subvec bu t = Ok r /\ S_solve linsolve (factorize (MP_changed a) (A_uu a) s) r = Ok X /\ length X = length iiu /\
    forall y, (forall k d, nth_error iiu k = Some d -> y d = val1 X k) -> (forall d, In d iip -> y d = x d) ->
      forall d, In d iiu -> mv ndof A y d = b d.
Proof.
  intros Ha Hf Hs [Lb Hb] [Lx Hx]. pose proof Ha as [_ [[[S1 [S2 [S3 S4]]] _] B1 B2 _ _]].
  destruct (mulvec_spec (A_up a) xp) as [t [Et [Lt Vt]]]; [congruence|]. exists t.
  destruct (vec2_spec Rminus bu t (length iiu)) as [r [Er [Lr Vr]]]; [congruence|congruence|]. exists r.
  destruct (Hs r) as [LX HX]; [congruence|]. exists (linsolve (A_uu a) r). split; [exact Et|]. split; [exact Er|]. split.
  { unfold S_solve. rewrite p_factorized by exact Hf. rewrite Lr, S1, Nat.eqb_refl. reflexivity. }
  split; [congruence|]. intros y Hyu Hyp d Hd. apply In_nth_error in Hd. destruct Hd as [k Hk]. pose proof (In_nth_error_lt _ _ _ Hk) as Lk.
  unfold mv. rewrite <- (sum_split v nelem nne nnode ndim ndof Hne Hnd Hmd iip Hiip Hh (fun c => A d c * y c)%R).
  specialize (HX k). rewrite S1 in HX. specialize (HX Lk). rewrite S2 in HX. unfold mv in HX.
  rewrite Vr in HX by exact Lk. rewrite Vt in HX by congruence. rewrite (Hb k d Hk) in HX. unfold mv in HX. rewrite S4 in HX.
  pose proof (nth_error_nth _ _ 0 Hk) as Ed.
  rewrite (sumn_ext (length iiu) _ (fun j => ent (A_uu a) k j * val1 (linsolve (A_uu a) r) j)%R).
  2:{ intros j Hj. rewrite B1 by assumption. rewrite Ed. now rewrite (Hyu j) by now apply nth_error_nth'. }
  rewrite (sumn_ext (length iip) _ (fun j => ent (A_up a) k j * val1 xp j)%R).
  2:{ intros j Hj. rewrite B2 by assumption. rewrite Ed. rewrite (Hx j (nth j iip 0)) by now apply nth_error_nth'. rewrite Hyp; [reflexivity|]. now apply nth_In. }
  rewrite HX. lra.
Qed.

Theorem mp_solve_dofval a A s b x : mpis a A -> p_fresh a s -> solves linsolve (A_uu a) -> length b = ndof -> length x = ndof ->
  exists y s' a', MPS_solve_dofval a linsolve s b x = Ok (y, s', a') /\ mpis a' A /\ p_fresh a' s' /\ length y = ndof /\
    (forall d, In d iip -> val1 y d = val1 x d) /\ (forall d, d < ndof -> ~ In d iip -> mv ndof A (val1 y) d = val1 b d).
Proof.
  intros Ha Hf Hs Lb Lx. pose proof Ha as [[Ep _] _]. unfold MPS_solve_dofval.
  destruct (dofval_dofs v nelem nne nnode ndim ndof Hne Hnd Hmd iip Hiip Hh _ b Ep Lb) as [bu [bp [Ebu [_ [Hbu _]]]]].
  destruct (dofval_dofs v nelem nne nnode ndim ndof Hne Hnd Hmd iip Hiip Hh _ x Ep Lx) as [xu [xp [_ [Exp [_ Hxp]]]]].
  rewrite Ebu, Exp. cbn [bind]. destruct (core a A s bu xp _ _ Ha Hf Hs Hbu Hxp) as [t [r [X [Et [Er [ES [LX HX]]]]]]].
  rewrite Et. cbn [bind]. rewrite Er. cbn [bind]. rewrite ES. cbn [bind].
  destruct (vp_facts v nelem nne nnode ndim ndof Hne Hnd Hmd iip Hiip _ Ep) as [_ [-> _]].
  destruct (write_index iiu X x ndof) as [y [W [Ly [Iy Oy]]]]; [exact Lx|apply setdiff1d_NoDup|apply (iiu_bound v nelem nne nnode ndim ndof Hne Hnd Hmd iip Hiip Hh)|exact LX|].
  destruct (index_writes iiu X) as [w| | |]; try discriminate. cbn [bind] in *. rewrite W. cbn [bind].
  do 3 eexists. split; [reflexivity|]. split; [exact Ha|]. split; [right; right; cbn [A_uu]; now apply p_factorized|]. split; [exact Ly|].
  assert (Hp : forall d, In d iip -> val1 y d = val1 x d).
  { intros d Hd. apply Oy; [now apply Hiip|]. now apply (iip_not_u v nelem nne nnode ndim ndof Hne Hnd Hmd iip Hiip Hh). }
  split; [exact Hp|]. intros d Hd Hn. apply (HX (val1 y) Iy Hp). apply setdiff1d_In. split; [now apply Hh|exact Hn].
Qed.

Theorem mp_solve_u a A s bu xp : mpis a A -> p_fresh a s -> solves linsolve (A_uu a) -> length bu = length iiu -> length xp = length iip ->
  exists X s' a', MPS_solve_u a linsolve s bu xp = Ok (X, s', a') /\ mpis a' A /\ p_fresh a' s' /\ length X = length iiu /\
    forall y, length y = ndof -> AsDofs_u_dofval (MP_p a) y = Ok X -> AsDofs_p_dofval (MP_p a) y = Ok xp ->
      forall k d, nth_error iiu k = Some d -> mv ndof A (val1 y) d = val1 bu k.
Proof.
  intros Ha Hf Hs Lb Lx. pose proof Ha as [[Ep _] _]. unfold MPS_solve_u.
  destruct (from_dofs_spec v nelem nne nnode ndim ndof Hne Hnd Hmd iip Hiip _ Ep bu xp Lb Lx) as [z [_ [Lz [Zu [Zp _]]]]].
  assert (Hbu : xof iiu (val1 z) bu) by (split; [exact Lb|]; intros k d Hk; symmetry; now apply Zu).
  assert (Hxp : xof iip (val1 z) xp) by (split; [exact Lx|]; intros k d Hk; symmetry; now apply Zp).
  destruct (core a A s bu xp _ _ Ha Hf Hs Hbu Hxp) as [t [r [X [Et [Er [ES [LX HX]]]]]]].
  rewrite Et. cbn [bind]. rewrite Er. cbn [bind]. rewrite ES. cbn [bind].
  do 3 eexists. split; [reflexivity|]. split; [exact Ha|]. split; [right; right; cbn [A_uu]; now apply p_factorized|]. split; [exact LX|].
  intros y Ly Eu Eq k d Hk. destruct (dofval_dofs v nelem nne nnode ndim ndof Hne Hnd Hmd iip Hiip Hh _ y Ep Ly) as [yu [yp [E1 [E2 [[_ Y1] [_ Y2]]]]]].
  rewrite Eu in E1. rewrite Eq in E2. injection E1 as E1. injection E2 as E2. rewrite <- E1 in *. rewrite <- E2 in *.
  rewrite (HX (val1 y)).
  - now apply Zu.
  - intros k' d' Hk'. symmetry. now apply Y1.
  - intros d' Hd'. apply In_nth_error in Hd'. destruct Hd' as [k' Hk']. rewrite (Zp k' d' Hk'). symmetry. now apply Y2.
  - eapply nth_error_In; exact Hk.
Qed.

Theorem mp_solve_nodevec a A s order b x : mpis a A -> p_fresh a s -> solves linsolve (A_uu a) -> Permutation order (node_iters v) ->
  shape2 b nnode ndim -> agree2 (m_dofs v) nnode ndim b -> shape2 x nnode ndim -> agree2 (m_dofs v) nnode ndim x ->
  exists y s' a', MPS_solve_nodevec a linsolve s order b x = Ok (y, s', a') /\ mpis a' A /\ p_fresh a' s' /\ shape2 y nnode ndim /\ agree2 (m_dofs v) nnode ndim y /\
    (forall m i, m < nnode -> i < ndim -> In (dof m i) iip -> val2 y m i = val2 x m i) /\
    (forall Y, AsDofs_nodevec v order y = Ok Y -> forall m i, m < nnode -> i < ndim -> ~ In (dof m i) iip -> mv ndof A (val1 Y) (dof m i) = val2 b m i).
Proof.
  intros Ha Hf Hs Ho Sb Ab Sx Ax. pose proof Ha as [[Ep _] _]. unfold MPS_solve_nodevec.
  destruct (nodevec_dofs v nelem nne nnode ndim ndof Hne Hnd Hmd iip Hiip Hh _ order b Ep Ho Sb Ab) as [bd [bu [bp [_ [Lbd [Vbd [Ebu [_ [Hbu _]]]]]]]]].
  destruct (nodevec_dofs v nelem nne nnode ndim ndof Hne Hnd Hmd iip Hiip Hh _ order x Ep Ho Sx Ax) as [xd [xu [xp [_ [Lxd [Vxd [_ [Exp [_ Hxp]]]]]]]]].
  rewrite Ebu, Exp. cbn [bind]. destruct (core a A s bu xp _ _ Ha Hf Hs Hbu Hxp) as [t [r [X [Et [Er [ES [LX HX]]]]]]].
  rewrite Et. cbn [bind]. rewrite Er. cbn [bind]. rewrite ES. cbn [bind].
  destruct (vp_sizes v nelem nne nnode ndim ndof Hne Hnd Hmd iip Hiip _ Ep) as [_ [-> [_ [_ ->]]]].
  destruct (from_dofs_spec v nelem nne nnode ndim ndof Hne Hnd Hmd iip Hiip _ Ep X xp LX (proj1 Hxp)) as [z [_ [Lz [Zu [Zp _]]]]].
  assert (Xz : xof iiu (val1 z) X) by (split; [exact LX|]; intros k d Hk; symmetry; now apply Zu).
  assert (Pz : xof iip (val1 z) xp) by (split; [apply Hxp|]; intros k d Hk; symmetry; now apply Zp).
  assert (Zx : forall m i, m < nnode -> i < ndim -> In (dof m i) iip -> val1 z (dof m i) = val2 x m i).
  { intros m i Hm Hi Hin. apply In_nth_error in Hin. destruct Hin as [k Hk]. rewrite (Zp k _ Hk). rewrite (proj2 Hxp k _ Hk). now apply Vxd. }
  rewrite (fill2_Ok _ _ _ (fun m i => val1 z (dof m i))).
  2:{ intros m i Hm Hi. rewrite (vp_get_part v nelem nne nnode ndim ndof Hne Hnd Hmd iip Hiip _ Ep) by assumption. cbn [bind].
      destruct (part_read v nelem nne nnode ndim ndof Hne Hnd Hmd iip Hiip Hh _ X xp _ m i Ep Xz Pz Hm Hi) as [[Hin [Hk G]]|[Hin [Hk G]]];
        destruct (Nat.ltb_spec (idx2 (m_part (MP_p a)) m i) (m_nnu (MP_p a))); try lia.
      - rewrite (get2_nth 0%R _ nnode ndim) by assumption. f_equal. symmetry. now apply Zx.
      - exact G. }
  cbn [bind]. do 3 eexists. split; [reflexivity|]. split; [exact Ha|]. split; [right; right; cbn [A_uu]; now apply p_factorized|]. split; [apply tab2_shape|].
  assert (Ay : agree2 (m_dofs v) nnode ndim (tab2 nnode ndim (fun m i => val1 z (dof m i)))).
  { intros m i n j Hm Hi Hn Hj E. unfold val2. rewrite !tab2_nth by assumption. now rewrite E. }
  split; [exact Ay|]. split.
  - intros m i Hm Hi Hin. unfold val2 at 1. rewrite tab2_nth by assumption. now apply Zx.
  - intros Y EY m i Hm Hi Hin. destruct (AsDofs_nodevec_spec v nelem nne nnode ndim ndof Hne Hnd Hmd order _ Ho (tab2_shape _ _ _) Ay) as [Y' [EY' [LY [VY _]]]].
    rewrite EY in EY'. injection EY' as EY'. rewrite <- EY' in *.
    assert (YZ : forall d, d < ndof -> val1 Y d = val1 z d).
    { intros d Hd. destruct (proj1 (In_concat_nth2 (m_dofs v) nnode ndim d (md_dofs _ _ _ _ _ _ _ Hmd)) (Hh d Hd)) as [m' [i' [Hm' [Hi' Ed]]]].
      rewrite <- Ed. rewrite VY by assumption. unfold val2. now rewrite tab2_nth by assumption. }
    rewrite (HX (val1 Y)).
    + now apply Vbd.
    + intros k d Hk. rewrite YZ; [now apply Zu|]. apply (iiu_bound v nelem nne nnode ndim ndof Hne Hnd Hmd iip Hiip Hh). eapply nth_error_In; exact Hk.
    + intros d Hd. rewrite YZ by now apply Hiip. apply In_nth_error in Hd. destruct Hd as [k Hk]. rewrite (Zp k d Hk). now apply Hxp.
    + apply setdiff1d_In. split; [|exact Hin]. apply (In_concat_nth2 (m_dofs v) nnode ndim _ (md_dofs _ _ _ _ _ _ _ Hmd)). eauto.
Qed.

(** ** histories with solves *)
Definition pop_ok (o : pop) : Prop := match o with PMat o => mop_ok o | _ => True end.

Ltac unbind := repeat match goal with
  | |- context [bind (AsDofs_u_dofval ?p ?x) _] => destruct (AsDofs_u_dofval p x); cbn [bind]; try discriminate
  | |- context [bind (AsDofs_p_dofval ?p ?x) _] => destruct (AsDofs_p_dofval p x); cbn [bind]; try discriminate
  | |- context [bind (AsDofs_u_nodevec ?p ?o ?x) _] => destruct (AsDofs_u_nodevec p o x); cbn [bind]; try discriminate
  | |- context [bind (AsDofs_p_nodevec ?p ?o ?x) _] => destruct (AsDofs_p_nodevec p o x); cbn [bind]; try discriminate
  | |- context [bind (mulvec ?p ?x) _] => destruct (mulvec p x); cbn [bind]; try discriminate
  | |- context [bind (subvec ?p ?x) _] => destruct (subvec p x); cbn [bind]; try discriminate
  | |- context [bind (S_solve ?l ?p ?x) _] => destruct (S_solve l p x); cbn [bind]; try discriminate
  | |- context [bind (index_writes ?p ?x) _] => destruct (index_writes p x); cbn [bind]; try discriminate
  | |- context [bind (write_all ?p ?x) _] => destruct (write_all p x); cbn [bind]; try discriminate
  | |- context [bind (fill2 ?n ?m ?x) _] => destruct (fill2 n m x); cbn [bind]; try discriminate
  end.

Lemma run_pop_step a s A o w : mpis a A -> p_fresh a s -> pop_ok o -> run_pop linsolve (a, s) o = Ok w ->
  mpis (fst w) (fun r c => fold_left (mop_entry r c) (pmat_ops [o]) (A r c)) /\ p_fresh (fst w) (snd w).
Proof.
  intros Ha Hf Ho. destruct o as [o|b x|order b x|b x]; cbn [run_pop fst snd pmat_ops flat_map app fold_left].
  - destruct (run_mp_step o a A Ha Ho) as [a1 [E1 [H1 C1]]]. rewrite E1. cbn [bind]. intro E. injection E as E. rewrite <- E. cbn [fst snd].
    split; [exact H1|]. right. now left.
  - unfold MPS_solve_dofval. unbind.
    intro E. injection E as E. rewrite <- E. cbn [fst snd]. split; [exact Ha|]. right. right. cbn [A_uu]. now apply p_factorized.
  - unfold MPS_solve_nodevec. unbind.
    intro E. injection E as E. rewrite <- E. cbn [fst snd]. split; [exact Ha|]. right. right. cbn [A_uu]. now apply p_factorized.
  - unfold MPS_solve_u. unbind.
    intro E. injection E as E. rewrite <- E. cbn [fst snd]. split; [exact Ha|]. right. right. cbn [A_uu]. now apply p_factorized.
Qed.

Lemma run_pops_spec : forall ops a s A w, mpis a A -> p_fresh a s -> Forall pop_ok ops -> foldM (run_pop linsolve) ops (a, s) = Ok w ->
  mpis (fst w) (fun r c => fold_left (mop_entry r c) (pmat_ops ops) (A r c)) /\ p_fresh (fst w) (snd w).
Proof.
  induction ops as [|o ops IH]; intros a s A w Ha Hf Hok; cbn [foldM].
  - intro E. injection E as E. rewrite <- E. auto.
  - destruct (run_pop linsolve (a, s) o) as [[a1 s1]| | |] eqn:E1; cbn [bind]; try discriminate. intro E2.
    destruct (run_pop_step a s A o (a1, s1) Ha Hf (Forall_inv Hok) E1) as [H1 F1].
    destruct (IH a1 s1 _ w H1 F1 (Forall_inv_tail Hok) E2) as [H2 F2]. split; [|exact F2].
    eapply mpis_ext; [|exact H2]. intros r c. cbn beta. unfold pmat_ops. cbn [flat_map]. rewrite !fold_left_app. reflexivity.
Qed.
End P2.
Unset Default Proof Using.

(** ** the properties of histories *)
Section P3.
Set Default Proof Using "All".
Variable v : Vector.
Variables nelem nne nnode ndim ndof : nat.
Hypothesis Hne : m_nne v = nne.
Hypothesis Hnd : m_ndim v = ndim.
Hypothesis Hmd : mesh_dofs (m_conn v) (m_dofs v) nelem nne nnode ndim ndof.
Variable iip : list nat.
Hypothesis Hiip : prescribed ndof iip.
Hypothesis Hh : no_holes (m_dofs v) ndof.
Notation dof := (idx2 (m_dofs v)).
Notation iiu := (setdiff1d (concat (m_dofs v)) iip).

Theorem reaction_history ops a0 a : Forall (valid_op nelem nne ndim ndof) ops ->
  new_MatrixPartitioned v iip = Ok a0 -> foldM (fun a o => run_mp o a) ops a0 = Ok a ->
  (forall x b, length x = ndof -> length b = ndof -> exists y r, MP_dot_dofval a x b = Ok y /\ MP_reaction_dofval a x b = Ok r /\ length r = ndof /\
     forall d, d < ndof -> (In d iip -> val1 r d = val1 y d) /\ (~ In d iip -> val1 r d = val1 b d)) /\
  (forall order x b, Permutation order (node_iters v) -> shape2 x nnode ndim -> agree2 (m_dofs v) nnode ndim x -> shape2 b nnode ndim ->
     exists y r, MP_dot_nodevec a order x = Ok y /\ MP_reaction_nodevec a order x b = Ok r /\ shape2 r nnode ndim /\
     forall m i, m < nnode -> i < ndim -> (In (dof m i) iip -> val2 r m i = val2 y m i) /\ (~ In (dof m i) iip -> val2 r m i = val2 b m i)) /\
  (forall x b xu xp, length x = ndof -> length b = ndof -> AsDofs_u_dofval (MP_p a) x = Ok xu -> AsDofs_p_dofval (MP_p a) x = Ok xp ->
     exists y bp, MP_dot_dofval a x b = Ok y /\ MP_reaction_p a xu xp = Ok bp /\ AsDofs_p_dofval (MP_p a) y = Ok bp).
Proof.
  intros Hok E0 Ea. destruct (mp_new v nelem nne nnode ndim ndof Hne Hnd Hmd iip Hiip Hh) as [a0' [E0' [H0 _]]]. rewrite E0 in E0'. injection E0' as E0'. rewrite <- E0' in H0.
  destruct (run_mps_spec v nelem nne nnode ndim ndof Hne Hnd Hmd iip Hiip Hh ops a0 _ H0 Hok) as [a' [Ea' Ha]]. rewrite Ea in Ea'. injection Ea' as Ea'. rewrite <- Ea' in Ha. clear Ea' a'.
  set (A := fun r c => _) in Ha. split; [|split].
  - intros x b Lx Lb. destruct (mp_dot_dofval v nelem nne nnode ndim ndof Hne Hnd Hmd iip Hiip Hh a A x b Ha Lx Lb) as [y [Ey [_ Vy]]].
    destruct (mp_reaction_dofval v nelem nne nnode ndim ndof Hne Hnd Hmd iip Hiip Hh a A x b Ha Lx Lb) as [r [Er [Lr [V1 V2]]]].
    exists y, r. split; [exact Ey|]. split; [exact Er|]. split; [exact Lr|]. intros d Hd. split; intro Hin; [rewrite V1, Vy by assumption; reflexivity|now apply V2].
  - intros order x b Ho Sx Ax Sb. destruct (AsDofs_nodevec_spec v nelem nne nnode ndim ndof Hne Hnd Hmd order x Ho Sx Ax) as [X [EX _]].
    destruct (mp_dot_nodevec v nelem nne nnode ndim ndof Hne Hnd Hmd iip Hiip Hh a A order x X Ha Ho Sx Ax EX) as [y [Ey [_ Vy]]].
    destruct (mp_reaction_nodevec v nelem nne nnode ndim ndof Hne Hnd Hmd iip Hiip Hh a A order x b X Ha Ho Sx Ax Sb EX) as [r [Er [Sr V]]].
    exists y, r. split; [exact Ey|]. split; [exact Er|]. split; [exact Sr|]. intros m i Hm Hi. destruct (V m i Hm Hi) as [V1 V2]. split; intro Hin; [rewrite V1, Vy by assumption; reflexivity|now apply V2].
  - intros x b xu xp Lx Lb Eu Ep. destruct (mp_dot_dofval v nelem nne nnode ndim ndof Hne Hnd Hmd iip Hiip Hh a A x b Ha Lx Lb) as [y [Ey [Ly Vy]]].
    pose proof Ha as [[Epp _] _].
    destruct (dofval_dofs v nelem nne nnode ndim ndof Hne Hnd Hmd iip Hiip Hh _ x Epp Lx) as [xu' [xp' [E1 [E2 [X1 X2]]]]]. rewrite Eu in E1. rewrite Ep in E2. injection E1 as E1. injection E2 as E2. rewrite <- E1, <- E2 in *.
    destruct (B_spec v nelem nne nnode ndim ndof Hne Hnd Hmd iip Hiip Hh a A _ xu xp Ha X1 X2) as [bu [bp [_ [Eb [_ [Lbp Vb]]]]]].
    destruct (dofval_dofs v nelem nne nnode ndim ndof Hne Hnd Hmd iip Hiip Hh _ y Epp Ly) as [yu [yp [_ [Eyp [_ [Lyp Vyp]]]]]].
    exists y, bp. split; [exact Ey|]. split; [exact Eb|]. rewrite Eyp. f_equal. apply (nth_ext _ _ 0%R 0%R); [congruence|]. intros k Hk. rewrite Lyp in Hk.
    change (val1 yp k = val1 bp k). pose proof (nth_error_nth' iip 0 Hk) as Nk. rewrite (Vyp _ _ Nk), (Vb _ _ Nk). apply Vy. apply Hiip. now apply nth_In.
Qed.

Theorem solve_history linsolve ops a0 a s : Forall (fun o => match o with PMat o => valid_op nelem nne ndim ndof o | _ => True end) ops ->
  new_MatrixPartitioned v iip = Ok a0 -> foldM (run_pop linsolve) ops (a0, new_Solver) = Ok (a, s) -> solves linsolve (A_uu a) ->
  (forall b x, length b = ndof -> length x = ndof -> exists y s' a' r, MPS_solve_dofval a linsolve s b x = Ok (y, s', a') /\ length y = ndof /\
     (forall d, In d iip -> val1 y d = val1 x d) /\ MP_dot_dofval a y b = Ok r /\ forall d, d < ndof -> ~ In d iip -> val1 r d = val1 b d) /\
  (forall order b x, Permutation order (node_iters v) -> shape2 b nnode ndim -> agree2 (m_dofs v) nnode ndim b -> shape2 x nnode ndim -> agree2 (m_dofs v) nnode ndim x ->
     exists y s' a' r, MPS_solve_nodevec a linsolve s order b x = Ok (y, s', a') /\ shape2 y nnode ndim /\ agree2 (m_dofs v) nnode ndim y /\
     (forall m i, m < nnode -> i < ndim -> In (dof m i) iip -> val2 y m i = val2 x m i) /\ MP_dot_nodevec a order y = Ok r /\
     forall m i, m < nnode -> i < ndim -> ~ In (dof m i) iip -> val2 r m i = val2 b m i) /\
  (forall bu xp, length bu = length (m_iiu (MP_p a)) -> length xp = length (m_iip (MP_p a)) -> exists X s' a' y r,
     MPS_solve_u a linsolve s bu xp = Ok (X, s', a') /\ DofsFromParitioned (MP_p a) X xp = Ok y /\
     (forall z, length z = ndof -> MP_dot_dofval a y z = Ok r) /\ AsDofs_u_dofval (MP_p a) r = Ok bu).
Proof.
  intros Hok E0 Ea Hs. destruct (mp_new v nelem nne nnode ndim ndof Hne Hnd Hmd iip Hiip Hh) as [a0' [E0' [H0 _]]]. rewrite E0 in E0'. injection E0' as E0'. rewrite <- E0' in H0.
  destruct (run_pops_spec v nelem nne nnode ndim ndof Hne Hnd Hmd iip Hiip Hh linsolve ops a0 new_Solver _ (a, s) H0 (or_introl eq_refl) Hok Ea) as [Ha Hf].
  cbn [fst snd] in Ha, Hf. set (A := fun r c => _) in Ha. split; [|split].
  - intros b x Lb Lx. destruct (mp_solve_dofval v nelem nne nnode ndim ndof Hne Hnd Hmd iip Hiip Hh linsolve a A s b x Ha Hf Hs Lb Lx) as [y [s' [a' [Ey [_ [_ [Ly [V1 V2]]]]]]]].
    destruct (mp_dot_dofval v nelem nne nnode ndim ndof Hne Hnd Hmd iip Hiip Hh a A y b Ha Ly Lb) as [r [Er [_ Vr]]].
    exists y, s', a', r. do 4 (split; [assumption|]). intros d Hd Hn. rewrite Vr by exact Hd. now apply V2.
  - intros order b x Ho Sb Ab Sx Ax.
    destruct (mp_solve_nodevec v nelem nne nnode ndim ndof Hne Hnd Hmd iip Hiip Hh linsolve a A s order b x Ha Hf Hs Ho Sb Ab Sx Ax) as [y [s' [a' [Ey [_ [_ [Sy [Ay [V1 V2]]]]]]]]].
    destruct (AsDofs_nodevec_spec v nelem nne nnode ndim ndof Hne Hnd Hmd order y Ho Sy Ay) as [Y [EY _]].
    destruct (mp_dot_nodevec v nelem nne nnode ndim ndof Hne Hnd Hmd iip Hiip Hh a A order y Y Ha Ho Sy Ay EY) as [r [Er [_ Vr]]].
    exists y, s', a', r. do 5 (split; [assumption|]). intros m i Hm Hi Hn. rewrite Vr by assumption. now apply (V2 Y EY).
  - intros bu xp Lb Lx. pose proof Ha as [[Ep _] _].
    destruct (vp_facts v nelem nne nnode ndim ndof Hne Hnd Hmd iip Hiip _ Ep) as [_ [F1 [F2 _]]]. rewrite F1 in Lb. rewrite F2 in Lx.
    destruct (mp_solve_u v nelem nne nnode ndim ndof Hne Hnd Hmd iip Hiip Hh linsolve a A s bu xp Ha Hf Hs Lb Lx) as [X [s' [a' [EX [_ [_ [LX VX]]]]]]].
    destruct (recombine_split v nelem nne nnode ndim ndof Hne Hnd Hmd iip Hiip _ Ep X xp LX Lx) as [y [Ey [E1 E2]]].
    destruct (from_dofs_spec v nelem nne nnode ndim ndof Hne Hnd Hmd iip Hiip _ Ep X xp LX Lx) as [y' [Ey' [Ly _]]]. rewrite Ey in Ey'. injection Ey' as Ey'. rewrite <- Ey' in Ly.
    destruct (mp_dot_dofval v nelem nne nnode ndim ndof Hne Hnd Hmd iip Hiip Hh a A y y Ha Ly Ly) as [r [Er [Lr Vr]]].
    exists X, s', a', y, r. split; [exact EX|]. split; [exact Ey|]. split.
    + intros z Lz. destruct (mp_dot_dofval v nelem nne nnode ndim ndof Hne Hnd Hmd iip Hiip Hh a A y z Ha Ly Lz) as [r2 [Er2 [Lr2 Vr2]]].
      rewrite Er2. f_equal. apply (nth_ext _ _ 0%R 0%R); [congruence|]. intros d Hd. change (val1 r2 d = val1 r d). rewrite Vr2, Vr by congruence. reflexivity.
    + destruct (dofval_dofs v nelem nne nnode ndim ndof Hne Hnd Hmd iip Hiip Hh _ r Ep Lr) as [ru [rp [Eru [_ [[Lru Vru] _]]]]].
      rewrite Eru. f_equal. apply (nth_ext _ _ 0%R 0%R); [congruence|]. intros k Hk. rewrite Lru in Hk. change (val1 ru k = val1 bu k).
      pose proof (nth_error_nth' iiu 0 Hk) as Nk. rewrite (Vru _ _ Nk), Vr; [now apply (VX y Ly E1 E2)|].
      apply (iiu_bound v nelem nne nnode ndim ndof Hne Hnd Hmd iip Hiip Hh). now apply nth_In.
Qed.

Theorem solve_matrix linsolve ops a0 a s : Forall (fun o => match o with PMat o => valid_op nelem nne ndim ndof o | _ => True end) ops ->
  new_MatrixPartitioned v iip = Ok a0 -> foldM (run_pop linsolve) ops (a0, new_Solver) = Ok (a, s) ->
  exists m, foldM (fun a o => run_mop o a) (pmat_ops ops) (new_Matrix v) = Ok m /\ MP_todense a = M_todense m.
Proof.
  intros Hok E0 Ea. destruct (mp_new v nelem nne nnode ndim ndof Hne Hnd Hmd iip Hiip Hh) as [a0' [E0' [H0 _]]]. rewrite E0 in E0'. injection E0' as E0'. rewrite <- E0' in H0.
  destruct (run_pops_spec v nelem nne nnode ndim ndof Hne Hnd Hmd iip Hiip Hh linsolve ops a0 new_Solver _ (a, s) H0 (or_introl eq_refl) Hok Ea) as [Ha _].
  cbn [fst snd] in Ha.
  assert (Hok2 : Forall (valid_op nelem nne ndim ndof) (pmat_ops ops)).
  { clear - Hok. induction ops as [|o ops IH]; [constructor|]. pose proof (Forall_inv Hok). pose proof (IH (Forall_inv_tail Hok)).
    destruct o; cbn; auto. }
  destruct (V_sizes v nelem nne nnode ndim ndof Hne Hnd Hmd) as [_ [_ Z]].
  destruct (run_mops_spec v nelem nne nnode ndim ndof Hne Hnd Hmd (pmat_ops ops) (new_Matrix v) eq_refl Z Z Hok2) as [m [Em [Vm [Rm [Cm Hm]]]]].
  exists m. split; [exact Em|].
  destruct (mp_todense v nelem nne nnode ndim ndof Hne Hnd Hmd iip Hiip Hh a _ Ha) as [d1 [D1 [S1 V1]]]. destruct (todense_spec v nelem nne nnode ndim ndof Hne Hnd Hmd m Vm Rm Cm) as [d2 [D2 [S2 V2]]].
  rewrite D1, D2. f_equal. apply (list_ext2 0%R _ _ ndof ndof S1 S2). intros i j Hi Hj. change (val2 d1 i j = val2 d2 i j). rewrite V1, V2 by assumption. symmetry. apply Hm.
Qed.
End P3.
Unset Default Proof Using.
