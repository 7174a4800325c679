(** More about ManualStitch: the position check, and the maps and sets. *)
From Verif Require Import Base Spec Spec_Topology Spec_Stitch Model_Topology Proof_Topology Model_Stitch Proof_Stitch.

Section S.
Context {A : Type} (close : A -> A -> bool).

Lemma positions_close_iff (ca cb : list (list A)) oa ob :
  wf_overlap (length ca) (length cb) oa ob ->
  exists ok, positions_close close ca cb oa ob = Ok ok /\
    (ok = true <-> overlap_near close ca cb oa ob).
Proof.
  intros [Wl [Wn [Wa Wb]]]. unfold positions_close.
  destruct (get_rows ca oa Wa) as [ra [Era [Lra Hra]]].
  destruct (get_rows cb ob Wb) as [rb [Erb [Lrb Hrb]]].
  rewrite Era. cbn [bind]. rewrite Erb. cbn [bind]. eexists. split; [reflexivity|].
  rewrite forallb_forall. split.
  - intros H k a b p q Ha Hb Hp Hq. apply row_close_near. apply (H (p, q)).
    apply (nth_error_In _ k). apply nth_error_combine.
    + rewrite (Hra k a Ha). exact Hp.
    + rewrite (Hrb k b Hb). exact Hq.
  - intros H [p q] Hin. apply In_nth_error in Hin. destruct Hin as [k Hk]. apply nth_error_combine_inv in Hk.
    destruct Hk as [Hp Hq]. cbn [fst snd].
    destruct (nth_error oa k) as [a|] eqn:Ea.
    2:{ apply nth_error_None in Ea. assert (k < length ra) by (apply nth_error_Some; congruence). lia. }
    destruct (nth_error ob k) as [b|] eqn:Eb.
    2:{ apply nth_error_None in Eb. assert (k < length rb) by (apply nth_error_Some; congruence). lia. }
    rewrite (Hra k a Ea) in Hp. rewrite (Hrb k b Eb) in Hq.
    apply row_close_near. eapply H; eauto.
Qed.

Lemma renum_map_total mb l : (forall n, In n l -> n < length mb) ->
  exists l', renum_map mb l = Ok l' /\ map (nth_error mb) l = map Some l'.
Proof.
  induction l as [|x l IH]; intro H; [exists []; split; reflexivity|].
  destruct IH as [l' [E1 E2]]; [intros; apply H; now right|].
  destruct (get_lt mb x) as [y Ey]; [apply H; now left|].
  exists (y :: l'). unfold renum_map in *. simpl. rewrite Ey. cbn [bind]. rewrite E1. cbn [bind].
  split; [reflexivity|]. f_equal; [now apply get_Ok|exact E2].
Qed.

Theorem ManualStitch_spec : forall coor_a conn_a ov_a coor_b conn_b ov_b check,
  wf_overlap (length coor_a) (length coor_b) ov_a ov_b ->
  conn_in_range conn_b (length coor_b) ->
  (check = true -> overlap_near close coor_a coor_b ov_a ov_b) ->
  exists s, ManualStitch close coor_a conn_a ov_a coor_b conn_b ov_b check = Ok s /\
    stitched coor_a conn_a ov_a coor_b conn_b ov_b (ms_coor s) (ms_conn s) (ms_nodemap s 1) /\
    ms_nodemap s 0 = seq 0 (length coor_a) /\
    ms_elemmap s 0 = seq 0 (length conn_a) /\
    ms_elemmap s 1 = seq (length conn_a) (length conn_b) /\
    (NoDup ov_a -> NoDup (ms_nodemap s 1)) /\
    (forall set, ms_nodeset s set 0 = Ok set /\ ms_elemset s set 0 = set) /\
    (forall set, (forall n, In n set -> n < length coor_b) ->
       exists set', ms_nodeset s set 1 = Ok set' /\ map (nth_error (ms_nodemap s 1)) set = map Some set') /\
    (forall set, (forall e, In e set -> e < length conn_b) ->
       map (nth_error (ms_elemmap s 1)) set = map Some (ms_elemset s set 1)).
Proof.
  intros ca na oa cb nb ob check W Hc Hchk.
  destruct (positions_close_iff ca cb oa ob W) as [ok [Eok Hok]].
  destruct (ManualStitch_ok close ca na oa cb nb ob check W Hc) as [s [E [D [N1 [N2 N3]]]]].
  { intro Hck. rewrite Eok. f_equal. apply Hok. auto. }
  exists s. split; [exact E|]. split; [exact D|].
  assert (Eem : ms_elemmap s 1 = seq (length na) (length nb)).
  { unfold ms_elemmap. simpl. rewrite N2, N3. apply map_add_seq. }
  split; [unfold ms_nodemap; simpl; now rewrite N1|].
  split; [unfold ms_elemmap; simpl; now rewrite N2|].
  split; [exact Eem|].
  split; [intro Hn; eapply stitched_NoDup; eauto|].
  split; [intro set; split; reflexivity|]. split.
  - intros set Hs. unfold ms_nodeset. simpl. apply (renum_map_total (ms_map_b s)). intros n Hin. pose proof (sd_map _ _ _ _ _ _ _ _ _ D) as L. simpl in L. rewrite L. auto.
  - intros set Hs. rewrite Eem. unfold ms_elemset. simpl. rewrite map_map. apply map_ext_in. intros e He.
    rewrite nth_error_seq. specialize (Hs e He). destruct (Nat.ltb_spec e (length nb)); [|lia]. f_equal. lia.
Qed.

Theorem ManualStitch_throws : forall coor_a conn_a ov_a coor_b conn_b ov_b,
  wf_overlap (length coor_a) (length coor_b) ov_a ov_b ->
  ~ overlap_near close coor_a coor_b ov_a ov_b ->
  ManualStitch close coor_a conn_a ov_a coor_b conn_b ov_b true = Throw.
Proof.
  intros ca na oa cb nb ob W Hn. unfold ManualStitch.
  destruct (positions_close_iff ca cb oa ob W) as [ok [Eok Hok]]. rewrite Eok. cbn [bind].
  destruct ok; [exfalso; now apply Hn, Hok|reflexivity].
Qed.

Theorem ManualStitch_only : forall coor_a conn_a ov_a coor_b conn_b ov_b check s,
  ManualStitch close coor_a conn_a ov_a coor_b conn_b ov_b check = Ok s ->
  length ov_a = length ov_b /\ NoDup ov_b /\ (forall b, In b ov_b -> b < length coor_b) /\
  conn_in_range conn_b (length coor_b).
Proof.
  intros ca na oa cb nb ob check s H. destruct (ManualStitch_inv close _ _ _ _ _ _ _ _ H) as [H1 [H2 [H3 [H4 _]]]].
  auto.
Qed.
End S.
