(** Proofs about Vstack. *)
From Coq Require Import Reals Lra.
From Verif Require Import Base Spec Spec_Topology Spec_Stitch Spec_Vstack Model_Topology Proof_Topology Model_Stitch Proof_Stitch.
Local Open Scope R_scope.
Local Notation "a <n b" := (a < b)%nat (at level 70).

Lemma fold_left_Rmax l : forall x, (exists d, In d (x :: l) /\ fold_left Rmax l x = d) /\
   forall d, In d (x :: l) -> d <= fold_left Rmax l x.
Proof.
  induction l as [|y l IH]; intro x; simpl.
  - split; [exists x; auto|]. intros d [->|[]]. lra.
  - destruct (IH (Rmax x y)) as [[d [Hd E]] Hle]. split.
    + exists d. split; [|exact E]. destruct Hd as [Hd|Hd]; [|auto].
      rewrite <- Hd. destruct (Rmax_case_strong x y (fun z => z = x \/ z = y)) as [?|?]; auto.
    + intros z [Hz|[Hz|Hz]].
      * subst. eapply Rle_trans; [apply Rmax_l|]. apply Hle. now left.
      * subst. eapply Rle_trans; [apply Rmax_r|]. apply Hle. now left.
      * apply Hle. now right.
Qed.

Lemma column1_planar X : planar X -> exists ys, column1 X = Ok ys /\
  forall y, In y ys <-> exists x, In [x; y] X.
Proof.
  intro Hp. unfold column1. rewrite (mapM_Ok _ _ (fun r => nth 1 r 0)).
  - eexists. split; [reflexivity|]. intro y. rewrite in_map_iff. split.
    + intros [p [E Hin]]. destruct (Hp p Hin) as [x [y' ->]]. simpl in E. subst. eauto.
    + intros [x Hin]. exists [x; y]. auto.
  - intros p Hin. destruct (Hp p Hin) as [x [y ->]]. reflexivity.
Qed.

Lemma amaxR_max X ys d : planar X -> column1 X = Ok ys -> amaxR ys = Ok d -> is_max_y X d.
Proof.
  intros Hp Hc Hd. destruct (column1_planar X Hp) as [ys' [E Hin]]. rewrite Hc in E. inversion E; subst ys'.
  destruct ys as [|y ys]; simpl in Hd; [discriminate|]. inversion Hd; subst d.
  destruct (fold_left_Rmax ys y) as [[d [H1 H2]] H3]. split.
  - rewrite H2. apply Hin. exact H1.
  - intros x z Hz. apply H3. apply Hin. eauto.
Qed.

Lemma amaxR_total X : planar X -> X <> [] -> exists ys d, column1 X = Ok ys /\ amaxR ys = Ok d.
Proof.
  intros Hp Hne. destruct (column1_planar X Hp) as [ys [E Hin]]. exists ys.
  destruct X as [|p X]; [congruence|]. destruct (Hp p) as [x [y ->]]; [now left|].
  destruct ys as [|z ys]; [exfalso; apply (Hin y); exists x; now left|]. simpl. eauto.
Qed.

Lemma shift_y_planar d X : planar X -> exists X', shift_y d X = Ok X' /\ moved_up d X X' /\ planar X'.
Proof.
  intro Hp. unfold shift_y.
  rewrite (mapM_Ok _ _ (fun r => match r with [x; y] => [x; y + d] | _ => [] end)).
  - eexists. split; [reflexivity|]. split.
    + split; [apply map_length|]. intros n x y H. rewrite nth_error_map, H. reflexivity.
    + intros p Hin. apply in_map_iff in Hin. destruct Hin as [q [E Hq]]. destruct (Hp q Hq) as [x [y ->]].
      subst. eauto.
  - intros p Hin. destruct (Hp p Hin) as [x [y ->]]. reflexivity.
Qed.

Section V.
Context (close : R -> R -> bool).

(** positions of merged nodes, if they are checked *)
Definition moved_checked (check : bool) : list R -> list R -> Prop := fun p q => check = true -> near close q p.

Lemma positions_close_spec (ca cb : list (list R)) oa ob : length oa = length ob ->
  positions_close close ca cb oa ob = Ok true ->
  forall k a b p q, nth_error oa k = Some a -> nth_error ob k = Some b -> nth_error cb b = Some p ->
    nth_error ca a = Some q -> near close q p.
Proof.
  intros Hl H k a b p q Ha Hb Hp Hq. unfold positions_close in H.
  destruct (mapM (get ca) oa) as [ra| | |] eqn:Ea; cbn [bind] in H; try discriminate.
  destruct (mapM (get cb) ob) as [rb| | |] eqn:Eb; cbn [bind] in H; try discriminate.
  inversion H as [H']. rewrite forallb_forall in H'.
  apply mapM_Ok_inv in Ea, Eb. destruct Ea as [_ Ea], Eb as [_ Eb].
  destruct (Ea k a Ha) as [q' [Q1 Q2]]. destruct (Eb k b Hb) as [p' [P1 P2]].
  apply get_Ok in Q2, P2. rewrite Hq in Q2. rewrite Hp in P2. inversion Q2; inversion P2; subst q' p'.
  apply row_close_near. apply (H' (q, p)). apply (nth_error_In _ k). now apply nth_error_combine.
Qed.

Definition vmesh_pair (m : vmesh) := (v_coor m, v_conn m).

(** what holds after adding [ms]; [placed] = the meshes at their final position *)
Record vinv (check : bool) (ms : list vmesh) (placed : list (list (list R) * list (list nat))) (s : Vstack_t) : Prop := {
  vi_stitch : stitch_inv (moved_checked check) placed (vs s);
  vi_len : length placed = length ms;
  vi_conn : forall i m X C, nth_error ms i = Some m -> nth_error placed i = Some (X, C) ->
      C = v_conn m /\ length X = length (v_coor m);
  vi_planar : planar (st_coor (vs s));
  vi_tops : length (vs_top s) = length ms;
  vi_top : forall i m nm t, nth_error ms i = Some m -> nth_error (st_map (vs s)) i = Some nm ->
      nth_error (vs_top s) i = Some t -> map (nth_error nm) (v_top m) = map Some t }.

Lemma map_some_nth {B C} (f : B -> option C) l l' k x : map f l = map Some l' -> nth_error l k = Some x ->
  exists y, nth_error l' k = Some y /\ f x = Some y.
Proof.
  intros H Hk. assert (E : nth_error (map f l) k = nth_error (map Some l') k) by now rewrite H.
  rewrite !nth_error_map, Hk in E. simpl in E. destruct (nth_error l' k) as [y|]; simpl in E; [|discriminate].
  exists y. split; [reflexivity|]. congruence.
Qed.

Lemma renum_map_spec mb l l' : renum_map mb l = Ok l' -> map (nth_error mb) l = map Some l'.
Proof.
  unfold renum_map. revert l'. induction l as [|x l IH]; intros l' H; simpl in H; [inversion H; reflexivity|].
  destruct (get mb x) as [y| | |] eqn:E; cbn [bind] in H; try discriminate.
  destruct (mapM (get mb) l) as [r| | |] eqn:E2; cbn [bind] in H; try discriminate.
  inversion H; subst. simpl. f_equal; [now apply get_Ok|]. now apply IH.
Qed.

Lemma stitched_planar ca na oa cb nb ob c n mb : @stitched R ca na oa cb nb ob c n mb ->
  wf_overlap (length ca) (length cb) oa ob ->
  planar ca -> planar cb -> planar c.
Proof.
  intros D W Pa Pb p Hp. apply In_nth_error in Hp. destruct Hp as [m Hm].
  destruct (lt_dec m (length ca)) as [L|L].
  - destruct (nth_error ca m) as [q|] eqn:E; [|apply nth_error_None in E; lia].
    rewrite (sd_coor_a _ _ _ _ _ _ _ _ _ D m q E) in Hm. inversion Hm; subst. apply Pa. eapply nth_error_In; eauto.
  - destruct (sd_covered _ _ _ _ _ _ _ _ _ D m) as [?|Hin]; [apply nth_error_Some; congruence|lia|].
    apply In_nth_error in Hin. destruct Hin as [b Hb].
    assert (Hlt : (b < length cb)%nat) by (rewrite <- (sd_map _ _ _ _ _ _ _ _ _ D); apply nth_error_Some; congruence).
    destruct (in_dec Nat.eq_dec b ob) as [Hin|Hni].
    + exfalso. apply In_nth_error in Hin. destruct Hin as [k Hk].
      destruct (nth_error oa k) as [a|] eqn:Ea.
      * rewrite (sd_overlap _ _ _ _ _ _ _ _ _ D k a b Ea Hk) in Hb. inversion Hb; subst.
        apply nth_error_In in Ea. apply W in Ea. lia.
      * apply nth_error_None in Ea. assert (k < length ob)%nat by (apply nth_error_Some; congruence).
        destruct W as [Wl _]. lia.
    + destruct (nth_error cb b) as [r|] eqn:Er; [|apply nth_error_None in Er; lia].
      destruct (sd_new _ _ _ _ _ _ _ _ _ D b r Er Hni) as [m2 [E2 [_ E3]]].
      rewrite Hb in E2. inversion E2; subst. rewrite Hm in E3. inversion E3; subst.
      apply Pb. eapply nth_error_In; eauto.
Qed.

Lemma Vstack_first check m : wf_vmesh m ->
  exists s, Vstack_push_back close check Vstack_new m = Ok s /\
    vinv check [m] [vmesh_pair m] s /\ st_coor (vs s) = v_coor m.
Proof.
  intros [Hp [Hc Ht]]. eexists. split; [reflexivity|]. split; [|reflexivity].
  split; simpl; auto.
  - split; simpl; auto. unfold ems_of. simpl. now apply union_one.
  - intros [|i] m' X C H1 H2; simpl in *; [|destruct i; discriminate].
    inversion H1; inversion H2; subst. auto.
  - intros [|i] m' nm t H1 H2 H3; simpl in *; [|destruct i; discriminate].
    inversion H1; inversion H2; inversion H3; subst. apply map_ext_in. intros n Hn.
    rewrite nth_error_seq. specialize (Ht n Hn). destruct (Nat.ltb_spec n (length (v_coor m'))); [reflexivity|lia].
Qed.

(** one step *)
Lemma Vstack_step check ms placed s m s' : ms <> [] -> vinv check ms placed s -> wf_vmesh m ->
  Vstack_push_back close check s m = Ok s' ->
  exists d X, is_max_y (st_coor (vs s)) d /\ moved_up d (v_coor m) X /\ planar X /\
    vinv check (ms ++ [m]) (placed ++ [(X, v_conn m)]) s' /\
    (exists nm, st_map (vs s') = st_map (vs s) ++ [nm] /\
      forall k t a b, nth_error (vs_top s) (length ms - 1) = Some t ->
        nth_error t k = Some a -> nth_error (v_bot m) k = Some b -> nth_error nm b = Some a).
Proof.
  intros Hne Hi [Hp [Hc Ht]] H. unfold Vstack_push_back in H.
  pose proof (vi_stitch _ _ _ _ Hi) as Hst. pose proof (si_union _ _ _ Hst) as U.
  assert (Lm : length (st_map (vs s)) = length ms) by (rewrite (un_nodemaps _ _ _ _ _ _ U); apply (vi_len _ _ _ _ Hi)).
  assert (Hpos : (0 < length ms)%nat) by (destruct ms; [congruence|simpl; lia]).
  destruct (Nat.eqb_spec (length (st_map (vs s))) 0); [lia|].
  rewrite (vi_tops _ _ _ _ Hi) in H.
  destruct (get (vs_top s) (length ms - 1)) as [top| | |] eqn:Etop; cbn [bind] in H; try discriminate.
  destruct (column1 (st_coor (vs s))) as [ys| | |] eqn:Eys; cbn [bind] in H; try discriminate.
  destruct (amaxR ys) as [d| | |] eqn:Ed; cbn [bind] in H; try discriminate.
  destruct (shift_y d (v_coor m)) as [X| | |] eqn:EX; cbn [bind] in H; try discriminate.
  destruct (ManualStitch close _ _ top X (v_conn m) (v_bot m) check) as [sm| | |] eqn:Em; cbn [bind] in H; try discriminate.
  destruct (ms_nodeset sm (v_bot m) 1) as [bot'| | |] eqn:Ebot; cbn [bind] in H; try discriminate.
  destruct (ms_nodeset sm (v_top m) 1) as [top'| | |] eqn:Etop'; cbn [bind] in H; try discriminate.
  destruct (append_mesh (vs s) sm _) as [st'| | |] eqn:Est; cbn [bind] in H; try discriminate.
  inversion H; subst s'; clear H. cbn [vs vs_top].
  destruct (shift_y_planar d (v_coor m) Hp) as [X' [EX' [Hmv HpX]]]. rewrite EX in EX'. inversion EX'; subst X'.
  pose proof (amaxR_max _ _ _ (vi_planar _ _ _ _ Hi) Eys Ed) as Hmax.
  destruct (ManualStitch_inv close _ _ _ _ _ _ _ _ Em) as [Hl [Hn [Hrb [Hcr Hchk]]]].
  apply get_Ok in Etop.
  (* the top nodes are existing nodes *)
  assert (Hra : forall a, In a top -> (a < length (st_coor (vs s)))%nat).
  { intros a Ha. destruct (nth_error ms (length ms - 1)) as [ml|] eqn:Eml; [|apply nth_error_None in Eml; lia].
    destruct (nth_error (st_map (vs s)) (length ms - 1)) as [nm|] eqn:Enm; [|apply nth_error_None in Enm; lia].
    pose proof (vi_top _ _ _ _ Hi _ _ _ _ Eml Enm Etop) as Et.
    apply In_nth_error in Ha. destruct Ha as [k Hk].
    assert (E : nth_error (map (nth_error nm) (v_top ml)) k = Some (Some a)) by (rewrite Et, nth_error_map, Hk; reflexivity).
    rewrite nth_error_map in E. destruct (nth_error (v_top ml) k) as [n0|]; simpl in E; [|discriminate].
    inversion E as [En0].
    destruct (nth_error placed (length ms - 1)) as [[Xl Cl]|] eqn:Epl.
    2:{ apply nth_error_None in Epl. rewrite (vi_len _ _ _ _ Hi) in Epl. lia. }
    pose proof (un_nnode _ _ _ _ _ _ U _ _ _ _ Epl Enm) as Lnm.
    destruct (nth_error Xl n0) as [p|] eqn:Ep.
    2:{ apply nth_error_None in Ep. assert (n0 < length nm)%nat by (apply nth_error_Some; congruence). lia. }
    destruct (un_position _ _ _ _ _ _ U _ _ _ _ _ _ _ Epl Enm En0 Ep) as [q [Hq _]].
    apply nth_error_Some. congruence. }
  assert (W : wf_overlap (length (st_coor (vs s))) (length X) top (v_bot m)).
  { split; [exact Hl|]. split; [exact Hn|]. split; [exact Hra|exact Hrb]. }
  destruct (ManualStitch_ok close (st_coor (vs s)) (st_conn (vs s)) top X (v_conn m) (v_bot m) check W Hcr Hchk)
    as [sm' [Em' [D _]]]. rewrite Em in Em'. inversion Em'; subst sm'.
  exists d, X. split; [exact Hmax|]. split; [exact Hmv|]. split; [exact HpX|].
  assert (Emap : st_map st' = st_map (vs s) ++ [ms_map_b sm] /\ st_coor st' = ms_coor sm).
  { unfold append_mesh in Est.
    destruct (get (st_off (vs s)) _); cbn [bind] in Est; try discriminate.
    destruct (get (st_nel (vs s)) _); cbn [bind] in Est; try discriminate. inversion Est; subst st'. split; reflexivity. }
  destruct Emap as [Emap Ecoor].
  split.
  - split; cbn [vs vs_top].
    + assert (Hpne : placed <> []) by (intro E; pose proof (vi_len _ _ _ _ Hi) as L; rewrite E in L; simpl in L; lia).
      apply (append_mesh_inv (moved_checked check) placed (vs s) sm X (v_conn m) top (v_bot m) st' Hpne Hst W D); [|exact Est].
      intros k a b p q H1 H2 H3 H4. right. intro Hck.
      apply (positions_close_spec (st_coor (vs s)) X top (v_bot m) Hl (Hchk Hck) k a b p q H1 H2 H3 H4).
    + rewrite !app_length, (vi_len _ _ _ _ Hi). reflexivity.
    + intros i m' X' C' H1 H2. apply nth_error_snoc in H1. apply nth_error_snoc in H2.
      rewrite (vi_len _ _ _ _ Hi) in H2.
      destruct H1 as [[L1 H1]|[L1 H1]], H2 as [[L2 H2]|[L2 H2]]; try lia.
      * eapply (vi_conn _ _ _ _ Hi); eauto.
      * inversion H2; subst. split; [reflexivity|]. apply Hmv.
    + rewrite Ecoor. eapply stitched_planar; eauto. apply (vi_planar _ _ _ _ Hi).
    + rewrite !app_length, (vi_tops _ _ _ _ Hi). reflexivity.
    + intros i m' nm t H1 H2 H3. rewrite Emap in H2.
      apply nth_error_snoc in H1. apply nth_error_snoc in H2. apply nth_error_snoc in H3.
      rewrite Lm in H2. rewrite (vi_tops _ _ _ _ Hi) in H3.
      destruct H1 as [[L1 H1]|[L1 H1]], H2 as [[L2 H2]|[L2 H2]], H3 as [[L3 H3]|[L3 H3]]; try lia.
      * eapply (vi_top _ _ _ _ Hi); eauto.
      * subst. unfold ms_nodeset in Etop'. simpl in Etop'. now apply renum_map_spec.
  - exists (ms_map_b sm). split; [exact Emap|].
    intros k t a b Ht' Hk Hb. rewrite Etop in Ht'. inversion Ht'; subst t.
    apply (sd_overlap _ _ _ _ _ _ _ _ _ D k a b Hk Hb).
Qed.

Lemma Vstack_run_snoc check ms m : Vstack_run close check (ms ++ [m]) =
  bind (Vstack_run close check ms) (fun s => Vstack_push_back close check s m).
Proof.
  unfold Vstack_run. rewrite foldM_app. destruct (foldM _ ms Vstack_new) as [s| | |]; simpl; auto.
  destruct (Vstack_push_back close check s m); reflexivity.
Qed.

(** the claims about every mesh in a stack *)
Definition stack_claims (check : bool) (ms : list vmesh) (placed : list (list (list R) * list (list nat)))
    (s : Vstack_t) : Prop :=
  (forall m X C, nth_error ms 0 = Some m -> nth_error placed 0 = Some (X, C) -> X = v_coor m) /\
  (forall i m X C, nth_error ms (S i) = Some m -> nth_error placed (S i) = Some (X, C) ->
     exists si d, Vstack_run close check (firstn (S i) ms) = Ok si /\
       is_max_y (st_coor (vs si)) d /\ moved_up d (v_coor m) X) /\
  (forall i m m' nm nm' k a b, nth_error ms i = Some m -> nth_error ms (S i) = Some m' ->
     nth_error (st_map (vs s)) i = Some nm -> nth_error (st_map (vs s)) (S i) = Some nm' ->
     nth_error (v_top m) k = Some a -> nth_error (v_bot m') k = Some b ->
     exists n, nth_error nm a = Some n /\ nth_error nm' b = Some n).

Lemma Vstack_run_inv check ms : forall s, ms <> [] -> (forall m, In m ms -> wf_vmesh m) ->
  Vstack_run close check ms = Ok s ->
  exists placed, vinv check ms placed s /\ stack_claims check ms placed s.
Proof.
  induction ms as [|m ms IH] using rev_ind; intros s Hne Hwf H; [congruence|].
  pose proof H as Hrun. rewrite Vstack_run_snoc in H.
  destruct (Vstack_run close check ms) as [s0| | |] eqn:E; cbn [bind] in H; try discriminate.
  assert (Hm : wf_vmesh m) by (apply Hwf; apply in_or_app; right; now left).
  destruct ms as [|m0 ms].
  - unfold Vstack_run in E. simpl in E. inversion E; subst s0.
    destruct (Vstack_first check m Hm) as [s1 [E1 [I1 C1]]]. rewrite E1 in H. inversion H; subst s1.
    exists [vmesh_pair m]. simpl. split; [exact I1|]. split; [|split].
    + simpl. intros m' X C H1 H2. inversion H1; inversion H2; subst. reflexivity.
    + intros i m' X C H1. destruct i; discriminate.
    + intros i m1 m' nm nm' k a b _ H1. destruct i; discriminate.
  - destruct (IH s0 ltac:(discriminate)) as [placed [I0 [C1 [C2 C3]]]]; [intros; apply Hwf; apply in_or_app; now left|reflexivity|].
    destruct (Vstack_step check (m0 :: ms) placed s0 m s ltac:(discriminate) I0 Hm H)
      as [d [X [Hmax [Hmv [HpX [I1 [nm [Emap Hov]]]]]]]].
    exists (placed ++ [(X, v_conn m)]). split; [exact I1|].
    pose proof (vi_len _ _ _ _ I0) as Lp.
    assert (Lm : length (st_map (vs s0)) = length (m0 :: ms)).
    { rewrite (un_nodemaps _ _ _ _ _ _ (si_union _ _ _ (vi_stitch _ _ _ _ I0))). exact Lp. }
    split; [|split].
    + intros m' X' C' H1 H2. simpl in H1. inversion H1; subst m'.
      destruct placed as [|pl placed]; [simpl in Lp; lia|]. simpl in H2. eapply C1; [reflexivity|exact H2].
    + intros i m' X' C' H1 H2. apply nth_error_snoc in H1. apply nth_error_snoc in H2. rewrite Lp in H2.
      destruct H1 as [[L1 H1]|[L1 H1]], H2 as [[L2 H2]|[L2 H2]]; try lia.
      * destruct (C2 i m' X' C' H1 H2) as [si [d' [R1 [R2 R3]]]]. exists si, d'. split; [|exact (conj R2 R3)].
        rewrite firstn_app. replace (S i - length (m0 :: ms))%nat with 0%nat by lia. simpl firstn at 2.
        rewrite app_nil_r. exact R1.
      * inversion H2; subst X' C' m'. exists s0, d. split; [|exact (conj Hmax Hmv)].
        rewrite L1, firstn_app, Nat.sub_diag, firstn_all. simpl firstn. rewrite app_nil_r. exact E.
    + intros i m1 m' nm1 nm' k a b H1 H2 H3 H4 H5 H6. rewrite Emap in H3, H4.
      apply nth_error_snoc in H1. apply nth_error_snoc in H2. apply nth_error_snoc in H3. apply nth_error_snoc in H4.
      rewrite Lm in H3, H4.
      destruct H2 as [[L2 H2]|[L2 H2]].
      * destruct H1 as [[L1 H1]|[L1 H1]], H3 as [[L3 H3]|[L3 H3]], H4 as [[L4 H4]|[L4 H4]]; try lia.
        exact (C3 i m1 m' nm1 nm' k a b H1 H2 H3 H4 H5 H6).
      * destruct H1 as [[L1 H1]|[L1 H1]], H3 as [[L3 H3]|[L3 H3]], H4 as [[L4 H4]|[L4 H4]]; try lia.
        subst m' nm'. assert (Ei : (length (m0 :: ms) - 1 = i)%nat) by lia.
        destruct (nth_error (vs_top s0) i) as [t|] eqn:Et.
        2:{ apply nth_error_None in Et. rewrite (vi_tops _ _ _ _ I0) in Et. lia. }
        pose proof (vi_top _ _ _ _ I0 i m1 nm1 t H1 H3 Et) as Emt.
        destruct (map_some_nth _ _ _ _ _ Emt H5) as [n [N1 N2]].
        exists n. split; [exact N2|]. apply (Hov k t n b); [rewrite Ei; exact Et|exact N1|exact H6].
Qed.

Theorem Vstack_history : forall check ms s, ms <> [] -> (forall m, In m ms -> wf_vmesh m) ->
  Vstack_run close check ms = Ok s ->
  exists placed nodemaps elemmaps,
    Stitch_nmesh (vs s) = length ms /\
    mapM (Stitch_nodemap (vs s)) (seq 0 (length ms)) = Ok nodemaps /\
    mapM (Stitch_elemmap (vs s)) (seq 0 (length ms)) = Ok elemmaps /\
    union_of (fun p q => check = true -> near close q p) placed (st_coor (vs s)) (st_conn (vs s)) nodemaps elemmaps /\
    (* placed: the connectivity of the given meshes, the first at its own position, every other one
       moved up by the height of the stack below it *)
    length placed = length ms /\
    (forall i m X C, nth_error ms i = Some m -> nth_error placed i = Some (X, C) -> C = v_conn m) /\
    (forall m X C, nth_error ms 0 = Some m -> nth_error placed 0 = Some (X, C) -> X = v_coor m) /\
    (forall i m X C, nth_error ms (S i) = Some m -> nth_error placed (S i) = Some (X, C) ->
       exists si d, Vstack_run close check (firstn (S i) ms) = Ok si /\
         is_max_y (st_coor (vs si)) d /\ moved_up d (v_coor m) X) /\
    (* bottom nodes are identified with the top nodes of the mesh below *)
    (forall i m m' nm nm' k a b, nth_error ms i = Some m -> nth_error ms (S i) = Some m' ->
       nth_error nodemaps i = Some nm -> nth_error nodemaps (S i) = Some nm' ->
       nth_error (v_top m) k = Some a -> nth_error (v_bot m') k = Some b ->
       exists n, nth_error nm a = Some n /\ nth_error nm' b = Some n).
Proof.
  intros check ms s Hne Hwf H. destruct (Vstack_run_inv check ms s Hne Hwf H) as [placed [I [C1 [C2 C3]]]].
  pose proof (vi_stitch _ _ _ _ I) as Hst. destruct (stitch_maps _ _ _ Hst) as [H1 [H2 H3]].
  pose proof (vi_len _ _ _ _ I) as L. rewrite H1, L in H2, H3.
  exists placed, (st_map (vs s)), (ems_of (st_nel (vs s))).
  split; [congruence|]. split; [exact H2|]. split; [exact H3|]. split; [apply Hst|]. split; [exact L|].
  split; [intros i m X C G1 G2; eapply (vi_conn _ _ _ _ I); eauto|]. auto.
Qed.

(** ** matching slabs: always succeeds, exact positions *)
Lemma sum_below_snoc hs h : sum_below (hs ++ [h]) (length (hs ++ [h])) = sum_below hs (length hs) + h.
Proof.
  unfold sum_below. rewrite !firstn_all. induction hs as [|x hs IH]; simpl; [lra|]. rewrite IH. lra.
Qed.

Record exact_inv (ms : list vmesh) (hs : list R) (s : Vstack_t) : Prop := {
  ei_stitch : exists placed, stitch_inv (fun _ _ => False) placed (vs s) /\ length placed = length ms /\
     forall i m X C, nth_error ms i = Some m -> nth_error placed i = Some (X, C) ->
        C = v_conn m /\ moved_up (sum_below hs i) (v_coor m) X;
  ei_planar : planar (st_coor (vs s));
  ei_max : is_max_y (st_coor (vs s)) (sum_below hs (length hs));
  ei_tops : length (vs_top s) = length ms;
  ei_top : forall m t, nth_error ms (length ms - 1) = Some m -> nth_error (vs_top s) (length ms - 1) = Some t ->
     length t = length (v_top m) /\
     forall k n a x y, nth_error t k = Some n -> nth_error (v_top m) k = Some a ->
       nth_error (v_coor m) a = Some [x; y] ->
       nth_error (st_coor (vs s)) n = Some [x; sum_below hs (length hs)] }.

Lemma slab_wf m Ly : slab (v_coor m) (v_conn m) (v_bot m) (v_top m) Ly -> wf_vmesh m.
Proof.
  intros S. split; [apply S|]. split; [apply S|]. intros n Hn. destruct (sl_top _ _ _ _ _ S n Hn) as [x Hx].
  apply nth_error_Some. congruence.
Qed.

Lemma moved_up_0 X X' : planar X -> moved_up 0 X X' -> X' = X.
Proof.
  intros Hp [Hl Hm]. apply nth_error_ext. intro n. destruct (nth_error X n) as [p|] eqn:E.
  - destruct (Hp p) as [x [y ->]]; [eapply nth_error_In; eauto|]. rewrite (Hm n x y E). do 3 f_equal. lra.
  - apply nth_error_None in E. apply nth_error_None. lia.
Qed.

Lemma exact_first check m Ly : slab (v_coor m) (v_conn m) (v_bot m) (v_top m) Ly ->
  exists s, Vstack_push_back close check Vstack_new m = Ok s /\ exact_inv [m] [Ly] s.
Proof.
  intros S. destruct (Vstack_first check m (slab_wf m Ly S)) as [s [E [I C]]]. exists s. split; [exact E|].
  assert (Hs : sum_below [Ly] (length [Ly]) = Ly) by (unfold sum_below; simpl; lra).
  split.
  - exists [vmesh_pair m]. split; [|split; [reflexivity|]].
    + assert (s = mkVstack (mkStitch (v_coor m) (v_conn m) [seq 0 (length (v_coor m))] [length (v_conn m)] [0%nat]) [v_bot m] [v_top m]).
      { cbn in E. inversion E. reflexivity. }
      subst s. split; simpl; auto. unfold ems_of. simpl. apply union_one. apply S.
    + intros [|i] m' X C' H1 H2; simpl in *; [|destruct i; discriminate]. inversion H1; inversion H2; subst.
      split; [reflexivity|]. split; [reflexivity|]. intros n x y Hn. rewrite Hn. unfold sum_below. simpl. do 3 f_equal. lra.
  - apply I.
  - rewrite C, Hs. split.
    + destruct (v_top m) as [|a t] eqn:Et; [now destruct (sl_top_some _ _ _ _ _ S)|].
      destruct (sl_top _ _ _ _ _ S a) as [x Hx]; [now left|]. exists x. eapply nth_error_In; eauto.
    + intros x y Hin. now apply (sl_range _ _ _ _ _ S x y).
  - apply I.
  - simpl. intros m' t H1 H2. inversion H1; subst m'.
    cbn in E. inversion E; subst s. simpl in *. inversion H2; subst t. split; [reflexivity|].
    intros k n a x y Hk Ha Hx. rewrite Hk in Ha. inversion Ha; subst. rewrite Hs.
    destruct (sl_top _ _ _ _ _ S a) as [x' Hx']; [eapply nth_error_In; eauto|]. congruence.
Qed.

Lemma exact_step check ms hs s m Ly mlast : ms <> [] -> length hs = length ms -> exact_inv ms hs s ->
  (forall a, close a a = true) -> (forall h, In h hs -> 0 <= h) ->
  slab (v_coor m) (v_conn m) (v_bot m) (v_top m) Ly ->
  nth_error ms (length ms - 1) = Some mlast ->
  planar (v_coor mlast) -> (forall n, In n (v_top mlast) -> (n < length (v_coor mlast))%nat) ->
  matching (v_coor mlast) (v_top mlast) (v_coor m) (v_bot m) ->
  exists s', Vstack_push_back close check s m = Ok s' /\ exact_inv (ms ++ [m]) (hs ++ [Ly]) s'.
Proof.
  intros Hne Lh I Hrefl Hh S Elast Hplast Htlast [Lmt Hmt].
  destruct (ei_stitch _ _ _ I) as [placed [Hst [Lp Hpl]]]. pose proof (si_union _ _ _ Hst) as U.
  assert (Hpos : (0 < length ms)%nat) by (destruct ms; [congruence|simpl; lia]).
  assert (Lm : length (st_map (vs s)) = length ms) by (rewrite (un_nodemaps _ _ _ _ _ _ U); exact Lp).
  unfold Vstack_push_back. destruct (Nat.eqb_spec (length (st_map (vs s))) 0) as [?|_]; [lia|].
  rewrite (ei_tops _ _ _ I).
  destruct (get_lt (vs_top s) (length ms - 1)) as [top Etop]; [rewrite (ei_tops _ _ _ I); lia|].
  rewrite Etop. cbn [bind]. apply get_Ok in Etop.
  destruct (ei_top _ _ _ I mlast top Elast Etop) as [Lt Hpost].
  pose proof (ei_max _ _ _ I) as Hmax. set (d := sum_below hs (length hs)) in *.
  destruct (amaxR_total (st_coor (vs s)) (ei_planar _ _ _ I)) as [ys [d' [Eys Ed']]].
  { destruct Hmax as [[x Hx] _]. intro Hx'. rewrite Hx' in Hx. inversion Hx. }
  rewrite Eys. cbn [bind]. rewrite Ed'. cbn [bind].
  assert (Hdd : d' = d).
  { pose proof (amaxR_max _ _ _ (ei_planar _ _ _ I) Eys Ed') as [[x1 H1] H2]. destruct Hmax as [[x3 H3] H4].
    apply Rle_antisym; eauto. }
  subst d'.
  destruct (shift_y_planar d (v_coor m) (sl_planar _ _ _ _ _ S)) as [X [EX [Hmv HpX]]]. rewrite EX. cbn [bind].
  assert (HlX : length X = length (v_coor m)) by apply Hmv.
  assert (Htopr : forall k n, nth_error top k = Some n -> exists a x, nth_error (v_top mlast) k = Some a /\
      (exists y, nth_error (v_coor mlast) a = Some [x; y]) /\ nth_error (st_coor (vs s)) n = Some [x; d]).
  { intros k n Hk. destruct (nth_error (v_top mlast) k) as [a|] eqn:Ea.
    2:{ apply nth_error_None in Ea. assert (k < length top)%nat by (apply nth_error_Some; congruence). lia. }
    assert (Hal : (a < length (v_coor mlast))%nat) by (apply Htlast; eapply nth_error_In; eauto).
    destruct (nth_error (v_coor mlast) a) as [p|] eqn:Ep; [|apply nth_error_None in Ep; lia].
    destruct (Hplast p) as [x [y ->]]; [eapply nth_error_In; eauto|].
    exists a, x. split; [reflexivity|]. split; [eauto|]. eapply Hpost; eauto. }
  assert (Hbot : forall k n b, nth_error top k = Some n -> nth_error (v_bot m) k = Some b ->
      exists x, nth_error (st_coor (vs s)) n = Some [x; d] /\ nth_error X b = Some [x; d]).
  { intros k n b Hn Hb. destruct (Htopr k n Hn) as [a [x [Ha [[y Hx] Hc]]]].
    destruct (sl_bot _ _ _ _ _ S b) as [x' Hx']; [eapply nth_error_In; eauto|].
    assert (x = x') by (eapply Hmt; eauto). subst x'.
    exists x. split; [exact Hc|]. destruct Hmv as [_ Hmv]. rewrite (Hmv b x 0 Hx'). do 3 f_equal. lra. }
  assert (W : wf_overlap (length (st_coor (vs s))) (length X) top (v_bot m)).
  { split; [congruence|]. split; [apply S|]. split.
    - intros a Ha. apply In_nth_error in Ha. destruct Ha as [k Hk]. destruct (Htopr k a Hk) as [? [x [_ [_ Hc]]]].
      apply nth_error_Some. congruence.
    - intros b Hb. destruct (sl_bot _ _ _ _ _ S b Hb) as [x Hx]. rewrite HlX. apply nth_error_Some. congruence. }
  destruct (ManualStitch_ok close (st_coor (vs s)) (st_conn (vs s)) top X (v_conn m) (v_bot m) check W) as [sm [Em [D _]]].
  { rewrite HlX. apply S. }
  { intros _. unfold positions_close.
    destruct (get_rows (st_coor (vs s)) top) as [ra [Era [Lra Hra]]]; [apply W|].
    destruct (get_rows X (v_bot m)) as [rb [Erb [Lrb Hrb]]]; [apply W|].
    rewrite Era. cbn [bind]. rewrite Erb. cbn [bind]. f_equal. apply forallb_forall. intros [q p] Hin.
    apply In_nth_error in Hin. destruct Hin as [k Hk]. apply nth_error_combine_inv in Hk. destruct Hk as [Hq Hp].
    assert (Hk1 : (k < length top)%nat) by (rewrite <- Lra; apply nth_error_Some; congruence).
    destruct (nth_error top k) as [n0|] eqn:En0; [|apply nth_error_None in En0; lia].
    destruct (nth_error (v_bot m) k) as [b0|] eqn:Eb0.
    2:{ apply nth_error_None in Eb0. lia. }
    rewrite (Hra k n0 En0) in Hq. rewrite (Hrb k b0 Eb0) in Hp.
    destruct (Hbot k n0 b0 En0 Eb0) as [x [H1 H2]]. rewrite H1 in Hq. rewrite H2 in Hp. inversion Hq; inversion Hp; subst.
    simpl. unfold row_close. simpl. now rewrite !Hrefl. }
  rewrite Em. cbn [bind].
  assert (Hnode : forall l, (forall n, In n l -> (n < length X)%nat) -> exists l', ms_nodeset sm l 1 = Ok l' /\ map (nth_error (ms_map_b sm)) l = map Some l').
  { intros l Hl. unfold ms_nodeset. simpl. 
    assert (E : renum_map (ms_map_b sm) l = Ok (map (fun n => nth n (ms_map_b sm) 0%nat) l)).
    { apply mapM_Ok. intros n Hn. unfold get. rewrite (nth_error_nth' _ 0%nat); [reflexivity|].
      rewrite (sd_map _ _ _ _ _ _ _ _ _ D). auto. }
    eexists. split; [exact E|]. now apply renum_map_spec. }
  destruct (Hnode (v_bot m)) as [bot' [Ebot' _]]; [apply W|]. rewrite Ebot'. cbn [bind].
  destruct (Hnode (v_top m)) as [top' [Etop' Hmtop]].
  { intros n Hn. rewrite HlX. destruct (sl_top _ _ _ _ _ S n Hn) as [x Hx]. apply nth_error_Some. congruence. }
  rewrite Etop'. cbn [bind].
  assert (Hpne : placed <> []) by (intro E; rewrite E in Lp; simpl in Lp; lia).
  destruct (append_mesh_total _ _ _ sm (length (v_conn m)) Hpne Hst) as [st' Est]. rewrite Est. cbn [bind].
  eexists. split; [reflexivity|].
  assert (Ecoor : st_coor st' = ms_coor sm).
  { unfold append_mesh in Est.
    destruct (get (st_off (vs s)) _); cbn [bind] in Est; try discriminate.
    destruct (get (st_nel (vs s)) _); cbn [bind] in Est; try discriminate. now inversion Est. }
  assert (Hdnew : sum_below (hs ++ [Ly]) (length (hs ++ [Ly])) = d + Ly) by (rewrite sum_below_snoc; reflexivity).
  (* position of the nodes of the new mesh *)
  assert (Hposb : forall b n p, nth_error (ms_map_b sm) b = Some n -> nth_error X b = Some p ->
      nth_error (ms_coor sm) n = Some p).
  { intros b n p Hb Hp. destruct (in_dec Nat.eq_dec b (v_bot m)) as [Hin|Hni].
    - apply In_nth_error in Hin. destruct Hin as [k Hk].
      destruct (nth_error top k) as [a|] eqn:Ea.
      2:{ apply nth_error_None in Ea. assert (k < length (v_bot m))%nat by (apply nth_error_Some; congruence). lia. }
      rewrite (sd_overlap _ _ _ _ _ _ _ _ _ D k a b Ea Hk) in Hb. inversion Hb; subst.
      destruct (Hbot k n b Ea Hk) as [x [H1 H2]]. rewrite H2 in Hp. inversion Hp; subst.
      apply (sd_coor_a _ _ _ _ _ _ _ _ _ D). exact H1.
    - destruct (sd_new _ _ _ _ _ _ _ _ _ D b p Hp Hni) as [m2 [E2 [_ E3]]]. congruence. }
  (* the rows of the new coordinates *)
  assert (Hrows : forall p, In p (ms_coor sm) -> In p (st_coor (vs s)) \/ In p X).
  { intros p Hp. apply In_nth_error in Hp. destruct Hp as [n Hn].
    destruct (lt_dec n (length (st_coor (vs s)))) as [L|L].
    - left. destruct (nth_error (st_coor (vs s)) n) as [q|] eqn:E; [|apply nth_error_None in E; lia].
      rewrite (sd_coor_a _ _ _ _ _ _ _ _ _ D n q E) in Hn. inversion Hn; subst. eapply nth_error_In; eauto.
    - right. destruct (sd_covered _ _ _ _ _ _ _ _ _ D n) as [?|Hin]; [apply nth_error_Some; congruence|lia|].
      apply In_nth_error in Hin. destruct Hin as [b Hb].
      assert (Hlt : (b < length X)%nat) by (rewrite <- (sd_map _ _ _ _ _ _ _ _ _ D); apply nth_error_Some; congruence).
      destruct (nth_error X b) as [r|] eqn:Er; [|apply nth_error_None in Er; lia].
      rewrite (Hposb b n r Hb Er) in Hn. inversion Hn; subst. eapply nth_error_In; eauto. }
  assert (HLy : 0 <= Ly).
  { destruct (v_top m) as [|a t] eqn:Et; [now destruct (sl_top_some _ _ _ _ _ S)|].
    destruct (sl_top _ _ _ _ _ S a) as [x Hx]; [now left|]. apply (sl_range _ _ _ _ _ S x Ly). eapply nth_error_In; eauto. }
  (* top nodes of the new mesh *)
  assert (Htopn : forall a x y n, In a (v_top m) -> nth_error (v_coor m) a = Some [x; y] ->
      nth_error (ms_map_b sm) a = Some n -> nth_error (ms_coor sm) n = Some [x; d + Ly]).
  { intros a x y n Ha Hx Hn. destruct (sl_top _ _ _ _ _ S a Ha) as [x' Hx']. rewrite Hx in Hx'. inversion Hx'; subst.
    apply (Hposb a n); [exact Hn|]. destruct Hmv as [_ Hmv]. rewrite (Hmv a x' Ly Hx). do 3 f_equal. lra. }
  split; cbn [vs vs_top].
  - exists (placed ++ [(X, v_conn m)]). split; [|split].
    + eapply append_mesh_inv; eauto. intros k a b p q H1 H2 H3 H4. left.
      destruct (Hbot k a b H1 H2) as [x [G1 G2]]. congruence.
    + rewrite !app_length, Lp. reflexivity.
    + intros i m' X' C' H1 H2. apply nth_error_snoc in H1. apply nth_error_snoc in H2. rewrite Lp in H2.
      destruct H1 as [[L1 H1]|[L1 H1]], H2 as [[L2 H2]|[L2 H2]]; try lia.
      * destruct (Hpl i m' X' C' H1 H2) as [G1 G2]. split; [exact G1|].
        unfold sum_below in *. rewrite firstn_app. replace (i - length hs)%nat with 0%nat by lia.
        simpl firstn at 2. rewrite app_nil_r. exact G2.
      * inversion H2; subst. split; [reflexivity|]. unfold sum_below. rewrite <- Lh, firstn_app, Nat.sub_diag.
        simpl firstn at 2. rewrite app_nil_r. exact Hmv.
  - rewrite Ecoor. intros p Hp. destruct (Hrows p Hp) as [G|G]; [now apply (ei_planar _ _ _ I)|now apply HpX].
  - rewrite Ecoor, Hdnew. split.
    + destruct (v_top m) as [|a t] eqn:Et; [now destruct (sl_top_some _ _ _ _ _ S)|].
      destruct (sl_top _ _ _ _ _ S a) as [x Hx]; [now left|].
      assert (Hal : (a < length X)%nat) by (rewrite HlX; apply nth_error_Some; congruence).
      destruct (nth_error (ms_map_b sm) a) as [n0|] eqn:Ea.
      2:{ apply nth_error_None in Ea. rewrite (sd_map _ _ _ _ _ _ _ _ _ D) in Ea. lia. }
      exists x. eapply nth_error_In. eapply Htopn; eauto. now left.
    + intros x y Hin. destruct (Hrows _ Hin) as [G|G].
      * destruct Hmax as [_ Hmax]. specialize (Hmax x y G). lra.
      * apply In_nth_error in G. destruct G as [b Hb].
        assert (Hbl : (b < length (v_coor m))%nat) by (rewrite <- HlX; apply nth_error_Some; congruence).
        destruct (nth_error (v_coor m) b) as [p|] eqn:Ep; [|apply nth_error_None in Ep; lia].
        destruct (sl_planar _ _ _ _ _ S p) as [x' [y' ->]]; [eapply nth_error_In; eauto|].
        destruct Hmv as [_ Hmv]. rewrite (Hmv b x' y' Ep) in Hb. inversion Hb; subst.
        pose proof (sl_range _ _ _ _ _ S x y'). assert (0 <= y' <= Ly) by (apply H; eapply nth_error_In; eauto). lra.
  - rewrite !app_length, (ei_tops _ _ _ I). reflexivity.
  - intros m' t H1 H2. rewrite app_length in H1, H2. simpl in H1, H2.
    replace (length ms + 1 - 1)%nat with (length ms) in H1, H2 by lia.
    rewrite nth_error_snoc_last in H1. rewrite <- (ei_tops _ _ _ I) in H2. rewrite nth_error_snoc_last in H2.
    inversion H1; inversion H2; subst m' t.
    split; [apply (f_equal (@length _)) in Hmtop; rewrite !map_length in Hmtop; congruence|].
    intros k n a x y Hk Ha Hx. rewrite Ecoor, Hdnew.
    destruct (map_some_nth _ _ _ _ _ Hmtop Ha) as [n' [N1 N2]]. rewrite Hk in N1. inversion N1; subst n'.
    eapply Htopn; eauto. eapply nth_error_In; eauto.
Qed.

Lemma stackable_firstn ms m hs h : stackable (ms ++ [m]) (hs ++ [h]) -> length hs = length ms -> stackable ms hs.
Proof.
  intros [L [H1 H2]] Lh. split; [exact Lh|]. split.
  - intros i m' Ly G1 G2. apply (H1 i); (rewrite nth_error_app1; [assumption|apply nth_error_Some; congruence]).
  - intros i m1 m2 G1 G2. apply (H2 i); (rewrite nth_error_app1; [assumption|apply nth_error_Some; congruence]).
Qed.

Lemma slab_height X C b t Ly : slab X C b t Ly -> 0 <= Ly.
Proof.
  intro S. destruct t as [|a t]; [now destruct (sl_top_some _ _ _ _ _ S)|].
  destruct (sl_top _ _ _ _ _ S a) as [x Hx]; [now left|]. apply (sl_range _ _ _ _ _ S x Ly). eapply nth_error_In; eauto.
Qed.

Lemma Vstack_exact_inv check ms : forall hs, ms <> [] -> stackable ms hs -> (forall a, close a a = true) ->
  exists s, Vstack_run close check ms = Ok s /\ exact_inv ms hs s.
Proof.
  induction ms as [|m ms IH] using rev_ind; intros hs Hne Hst Hrefl; [congruence|].
  destruct hs as [|h hs _] using rev_ind.
  { destruct Hst as [L _]. rewrite app_length in L. simpl in L. lia. }
  assert (Lh : length hs = length ms) by (destruct Hst as [L _]; rewrite !app_length in L; simpl in L; lia).
  pose proof (stackable_firstn ms m hs h Hst Lh) as Hst0. destruct Hst as [L [H1 H2]].
  assert (Sm : slab (v_coor m) (v_conn m) (v_bot m) (v_top m) h).
  { apply (H1 (length ms)); [apply nth_error_snoc_last|rewrite <- Lh; apply nth_error_snoc_last]. }
  rewrite Vstack_run_snoc. destruct ms as [|m0 ms].
  - destruct hs; [|discriminate]. simpl. unfold Vstack_run. simpl.
    destruct (exact_first check m h Sm) as [s [E I]]. exists s. auto.
  - destruct (IH hs ltac:(discriminate) Hst0 Hrefl) as [s0 [E0 I0]]. rewrite E0. cbn [bind].
    destruct Hst0 as [_ [G1 G2]].
    destruct (nth_error (m0 :: ms) (length (m0 :: ms) - 1)) as [ml|] eqn:El.
    2:{ apply nth_error_None in El. simpl in El. lia. }
    destruct (nth_error hs (length (m0 :: ms) - 1)) as [hl|] eqn:Eh.
    2:{ apply nth_error_None in Eh. simpl in Eh, Lh. lia. }
    pose proof (G1 _ _ _ El Eh) as Sl. destruct (slab_wf ml hl Sl) as [P1 [P2 P3]].
    apply (exact_step check (m0 :: ms) hs s0 m h ml); auto; try discriminate.
    + intros h' Hin. apply In_nth_error in Hin. destruct Hin as [i Hi].
      assert (i < length (m0 :: ms))%nat by (rewrite <- Lh; apply nth_error_Some; congruence).
      destruct (nth_error (m0 :: ms) i) as [mi|] eqn:Emi; [|apply nth_error_None in Emi; lia].
      eapply slab_height. eapply G1; eauto.
    + apply (H2 (length (m0 :: ms) - 1)%nat); [|simpl length; replace (S (S (length ms) - 1)) with (length (m0 :: ms)) by (simpl; lia); apply nth_error_snoc_last].
      rewrite nth_error_app1; [exact El|]. simpl. lia.
Qed.

Theorem Vstack_exact : forall check ms heights, ms <> [] -> stackable ms heights -> (forall a, close a a = true) ->
  exists s placed nodemaps elemmaps, Vstack_run close check ms = Ok s /\
    mapM (Stitch_nodemap (vs s)) (seq 0 (length ms)) = Ok nodemaps /\
    mapM (Stitch_elemmap (vs s)) (seq 0 (length ms)) = Ok elemmaps /\
    union_of (fun _ _ => False) placed (st_coor (vs s)) (st_conn (vs s)) nodemaps elemmaps /\
    length placed = length ms /\
    (forall i m X C, nth_error ms i = Some m -> nth_error placed i = Some (X, C) ->
        C = v_conn m /\ moved_up (sum_below heights i) (v_coor m) X) /\
    is_max_y (st_coor (vs s)) (sum_below heights (length heights)).
Proof.
  intros check ms hs Hne Hst Hrefl. destruct (Vstack_exact_inv check ms hs Hne Hst Hrefl) as [s [E I]].
  destruct (ei_stitch _ _ _ I) as [placed [Hs [Lp Hpl]]]. destruct (stitch_maps _ _ _ Hs) as [H1 [H2 H3]].
  rewrite H1, Lp in H2, H3. exists s, placed, (st_map (vs s)), (ems_of (st_nel (vs s))).
  split; [exact E|]. split; [exact H2|]. split; [exact H3|]. split; [apply Hs|]. split; [exact Lp|]. split; [exact Hpl|]. apply I.
Qed.
End V.
