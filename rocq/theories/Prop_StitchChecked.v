(** C110: stitched meshes, as they are queried, with and without the assertions. *)
From Coq Require Import Reals.
From Verif Require Import Base Spec Spec_Stitch Spec_Vstack Model_Numbering Model_Stitch Model_Checked Model_StitchChecked Spec_StitchChecked.
From Verif Require Import Proof_Numbering Proof_Stitch Proof_Vstack Proof_StitchChecked Prop_Stitch.

(** C110: meshes can be added to a checked Stitch exactly if they are tables with the same numbers of columns, and then the result is
    that of the release build. *)
Theorem C110_history : forall {A} (close : A -> A -> bool) (ms : list (array A * array nat)) s, ms <> [] ->
  (c_run close true ms = Ok s <->
   exists XCs t, (forall m, In m ms -> tables (sc_ndim s) (sc_nne s) m) /\ Forall2 is_mesh ms XCs /\ Stitch_run close XCs = Ok t /\ sc s = t).
Proof. exact @Proof_StitchChecked.c_run_iff. Qed.
Print Assumptions C110_history.
(** C110: the first mesh that does not fit throws, whatever follows. *)
Theorem C110_history_throws : forall {A} (close : A -> A -> bool) m post,
  ((forall ndim nne, ~ tables ndim nne m) -> c_run close true (m :: post) = Throw) /\
  (forall (pre : list (array A * array nat)) s, pre <> [] -> c_run close true pre = Ok s -> ~ tables (sc_ndim s) (sc_nne s) m ->
     c_run close true (pre ++ m :: post) = Throw).
Proof. intros A close m post. split; [apply Proof_StitchChecked.c_run_rank|]. intros. eapply Proof_StitchChecked.c_run_first; eauto. Qed.
Print Assumptions C110_history_throws.

(** C110: after every history: a query that makes sense has the same, right answer in both builds; every other one throws in the
    checked build; the degrees of freedom are numbered row by row. *)
Theorem C110_queries : forall {A} (close : A -> A -> bool) (ms : list (array A * array nat)) s XCs, ms <> [] ->
  c_run close true ms = Ok s -> Forall2 is_mesh ms XCs -> wf_meshes XCs ->
  exists nodemaps elemmaps, union_of (near close) XCs (st_coor (sc s)) (st_conn (sc s)) nodemaps elemmaps /\
    (forall ck, c_nodemaps ck (sc s) = Ok nodemaps /\ c_elemmaps ck (sc s) = Ok elemmaps) /\
    (forall q, admitted (mesh_sizes XCs) q -> exists a, (forall ck, ask ck (sc s) q = Ok a) /\ answer nodemaps elemmaps q a) /\
    (forall q, ~ admitted (mesh_sizes XCs) q -> ask true (sc s) q = Throw) /\
    shape2 (c_dofs s) (length (st_coor (sc s))) (sc_ndim s) /\
    (forall n i, n < length (st_coor (sc s)) -> i < sc_ndim s -> at2 (c_dofs s) n i = Some (n * sc_ndim s + i)).
Proof.
  intros A close ms s XCs Hne H Hm W. pose proof (stitch_of_run close ms s XCs Hne H Hm W) as Hi.
  exists (st_map (sc s)), (ems_of (st_nel (sc s))). split; [exact (si_union _ _ _ Hi)|].
  split; [intro ck; exact (all_maps _ _ _ ck Hi)|]. split; [intro q; exact (ask_ok _ _ _ Hi q)|]. split; [intro q; exact (ask_throw _ _ _ Hi q)|].
  split; [apply dofs_shape|]. intros n i Hn Hd. now apply dofs_at.
Qed.
Print Assumptions C110_queries.

(** C110: without the assertions.  A mesh or a node that does not exist is an access out of bounds, and so are too many sets.  But an element
    that does not exist is silently taken for one of the next mesh, and missing sets are silently taken for empty ones. *)
Theorem C110_release : forall {A} (close : A -> A -> bool) (ms : list (array A * array nat)) s XCs, ms <> [] ->
  c_run close true ms = Ok s -> Forall2 is_mesh ms XCs -> wf_meshes XCs ->
  (forall i set, length XCs <= i -> ask false (sc s) (Nodemap i) = Oob /\ ask false (sc s) (Elemmap i) = Oob /\
     ask false (sc s) (Nodeset set i) = Oob /\ ask false (sc s) (Elemset set i) = Oob) /\
  (forall i X C set n, nth_error XCs i = Some (X, C) -> In n set -> length X <= n -> ask false (sc s) (Nodeset set i) = Oob) /\
  (forall i X C set, nth_error XCs i = Some (X, C) -> S i < length XCs ->
     ask false (sc s) (Elemset (map (fun e => e + length C) set) i) = ask false (sc s) (Elemset set (S i))) /\
  (forall sets k, length sets + k <= length XCs ->
     ask false (sc s) (Nodesets sets) = ask false (sc s) (Nodesets (sets ++ repeat [] k)) /\
     ask false (sc s) (Elemsets sets) = ask false (sc s) (Elemsets (sets ++ repeat [] k))) /\
  (forall sets a, length XCs < length sets -> ask false (sc s) (Nodesets sets) <> Ok a /\ ask false (sc s) (Elemsets sets) <> Ok a).
Proof.
  intros A close ms s XCs Hne H Hm W. pose proof (stitch_of_run close ms s XCs Hne H Hm W) as Hi.
  assert (E : forall i X C, nth_error XCs i = Some (X, C) -> nth_error (mesh_sizes XCs) i = Some (length X, length C))
    by (intros i X C E; unfold mesh_sizes; now rewrite nth_error_map, E).
  split; [intros i set; apply (rel_index _ _ _ Hi)|]. split; [intros i X C set n Hx; apply (rel_node _ _ _ Hi) with (ne := length C); auto|].
  split; [intros i X C set Hx; apply (rel_next _ _ _ Hi) with (nn := length X); auto|].
  split; [intros sets k; apply (rel_few _ _ _ Hi)|intros sets a; apply (rel_many _ _ _ Hi)].
Qed.
Print Assumptions C110_release.

(** the three bars of C33, as arrays; what the checked build answers and what the release build answers *)
Definition table {B} (dflt : B) (l : list (list B)) : array B :=
  mkArray [length l; length (hd [] l)] (fun ij => match ij with [i; j] => nth j (nth i l []) dflt | _ => dflt end).
Definition C110_bars : list (array nat * array nat) := map (fun m => (table 0 (fst m), table 0 (snd m))) C33_meshes.
Example C110_ex_meshes : C110_bars <> [] /\ Forall2 is_mesh C110_bars C33_meshes /\ wf_meshes C33_meshes /\
  (forall m, In m C110_bars -> tables 1 2 m) /\
  exists s, c_run Nat.eqb true C110_bars = Ok s /\ sc_ndim s = 1 /\ sc_nne s = 2 /\ Stitch_run Nat.eqb C33_meshes = Ok (sc s).
Proof.
  split; [discriminate|]. split.
  - unfold C110_bars, C33_meshes. simpl.
    repeat (apply Forall2_cons || apply Forall2_nil); unfold is_mesh; simpl;
      (do 4 eexists; split; [reflexivity|]; split; [reflexivity|]; split; [split; [reflexivity|simpl; intuition (subst; reflexivity)]|];
       split; [split; [reflexivity|simpl; intuition (subst; reflexivity)]|]; split; intros a b Ha Hb;
       destruct a as [|[|[|a]]]; try lia; destruct b as [|[|b]]; try lia; reflexivity).
  - split; [apply C33_ex|]. split.
    + intros m Hin. unfold C110_bars, C33_meshes in Hin. simpl in Hin. destruct Hin as [<-|[<-|[<-|[]]]]; do 2 eexists; split; reflexivity.
    + eexists. split; [reflexivity|]. repeat split.
Qed.
Example C110_ex_queries : exists s, c_run Nat.eqb true C110_bars = Ok s /\
  map (fun ck => ask ck (sc s) (Nodeset [2; 0] 2)) [true; false] = [Ok [0; 4]; Ok [0; 4]] /\
  map (fun ck => ask ck (sc s) (Nodeset [3] 0)) [true; false] = [Throw; Oob] /\
  map (fun ck => ask ck (sc s) (Elemset [2] 0)) [true; false] = [Throw; Ok [2]] /\ ask true (sc s) (Elemset [0] 1) = Ok [2] /\
  map (fun ck => ask ck (sc s) (Nodesets [[1]; [0]])) [true; false] = [Throw; Ok [1; 2]] /\
  map (fun ck => ask ck (sc s) (Elemsets [[1]; []; [0]])) [true; false] = [Ok [1; 3]; Ok [1; 3]] /\
  map (fun ck => ask ck (sc s) (Nodemap 3)) [true; false] = [Throw; Oob].
Proof. eexists. split; [reflexivity|]. repeat split. Qed.
Example C110_ex_throws : (forall ndim nne, ~ tables ndim nne (mkArray [4] (fun _ => 0), table 0 [[0; 1]])) /\
  ~ tables 1 2 (table 0 [[0]; [1]; [2]], table 0 [[0; 1; 2]]).
Proof. split; [intros d k [n [e [H _]]]; discriminate|intros [n [e [_ H]]]; discriminate]. Qed.

(** C110: the same for two meshes stitched by hand. *)
Theorem C110_manual : forall {A} (close : A -> A -> bool) ca na oa cb nb ob check s, ManualStitch close ca na oa cb nb ob check = Ok s ->
  let sizes := [(length ca, length na); (length cb, length nb)] in
  (forall q, single q -> admitted sizes q -> exists a, (forall ck, ask_manual ck s q = Ok a) /\
     answer [seq 0 (length ca); ms_map_b s] [seq 0 (length na); seq (length na) (length nb)] q a) /\
  (forall q, ~ (single q /\ admitted sizes q) -> ask_manual true s q = Throw).
Proof. intros A close ca na oa cb nb ob check s H sizes. split; [exact (manual_ok close _ _ _ _ _ _ _ _ H)|exact (manual_throw close _ _ _ _ _ _ _ _ H)]. Qed.
Print Assumptions C110_manual.
(** C110: without the assertions every index but 0 counts as 1, and the numbers of mesh 0 are never looked at. *)
Theorem C110_manual_silent : forall {A} (s : ManualStitch_t A),
  (forall i set, ask_manual false s (Nodemap (S i)) = ask_manual false s (Nodemap 1) /\ ask_manual false s (Elemmap (S i)) = ask_manual false s (Elemmap 1) /\
     ask_manual false s (Nodeset set (S i)) = ask_manual false s (Nodeset set 1) /\ ask_manual false s (Elemset set (S i)) = ask_manual false s (Elemset set 1)) /\
  (forall set, ask_manual false s (Nodeset set 0) = Ok set /\ ask_manual false s (Elemset set 0) = Ok set).
Proof. exact @manual_silent. Qed.
Print Assumptions C110_manual_silent.
Example C110_ex_manual : exists s, ManualStitch Nat.eqb [[0]; [1]] [[0; 1]] [1] [[1]; [2]] [[0; 1]] [0] true = Ok s /\
  map (fun ck => ask_manual ck s (Nodeset [0; 1] 1)) [true; false] = [Ok [1; 2]; Ok [1; 2]] /\
  map (fun ck => ask_manual ck s (Nodeset [0; 1] 7)) [true; false] = [Throw; Ok [1; 2]] /\
  map (fun ck => ask_manual ck s (Nodeset [9] 0)) [true; false] = [Throw; Ok [9]] /\
  map (fun ck => ask_manual ck s (Elemset [1] 1)) [true; false] = [Throw; Ok [2]].
Proof. eexists. split; [reflexivity|]. repeat split. Qed.

(** C110: stacked meshes: the checked build gives a result exactly if the release build does, and it is the same one; every query is
    answered as above; a bottom edge of another size than the top edge below it throws. *)
Theorem C110_vstack : forall (close : R -> R -> bool) check (ms : list vmesh), ms <> [] -> (forall m, In m ms -> wf_vmesh m /\ v_coor m <> []) ->
  (forall s, cv_run close true check ms = Ok s <-> Vstack_run close check ms = Ok s) /\
  (forall s, cv_run close true check ms = Ok s ->
     exists nodemaps elemmaps placed sizes, sizes = map (fun m => (length (v_coor m), length (v_conn m))) ms /\ mesh_sizes placed = sizes /\
       union_of (fun p q => check = true -> near close q p) placed (st_coor (vs s)) (st_conn (vs s)) nodemaps elemmaps /\
       (forall q, admitted sizes q -> exists a, (forall ck, ask ck (vs s) q = Ok a) /\ answer nodemaps elemmaps q a) /\
       (forall q, ~ admitted sizes q -> ask true (vs s) q = Throw)) /\
  (forall s m l, cv_run close true check ms = Ok s -> last ms l = l -> length (v_bot m) <> length (v_top l) ->
     cv_run close true check (ms ++ [m]) = Throw).
Proof.
  intros close check ms Hne Hw. assert (Hc : forall m, In m ms -> v_coor m <> []) by (intros m Hm; apply (Hw m Hm)).
  assert (Hw' : forall m, In m ms -> wf_vmesh m) by (intros m Hm; apply (Hw m Hm)).
  pose proof (cv_run_iff close check ms Hc) as Heq. split; [exact Heq|]. split.
  - intros s H. apply Heq in H. destruct (Vstack_run_inv close check ms s Hne Hw' H) as [placed [Hi _]].
    pose proof (vi_stitch _ _ _ _ _ Hi) as Hs.
    assert (Es : mesh_sizes placed = map (fun m => (length (v_coor m), length (v_conn m))) ms).
    { unfold mesh_sizes. apply nth_error_ext. intro i. rewrite !nth_error_map. pose proof (vi_len _ _ _ _ _ Hi) as L.
      destruct (nth_error ms i) as [m|] eqn:Em.
      - destruct (nth_error placed i) as [[X C]|] eqn:Ep.
        + destruct (vi_conn _ _ _ _ _ Hi i m X C Em Ep) as [-> EX]. simpl. now rewrite EX.
        + apply nth_error_None in Ep. assert (i < length ms) by (apply nth_error_Some; congruence). lia.
      - apply nth_error_None in Em. rewrite (proj2 (nth_error_None _ _)); [reflexivity|lia]. }
    exists (st_map (vs s)), (ems_of (st_nel (vs s))), placed, (mesh_sizes placed).
    split; [exact Es|]. split; [reflexivity|]. split; [exact (si_union _ _ _ Hs)|].
    split; [intro q; exact (ask_ok _ _ _ Hs q)|intro q; exact (ask_throw _ _ _ Hs q)].
  - intros s m l H Hl Hd. pose proof H as H'. apply Heq in H'. destruct (Vstack_run_inv close check ms s Hne Hw' H') as [placed [Hi _]].
    unfold cv_run in *. rewrite foldM_snoc, H. cbn [bind].
    pose proof (vi_stitch _ _ _ _ _ Hi) as Hs. pose proof (vi_tops _ _ _ _ _ Hi) as Lt.
    assert (Lm : length (st_map (vs s)) = length ms) by (rewrite (q_len _ _ _ Hs); apply (vi_len _ _ _ _ _ Hi)).
    assert (Hp : 0 < length ms) by (destruct ms; [congruence|simpl; lia]).
    destruct (nth_error (vs_top s) (length (vs_top s) - 1)) as [top|] eqn:Et; [|apply nth_error_None in Et; lia].
    destruct (nth_error (st_map (vs s)) (length ms - 1)) as [nm|] eqn:Enm; [|apply nth_error_None in Enm; lia].
    assert (El : nth_error ms (length ms - 1) = Some l).
    { destruct (exists_last Hne) as [pre [x ->]]. rewrite last_last in Hl. subst x. rewrite app_length, nth_error_app2 by (simpl; lia).
      simpl. replace (length pre + 1 - 1 - length pre) with 0 by lia. reflexivity. }
    apply (cv_push_sizes close check s m top); [lia|exact Et|]. rewrite Lt in Et.
    pose proof (vi_top _ _ _ _ _ Hi _ _ _ _ El Enm Et) as Ev. apply (f_equal (@length _)) in Ev. rewrite !map_length in Ev. lia.
Qed.
Print Assumptions C110_vstack.
Example C110_ex_vstack : (forall m, In m [C34_square; C34_square] -> wf_vmesh m /\ v_coor m <> []) /\
  (forall close, (forall a, close a a = true) -> exists s, cv_run close true true [C34_square; C34_square] = Ok s /\
     ask true (vs s) (Elemset [0] 1) = Ok [1] /\ ask true (vs s) (Elemset [1] 1) = Throw).
Proof.
  assert (W : forall m, In m [C34_square; C34_square] -> wf_vmesh m /\ v_coor m <> []).
  { intros m Hm. split; [now apply C34_ex|]. destruct Hm as [<-|[<-|[]]]; discriminate. }
  split; [exact W|]. intros close Hc.
  destruct (C34_Vstack_exact close true [C34_square; C34_square] [1; 1]%R) as [s [_ [_ [_ [H _]]]]]; [discriminate|apply C34_ex|exact Hc|].
  destruct (C110_vstack close true [C34_square; C34_square] ltac:(discriminate) W) as [H1 [H2 _]]. apply H1 in H. exists s. split; [exact H|].
  destruct (H2 s H) as [nms [ems [placed [sizes [Es [Ep [U [Q1 Q2]]]]]]]]. subst sizes.
  split.
  - destruct (Q1 (Elemset [0] 1)) as [a [Ha [em [Hem Hm]]]].
    { exists 4, 1. split; [reflexivity|]. split; [lia|]. intros k [<-|[]]. lia. }
    rewrite Ha. f_equal. pose proof (un_elems _ _ _ _ _ _ U) as Ue. pose proof (un_elemmaps _ _ _ _ _ _ U) as Lu.
    assert (Lp : length placed = 2) by (apply (f_equal (@length _)) in Ep; unfold mesh_sizes in Ep; rewrite !map_length in Ep; exact Ep).
    destruct placed as [|[X0 C0] [|[X1 C1] [|]]]; try discriminate. destruct ems as [|em0 [|em1 [|]]]; try discriminate.
    unfold mesh_sizes in Ep. simpl in Ep. injection Ep as E1 E2 E3 E4.
    pose proof (un_nelem _ _ _ _ _ _ U 0 X0 C0 em0 eq_refl eq_refl) as L0. simpl in Hem. inversion Hem; subst em1.
    pose proof (un_nelem _ _ _ _ _ _ U 1 X1 C1 em eq_refl eq_refl) as L1.
    rewrite E2 in L0. rewrite E4 in L1. destruct em0 as [|x [|]]; try discriminate. destruct em as [|y [|]]; try discriminate.
    simpl in Ue. unfold mapped in Hm. simpl in Hm. destruct (length (st_conn (vs s))) as [|[|n]]; simpl in Ue; try discriminate.
    injection Ue as _ Ey _. subst y. destruct a as [|z [|]]; simpl in Hm; try discriminate. congruence.
  - apply Q2. intros [nn [ne [E [_ Hs]]]]. simpl in E. injection E as <- <-. specialize (Hs 1 (or_introl eq_refl)). lia.
Qed.
