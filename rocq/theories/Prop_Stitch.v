(** Properties C31-C34: stitching and stacking meshes.
    [close] is the comparison of two coordinates (isclose with given tolerances): arbitrary. *)
From Coq Require Import Reals.
From Verif Require Import Base Spec Spec_Topology Spec_Stitch Model_Topology Model_Stitch Spec_Vstack.
From Verif Require Proof_Stitch Proof_Stitch2 Proof_Vstack.

(** C31: [overlapping] lists exactly the pairs of nodes that are close in all coordinates,
    in lexicographic order, without duplicates. *)
Theorem C31_overlapping : forall {A} (close : A -> A -> bool) (coor_a coor_b : list (list A)) ndim,
  shape2 coor_a (length coor_a) ndim -> shape2 coor_b (length coor_b) ndim ->
  (forall i j, In (i, j) (overlapping close coor_a coor_b) <->
     i < length coor_a /\ j < length coor_b /\
     forall k a b, at2 coor_a i k = Some a -> at2 coor_b j k = Some b -> close b a = true) /\
  StronglySorted lex_lt (overlapping close coor_a coor_b).
Proof. exact @Proof_Stitch.overlapping_spec. Qed.
Print Assumptions C31_overlapping.
Example C31_ex : shape2 [[0; 0]; [1; 0]; [1; 1]] 3 2 /\ shape2 [[1; 1]; [1; 0]] 2 2 /\
  overlapping Nat.eqb [[0; 0]; [1; 0]; [1; 1]] [[1; 1]; [1; 0]] = [(1, 1); (2, 0)].
Proof. split; [split; [reflexivity|simpl; intuition (subst; reflexivity)]|].
  split; [split; [reflexivity|simpl; intuition (subst; reflexivity)]|reflexivity]. Qed.

(** C32: the stitched mesh. *)
Theorem C32_ManualStitch : forall {A} (close : A -> A -> bool) coor_a conn_a ov_a coor_b conn_b ov_b check,
  wf_overlap (length coor_a) (length coor_b) ov_a ov_b ->
  conn_in_range conn_b (length coor_b) ->
  (check = true -> overlap_near close coor_a coor_b ov_a ov_b) ->
  exists s, ManualStitch close coor_a conn_a ov_a coor_b conn_b ov_b check = Ok s /\
    stitched coor_a conn_a ov_a coor_b conn_b ov_b (ms_coor s) (ms_conn s) (ms_nodemap s 1) /\
    ms_nodemap s 0 = seq 0 (length coor_a) /\
    ms_elemmap s 0 = seq 0 (length conn_a) /\
    ms_elemmap s 1 = seq (length conn_a) (length conn_b) /\
    (NoDup ov_a -> NoDup (ms_nodemap s 1)) /\
    (forall set, ms_nodeset s set 0 = Ok set /\ ms_elemset s set 0 = set) /\
    (forall set, (forall n, In n set -> n < length coor_b) ->
       exists set', ms_nodeset s set 1 = Ok set' /\ map (nth_error (ms_nodemap s 1)) set = map Some set') /\
    (forall set, (forall e, In e set -> e < length conn_b) ->
       map (nth_error (ms_elemmap s 1)) set = map Some (ms_elemset s set 1)).
Proof. exact @Proof_Stitch2.ManualStitch_spec. Qed.
Print Assumptions C32_ManualStitch.
Example C32_ex :
  let ca := [[0; 0]; [1; 0]; [1; 1]; [0; 1]] in let cb := [[1; 0]; [2; 0]; [2; 1]; [1; 1]] in
  wf_overlap 4 4 [1; 2] [0; 3] /\ conn_in_range [[0; 1; 2; 3]] 4 /\ overlap_near Nat.eqb ca cb [1; 2] [0; 3] /\
  ManualStitch Nat.eqb ca [[0; 1; 2; 3]] [1; 2] cb [[0; 1; 2; 3]] [0; 3] true =
    Ok (mkManual (ca ++ [[2; 0]; [2; 1]]) [[0; 1; 2; 3]; [1; 4; 5; 2]] [1; 4; 5; 2] 4 1 1).
Proof.
  simpl. split; [repeat split; [repeat constructor; simpl; intuition discriminate|simpl; intuition lia|simpl; intuition lia]|].
  split; [unfold conn_in_range; simpl; intuition lia|]. split; [|reflexivity].
  intros [|[|k]] a b p q; simpl; [| |destruct k; discriminate]; intros H1 H2; inversion H1; inversion H2; subst; simpl;
    intros H3 H4; inversion H3; inversion H4; subst; intros [|[|k]] x y; simpl; try (destruct k; discriminate);
    intros G1 G2; inversion G1; inversion G2; reflexivity.
Qed.

(** C32: a failed position check always throws. *)
Theorem C32_ManualStitch_throws : forall {A} (close : A -> A -> bool) coor_a conn_a ov_a coor_b conn_b ov_b,
  wf_overlap (length coor_a) (length coor_b) ov_a ov_b ->
  ~ overlap_near close coor_a coor_b ov_a ov_b ->
  ManualStitch close coor_a conn_a ov_a coor_b conn_b ov_b true = Throw.
Proof. exact @Proof_Stitch2.ManualStitch_throws. Qed.
Print Assumptions C32_ManualStitch_throws.
Example C32_throws_ex : wf_overlap 1 1 [0] [0] /\ ~ overlap_near Nat.eqb [[0]] [[1]] [0] [0].
Proof.
  split; [repeat split; [repeat constructor; simpl; tauto|simpl; intuition lia|simpl; intuition lia]|].
  intro H. specialize (H 0 0 0 [0] [1] eq_refl eq_refl eq_refl eq_refl 0 0 1 eq_refl eq_refl). discriminate.
Qed.

(** C32: a result is only ever produced for admissible lists. *)
Theorem C32_ManualStitch_only : forall {A} (close : A -> A -> bool) coor_a conn_a ov_a coor_b conn_b ov_b check s,
  ManualStitch close coor_a conn_a ov_a coor_b conn_b ov_b check = Ok s ->
  length ov_a = length ov_b /\ NoDup ov_b /\ (forall b, In b ov_b -> b < length coor_b) /\
  conn_in_range conn_b (length coor_b).
Proof. exact @Proof_Stitch2.ManualStitch_only. Qed.
Print Assumptions C32_ManualStitch_only.
Example C32_only_ex : exists s, ManualStitch Nat.eqb [[0]; [1]] [[0; 1]] [1] [[1]; [2]] [[0; 1]] [0] true = Ok s.
Proof. eexists. reflexivity. Qed.

(** C33: after every history of calls to push_back, the mesh is the union of the meshes. *)
Theorem C33_Stitch_history : forall {A} (close : A -> A -> bool) meshes s, meshes <> [] -> wf_meshes meshes ->
  Stitch_run close meshes = Ok s ->
  exists nodemaps elemmaps,
    Stitch_nmesh s = length meshes /\
    mapM (Stitch_nodemap s) (seq 0 (length meshes)) = Ok nodemaps /\
    mapM (Stitch_elemmap s) (seq 0 (length meshes)) = Ok elemmaps /\
    union_of (near close) meshes (st_coor s) (st_conn s) nodemaps elemmaps.
Proof. exact @Proof_Stitch.Stitch_history. Qed.
Print Assumptions C33_Stitch_history.

Definition C33_meshes : list (list (list nat) * list (list nat)) :=
  [([[0]; [1]; [2]], [[0; 1]; [1; 2]]); ([[2]; [3]], [[0; 1]]); ([[4]; [3]; [0]], [[1; 0]])].
Example C33_ex : C33_meshes <> [] /\ wf_meshes C33_meshes /\ exists s, Stitch_run Nat.eqb C33_meshes = Ok s /\
  st_coor s = [[0]; [1]; [2]; [3]; [4]] /\ st_conn s = [[0; 1]; [1; 2]; [2; 3]; [3; 4]] /\
  st_map s = [[0; 1; 2]; [2; 3]; [4; 3; 0]].
Proof.
  split; [discriminate|]. split; [|eexists; repeat split].
  intros X C [H|[H|[H|[]]]]; inversion H; intros m; simpl; intuition lia.
Qed.

(** C33: nodes of one mesh are never merged, if no point is close to two of them. *)
Theorem C33_Stitch_injective : forall {A} (close : A -> A -> bool) meshes s i X C nm, wf_meshes meshes ->
  Stitch_run close meshes = Ok s -> nth_error meshes i = Some (X, C) -> separated close meshes X ->
  Stitch_nodemap s i = Ok nm -> NoDup nm.
Proof. exact @Proof_Stitch.Stitch_injective. Qed.
Print Assumptions C33_Stitch_injective.

Lemma near1 x y : near Nat.eqb [x] [y] <-> x = y.
Proof.
  split.
  - intro H. apply Nat.eqb_eq. apply (H 0); reflexivity.
  - intros -> [|k] a b; simpl; [|destruct k; discriminate]. intros H1 H2. inversion H1; inversion H2; subst. apply Nat.eqb_refl.
Qed.

Lemma C33_singles X C p : In (X, C) C33_meshes -> In p X -> exists x, p = [x].
Proof. intros [H|[H|[H|[]]]]; inversion H; simpl; intuition (subst; eauto). Qed.

Lemma C33_separated X C : In (X, C) C33_meshes -> separated Nat.eqb C33_meshes X.
Proof.
  intros Hin n n' p p' q Hp Hp' [Xq [Cq [H1 H2]]] Hq Hq'.
  destruct (C33_singles X C p Hin) as [x ->]; [eapply nth_error_In; eauto|].
  destruct (C33_singles X C p' Hin) as [x' ->]; [eapply nth_error_In; eauto|].
  destruct (C33_singles Xq Cq q H1 H2) as [z ->]. apply near1 in Hq, Hq'. subst x x'.
  assert (Hnd : NoDup X) by (destruct Hin as [H|[H|[H|[]]]]; inversion H; repeat constructor; simpl; intuition discriminate).
  rewrite NoDup_nth_error in Hnd. apply Hnd; [apply nth_error_Some|]; congruence.
Qed.
Example C33_injective_ex : exists s, Stitch_run Nat.eqb C33_meshes = Ok s /\ Stitch_nodemap s 2 = Ok [4; 3; 0] /\
  separated Nat.eqb C33_meshes [[4]; [3]; [0]].
Proof. eexists. split; [reflexivity|]. split; [reflexivity|]. apply (C33_separated _ [[1; 0]]). right. right. now left. Qed.

(** C33: it succeeds whenever closeness is an equivalence on the nodes, and two nodes are merged
    exactly when they are close. *)
Theorem C33_Stitch_exact : forall {A} (close : A -> A -> bool) meshes, meshes <> [] -> wf_meshes meshes ->
  close_equivalence close meshes ->
  (forall X C, In (X, C) meshes -> separated close meshes X) ->
  exists s, Stitch_run close meshes = Ok s /\
    forall i X C nm n p m i' X' C' nm' n' p' m',
      nth_error meshes i = Some (X, C) -> Stitch_nodemap s i = Ok nm -> nth_error X n = Some p -> nth_error nm n = Some m ->
      nth_error meshes i' = Some (X', C') -> Stitch_nodemap s i' = Ok nm' -> nth_error X' n' = Some p' -> nth_error nm' n' = Some m' ->
      (m = m' <-> near close p p').
Proof. exact @Proof_Stitch.Stitch_exact. Qed.
Print Assumptions C33_Stitch_exact.
Example C33_exact_ex : C33_meshes <> [] /\ wf_meshes C33_meshes /\ close_equivalence Nat.eqb C33_meshes /\
  (forall X C, In (X, C) C33_meshes -> separated Nat.eqb C33_meshes X).
Proof.
  split; [discriminate|]. split; [apply C33_ex|]. split; [|exact C33_separated].
  assert (Hs : forall p, is_node C33_meshes p -> exists x, p = [x]).
  { intros p [X [C [H1 H2]]]. eapply C33_singles; eauto. }
  split; [|split].
  - intros p Hp. destruct (Hs p Hp) as [x ->]. now apply near1.
  - intros p q Hp Hq. destruct (Hs p Hp) as [x ->], (Hs q Hq) as [y ->]. rewrite !near1. congruence.
  - intros p q r Hp Hq Hr. destruct (Hs p Hp) as [x ->], (Hs q Hq) as [y ->], (Hs r Hr) as [z ->]. rewrite !near1. congruence.
Qed.

(** C33: node and element sets: the result for all meshes is the union (sorted, without duplicates)
    of the node sets and the concatenation of the element sets, in the new numbering. *)
Theorem C33_Stitch_nodesets : forall {A} (close : A -> A -> bool) meshes s sets, meshes <> [] -> wf_meshes meshes ->
  Stitch_run close meshes = Ok s -> length sets = length meshes ->
  (forall i X C set n, nth_error meshes i = Some (X, C) -> nth_error sets i = Some set -> In n set -> n < length X) ->
  exists ns, Stitch_nodeset_all s sets = Ok ns /\ StronglySorted lt ns /\
    (forall m, In m ns <-> exists i set nm n, nth_error sets i = Some set /\ Stitch_nodemap s i = Ok nm /\
        In n set /\ nth_error nm n = Some m) /\
    (forall i set nm, nth_error sets i = Some set -> Stitch_nodemap s i = Ok nm ->
        exists l, Stitch_nodeset s set i = Ok l /\ map (nth_error nm) set = map Some l).
Proof. exact @Proof_Stitch.Stitch_sets. Qed.
Print Assumptions C33_Stitch_nodesets.
Theorem C33_Stitch_elemsets : forall {A} (close : A -> A -> bool) meshes s sets, meshes <> [] -> wf_meshes meshes ->
  Stitch_run close meshes = Ok s -> length sets = length meshes ->
  (forall i X C set e, nth_error meshes i = Some (X, C) -> nth_error sets i = Some set -> In e set -> e < length C) ->
  exists parts, Stitch_elemset_all s sets = Ok (concat parts) /\ length parts = length sets /\
    (forall i set part em, nth_error sets i = Some set -> nth_error parts i = Some part ->
        Stitch_elemmap s i = Ok em ->
        Stitch_elemset s set i = Ok part /\ map (nth_error em) set = map Some part).
Proof. exact @Proof_Stitch.Stitch_elemsets. Qed.
Print Assumptions C33_Stitch_elemsets.
Example C33_sets_ex :
  (forall i X C set n, nth_error C33_meshes i = Some (X, C) -> nth_error [[0; 2]; [0]; [1]] i = Some set -> In n set -> n < length X) /\
  (forall i X C set e, nth_error C33_meshes i = Some (X, C) -> nth_error [[1]; [0]; [0]] i = Some set -> In e set -> e < length C) /\
  exists s, Stitch_run Nat.eqb C33_meshes = Ok s /\ Stitch_nodeset_all s [[0; 2]; [0]; [1]] = Ok [0; 2; 3] /\
    Stitch_elemset_all s [[1]; [0]; [0]] = Ok [1; 2; 3].
Proof.
  split; [|split; [|eexists; repeat split]];
    (intros [|[|[|i]]] X C set n; simpl; try (intro; destruct i; discriminate); intros H1 H2; inversion H1; inversion H2; subst; simpl; intuition lia).
Qed.

(** C34: every history of Vstack: the result is the union of the given meshes, each one moved up by
    the height of what is below it, its bottom nodes identified with the top nodes of the one below. *)
Theorem C34_Vstack_history : forall (close : R -> R -> bool) check ms s, ms <> [] -> (forall m, In m ms -> wf_vmesh m) ->
  Vstack_run close check ms = Ok s ->
  exists placed nodemaps elemmaps,
    Stitch_nmesh (vs s) = length ms /\
    mapM (Stitch_nodemap (vs s)) (seq 0 (length ms)) = Ok nodemaps /\
    mapM (Stitch_elemmap (vs s)) (seq 0 (length ms)) = Ok elemmaps /\
    union_of (fun p q => check = true -> near close q p) placed (st_coor (vs s)) (st_conn (vs s)) nodemaps elemmaps /\
    length placed = length ms /\
    (forall i m X C, nth_error ms i = Some m -> nth_error placed i = Some (X, C) -> C = v_conn m) /\
    (forall m X C, nth_error ms 0 = Some m -> nth_error placed 0 = Some (X, C) -> X = v_coor m) /\
    (forall i m X C, nth_error ms (S i) = Some m -> nth_error placed (S i) = Some (X, C) ->
       exists si d, Vstack_run close check (firstn (S i) ms) = Ok si /\
         is_max_y (st_coor (vs si)) d /\ moved_up d (v_coor m) X) /\
    (forall i m m' nm nm' k a b, nth_error ms i = Some m -> nth_error ms (S i) = Some m' ->
       nth_error nodemaps i = Some nm -> nth_error nodemaps (S i) = Some nm' ->
       nth_error (v_top m) k = Some a -> nth_error (v_bot m') k = Some b ->
       exists n, nth_error nm a = Some n /\ nth_error nm' b = Some n).
Proof. exact Proof_Vstack.Vstack_history. Qed.
Print Assumptions C34_Vstack_history.

(** C34: slabs with matching edges can always be stacked, and every node is exactly at its place. *)
Theorem C34_Vstack_exact : forall (close : R -> R -> bool) check ms heights, ms <> [] -> stackable ms heights ->
  (forall a, close a a = true) ->
  exists s placed nodemaps elemmaps, Vstack_run close check ms = Ok s /\
    mapM (Stitch_nodemap (vs s)) (seq 0 (length ms)) = Ok nodemaps /\
    mapM (Stitch_elemmap (vs s)) (seq 0 (length ms)) = Ok elemmaps /\
    union_of (fun _ _ => False) placed (st_coor (vs s)) (st_conn (vs s)) nodemaps elemmaps /\
    length placed = length ms /\
    (forall i m X C, nth_error ms i = Some m -> nth_error placed i = Some (X, C) ->
        C = v_conn m /\ moved_up (sum_below heights i) (v_coor m) X) /\
    is_max_y (st_coor (vs s)) (sum_below heights (length heights)).
Proof. exact Proof_Vstack.Vstack_exact. Qed.
Print Assumptions C34_Vstack_exact.

(** two unit squares *)
Definition C34_square : vmesh :=
  mkVmesh [[0; 0]; [1; 0]; [0; 1]; [1; 1]]%R [[0; 1; 3; 2]] [0; 1] [2; 3].
Lemma C34_slab : slab (v_coor C34_square) (v_conn C34_square) (v_bot C34_square) (v_top C34_square) 1.
Proof.
  split; simpl.
  - intros p. simpl. intuition (subst; eauto).
  - intros m. simpl. intuition lia.
  - intros x y Hin. repeat (destruct Hin as [Hin|Hin]; [inversion Hin; subst; Lra.lra|]). inversion Hin.
  - intros n. intuition (subst; simpl; eauto).
  - intros n. intuition (subst; simpl; eauto).
  - repeat constructor; simpl; intuition discriminate.
  - discriminate.
Qed.
Example C34_ex : stackable [C34_square; C34_square] [1; 1]%R /\ (forall m, In m [C34_square; C34_square] -> wf_vmesh m).
Proof.
  split; [|intros m [<-|[<-|[]]]; eapply Proof_Vstack.slab_wf; exact C34_slab].
  split; [reflexivity|]. split.
  - intros [|[|i]] m Ly; simpl; try (destruct i; discriminate); intros H1 H2; inversion H1; inversion H2; exact C34_slab.
  - intros [|[|i]] m m'; simpl; try discriminate; try (destruct i; discriminate). intros H1 H2; inversion H1; inversion H2.
    split; [reflexivity|]. intros [|[|k]] a b x y x' y'; simpl; try (destruct k; discriminate);
      intros G1 G2; inversion G1; inversion G2; subst; simpl; intros G3 G4; inversion G3; inversion G4; congruence.
Qed.
