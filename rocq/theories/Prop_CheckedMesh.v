(** Property C114: functions on meshes in the checked build (GOOSEFEM_ENABLE_ASSERT): what they return for a correct call, and which
    incorrect calls they reject. *)
From Coq Require Import Reals ZArith Lra.
From Verif Require Import Spec_Element Base Sums Spec Spec_Vector Model_Numbering Model_Misc Model_Checked Model_CheckedMesh Spec_CheckedMesh Proof_Vector Proof_CheckedMesh.

(** a square of two by one elements *)
Definition c114_conn : array nat := mkArray [2; 4] (fun ix => match ix with [e; m] => nth m (nth e [[0; 1; 4; 3]; [1; 2; 5; 4]] []) 0 | _ => 0 end).
Definition c114_coor : array R := mkArray [6; 2] (fun ix => match ix with [n; 0] => INR (n mod 3) | [n; _] => INR (n / 3) | _ => 0%R end).
Lemma c114_quad : quad_input c114_coor c114_conn None 6 2.
Proof.
  split; [reflexivity|]. split; [reflexivity|]. split; [right; auto|]. split; [lia|].
  intros [|[|]] [|[|[|[|]]]] H1 H2; cbn; lia.
Qed.

(** [edgesize] of quadrilaterals in two dimensions whose nodes exist: the distance from every node of an element to the next one.  Every
    other call throws. *)
Theorem C114_edgesize : forall coor conn type,
  (forall nnode nelem, quad_input coor conn type nnode nelem ->
    exists r, (forall ck, edgesize_checked ck coor conn type = Ok r) /\ shape2 r nelem 4 /\
      forall e k, e < nelem -> k < 4 -> let l := (k + 1) mod 4 in
        val2 r e k = sqrt ((corner coor conn e l 0 - corner coor conn e k 0) ^ 2 + (corner coor conn e l 1 - corner coor conn e k 1) ^ 2)%R) /\
  ((forall nnode nelem, ~ quad_input coor conn type nnode nelem) -> edgesize_checked true coor conn type = Throw).
Proof. intros coor conn type. split; [exact (edgesize_valid coor conn type)|exact (edgesize_invalid coor conn type)]. Qed.
Print Assumptions C114_edgesize.
Example C114_edgesize_ex : quad_input c114_coor c114_conn None 6 2 /\ (forall nnode nelem, ~ quad_input c114_coor c114_conn (Some Tri3) nnode nelem).
Proof. split; [exact c114_quad|]. intros n e (_ & _ & [H|[H _]] & _); discriminate. Qed.

(** [centers]: the average of the four nodes of every element *)
Theorem C114_centers : forall coor conn type,
  (forall nnode nelem, quad_input coor conn type nnode nelem ->
    exists r, (forall ck, centers_checked ck coor conn type = Ok r) /\ shape2 r nelem 2 /\
      forall e j, e < nelem -> j < 2 ->
        val2 r e j = ((corner coor conn e 0 j + corner coor conn e 1 j + corner coor conn e 2 j + corner coor conn e 3 j) / 4)%R) /\
  ((forall nnode nelem, ~ quad_input coor conn type nnode nelem) -> centers_checked true coor conn type = Throw).
Proof. intros coor conn type. split; [exact (centers_valid coor conn type)|exact (centers_invalid coor conn type)]. Qed.
Print Assumptions C114_centers.
Example C114_centers_ex : quad_input c114_coor c114_conn None 6 2.
Proof. exact c114_quad. Qed.

(** [elemmap2nodemap]: the node at the same corner of the mapped element, for the first corner and the last element where the node occurs
    (the number of nodes for nodes that occur nowhere), if the map lists one existing element for each element; a map that lists an element
    that does not exist is not noticed and memory is accessed out of bounds; a call with arrays of another shape throws. *)
Theorem C114_elemmap2nodemap : forall elem_map coor conn type,
  (forall nnode nelem, quad_input coor conn type nnode nelem -> a_shape elem_map = [nelem] -> (forall e, e < nelem -> a_ent elem_map [e] < nelem) ->
    exists r, (forall ck, elemmap2nodemap_checked ck elem_map coor conn type = Ok r) /\ length r = nnode /\
      forall n, n < nnode ->
        ((forall e i, e < nelem -> i < 4 -> a_ent conn [e; i] <> n) /\ nth n r 0 = nnode) \/
        (exists e i, e < nelem /\ i < 4 /\ a_ent conn [e; i] = n /\ nth n r 0 = a_ent conn [a_ent elem_map [e]; i] /\
           (forall e', e < e' -> e' < nelem -> a_ent conn [e'; i] <> n) /\ (forall e' i', e' < nelem -> i' < i -> a_ent conn [e'; i'] <> n))) /\
  (forall nnode nelem e, quad_input coor conn type nnode nelem -> a_shape elem_map = [nelem] -> e < nelem -> nelem <= a_ent elem_map [e] ->
    forall ck, elemmap2nodemap_checked ck elem_map coor conn type = Oob) /\
  ((forall nnode nelem, quad_input coor conn type nnode nelem -> a_shape elem_map <> [nelem]) -> elemmap2nodemap_checked true elem_map coor conn type = Throw).
Proof.
  intros elem_map coor conn type. split; [exact (map_valid elem_map coor conn type)|]. split; [|exact (map_invalid elem_map coor conn type)].
  intros nnode nelem e Q E He H ck. exact (map_oob elem_map coor conn type nnode nelem e ck Q E He H).
Qed.
Print Assumptions C114_elemmap2nodemap.
Definition c114_map (a b : nat) : array nat := mkArray [2] (fun ix => match ix with [0] => a | _ => b end).
Example C114_elemmap2nodemap_ex : quad_input c114_coor c114_conn None 6 2 /\ a_shape (c114_map 1 0) = [2] /\ (forall e, e < 2 -> a_ent (c114_map 1 0) [e] < 2) /\
  elemmap2nodemap_checked true (c114_map 1 0) c114_coor c114_conn None = Ok [1; 0; 1; 4; 5; 4] /\ 2 <= a_ent (c114_map 1 2) [1].
Proof. split; [exact c114_quad|]. split; [reflexivity|]. split; [intros [|[|]] H; cbn; lia|]. split; [reflexivity|cbn; lia]. Qed.

(** [nodaltyings] of DOFs that directions do not share: if nodes that share a DOF share all of them, the nodes that share the DOFs of each node,
    sorted; otherwise the call never returns: it throws or, since the assertion compares lists of different lengths, reads out of bounds. *)
Theorem C114_nodaltyings : forall dofs nnode ndim, dofs_by_direction dofs nnode ndim ->
  (ties_agree dofs nnode ndim -> exists T, (forall ck, nodaltyings_checked ck dofs = Ok T) /\ length T = nnode /\
    forall m, m < nnode -> StronglySorted lt (nth m T []) /\
      forall n, In n (nth m T []) <-> n < nnode /\ a_ent dofs [n; 0] = a_ent dofs [m; 0]) /\
  (~ ties_agree dofs nnode ndim -> nodaltyings_checked true dofs = Throw \/ nodaltyings_checked true dofs = Oob).
Proof.
  intros dofs nnode ndim H. split; [|exact (ti_disagree dofs nnode ndim H)]. intros A. eexists. split; [|split].
  - intros [|]; [rewrite (ti_agree dofs nnode ndim H A)|rewrite (ti_release dofs nnode ndim H)]; apply (ti_plain dofs nnode ndim H).
  - now rewrite map_length, seq_length.
  - intros m Hm. rewrite (nth_map_seq _ nnode m [] Hm). split; [now apply (ti_sorted dofs nnode ndim)|]. intros n. apply (ti_in dofs nnode ndim H m 0 n Hm). apply H.
Qed.
Print Assumptions C114_nodaltyings.
(** three nodes in two dimensions, the first and the last tied *)
Definition c114_dofs (a b : nat) : array nat := mkArray [3; 2] (fun ix => match ix with [m; i] => nth i (nth m [[0; 1]; [2; 3]; [a; b]] []) 0 | _ => 0 end).
Lemma c114_dofs_ok : dofs_by_direction (c114_dofs 0 1) 3 2 /\ ties_agree (c114_dofs 0 1) 3 2.
Proof.
  split; [split; [reflexivity|]; split; [lia|]|].
  - intros [|[|[|]]] [|[|]] [|[|[|]]] [|[|]] H1 H2 H3 H4; cbn; lia.
  - intros [|[|[|]]] [|[|[|]]] [|[|]] H1 H2 H3; cbn; lia.
Qed.
Lemma c114_dofs_bad : dofs_by_direction (c114_dofs 0 3) 3 2 /\ ~ ties_agree (c114_dofs 0 3) 3 2.
Proof.
  split; [split; [reflexivity|]; split; [lia|]|].
  - intros [|[|[|]]] [|[|]] [|[|[|]]] [|[|]] H1 H2 H3 H4; cbn; lia.
  - intros H. specialize (H 0 2 1 ltac:(lia) ltac:(lia) ltac:(lia)). cbn in H. destruct H as [H _]. specialize (H eq_refl). discriminate.
Qed.
Example C114_nodaltyings_ex : (dofs_by_direction (c114_dofs 0 1) 3 2 /\ ties_agree (c114_dofs 0 1) 3 2 /\ nodaltyings_checked true (c114_dofs 0 1) = Ok [[0; 2]; [1]; [0; 2]]) /\
  (dofs_by_direction (c114_dofs 0 3) 3 2 /\ ~ ties_agree (c114_dofs 0 3) 3 2).
Proof. split; [|exact c114_dofs_bad]. split; [apply c114_dofs_ok|]. split; [apply c114_dofs_ok|reflexivity]. Qed.

(** [elem2node] with DOFs: the elements of a node and of the nodes tied to it, if every tied node is at most the largest node in the
    connectivity; a tied node beyond it is not noticed and memory is accessed out of bounds; ties that do not agree never give a result. *)
Theorem C114_elem2node : forall conn dofs sorted nelem nne nnode ndim N, dofs_by_direction dofs nnode ndim -> a_shape conn = [nelem; nne] -> largest_node conn nelem nne N ->
  (ties_agree dofs nnode ndim -> (forall m n, m < nnode -> n < nnode -> m <> n -> a_ent dofs [m; 0] = a_ent dofs [n; 0] -> m < N) ->
    exists E, (forall ck, elem2node_dofs_checked ck conn dofs sorted = Ok E) /\ length E = N /\
      forall m, m < N -> (sorted = true -> StronglySorted le (nth m E [])) /\
        forall e, In e (nth m E []) <-> exists n i, (n = m \/ (m < nnode /\ n < nnode /\ a_ent dofs [n; 0] = a_ent dofs [m; 0])) /\ e < nelem /\ i < nne /\ a_ent conn [e; i] = n) /\
  (forall m n, ties_agree dofs nnode ndim -> m < nnode -> n < nnode -> m <> n -> a_ent dofs [m; 0] = a_ent dofs [n; 0] -> N <= m ->
    forall ck, elem2node_dofs_checked ck conn dofs sorted = Oob) /\
  (~ ties_agree dofs nnode ndim -> elem2node_dofs_checked true conn dofs sorted = Throw \/ elem2node_dofs_checked true conn dofs sorted = Oob).
Proof.
  intros conn dofs sorted nelem nne nnode ndim N H1 H2 H3. split; [exact (e_ok conn dofs nelem nne nnode ndim N H1 H2 H3 sorted)|].
  split; [exact (e_oob conn dofs nelem nne nnode ndim N H1 H2 H3 sorted)|exact (e_disagree conn dofs nelem nne nnode ndim H1 H2 sorted)].
Qed.
Print Assumptions C114_elem2node.
(** two elements in one dimension; the second case uses nodes 0 and 1 only, while node 2 is tied *)
Definition c114_bar (n : nat) : array nat := mkArray [2; 2] (fun ix => match ix with [e; m] => nth m (nth e [[0; 1]; [1; n]] []) 0 | _ => 0 end).
Lemma c114_bar_top : largest_node (c114_bar 2) 2 2 3 /\ largest_node (c114_bar 0) 2 2 2.
Proof.
  split; (split; [intros [|[|]] [|[|]] H1 H2; cbn; lia|]).
  - exists 1, 1. cbn. lia.
  - exists 0, 1. cbn. lia.
Qed.
Example C114_elem2node_ex : dofs_by_direction (c114_dofs 0 1) 3 2 /\ ties_agree (c114_dofs 0 1) 3 2 /\
  (largest_node (c114_bar 2) 2 2 3 /\ (forall m n, m < 3 -> n < 3 -> m <> n -> a_ent (c114_dofs 0 1) [m; 0] = a_ent (c114_dofs 0 1) [n; 0] -> m < 3) /\
   elem2node_dofs_checked true (c114_bar 2) (c114_dofs 0 1) true = Ok [[0; 1]; [0; 1]; [0; 1]]) /\
  (largest_node (c114_bar 0) 2 2 2 /\ a_ent (c114_dofs 0 1) [2; 0] = a_ent (c114_dofs 0 1) [0; 0] /\ elem2node_dofs_checked true (c114_bar 0) (c114_dofs 0 1) true = Oob).
Proof.
  split; [apply c114_dofs_ok|]. split; [apply c114_dofs_ok|]. split; (split; [apply c114_bar_top|]).
  - split; [intros; lia|reflexivity].
  - split; reflexivity.
Qed.

(** [getOrientation] of triangles in two dimensions whose nodes exist: -1 for the counter-clockwise ones, +1 for the others; a node that does
    not exist is not noticed and memory is accessed out of bounds; every other call throws. *)
Theorem C114_orientation_read : forall coor conn,
  (forall nnode nelem, tri_input coor conn nnode nelem -> tri_nodes conn nnode nelem ->
    exists val, (forall ck, getOrientation_checked ck coor conn = Ok val) /\ length val = nelem /\
      forall e, e < nelem -> ((0 < area_of coor conn e)%R -> nth e val 0%Z = (-1)%Z) /\ (~ (0 < area_of coor conn e)%R -> nth e val 0%Z = 1%Z)) /\
  (forall nnode nelem e m, tri_input coor conn nnode nelem -> e < nelem -> m < 3 -> nnode <= a_ent conn [e; m] -> forall ck, getOrientation_checked ck coor conn = Oob) /\
  ((forall nnode nelem, ~ tri_input coor conn nnode nelem) -> getOrientation_checked true coor conn = Throw).
Proof.
  intros coor conn. split; [|split].
  - intros nnode nelem T H. eexists. split; [intros ck; exact (o_get_ok coor conn nnode nelem T ck H)|]. split; [now rewrite map_length, seq_length|].
    intros e He. rewrite (nth_map_seq (orient coor conn) nelem e 0%Z He). unfold orient. destruct (Rlt_dec 0 (area_of coor conn e)); split; intros; reflexivity || contradiction.
  - intros nnode nelem e m T He Hm H ck. exact (o_get_oob coor conn nnode nelem T ck e m He Hm H).
  - intros H. now apply o_none.
Qed.
Print Assumptions C114_orientation_read.
(** two triangles, the first counter-clockwise *)
Definition c114_tri (n : nat) : array nat := mkArray [2; 3] (fun ix => match ix with [e; m] => nth m (nth e [[0; 1; 3]; [1; 3; n]] []) 0 | _ => 0 end).
Lemma c114_tri_ok : tri_input c114_coor (c114_tri 4) 6 2 /\ tri_nodes (c114_tri 4) 6 2.
Proof. split; [split; reflexivity|]. intros [|[|]] [|[|[|]]] H1 H2; cbn; lia. Qed.
Example C114_orientation_read_ex : (tri_input c114_coor (c114_tri 4) 6 2 /\ tri_nodes (c114_tri 4) 6 2) /\
  (0 < area_of c114_coor (c114_tri 4) 0)%R /\ ~ (0 < area_of c114_coor (c114_tri 4) 1)%R /\ tri_input c114_coor (c114_tri 6) 6 2 /\ 6 <= a_ent (c114_tri 6) [1; 2].
Proof. split; [exact c114_tri_ok|]. unfold area_of, corner, c114_coor, c114_tri. cbn. split; [lra|]. split; [lra|]. split; [split; reflexivity|lia]. Qed.

(** [setOrientation]: elements of the wrong orientation get their last two nodes swapped, the others are kept (a triangle without area counts
    as clockwise); a node that does not exist is not noticed; every other call throws. *)
Theorem C114_orientation_set : forall coor conn o,
  (forall nnode nelem, tri_input coor conn nnode nelem -> tri_nodes conn nnode nelem -> (o = -1 \/ o = 1)%Z ->
    exists C, (forall ck, setOrientation_checked ck coor conn o = Ok C) /\ length C = nelem /\
      forall e, e < nelem ->
        let kept := [a_ent conn [e; 0]; a_ent conn [e; 1]; a_ent conn [e; 2]] in let swapped := [a_ent conn [e; 0]; a_ent conn [e; 2]; a_ent conn [e; 1]] in
        (o = -1 -> (0 < area_of coor conn e)%R -> nth e C [] = kept)%Z /\ (o = -1 -> ~ (0 < area_of coor conn e)%R -> nth e C [] = swapped)%Z /\
        (o = 1 -> (0 < area_of coor conn e)%R -> nth e C [] = swapped)%Z /\ (o = 1 -> ~ (0 < area_of coor conn e)%R -> nth e C [] = kept)%Z) /\
  (forall nnode nelem e m, tri_input coor conn nnode nelem -> (o = -1 \/ o = 1)%Z -> e < nelem -> m < 3 -> nnode <= a_ent conn [e; m] ->
    forall ck, setOrientation_checked ck coor conn o = Oob) /\
  ((forall nnode nelem, ~ tri_input coor conn nnode nelem) \/ ~ (o = -1 \/ o = 1)%Z -> setOrientation_checked true coor conn o = Throw).
Proof.
  intros coor conn o. split; [|split].
  - intros nnode nelem T H Ho. eexists. split; [intros ck; exact (o_set_ok coor conn nnode nelem T ck o H Ho)|]. split; [now rewrite map_length, seq_length|].
    intros e He kept swapped. rewrite (nth_map_seq _ nelem e [] He). unfold orient.
    repeat split; intros E Ha; rewrite E; destruct (Rlt_dec 0 (area_of coor conn e)); try contradiction; reflexivity.
  - intros nnode nelem e m T Ho He Hm H ck. exact (o_set_oob coor conn nnode nelem T ck o e m Ho He Hm H).
  - intros [H|H]; [now apply o_none|]. destruct (Classical_tri coor conn) as [(n & e & T)|N]; [now apply (o_set_bad coor conn n e T)|now apply o_none].
Qed.
Print Assumptions C114_orientation_set.
Example C114_orientation_set_ex : tri_input c114_coor (c114_tri 4) 6 2 /\ tri_nodes (c114_tri 4) 6 2 /\ ~ (0 = -1 \/ 0 = 1)%Z.
Proof. split; [apply c114_tri_ok|]. split; [apply c114_tri_ok|]. intros [H|H]; discriminate. Qed.

(** [setOrientation] with the current orientations: one per element, any number; every other call throws. *)
Theorem C114_orientation_val : forall coor conn val o,
  (forall nnode nelem, tri_input coor conn nnode nelem -> a_shape val = [nelem] -> (o = -1 \/ o = 1)%Z ->
    exists C, (forall ck, setOrientation_val_checked ck coor conn val o = Ok C) /\ length C = nelem /\
      forall e, e < nelem ->
        let kept := [a_ent conn [e; 0]; a_ent conn [e; 1]; a_ent conn [e; 2]] in let swapped := [a_ent conn [e; 0]; a_ent conn [e; 2]; a_ent conn [e; 1]] in
        let differs := ((o = -1 /\ 0 < a_ent val [e]) \/ (o = 1 /\ a_ent val [e] < 0))%Z in
        (differs -> nth e C [] = swapped) /\ (~ differs -> nth e C [] = kept)) /\
  ((forall nnode nelem, tri_input coor conn nnode nelem -> ~ (a_shape val = [nelem] /\ (o = -1 \/ o = 1)%Z)) -> setOrientation_val_checked true coor conn val o = Throw).
Proof.
  intros coor conn val o. split.
  - intros nnode nelem T Ev Ho. eexists. split; [intros ck; exact (o_setval_ok coor conn nnode nelem T ck val o Ev Ho)|]. split; [now rewrite map_length, seq_length|].
    intros e He kept swapped differs. rewrite (nth_map_seq _ nelem e [] He).
    assert (Q : wrong o (a_ent val [e]) = true <-> differs) by (unfold wrong, differs; rewrite Bool.orb_true_iff, !Bool.andb_true_iff, !Z.eqb_eq, !Z.ltb_lt; reflexivity).
    destruct (wrong o (a_ent val [e])); split; intros D; try reflexivity; [destruct D; now apply Q|apply Q in D; discriminate].
  - intros H. destruct (Classical_tri coor conn) as [(n & e & T)|N]; [now apply (o_setval_bad coor conn n e T), (H n)|now apply o_none].
Qed.
Print Assumptions C114_orientation_val.
Definition c114_val (n : nat) : array Z := mkArray [n] (fun ix => match ix with [0] => 5%Z | _ => (-1)%Z end).
Example C114_orientation_val_ex : tri_input c114_coor (c114_tri 4) 6 2 /\ a_shape (c114_val 2) = [2] /\
  setOrientation_val_checked true c114_coor (c114_tri 4) (c114_val 2) (-1) = Ok [[0; 3; 1]; [1; 3; 4]] /\ a_shape (c114_val 3) <> [2].
Proof. split; [apply c114_tri_ok|]. split; [reflexivity|]. split; [reflexivity|discriminate]. Qed.

(** "In the checked build no call accesses memory out of bounds" is false: an element map, ties and triangles may refer to what does not exist,
    and the assertion in [nodaltyings] itself reads past the end of a list (where the call without assertions returns); and an assertion
    that should reject a DOF shared by two directions lets one pass. *)
Theorem C114_refuted :
  (exists elem_map coor conn, quad_input coor conn None 6 2 /\ a_shape elem_map = [2] /\ elemmap2nodemap_checked true elem_map coor conn None = Oob) /\
  (exists conn dofs, dofs_by_direction dofs 3 2 /\ ties_agree dofs 3 2 /\ elem2node_dofs_checked true conn dofs true = Oob) /\
  (exists coor conn, tri_input coor conn 6 2 /\ getOrientation_checked true coor conn = Oob) /\
  (exists dofs T, dofs_by_direction dofs 3 2 /\ nodaltyings_checked false dofs = Ok T /\ nodaltyings_checked true dofs = Oob) /\
  (exists dofs T, a_shape dofs = [2; 2] /\ a_ent dofs [0; 1] = a_ent dofs [1; 0] /\ nodaltyings_checked true dofs = Ok T /\ In 0 (nth 1 T []) /\ ~ In 1 (nth 0 T []) /\ a_ent dofs [0; 0] <> a_ent dofs [1; 0]).
Proof.
  split; [|split; [|split; [|split]]].
  - exists (c114_map 1 2), c114_coor, c114_conn. split; [exact c114_quad|]. split; reflexivity.
  - exists (c114_bar 0), (c114_dofs 0 1). split; [apply c114_dofs_ok|]. split; [apply c114_dofs_ok|reflexivity].
  - exists c114_coor, (c114_tri 6). split; [split; reflexivity|reflexivity].
  - exists (c114_dofs 0 4). eexists. split; [|split; reflexivity]. split; [reflexivity|]. split; [lia|]. intros [|[|[|]]] [|[|]] [|[|[|]]] [|[|]] H1 H2 H3 H4; cbn; lia.
  - eexists (mkArray [2; 2] (fun ix => match ix with [0; 0] => 0 | _ => 1 end)). eexists. split; [reflexivity|]. split; [reflexivity|]. split; [reflexivity|]. split; [cbn; auto|]. split; [cbn; intuition discriminate|discriminate].
Qed.
Print Assumptions C114_refuted.
