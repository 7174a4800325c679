(** Properties C35-C38: connectivity utilities. *)
From Verif Require Import Base Spec Spec_Topology Model_Topology Proof_Topology.

(** C35: [elem2node(conn)] has a row for every node up to the largest number in [conn]; row m lists
    exactly the elements that contain node m, once per occurrence, in increasing order, and
    [coordination(conn)] holds the length of each row. *)
Theorem C35_elem2node : forall conn sorted N, numbers_up_to conn N ->
  exists E C, elem2node conn sorted = Ok E /\ coordination conn = Ok C /\
    length E = N /\ length C = N /\
    (forall m row, nth_error E m = Some row ->
       StronglySorted le row /\ (forall e, occurs e row = occurrences conn e m) /\
       nth_error C m = Some (length row)).
Proof. exact elem2node_spec. Qed.
Print Assumptions C35_elem2node.
Example C35_ex : numbers_up_to [[0; 1; 4; 3]; [1; 2; 5; 4]] 6 /\
  elem2node [[0; 1; 4; 3]; [1; 2; 5; 4]] true = Ok [[0]; [0; 1]; [1]; [0]; [0; 1]; [1]].
Proof. split; [split; simpl; intuition lia|reflexivity]. Qed.

(** C36: with DOFs that tie nodes, row m lists the elements of all nodes tied to m; it succeeds
    whenever all tied nodes are nodes of the connectivity. *)
Theorem C36_elem2node_dofs : forall conn dofs ndim sorted N, numbers_up_to conn N ->
  0 < ndim -> nodal_dofs dofs ndim ->
  (forall m n, tied dofs m n -> m <> n -> m < N) ->
  exists E T, elem2node_dofs conn dofs sorted = Ok E /\ nodaltyings dofs = Ok T /\ length E = N /\
    forall m row, nth_error E m = Some row ->
      (sorted = true -> StronglySorted le row) /\
      (forall group, nth_error T m = Some group -> forall e,
          occurs e row = list_sum (map (occurrences conn e) group)) /\
      (nth_error T m = None -> forall e, occurs e row = occurrences conn e m).
Proof. exact elem2node_dofs_ok. Qed.
Print Assumptions C36_elem2node_dofs.
Example C36_ex : numbers_up_to [[0; 1]; [1; 2]] 3 /\ nodal_dofs [[0; 1]; [2; 3]; [0; 1]] 2 /\
  (forall m n, tied [[0; 1]; [2; 3]; [0; 1]] m n -> m <> n -> m < 3) /\
  elem2node_dofs [[0; 1]; [1; 2]] [[0; 1]; [2; 3]; [0; 1]] true = Ok [[0; 1]; [0; 1]; [0; 1]].
Proof.
  split; [split; simpl; intuition lia|]. split.
  - split; [split; [reflexivity|simpl; intuition (subst; reflexivity)]|].
    intros m i n j d.
    destruct m as [|[|[|m]]], i as [|[|i]]; unfold at2; simpl; intro H; inversion H; subst;
      try (destruct m; discriminate); try (destruct i; discriminate);
      (destruct n as [|[|[|n]]], j as [|[|j]]; simpl; intro H'; inversion H'; try reflexivity;
       try (destruct n; discriminate); try (destruct j; discriminate)).
  - split; [|reflexivity]. intros [|[|[|m]]] n [d [H _]] _; try lia.
    unfold at2 in H. simpl in H. destruct m; discriminate.
Qed.

(** C36: when a tied node is larger than every node in the connectivity the function accesses
    memory out of bounds. *)
Theorem C36_elem2node_dofs_out_of_bounds : forall conn dofs ndim sorted N m n, numbers_up_to conn N ->
  0 < ndim -> nodal_dofs dofs ndim -> tied dofs m n -> m <> n -> N <= m ->
  elem2node_dofs conn dofs sorted = Oob.
Proof. exact elem2node_dofs_oob. Qed.
Print Assumptions C36_elem2node_dofs_out_of_bounds.
Example C36_oob_ex : tied [[0]; [1]; [2]; [1]] 3 1 /\ 3 <> 1 /\ 3 <= 3 /\
  elem2node_dofs [[0; 1]; [1; 2]] [[0]; [1]; [2]; [1]] true = Oob.
Proof. split; [exists 1; split; reflexivity|]. split; [discriminate|]. split; [lia|reflexivity]. Qed.

(** C37: [nodaltyings] lists the nodes tied to each node. *)
Theorem C37_nodaltyings : forall dofs ndim, 0 < ndim -> nodal_dofs dofs ndim ->
  exists T, nodaltyings dofs = Ok T /\ length T = length dofs /\
    forall m row, nth_error T m = Some row ->
      StronglySorted lt row /\ In m row /\ (forall n, In n row <-> tied dofs m n).
Proof. exact nodaltyings_spec. Qed.
Print Assumptions C37_nodaltyings.
Example C37_ex : nodal_dofs [[0]; [1]; [0]] 1 /\ nodaltyings [[0]; [1]; [0]] = Ok [[0; 2]; [1]; [0; 2]].
Proof.
  split; [|reflexivity].
  split; [split; [reflexivity|simpl; intuition (subst; reflexivity)]|].
  intros m i n j d. unfold at2.
  destruct m as [|[|[|m]]], i as [|i]; simpl; intro H; inversion H; try (destruct i; discriminate); try (destruct m; discriminate);
  (destruct n as [|[|[|n]]], j as [|j]; simpl; intro H'; inversion H'; try reflexivity;
    try (destruct j; discriminate); try (destruct n; discriminate)).
Qed.

(** C37: the ties form an equivalence: membership is symmetric and tied nodes have equal rows. *)
Theorem C37_nodaltyings_symmetric : forall dofs ndim T m n rm rn, 0 < ndim -> nodal_dofs dofs ndim ->
  nodaltyings dofs = Ok T -> nth_error T m = Some rm -> nth_error T n = Some rn ->
  (In n rm <-> In m rn) /\ (In n rm -> rm = rn).
Proof. exact nodaltyings_symmetric. Qed.
Print Assumptions C37_nodaltyings_symmetric.

(** C37: [node2dof] lists the nodes of every DOF. *)
Theorem C37_node2dof : forall dofs sorted N, numbers_up_to dofs N ->
  exists E, node2dof dofs sorted = Ok E /\ length E = N /\
    forall d row, nth_error E d = Some row -> forall n,
      occurs n row = occurrences dofs n d /\ (In n row <-> exists i, at2 dofs n i = Some d).
Proof. exact node2dof_spec. Qed.
Print Assumptions C37_node2dof.
Example C37_node2dof_ex : numbers_up_to [[0; 1]; [2; 3]; [0; 1]] 4 /\
  node2dof [[0; 1]; [2; 3]; [0; 1]] true = Ok [[0; 2]; [0; 2]; [1]; [1]].
Proof. split; [split; simpl; intuition lia|reflexivity]. Qed.

(** C38: if the element map is induced by a node map [f], [elemmap2nodemap] returns [f] on every
    node that is used, and the invalid number [nnode] for nodes that no element uses. *)
Theorem C38_elemmap2nodemap : forall elem_map N conn (f : nat -> nat), elem_map_ok elem_map N conn ->
  (forall e e' i n n', nth_error elem_map e = Some e' -> at2 conn e i = Some n -> at2 conn e' i = Some n' -> n' = f n) ->
  exists r, elemmap2nodemap elem_map N conn = Ok r /\ length r = N /\
    (forall m, In m (concat conn) -> nth_error r m = Some (f m)) /\
    (forall m, m < N -> ~ In m (concat conn) -> nth_error r m = Some N).
Proof. exact elemmap2nodemap_consistent. Qed.
Print Assumptions C38_elemmap2nodemap.
(* two disconnected elements that swap *)
Example C38_ex : elem_map_ok [1; 0] 9 [[0; 1; 2; 3]; [4; 5; 6; 7]] /\
  elemmap2nodemap [1; 0] 9 [[0; 1; 2; 3]; [4; 5; 6; 7]] = Ok [4; 5; 6; 7; 0; 1; 2; 3; 9].
Proof.
  split; [|reflexivity]. split; [split; [reflexivity|simpl; intuition (subst; reflexivity)]|].
  split; [reflexivity|]. split; simpl; intuition lia.
Qed.

(** C38, any element map (e.g. a periodic roll, where corners disagree): the first corner at which
    the node occurs decides, and of the elements with the node at that corner the last one. *)
Theorem C38_elemmap2nodemap_any : forall elem_map N conn, elem_map_ok elem_map N conn ->
  exists r, elemmap2nodemap elem_map N conn = Ok r /\ length r = N /\
   forall m, m < N -> exists v, nth_error r m = Some v /\
     ((v = N /\ ~ In m (concat conn)) \/
      exists i e e', last_with conn m i e /\
        (forall i' e2, i' < i -> at2 conn e2 i' <> Some m) /\
        nth_error elem_map e = Some e' /\ at2 conn e' i = Some v).
Proof. exact elemmap2nodemap_spec. Qed.
Print Assumptions C38_elemmap2nodemap_any.
(* a row of two elements, rolled *)
Example C38_any_ex : elem_map_ok [1; 0] 6 [[0; 1; 4; 3]; [1; 2; 5; 4]] /\
  elemmap2nodemap [1; 0] 6 [[0; 1; 4; 3]; [1; 2; 5; 4]] = Ok [1; 0; 1; 4; 5; 4].
Proof.
  split; [|reflexivity]. split; [split; [reflexivity|simpl; intuition (subst; reflexivity)]|].
  split; [reflexivity|]. split; simpl; intuition lia.
Qed.
