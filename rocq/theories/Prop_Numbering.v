(** Properties C01-C05: numbering of degrees of freedom. *)
From Verif Require Import Base Spec Model_Numbering Proof_Numbering.

(** C01: for every array, [renumber] succeeds (no out-of-bounds access, no uninitialised read),
    keeps order and equality of every two entries, and uses exactly the numbers 0..k-1 with
    k the number of distinct input numbers. *)
Theorem C01_renumber : forall d : list nat, exists r,
    renumber d = Ok r /\ length r = length d /\
    (forall i j a b a' b',
        nth_error d i = Some a -> nth_error d j = Some b ->
        nth_error r i = Some a' -> nth_error r j = Some b' ->
        (a < b <-> a' < b') /\ (a = b <-> a' = b')) /\
    (forall v, In v r <-> v < distinct d).
Proof. exact renumber_spec. Qed.
Print Assumptions C01_renumber.
(* the example of the documentation (Mesh.h:98-105) *)
Example C01_ex : renumber [0; 1; 5; 4] = Ok [0; 1; 3; 2].
Proof. reflexivity. Qed.

(** C01 for arrays of rank 2: same shape, and the flattened result is the renumbering of the
    flattened argument. *)
Theorem C01_renumber_rank2 : forall d : list (list nat), exists r,
    renumber2 d = Ok r /\ renumber (concat d) = Ok (concat r) /\
    map (@length nat) r = map (@length nat) d.
Proof. exact renumber2_concat. Qed.
Print Assumptions C01_renumber_rank2.
Example C01_rank2_ex : renumber2 [[0; 9]; [5; 9]; [5; 2]] = Ok [[0; 3]; [2; 3]; [2; 1]].
Proof. reflexivity. Qed.

(** C02: [index()] is the lookup table used by [apply()], on the array itself and on every other
    list of numbers that occur in it. *)
Theorem C02_renumber_index : forall d : list nat, d <> [] -> exists m r,
    Renumber d = Ok m /\ renumber d = Ok r /\
    (forall i a, nth_error d i = Some a -> exists v,
        nth_error (Renumber_index m) a = Some (Some v) /\ nth_error r i = Some v) /\
    (forall l, (forall a, In a l -> In a d) -> exists l',
        Renumber_apply m l = Ok l' /\ length l' = length l /\
        forall i a, nth_error l i = Some a -> exists v,
          nth_error (Renumber_index m) a = Some (Some v) /\ nth_error l' i = Some v).
Proof. exact renumber_index. Qed.
Print Assumptions C02_renumber_index.
Example C02_ex : [3; 7; 3] <> [] /\ (forall a, In a [7; 7] -> In a [3; 7; 3]) /\
  exists m, Renumber [3; 7; 3] = Ok m /\ Renumber_apply m [7; 7] = Ok [1; 1].
Proof.
  split; [discriminate|]. split; [simpl; intuition|]. eexists. split; reflexivity.
Qed.

(** C02: renumbering twice changes nothing. *)
Theorem C02_renumber_idempotent : forall d : list nat, exists r,
    renumber d = Ok r /\ renumber r = Ok r.
Proof. exact renumber_idem. Qed.
Print Assumptions C02_renumber_idempotent.

(** C03: [Reorder] numbers every item by its position in the concatenated lists; anything that
    occurs in the lists can be mapped, anything else is an uninitialised / out-of-bounds read. *)
Theorem C03_reorder : forall args : list (list nat), NoDup (concat args) -> exists m,
    Reorder args = Ok m /\
    (forall k a, nth_error (concat args) k = Some a ->
        nth_error (Reorder_index m) a = Some (Some k)) /\
    (forall l, (forall a, In a l -> In a (concat args)) -> exists l',
        Reorder_apply m l = Ok l' /\ length l' = length l /\
        (forall i a, nth_error l i = Some a -> exists k,
            nth_error l' i = Some k /\ nth_error (concat args) k = Some a)) /\
    (forall l, (exists a, In a l /\ ~ In a (concat args)) ->
        Reorder_apply m l = Uninit \/ Reorder_apply m l = Oob).
Proof. exact reorder_spec. Qed.
Print Assumptions C03_reorder.
Example C03_ex : NoDup (concat [[4; 0]; []; [2]]) /\
  exists m, Reorder [[4; 0]; []; [2]] = Ok m /\ Reorder_apply m [0; 2; 4] = Ok [1; 2; 0] /\
            Reorder_apply m [3] = Uninit.
Proof.
  split; [simpl; repeat constructor; simpl; intuition discriminate|].
  eexists. repeat split; reflexivity.
Qed.

(** C04: sequential DOFs. *)
Theorem C04_dofs : forall nnode ndim,
    shape2 (dofs nnode ndim) nnode ndim /\
    (forall m i, m < nnode -> i < ndim -> at2 (dofs nnode ndim) m i = Some (m * ndim + i)) /\
    concat (dofs nnode ndim) = seq 0 (nnode * ndim).
Proof.
  exact (fun n d => conj (dofs_shape n d) (conj (fun m i => dofs_at n d m i) (concat_dofs n d))).
Qed.
Print Assumptions C04_dofs.
Example C04_ex : dofs 3 2 = [[0; 1]; [2; 3]; [4; 5]].
Proof. reflexivity. Qed.

(** C05: periodic DOFs. *)
Theorem C05_dofsPeriodic : forall nnode ndim ties, wf_ties nnode ties -> exists D,
    dofsPeriodic nnode ndim ties = Ok D /\ shape2 D nnode ndim /\
    (forall m1 i1 r1 v1 m2 i2 r2 v2,
        represents ties m1 r1 -> at2 D m1 i1 = Some v1 ->
        represents ties m2 r2 -> at2 D m2 i2 = Some v2 ->
        (v1 = v2 <-> r1 = r2 /\ i1 = i2) /\
        (v1 < v2 <-> r1 < r2 \/ (r1 = r2 /\ i1 < i2))) /\
    (forall v, In v (concat D) <-> v < (nnode - length ties) * ndim).
Proof. exact dofsPeriodic_spec. Qed.
Print Assumptions C05_dofsPeriodic.
Example C05_ex : wf_ties 4 [(0, 1); (0, 3)] /\
  dofsPeriodic 4 2 [(0, 1); (0, 3)] = Ok [[0; 1]; [0; 1]; [2; 3]; [0; 1]].
Proof.
  split; [|reflexivity]. split; [|split].
  - simpl. intros a b [E|[E|[]]]; inversion E; lia.
  - simpl. repeat constructor; simpl; intuition discriminate.
  - simpl. intuition congruence.
Qed.
