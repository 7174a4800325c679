(** Property C88, continued: the meshes of the library are valid input of the program. *)
From Coq Require Import Reals Lra Lia.
From Verif Require Import Model_Element Spec_Element Base Spec Spec2d Spec3d Sums Spec_Vector Spec_Tyings Model_Numbering Proof_Numbering Model_Regular2d Proof_Regular2d Model_Hex8Regular Proof_Hex8Regular Prop_Hex8Regular
  Model_Tyings Model_FineLayer Prop_FineLayer Model_Aliases Model_Pipeline Spec_Pipeline Model_PeriodicProgram Spec_Periodic Prop_Periodic.

Lemma dofs_own n d : forall m i k j, m < n -> i < d -> k < n -> j < d -> idx2 (dofs n d) m i = idx2 (dofs n d) k j -> m = k /\ i = j.
Proof.
  assert (V : forall m i, m < n -> i < d -> idx2 (dofs n d) m i = m * d + i).
  { intros m i Hm Hi. pose proof (dofs_at n d m i Hm Hi) as A. unfold at2 in A. unfold idx2, nth2. destruct (nth_error (dofs n d) m) as [r|] eqn:Er; [|discriminate].
    rewrite (nth_error_nth _ _ _ Er). now apply nth_error_nth. }
  intros m i k j Hm Hi Hk Hj. rewrite !V by assumption. intro Eq. assert (m = k) by nia. subst k. lia.
Qed.

Lemma cell2 X n Lx Ly ties o : shape2 X n 2 -> periodic_ties X Lx Ly ties -> node_at X o 0 0 -> (0 < Lx)%R -> (0 < Ly)%R -> cell X (dofs n 2) ties [o] n 2.
Proof.
  intros SX [HT [_ [_ HL]]] Ho Hx Hy. pose proof (proj1 SX) as LX. rewrite LX in HT. split; try assumption.
  - apply dofs_shape.
  - apply dofs_own.
  - repeat constructor. intros [].
  - intros m [<-|[]]. split.
    + rewrite <- LX. apply nth_error_Some. unfold node_at in Ho. congruence.
    + intro Hin. apply HL in Hin. destruct Hin as [x [y [Hn HP]]]. unfold node_at in *. rewrite Ho in Hn. injection Hn as <- <-. lra.
Qed.
Lemma cell3 X n Lx Ly Lz ties o : shape2 X n 3 -> periodic_ties3 X Lx Ly Lz ties -> node_at3 X o 0 0 0 -> (0 < Lx)%R -> (0 < Ly)%R -> (0 < Lz)%R -> cell X (dofs n 3) ties [o] n 3.
Proof.
  intros SX [HT [_ [_ HL]]] Ho Hx Hy Hz. pose proof (proj1 SX) as LX. rewrite LX in HT. split; try assumption.
  - apply dofs_shape.
  - apply dofs_own.
  - repeat constructor. intros [].
  - intros m [<-|[]]. split.
    + rewrite <- LX. apply nth_error_Some. unfold node_at3 in Ho. congruence.
    + intro Hin. apply HL in Hin. destruct Hin as [x [y [z [Hn HP]]]]. unfold node_at3 in *. rewrite Ho in Hn. injection Hn as <- <- <-. lra.
Qed.

(** for the regular meshes and the mesh with a fine layer, with the mesh's own DOFs, periodic node pairs and origin: the set-up of C88 is
    valid.  [connects]: the connectivity refers to nodes of the mesh only *)
Theorem C88_quad4 : forall m, 1 <= nelx m -> 1 <= nely m -> (0 < hh m)%R ->
  exists o, origin2 (quad_corner m) = Ok o /\ cell (coor m) (dofs (nnode m) 2) (nodesPeriodic m) [o] (nnode m) 2 /\ connects (conn m) (nelem m) 4 (nnode m).
Proof.
  intros m Hx Hy Hh. eexists. split; [reflexivity|]. split.
  - apply (cell2 _ _ (hh m * INR (nelx m))%R (hh m * INR (nely m))%R); [apply coor_shape|now apply Regular_periodic_ties| | |].
    + exact (bs_bl _ _ _ _ _ _ _ _ _ _ _ _ _ _ _ (Regular_boundary_sets m Hx Hy Hh)).
    + apply Rmult_lt_0_compat; [exact Hh|apply lt_0_INR; lia].
    + apply Rmult_lt_0_compat; [exact Hh|apply lt_0_INR; lia].
  - split; [apply conn_shape|]. intros e k He Hk. apply (conn_range m (nth e (conn m) [])); [apply nth_In; rewrite (proj1 (conn_shape m)); exact He|].
    unfold idx2, nth2. apply nth_In. rewrite (proj2 (conn_shape m)); [exact Hk|]. apply nth_In. rewrite (proj1 (conn_shape m)). exact He.
Qed.
Print Assumptions C88_quad4.

Theorem C88_tri3 : forall m, 1 <= nelx m -> 1 <= nely m -> (0 < hh m)%R ->
  exists o, origin2 (tri_corner m) = Ok o /\ cell (tri_coor m) (dofs (tri_nnode m) 2) (tri_nodesPeriodic m) [o] (tri_nnode m) 2.
Proof.
  intros m Hx Hy Hh. eexists. split; [reflexivity|].
  apply (cell2 _ _ (hh m * INR (nelx m))%R (hh m * INR (nely m))%R); [exact (coor_shape m)|now apply tri_periodic_ties| | |].
  - exact (bs_bl _ _ _ _ _ _ _ _ _ _ _ _ _ _ _ (tri_boundary_sets m Hx Hy Hh)).
  - apply Rmult_lt_0_compat; [exact Hh|apply lt_0_INR; lia].
  - apply Rmult_lt_0_compat; [exact Hh|apply lt_0_INR; lia].
Qed.
Print Assumptions C88_tri3.

Theorem C88_finelayer : forall nelx nely nfine h m, 1 <= nelx -> 1 <= nely ->
  FineLayer_init nelx nely h nfine = Some (Ok m) -> (0 < h)%R ->
  exists X C ties o, f_coor m = Ok X /\ f_conn m = Ok C /\ f_nodesPeriodic m = Ok ties /\ origin2 (fine_corner m) = Ok o /\
    cell X (dofs (f_nnode m) 2) ties [o] (f_nnode m) 2 /\ connects C (f_nelem m) 4 (f_nnode m).
Proof.
  intros nx ny nf h m Hx Hy E Hh. destruct (C17_mesh nx ny nf h m Hx Hy E) as [X [C [EX [EC [SX [SC [HC _]]]]]]].
  destruct (C20_periodic nx ny nf h m Hx Hy E Hh) as [X' [ties [_ [_ [EX' [ET [_ [_ [HT _]]]]]]]]]. rewrite EX in EX'. injection EX' as <-.
  destruct (C19_boundary nx ny nf h m Hx Hy E Hh) as (X' & bot & top & lft & rgt & obot & otop & olft & orgt & bl & br & tl & tr & EX' & _ & _ & _ & _ & _ & _ & _ & _ & Eo & _ & _ & _ & HB).
  rewrite EX in EX'. injection EX' as <-. destruct (C18_tiles nx ny nf h m Hx Hy E Hh) as [X' [C' [EX' [EC' [_ [_ HA]]]]]]. rewrite EX in EX'. injection EX' as <-.
  exists X, C, ties, bl. split; [exact EX|]. split; [exact EC|]. split; [exact ET|]. split; [exact Eo|]. split.
  - assert (Px : (0 < h * INR nx)%R) by (apply Rmult_lt_0_compat; [exact Hh|apply lt_0_INR; lia]).
    assert (Py : (0 < h * INR (f_nely m))%R).
    { destruct (C16_layers nx ny nf h m Hx Hy E) as [_ [_ [_ [_ [N1 [N2 _]]]]]]. apply Rmult_lt_0_compat; [exact Hh|apply lt_0_INR].
      destruct (Nat.Even_or_Odd ny) as [[k Ek]|Od]; [|specialize (N2 Od)]; lia. }
    apply (cell2 _ _ (h * INR nx)%R (h * INR (f_nely m))%R); try assumption. exact (bs_bl _ _ _ _ _ _ _ _ _ _ _ _ _ _ _ HB).
  - split; [exact SC|]. intros e k He Hk. apply (HC (nth e C [])); [apply nth_In; rewrite (proj1 SC); exact He|].
    unfold idx2, nth2. apply nth_In. rewrite (proj2 SC); [exact Hk|]. apply nth_In. rewrite (proj1 SC). exact He.
Qed.
Print Assumptions C88_finelayer.

Theorem C88_hex8 : forall m, 1 <= hx_nelx m -> 1 <= hx_nely m -> 1 <= hx_nelz m -> (0 < hx_h m)%R ->
  exists o, origin3 (hexreg_corner m) = Ok o /\ cell (hex_coor m) (dofs (hex_nnode m) 3) (hex_nodesPeriodic m) [o] (hex_nnode m) 3 /\
    connects (hex_conn m) (hex_nelem m) 8 (hex_nnode m).
Proof.
  intros m Hx Hy Hz Hh. eexists. split; [reflexivity|]. split.
  - apply (cell3 _ _ (hx_h m * INR (hx_nelx m))%R (hx_h m * INR (hx_nely m))%R (hx_h m * INR (hx_nelz m))%R); [apply hex_coor_shape|now apply hex_periodic_ties| | | |].
    + exact (proj1 (C13_corners m)).
    + apply Rmult_lt_0_compat; [exact Hh|apply lt_0_INR; lia].
    + apply Rmult_lt_0_compat; [exact Hh|apply lt_0_INR; lia].
    + apply Rmult_lt_0_compat; [exact Hh|apply lt_0_INR; lia].
  - split; [apply hex_conn_shape|]. intros e k He Hk. apply (hex_conn_range m (nth e (hex_conn m) [])); [apply nth_In; rewrite (proj1 (hex_conn_shape m)); exact He|].
    unfold idx2, nth2. apply nth_In. rewrite (proj2 (hex_conn_shape m)); [exact Hk|]. apply nth_In. rewrite (proj1 (hex_conn_shape m)). exact He.
Qed.
Print Assumptions C88_hex8.

(** two square elements: nodes 0, 1 (and control nodes 6, 7) are independent, node 0 and the control nodes are prescribed *)
Example C88_ex : forall h, let m := mkRegular 2 1 h in
  match periodic_setup (coor m) (nnode m) 2 (dofs (nnode m) 2) (conn m) 4 (nodesPeriodic m) [0] with
  | Ok ps => nodesPeriodic m = [(0, 2); (0, 5); (0, 3); (1, 4)] /\ (tp_nnu (ps_t ps), tp_nnp (ps_t ps), tp_nnd (ps_t ps)) = (2, 6, 8) /\
      tp_dofs (ps_t ps) = [[6; 7]; [0; 1]; [8; 9]; [12; 13]; [14; 15]; [10; 11]; [2; 3]; [4; 5]] /\ ps_control_nodes ps = [6; 7]
  | _ => False end.
Proof. intros h. vm_compute. auto. Qed.
