(** Proofs about the program with periodic tyings, in terms of nodes. *)
From Coq Require Import Reals Lra Lia.
From Verif Require Import Model_Element Spec_Element Base Spec Sums Spec_Vector Spec_Matrix Spec_Tyings Model_Numbering Model_Vector Proof_Vector Model_Sparse Model_Tyings Prop_Tyings
  Model_Matrix Proof_Matrix Model_MatrixPartitioned Model_MatrixTyings Spec_MatrixTyings Proof_MatrixTyings Proof_Tyings2 Model_MeshGeometry Model_Pipeline Spec_Pipeline Proof_PipelineElem Proof_Pipeline Proof_PipelineBalance
  Model_PeriodicProgram Spec_Periodic Proof_Periodic Proof_PatchRegular.

Section P.
Set Default Proof Using "All".
Variables (coor : list (list R)) (dofs : list (list nat)) (ties : list (nat * nat)) (fixed : list nat) (nnode ndim : nat).
Hypothesis HC : cell coor dofs ties fixed nnode ndim.
Notation c := (new_Control coor nnode ndim dofs).
Notation N := (nnode + ndim).
Definition iip_of := concat (tc_control_dofs c) ++ fixed_dofs coor dofs fixed nnode ndim.
Notation iip := iip_of.

Lemma c_shape : shape2 (tc_coor c) N ndim /\ shape2 (tc_dofs c) N ndim /\ shape2 (tc_control_dofs c) ndim ndim /\ tc_control_nodes c = seq nnode ndim /\
  (forall m i, m < nnode -> i < ndim -> val2 (tc_coor c) m i = val2 coor m i /\ idx2 (tc_dofs c) m i = idx2 dofs m i) /\
  (forall j k, j < ndim -> k < ndim -> val2 (tc_coor c) (nnode + j) k = 0%R /\ idx2 (tc_dofs c) (nnode + j) k = idx2 (tc_control_dofs c) j k) /\
  (forall j k m i, j < ndim -> k < ndim -> m < nnode -> i < ndim -> idx2 (tc_control_dofs c) j k <> idx2 dofs m i) /\
  (forall j k j' k', j < ndim -> k < ndim -> j' < ndim -> k' < ndim -> idx2 (tc_control_dofs c) j k = idx2 (tc_control_dofs c) j' k' -> j = j' /\ k = k').
Proof. exact (ctrl coor dofs nnode ndim (cell_coor _ _ _ _ _ _ HC) (cell_dofs _ _ _ _ _ _ HC)). Qed.

Lemma c_distinct : forall m i n j, m < N -> i < ndim -> n < N -> j < ndim -> idx2 (tc_dofs c) m i = idx2 (tc_dofs c) n j -> m = n /\ i = j.
Proof. exact (all_distinct coor dofs nnode ndim (cell_coor _ _ _ _ _ _ HC) (cell_dofs _ _ _ _ _ _ HC) (cell_distinct _ _ _ _ _ _ HC)). Qed.

Lemma c_input : periodic_input (tc_coor c) (tc_dofs c) (tc_control_dofs c) ties iip N ndim.
Proof. destruct HC as [H1 H2 H3 H4 H5 H6]. exact (setup_input coor dofs ties fixed nnode ndim H1 H2 H3 H4 H5 H6). Qed.

Lemma c_nodal u : nodal (tc_dofs c) N ndim u <-> shape2 u N ndim.
Proof. split; [now intros [? _]|]. intro Su. split; [exact Su|]. intros m i n j Hm Hi Hn Hj Ed. destruct (c_distinct m i n j Hm Hi Hn Hj Ed) as [-> ->]. reflexivity. Qed.

Lemma c_prescribed m i : m < N -> i < ndim -> (In (idx2 (tc_dofs c) m i) iip <-> prescribed_node fixed nnode m).
Proof.
  intros Hm Hi. destruct c_shape as [_ [S2 [S3 [_ [C1 [C2 [C3 C4]]]]]]]. unfold iip_of. rewrite in_app_iff. rewrite (all_in _ ndim ndim S3).
  split.
  - intros [[j [k [Hj [Hk Ed]]]]|Hx].
    + right. destruct (le_lt_dec nnode m) as [L|L]; [exact L|]. exfalso. apply (C3 j k m i Hj Hk L Hi). now rewrite Ed, (proj2 (C1 m i L Hi)).
    + left. unfold fixed_dofs in Hx. apply in_concat in Hx. destruct Hx as [r [Hr Hx]]. apply in_map_iff in Hr. destruct Hr as [n [Er Hn]]. rewrite <- Er in Hx.
      assert (Ln : n < N) by (destruct (cell_fixed2 _ _ _ _ _ _ HC n Hn); lia). apply (row_in _ N ndim n S2 Ln) in Hx. destruct Hx as [i' [Hi' Ei]].
      destruct (c_distinct n i' m i Ln Hi' Hm Hi Ei) as [<- _]. exact Hn.
  - intros [Hn|L].
    + right. unfold fixed_dofs. apply in_concat. exists (nth m (tc_dofs c) []). split; [apply in_map_iff; now exists m|]. apply (row_in _ N ndim m S2 Hm). now exists i.
    + left. exists (m - nnode), i. split; [lia|]. split; [exact Hi|]. rewrite <- (proj2 (C2 (m - nnode) i ltac:(lia) Hi)). f_equal. lia.
Qed.

Lemma c_tied u : periodic_disp coor ties nnode ndim u <-> shape2 u N ndim /\ tied (tc_coor c) (tc_dofs c) (tc_control_dofs c) ties N ndim (fun j k => val2 u (nnode + j) k) u.
Proof.
  destruct c_shape as [_ [S2 [S3 [_ [C1 [C2 [C3 C4]]]]]]]. pose proof (proj1 (cell_ties _ _ _ _ _ _ HC)) as T1.
  assert (Eq : forall a b j (F : nat -> nat -> R), In (a, b) ties -> sumn ndim (fun k => F j k * (val2 (tc_coor c) b k - val2 (tc_coor c) a k))%R = sumn ndim (fun k => F j k * (val2 coor b k - val2 coor a k))%R).
  { intros a b j F Hab. apply T1 in Hab. apply sumn_ext. intros k Hk. rewrite (proj1 (C1 b k ltac:(lia) Hk)), (proj1 (C1 a k ltac:(lia) Hk)). reflexivity. }
  split; intros [Su Hu]; (split; [exact Su|]).
  - split.
    + intros j k m i Hj Hk Hm Hi Ed. rewrite <- (proj2 (C2 j k Hj Hk)) in Ed. destruct (c_distinct m i (nnode + j) k) as [-> ->]; try assumption; try lia. reflexivity.
    + intros a b j Hab Hj. rewrite (Eq a b j (fun j k => val2 u (nnode + j) k) Hab). now apply Hu.
  - intros a b j Hab Hj. rewrite <- (Eq a b j (fun j k => val2 u (nnode + j) k) Hab). now apply (proj2 Hu).
Qed.
Lemma c_tied_F u F : shape2 u N ndim -> tied (tc_coor c) (tc_dofs c) (tc_control_dofs c) ties N ndim F u -> periodic_disp coor ties nnode ndim u.
Proof.
  intros Su HT. apply c_tied. split; [exact Su|]. apply (tied_F (tc_coor c) (tc_dofs c) (tc_control_dofs c) ties N ndim F); [exact HT|]. intros j k Hj Hk.
  destruct c_shape as [_ [_ [_ [_ [_ [C2 _]]]]]]. symmetry. apply (proj1 HT); try assumption; try lia. exact (proj2 (C2 j k Hj Hk)).
Qed.
Lemma c_virtual w : virtual_disp coor ties fixed nnode ndim w <-> virtual (tc_coor c) (tc_dofs c) (tc_control_dofs c) ties iip N ndim w.
Proof.
  split.
  - intros [Hw Zw]. pose proof (proj1 (c_tied w) Hw) as [Sw Tw]. split; [now apply c_nodal|]. split; [now exists (fun j k => val2 w (nnode + j) k)|].
    intros m i Hm Hi Hx. apply Zw; try assumption. now apply (c_prescribed m i).
  - intros [Nw [[G Tw] Zw]]. apply c_nodal in Nw. split; [now apply (c_tied_F w G)|]. intros m i Hm Hi Hx. apply Zw; try assumption. now apply c_prescribed.
Qed.

(** ** the objects made by the set-up *)
Variables (conn : list (list nat)) (nne : nat) (ps : PeriodicSystem).
Hypothesis Eps : periodic_setup coor nnode ndim dofs conn nne ties fixed = Ok ps.
Notation t := (ps_t ps).
Notation nnu := (tp_nnu t). Notation nnp := (tp_nnp t). Notation nnd := (tp_nnd t).
Notation nni := (nnu + nnp). Notation ndof := (nni + nnd).

Lemma ps_facts : new_Periodic (tc_coor c) ndim (tc_dofs c) (tc_control_dofs c) ties iip = Ok t /\
  Cdu t = Ok (vt_Cdu (ps_vector ps)) /\ Cdp t = Ok (vt_Cdp (ps_vector ps)) /\ Cdi t = Ok (vt_Cdi (ps_vector ps)) /\
  ps_coor ps = tc_coor c /\ ps_control_nodes ps = seq nnode ndim /\
  vt_v (ps_vector ps) = mkVector conn nne (tp_dofs t) ndim /\
  ps_K ps = new_MatrixTyings (mkVector conn nne (tp_dofs t) ndim) (vt_Cdu (ps_vector ps)) (vt_Cdp (ps_vector ps)).
Proof.
  destruct HC as [H1 H2 H3 H4 H5 H6]. destruct (setup_ok coor dofs ties fixed nnode ndim H1 H2 H3 H4 H5 H6 conn nne) as [t0 [cu [cp [ci [Et [E1 [E2 [E3 E]]]]]]]].
  rewrite Eps in E. injection E as E. rewrite E. cbn [ps_t ps_vector vt_Cdu vt_Cdp vt_Cdi ps_coor ps_control_nodes vt_v ps_K].
  destruct c_shape as [_ [_ [_ [Es _]]]]. auto 10.
Qed.

Lemma dof_perm : Permutation (map (fun p => idx2 (tp_dofs t) (fst p) (snd p)) (list_prod (seq 0 N) (seq 0 ndim))) (seq 0 ndof).
Proof.
  destruct ps_facts as [Et _]. pose proof (rn _ _ _ _ _ _ _ c_input t Et) as RN. apply NoDup_Permutation.
  - apply NoDup_map_inj; [apply NoDup_list_prod; apply seq_NoDup|].
    intros [m i] [n j] Hx Hy Ed. apply in_prod_iff in Hx. apply in_prod_iff in Hy. rewrite !in_seq in Hx, Hy. cbn [fst snd] in Ed.
    apply (rn_same _ _ _ _ _ _ _ RN) in Ed; try lia. apply c_distinct in Ed; try lia. now destruct Ed as [-> ->].
  - apply seq_NoDup.
  - intro d. rewrite in_map_iff, in_seq. split.
    + intros [[m i] [<- Hx]]. apply in_prod_iff in Hx. rewrite !in_seq in Hx. cbn [fst snd]. split; [lia|]. cbn [plus]. apply (rn_lt _ _ _ _ _ _ _ RN); lia.
    + intros [_ Hd]. destruct (rn_all _ _ _ _ _ _ _ RN d Hd) as [m [i [Hm [Hi Ed]]]]. exists (m, i). split; [exact Ed|]. apply in_prod_iff. rewrite !in_seq. lia.
Qed.

Lemma c_work f w b W : dof_values (tp_dofs t) N ndim ndof f b -> dof_values (tp_dofs t) N ndim ndof w W -> sumn ndof (fun d => val1 b d * val1 W d)%R = work N ndim f w.
Proof.
  intros [_ Vb] [_ VW]. rewrite <- (sumn_reindex _ _ _ dof_perm). rewrite sumL_map. unfold work.
  transitivity (sumL (list_prod (seq 0 N) (seq 0 ndim)) (fun p => val2 f (fst p) (snd p) * val2 w (fst p) (snd p))%R).
  - apply sumL_ext. intros [m i] Hx. apply in_prod_iff in Hx. rewrite !in_seq in Hx. cbn [fst snd]. rewrite Vb, VW by lia. reflexivity.
  - unfold sumn. generalize (seq 0 N). induction l as [|m l IH]; [reflexivity|]. cbn [list_prod]. rewrite sumL_app, sumL_map, IH. reflexivity.
Qed.
Lemma c_values u : shape2 u N ndim -> exists Y, dof_values (tp_dofs t) N ndim ndof u Y.
Proof.
  intros Su. destruct ps_facts as [Et _]. pose proof (rn _ _ _ _ _ _ _ c_input t Et) as RN. pose proof dof_perm as P.
  exists (tab1 ndof (fun d => sumL (list_prod (seq 0 N) (seq 0 ndim)) (fun p => ind (idx2 (tp_dofs t) (fst p) (snd p) =? d)%nat * val2 u (fst p) (snd p))%R)). split; [apply tab1_length|].
  intros m i Hm Hi. pose proof (rn_lt _ _ _ _ _ _ _ RN m i Hm Hi) as L. unfold val1. rewrite tab1_nth by exact L.
  transitivity (sumL (list_prod (seq 0 N) (seq 0 ndim)) (fun p => ind (idx2 (tp_dofs t) (fst p) (snd p) =? idx2 (tp_dofs t) m i)%nat * val2 u m i)%R).
  - apply sumL_ext. intros [n j] Hx. apply in_prod_iff in Hx. rewrite !in_seq in Hx. cbn [fst snd]. unfold ind. destruct (Nat.eqb_spec (idx2 (tp_dofs t) n j) (idx2 (tp_dofs t) m i)) as [Ed|]; [|ring].
    apply (rn_same _ _ _ _ _ _ _ RN) in Ed; try lia. apply c_distinct in Ed; try lia. now destruct Ed as [-> ->].
  - rewrite <- (sumL_map (fun p => idx2 (tp_dofs t) (fst p) (snd p)) (list_prod (seq 0 N) (seq 0 ndim)) (fun a => ind (a =? idx2 (tp_dofs t) m i)%nat * val2 u m i)%R).
    rewrite (sumn_reindex _ _ _ P). now apply (sumn_delta ndof (idx2 (tp_dofs t) m i) (fun _ => val2 u m i)).
Qed.
End P.
