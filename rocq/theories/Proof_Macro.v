(** Proofs about averages over a periodic cell. *)
From Coq Require Import Reals Lra Lia.
From Verif Require Import Model_Element Spec_Element Proof_Element Proof_ElementQuad4 Proof_ElementMath Proof_ElementThm Proof_ElementThm2 Proof_ElementThm3 Proof_ElementHex8 Prop_ElementQuad4 Prop_ElementPlanar Prop_ElementHex8 Base Spec Sums Spec_Vector Spec_Matrix Spec_Tyings Model_Numbering Model_Vector Proof_Vector Model_Sparse Model_Tyings Prop_Tyings
  Model_Matrix Proof_Matrix Model_MatrixPartitioned Model_MatrixTyings Spec_MatrixTyings Proof_MatrixTyings Proof_Tyings2 Model_MeshGeometry Model_Pipeline Spec_Pipeline Proof_PipelineElem Proof_Pipeline Proof_PipelineBalance
  Model_PeriodicProgram Spec_Periodic Proof_Periodic Proof_PeriodicNodes Prop_Periodic Spec_Macro.

Lemma affine_elem nelem x E : affine_obj nelem x E -> elem_obj nelem x E.
Proof. intros []; econstructor; eassumption. Qed.
Lemma affine_dim nelem x E : affine_obj nelem x E -> el_ndim E <= el_tdim E.
Proof. intros []; cbn; lia. Qed.

(** the gradient of an affine displacement, for any choice of the classes *)
Lemma affine_grad nelem x E c a G ue : affine_obj nelem x E -> valid_call nelem c ->
  (forall e m i, e < nelem -> m < el_nne E -> i < el_ndim E -> ue [e;m;i] = (a i + sumn (el_ndim E) (fun j => G i j * x [e;m;j]))%R) ->
  all_points nelem E (fun e q i j => el_GradN_vector E c ue [e;q;i;j] = if ((i <? el_ndim E) && (j <? el_ndim E))%bool then G j i else 0%R).
Proof.
  intros HE Hc Hue e q i j He Hq Hi Hj. destruct HE as [nip xi w x' Q HQ HJ|nip xi w thick x' Pl HP HJ|nip xi w x' Q HQ HJ].
  - cbn in Hi, Hj. unrec. replace ((i <? 2) && (j <? 2))%bool with true by (symmetry; apply andb_true_iff; split; apply Nat.ltb_lt; assumption).
    cbn [Quad4_elem el_nip] in Hq. rewrite (f_nip (Quad4_facts _ _ _ _ _ _ HQ)) in Hq. apply (C56_affine _ _ _ _ _ _ HQ _ Hc a G ue); try assumption; [now apply HJ|].
    intros m k Hm Hk. now apply Hue.
  - assert (Hq' : q < nip) by (cbn in Hq; now rewrite (f_nip (proj2 (Planar_facts _ _ _ _ _ _ _ HP))) in Hq). cbn in Hi, Hj. cbn [Planar_elem el_ndim].
    destruct (Nat.ltb_spec i 2) as [Hi2|Hi2]; [destruct (Nat.ltb_spec j 2) as [Hj2|Hj2]|]; cbn [andb].
    + pose proof (Quad4_obj_new nelem nip xi w (c_es c) x' (fun _ => 0%R) (fun _ => 0%R) (fun _ => 0%R) (fun _ => 0%R) (fun _ => 0%R) Hc) as HQ.
      unrec. rewrite (proj1 (C61_in_plane _ _ _ _ _ _ _ _ HP HQ _ Hc ue (c_old c) (c_old c) e q i j He Hq' Hi2 Hj2)).
      apply (C56_affine _ _ _ _ _ _ HQ _ Hc a G ue); try assumption; [now apply HJ|]. intros m k Hm Hk. now apply Hue.
    + unrec. apply (C61_out_of_plane _ _ _ _ _ _ _ HP _ Hc). right. lia.
    + unrec. apply (C61_out_of_plane _ _ _ _ _ _ _ HP _ Hc). left. lia.
  - cbn in Hi, Hj. unrec. replace ((i <? 3) && (j <? 3))%bool with true by (symmetry; apply andb_true_iff; split; apply Nat.ltb_lt; assumption).
    cbn [Hex8_elem el_nip] in Hq. rewrite (h_nip (Hex8_facts _ _ _ _ _ _ HQ)) in Hq. destruct (HJ e q He Hq) as [J1 J2].
    apply (C64_partial _ _ _ _ _ _ HQ _ Hc a G ue); try assumption. intros m k Hm Hk. now apply Hue.
Qed.

Lemma integral_affine nelem x E A B c a G ue : affine_obj nelem x E -> valid_call nelem c -> B = el_GradN_vector E c ue ->
  (forall e m i, e < nelem -> m < el_nne E -> i < el_ndim E -> ue [e;m;i] = (a i + sumn (el_ndim E) (fun j => G i j * x [e;m;j]))%R) ->
  integral nelem E A B = sumn (el_ndim E) (fun j => sumn (el_ndim E) (fun k => G j k * total nelem E A k j))%R.
Proof.
  intros HE Hc -> Hue. pose proof (affine_grad nelem x E c a G ue HE Hc Hue) as HG. pose proof (affine_dim _ _ _ HE) as LD.
  assert (Cut : forall n f, (forall i, n <= i -> i < el_tdim E -> f i = 0%R) -> n <= el_tdim E -> sumn (el_tdim E) f = sumn n f).
  { intros n f Hf L. replace (el_tdim E) with (n + (el_tdim E - n)) by lia. rewrite sumn_app. rewrite (sumn_zero (el_tdim E - n)); [ring|]. intros i Hi. apply Hf; lia. }
  unfold integral, total.
  transitivity (sumn nelem (fun e => sumn (el_nip E) (fun q => sumn (el_ndim E) (fun j => sumn (el_ndim E) (fun k => G j k * (A [e;q;k;j] * el_dV E [e;q]))))))%R.
  - apply sumn_ext. intros e He. apply sumn_ext. intros q Hq. rewrite (Cut (el_ndim E)).
    2:{ intros i Li Hi. apply sumn_zero. intros j Hj. rewrite (HG e q i j He Hq Hi Hj). destruct (Nat.ltb_spec i (el_ndim E)); [lia|]. cbn [andb]. ring. }
    2:{ exact LD. }
    rewrite sumn_swap. rewrite <- sumn_scal_r. rewrite (Cut (el_ndim E)).
    2:{ intros j Lj Hj. rewrite (sumn_zero (el_ndim E)); [ring|]. intros i Hi. rewrite (HG e q i j He Hq ltac:(lia) Hj). destruct (Nat.ltb_spec j (el_ndim E)); [lia|]. rewrite andb_false_r. ring. }
    2:{ exact LD. }
    apply sumn_ext. intros j Hj. rewrite <- sumn_scal_r. apply sumn_ext. intros k Hk. rewrite (HG e q k j He Hq ltac:(lia) ltac:(lia)).
    rewrite (proj2 (Nat.ltb_lt _ _) Hj), (proj2 (Nat.ltb_lt _ _) Hk). cbn [andb]. ring.
  - transitivity (sumn nelem (fun e => sumn (el_ndim E) (fun j => sumn (el_ndim E) (fun k => G j k * sumn (el_nip E) (fun q => A [e;q;k;j] * el_dV E [e;q])))))%R.
    + apply sumn_ext. intros e He. rewrite sumn_swap. apply sumn_ext. intros j Hj. rewrite sumn_swap. apply sumn_ext. intros k Hk. now rewrite sumn_scal.
    + rewrite sumn_swap. apply sumn_ext. intros j Hj. rewrite sumn_swap. apply sumn_ext. intros k Hk. now rewrite sumn_scal.
Qed.

Section M.
Set Default Proof Using "All".
Variables (coor : list (list R)) (dofs : list (list nat)) (ties : list (nat * nat)) (o nnode nelem : nat) (conn : list (list nat)) (x : arr) (E : Elem).
Notation nne := (el_nne E). Notation ndim := (el_ndim E).
Hypothesis HE : elem_obj nelem x E.
Hypothesis HC : cell coor dofs ties [o] nnode ndim.
Hypothesis Hc : connects conn nelem nne nnode.
Variable ps : PeriodicSystem.
Hypothesis Eps : periodic_setup coor nnode ndim dofs conn nne ties [o] = Ok ps.
Notation t := (ps_t ps).
Notation n := (nnode + ndim).
Notation number := (idx2 (tp_dofs t)).
Notation v := (mkVector conn nne (tp_dofs t) ndim).
Notation nni := (tp_nnu t + tp_nnp t).
Notation ndof := (nni + tp_nnd t).

Lemma m_connects : connects conn nelem nne n.
Proof. destruct Hc as [Sc Hcc]. split; [exact Sc|]. intros e m He Hm. specialize (Hcc e m He Hm). lia. Qed.
Lemma m_mesh : mesh_dofs conn (tp_dofs t) nelem nne n ndim ndof.
Proof.
  destruct (ps_facts _ _ _ _ _ _ HC conn nne ps Eps) as [Et _]. exact (Hmd _ _ _ _ _ _ conn nelem x E HE (c_input _ _ _ _ _ _ HC) m_connects t Et).
Qed.

(** work of the assembled force of a stress *)
Lemma stress_work c c' sig fint w we : valid_call nelem c -> valid_call nelem c' -> AssembleNode v (to_rows nelem nne ndim (el_Int_gradN_dot_tensor2_dV E c sig)) = Ok fint ->
  shape2 w n ndim -> AsElement_nodevec v w = Ok we -> shape2 fint n ndim /\ work n ndim fint w = integral nelem E sig (el_GradN_vector E c' (of_rows we)).
Proof.
  intros Vc Vc' Ef Sw Ew. destruct (ps_facts _ _ _ _ _ _ HC conn nne ps Eps) as [Et _]. pose proof (c_input _ _ _ _ _ _ HC) as HI.
  destruct (force_dofs _ _ _ _ _ _ conn nelem x E HE HI m_connects t Et (fun _ => sig) c c w Sw) as [we' [f [b [Eu [Ef' [Nf [Df HW]]]]]]].
  rewrite Ew in Eu. injection Eu as Eu. destruct (c_values _ _ _ _ _ _ HC conn nne ps Eps w Sw) as [W DW].
  assert (Nw : nodal (tp_dofs t) n ndim w).
  { apply (nodal_of _ _ _ _ _ _ _ HI t Et). now apply (c_nodal _ _ _ _ _ _ HC). }
  pose proof (HW Vc c' w we W Vc' Nw Ew DW) as E1.
  assert (Eqf : f = fint).
  { unfold internal_force, internal_force_of in Ef'. rewrite Ew in Ef'. cbn [bind] in Ef'. unfold m_nelem in Ef'. cbn [m_conn] in Ef'. rewrite (proj1 (proj1 Hc)) in Ef'. rewrite Ef in Ef'. now injection Ef'. }
  rewrite Eqf in *. split; [exact (proj1 Nf)|]. rewrite <- E1. rewrite <- (c_work _ _ _ _ _ _ HC conn nne ps Eps fint w b W Df DW). apply sumn_ext. intros. ring.
Qed.

(** forces on the independent DOFs in equilibrium: those of the prescribed nodes *)
Lemma forces_nodes Fi w W : dof_values (tp_dofs t) n ndim ndof w W -> (forall d, d < tp_nnu t -> val1 Fi d = 0%R) ->
  sumn nni (fun d => val1 Fi d * val1 W d)%R = (sumn ndim (fun i => val1 Fi (number o i) * val2 w o i) + sumn ndim (fun j => sumn ndim (fun k => val1 Fi (number (nnode + j) k) * val2 w (nnode + j)%nat k)))%R.
Proof.
  intros [LW VW] HZ. destruct (ps_facts _ _ _ _ _ _ HC conn nne ps Eps) as [Et _]. pose proof (c_input _ _ _ _ _ _ HC) as HI. pose proof (rn _ _ _ _ _ _ _ HI t Et) as RN.
  set (g := fun d => if (d <? nni)%nat then (val1 Fi d * val1 W d)%R else 0%R).
  transitivity (sumn ndof g).
  { rewrite (sumn_app nni (tp_nnd t) g). rewrite (sumn_zero (tp_nnd t)); [|intros k Hk; unfold g; destruct (Nat.ltb_spec (nni + k) nni); [lia|reflexivity]].
    rewrite Rplus_0_r. apply sumn_ext. intros d Hx. unfold g. now rewrite (proj2 (Nat.ltb_lt _ _) Hx). }
  rewrite <- (sumn_reindex _ _ _ (dof_perm _ _ _ _ _ _ HC conn nne ps Eps)). rewrite sumL_map.
  transitivity (sumn n (fun m => sumn ndim (fun i => g (number m i)))).
  { unfold sumn. generalize (seq 0 n). induction l as [|m l IH]; [reflexivity|]. cbn [list_prod]. rewrite sumL_app, sumL_map, IH. reflexivity. }
  destruct (cell_fixed2 _ _ _ _ _ _ HC o (or_introl eq_refl)) as [Lo _].
  rewrite sumn_app. f_equal.
  - transitivity (sumn nnode (fun m => ind (m =? o)%nat * sumn ndim (fun i => g (number m i)))%R).
    + apply sumn_ext. intros m Hm. unfold ind. destruct (Nat.eqb_spec m o) as [->|Ne]; [ring|]. rewrite Rmult_0_l. apply sumn_zero. intros i Hi.
      assert (Lm : m < n) by lia. pose proof (rn_p _ _ _ _ _ _ _ RN m i Lm Hi) as HP. rewrite (c_prescribed _ _ _ _ _ _ HC m i Lm Hi) in HP.
      unfold g. destruct (Nat.ltb_spec (number m i) nni) as [L|L]; [|reflexivity].
      destruct (le_lt_dec (tp_nnu t) (number m i)) as [L2|L2]; [|rewrite HZ by exact L2; ring]. exfalso. destruct (proj1 HP (conj L2 L)) as [[Eo|[]]|Ln]; [now apply Ne|lia].
    + rewrite sumn_delta by exact Lo. apply sumn_ext. intros i Hi. assert (Lm : o < n) by lia. rewrite <- (VW o i Lm Hi). unfold g.
      pose proof (rn_p _ _ _ _ _ _ _ RN o i Lm Hi) as HP. rewrite (c_prescribed _ _ _ _ _ _ HC o i Lm Hi) in HP.
      destruct (Nat.ltb_spec (number o i) nni) as [L|L]; [reflexivity|]. assert (tp_nnu t <= number o i < nni) by (apply HP; left; now left). lia.
  - apply sumn_ext. intros j Hj. apply sumn_ext. intros k Hk. assert (Lm : nnode + j < n) by lia. rewrite <- (VW (nnode + j) k Lm Hk). unfold g.
    pose proof (rn_p _ _ _ _ _ _ _ RN (nnode + j) k Lm Hk) as HP. rewrite (c_prescribed _ _ _ _ _ _ HC (nnode + j) k Lm Hk) in HP.
    destruct (Nat.ltb_spec (number (nnode + j) k) nni) as [L|L]; [reflexivity|]. assert (tp_nnu t <= number (nnode + j) k < nni) by (apply HP; right; lia). lia.
Qed.
End M.
