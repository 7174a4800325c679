(** Proofs for Prop_NewtonLoop.v *)
From Coq Require Import Reals Lra Lia.
From Verif Require Import Model_Element Spec_Element Base Spec Sums Spec_Vector Spec_Matrix Spec_Tyings Model_Numbering Model_Vector Proof_Vector Model_Sparse Model_Tyings Prop_Tyings
  Model_VectorPartitioned Proof_VectorPartitioned Model_Matrix Spec_MatrixOps Proof_Matrix Model_MatrixPartitioned Proof_MatrixPartitioned Model_MatrixTyings Spec_MatrixTyings Proof_MatrixTyings Proof_Tyings2 Model_MeshGeometry Model_Pipeline Spec_Pipeline Proof_PipelineElem Proof_Pipeline Proof_PipelineBalance
  Model_PeriodicProgram Spec_Periodic Proof_Periodic Proof_PeriodicNodes Prop_Periodic Spec_Macro Proof_Macro Spec_Deform Proof_Deform Model_FiniteStrain Spec_FiniteStrain Proof_FiniteStrain Model_NewtonLoop Spec_NewtonLoop Proof_Ldlt.

(** ** solve with any solver *)
Section Any.
Variable v : Vector.
Variables nelem nne nnode ndim ndof : nat.
Hypothesis Hne : m_nne v = nne.
Hypothesis Hnd : m_ndim v = ndim.
Hypothesis Hmd : mesh_dofs (m_conn v) (m_dofs v) nelem nne nnode ndim ndof.
Hypothesis Hh : no_holes (m_dofs v) ndof.
Variables Cu Cp : mat.
Variables nnu nnp nnd : nat.
Hypothesis Hts : tying_sizes Cu Cp nnu nnp nnd.
Hypothesis Hn : nnu + nnp + nnd = ndof.
Notation dof := (idx2 (m_dofs v)).
Notation nni := (nnu + nnp).
Notation T := (tie nnu nni Cu Cp).
Notation is := (pt_is v Cu Cp nnu nnp nnd).

Lemma any_solve linsolve a A s order b x B X0 : sized linsolve nnu -> is a A -> t_fresh ndof Cu Cp nnu nnp A a s ->
  Permutation order (node_iters v) -> shape2 b nnode ndim -> dof_values (m_dofs v) nnode ndim ndof b B ->
  shape2 x nnode ndim -> dof_values (m_dofs v) nnode ndim ndof x X0 ->
  exists y s' a' Y, PT_solve_nodevec a linsolve s order b x = Ok (y, s', a') /\ is a' A /\ condensed_of ndof Cu Cp nnu nnp A (a', s') /\
    shape2 y nnode ndim /\ dof_values (m_dofs v) nnode ndim ndof y Y /\
    (forall d, nnu <= d < nni -> val1 Y d = val1 X0 d) /\
    (forall d, d < ndof -> val1 Y d = sumn nni (fun j => T d j * val1 Y j)%R).
Proof.
  intros Hs H F Ho Sb Hb Sx Hx. unfold PT_solve_nodevec.
  destruct (pt_factorize v nelem nne nnode ndim ndof Hne Hnd Hmd Hh Cu Cp nnu nnp nnd Hts Hn linsolve a A s H F) as [w [-> [Hw Cw]]]. cbn [bind].
  destruct (nodevec_spec v nelem nne nnode ndim ndof Hne Hnd Hmd Hh Cu Cp nnu nnp nnd Hts Hn a A order b B H Ho Sb Hb) as [[bu [-> [Lbu Vbu]]] [_ [bd [-> [Lbd Vbd]]]]].
  destruct (nodevec_spec v nelem nne nnode ndim ndof Hne Hnd Hmd Hh Cu Cp nnu nnp nnd Hts Hn a A order x X0 H Ho Sx Hx) as [_ [[xp [-> [Lxp Vxp]]] _]]. cbn [bind]. rewrite (pt_u _ _ _ _ _ _ a A H).
  pose proof Hts as [Z1 Z2 Z3 Z4].
  destruct (mulvec_spec (transpose Cu) bd) as [t [-> [Lt Vt]]]; [cbn; congruence|]. cbn [bind]. cbn [rows cols transpose] in Lt, Vt. rewrite Z1 in Lt, Vt. rewrite Z3 in Vt.
  destruct (vec2_spec Rplus bu t nnu) as [bb [Ebb [Lbb Vbb]]]; [exact Lbu|exact Lt|]. unfold addvec at 1. rewrite Ebb. cbn [bind].
  assert (HX : exists X, PT_core linsolve w bb xp = Ok X /\ length X = nnu).
  { destruct Cw as [R1 [C1 [V1 [m [Em [Rm [Cm Vm]]]]]]]. unfold PT_core.
    destruct (mulvec_spec (PT_ACup (fst w)) xp) as [tt [-> [Ltt Vtt]]]; [congruence|]. cbn [bind].
    destruct (vec2_spec Rminus bb tt nnu) as [r [Er [Lr Vr]]]; [exact Lbb|congruence|]. unfold subvec. rewrite Er. cbn [bind].
    unfold S_solve. rewrite Em, Lr, Rm, Nat.eqb_refl. eexists. split; [reflexivity|]. now apply Hs. }
  destruct HX as [X [-> LX]]. cbn [bind].
  destruct (pt_xd v nelem nne nnode ndim ndof Hne Hnd Hmd Hh Cu Cp nnu nnp nnd Hts Hn linsolve a A X xp H LX Lxp) as [Z [-> [LZ VZ]]]. cbn [bind].
  rewrite (pt_v _ _ _ _ _ _ a A H). destruct (pt_sizes v nelem nne nnode ndim ndof Hne Hnd Hmd Hh Cu Cp nnu nnp nnd Hts Hn a A H) as [-> [_ [_ [-> _]]]].
  destruct (V_sizes v nelem nne nnode ndim ndof Hne Hnd Hmd) as [_ [-> _]]. rewrite Hnd.
  set (f := all_dofs nnu nnp X xp Z).
  rewrite (fill2_Ok _ _ _ (fun m i => f (dof m i))).
  2:{ intros m i Hm Hi. rewrite (V_get_dof v nelem nne nnode ndim ndof Hne Hnd Hmd) by assumption. cbn [bind]. unfold f, all_dofs.
      pose proof (V_dof v nelem nne nnode ndim ndof Hne Hnd Hmd m i Hm Hi) as Hd.
      destruct (Nat.ltb_spec (dof m i) nnu); [apply get_nth; lia|]. destruct (Nat.leb_spec nni (dof m i)); [apply get_nth; lia|].
      rewrite (get2_nth 0%R x nnode ndim) by assumption. f_equal. rewrite Vxp by lia. destruct Hx as [_ Vx]. fold (val2 x m i). rewrite <- Vx by assumption. f_equal. lia. }
  cbn [bind]. exists (tab2 nnode ndim (fun m i => f (dof m i))), (snd w), (fst w), (tab1 ndof f). split; [reflexivity|]. split; [exact Hw|]. split; [now destruct w|]. split; [apply tab2_shape|].
  assert (Vf : forall d, d < ndof -> val1 (tab1 ndof f) d = f d) by (intros d Hd; unfold val1; now rewrite tab1_nth).
  split; [split; [apply tab1_length|]|split].
  - intros m i Hm Hi. unfold val2. rewrite tab2_nth by assumption. apply Vf. now apply (V_dof v nelem nne nnode ndim ndof Hne Hnd Hmd).
  - intros d Hd. rewrite Vf by lia. replace d with (nnu + (d - nnu)) by lia. unfold f. rewrite (all_p v nelem nne nnode ndim ndof Hne Hnd Hmd Hh Cu Cp nnu nnp nnd Hts Hn linsolve) by lia. apply Vxp. lia.
  - intros d Hd. rewrite Vf by exact Hd. unfold f. rewrite (Proof_MatrixTyings.all_tied v nelem nne nnode ndim ndof Hne Hnd Hmd Hh Cu Cp nnu nnp nnd Hts Hn linsolve X xp Z VZ d Hd) at 1. apply sumn_ext. intros j Hj. rewrite Vf by lia. reflexivity.
Qed.
End Any.

(** ** sums of absolute values *)
Lemma sumL_sumn (l : list R) f : sumL l f = sumn (length l) (fun d => f (val1 l d)).
Proof. induction l as [|a l IH]; [reflexivity|]. cbn [length]. rewrite Proof_Ldlt.sumn_first. unfold sumL. cbn [fold_right]. fold (sumL l f). now rewrite IH. Qed.
Lemma sum_abs_eq F : sum_abs F = magnitude F.
Proof. apply sumL_sumn. Qed.
Lemma sumn_Rabs n f : (Rabs (sumn n f) <= sumn n (fun i => Rabs (f i)))%R.
Proof.
  induction n as [|n IH]; [unfold sumn, sumL; cbn; rewrite Rabs_R0; lra|]. rewrite !sumn_S. eapply Rle_trans; [apply Rabs_triang|]. lra.
Qed.
Lemma magnitude_pos F : (0 <= magnitude F)%R.
Proof. apply sumn_nonneg. intros. apply Rabs_pos. Qed.
Lemma diff_abs Fx Fi : length Fx = length Fi -> sum_abs (map (fun p => fst p - snd p)%R (combine Fx Fi)) = sumn (length Fx) (fun d => Rabs (val1 Fx d - val1 Fi d)).
Proof.
  intros L. unfold sum_abs. rewrite sumL_sumn, map_length, combine_length, <- L, Nat.min_id. apply sumn_ext. intros d Hd. f_equal. unfold val1.
  set (f := fun p : R * R => (fst p - snd p)%R). rewrite (nth_indep _ 0%R (f (0%R, 0%R))) by (rewrite map_length, combine_length; lia). rewrite map_nth, combine_nth by exact L. reflexivity.
Qed.
Lemma residual_bound Fx Fi tol : length Fx = length Fi -> (residual Fx Fi < tol)%R -> (sumn (length Fx) (fun d => Rabs (val1 Fx d - val1 Fi d)) < tol * reference Fx)%R.
Proof.
  intros L. unfold residual, reference. rewrite (diff_abs Fx Fi L), sum_abs_eq. pose proof (magnitude_pos Fx) as P. destruct (Req_EM_T (magnitude Fx) 0) as [Z|Z]; [lra|]. intros Hr.
  assert (Q : (0 < magnitude Fx)%R) by lra. apply (Rmult_lt_compat_r _ _ _ Q) in Hr. unfold Rdiv in Hr. rewrite Rmult_assoc, Rinv_l, Rmult_1_r in Hr by lra. exact Hr.
Qed.

(** ** the forces that are compared *)
Section Forces.
Variables (coor : list (list R)) (dofs : list (list nat)) (ties : list (nat * nat)) (fixed : list nat) (nnode nelem : nat) (conn : list (list nat)) (x : arr) (E : Elem).
Hypothesis HE : elem_obj nelem x E.
Hypothesis HC : cell coor dofs ties fixed nnode (el_ndim E).
Hypothesis Hc : connects conn nelem (el_nne E) nnode.
Variable ps : PeriodicSystem.
Hypothesis Eps : periodic_setup coor nnode (el_ndim E) dofs conn (el_nne E) ties fixed = Ok ps.
Notation t := (ps_t ps). Notation n := (nnode + el_ndim E). Notation ndim := (el_ndim E).
Notation nnu := (tp_nnu t). Notation nni := (tp_nnu t + tp_nnp t). Notation ndof := (nni + tp_nnd t).

Lemma forces_bound os fext fint Fx Fi : (forall k, Permutation (os k) (list_prod (seq 0 n) (seq 0 ndim))) -> shape2 fext n ndim -> shape2 fint n ndim ->
  periodic_forces (ps_vector ps) os fext fint = Ok (Fx, Fi) -> length Fx = nni /\ length Fi = nni /\
  forall w delta, (0 <= delta)%R -> virtual_disp coor ties fixed nnode ndim w -> (forall m i, m < n -> i < ndim -> (Rabs (val2 w m i) <= delta)%R) ->
    (Rabs (work n ndim fint w - work n ndim fext w) <= sumn nni (fun d => Rabs (val1 Fx d - val1 Fi d)) * delta)%R.
Proof.
  intros Hos Sx Si EF.
  destruct (ps_facts _ _ _ _ _ _ HC conn (el_nne E) ps Eps) as [Et [ECu [ECp [ECi [_ [_ [Ev EKn]]]]]]]. pose proof (c_input _ _ _ _ _ _ HC) as HI.
  assert (Hc' : connects conn nelem (el_nne E) n) by (destruct Hc as [Sc Hcc]; split; [exact Sc|]; intros e m He Hm; specialize (Hcc e m He Hm); lia).
  destruct (c_values _ _ _ _ _ _ HC conn _ ps Eps fext Sx) as [bx Dx]. destruct (c_values _ _ _ _ _ _ HC conn _ ps Eps fint Si) as [bi Di].
  destruct (forces_i _ _ _ _ _ _ conn nelem x E HE HI Hc' t Et _ _ ECu ECp _ ECi (os 0) (os 1) fext bx (Hos 0) (Hos 1) Sx Dx) as [Gx [Ex [Lx Vx]]].
  destruct (forces_i _ _ _ _ _ _ conn nelem x E HE HI Hc' t Et _ _ ECu ECp _ ECi (os 2) (os 3) fint bi (Hos 2) (Hos 3) Si Di) as [Gi [Ei [Li Vi]]].
  rewrite (eta_VT _ _ Ev) in Ex, Ei. unfold periodic_forces in EF. rewrite Ex in EF. cbn [bind] in EF. rewrite Ei in EF. cbn [bind] in EF.
  pose proof (sizes _ _ _ _ _ _ _ HI t Et _ _ ECu ECp) as [X1 X2 X3 X4].
  destruct (copy_p_spec (ps_vector ps) Gi Gx) as [Fr [Er [Lr Vr]]]; [unfold vt_nni, vt_nnu, vt_nnp; lia|lia|]. rewrite Er in EF. cbn [bind] in EF. injection EF as <- <-. rewrite X1, X2 in Vr.
  split; [lia|]. split; [exact Li|]. intros w delta Hd Vw Bw.
  destruct (c_values _ _ _ _ _ _ HC conn _ ps Eps w (proj1 (proj1 Vw))) as [W DW].
  pose proof (proj1 (c_virtual _ _ _ _ _ _ HC w) Vw) as [Nw [[G0 Tw] Zw]].
  pose proof (tied_all _ _ _ _ _ _ _ HI t Et _ _ ECu ECp G0 w W Tw DW) as TW.
  assert (HW : forall (f : list R), sumn ndof (fun d => val1 f d * val1 W d)%R = sumn nni (fun j => val1 W j * sumn ndof (fun c => tie nnu nni (vt_Cdu (ps_vector ps)) (vt_Cdp (ps_vector ps)) c j * val1 f c))%R).
  { intros f. rewrite <- (work_tied t _ _ (val1 f) (val1 W) TW). apply sumn_ext. intros. ring. }
  rewrite <- (c_work _ _ _ _ _ _ HC conn _ ps Eps fint w bi W Di DW), <- (c_work _ _ _ _ _ _ HC conn _ ps Eps fext w bx W Dx DW), !HW.
  pose proof (rn _ _ _ _ _ _ _ HI t Et) as RN.
  assert (node : forall d, d < nni -> exists m i, m < n /\ i < ndim /\ idx2 (tp_dofs t) m i = d /\ val1 W d = val2 w m i).
  { intros d Hdd. assert (Hd' : d < ndof) by lia. destruct (rn_all _ _ _ _ _ _ _ RN d Hd') as [m [i [Hm [Hi Ed]]]]. exists m, i. destruct DW as [_ VW]. rewrite <- (VW m i) by assumption. now rewrite Ed. }
  match goal with |- (Rabs (?A - ?B) <= _)%R => replace (A - B)%R with (sumn nni (fun d => val1 W d * (val1 Gi d - val1 Fr d)))%R end.
  2:{ rewrite (sumn_ext _ _ (fun d => val1 W d * val1 Gi d + (-1) * (val1 W d * val1 Fr d))%R) by (intros; ring). rewrite sumn_plus, sumn_scal.
      assert (Q1 : sumn nni (fun d => val1 W d * val1 Gi d)%R = sumn nni (fun j => val1 W j * sumn ndof (fun c => tie nnu nni (vt_Cdu (ps_vector ps)) (vt_Cdp (ps_vector ps)) c j * val1 bi c))%R) by (apply sumn_ext; intros d Hdd; now rewrite Vi).
      assert (Q2 : sumn nni (fun d => val1 W d * val1 Fr d)%R = sumn nni (fun j => val1 W j * sumn ndof (fun c => tie nnu nni (vt_Cdu (ps_vector ps)) (vt_Cdp (ps_vector ps)) c j * val1 bx c))%R).
      { apply sumn_ext. intros d Hdd. destruct (le_lt_dec nnu d) as [L|L].
        - destruct (node d Hdd) as [m [i [Hm [Hi [Ed EW]]]]]. assert (Z : val1 W d = 0%R); [|rewrite Z; ring]. rewrite EW. apply Zw; try assumption. apply (rn_p _ _ _ _ _ _ _ RN); try assumption. lia.
        - rewrite <- Vx by exact Hdd. rewrite Vr. destruct (Nat.leb_spec nnu d); [lia|]. reflexivity. }
      rewrite Q1, Q2. lra. }
  eapply Rle_trans; [apply sumn_Rabs|]. rewrite <- sumn_scal_r. unfold sumn. apply sumL_le. intros d Hdd. apply in_seq in Hdd. destruct (node d ltac:(lia)) as [m [i [Hm [Hi [_ EW]]]]].
  rewrite EW, Rabs_mult, (Rabs_minus_sym (val1 Fr d)), Rmult_comm. apply Rmult_le_compat_l; [apply Rabs_pos|now apply Bw].
Qed.

Lemma force_work c c' sig fint w we : valid_call nelem c -> valid_call nelem c' -> AssembleNode (mkVector conn (el_nne E) (tp_dofs t) ndim) (to_rows nelem (el_nne E) ndim (el_Int_gradN_dot_tensor2_dV E c sig)) = Ok fint ->
  shape2 w n ndim -> AsElement_nodevec (mkVector conn (el_nne E) (tp_dofs t) ndim) w = Ok we -> work n ndim fint w = integral nelem E sig (el_GradN_vector E c' (of_rows we)).
Proof.
  intros Vc Vc' Ef Sw Ew. destruct (ps_facts _ _ _ _ _ _ HC conn (el_nne E) ps Eps) as [Et _]. pose proof (c_input _ _ _ _ _ _ HC) as HI.
  assert (Hc' : connects conn nelem (el_nne E) n) by (destruct Hc as [Sc Hcc]; split; [exact Sc|]; intros e m He Hm; specialize (Hcc e m He Hm); lia).
  destruct (force_dofs _ _ _ _ _ _ conn nelem x E HE HI Hc' t Et (fun _ => sig) c c w Sw) as [we' [f [b [Eu [Ef' [Nf [Df HW]]]]]]].
  rewrite Ew in Eu. injection Eu as Eu. destruct (c_values _ _ _ _ _ _ HC conn _ ps Eps w Sw) as [W DW].
  assert (Nw : nodal (tp_dofs t) n ndim w) by (apply (nodal_of _ _ _ _ _ _ _ HI t Et); now apply (c_nodal _ _ _ _ _ _ HC)).
  pose proof (HW Vc c' w we W Vc' Nw Ew DW) as E1.
  assert (Eqf : f = fint).
  { unfold internal_force, internal_force_of in Ef'. rewrite Ew in Ef'. cbn [bind] in Ef'. unfold m_nelem in Ef'. cbn [m_conn] in Ef'. rewrite (proj1 (proj1 Hc)) in Ef'. rewrite Ef in Ef'. now injection Ef'. }
  rewrite Eqf in *. rewrite <- E1. rewrite <- (c_work _ _ _ _ _ _ HC conn _ ps Eps fint w b W Df DW). apply sumn_ext. intros. ring.
Qed.
End Forces.

(** ** one iteration *)
Lemma set_Ok_full {A} (l : list A) i x : i < length l -> exists l', set l i x = Ok l' /\ length l' = length l /\ forall d k, nth k l' d = if k =? i then x else nth k l d.
Proof.
  revert i. induction l as [|a l IH]; intros i Hi; [cbn in Hi; lia|]. destruct i as [|i].
  - cbn. eexists. split; [reflexivity|]. split; [reflexivity|]. intros d [|k]; reflexivity.
  - cbn in Hi. destruct (IH i ltac:(lia)) as [l' [E [L V]]]. exists (a :: l'). cbn. rewrite E. cbn [bind]. split; [reflexivity|]. split; [cbn; lia|]. intros d [|k]; [reflexivity|]. cbn. apply V.
Qed.

Lemma val2_zero k d m i : val2 (repeat (repeat 0%R d) k) m i = 0%R.
Proof.
  unfold val2, nth2. destruct (le_lt_dec k m) as [L|L].
  - rewrite (nth_overflow (repeat _ _)) by (rewrite repeat_length; lia). now destruct i.
  - rewrite nth_indep with (d' := repeat 0%R d) by (rewrite repeat_length; lia). rewrite nth_repeat. apply nth_repeat.
Qed.
Lemma zero_shape k d : shape2 (repeat (repeat 0%R d) k) k d.
Proof. split; [apply repeat_length|]. intros r Hr. apply repeat_spec in Hr. rewrite Hr. apply repeat_length. Qed.

Section One.
Set Default Proof Using "All".
Variables (coor : list (list R)) (dofs : list (list nat)) (ties : list (nat * nat)) (fixed : list nat) (nnode ndim nelem nne : nat) (conn : list (list nat)).
Hypothesis HC : cell coor dofs ties fixed nnode ndim.
Hypothesis Hc : connects conn nelem nne nnode.
Hypothesis Hdim : 1 < ndim.
Variable ps : PeriodicSystem.
Hypothesis Eps : periodic_setup coor nnode ndim dofs conn nne ties fixed = Ok ps.
Variables (M : Material) (G : Geometry) (linsolve : mat -> list R -> list R) (lm : loop_memory) (fext : list (list R)).
Notation t := (ps_t ps). Notation n := (nnode + ndim). Notation v := (mkVector conn nne (tp_dofs t) ndim).
Notation nnu := (tp_nnu t). Notation nnp := (tp_nnp t). Notation nnd := (tp_nnd t). Notation ndof := (nnu + nnp + nnd).
Notation Cu := (vt_Cdu (ps_vector ps)). Notation Cp := (vt_Cdp (ps_vector ps)).
Notation vt := (ps_vector ps).
Notation cn := (ps_control_nodes ps).
Hypothesis Hs : sized linsolve nnu.
Hypothesis Hlm : memory_ok nelem n ndim lm.
Hypothesis Sx : shape2 fext n ndim.
Variable Inv : Geo G -> list (list R) -> Prop.
Hypothesis HinvE : forall g d, Inv g d -> exists x, elem_obj nelem x (geo_elem G g) /\ el_nne (geo_elem G g) = nne /\ el_ndim (geo_elem G g) = ndim.
Hypothesis HinvM : forall es junk g d d', schedule nelem es -> Inv g d -> shape2 d' n ndim -> exists g', geo_move G es junk d' g = Ok g' /\ Inv g' d'.

(** internal force of a displacement, with the material [m] that has seen its strain *)
Definition internal_of (g : Geo G) (m0 : Mat M) (disp : list (list R)) (m : Mat M) (fint : list (list R)) : Prop :=
  exists c c' ue, valid_call nelem c /\ valid_call nelem c' /\ AsElement_nodevec v disp = Ok ue /\ m = mat_refresh M m0 (geo_strain G g c (of_rows ue)) /\
    AssembleNode v (to_rows nelem nne ndim (el_Int_gradN_dot_tensor2_dV (geo_elem G g) c' (mat_Sig M m))) = Ok fint.

Definition good (st : loop_state M G) : Prop :=
  periodic_disp coor ties nnode ndim (ls_disp _ _ st) /\ Inv (ls_geo _ _ st) (ls_disp _ _ st) /\ exists A, pt_is v Cu Cp nnu nnp nnd (ls_K _ _ st) A /\ t_fresh ndof Cu Cp nnu nnp A (ls_K _ _ st) (ls_solver _ _ st).

Lemma mesh_n : mesh_dofs conn (tp_dofs t) nelem nne n ndim ndof.
Proof using HC Hc Hdim Eps.
  destruct (ps_facts _ _ _ _ _ _ HC conn nne ps Eps) as [Et _].
  assert (Hc' : connects conn nelem nne n) by (destruct Hc as [Sc Hcc]; split; [exact Sc|]; intros e m He Hm; specialize (Hcc e m He Hm); lia).
  apply (mesh_of _ _ _ _ _ _ _ (c_input _ _ _ _ _ _ HC) t Et conn nelem nne); [lia|exact Hc'].
Qed.
Lemma no_holes_n : no_holes (tp_dofs t) ndof.
Proof using HC Eps. destruct (ps_facts _ _ _ _ _ _ HC conn nne ps Eps) as [Et _]. exact (holes_of _ _ _ _ _ _ _ (c_input _ _ _ _ _ _ HC) t Et). Qed.
Lemma sizes_n : tying_sizes Cu Cp nnu nnp nnd.
Proof using HC Eps. destruct (ps_facts _ _ _ _ _ _ HC conn nne ps Eps) as [Et [ECu [ECp _]]]. exact (sizes _ _ _ _ _ _ _ (c_input _ _ _ _ _ _ HC) t Et _ _ ECu ECp). Qed.

Lemma evaluate_ok mem st : valid_memory nelem n ndim mem -> good st ->
  exists m fint K, evaluate M G vt mem st = Ok (mkLS _ _ (ls_disp _ _ st) (ls_geo _ _ st) m fint K (ls_solver _ _ st)) /\
    internal_of (ls_geo _ _ st) (ls_mat _ _ st) (ls_disp _ _ st) m fint /\ shape2 fint n ndim /\
    exists A, pt_is v Cu Cp nnu nnp nnd K A /\ PT_changed K = true.
Proof.
  intros [M1 [M2 _]] [Hd [Hg [A [HA _]]]]. destruct (ps_facts _ _ _ _ _ _ HC conn nne ps Eps) as [_ [_ [_ [_ [_ [_ [Ev _]]]]]]].
  destruct (HinvE _ _ Hg) as [x [HE [E1 E2]]].
  destruct (AsElement_nodevec_spec v nelem nne n ndim ndof eq_refl eq_refl mesh_n (ls_disp _ _ st) (proj1 Hd)) as [ue [Eu _]].
  unfold evaluate. rewrite Ev, Eu. cbn [bind]. rewrite E1, E2. destruct (V_sizes v nelem nne n ndim ndof eq_refl eq_refl mesh_n) as [-> _].
  set (m := mat_refresh M _ _).
  destruct (AssembleNode_spec v nelem nne n ndim ndof eq_refl eq_refl mesh_n _ (to_rows_shape nelem nne ndim (el_Int_gradN_dot_tensor2_dV (geo_elem G (ls_geo _ _ st)) (r_f0 mem) (mat_Sig M m)))) as [fint [Ef [Sf _]]].
  rewrite Ef. cbn [bind].
  assert (SK : shape3 (element_stiffness v (geo_elem G (ls_geo _ _ st)) (r_K mem) (mat_C M m)) nelem (nne * ndim) (nne * ndim)).
  { unfold element_stiffness. rewrite E1, E2. destruct (V_sizes v nelem nne n ndim ndof eq_refl eq_refl mesh_n) as [-> _]. apply to_rows_shape. }
  destruct (pt_assemble v nelem nne n ndim ndof eq_refl eq_refl mesh_n no_holes_n Cu Cp nnu nnp nnd sizes_n eq_refl _ A _ HA SK) as [K [EK [HK Ch]]].
  rewrite EK. cbn [bind]. exists m, fint, K. split; [reflexivity|]. split; [|split; [exact Sf|eexists; split; [exact HK|exact Ch]]].
  exists (r_eps0 mem), (r_f0 mem), ue. auto.
Qed.

Lemma check_ok os tol iiter st : (forall k, Permutation (os k) (list_prod (seq 0 n) (seq 0 ndim))) -> good st -> shape2 (ls_fint _ _ st) n ndim ->
  exists d, check M G vt fext os tol iiter st = Ok d /\ (20 < iiter -> d <> Continue) /\
    (d = Break -> 0 < iiter /\ exists Fx Fi, periodic_forces vt os fext (ls_fint _ _ st) = Ok (Fx, Fi) /\ balanced coor ties fixed nnode ndim (tol * reference Fx) (ls_fint _ _ st) fext).
Proof.
  intros Hos [Hd [Hg _]] Si. destruct (HinvE _ _ Hg) as [x [HE [E1 E2]]]. set (E := geo_elem G (ls_geo _ _ st)) in *. clearbody E.
  unfold check. destruct (Nat.ltb_spec 0 iiter) as [L|L].
  2:{ exists Continue. split; [reflexivity|]. split; [lia|discriminate]. }
  assert (HC' : cell coor dofs ties fixed nnode (el_ndim E)) by (rewrite E2; exact HC).
  assert (Hc' : connects conn nelem (el_nne E) nnode) by (rewrite E1; exact Hc).
  assert (Eps' : periodic_setup coor nnode (el_ndim E) dofs conn (el_nne E) ties fixed = Ok ps) by (rewrite E1, E2; exact Eps).
  pose proof (C88_forces coor dofs ties fixed nnode nelem conn x E HE HC' Hc' ps Eps' os fext (ls_fint _ _ st)) as HF. cbv zeta in HF. rewrite E2 in HF.
  destruct (HF Hos Sx Si) as [Fx [Fi [EF _]]].
  pose proof (forces_bound coor dofs ties fixed nnode nelem conn x E HE HC' Hc' ps Eps' os fext (ls_fint _ _ st) Fx Fi) as HB. rewrite E2 in HB. destruct (HB Hos Sx Si EF) as [LX [LI HB']].
  rewrite EF. cbn [bind fst snd]. destruct (Rlt_dec (residual Fx Fi) tol) as [R|R].
  - exists Break. split; [reflexivity|]. split; [discriminate|]. intros _. split; [exact L|]. exists Fx, Fi. split; [reflexivity|].
    intros w delta Hdel Vw Bw. eapply Rle_lt_trans; [apply (HB' w delta); [lra|exact Vw|exact Bw]|]. apply Rmult_lt_compat_r; [exact Hdel|].
    pose proof (residual_bound Fx Fi tol ltac:(lia) R) as RB. rewrite LX in RB. exact RB.
  - destruct (Nat.ltb_spec 20 iiter).
    + exists Raise. split; [reflexivity|]. split; discriminate.
    + exists Continue. split; [reflexivity|]. split; [lia|discriminate].
Qed.

Lemma du_ok iiter dgamma : exists du, (if iiter =? 0 then do c <- get cn 0; do row <- get (repeat (repeat 0%R ndim) n) c; do row <- set row 1 dgamma; set (repeat (repeat 0%R ndim) n) c row else Ok (repeat (repeat 0%R ndim) n)) = Ok du /\
  shape2 du n ndim /\ forall m i, m < n -> i < ndim -> val2 du m i = if (iiter =? 0) && (m =? nnode) && (i =? 1) then dgamma else 0%R.
Proof.
  pose proof (zero_shape n ndim) as SZ. destruct (iiter =? 0) eqn:Ei; cbn [andb].
  2:{ eexists. split; [reflexivity|]. split; [exact SZ|]. intros. apply val2_zero. }
  destruct (ps_facts _ _ _ _ _ _ HC conn nne ps Eps) as [_ [_ [_ [_ [_ [EN _]]]]]]. rewrite EN.
  rewrite (get_nth 0) by (rewrite seq_length; lia). cbn [bind]. rewrite seq_nth by lia. rewrite Nat.add_0_r.
  rewrite (get_nth []) by (rewrite repeat_length; lia). cbn [bind]. rewrite nth_indep with (d' := repeat 0%R ndim) by (rewrite repeat_length; lia). rewrite nth_repeat.
  destruct (set_Ok_full (repeat 0%R ndim) 1 dgamma) as [row [Er [Lr Vr]]]; [rewrite repeat_length; lia|]. rewrite Er. cbn [bind].
  destruct (set_Ok_full (repeat (repeat 0%R ndim) n) nnode row) as [du [Ed [Ld Vd]]]; [rewrite repeat_length; lia|]. exists du. split; [exact Ed|].
  rewrite repeat_length in Lr, Ld. split.
  - split; [exact Ld|]. intros r Hr. apply (In_nth _ _ []) in Hr. destruct Hr as [k [Hk <-]]. rewrite (Vd []). destruct (Nat.eqb_spec k nnode); [exact Lr|].
    rewrite nth_indep with (d' := repeat 0%R ndim) by (rewrite repeat_length; lia). rewrite nth_repeat. apply repeat_length.
  - intros m i Hm Hi. unfold val2, nth2. rewrite (Vd []). destruct (Nat.eqb_spec m nnode) as [->|Hne]; cbn [andb].
    + rewrite (Vr 0%R). destruct (i =? 1); [reflexivity|]. apply nth_repeat.
    + fold (nth2 0%R (repeat (repeat 0%R ndim) n) m i). fold (val2 (repeat (repeat 0%R ndim) n) m i). apply val2_zero.
Qed.

Lemma advance_ok mem es junk iiter dgamma st A : valid_memory nelem n ndim mem -> schedule nelem es -> good st -> shape2 (ls_fint _ _ st) n ndim ->
  pt_is v Cu Cp nnu nnp nnd (ls_K _ _ st) A -> PT_changed (ls_K _ _ st) = true ->
  exists st', advance M G linsolve vt cn fext mem es junk iiter dgamma st = Ok st' /\ good st' /\ ls_mat _ _ st' = ls_mat _ _ st /\
    (forall m i, m < n -> i < ndim -> prescribed_node fixed nnode m ->
       val2 (ls_disp _ _ st') m i = (val2 (ls_disp _ _ st) m i + if (iiter =? 0) && (m =? nnode) && (i =? 1) then dgamma else 0)%R).
Proof.
  intros [M1 [M2 [M3 [_ [_ M6]]]]] Hes [Hd [Hg _]] Si HA Ch.
  destruct (ps_facts _ _ _ _ _ _ HC conn nne ps Eps) as [Et [ECu [ECp [_ [_ [_ [Ev _]]]]]]]. pose proof (c_input _ _ _ _ _ _ HC) as HI.
  pose proof (rn _ _ _ _ _ _ _ HI t Et) as RN. pose proof mesh_n as HM.
  destruct (du_ok iiter dgamma) as [du [Edu [Sdu Vdu]]].
  unfold advance. rewrite Ev. cbn [m_ndim]. rewrite (proj1 (proj1 Hd)). rewrite Edu. cbn [bind].
  set (b := sub2 fext (ls_fint _ _ st)). assert (Sb : shape2 b n ndim) by now apply zip2_shape.
  destruct (c_values _ _ _ _ _ _ HC conn _ ps Eps b Sb) as [B DB]. destruct (c_values _ _ _ _ _ _ HC conn _ ps Eps du Sdu) as [D0 DD0].
  destruct (c_values _ _ _ _ _ _ HC conn _ ps Eps (ls_disp _ _ st) (proj1 Hd)) as [Y0 DY0].
  assert (P6 : Permutation (r_order mem) (node_iters v)) by (unfold node_iters; destruct (V_sizes v nelem nne n ndim ndof eq_refl eq_refl HM) as [_ [-> _]]; exact M6).
  destruct (any_solve v nelem nne n ndim ndof eq_refl eq_refl HM no_holes_n Cu Cp nnu nnp nnd sizes_n eq_refl linsolve (ls_K _ _ st) A (ls_solver _ _ st) (r_order mem) b du B D0 Hs HA (or_intror (or_introl Ch)) P6 Sb DB Sdu DD0)
    as [y [s' [a' [Y [Es [Ha' [Co [Sy [DY [HP HT]]]]]]]]]].
  rewrite Es. cbn [bind fst snd].
  set (disp' := add2 (ls_disp _ _ st) y). assert (Sd' : shape2 disp' n ndim) by (apply zip2_shape; [exact (proj1 Hd)|exact Sy]).
  destruct (HinvM es junk _ _ disp' Hes Hg Sd') as [g' [Eg Hg']]. rewrite Eg. cbn [bind]. eexists. split; [reflexivity|].
  assert (V' : forall m i, m < n -> i < ndim -> val2 disp' m i = (val2 (ls_disp _ _ st) m i + val2 y m i)%R) by (intros m i Hm Hi; apply (zip2_val Rplus _ _ n ndim); try assumption; apply Hd).
  cbn [ls_disp ls_geo ls_mat ls_K ls_fint ls_solver good]. split; [|split; [reflexivity|]].
  - split; [|split; [exact Hg'|exists A; split; [exact Ha'|right; right; exact Co]]]. cbn [ls_disp].
    destruct (c_values _ _ _ _ _ _ HC conn _ ps Eps disp' Sd') as [Z DZ].
    apply (c_tied_F _ _ _ _ _ _ HC disp' (fun j k => val1 Z (idx2 (tp_control t) j k)) Sd').
    apply (tied_iff _ _ _ _ _ _ _ HI t Et Cu Cp ECu ECp _ Z DZ).
    assert (VZ : forall d, d < ndof -> val1 Z d = (val1 Y0 d + val1 Y d)%R).
    { intros d Hdd. destruct (rn_all _ _ _ _ _ _ _ RN d Hdd) as [m [i [Hm [Hi <-]]]]. destruct DZ as [_ Q1]. destruct DY0 as [_ Q2]. destruct DY as [_ Q3]. cbn [m_dofs] in Q3. rewrite Q1, Q2, Q3 by assumption. now apply V'. }
    pose proof (tied_all _ _ _ _ _ _ _ HI t Et Cu Cp ECu ECp _ _ Y0 (proj2 (proj1 (c_tied _ _ _ _ _ _ HC _) Hd)) DY0) as T0.
    intros d Hdd. rewrite VZ by exact Hdd. rewrite (T0 d Hdd), (HT d Hdd), <- sumn_plus. apply sumn_ext. intros j Hj. rewrite VZ by lia. ring.
  - intros m i Hm Hi Hp. rewrite V' by assumption. f_equal. rewrite <- Vdu by assumption. destruct DY as [_ VY]. destruct DD0 as [_ VD]. cbn [m_dofs] in VY. rewrite <- VY, <- VD by assumption.
    apply HP. apply (rn_p _ _ _ _ _ _ _ RN); try assumption. now apply (c_prescribed _ _ _ _ _ _ HC).
Qed.

(** the state after an increment that ends without exception *)
Definition converged (inc : nat) (tol : R) (m0 : Mat M) (disp0 : list (list R)) (dgamma : R) (st : loop_state M G) : Prop :=
  good st /\ (exists l, internal_of (ls_geo _ _ st) (fold_left (mat_refresh M) l m0) (ls_disp _ _ st) (ls_mat _ _ st) (ls_fint _ _ st)) /\
  (forall m i, m < n -> i < ndim -> prescribed_node fixed nnode m -> val2 (ls_disp _ _ st) m i = (val2 disp0 m i + control_update nnode m i dgamma)%R) /\
  exists iiter Fx Fi, 0 < iiter <= 21 /\ periodic_forces vt (lm_os lm inc iiter) fext (ls_fint _ _ st) = Ok (Fx, Fi) /\ balanced coor ties fixed nnode ndim (tol * reference Fx) (ls_fint _ _ st) fext.

Lemma iterations_ok tol dgamma inc : forall k iiter st, iiter <= 21 -> 21 < k + iiter -> good st ->
  exists r, iterations M G linsolve vt cn lm fext k inc iiter tol dgamma st = Ok r /\
    forall st', r = Some st' -> converged inc tol (ls_mat _ _ st) (ls_disp _ _ st) (if iiter =? 0 then dgamma else 0%R) st'.
Proof.
  induction k as [|k IH]; intros iiter st L1 L2 Hg; [lia|]. cbn [iterations].
  destruct (Hlm inc iiter) as [Hmem [Hos Hes]].
  destruct (evaluate_ok _ st Hmem Hg) as [m [fint [K [-> [Hint [Sf [A [HK Ch]]]]]]]]. cbn [bind].
  set (st1 := mkLS _ _ _ _ _ _ _ _). assert (Hg1 : good st1) by (destruct Hg as [Q1 [Q2 _]]; split; [exact Q1|]; split; [exact Q2|exists A; split; [exact HK|right; left; exact Ch]]).
  destruct (check_ok (lm_os lm inc iiter) tol iiter st1 Hos Hg1 Sf) as [d [-> [Hc1 Hb]]]. cbn [bind]. destruct d.
  - eexists. split; [reflexivity|]. intros st' Es. injection Es as <-. destruct (Hb eq_refl) as [Li [Fx [Fi [EF HB]]]]. destruct iiter as [|it]; [lia|]. cbn [Nat.eqb].
    split; [exact Hg1|]. split; [|split].
    + exists []. exact Hint.
    + intros m' i Hm Hi _. cbn [st1 ls_disp]. unfold control_update. destruct ((m' =? nnode) && (i =? 1)); lra.
    + exists (S it), Fx, Fi. split; [lia|]. split; [exact EF|exact HB].
  - eexists. split; [reflexivity|]. discriminate.
  - destruct (le_lt_dec iiter 20) as [L|L]; [|exfalso; now apply Hc1].
    destruct (advance_ok _ _ (lm_junk lm inc iiter) iiter dgamma st1 A Hmem Hes Hg1 Sf HK Ch) as [st2 [-> [Hg2 [Em Vd]]]]. cbn [bind].
    destruct (IH (S iiter) st2 ltac:(lia) ltac:(lia) Hg2) as [r [Er Hr]]. exists r. split; [exact Er|]. intros st' Es. destruct (Hr st' Es) as [Q1 [Q2 [Q3 Q4]]].
    split; [exact Q1|]. split; [|split; [|exact Q4]].
    { destruct Q2 as [l Q2]. destruct Hint as [c1 [c2 [ue [_ [_ [_ [Em1 _]]]]]]]. exists (geo_strain G (ls_geo _ _ st) c1 (of_rows ue) :: l). cbn [fold_left]. rewrite <- Em1. rewrite Em in Q2. exact Q2. }
    intros m' i Hm Hi Hp. rewrite Q3, Vd by assumption. cbn [st1 ls_disp Nat.eqb]. unfold control_update. destruct (iiter =? 0); cbn [andb]; destruct ((m' =? nnode) && (i =? 1)); lra.
Qed.

Lemma increments_ok tol : forall dgammas inc st, good st ->
  exists r, increments M G linsolve vt cn lm fext inc tol dgammas st = Ok r /\
    forall st', r = Some st' -> (forall m i, m < n -> i < ndim -> prescribed_node fixed nnode m -> val2 (ls_disp _ _ st') m i = (val2 (ls_disp _ _ st) m i + control_update nnode m i (sumL dgammas (fun d => d)))%R) /\
    forall k, k < length dgammas -> exists stk sk,
      increments M G linsolve vt cn lm fext inc tol (firstn k dgammas) st = Ok (Some sk) /\
      increments M G linsolve vt cn lm fext inc tol (firstn (S k) dgammas) st = Ok (Some stk) /\
      converged (inc + k) tol (mat_increment M (ls_mat _ _ sk)) (ls_disp _ _ sk) (nth k dgammas 0%R) stk.
Proof.
  induction dgammas as [|dg dgammas IH]; intros inc st Hg.
  - eexists. split; [reflexivity|]. intros st' Es. injection Es as <-. split; [|intros k Hk; cbn in Hk; lia]. intros m i _ _ _. unfold control_update, sumL. cbn [fold_right]. destruct (_ && _); lra.
  - cbn [increments]. set (st0 := mkLS _ _ _ _ _ _ _ _). assert (Hg0 : good st0) by exact Hg.
    destruct (iterations_ok tol dg inc 100 0 st0 ltac:(lia) ltac:(lia) Hg0) as [r [Er Hr]]. rewrite Er. cbn [bind].
    destruct r as [st1|]; [|eexists; split; [reflexivity|]; discriminate].
    pose proof (Hr st1 eq_refl) as Hcv. cbn [Nat.eqb] in Hcv.
    destruct (IH (S inc) st1 (proj1 Hcv)) as [r2 [Er2 Hr2]]. exists r2. split; [exact Er2|]. intros st' Es. destruct (Hr2 st' Es) as [Hv Hk2]. split.
    { intros m i Hm Hi Hp. rewrite Hv by assumption. destruct Hcv as [_ [_ [Hv1 _]]]. rewrite Hv1 by assumption. cbn [st0 ls_disp]. unfold control_update, sumL. cbn [fold_right]. destruct (_ && _); lra. }
    intros k Hk. destruct k as [|k].
    + exists st1, st. cbn [firstn increments]. fold st0. rewrite Er. cbn [bind]. split; [reflexivity|]. split; [reflexivity|]. rewrite Nat.add_0_r. exact Hcv.
    + destruct (Hk2 k ltac:(cbn in Hk; lia)) as [stk [sk [E1 [E2 E3]]]]. exists stk, sk. cbn [firstn increments] in E1, E2 |- *. fold st0. rewrite Er. cbn [bind]. split; [exact E1|]. split; [exact E2|].
      replace (inc + S k) with (S inc + k) by lia. exact E3.
Qed.
End One.
