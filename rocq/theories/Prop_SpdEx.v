(** Concrete cases for C88, C89 and C90. *)
From Coq Require Import Reals Lra Lia.
From Verif Require Import Model_Element Spec_Element Proof_Element Proof_ElementQuad4 Proof_ElementMath Base Spec Sums Spec_Vector Spec_Matrix Spec_MatrixOps Spec_Tyings Model_Numbering Model_Vector Proof_Vector Model_VectorPartitioned Model_Sparse Model_Tyings
  Model_Matrix Model_MatrixPartitioned Proof_MatrixPartitioned Model_MatrixTyings Spec_MatrixTyings Model_MeshGeometry Model_Regular2d Proof_Regular2d Model_Pipeline Spec_Pipeline Spec_Patch Proof_PipelineElem Proof_Pipeline Proof_PipelineBalance
  Proof_PipelineEx Prop_Pipeline Proof_PatchRegular Prop_Patch Prop_PatchEx Model_PeriodicProgram Spec_Periodic Prop_Periodic Spec_Macro Prop_Macro Spec_Spd Model_Ldlt Proof_Ldlt Prop_Spd.


(** a system of two equations, and one that is not positive definite *)
Example C90_ex_ldlt : let a := mkMat 2 2 (fun i j => if (i =? j)%nat then 2%R else 1%R) in
  spd 2 (ent a) /\ ldlt a [3; 3]%R = [1; 1]%R /\ ~ spd 2 (fun i j => if (i =? j)%nat then 1%R else 2%R).
Proof.
  intros a. split; [split|split].
  - intros i j _ _. cbn [ent a]. now rewrite Nat.eqb_sym.
  - intros x [i [Hi Hx]]. unfold quad_form, mv, sumn, sumL. cbn [seq fold_right ent a Nat.eqb].
    replace (x 0%nat * (2 * x 0%nat + (1 * x 1%nat + 0)) + (x 1%nat * (1 * x 0%nat + (2 * x 1%nat + 0)) + 0))%R with (x 0%nat * x 0%nat + x 1%nat * x 1%nat + (x 0%nat + x 1%nat) * (x 0%nat + x 1%nat))%R by ring.
    pose proof (Rle_0_sqr (x 0%nat)) as A. pose proof (Rle_0_sqr (x 1%nat)) as B. pose proof (Rle_0_sqr (x 0%nat + x 1%nat)%R) as D. pose proof (Rlt_0_sqr (x i) Hx) as G. unfold Rsqr in *.
    destruct i as [|[|i]]; [lra|lra|lia].
  - unfold ldlt, ldlt_rec, val1, sumn, sumL. cbn [rows ent a seq fold_right Nat.eqb nth]. repeat f_equal; field.
  - intros [_ H]. specialize (H (fun i => if (i =? 0)%nat then 1%R else (-1)%R)).
    assert (X : exists i, i < 2 /\ (if (i =? 0)%nat then 1%R else (-1)%R) <> 0%R) by (exists 0; split; [lia|cbn; lra]). specialize (H X).
    unfold quad_form, mv, sumn, sumL in H. cbn [seq fold_right Nat.eqb] in H. lra.
Qed.

(** C90_statics, with the LDL^T solver, on four elements with the bottom edge held: unique solution *)
Example C90_ex_statics : let iip := [0;1;3;5] in
  no_mechanism p4_v 4 18 p4_E Isym iip /\ positive_stiffness 4 p4_E Isym /\ positive_volume 4 p4_E /\ minor_symmetric 4 p4_E Isym /\ major_symmetric 4 p4_E Isym /\
  forall fext bc, nodal (dofs 9 2) 9 2 fext -> nodal (dofs 9 2) 9 2 bc ->
  exists K0 p disp fint fext' fres, new_MatrixPartitioned p4_v iip = Ok K0 /\ new_VectorPartitioned p4_v iip = Ok p /\
    statics ldlt p4_mem p K0 new_Solver p4_E (ddot42 2 Isym) Isym fext (tab2 9 2 (fun _ _ => 0%R)) bc = Ok (disp, fint, fext', fres) /\ val2 fint 8 1 = val2 fext 8 1.
Proof.
  intros iip.
  assert (NM : no_mechanism p4_v 4 18 p4_E Isym iip).
  { apply (C87_regular_mesh p4 ltac:(cbn; lia) ltac:(cbn; lia) ltac:(cbn; lra) junk junk p4_x p4_Q Isym iip p4_obj p4_on (Isym_elastic _ _)).
    - intros n Hn. cbn in Hn. destruct Hn as [<-|[<-|[<-|[]]]]; cbn; lia.
    - cbn. lia. }
  assert (PR : prescribed 18 iip) by (split; [repeat constructor; cbn; lia|cbn; lia]).
  pose proof (elastic_positive _ _ _ (Isym_elastic 4 p4_Q)) as PS.
  assert (PV : positive_volume 4 p4_E) by (apply (regular_full p4 junk junk p4_x p4_Q ltac:(cbn; lra) p4_obj p4_on)).
  split; [exact NM|]. split; [exact PS|]. split; [exact PV|]. split; [apply Isym_minor|]. split; [apply Isym_major|]. intros fext bc Nf Nb.
  destruct (mp_new p4_v 4 4 9 2 18 eq_refl eq_refl p4_mesh iip PR p4_holes) as [K0 [E0 [[[Ep _] _] _]]].
  destruct (C90_statics (conn p4) (dofs 9 2) 4 9 18 p4_x p4_E iip p4_elem p4_mesh PR p4_holes ldlt [] K0 K0 new_Solver (MP_p K0) C90_ldlt (Forall_nil _) E0 eq_refl Ep p4_mem Isym fext (tab2 9 2 (fun _ _ => 0%R)) bc
    p4_memory (Isym_minor _ _) (Isym_major _ _) PS PV NM Nf Nb) as [disp [fint [fext' [fres [Er [[_ [_ HS]] _]]]]]].
  - apply tab2_shape.
  - intros n j Hn Hj. now apply p4_val.
  - exists K0, (MP_p K0), disp, fint, fext', fres. split; [exact E0|]. split; [exact Ep|]. split; [exact Er|]. apply (HS 8 1); [lia|cbn; lia|]. cbn. lia.
Qed.

(** C88, C89 and C90: any regular mesh can be sheared with the LDL^T solver *)
Definition g_x (m : Regular) : arr := fun k => match k with [e;n;i] => val2 (coor m) (idx2 (conn m) e n) i | _ => 0%R end.
Definition g_Q (m : Regular) : Quadrature := Quad4_new (seq 0 (nelem m)) (nelem m) (g_x m) 4 (Gauss4_xi junk) (Gauss4_w junk) junk junk junk junk junk.
Definition g_c (m : Regular) : call := mkCall (seq 0 (nelem m)) junk.
Definition g_order (m : Regular) := list_prod (seq 0 (nnode m + 2)) (seq 0 2).
Definition g_mem (m : Regular) : run_memory := {| r_eps0 := g_c m; r_f0 := g_c m; r_K := g_c m; r_eps1 := g_c m; r_f1 := g_c m; r_order := g_order m |}.
Example C90_ex : forall m, 1 <= nelx m -> 1 <= nely m -> (0 < hh m)%R ->
  let E := Quad4_elem (g_Q m) in
  let zero := map (fun _ => repeat 0%R 2) (seq 0 (nnode m + 2)) in
  let shear := tab2 (nnode m + 2) 2 (fun n i => if ((n =? nnode m) && (i =? 1))%bool then 1%R else 0%R) in
  exists ps disp K s ue fint Fx Fi, periodic_setup (coor m) (nnode m) 2 (dofs (nnode m) 2) (conn m) 4 (nodesPeriodic m) [nodesBottomLeftCorner m] = Ok ps /\
    newton_tyings ldlt (vt_v (ps_vector ps)) E (zero, ps_K ps, new_Solver) (mkIteration (g_mem m) (ddot42 2 Isym) Isym zero shear) = Ok (disp, K, s) /\
    val2 disp (nnode m) 1 = 1%R /\
    AsElement_nodevec (mkVector (conn m) 4 (tp_dofs (ps_t ps)) 2) disp = Ok ue /\
    internal_force (mkVector (conn m) 4 (tp_dofs (ps_t ps)) 2) E (ddot42 2 Isym) (g_c m) (g_c m) disp = Ok fint /\
    periodic_forces (ps_vector ps) (fun _ => g_order m) zero fint = Ok (Fx, Fi) /\ Fx = Fi /\
    val1 Fi (idx2 (tp_dofs (ps_t ps)) (nnode m) 1) = total (nelem m) E (ddot42 2 Isym (el_SymGradN_vector E (g_c m) (of_rows ue))) 1 0.
Proof.
  intros m Hx Hy Hh E zero shear.
  assert (V : valid_call (nelem m) (g_c m)) by apply Permutation_refl.
  assert (HQ : Quad4_obj (nelem m) 4 (Gauss4_xi junk) (Gauss4_w junk) (g_x m) (g_Q m)) by (apply Quad4_obj_new; apply Permutation_refl).
  assert (HX : on_mesh (conn m) (nelem m) (coor m) (g_x m)) by (intros e k i He Hk Hi; reflexivity).
  destruct (C90_regular_periodic m Hx Hy Hh junk junk (g_x m) (g_Q m) Isym ldlt HQ HX (Isym_elastic _ _) (Isym_major _ _) (Isym_minor _ _) C90_ldlt) as [ps [Eps HR]].
  destruct (HR (g_mem m) shear) with (os := fun _ : nat => g_order m) (c1 := g_c m) (c2 := g_c m) as [disp [K [s [ue [fint [Fx [Fi [E1 [E2 [E3 [E4 [E5 [E6 [E7 [E8 E9]]]]]]]]]]]]]]].
  - repeat (split; [exact V|]). apply Permutation_refl.
  - apply tab2_shape.
  - intros k. apply Permutation_refl.
  - exact V.
  - exact V.
  - exists ps, disp, K, s, ue, fint, Fx, Fi. split; [exact Eps|]. split; [exact E1|]. split.
    { pose proof (E3 0 1 ltac:(lia) ltac:(lia)) as Eg. rewrite Nat.add_0_r in Eg. rewrite Eg. unfold shear, val2. rewrite tab2_nth by lia. rewrite Nat.eqb_refl. reflexivity. }
    split; [exact E4|]. split; [exact E5|]. split; [exact E6|]. split; [exact E7|]. pose proof (E9 0 1 ltac:(lia) ltac:(lia)) as E0. rewrite Nat.add_0_r in E0. exact E0.
Qed.
