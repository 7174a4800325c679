(** Concrete cases for C92 and C93: a mesh with refinement layers, Gauss points, an isotropic material and the LDL^T solver. *)
From Coq Require Import Reals Lra Lia.
From Verif Require Import Model_Element Spec_Element Proof_Element Proof_ElementQuad4 Proof_ElementMath Base Spec Spec2d Sums Spec_Vector Spec_Matrix Spec_MatrixOps Spec_Tyings Model_Numbering Model_Vector Proof_Vector Model_VectorPartitioned Model_Sparse Model_Tyings
  Model_Matrix Model_MatrixPartitioned Proof_MatrixPartitioned Model_MatrixTyings Spec_MatrixTyings Model_MeshGeometry Model_Regular2d Proof_Regular2d Model_FineLayer Model_Pipeline Spec_Pipeline Spec_Patch Proof_PipelineElem Proof_Pipeline Proof_PipelineBalance
  Proof_PipelineEx Prop_Pipeline Proof_PatchRegular Prop_Patch Prop_PatchEx Model_PeriodicProgram Spec_Periodic Prop_Periodic Spec_Macro Prop_Macro Spec_Spd Model_Ldlt Proof_Ldlt Prop_Spd
  Spec_Conform Spec_Divergence Spec_QuadMesh Proof_QuadMesh Prop_Conform Prop_Divergence Prop_QuadMesh.

(** the coordinates per element, and the quadrature object made from them *)
Definition q_x (X : list (list R)) (C : list (list nat)) : arr := fun k => match k with [e;n;i] => val2 X (idx2 C e n) i | _ => 0%R end.
Definition q_Q (X : list (list R)) (C : list (list nat)) : Quadrature := Quad4_new (seq 0 (length C)) (length C) (q_x X C) 4 (Gauss4_xi junk) (Gauss4_w junk) junk junk junk junk junk.
Definition q_c (C : list (list nat)) : call := mkCall (seq 0 (length C)) junk.
Definition q_order (X : list (list R)) := list_prod (seq 0 (length X + 2)) (seq 0 2).
Definition q_mem (X : list (list R)) (C : list (list nat)) : run_memory := {| r_eps0 := q_c C; r_f0 := q_c C; r_K := q_c C; r_eps1 := q_c C; r_f1 := q_c C; r_order := q_order X |}.
Definition q_mem0 (X : list (list R)) (C : list (list nat)) : run_memory := {| r_eps0 := q_c C; r_f0 := q_c C; r_K := q_c C; r_eps1 := q_c C; r_f1 := q_c C; r_order := list_prod (seq 0 (length X)) (seq 0 2) |}.

Example C92_ex : forall X C, mesh_body X C 1 (q_x X C) (Quad4_elem (q_Q X C)).
Proof.
  intros X C. apply (body_Quad4 X C 4 (Gauss4_xi junk) (Gauss4_w junk)).
  - constructor.
  - intros e k i He Hk Hi. reflexivity.
  - apply Quad4_obj_new; apply Permutation_refl.
Qed.

Lemma quad_origin X C ties bot rgt top lft Lx Ly : quad_mesh X C ties bot rgt top lft Lx Ly -> exists o, node_at X o 0 0.
Proof.
  intros H. pose proof (quad_mesh_facts _ _ _ _ _ _ _ _ _ H) as M. destruct (mf_opposite _ _ _ _ _ _ _ _ _ M) as (kx & ky & b & t & l & r & O).
  destruct (op_bx _ _ _ _ _ _ _ _ _ _ _ _ _ _ O 0 ltac:(lia)) as (x & N1 & _). destruct (op_ly _ _ _ _ _ _ _ _ _ _ _ _ _ _ O 0 ltac:(lia)) as (y & N2 & _).
  rewrite <- (op_c1 _ _ _ _ _ _ _ _ _ _ _ _ _ _ O) in N2. exists (b 0). unfold node_at in *. rewrite N1 in N2. injection N2 as -> _. exact N1.
Qed.

(** stretching the periodic cell of 81 elements in the second direction by a factor 2 of its height *)
Example C93_ex : forall h, (0 < h)%R -> exists X C ties bot rgt top lft o, quad_mesh X C ties bot rgt top lft (h * INR 9) (h * INR 21) /\ length C = 81 /\ node_at X o 0 0 /\
  let E := Quad4_elem (q_Q X C) in
  let zero := map (fun _ => repeat 0%R 2) (seq 0 (length X + 2)) in
  let du := tab2 (length X + 2) 2 (fun n i => if ((n =? length X + 1) && (i =? 1))%bool then 2%R else 0%R) in
  exists ps disp K s ue, periodic_setup X (length X) 2 (dofs (length X) 2) C 4 ties [o] = Ok ps /\
    newton_tyings ldlt (vt_v (ps_vector ps)) E (zero, ps_K ps, new_Solver) (mkIteration (q_mem X C) (ddot42 2 Isym) Isym zero du) = Ok (disp, K, s) /\
    AsElement_nodevec (mkVector C 4 (tp_dofs (ps_t ps)) 2) disp = Ok ue /\
    total (length C) E (el_GradN_vector E (q_c C) (of_rows ue)) 1 1 = (2 * (h * 9 * (h * 21)))%R.
Proof.
  intros h Hh. destruct (C91_ex h Hh) as (X & C & ties & bot & rgt & top & lft & HQ & LC & _). destruct (quad_origin _ _ _ _ _ _ _ _ _ HQ) as [o Ho].
  exists X, C, ties, bot, rgt, top, lft, o. split; [exact HQ|]. split; [exact LC|]. split; [exact Ho|]. intros E zero du.
  assert (V : valid_call (length C) (q_c C)) by apply Permutation_refl.
  destruct (C93_periodic X C ties bot rgt top lft _ _ HQ 1%R (q_x X C) E o Isym ldlt (C92_ex X C) Ho (Isym_elastic _ _) (Isym_major _ _) (Isym_minor _ _) C90_ldlt) as [ps [Eps HR]].
  destruct (HR (q_mem X C) du) with (os := fun _ : nat => q_order X) (c1 := q_c C) (c2 := q_c C) as (disp & K & s & ue & fint & Fx & Fi & E1 & _ & E2 & _ & _ & _ & _ & EV & E3 & _); try exact V.
  - repeat (split; [exact V|]). apply Permutation_refl.
  - apply tab2_shape.
  - intros k. apply Permutation_refl.
  - exists ps, disp, K, s, ue. split; [exact Eps|]. split; [exact E1|]. split; [exact E2|].
    destruct (E3 1 1 ltac:(lia) ltac:(lia)) as [_ [T _]]. rewrite T, EV. unfold du, val2. rewrite tab2_nth by lia. rewrite Nat.eqb_refl. cbn [andb Nat.eqb INR]. ring.
Qed.

(** and with the bottom edge held, all loads have one answer *)
Example C93_ex_statics : forall h, (0 < h)%R -> exists X C ties bot rgt top lft, quad_mesh X C ties bot rgt top lft (h * INR 9) (h * INR 21) /\
  let E := Quad4_elem (q_Q X C) in
  let v := mkVector C 4 (dofs (length X) 2) 2 in
  exists iip, prescribed (length X * 2) iip /\ no_mechanism v (length C) (length X * 2) E Isym iip.
Proof.
  intros h Hh. destruct (C91_ex h Hh) as (X & C & ties & bot & rgt & top & lft & HQ & LC & _). exists X, C, ties, bot, rgt, top, lft. split; [exact HQ|]. intros E v.
  pose proof (quad_mesh_facts _ _ _ _ _ _ _ _ _ HQ) as M. destruct (mf_opposite _ _ _ _ _ _ _ _ _ M) as (kx & ky & b & t & l & r & O). destruct (op_bx _ _ _ _ _ _ _ _ _ _ _ _ _ _ O 0 ltac:(lia)) as (x0 & N1 & N2).
  assert (L1 : b 0 < length X) by (apply nth_error_Some; unfold node_at in N1; congruence). assert (L2 : t 0 < length X) by (apply nth_error_Some; unfold node_at in N2; congruence).
  assert (Hd : forall n j, n < length X -> j < 2 -> idx2 (dofs (length X) 2) n j = n * 2 + j).
  { intros n j Hn Hj. pose proof (Proof_Numbering.dofs_at (length X) 2 n j Hn Hj) as A. unfold at2 in A. unfold idx2, nth2. destruct (nth_error (dofs (length X) 2) n) as [row|] eqn:En; [|discriminate].
    rewrite (nth_error_nth _ _ [] En). now apply nth_error_nth. }
  assert (Ne : b 0 <> t 0). { intros Q. rewrite Q in N1. unfold node_at in *. rewrite N1 in N2. injection N2 as Q2. pose proof (mf_Ly _ _ _ _ _ _ _ _ _ M). lra. }
  exists [b 0 * 2; b 0 * 2 + 1; t 0 * 2]. split.
  - split; [repeat constructor; cbn; lia|]. cbn. intros d Hd'. lia.
  - apply (C93_held X C ties bot rgt top lft _ _ HQ 1%R (q_x X C) E Isym (dofs (length X) 2) (length X * 2) _ (b 0) (t 0) 1 (C92_ex X C) (Isym_elastic _ _)); try assumption; try lia.
    + constructor; [apply M|apply Proof_Numbering.dofs_shape| |].
      * intros e k He Hk. apply (mf_range _ _ _ _ _ _ _ _ _ M (nth e C [])); [now apply nth_In|]. unfold idx2, nth2. apply nth_In. rewrite (proj2 (mf_C _ _ _ _ _ _ _ _ _ M)); [exact Hk|]. now apply nth_In.
      * rewrite Proof_Numbering.concat_dofs. destruct (length X) as [|n]; [lia|]. change (S n * 2) with (S (S (n * 2))). now rewrite Proof_MeshGeometry.fold_max_seq.
    + apply dofs_no_holes.
    + apply node_val in N1, N2. rewrite (proj2 N1), (proj2 N2). pose proof (mf_Ly _ _ _ _ _ _ _ _ _ M). lra.
    + rewrite Hd by lia. left. lia.
    + rewrite Hd by lia. right. left. lia.
    + rewrite Hd by lia. right. right. left. lia.
Qed.
