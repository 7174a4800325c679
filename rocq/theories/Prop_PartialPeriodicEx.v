(** Concrete cases for C102: the sizes of a small mesh, and a mesh with refinement layers, Gauss points, an isotropic material and the LDL^T solver. *)
From Coq Require Import Reals Lra Lia.
From Verif Require Import Model_Element Spec_Element Proof_Element Proof_ElementQuad4 Proof_ElementMath Base Spec Spec2d Sums Spec_Vector Spec_Matrix Spec_MatrixOps Model_Numbering Model_Vector Proof_Vector Model_VectorPartitioned Model_Sparse
  Model_Matrix Model_MatrixPartitioned Model_MeshGeometry Model_Regular2d Model_FineLayer Model_Pipeline Spec_Pipeline Spec_Patch Proof_PipelineEx Prop_Pipeline Prop_Patch Prop_PatchEx Spec_Macro Spec_Spd Model_Ldlt Proof_Ldlt Prop_Spd
  Spec_Divergence Spec_QuadMesh Prop_QuadMesh Prop_QuadMeshEx Model_PartialPeriodic Spec_PartialPeriodic Prop_PartialPeriodic.

(** 3 x 2 elements: the sides are the nodes 4 and 7 *)
Definition strip_ex : Regular := mkRegular 3 2 1.
Lemma strip_ex_mesh : strip_mesh (coor strip_ex) (conn strip_ex) [4] [7] [0;1;2;3] [8;9;10;11] (1 * INR 3) (1 * INR 2).
Proof. apply (strip_Regular strip_ex); cbn; try lia; lra. Qed.
Example C102_ex_setup : exists st, strip_setup 12 (conn strip_ex) 4 [4] [7] [0;1;2;3] [8;9;10;11] = Ok st /\
  st_dofs st = [[0;1];[2;3];[4;5];[6;7];[8;9];[10;11];[12;13];[8;9];[14;15];[16;17];[18;19];[20;21]] /\ st_iip st = [0;2;4;6;1;3;5;7;14;16;18;20;15;17;19;21].
Proof. eexists. repeat split. Qed.

Lemma Isym_uniform nelem E : uniform_stiffness nelem E Isym.
Proof. exists (fun i j k l => Isym [0;0;i;j;k;l]). intros e q i j He Hq Hi Hj k l Hk Hl. reflexivity. Qed.

(** 9 x 21 fine elements, 81 elements in all: all nodes move in proportion to their height *)
Example C102_ex : forall h, (0 < h)%R -> exists X C lft rgt bot top, strip_mesh X C lft rgt bot top (h * INR 9) (h * INR 21) /\ length C = 81 /\ length lft = 10 /\
  let E := Quad4_elem (q_Q X C) in
  exists st disp fint fext fres, strip_setup (length X) C 4 lft rgt bot top = Ok st /\
    shear ldlt (q_mem0 X C) st E (ddot42 2 Isym) Isym (length X) top (h * 21) = Ok (disp, fint, fext, fres) /\
    forall n, n < length X -> val2 disp n 0 = val2 X n 1 /\ val2 disp n 1 = 0%R.
Proof.
  intros h Hh. let t := eval vm_compute in (FineLayer_init 9 17 h 1) in match t with Some (Ok ?m) => pose proof (strip_FineLayer 9 17 h 1 m) as H end.
  assert (HS : exists X C lft rgt bot top, strip_mesh X C lft rgt bot top (h * INR 9) (h * INR 21) /\ length C = 81 /\ length lft = 10).
  { do 6 eexists. split.
    - eapply H; [exact Hh|lia|lia|vm_compute; reflexivity|vm_compute; reflexivity|vm_compute; reflexivity|vm_compute; reflexivity|vm_compute; reflexivity|vm_compute; reflexivity|vm_compute; reflexivity].
    - split; reflexivity. }
  clear H. destruct HS as (X & C & lft & rgt & bot & top & HS & LC & LL). exists X, C, lft, rgt, bot, top. split; [exact HS|]. split; [exact LC|]. split; [exact LL|]. intros E.
  destruct (C102_setup X C lft rgt bot top _ _ HS) as [st [Est _]]. assert (V : valid_call (length C) (q_c C)) by apply Permutation_refl.
  destruct (C102_uniform X C lft rgt bot top _ _ HS 1%R (q_x X C) E Isym (C92_ex X C) (Isym_elastic _ _) (Isym_major _ _) (Isym_minor _ _) (Isym_uniform _ _) ldlt (q_mem0 X C) (h * 21)%R st C90_ldlt) as (disp & fint & fext & fres & Er & Vd); [|exact Est|].
  - repeat (split; [exact V|]). apply Permutation_refl.
  - exists st, disp, fint, fext, fres. split; [exact Est|]. split; [exact Er|]. intros n Hn. destruct (Vd n Hn) as [V0 V1]. split; [|exact V1]. rewrite V0. replace (INR 21) with 21%R by (cbn; ring). field. lra.
Qed.
