(** The integral of the gradient of a displacement over a conforming mesh. *)
From Coq Require Import Reals Lra Lia List Arith Permutation.
From Verif Require Import Model_Element Spec_Element Proof_Element Proof_ElementQuad4 Proof_ElementMath Proof_ElementThm Proof_ElementThm2 Proof_ElementThm3 Prop_ElementQuad4 Prop_ElementPlanar
  Base Spec Sums Spec_Vector Model_Numbering Model_Vector Proof_Vector Model_MeshGeometry Model_Pipeline Spec_Pipeline Proof_PipelineElem Proof_Pipeline Proof_PipelineBalance Spec_Patch Proof_Patch
  Spec_Macro Spec_Conform Spec_Divergence Proof_Conform Proof_ConformClosed Proof_ConformMesh.
Import ListNotations.
Local Open Scope R_scope.

Lemma sheet_patch nelem th x E : sheet_obj nelem th x E -> patch_obj nelem x E.
Proof. intros []; econstructor; eassumption. Qed.
Lemma sheet_affine nelem th x E : sheet_obj nelem th x E -> affine_obj nelem x E.
Proof. intros []; econstructor; eassumption. Qed.
Lemma sheet_dims nelem th x E : sheet_obj nelem th x E -> el_nne E = 4%nat /\ el_ndim E = 2%nat /\ (2 <= el_tdim E)%nat.
Proof. intros []; cbn; lia. Qed.

(** one element *)
Lemma sheet_element nelem th x E c u e i j : sheet_obj nelem th x E -> valid_call nelem c -> (e < nelem)%nat -> (i < 2)%nat -> (j < 2)%nat ->
  sumn (el_nip E) (fun q => el_GradN_vector E c u [e;q;i;j] * el_dV E [e;q]) = 4 * th * sumn 4 (fun m => turn (nodes x e) m i * u [e;m;j]).
Proof.
  intros [nip xi w x' Q H HC HW HJ|nip xi w thick x' Pl H HC HW HJ] Hc He Hi Hj.
  - pose proof (Quad4_facts _ _ _ _ _ _ H) as F. cbn [Quad4_elem el_nip]. rewrite (f_nip F).
    transitivity (sumn nip (fun q => sumn 4 (fun m => (w [q] * cof (nodes x' e) m i (point xi q)) * u [e;m;j]))).
    + apply sumn_ext. intros q Hq. rewrite (r_grad _ _ _ (Quad4_raw _ _ _ _ _ _ H) c u e q i j Hc He) by (cbn [Quad4_elem el_nip el_tdim]; rewrite ?(f_nip F); assumption).
      cbn [Quad4_elem el_nne el_ndim el_dV]. rewrite <- sumn_scal_r. apply sumn_ext. intros m Hm.
      rewrite (f_vol F) by assumption. rewrite <- (gshape_cof (nodes x' e) m i) by (assumption || now apply HJ).
      transitivity (sumn 2 (fun k => ind (k =? j)%nat * (gshape2 (nodes x' e) m i (point xi q) * u [e;m;k])) * (w [q] * jac2 (nodes x' e) (point xi q))).
      * f_equal. apply sumn_ext. intros k Hk. unfold Bcart. rewrite (f_dNx F) by assumption. ring.
      * rewrite sumn_delta by assumption. ring.
    + rewrite sumn_swap. rewrite <- sumn_scal. apply sumn_ext. intros m Hm. rewrite sumn_scal_r, cof_integral, HW by assumption. ring.
  - pose proof (proj2 (Planar_facts _ _ _ _ _ _ _ H)) as F. cbn [Planar_elem el_nip]. rewrite (f_nip F).
    transitivity (sumn nip (fun q => sumn 4 (fun m => (w [q] * cof (nodes x' e) m i (point xi q)) * (thick * u [e;m;j])))).
    + apply sumn_ext. intros q Hq. rewrite (r_grad _ _ _ (Planar_raw _ _ _ _ _ _ _ H) c u e q i j Hc He) by (cbn [Planar_elem el_nip el_tdim]; rewrite ?(f_nip F); lia || assumption).
      cbn [Planar_elem el_nne el_ndim el_dV]. rewrite <- sumn_scal_r. apply sumn_ext. intros m Hm.
      rewrite (f_vol F) by assumption. rewrite <- (gshape_cof (nodes x' e) m i) by (assumption || now apply HJ).
      transitivity (sumn 2 (fun k => ind (k =? j)%nat * (gshape2 (nodes x' e) m i (point xi q) * u [e;m;k])) * (w [q] * thick * jac2 (nodes x' e) (point xi q))).
      * f_equal; [|ring]. apply sumn_ext. intros k Hk. unfold Bplanar.
        replace ((i <? 2) && (j <? 2))%bool with true by (symmetry; apply andb_true_iff; split; apply Nat.ltb_lt; assumption). unfold Bcart. rewrite (f_dNx F) by assumption. ring.
      * rewrite sumn_delta by assumption. ring.
    + rewrite sumn_swap. rewrite <- sumn_scal. apply sumn_ext. intros m Hm. rewrite sumn_scal_r, cof_integral, HW by assumption. ring.
Qed.

Definition flux (X u : list (list R)) (i j : nat) (p q : nat) : R := mean u j (p, q) * normal X i (p, q).
Lemma flux_odd X u i j : odd (flux X u i j).
Proof. intros p q. unfold flux, mean, normal. cbn [fst snd]. destruct i; field. Qed.

Lemma sheet_total nelem th x E conn X u ue c i j : sheet_obj nelem th x E -> valid_call nelem c -> Spec.shape2 conn nelem 4 -> on_mesh conn nelem X x -> nodal_elem conn nelem u ue ->
  (i < 2)%nat -> (j < 2)%nat -> total nelem E (el_GradN_vector E c ue) i j = th * along (flux X u i j) (flat_map sides conn).
Proof.
  intros HE Hc Sc HX Hu Hi Hj. unfold total. rewrite along_flat.
  rewrite (sumL_nth conn [] (fun e => along (flux X u i j) (sides e))), (proj1 Sc), <- sumn_scal. apply sumn_ext. intros e He.
  rewrite (sheet_element nelem th x E) by assumption. pose proof (row4 conn nelem Sc e He) as Er. rewrite (nth_error_nth _ _ [] Er), along_quad.
  rewrite sumn4. rewrite !Hu by (assumption || lia).
  assert (N : forall m k, (m < 4)%nat -> (k < 2)%nat -> nodes x e m k = val2 X (idx2 conn e m) k) by (intros; unfold nodes; now apply HX).
  unfold flux, mean, normal, turn. cbn [fst snd Nat.add]. change (1 mod 4)%nat with 1%nat. change (2 mod 4)%nat with 2%nat. change (3 mod 4)%nat with 3%nat. change (4 mod 4)%nat with 0%nat. change (5 mod 4)%nat with 1%nat. change (6 mod 4)%nat with 2%nat.
  destruct i as [|]; rewrite !N by lia; field.
Qed.

(** ** rectangles with corresponding nodes on opposite sides *)
Lemma sum_const_steps k (g : nat -> R) a : sumn k (fun i => a * (g (i + 1)%nat - g i)) = a * (g k - g 0%nat).
Proof. now rewrite sumn_scal, telescope. Qed.

Section Rect.
Variables (X u : list (list R)) (Lx Ly : R) (F : nat -> nat -> R) (kx ky : nat) (b t l r : nat -> nat).
Hypothesis Pb : forall i, (i <= kx)%nat -> val2 X (b i) 1 = 0 /\ val2 X (t i) 1 = Ly /\ val2 X (t i) 0 = val2 X (b i) 0.
Hypothesis Pl : forall i, (i <= ky)%nat -> val2 X (l i) 0 = 0 /\ val2 X (r i) 0 = Lx /\ val2 X (r i) 1 = val2 X (l i) 1.
Hypothesis E1 : val2 X (b 0%nat) 0 = 0 /\ val2 X (b kx) 0 = Lx.
Hypothesis E2 : val2 X (l 0%nat) 1 = 0 /\ val2 X (l ky) 1 = Ly.
Hypothesis Ub : forall i j, (i <= kx)%nat -> (j < 2)%nat -> val2 u (t i) j = val2 u (b i) j + F j 1%nat * Ly.
Hypothesis Ul : forall i j, (i <= ky)%nat -> (j < 2)%nat -> val2 u (r i) j = val2 u (l i) j + F j 0%nat * Lx.

Lemma rect_flux i j : (i < 2)%nat -> (j < 2)%nat ->
  along (flux X u i j) (outline (map b (seq 0 (kx + 1))) (map r (seq 0 (ky + 1))) (map t (seq 0 (kx + 1))) (map l (seq 0 (ky + 1)))) = F j i * (Lx * Ly).
Proof.
  intros Hi Hj. rewrite along_outline by apply flux_odd. rewrite !along_map0. unfold flux, mean, normal. cbn [fst snd]. destruct i as [|[|]]; [| |lia].
  - rewrite (sumn_zero kx (fun i => _ * (val2 X (b (i + 1)%nat) 1 - val2 X (b i) 1))).
    2:{ intros i Hk. rewrite (proj1 (Pb i ltac:(lia))), (proj1 (Pb (i + 1)%nat ltac:(lia))). ring. }
    rewrite (sumn_zero kx (fun i => _ * (val2 X (t (i + 1)%nat) 1 - val2 X (t i) 1))).
    2:{ intros i Hk. rewrite (proj1 (proj2 (Pb i ltac:(lia)))), (proj1 (proj2 (Pb (i + 1)%nat ltac:(lia)))). ring. }
    rewrite (sumn_ext ky (fun i => _ * (val2 X (r (i + 1)%nat) 1 - val2 X (r i) 1))
      (fun i => (val2 u (l i) j + val2 u (l (i + 1)%nat) j) / 2 * (val2 X (l (i + 1)%nat) 1 - val2 X (l i) 1) + F j 0%nat * Lx * (val2 X (l (i + 1)%nat) 1 - val2 X (l i) 1))).
    2:{ intros i Hk. rewrite !Ul by (assumption || lia). rewrite (proj2 (proj2 (Pl i ltac:(lia)))), (proj2 (proj2 (Pl (i + 1)%nat ltac:(lia)))). field. }
    rewrite sumn_plus, (sum_const_steps ky (fun i => val2 X (l i) 1)). rewrite (proj1 E2), (proj2 E2). ring.
  - rewrite (sumn_zero ky (fun i => _ * - (val2 X (r (i + 1)%nat) 0 - val2 X (r i) 0))).
    2:{ intros i Hk. rewrite (proj1 (proj2 (Pl i ltac:(lia)))), (proj1 (proj2 (Pl (i + 1)%nat ltac:(lia)))). ring. }
    rewrite (sumn_zero ky (fun i => _ * - (val2 X (l (i + 1)%nat) 0 - val2 X (l i) 0))).
    2:{ intros i Hk. rewrite (proj1 (Pl i ltac:(lia))), (proj1 (Pl (i + 1)%nat ltac:(lia))). ring. }
    rewrite (sumn_ext kx (fun i => _ * - (val2 X (t (i + 1)%nat) 0 - val2 X (t i) 0))
      (fun i => (val2 u (b i) j + val2 u (b (i + 1)%nat) j) / 2 * - (val2 X (b (i + 1)%nat) 0 - val2 X (b i) 0) + - (F j 1%nat * Ly) * (val2 X (b (i + 1)%nat) 0 - val2 X (b i) 0))).
    2:{ intros i Hk. rewrite !Ub by (assumption || lia). rewrite (proj2 (proj2 (Pb i ltac:(lia)))), (proj2 (proj2 (Pb (i + 1)%nat ltac:(lia)))). field. }
    rewrite sumn_plus, (sum_const_steps kx (fun i => val2 X (b i) 0)). rewrite (proj1 E1), (proj2 E1). ring.
Qed.
End Rect.
