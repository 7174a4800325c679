(** A concrete case for the theorems on programs: a square of one Quad4 element with one integration point, a linear isotropic material. *)
From Coq Require Import Reals Lra Lia.
From Verif Require Import Model_Element Spec_Element Proof_Element Proof_ElementQuad4 Proof_ElementMath Base Spec Sums Spec_Vector Spec_Matrix Spec_MatrixOps Model_Numbering Model_Vector Model_VectorPartitioned
  Model_Sparse Model_Matrix Model_MatrixPartitioned Model_MatrixDiagonal Model_MeshGeometry Model_Pipeline Spec_Pipeline
  Proof_Vector Proof_Matrix Proof_MatrixPartitioned Proof_PipelineElem Proof_Pipeline Proof_PipelineBalance.

(** nodes (0,0), (1,0), (1,1), (0,1) *)
Definition sq : arr := fun k => match k with [0; m; i] => match m, i with 1, 0 | 2, 0 | 2, 1 | 3, 1 => 1%R | _, _ => 0%R end | _ => 0%R end.
Definition sq_conn := [[0; 1; 2; 3]].
Definition sq_dofs := [[0; 1]; [2; 3]; [4; 5]; [6; 7]].
Definition junk : arr := fun _ => 7%R.
Definition sqQ : Quadrature := Quad4_new [0] 1 sq 1 (MidPoint4_xi junk) (MidPoint4_w junk) junk junk junk junk junk.
Definition sqE : Elem := Quad4_elem sqQ.
Definition sq_v : Vector := mkVector sq_conn 4 sq_dofs 2.
Definition sq_call : call := mkCall [0] junk.
Definition sq_iip := [0; 1; 2; 3; 4; 5; 6].
(** C : A = the symmetric part of A *)
Definition Isym : arr := fun k => match k with [_;_;i;j;k;l] => ((ind ((i =? l) && (j =? k)) + ind ((i =? k) && (j =? l))) / 2)%R | _ => 0%R end.

Lemma sq_obj : Quad4_obj 1 1 (MidPoint4_xi junk) (MidPoint4_w junk) sq sqQ.
Proof. apply Quad4_obj_new. reflexivity. Qed.
Lemma sq_elem : elem_obj 1 sq sqE.
Proof. econstructor. exact sq_obj. Qed.
Lemma sq_valid : valid_call 1 sq_call.
Proof. unfold valid_call, schedule. cbn. reflexivity. Qed.
Lemma sq_mesh : mesh_dofs sq_conn sq_dofs 1 4 4 2 8.
Proof.
  split.
  - split; [reflexivity|]. intros r [<-|[]]; reflexivity.
  - split; [reflexivity|]. cbn. intuition (subst; reflexivity).
  - intros e m He Hm. destruct e; [|lia]. destruct m as [|[|[|[|]]]]; cbn; lia.
  - reflexivity.
Qed.
Lemma sq_prescribed : prescribed 8 sq_iip.
Proof. split; [repeat constructor; cbn; lia|]. cbn. lia. Qed.
Lemma sq_holes : no_holes sq_dofs 8.
Proof. intros d Hd. cbn. lia. Qed.

Lemma sq_jac : jac2 (nodes sq 0) (point (MidPoint4_xi junk) 0) = (/ 4)%R.
Proof. unfold jac2, dinterp2. rewrite !sumn4. unfold dshape2, nodes, sq, point, MidPoint4_xi. blk. cbn. lra. Qed.
Lemma sq_vol : el_dV sqE [0;0] = (/ 4)%R.
Proof.
  cbn [sqE Quad4_elem el_dV]. rewrite (f_vol (Quad4_facts _ _ _ _ _ _ sq_obj)) by lia. rewrite sq_jac. cbv beta. unfold MidPoint4_w. blk. lra.
Qed.
Lemma sq_dNx3 : q_dNx sqQ [0;0;3;0] = (- / 2)%R /\ q_dNx sqQ [0;0;3;1] = (/ 2)%R.
Proof.
  rewrite !(f_dNx (Quad4_facts _ _ _ _ _ _ sq_obj)) by lia. unfold gshape2. rewrite sq_jac. unfold dinterp2. rewrite !sumn4. unfold dshape2, nodes, sq, point, MidPoint4_xi. blk. cbn. lra.
Qed.
(** the stiffness of the vertical displacement of the last node *)
Lemma sq_K77 c : valid_call 1 c -> el_Int_gradN_dot_tensor4_dot_gradNT_dV sqE c Isym [0;7;7] = (3 / 32)%R.
Proof.
  intros Hc. pose proof (o_stiff 1 sqE _ (Quad4_raw _ _ _ _ _ _ sq_obj) c Isym 0 3 1 3 1 Hc ltac:(cbn; lia) ltac:(cbn; lia) ltac:(cbn; lia) ltac:(cbn; lia) ltac:(cbn; lia)) as H.
  change (3 * el_ndim sqE + 1) with 7 in H. etransitivity; [exact H|]. change (el_nip sqE) with 1. change (el_tdim sqE) with 2. unfold sumn, sumL. cbn [seq fold_right].
  rewrite sq_vol. unfold Bcart. destruct sq_dNx3 as [-> ->]. unfold Isym, ind. cbn. lra.
Qed.

Lemma Isym_minor n E : minor_symmetric n E Isym.
Proof. intros e q i j He Hq Hi Hj k l Hk Hl. unfold Isym. now rewrite Rplus_comm. Qed.
Lemma Isym_major n E : major_symmetric n E Isym.
Proof.
  intros e q i j He Hq Hi Hj k l Hk Hl. unfold Isym. rewrite (Nat.eqb_sym l i), (Nat.eqb_sym k j), (Nat.eqb_sym l j), (Nat.eqb_sym k i).
  now rewrite (andb_comm (j =? l)).
Qed.
Lemma sq_positive : positive_stiffness 1 sqE Isym.
Proof.
  intros A e q He Hq. cbn [sqE Quad4_elem el_tdim]. unfold sumn, sumL, ddot42, sumn, sumL. cbn [seq fold_right]. unfold Isym, ind. cbn [Nat.eqb andb].
  set (a := A [e;q;0;0]). set (b := A [e;q;0;1]). set (c := A [e;q;1;0]). set (d := A [e;q;1;1]).
  assert (0 <= a * a + d * d + (b + c) * (b + c) / 2)%R by (pose proof (Rle_0_sqr a); pose proof (Rle_0_sqr d); pose proof (Rle_0_sqr (b + c)); unfold Rsqr in *; lra). match goal with |- (0 <= ?t)%R => replace t with (a * a + d * d + (b + c) * (b + c) / 2)%R by field end. assumption.
Qed.
Lemma sq_volume : positive_volume 1 sqE.
Proof.
  intros e q He Hq. cbn [sqE Quad4_elem el_nip] in Hq. change (q_nip sqQ) with 1 in Hq. assert (e = 0) as -> by lia. assert (q = 0) as -> by lia. rewrite sq_vol. lra.
Qed.

(** the solver of the system with one unknown solves it *)
Lemma sq_solves K0 K K' c : new_MatrixPartitioned sq_v sq_iip = Ok K0 -> MP_p K = MP_p K0 -> valid_call 1 c -> MP_assemble K (element_stiffness sq_v sqE c Isym) = Ok K' -> solves div1 (A_uu K').
Proof.
  intros E0 Ep Hc Ea. pose proof (K_shape sq_v sqE 1 4 8 eq_refl eq_refl sq_mesh _ (Quad4_raw _ _ _ _ _ _ sq_obj) c Isym) as SK.
  destruct (assemble_step sq_v sqE 1 4 8 eq_refl eq_refl sq_mesh _ (Quad4_raw _ _ _ _ _ _ sq_obj) sq_iip sq_prescribed sq_holes div1 [] K0 K0 new_Solver _ (Forall_nil _) E0 eq_refl SK) as [K1 [E1 [[_ H1] _]]].
  assert (EA : A_uu K' = A_uu K1).
  { clear H1 E0. revert Ea E1. unfold MP_assemble. rewrite Ep. destruct (elemmat_triplets _ _ _); cbn [bind]; try discriminate.
    destruct (part_blocks _ _); cbn [bind]; try discriminate. intros [= <-] [= <-]. reflexivity. }
  rewrite EA. clear Ea EA E1. destruct H1 as [[[R1 [C1 _]] _] V1 _ _ _].
  apply solves1; [rewrite R1; reflexivity|rewrite C1; reflexivity|]. rewrite V1 by (cbn; lia).
  change (nth 0 (setdiff1d (concat (m_dofs sq_v)) sq_iip) 0) with 7. 
  change (el_nne sqE) with 4. change (el_ndim sqE) with 2.
  assert (V : assembled (m_conn sq_v) (m_dofs sq_v) 1 4 2 (element_stiffness sq_v sqE c Isym) 7 7 = val3 (element_stiffness sq_v sqE c Isym) 0 7 7).
  { unfold assembled, sum_elem, sum_node, sumn, sumL. generalize (val3 (element_stiffness sq_v sqE c Isym)). intro kv. unfold ind. cbn. ring. }
  rewrite V, (K_val sq_v sqE 1 4 8 eq_refl eq_refl sq_mesh _ (Quad4_raw _ _ _ _ _ _ sq_obj)) by (cbn; lia). rewrite sq_K77 by exact Hc. lra.
Qed.

(** a run *)
Definition sq_mem : run_memory := {| r_eps0 := sq_call; r_f0 := sq_call; r_K := sq_call; r_eps1 := sq_call; r_f1 := sq_call; r_order := list_prod (seq 0 4) (seq 0 2) |}.
Lemma sq_memory : valid_memory 1 4 2 sq_mem.
Proof. repeat apply conj; try exact sq_valid. reflexivity. Qed.
Definition nodes4 (a b c d e f g h : R) : list (list R) := [[a; b]; [c; d]; [e; f]; [g; h]].
Lemma sq_nodal a b c d e f g h : nodal sq_dofs 4 2 (nodes4 a b c d e f g h).
Proof.
  split; [split; [reflexivity|]; cbn; intuition (subst; reflexivity)|].
  intros m i n j Hm Hi Hn Hj. destruct m as [|[|[|[|]]]]; try lia; destruct n as [|[|[|[|]]]]; try lia; destruct i as [|[|]]; try lia; destruct j as [|[|]]; try lia; cbn; intros Eq; try discriminate; reflexivity.
Qed.
Lemma sq_cart : cartesian_obj 1 sq sqE.
Proof. econstructor. exact sq_obj. Qed.
Lemma sq_regular : regular2_obj 1 sq sqE.
Proof. econstructor; [exact sq_obj|]. intros e q He Hq. assert (e = 0) as -> by lia. assert (q = 0) as -> by lia. rewrite sq_jac. lra. Qed.

(** the square of one strain component as a stress *)
Definition law2 : arr -> arr := fun A k => match k with [e;q;0;0] => (A [e;q;0;0]%nat * A [e;q;0;0]%nat)%R | _ => 0%R end.
Definition tan2 (A : arr) : arr := fun k => match k with [e;q;0;0;0;0] => (2 * A [e;q;0;0]%nat)%R | _ => 0%R end.
Lemma law2_local n E : 0 < el_tdim E -> local_law n E law2.
Proof. intros Hd A B e q He Hq H i j Hi Hj. unfold law2. destruct i; [|reflexivity]. destruct j; [|reflexivity]. now rewrite H by lia. Qed.
Lemma law2_tangent A : tangent_at 1 sqE law2 A (tan2 A).
Proof.
  intros D e q i j He Hq Hi Hj. cbn in Hi, Hj. change (el_tdim sqE) with 2. unfold ddot42, sumn, sumL. cbn [seq fold_right].
  destruct i as [|i].
  - destruct j as [|j].
    + cbn [tan2 law2]. apply (derivable_pt_lim_ext (fun t => (A [e;q;0;0]%nat + t * D [e;q;0;0]%nat) * (A [e;q;0;0]%nat + t * D [e;q;0;0]%nat))%R); [reflexivity|].
      set (a := A [e;q;0;0]). set (d := D [e;q;0;0]).
      assert (L : derivable_pt_lim (fun t => a + t * d)%R 0 (0 + 1 * d)%R).
      { apply (derivable_pt_lim_plus (fun _ => a) (fun t => t * d)%R); [apply derivable_pt_lim_const|].
        apply deriv_scal_r. apply derivable_pt_lim_id. }
      pose proof (derivable_pt_lim_mult _ _ _ _ _ L L) as P. unfold mult_fct in P. match type of P with derivable_pt_lim _ _ ?l => match goal with |- derivable_pt_lim _ _ ?m => replace m with l by ring end end. exact P.
    + cbn [tan2 law2]. match goal with |- derivable_pt_lim _ _ ?m => replace m with 0%R by ring end. apply derivable_pt_lim_const.
  - cbn [tan2 law2]. match goal with |- derivable_pt_lim _ _ ?m => replace m with 0%R by ring end. apply derivable_pt_lim_const.
Qed.
Lemma tan2_minor A n E : minor_symmetric n E (tan2 A).
Proof. intros e q i j He Hq Hi Hj k l Hk Hl. unfold tan2. destruct i; [|reflexivity]. destruct j; [|reflexivity]. destruct k, l; reflexivity. Qed.

(** a pressure, and a force of it *)
Definition pressure : arr := fun k => match k with [_;_;i;j] => ind (i =? j)%nat | _ => 0%R end.
Lemma sq_force : el_Int_gradN_dot_tensor2_dV sqE sq_call pressure [0;3;1] = (/ 8)%R.
Proof.
  rewrite (o_force 1 sqE _ (Quad4_raw _ _ _ _ _ _ sq_obj)) by (try exact sq_valid; cbn; lia).
  change (el_nip sqE) with 1. change (el_tdim sqE) with 2. unfold sumn, sumL. cbn [seq fold_right].
  rewrite sq_vol. unfold Bcart. destruct sq_dNx3 as [-> ->]. unfold pressure, ind. cbn. lra.
Qed.
