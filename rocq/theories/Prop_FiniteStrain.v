(** Properties C106 and C107: a periodic cell at large deformations (docs/examples/statics/periodic_elastoplastic_finite-strain.py). *)
From Coq Require Import Reals Lra Lia FunctionalExtensionality.
From Verif Require Import Model_Element Spec_Element Base Spec Sums Spec_Vector Spec_Matrix Spec_Tyings Model_Numbering Model_Vector Proof_Vector Model_Sparse Model_Tyings Prop_Tyings
  Model_Matrix Proof_Matrix Model_MatrixPartitioned Model_MatrixTyings Spec_MatrixTyings Proof_MatrixTyings Proof_Tyings2 Model_MeshGeometry Model_Pipeline Spec_Pipeline Proof_PipelineElem Proof_Pipeline Proof_PipelineBalance
  Model_PeriodicProgram Spec_Periodic Proof_Periodic Proof_PeriodicNodes Prop_Periodic Spec_Macro Proof_Macro Prop_Macro Spec_Deform Proof_Deform Prop_Deform Model_FiniteStrain Spec_FiniteStrain Proof_FiniteStrain.

(** C106: any number of iterations succeeds, for any material, tangent and orders of the parallel loops, if the linear solver solves the system of each iteration.  The displacement
    stays periodic, and where it is prescribed it is the sum of the prescribed updates; the element object has the coordinates of the deformed mesh. *)
Theorem C106_run : forall coor dofs ties fixed nnode nelem conn, cell coor dofs ties fixed nnode 2 -> connects conn nelem 4 nnode ->
  forall ps, periodic_setup coor nnode 2 dofs conn 4 ties fixed = Ok ps ->
  let t := ps_t ps in
  let n := nnode + 2 in
  let v := mkVector conn 4 (tp_dofs t) 2 in
  let ndof := tp_nnu t + tp_nnp t + tp_nnd t in
  let T := tie (tp_nnu t) (tp_nnu t + tp_nnp t) (vt_Cdu (ps_vector ps)) (vt_Cdp (ps_vector ps)) in
  forall linsolve ops K s, Forall (valid_top nelem 4 2) ops -> foldM (run_top linsolve) ops (ps_K ps, new_Solver) = Ok (K, s) ->
  forall nip xi w thick x0 P0, Planar_obj nelem nip xi w thick x0 P0 ->
  let step := finite_newton linsolve (vt_v (ps_vector ps)) (ps_coor ps) (Planar_elem P0) in
  forall disp x P, periodic_disp coor ties nnode 2 disp -> current conn nelem 4 2 coor disp x -> Planar_obj nelem nip xi w thick x P ->
  forall its, Forall (fun fi => valid_memory nelem n 2 (it_mem (fi_it fi)) /\ shape2 (it_fext (fi_it fi)) n 2 /\ shape2 (it_du (fi_it fi)) n 2 /\ schedule nelem (fi_es fi)) its ->
  systems_solved step (fun st fi => solves_matrix linsolve (tp_nnu t) (condensed ndof T
     (assembled conn (tp_dofs t) nelem 4 2 (element_stiffness v (Planar_elem (fs_elem st)) (r_K (it_mem (fi_it fi))) (it_C (fi_it fi)))))) its (mkFS disp P K s) ->
  exists st', foldM step its (mkFS disp P K s) = Ok st' /\ periodic_disp coor ties nnode 2 (fs_disp st') /\
    (forall m i, m < n -> i < 2 -> prescribed_node fixed nnode m -> val2 (fs_disp st') m i = (val2 disp m i + sumL its (fun fi => val2 (it_du (fi_it fi)) m i))%R) /\
    exists x', current conn nelem 4 2 coor (fs_disp st') x' /\ Planar_obj nelem nip xi w thick x' (fs_elem st').
Proof.
  intros coor dofs ties fixed nnode nelem conn HC Hc ps Eps t n v ndof T linsolve ops K s Hops EK nip xi w thick x0 P0 H0 step disp x P Hd Hx HP its Hits HS.
  destruct (ps_facts _ _ _ _ _ _ HC conn 4 ps Eps) as [Et [ECu [ECp [ECi [EX [_ [Ev EKn]]]]]]]. pose proof (c_input _ _ _ _ _ _ HC) as HI.
  assert (Hc' : connects conn nelem 4 n) by (destruct Hc as [Sc Hcc]; split; [exact Sc|]; intros e m He Hm; specialize (Hcc e m He Hm); unfold n; lia).
  assert (HE : elem_obj nelem x (Planar_elem P)) by (econstructor; exact HP).
  pose proof (Hmd _ _ _ _ _ _ conn nelem x _ HE HI Hc' t Et) as HM. pose proof (Hholes _ _ _ _ _ _ (Planar_elem P) HI t Et) as HH.
  pose proof (sizes _ _ _ _ _ _ _ HI t Et _ _ ECu ECp) as SZ. rewrite EKn in EK.
  destruct (run_history v nelem 4 n 2 ndof eq_refl eq_refl HM HH _ _ _ _ _ SZ eq_refl linsolve ops K s Hops EK) as [Ha Hf].
  pose proof (proj1 (c_tied _ _ _ _ _ _ HC disp) Hd) as [Sd Td]. unfold step in HS |- *. rewrite Ev in HS |- *. rewrite <- EX in Td.
  destruct (run coor dofs ties fixed nnode nelem conn HC Hc ps Eps nip xi w thick P0 x0 H0 linsolve its Hits (mkFS disp P K s) _ (fun j k => val2 disp (nnode + j) k) Ha Hf) as [st' [F' [E1 [N1 [T1 [V1 L1]]]]]].
  { now apply (c_nodal _ _ _ _ _ _ HC). } { exact Td. } { exists x. split; assumption. } { exact HS. }
  exists st'. split; [exact E1|]. rewrite EX in T1. apply (c_nodal _ _ _ _ _ _ HC) in N1. split; [now apply (c_tied_F _ _ _ _ _ _ HC _ F')|]. split; [exact V1|exact L1].
Qed.
Print Assumptions C106_run.

(** the start of the program: no displacement, and element objects with the coordinates of the mesh *)
Theorem C106_start : forall coor dofs ties fixed nnode nelem conn, cell coor dofs ties fixed nnode 2 -> connects conn nelem 4 nnode ->
  forall ps, periodic_setup coor nnode 2 dofs conn 4 ties fixed = Ok ps ->
  exists xe, AsElement_nodevec (vt_v (ps_vector ps)) (ps_coor ps) = Ok xe /\
    current conn nelem 4 2 coor (repeat [0; 0]%R (nnode + 2)) (of_rows xe) /\ coordinates conn nelem 4 2 coor (of_rows xe) /\ periodic_disp coor ties nnode 2 (repeat [0; 0]%R (nnode + 2)).
Proof.
  intros coor dofs ties fixed nnode nelem conn HC Hc ps Eps.
  destruct (ps_facts _ _ _ _ _ _ HC conn 4 ps Eps) as [Et [_ [_ [_ [EX [_ [Ev _]]]]]]].
  set (x0 := fun _ : list nat => 0%R). set (Q := Planar_new (seq 0 nelem) nelem x0 4 (Gauss4_xi x0) (Gauss4_w x0) 1 x0 x0 x0 x0 x0).
  assert (HQ : Planar_obj nelem 4 (Gauss4_xi x0) (Gauss4_w x0) 1 x0 Q) by (apply Planar_obj_new; apply Permutation_refl).
  pose proof (mesh coor dofs ties fixed nnode nelem conn HC Hc ps Eps 4 _ _ 1 Q x0 HQ (fun _ b => b)) as HM.
  pose proof (coor_shape coor dofs ties fixed nnode nelem conn HC Hc ps Eps 4 _ _ 1 Q x0 HQ (fun _ b => b)) as SC.
  rewrite Ev. destruct (AsElement_nodevec_spec (mkVector conn 4 (tp_dofs (ps_t ps)) 2) nelem 4 (nnode + 2) 2 _ eq_refl eq_refl HM _ SC) as [xe [Ex [_ Vx]]]. exists xe. split; [exact Ex|].
  assert (X : coordinates conn nelem 4 2 coor (of_rows xe)).
  { intros e m i He Hm Hi. rewrite of_rows_val, Vx by assumption. cbn [m_conn]. rewrite EX. destruct (c_shape _ _ _ _ _ _ HC) as [_ [_ [_ [_ [C1 _]]]]]. exact (proj1 (C1 _ i (proj2 Hc e m He Hm) Hi)). }
  assert (Z : forall m i, val2 (repeat [0; 0]%R (nnode + 2)) m i = 0%R).
  { intros m i. unfold val2, nth2. destruct (le_lt_dec (nnode + 2) m) as [L|L].
    - rewrite (nth_overflow (repeat _ _)) by (rewrite repeat_length; lia). now destruct i.
    - rewrite nth_indep with (d' := [0; 0]%R) by (rewrite repeat_length; lia). rewrite nth_repeat. destruct i as [|[|[|i]]]; reflexivity. }
  split; [|split; [exact X|]].
  - intros e m i He Hm Hi. rewrite Z, (X e m i He Hm Hi). ring.
  - split.
    + split; [now rewrite repeat_length|]. intros r Hr. apply repeat_spec in Hr. now rewrite Hr.
    + intros a b j Hab Hj. rewrite !Z, sumn_zero; [ring|]. intros k Hk. rewrite Z. ring.
Qed.
Print Assumptions C106_start.

(** C106: what the control nodes feel.  When the forces on the unknown DOFs are zero, the force on control node j is the integral over the reference body of the first
    Piola-Kirchhoff stress that belongs to the Cauchy stress [sig] in the deformed body, and the power of [sig] in the deformed body is that of this macroscopic stress. *)
Theorem C106_stress : forall coor dofs ties o nnode nelem conn, cell coor dofs ties [o] nnode 2 -> connects conn nelem 4 nnode ->
  forall ps, periodic_setup coor nnode 2 dofs conn 4 ties [o] = Ok ps ->
  let t := ps_t ps in
  let n := nnode + 2 in
  let v := mkVector conn 4 (tp_dofs t) 2 in
  forall nip xi w thick x0 P0 x P disp, Planar_obj nelem nip xi w thick x0 P0 -> coordinates conn nelem 4 2 coor x0 ->
  (forall e q, e < nelem -> q < nip -> jac2 (nodes x0 e) (point xi q) <> 0%R) ->
  shape2 disp n 2 -> current conn nelem 4 2 coor disp x -> Planar_obj nelem nip xi w thick x P ->
  let E0 := Planar_elem P0 in
  let E := Planar_elem P in
  forall ue c c' c0 sig Pn, AsElement_nodevec v disp = Ok ue -> valid_call nelem c -> valid_call nelem c' -> valid_call nelem c0 ->
  let F := defgrad (el_GradN_vector E0 c0 (of_rows ue)) in
  (forall e q, e < nelem -> q < nip -> det_of 3 (F e q) <> 0%R) -> nominal nelem E0 F sig Pn ->
  forall os fint fext Fx Fi, (forall k, Permutation (os k) (list_prod (seq 0 n) (seq 0 2))) ->
  AssembleNode v (to_rows nelem 4 2 (el_Int_gradN_dot_tensor2_dV E c sig)) = Ok fint -> shape2 fext n 2 ->
  periodic_forces (ps_vector ps) os fext fint = Ok (Fx, Fi) -> (forall d, d < tp_nnu t -> val1 Fi d = 0%R) ->
  (forall j k, j < 2 -> k < 2 -> val1 Fi (idx2 (tp_dofs t) (nnode + j) k) = total nelem E0 Pn k j) /\
  (forall wd we, periodic_disp coor ties nnode 2 wd -> AsElement_nodevec v wd = Ok we ->
     integral nelem E sig (el_GradN_vector E c' (of_rows we)) = sumn 2 (fun j => sumn 2 (fun k => val2 wd (nnode + j) k * total nelem E0 Pn k j))%R).
Proof.
  intros coor dofs ties o nnode nelem conn HC Hc ps Eps t n v nip xi w thick x0 P0 x P disp H0 HX0 HJ Sd HX HP E0 E ue c c' c0 sig Pn Eu Vc Vc' Vc0 F HF HN os fint fext Fx Fi Hos Ef Sx EF HZ.
  set (u := fun k => (x k - x0 k)%R).
  assert (Ed : displaced x0 u = x) by (apply functional_extensionality; intros k; unfold displaced, u; ring).
  assert (HD : deformed nelem x0 u E0 E) by (apply (def_Planar nelem x0 u nip xi w thick P0 P H0); [rewrite Ed; exact HP|exact HJ]).
  assert (N0 : el_nip E0 = nip) by exact (Proof_ElementQuad4.f_nip (proj2 (Proof_ElementQuad4.Planar_facts _ _ _ _ _ _ _ H0))).
  pose proof (mesh coor dofs ties [o] nnode nelem conn HC Hc ps Eps nip xi w thick P0 x0 H0 (fun _ b => b)) as HM.
  destruct (AsElement_nodevec_spec v nelem 4 n 2 _ eq_refl eq_refl HM disp Sd) as [ue' [Eu' [_ Vu]]]. rewrite Eu in Eu'. injection Eu' as Eu'. rewrite <- Eu' in Vu.
  assert (Hu : forall e m k, e < nelem -> m < 4 -> k < 2 -> u [e;m;k] = of_rows ue [e;m;k]).
  { intros e m k He Hm Hk. rewrite of_rows_val, Vu by assumption. cbn [m_conn v]. unfold u. rewrite (HX e m k), (HX0 e m k) by assumption. ring. }
  pose proof (Planar_raw _ _ _ _ _ _ _ H0) as R0.
  assert (EqF : forall e q, e < nelem -> q < nip -> forall i j, i < 3 -> j < 3 -> defgrad (el_GradN_vector E0 c0 u) e q i j = F e q i j).
  { intros e q He Hq i j Hi Hj. unfold F, defgrad. f_equal. apply (o_grad2 nelem E0 _ R0); try assumption; try (now rewrite N0). intros m k Hm Hk. now apply Hu. }
  assert (Det : forall e q, e < nelem -> q < nip -> det_of 3 (defgrad (el_GradN_vector E0 c0 u) e q) = det_of 3 (F e q)).
  { intros e q He Hq. cbn [det_of]. rewrite !(EqF e q He Hq) by lia. reflexivity. }
  assert (HN' : nominal nelem E0 (defgrad (el_GradN_vector E0 c0 u)) sig Pn).
  { intros e q i j He Hq Hi Hj. pose proof (HN e q i j He Hq Hi Hj) as Hn. rewrite N0 in Hq. change (el_tdim E0) with 3 in *. rewrite (Det e q He Hq), <- Hn. apply sumn_ext. intros k Hk. now rewrite (EqF e q He Hq). }
  assert (HF' : forall e q, e < nelem -> q < el_nip E0 -> det_of (el_tdim E0) (defgrad (el_GradN_vector E0 c0 u) e q) <> 0%R).
  { intros e q He Hq. rewrite N0 in Hq. change (el_tdim E0) with 3. rewrite (Det e q He Hq). now apply HF. }
  assert (Same : to_rows nelem 4 2 (el_Int_gradN_dot_tensor2_dV E c sig) = to_rows nelem 4 2 (el_Int_gradN_dot_tensor2_dV E0 c Pn)).
  { unfold to_rows. apply map_ext_in. intros e He. apply map_ext_in. intros m Hm. apply map_ext_in. intros k Hk. apply in_seq in He, Hm, Hk.
    apply (C105_forces nelem x0 u E0 E HD eq_refl c c c0 Vc Vc Vc0 sig Pn HN' e m k); cbn [E0 el_nne el_ndim Planar_elem]; try lia. intros q Hq. apply HF'; [lia|exact Hq]. }
  rewrite Same in Ef.
  assert (HA : affine_obj nelem x0 E0) by (apply (aff_Planar nelem nip xi w thick x0 P0 H0 HJ)).
  destruct (C89_stress coor dofs ties o nnode nelem conn x0 E0 HA HC Hc HX0 ps Eps os c Pn fint fext Fx Fi Hos Vc Ef Sx EF HZ) as (S1 & _ & S3).
  split; [exact S1|]. intros wd we Hw Ew.
  rewrite (C105_power nelem x0 u E0 E HD eq_refl c' c' c0 Vc' Vc' Vc0 sig Pn (of_rows we) HN' HF'). exact (S3 c' wd we Vc' Hw Ew).
Qed.
Print Assumptions C106_stress.


(** C107: what the program passes to the material as deformation gradient is I + sym(grad u).  It is the deformation gradient where the displacement gradient is symmetric ... *)
Theorem C107_partial : forall nelem x E c u, elem_obj nelem x E -> valid_call nelem c -> forall e q i j, e < nelem -> q < el_nip E -> i < el_tdim E -> j < el_tdim E ->
  el_GradN_vector E c u [e;q;i;j] = el_GradN_vector E c u [e;q;j;i] -> material_F E c u [e;q;i;j] = defgrad (el_GradN_vector E c u) e q i j.
Proof.
  intros nelem x E c u HE Hc e q i j He Hq Hi Hj S. destruct (elem_obj_raw _ _ _ HE) as (B & R). unfold material_F, defgrad, I2. rewrite (r_sym _ _ _ R) by assumption. rewrite S. lra.
Qed.
Print Assumptions C107_partial.

(** ... so there the volumes change by its determinant *)
Theorem C107_volume_partial : forall nelem x u E E', deformed nelem x u E E' -> forall c, valid_call nelem c -> forall e q, e < nelem -> q < el_nip E ->
  (forall i j, i < el_tdim E -> j < el_tdim E -> el_GradN_vector E c u [e;q;i;j] = el_GradN_vector E c u [e;q;j;i]) ->
  el_dV E' [e;q] = (det_of (el_tdim E) (fun i j => material_F E c u [e;q;i;j]) * el_dV E [e;q])%R.
Proof.
  intros nelem x u E E' HD c Hc e q He Hq S. rewrite (C105_volume _ _ _ _ _ HD c Hc e q He Hq). f_equal.
  destruct (def_objs nelem x u E E' HD) as (HE & _).
  assert (M : forall i j, i < el_tdim E -> j < el_tdim E -> material_F E c u [e;q;i;j] = defgrad (el_GradN_vector E c u) e q i j).
  { intros i j Hi Hj. apply (C107_partial nelem x E c u HE Hc e q i j He Hq Hi Hj). now apply S. }
  assert (T : el_tdim E = 2 \/ el_tdim E = 3) by (destruct HD; unrec; auto).
  destruct T as [T|T]; rewrite T in M |- *; cbn [det_of]; rewrite !M by lia; reflexivity.
Qed.
Print Assumptions C107_volume_partial.

(** ... but not in general: the volumes do not change by its determinant (compare C105_volume), as a body that rotates shows *)
Definition C107_volume_claim : Prop := forall nelem x u E E', deformed nelem x u E E' -> forall c, valid_call nelem c ->
  forall e q, e < nelem -> q < el_nip E -> el_dV E' [e;q] = (det_of (el_tdim E) (fun i j => material_F E c u [e;q;i;j]) * el_dV E [e;q])%R.

(** a unit square that rotates over 90 degrees: (X, Y) becomes (-Y, X) *)
Definition square : arr := fun k => match k with [_;m;i] => corner2 m i | _ => 0%R end.
Definition turn : arr := fun k => match k with [_;m;0] => (- corner2 m 1 - corner2 m 0)%R | [_;m;1] => (corner2 m 0 - corner2 m 1)%R | _ => 0%R end.

Theorem C107_volume_refuted : ~ C107_volume_claim.
Proof.
  intros Claim. set (j := fun _ : list nat => 7%R). set (P := Planar_new [0] 1 square 4 (Gauss4_xi j) (Gauss4_w j) 1%R j j j j j).
  assert (S1 : schedule 1 [0]) by apply Permutation_refl.
  pose proof (Planar_obj_new 1 4 (Gauss4_xi j) (Gauss4_w j) 1%R [0] square j j j j j S1) as H. fold P in H.
  pose proof (Planar_obj_update 1 4 (Gauss4_xi j) (Gauss4_w j) 1%R [0] square P (displaced square turn) j S1 H) as H'.
  assert (J : forall p e, jac2 (nodes square e) p = 1%R).
  { intros p e. unfold jac2, dinterp2. rewrite !Proof_Element.sumn4. unfold nodes, square, dshape2, corner2. field. }
  assert (HD : deformed 1 square turn (Planar_elem P) (Planar_elem (Planar_update_x [0] j (displaced square turn) P))).
  { apply (def_Planar 1 square turn 4 _ _ 1%R _ _ H H'). intros e q He Hq. rewrite J. lra. }
  set (c := mkCall [0] j). assert (Hc : valid_call 1 c) by exact S1.
  assert (G : forall a b, a < 3 -> b < 3 -> el_GradN_vector (Planar_elem P) c turn [0;0;a;b] = nth2 0%R [[-1;1;0];[-1;-1;0];[0;0;0]]%R a b).
  { intros a b Ha Hb. unrec. cbn [c c_es c_old]. destruct (P_F _ _ _ _ _ _ turn _ c 0 0 H S1 ltac:(lia) ltac:(lia)) as (G & G1 & G2 & G3 & G4 & G5).
    cbn [c_es c_old c] in *.
    assert (GG : forall a b, a < 2 -> b < 2 -> Planar_gradN_vector [0] P turn j [0;0;a;b] = nth2 0%R [[-1;1;0];[-1;-1;0];[0;0;0]]%R a b).
    { intros a' b' Ha' Hb'. rewrite G, gsum by assumption. rewrite J. unfold dinterp2. rewrite !Proof_Element.sumn4. unfold nodes, square, turn, dshape2, corner2.
      clear - Ha' Hb'. revert a' Ha'. apply Proof_ElementQuad4.lt2; revert b' Hb'; apply Proof_ElementQuad4.lt2; cbn [Nat.eqb nth2 nth]; unfold nth2; cbn [nth]; field. }
    revert a Ha. apply Proof_ElementQuad4.lt3; revert b Hb; apply Proof_ElementQuad4.lt3; rewrite ?GG by lia; rewrite ?G1, ?G2, ?G3, ?G4, ?G5; reflexivity. }
  assert (M : forall a b, a < 3 -> b < 3 -> material_F (Planar_elem P) c turn [0;0;a;b] = if ((a =? 2) && (b =? 2))%bool then 1%R else 0%R).
  { intros a b Ha Hb. unfold material_F, I2. rewrite (r_sym _ _ _ (Planar_raw _ _ _ _ _ _ _ H)) by (assumption || (cbn; lia)). rewrite !G by assumption.
    revert a Ha. apply Proof_ElementQuad4.lt3; revert b Hb; apply Proof_ElementQuad4.lt3; unfold nth2; cbn [nth Nat.eqb andb]; lra. }
  pose proof (Claim _ _ _ _ _ HD c Hc 0 0 ltac:(lia) ltac:(cbn; lia)) as EQ.
  rewrite (C105_volume _ _ _ _ _ HD c Hc 0 0 ltac:(lia) ltac:(cbn; lia)) in EQ.
  assert (V : el_dV (Planar_elem P) [0;0] = 1%R).
  { unrec. rewrite (Proof_ElementQuad4.f_vol (proj2 (Proof_ElementQuad4.Planar_facts _ _ _ _ _ _ _ H))) by lia. rewrite J. change (Gauss4_w j [0]) with 1%R. lra. }
  change (el_tdim (Planar_elem P)) with 3 in EQ. rewrite V in EQ. cbn [det_of] in EQ. unfold defgrad in EQ. rewrite !M, !G in EQ by lia. unfold nth2 in EQ. cbn [nth Nat.eqb andb] in EQ. lra.
Qed.
Print Assumptions C107_volume_refuted.

(** C107_volume_partial: a square that is stretched to twice its width *)
Example C107_ex : let u : arr := fun k => match k with [_;m;0] => corner2 m 0 | _ => 0%R end in
  let j : arr := fun _ => 7%R in let c := mkCall [0] j in
  let P := Planar_new [0] 1 square 4 (Gauss4_xi j) (Gauss4_w j) 1%R j j j j j in
  deformed 1 square u (Planar_elem P) (Planar_elem (Planar_update_x [0] j (displaced square u) P)) /\
  (forall a b, a < 3 -> b < 3 -> el_GradN_vector (Planar_elem P) c u [0;0;a;b] = el_GradN_vector (Planar_elem P) c u [0;0;b;a]) /\
  material_F (Planar_elem P) c u [0;0;0;0] = 2%R /\ material_F (Planar_elem P) c u [0;0;1;1] = 1%R /\ material_F (Planar_elem P) c u [0;0;0;1] = 0%R.
Proof.
  intros u j c P.
  assert (S1 : schedule 1 [0]) by apply Permutation_refl.
  pose proof (Planar_obj_new 1 4 (Gauss4_xi j) (Gauss4_w j) 1%R [0] square j j j j j S1) as H. fold P in H.
  pose proof (Planar_obj_update 1 4 (Gauss4_xi j) (Gauss4_w j) 1%R [0] square P (displaced square u) j S1 H) as H'.
  assert (J : forall p e, jac2 (nodes square e) p = 1%R).
  { intros p e. unfold jac2, dinterp2. rewrite !Proof_Element.sumn4. unfold nodes, square, dshape2, corner2. field. }
  assert (Hc : valid_call 1 c) by exact S1.
  assert (G : forall a b, a < 3 -> b < 3 -> el_GradN_vector (Planar_elem P) c u [0;0;a;b] = if ((a =? 0) && (b =? 0))%bool then 1%R else 0%R).
  { intros a b Ha Hb. unrec. cbn [c c_es c_old]. destruct (P_F _ _ _ _ _ _ u _ c 0 0 H S1 ltac:(lia) ltac:(lia)) as (G & G1 & G2 & G3 & G4 & G5).
    cbn [c_es c_old c] in *.
    assert (GG : forall a b, a < 2 -> b < 2 -> Planar_gradN_vector [0] P u j [0;0;a;b] = if ((a =? 0) && (b =? 0))%bool then 1%R else 0%R).
    { intros a' b' Ha' Hb'. rewrite G, gsum by assumption. rewrite J. unfold dinterp2. rewrite !Proof_Element.sumn4. unfold nodes, square, u, dshape2, corner2.
      clear - Ha' Hb'. revert a' Ha'. apply Proof_ElementQuad4.lt2; revert b' Hb'; apply Proof_ElementQuad4.lt2; cbn [Nat.eqb andb]; field. }
    revert a Ha. apply Proof_ElementQuad4.lt3; revert b Hb; apply Proof_ElementQuad4.lt3; rewrite ?GG by lia; rewrite ?G1, ?G2, ?G3, ?G4, ?G5; reflexivity. }
  split; [|split].
  - apply (def_Planar 1 square u 4 _ _ 1%R _ _ H H'). intros e q He Hq. rewrite J. lra.
  - intros a b Ha Hb. rewrite !G by assumption. now rewrite Bool.andb_comm.
  - unfold material_F, I2. rewrite !(r_sym _ _ _ (Planar_raw _ _ _ _ _ _ _ H)) by (assumption || (cbn; lia)). rewrite !G by lia. cbn [Nat.eqb andb]. repeat split; lra.
Qed.
