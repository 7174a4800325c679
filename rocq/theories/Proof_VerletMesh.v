(** The dynamics program on a regular mesh: the mass, the time step, the start. *)
From Coq Require Import Reals Lra Lia.
From Verif Require Import Model_Element Spec_Element Proof_Element Proof_ElementQuad4 Proof_ElementMath Prop_ElementQuad4 Base Spec Spec2d Sums Spec_Vector Spec_Matrix Spec_MatrixDiagonal Model_Numbering Proof_Numbering Model_Vector Proof_Vector Proof_Matrix Model_MatrixDiagonal Proof_MatrixDiagonal
  Model_Regular2d Proof_Regular2d Prop_Regular2d Spec_Patch Proof_PatchRegular Model_MeshGeometry Model_Pipeline Spec_Pipeline Proof_PipelineElem Proof_Pipeline Proof_PipelineBalance Proof_PipelineDynamics Spec_Periodic Model_Verlet Spec_Verlet Proof_Verlet.

(** ** the periodic DOFs *)
Lemma periodic_mesh_dofs m D : 1 <= nelx m -> 1 <= nely m -> (0 < hh m)%R -> Regular_dofsPeriodic m = Ok D -> mesh_dofs (conn m) D (nelem m) 4 (nnode m) 2 (nelx m * nely m * 2) /\ no_holes D (nelx m * nely m * 2).
Proof.
  intros Hx Hy Hh ED. destruct (C15_dofsPeriodic_quad4 m Hx Hy Hh) as [D' [ED' [SD [_ HD]]]]. rewrite ED in ED'. injection ED' as <-.
  rewrite (proj1 (coor_shape m)) in SD. split; [|intros d Hd; now apply HD]. constructor; [apply conn_shape|exact SD| |].
  - apply (regular_mesh_dofs m).
  - assert (P : 0 < nelx m * nely m) by nia. set (n := nelx m * nely m * 2) in *. assert (N : 0 < n) by (unfold n; lia). clearbody n.
    assert (U : forall l b, (forall v, In v l -> v <= b) -> fold_right Nat.max 0 l <= b). { induction l as [|a l IH]; intros b Hb; cbn [fold_right]; [lia|]. apply Nat.max_lub; [apply Hb; now left|apply IH; intros; apply Hb; now right]. }
    assert (G : forall l v, In v l -> v <= fold_right Nat.max 0 l). { induction l as [|a l IH]; intros v []; cbn [fold_right]; [subst; lia|]. specialize (IH v H). lia. }
    assert (fold_right Nat.max 0 (concat D) <= n - 1) by (apply U; intros v Hv; apply HD in Hv; lia).
    assert (n - 1 <= fold_right Nat.max 0 (concat D)) by (apply G, HD; lia). lia.
Qed.
(** every node is in an element *)
Lemma node_in_element m n : 1 <= nelx m -> 1 <= nely m -> n < nnode m -> exists e k, e < nelem m /\ k < 4 /\ idx2 (conn m) e k = n.
Proof.
  intros Hx Hy Hn. unfold nnode in Hn. destruct (grid_split (nelx m + 1) n) as [iy [ix [Hix ->]]]; [lia|]. assert (Hiy : iy <= nely m) by nia.
  set (jx := Nat.min ix (nelx m - 1)). set (jy := Nat.min iy (nely m - 1)). assert (Jx : jx < nelx m) by (unfold jx; lia). assert (Jy : jy < nely m) by (unfold jy; lia).
  exists (jy * nelx m + jx), (match ix - jx, iy - jy with 0, 0 => 0 | S _, 0 => 1 | S _, S _ => 2 | 0, S _ => 3 end). split; [unfold nelem; nia|]. split; [destruct (ix - jx), (iy - jy); lia|].
  rewrite (idx2_row _ _ _ _ (conn_at m jx jy Jx Jy)).
  assert (Ex : ix = jx \/ ix = jx + 1) by (unfold jx; lia). assert (Ey : iy = jy \/ iy = jy + 1) by (unfold jy; lia). clearbody jx jy. clear Hn Hix Hiy.
  destruct Ex as [->| ->], Ey as [->| ->]; rewrite ?Nat.sub_diag; rewrite ?(Nat.add_comm _ 1), ?Nat.add_sub; cbn [nth]; try reflexivity; lia.
Qed.

(** ** the stiffness of a square *)
Lemma square_bound (m : Regular) j j' x Q c (u : arr) e : (0 < hh m)%R -> Quad4_obj (nelem m) 4 (Gauss4_xi j) (Gauss4_w j') x Q -> on_mesh (conn m) (nelem m) (coor m) x -> valid_call (nelem m) c -> e < nelem m ->
  let G := el_GradN_vector (Quad4_elem Q) c u in
  (sumn 4 (fun q => sumn 2 (fun i => sumn 2 (fun k => (G [e;q;i;k] * G [e;q;i;k])%R)) * q_vol Q [e;q])%R <= sumn 4 (fun n => sumn 2 (fun i => u [e;n;i] * u [e;n;i])))%R.
Proof.
  intros Hh HQ HX Hc He G. destruct (regular_coor m e He) as [jx [jy [_ [_ [_ V]]]]].
  assert (Vol : forall q, q < 4 -> q_vol Q [e;q] = (hh m * hh m / 4)%R).
  { intros q Hq. rewrite (f_vol (Quad4_facts _ _ _ _ _ _ HQ)) by assumption. rewrite (regular_jac m x e _ HX He).
    assert (W : Gauss4_w j' [q] = 1%R) by (revert q Hq; apply lt4; unfold Gauss4_w; blk; reflexivity). rewrite W. ring. }
  assert (DN : forall q n i, q < 4 -> n < 4 -> i < 2 -> q_dNx Q [e;q;n;i] = (2 / hh m * dshape2 n i (point (Gauss4_xi j) q))%R).
  { intros q n i Hq Hn Hi. rewrite (f_dNx (Quad4_facts _ _ _ _ _ _ HQ)) by assumption. unfold gshape2. rewrite (regular_jac m x e _ HX He). unfold dinterp2. rewrite !sumn4. unfold nodes. rewrite !HX by lia. rewrite !V by lia. rewrite !plus_INR. cbn [INR].
    destruct i as [|[|]]; [| |lia]; revert n Hn; apply lt4; unfold dshape2, corner2; field; lra. }
  assert (HG : forall q i k, q < 4 -> i < 2 -> k < 2 -> G [e;q;i;k] = (2 / hh m * dinterp2 (fun n => u [e;n;k]) i (point (Gauss4_xi j) q))%R).
  { intros q i k Hq Hi Hk. unfold G. rewrite (r_grad _ _ _ (Quad4_raw _ _ _ _ _ _ HQ)); try assumption; [|cbn [Quad4_elem el_nip]; now rewrite (f_nip (Quad4_facts _ _ _ _ _ _ HQ))].
    cbn [Quad4_elem el_nne el_ndim]. unfold dinterp2. rewrite <- sumn_scal. apply sumn_ext. intros n Hn. rewrite <- (DN q n i Hq Hn Hi) || idtac. unfold Bcart.
    transitivity (sumn 2 (fun k' => ind (k' =? k)%nat * (q_dNx Q [e;q;n;i] * u [e;n;k'])))%R; [apply sumn_ext; intros; ring|]. rewrite (sumn_delta 2 k (fun k' => (q_dNx Q [e;q;n;i] * u [e;n;k'])%R)) by exact Hk. rewrite DN by assumption. ring. }
  assert (S3 : (1 / sqrt 3 * (1 / sqrt 3) = / 3)%R). { pose proof sqrt3 as Hs. assert (sqrt 3 * sqrt 3 = 3)%R by (apply sqrt_sqrt; lra). apply (Rmult_eq_reg_l 3); [|lra]. replace (3 * / 3)%R with 1%R by lra. rewrite <- H at 1. field. exact Hs. }
  set (g := (1 / sqrt 3)%R) in *.
  assert (P : forall q i, q < 4 -> i < 2 -> point (Gauss4_xi j) q i = match q, i with 0, _ => - g | 1, 0 => g | 1, _ => - g | 2, _ => g | _, 0 => - g | _, _ => g end%R).
  { intros q i Hq Hi. unfold point. assert (-1 / sqrt 3 = - g)%R as Eg by (unfold g; unfold Rdiv; ring). destruct i as [|[|]]; [| |lia]; revert q Hq; apply lt4; unfold Gauss4_xi; blk; fold g; rewrite ?Eg; reflexivity. }
  (* one component *)
  assert (One : forall k, k < 2 -> (sumn 4 (fun q => sumn 2 (fun i => G [e;q;i;k] * G [e;q;i;k]) * (hh m * hh m / 4)) <= sumn 4 (fun n => u [e;n;k] * u [e;n;k]))%R).
  { intros k Hk. set (a := u [e;0;k]). set (b := u [e;1;k]). set (c' := u [e;2;k]). set (d := u [e;3;k]).
    assert (Eq : sumn 4 (fun q => sumn 2 (fun i => G [e;q;i;k] * G [e;q;i;k]) * (hh m * hh m / 4))%R =
      ((- a + b + c' - d) * (- a + b + c' - d) / 4 + (- a - b + c' + d) * (- a - b + c' + d) / 4 + (a - b + c' - d) * (a - b + c' - d) / 6)%R).
    { rewrite sumn4. unfold sumn, sumL. cbn [seq fold_right]. rewrite !HG by lia. unfold dinterp2. rewrite !sumn4. unfold dshape2. rewrite !P by lia. unfold corner2. cbn [nth]. fold a b c' d.
      match goal with |- ?l = _ => assert (l = ((- a + b + c' - d) * (- a + b + c' - d) / 4 + (- a - b + c' + d) * (- a - b + c' + d) / 4 + (a - b + c' - d) * (a - b + c' - d) / 2 * (g * g))%R) as -> by (field; lra) end.
      rewrite S3. field. }
    rewrite Eq, sumn4. fold a b c' d.
    pose proof (Rle_0_sqr (a + b + c' + d)) as S1. pose proof (Rle_0_sqr (a - b + c' - d)) as S2. unfold Rsqr in S1, S2.
    assert (Id : (4 * (a * a + b * b + c' * c' + d * d) = (a + b + c' + d) * (a + b + c' + d) + (- a + b + c' - d) * (- a + b + c' - d) + (- a - b + c' + d) * (- a - b + c' + d) + (a - b + c' - d) * (a - b + c' - d))%R) by ring.
    lra. }
  assert (Sw : (sumn 4 (fun q => sumn 2 (fun i => sumn 2 (fun k => G [e;q;i;k] * G [e;q;i;k])) * q_vol Q [e;q]) = sumn 2 (fun k => sumn 4 (fun q => sumn 2 (fun i => G [e;q;i;k] * G [e;q;i;k]) * (hh m * hh m / 4))))%R).
  { rewrite sumn_swap. apply sumn_ext. intros q Hq. rewrite Vol by exact Hq. rewrite sumn_scal_r. f_equal. apply sumn_swap. }
  rewrite Sw. rewrite (sumn_swap 4 2). unfold sumn at 1 4. apply sumL_le. intros k Hk. apply in_seq in Hk. apply One. lia.
Qed.

(** ** the displacement to start with *)
Lemma affine_start_spec F X n d : shape2 F d d -> shape2 X n d -> 0 < n ->
  exists u, affine_start F X = Ok u /\ shape2 u n d /\ forall p j, p < n -> j < d -> val2 u p j = sumn d (fun k => val2 F j k * (val2 X p k - val2 X 0 k))%R.
Proof.
  intros SF SX Hn. unfold affine_start. rewrite (get_nth []) by (destruct SX; lia). cbn [bind]. rewrite (shape2_row X n d 0 SX Hn).
  set (f := fun (u : list (list R)) (jk : nat * nat) => _).
  assert (Step : forall u j k, shape2 u n d -> j < d -> k < d -> exists u', f u (j, k) = Ok u' /\ shape2 u' n d /\ forall p i, p < n -> i < d -> val2 u' p i = (val2 u p i + ind (j =? i)%nat * (val2 F j k * (val2 X p k - val2 X 0 k)))%R).
  { intros u j k Su Hj Hk. unfold f. cbn [fst snd]. rewrite (get2_nth 0%R F d d j k SF Hj Hk). cbn [bind]. rewrite (get_nth 0%R) by (rewrite (shape2_row X n d 0 SX Hn); exact Hk). cbn [bind].
    set (g := fun ux : list R * list R => tab1 d (fun i => nth i (fst ux) 0 + ind (j =? i)%nat * (val2 F j k * (nth k (snd ux) 0 - val2 X 0 k)))%R).
    rewrite (mapM_Ok _ _ g).
    - eexists. split; [reflexivity|]. assert (L : length (combine u X) = n) by (rewrite combine_length; destruct Su, SX; lia). split.
      + split; [now rewrite map_length|]. intros r Hr. apply in_map_iff in Hr. destruct Hr as [ux [<- _]]. apply tab1_length.
      + intros p i Hp Hi. unfold val2, nth2. rewrite (nth_indep _ [] (g ([], []))) by (rewrite map_length; lia). rewrite map_nth. unfold g. rewrite combine_nth by (destruct Su, SX; lia). cbn [fst snd]. rewrite tab1_nth by exact Hi. reflexivity.
    - intros [r x] Hin. pose proof (in_combine_l _ _ _ _ Hin) as Hr. pose proof (in_combine_r _ _ _ _ Hin) as Hx. apply (proj2 Su) in Hr. apply (proj2 SX) in Hx. cbn [fst snd].
      rewrite (get_nth 0%R) by lia. cbn [bind]. rewrite (get_nth 0%R) by lia. cbn [bind].
      destruct (set_Ok r j (nth j r 0 + nth2 0 F j k * (nth k x 0 - nth k (nth 0 X []) 0))%R ltac:(lia)) as [r' [-> [Lr' Nr']]]. f_equal. unfold g. cbn [fst snd].
      apply (list_ext1 0%R _ _ d); [lia|apply tab1_length|]. intros i Hi. rewrite tab1_nth by exact Hi. specialize (Nr' i). rewrite (Nat.eqb_sym i j) in Nr'. destruct (Nat.eqb_spec j i) as [Ej|Ne]; [subst i|].
      + rewrite (nth_error_nth _ _ _ Nr'). unfold ind, val2, nth2. lra.
      + rewrite (nth_error_nth' r 0%R) in Nr' by lia. rewrite (nth_error_nth _ _ _ Nr'). unfold ind. lra. }
  assert (Run : forall l u, (forall jk, In jk l -> fst jk < d /\ snd jk < d) -> shape2 u n d ->
    exists u', foldM f l u = Ok u' /\ shape2 u' n d /\ forall p i, p < n -> i < d -> val2 u' p i = (val2 u p i + sumL l (fun jk => ind (fst jk =? i)%nat * (val2 F (fst jk) (snd jk) * (val2 X p (snd jk) - val2 X 0 (snd jk)))))%R).
  { induction l as [|[j k] l IH]; intros u Hl Su.
    - exists u. split; [reflexivity|]. split; [exact Su|]. intros p i _ _. cbn. ring.
    - destruct (Hl (j, k) (or_introl eq_refl)) as [Hj Hk]. cbn [fst snd] in Hj, Hk. destruct (Step u j k Su Hj Hk) as [u1 [E1 [Su1 V1]]].
      destruct (IH u1 (fun jk H => Hl jk (or_intror H)) Su1) as [u2 [E2 [Su2 V2]]]. exists u2. split; [cbn [foldM]; rewrite E1; exact E2|]. split; [exact Su2|]. intros p i Hp Hi. rewrite V2, V1 by assumption. cbn [sumL map fold_right fst snd]. unfold sumL. cbn [map fold_right fst snd]. ring. }
  destruct (Run (list_prod (seq 0 d) (seq 0 d)) (map (map (fun _ => 0%R)) X)) as [u [Eu [Su Vu]]].
  { intros [j k] H. apply in_prod_iff in H. rewrite !in_seq in H. cbn. lia. }
  { split; [rewrite map_length; apply SX|]. intros r Hr. apply in_map_iff in Hr. destruct Hr as [r' [<- Hr']]. rewrite map_length. now apply SX. }
  exists u. split; [exact Eu|]. split; [exact Su|]. intros p j Hp Hj. rewrite Vu by assumption. rewrite sumL_list_prod. cbn [fst snd].
  assert (Z : val2 (map (map (fun _ : R => 0%R)) X) p j = 0%R). { unfold val2, nth2. rewrite (nth_indep _ [] (map (fun _ : R => 0%R) [])) by (rewrite map_length; destruct SX; lia). rewrite (map_nth (map (fun _ : R => 0%R))). exact (map_nth (fun _ : R => 0%R) (nth p X []) 0%R j). }
  rewrite Z, Rplus_0_l. change (sumn d (fun j' => sumn d (fun k => ind (j' =? j)%nat * (val2 F j' k * (val2 X p k - val2 X 0 k)))) = sumn d (fun k => val2 F j k * (val2 X p k - val2 X 0 k)))%R.
  transitivity (sumn d (fun j' => ind (j' =? j)%nat * sumn d (fun k => val2 F j' k * (val2 X p k - val2 X 0 k))))%R; [apply sumn_ext; intros; now rewrite sumn_scal|].
  now rewrite (sumn_delta d j (fun j' => sumn d (fun k => val2 F j' k * (val2 X p k - val2 X 0 k))%R)).
Qed.

(** ** the mass *)
Lemma program_mass m D x Qn jx jw es rho old rho0 : 1 <= nelx m -> 1 <= nely m -> (0 < hh m)%R -> Regular_dofsPeriodic m = Ok D ->
  Quad4_obj (nelem m) 4 (Nodal4_xi jx) (Nodal4_w jw) x Qn -> on_mesh (conn m) (nelem m) (coor m) x -> schedule (nelem m) es -> (0 < rho0)%R -> (forall e q, e < nelem m -> q < 4 -> (rho0 <= rho [e;q])%R) ->
  let Km := to_rows (nelem m) 8 8 (Quad4_int_N_scalar_NT_dV es Qn rho old) in
  (forall e n i, e < nelem m -> n < 4 -> i < 2 -> (rho0 * (hh m * hh m / 4) <= val3 Km e (n * 2 + i) (n * 2 + i))%R) /\
  (forall d, d < nelx m * nely m * 2 -> (0 < assembled_diag (conn m) D (nelem m) 4 2 Km d)%R).
Proof.
  intros Hx Hy Hh ED HQ HX Hes Hr Hrho Km. assert (P : (0 < hh m * hh m)%R) by (apply Rmult_lt_0_compat; assumption).
  assert (B : forall e n i, e < nelem m -> n < 4 -> i < 2 -> (rho0 * (hh m * hh m / 4) <= val3 Km e (n * 2 + i) (n * 2 + i))%R).
  { intros e n i He Hn Hi. unfold Km. rewrite to_rows_val by lia. rewrite (C58_nodal _ _ _ _ _ _ _ _ e n i n i HQ Hes He Hn Hn Hi Hi). rewrite !Nat.eqb_refl. cbn [andb].
    rewrite (f_vol (Quad4_facts _ _ _ _ _ _ HQ)) by assumption. rewrite (regular_jac m x e _ HX He). assert (W : Nodal4_w jw [n] = 1%R) by (revert n Hn; apply lt4; unfold Nodal4_w; blk; reflexivity). rewrite W.
    specialize (Hrho e n He Hn). apply Rmult_le_compat; lra. }
  split; [exact B|]. intros d Hd. destruct (periodic_mesh_dofs m D Hx Hy Hh ED) as [Hm Hho]. specialize (Hho d Hd).
  apply (In_concat_nth2 D (nnode m) 2) in Hho; [|apply Hm]. destruct Hho as [n [i [Hn [Hi Ed]]]]. destruct (node_in_element m n Hx Hy Hn) as [e [k [He [Hk Ek]]]].
  assert (T : forall e' k' i', e' < nelem m -> k' < 4 -> i' < 2 -> (0 <= ind (idx2 D (idx2 (conn m) e' k') i' =? d)%nat * val3 Km e' (k' * 2 + i') (k' * 2 + i'))%R).
  { intros e' k' i' He' Hk' Hi'. pose proof (B e' k' i' He' Hk' Hi'). unfold ind. destruct (_ =? _); [|lra]. assert (0 < rho0 * (hh m * hh m / 4))%R by (apply Rmult_lt_0_compat; lra). lra. }
  assert (Pick : forall N (f : nat -> R) a, a < N -> (forall b, b < N -> (0 <= f b)%R) -> (f a <= sumn N f)%R).
  { intros N f a Ha Hf. replace N with (a + (1 + (N - a - 1))) by lia. rewrite sumn_app, sumn_app. rewrite (sumn_S 0). change (sumn 0 (fun i0 => f (a + i0)%nat)) with 0%R. rewrite Nat.add_0_r.
    assert (0 <= sumn a f)%R by (apply sumn_nonneg; intros; apply Hf; lia). assert (0 <= sumn (N - a - 1) (fun i0 => f (a + (1 + i0))%nat))%R by (apply sumn_nonneg; intros; apply Hf; lia). lra. }
  unfold assembled_diag, sum_elem.
  apply (Rlt_le_trans _ (ind (idx2 D (idx2 (conn m) e k) i =? d)%nat * val3 Km e (k * 2 + i) (k * 2 + i))%R).
  - rewrite Ek, Ed, Nat.eqb_refl. unfold ind. pose proof (B e k i He Hk Hi). assert (0 < rho0 * (hh m * hh m / 4))%R by (apply Rmult_lt_0_compat; lra). lra.
  - eapply Rle_trans; [|apply (Pick (nelem m) _ e He); intros; apply sumn_nonneg; intros; apply sumn_nonneg; intros; now apply T].
    eapply Rle_trans; [|apply (Pick 4 _ k Hk); intros; apply sumn_nonneg; intros; now apply T].
    eapply Rle_trans; [|apply (Pick 2 _ i Hi); intros; now apply T]. apply Rle_refl.
Qed.
