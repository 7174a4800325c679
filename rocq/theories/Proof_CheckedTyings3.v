(** Vectors with tyings, with assertions. *)
From Coq Require Import Reals Lra Lia.
From Verif Require Import Base Spec Sums Spec_Vector Spec_Tyings Model_Numbering Proof_Numbering Model_Vector Proof_Vector Model_VectorPartitioned Proof_VectorPartitioned Model_Misc Proof_Misc
  Model_Sparse Model_Tyings Proof_Tyings Proof_Tyings2 Prop_Tyings Model_Checked Spec_Checked Proof_Checked Model_CheckedTyings Spec_CheckedTyings Proof_CheckedTyings Proof_CheckedTyings2.

Lemma new_Vector_total conn dofs : new_Vector true conn dofs = Throw \/ exists w, new_Vector true conn dofs = Ok w.
Proof.
  unfold new_Vector, assert. destruct (a_shape conn) as [|? [|? [|]]]; auto. destruct (a_shape dofs) as [|? [|? [|]]]; auto. cbv zeta.
  repeat match goal with |- context [negb ?b] => destruct b; cbn [negb andb] end; eauto.
Qed.

(** ** the constructor *)
Section Ctor.
Variables (conn dofs : array nat) (U P I : mat).
Lemma vt_new_ok ck z : valid_mesh conn dofs z -> rows U = rows P -> rows I = rows P -> cols I = cols U + cols P ->
  new_VectorTyings_checked ck conn dofs U P I = Ok (mkVT (the_vector conn dofs z) U P I).
Proof.
  intros V E1 E2 E3. unfold new_VectorTyings_checked. rewrite (new_ok ck conn dofs z V). cbn [bind]. cbv zeta.
  rewrite (proj2 (Nat.eqb_eq _ _) E1), (proj2 (Nat.eqb_eq _ _) E2), !assert_true.
  unfold vt_nni, vt_nnu, vt_nnp. cbn [vt_Cdu vt_Cdp]. rewrite (proj2 (Nat.eqb_eq _ _) E3), assert_true. unfold m_ndof. rewrite Nat.eqb_refl, assert_true. reflexivity.
Qed.
Lemma vt_new_inv v : new_VectorTyings_checked true conn dofs U P I = Ok v ->
  exists z, valid_mesh conn dofs z /\ v = mkVT (the_vector conn dofs z) U P I /\ rows U = rows P /\ rows I = rows P /\ cols I = cols U + cols P.
Proof.
  unfold new_VectorTyings_checked. intros E. apply bind_inv in E. destruct E as (w & Ew & E). apply new_inv in Ew. destruct Ew as [V Ew]. cbv zeta in E. unfold assert in E. cbn [andb] in E.
  destruct (Nat.eqb_spec (rows U) (rows P)) as [E1|]; [|discriminate]. destruct (Nat.eqb_spec (rows I) (rows P)) as [E2|]; [|discriminate]. cbn [negb] in E.
  unfold vt_nni, vt_nnu, vt_nnp in E. cbn [vt_Cdu vt_Cdp] in E. destruct (Nat.eqb_spec (cols I) (cols U + cols P)) as [E3|]; [|discriminate]. cbn [negb] in E.
  destruct (_ =? _); [|discriminate]. cbn [negb] in E. injection E as <-. exists (sizes_of w). rewrite <- Ew. auto.
Qed.
Lemma vt_new_throw : (forall z, ~ (valid_mesh conn dofs z /\ rows U = rows P /\ rows I = rows P /\ cols I = cols U + cols P)) ->
  new_VectorTyings_checked true conn dofs U P I = Throw.
Proof.
  intros N. assert (T : new_VectorTyings_checked true conn dofs U P I = Throw \/ exists v, new_VectorTyings_checked true conn dofs U P I = Ok v).
  { unfold new_VectorTyings_checked. destruct (new_Vector_total conn dofs) as [Q|[w Q]]; rewrite Q; cbn [bind]; [now left|]. cbv zeta. unfold assert. cbn [andb].
    repeat match goal with |- context [negb ?b] => destruct b; cbn [negb] end; eauto. }
  destruct T as [T|[v T]]; [exact T|]. apply vt_new_inv in T. destruct T as (z & V & _ & E1 & E2 & E3). exfalso. now apply (N z).
Qed.
End Ctor.

(** ** the calls *)
Lemma write_all_oob {A} (ws : list (nat * A)) : forall arr k v, In (k, v) ws -> length arr <= k -> write_all arr ws = Oob.
Proof.
  induction ws as [|[k0 v0] ws IH]; intros arr k v Hin Hk; [destruct Hin|]. unfold write_all in *. cbn [foldM fst snd].
  destruct (Nat.lt_ge_cases k0 (length arr)) as [L|L].
  - destruct (set_Ok arr k0 v0 L) as (a1 & E & L1 & _). rewrite E. cbn [bind]. destruct Hin as [Q|Hin]; [injection Q as -> ->; lia|]. apply (IH a1 k v Hin). lia.
  - rewrite set_Oob by exact L. reflexivity.
Qed.
Lemma copy_any (src : list R) : forall n a dest, a + n <= length src -> a + n <= length dest ->
  exists r, foldM (fun r i => do x <- get src i; set r i x) (seq a n) dest = Ok r /\ length r = length dest /\
    forall i, val1 r i = if (a <=? i) && (i <? a + n) then val1 src i else val1 dest i.
Proof.
  induction n as [|n IH]; intros a dest Hs Hd; cbn [seq foldM].
  - exists dest. split; [reflexivity|]. split; [reflexivity|]. intro i. destruct (Nat.leb_spec a i), (Nat.ltb_spec i (a + 0)); cbn [andb]; auto; lia.
  - rewrite (get_nth 0%R) by lia. cbn [bind]. destruct (set_Ok dest a (nth a src 0%R)) as [d [E [L Hn]]]; [lia|].
    rewrite E. cbn [bind]. destruct (IH (S a) d) as [r [Er [Lr Hr]]]; [lia|lia|].
    exists r. split; [exact Er|]. split; [congruence|]. intro i. rewrite Hr.
    assert (V : val1 d i = if i =? a then val1 src a else val1 dest i).
    { unfold val1. destruct (Nat.eqb_spec i a) as [->|Hne].
      - apply nth_error_nth. rewrite Hn, Nat.eqb_refl. reflexivity.
      - assert (X : nth_error d i = nth_error dest i) by (rewrite Hn; destruct (Nat.eqb_spec i a); [contradiction|reflexivity]).
        destruct (Nat.lt_ge_cases i (length dest)) as [Hi|Hi].
        + apply nth_error_nth. rewrite X. now apply nth_error_nth'.
        + rewrite !nth_overflow by lia. reflexivity. }
    rewrite V. destruct (Nat.eqb_spec i a) as [Heq|Hne], (Nat.leb_spec (S a) i), (Nat.leb_spec a i), (Nat.ltb_spec i (S a + n)), (Nat.ltb_spec i (a + S n));
      cbn [andb]; try (rewrite Heq); auto; lia.
Qed.

Section Calls.
Variables (conn dofs : array nat) (U P I : mat) (z : sizes).
Hypothesis V : valid_mesh conn dofs z.
Hypothesis R1 : rows I = rows P.
Hypothesis R2 : cols I = cols U + cols P.
Let v := the_vector conn dofs z.
Let t := mkVT v U P I.
Lemma t_mesh : mesh_dofs (m_conn (vt_v t)) (m_dofs (vt_v t)) (z_nelem z) (z_nne z) (z_nnode z) (z_ndim z) (z_ndof z).
Proof. exact (c_mesh conn dofs z V). Qed.
Lemma t_nodevec : shape_nodevec v = nodevec z.
Proof. unfold shape_nodevec, m_nnode, v, the_vector. cbn [m_dofs m_ndim]. now rewrite (proj1 (rows2_shape _ _ _)). Qed.
Lemma t_nnode : node_iters (vt_v t) = list_prod (seq 0 (z_nnode z)) (seq 0 (z_ndim z)).
Proof. unfold node_iters, m_nnode, t, v, the_vector. cbn [vt_v m_dofs m_ndim]. now rewrite (proj1 (rows2_shape _ _ _)). Qed.
Variables o o' : list (nat * nat).
Hypothesis Ho : Permutation o (list_prod (seq 0 (z_nnode z)) (seq 0 (z_ndim z))).
Hypothesis Ho' : Permutation o' (list_prod (seq 0 (z_nnode z)) (seq 0 (z_ndim z))).
Variable arg : array R.

Lemma as_same : a_shape arg = nodevec z -> forall ck apply, T_asDofs_i ck t o o' arg (vt_nni t) apply = out1 (asDofs_i t o o' (rows2 (z_nnode z) (z_ndim z) arg) apply).
Proof.
  intros Ha ck apply. unfold T_asDofs_i. rewrite Ha. unfold nodevec. cbn [vt_v t]. change (vt_v t) with v. rewrite t_nodevec, has_shape_refl, Nat.eqb_refl, !assert_true. reflexivity.
Qed.
Lemma as_throw ret apply : a_shape arg <> nodevec z \/ ret <> vt_nni t -> T_asDofs_i true t o o' arg ret apply = Throw.
Proof.
  intros H. unfold T_asDofs_i. change (vt_v t) with v. rewrite t_nodevec. destruct (a_shape arg) as [|a [|b [|]]] eqn:E; auto. unfold assert. cbn [andb].
  destruct (has_shape [a; b] (nodevec z)) eqn:Q; [|reflexivity]. apply has_shape_eq in Q. destruct H as [H|H]; [congruence|]. cbn [negb]. destruct (Nat.eqb_spec ret (vt_nni t)); [contradiction|reflexivity].
Qed.
Let u := rows2 (z_nnode z) (z_ndim z) arg.
Lemma as_ok apply : vt_nni t + vt_nnd t = z_ndof z ->
  (forall d, vt_nni t <= d < z_ndof z -> exists m i, m < z_nnode z /\ i < z_ndim z /\ a_ent dofs [m; i] = d) ->
  exists x, asDofs_i t o o' u apply = Ok x /\ length x = vt_nni t.
Proof.
  intros Hd Hall. pose proof t_mesh as M. pose proof Ho as Po. pose proof Ho' as Po'. rewrite <- t_nnode in Po, Po'.
  unfold asDofs_i. rewrite (ws_i t (z_nelem z) (z_nne z) (z_nnode z) (z_ndim z) (z_ndof z) eq_refl eq_refl M Hd R1 R2 o o' u Po Po' (rows2_shape _ _ _)). cbn [bind]. rewrite concat_if_filter.
  match goal with |- context [write_all (repeat 0%R (vt_nni t)) ?w] => destruct (write_all_Ok w (repeat 0%R (vt_nni t))) as (x0 & E0 & L0 & _) end.
  { intros k w Hin. apply in_map_iff in Hin. destruct Hin as (a & Ea & Ha). injection Ea as <- _. apply filter_In in Ha. rewrite repeat_length. now apply Nat.ltb_lt. }
  rewrite E0. cbn [bind]. rewrite repeat_length in L0. destruct apply; cbn [negb]; [|eauto].
  unfold Eigen_asDofs_d. rewrite (ws_d t (z_nelem z) (z_nne z) (z_nnode z) (z_ndim z) (z_ndof z) eq_refl eq_refl M Hd R1 R2 o o' u Po Po' (rows2_shape _ _ _)). cbn [bind]. rewrite concat_if_filter.
  match goal with |- context [write_all (empty (vt_nnd t)) ?w] => destruct (write_all_Ok w (empty (A := R) (vt_nnd t))) as (dd & Ed & Ld & _ & _ & Hany); [|set (ws := w) in *] end.
  { intros k w Hin. apply in_map_iff in Hin. destruct Hin as (a & Ea & Ha). injection Ea as <- _. apply filter_In in Ha. destruct Ha as [Ha Hb]. apply Nat.leb_le in Hb. unfold empty. rewrite repeat_length.
    apply (vt_in t (z_nelem z) (z_nne z) (z_nnode z) (z_ndim z) (z_ndof z) eq_refl eq_refl M Hd R1 R2 o o' u Po Po' (rows2_shape _ _ _) _ _ Po') in Ha.
    pose proof (V_dof (vt_v t) (z_nelem z) (z_nne z) (z_nnode z) (z_ndim z) (z_ndof z) eq_refl eq_refl M (fst a) (snd a) (proj1 Ha) (proj2 Ha)) as Q. change (idx2 (m_dofs (vt_v t)) (fst a) (snd a) - vt_nni t < vt_nnd t). lia. }
  rewrite Ed. cbn [bind].
  rewrite (mapM_get_init_Some dd (fun k => match nth_error dd k with Some (Some x) => x | _ => 0%R end)).
  2:{ intros k Hk. destruct (Hany k) as (w & Hw & Ew).
      - destruct (Hall (vt_nni t + k)) as (m & i & Hm & Hi & Em); [lia|]. unfold ws. rewrite map_map. cbn [fst]. apply in_map_iff. exists (m, i). cbn [fst snd].
        assert (Q : idx2 (m_dofs (vt_v t)) m i = vt_nni t + k). { rewrite <- Em. apply rows2_nth; assumption. } rewrite Q. split; [lia|]. apply filter_In. cbn [fst snd]. rewrite Q. split; [|apply Nat.leb_le; lia].
        apply (vt_in t (z_nelem z) (z_nne z) (z_nnode z) (z_ndim z) (z_ndof z) eq_refl eq_refl M Hd R1 R2 o o' u Po Po' (rows2_shape _ _ _) _ _ Po'). auto.
      - rewrite Ew. unfold ws in Hw. apply in_map_iff in Hw. destruct Hw as (a & Ea & _). injection Ea as _ <-. reflexivity. }
  cbn [bind]. rewrite mulvec_Ok by (rewrite map_length, seq_length; exact (eq_sym R1)). cbn [bind].
  match goal with |- context [get ?w _] => set (zz := w) end.
  assert (Lz : length zz = vt_nni t) by (unfold zz; rewrite map_length, seq_length; exact R2).
  destruct (accumulate (fun i => i) (fun i => val1 zz i) (fun r i => do x <- get zz i; add_at r i x) (seq 0 (vt_nni t)) x0) as [x [Ex [Lx Vx]]].
  { intros a Ha. apply in_seq in Ha. lia. }
  { intros r a Ha. apply in_seq in Ha. rewrite (get_nth 0%R) by lia. reflexivity. }
  exists x. split; [exact Ex|lia].
Qed.

(** a DOF beyond the dependent ones *)
Lemma as_oob m i : m < z_nnode z -> i < z_ndim z -> vt_nni t + vt_nnd t <= a_ent dofs [m; i] -> asDofs_i t o o' u true = Oob.
Proof.
  intros Hm Hi Hge. pose proof t_mesh as M.
  assert (In_o : forall l a, Permutation l (list_prod (seq 0 (z_nnode z)) (seq 0 (z_ndim z))) -> In a l <-> fst a < z_nnode z /\ snd a < z_ndim z).
  { intros l [a b] Hp. split; intros Q.
    - apply (Permutation_in _ Hp) in Q. apply in_prod_iff in Q. rewrite !in_seq in Q. cbn. lia.
    - apply (Permutation_in _ (Permutation_sym Hp)). apply in_prod_iff. rewrite !in_seq. cbn in Q. lia. }
  assert (G : forall a b, a < z_nnode z -> b < z_ndim z -> get2 (m_dofs (vt_v t)) a b = Ok (idx2 (m_dofs (vt_v t)) a b) /\ get2 u a b = Ok (val2 u a b)).
  { intros a b Ha Hb. split; [apply (get2_nth 0 _ (z_nnode z) (z_ndim z)); auto; apply rows2_shape|apply (get2_nth 0%R _ (z_nnode z) (z_ndim z)); auto; apply rows2_shape]. }
  unfold asDofs_i.
  rewrite (mapM_Ok _ o (fun a => if idx2 (m_dofs (vt_v t)) (fst a) (snd a) <? vt_nni t then [(idx2 (m_dofs (vt_v t)) (fst a) (snd a), val2 u (fst a) (snd a))] else [])).
  2:{ intros a Ha. apply (In_o o a Ho) in Ha. destruct (G _ _ (proj1 Ha) (proj2 Ha)) as [-> ->]. cbn [bind]. destruct (_ <? _); reflexivity. }
  cbn [bind]. rewrite concat_if_filter.
  match goal with |- context [write_all (repeat 0%R (vt_nni t)) ?w] => destruct (write_all_Ok w (repeat 0%R (vt_nni t))) as (x0 & E0 & L0 & _) end.
  { intros k w Hin. apply in_map_iff in Hin. destruct Hin as (a & Ea & Ha). injection Ea as <- _. apply filter_In in Ha. rewrite repeat_length. now apply Nat.ltb_lt. }
  rewrite E0. cbn [bind negb]. unfold Eigen_asDofs_d.
  rewrite (mapM_Ok _ o' (fun a => if vt_nni t <=? idx2 (m_dofs (vt_v t)) (fst a) (snd a) then [(idx2 (m_dofs (vt_v t)) (fst a) (snd a) - vt_nni t, Some (val2 u (fst a) (snd a)))] else [])).
  2:{ intros a Ha. apply (In_o o' a Ho') in Ha. destruct (G _ _ (proj1 Ha) (proj2 Ha)) as [-> ->]. cbn [bind]. destruct (_ <=? _); reflexivity. }
  cbn [bind]. rewrite concat_if_filter.
  assert (Q : idx2 (m_dofs (vt_v t)) m i = a_ent dofs [m; i]) by (apply rows2_nth; assumption).
  rewrite (write_all_oob _ _ (idx2 (m_dofs (vt_v t)) m i - vt_nni t) (Some (val2 u m i))); [reflexivity| |].
  - apply in_map_iff. exists (m, i). split; [reflexivity|]. apply filter_In. split; [now apply (In_o o' (m, i) Ho')|]. cbn [fst snd]. apply Nat.leb_le. lia.
  - unfold empty. rewrite repeat_length. lia.
Qed.

(** copy_p *)
Lemma copy_throw src dest : ~ ((a_shape src = [z_ndof z] \/ a_shape src = [vt_nni t]) /\ (a_shape dest = [z_ndof z] \/ a_shape dest = [vt_nni t])) -> T_copy_p true t src dest = Throw.
Proof.
  intros N. unfold T_copy_p. destruct (a_shape src) as [|a [|]]; auto. destruct (a_shape dest) as [|b [|]]; auto. change (vt_v t) with v. rewrite (vector_ndof conn dofs z V : m_ndof v = z_ndof z). unfold assert. cbn [andb].
  destruct ((a =? z_ndof z) || (a =? vt_nni t)) eqn:Qa; [|reflexivity]. destruct ((b =? z_ndof z) || (b =? vt_nni t)) eqn:Qb; [|reflexivity]. exfalso. apply N.
  rewrite orb_true_iff, !Nat.eqb_eq in Qa, Qb. split; [destruct Qa as [->| ->]|destruct Qb as [->| ->]]; auto.
Qed.
Lemma copy_ok ck src dest n n' : vt_nni t <= z_ndof z -> a_shape src = [n] -> a_shape dest = [n'] -> n = z_ndof z \/ n = vt_nni t -> n' = z_ndof z \/ n' = vt_nni t ->
  exists r, T_copy_p ck t src dest = Ok (Out1 r) /\ length r = n' /\ forall i, i < n' -> val1 r i = if (vt_nnu t <=? i) && (i <? vt_nni t) then a_ent src [i] else a_ent dest [i].
Proof.
  intros L Es Ed Hn Hn'. unfold T_copy_p. rewrite Es, Ed. change (vt_v t) with v. rewrite (vector_ndof conn dofs z V : m_ndof v = z_ndof z).
  assert (Qa : (n =? z_ndof z) || (n =? vt_nni t) = true) by (rewrite orb_true_iff, !Nat.eqb_eq; exact Hn).
  assert (Qb : (n' =? z_ndof z) || (n' =? vt_nni t) = true) by (rewrite orb_true_iff, !Nat.eqb_eq; exact Hn'). rewrite Qa, Qb, !assert_true.
  unfold vt_copy_p. assert (Lu : vt_nnu t <= vt_nni t) by (unfold vt_nni; lia).
  destruct (copy_any (rows1 n src) (vt_nni t - vt_nnu t) (vt_nnu t) (rows1 n' dest)) as (r & Er & Lr & Vr); [rewrite rows1_length; lia|rewrite rows1_length; lia|].
  exists r. rewrite Er. split; [reflexivity|]. rewrite rows1_length in Lr. split; [exact Lr|]. intros i Hi. rewrite Vr. replace (vt_nnu t + (vt_nni t - vt_nnu t)) with (vt_nni t) by lia.
  assert (At : forall k (a : array R), i < k -> val1 (rows1 k a) i = a_ent a [i]) by (intros k a Hk; unfold val1, rows1; now rewrite nth_map_seq).
  destruct (Nat.leb_spec (vt_nnu t) i), (Nat.ltb_spec i (vt_nni t)); cbn [andb]; apply At; lia.
Qed.
End Calls.
