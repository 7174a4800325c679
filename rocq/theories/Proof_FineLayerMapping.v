(** Quad4::FineLayer(coor, conn). *)
From Coq Require Import Reals ZArith Lra.
From Verif Require Import Base Spec Spec2d Spec_Tiling Model_Numbering Model_Regular2d Model_FineLayer Model_FineLayerMapping
  Proof_Vector Proof_Regular2d Proof_FineLayer Proof_FineLayerMesh Proof_FineLayerTiling Proof_FineLayerArea Proof_FineLayerBoundary Proof_FineLayerGrid Proof_FineLayerThm Proof_FineLayerAround.

Lemma all2_refl {A} (f : A -> A -> bool) : (forall x, f x x = true) -> forall l, all2 f l l = true.
Proof. intros H. induction l as [|a l IH]; [reflexivity|]. cbn. now rewrite H, IH. Qed.
Lemma all2_eq {A} (f : A -> A -> bool) : (forall x y, f x y = true -> x = y) -> forall l l', all2 f l l' = true -> l = l'.
Proof. intros H. induction l as [|a l IH]; intros [|b l'] E; try discriminate; [reflexivity|]. cbn in E. apply andb_prop in E. destruct E as [E1 E2]. now rewrite (H _ _ E1), (IH _ E2). Qed.
Lemma equal1_refl l : equal1 l l = true. Proof. apply all2_refl. apply Nat.eqb_refl. Qed.
Lemma equal2_refl l : equal2 l l = true. Proof. apply all2_refl. apply equal1_refl. Qed.
Lemma equal2_eq l l' : equal2 l l' = true -> l = l'.
Proof. apply all2_eq. apply all2_eq. intros x y E. now apply Nat.eqb_eq. Qed.
Lemma map_const (x : R) k a : 1 <= k -> map (fun _ : nat => x) (seq a k) = x :: repeat x (k - 1).
Proof.
  intros H. destruct k as [|k]; [lia|]. cbn [seq map]. f_equal. replace (S k - 1) with k by lia. generalize (S a). clear. induction k as [|k IH]; intros a; [reflexivity|]. cbn. f_equal. apply IH.
Qed.
Lemma amin_const (x : R) k : fold_left Rmin (repeat x k) x = x.
Proof. induction k as [|k IH]; [reflexivity|]. cbn. rewrite Rmin_left; [exact IH|apply Rle_refl]. Qed.

(** ** the layers of the reconstructed mesh *)
Section Unique.
Variables (nelx nely nely' n n' : nat) (w y w' y' : nat -> nat) (r r' : nat -> bool).
Hypothesis G : greedy nelx nely 1 n w y r.
Hypothesis G' : greedy nelx nely' 1 n' w' y' r'.
Hypothesis EN : (nely' + 1) / 2 = nsum n y.
Let HL := g_layered _ _ _ _ _ _ _ G.
Let HL' := g_layered _ _ _ _ _ _ _ G'.

Lemma agree : forall d, d < n -> d < n' -> w' d = w d /\ y' d = y d /\ r' d = r d /\ nsum (S d) y' = nsum (S d) y.
Proof.
  induction d as [|d IH]; intros Hd Hd'.
  - cbn [nsum]. rewrite (l_w0 _ _ _ _ _ HL), (l_w0 _ _ _ _ _ HL'), (l_y0 _ _ _ _ _ HL), (l_y0 _ _ _ _ _ HL'), (l_r0 _ _ _ _ _ HL), (l_r0 _ _ _ _ _ HL'). auto.
  - destruct (IH ltac:(lia) ltac:(lia)) as (I1 & I2 & I3 & I4).
    pose proof (g_rule _ _ _ _ _ _ _ G d Hd) as R1. pose proof (g_rule _ _ _ _ _ _ _ G' d Hd') as R2. rewrite I1, I4, EN in R2.
    pose proof (l_step _ _ _ _ _ HL d Hd) as S1. pose proof (l_step _ _ _ _ _ HL' d Hd') as S2. rewrite I1 in S2. pose proof (g_enough _ _ _ _ _ _ _ G) as GE. pose proof (g_last _ _ _ _ _ _ _ G) as GL.
    assert (ER : r' (S d) = r (S d)).
    { destruct (r (S d)) eqn:Er; [|destruct (r' (S d)) eqn:Er'; [exfalso|reflexivity]].
      - apply R2. destruct (proj1 R1 eq_refl) as (A1 & A2 & A3 & A4). repeat split; auto. lia.
      - destruct (proj1 R2 eq_refl) as (A1 & A2 & A3 & A4).
        assert (B : (nely + 1) / 2 <= nsum (S d) y + w d).
        { destruct (le_lt_dec ((nely + 1) / 2) (nsum (S d) y + w d)) as [Q|Q]; [exact Q|exfalso]. assert (F : false = true); [|discriminate F]. apply R1. repeat split; auto. }
        destruct S1 as [(_ & _ & S1)|(S1 & _)]; [|discriminate S1].
        assert (D : n = S (S d)).
        { destruct (Nat.eq_dec n (S (S d))) as [Q|Q]; [exact Q|exfalso]. pose proof (nsum_le (S (S d)) (n - 1) y ltac:(lia)) as M. cbn [nsum] in M, B. lia. }
        rewrite D in A4. cbn [nsum] in A4. lia. }
    rewrite ER in S2. assert (EY : y' (S d) = y (S d)) by (destruct S1 as [(E1 & E2 & E3)|(E1 & E2 & E3 & _)], S2 as [(F1 & F2 & F3)|(F1 & F2 & F3 & _)]; congruence).
    assert (EWS : w' (S d) = w (S d)) by (destruct S1 as [(E1 & E2 & E3)|(E1 & E2 & E3 & _)], S2 as [(F1 & F2 & F3)|(F1 & F2 & F3 & _)]; congruence).
    split; [exact EWS|]. split; [exact EY|]. split; [exact ER|]. change (nsum (S d) y' + y' (S d) = nsum (S d) y + y (S d)). now rewrite I4, EY.
Qed.
Lemma y_pos d : d < n -> 1 <= y d.
Proof.
  intros H. destruct d as [|d]; [rewrite (l_y0 _ _ _ _ _ HL); lia|]. pose proof (w_pos _ _ _ _ _ HL d ltac:(lia)). destruct (l_step _ _ _ _ _ HL d H) as [(_ & _ & E)|(_ & _ & E & _)]; lia.
Qed.
Lemma same_n : n' = n.
Proof.
  pose proof (l_n _ _ _ _ _ HL) as N1. pose proof (l_n _ _ _ _ _ HL') as N1'. destruct (lt_eq_lt_dec n' n) as [[H|H]|H]; [exfalso|exact H|exfalso].
  - destruct (agree (n' - 1) ltac:(lia) ltac:(lia)) as (_ & _ & _ & Q). replace (S (n' - 1)) with n' in Q by lia. pose proof (g_enough _ _ _ _ _ _ _ G') as GE. rewrite EN, Q in GE.
    pose proof (nsum_le (S n') n y H) as M. cbn [nsum] in M. pose proof (y_pos n' H). lia.
  - destruct (agree (n - 1) ltac:(lia) ltac:(lia)) as (_ & _ & _ & Q). replace (S (n - 1)) with n in Q by lia. pose proof (g_last _ _ _ _ _ _ _ G') as GL. rewrite EN, <- Q in GL.
    pose proof (nsum_le n (n' - 1) y' ltac:(lia)). lia.
Qed.
Lemma dist_ltn iy : iy < L n -> dist n iy < n.
Proof. intros H. unfold dist, L in *. destruct (Nat.ltb_spec iy n); lia. Qed.
Lemma same_FL h : FL_of nelx n' w' y' r' h = FL_of nelx n w y r h.
Proof.
  rewrite same_n. pose proof (l_n _ _ _ _ _ HL) as N1. assert (AG : forall d, d < n -> w' d = w d /\ y' d = y d /\ r' d = r d) by (intros d Hd; destruct (agree d Hd ltac:(rewrite same_n; assumption)) as (A & B & C & _); auto).
  assert (EW : forall i, i < L n -> W n w' i = W n w i) by (intros i Hi; apply AG; now apply dist_ltn).
  assert (EH : forall i, i < L n -> Hy n y' i = Hy n y i) by (intros i Hi; apply AG; now apply dist_ltn).
  assert (ER : forall i, i < L n -> Rf n r' i = Rf n r i) by (intros i Hi; apply AG; now apply dist_ltn).
  assert (EX : forall i, i < L n -> NX nelx n w' i = NX nelx n w i) by (intros i Hi; unfold NX; now rewrite EW).
  assert (ENN : forall i, i <= L n -> NN nelx n w' i = NN nelx n w i).
  { intros i Hi. unfold NN, WN. destruct (Nat.ltb_spec i n); rewrite EW; unfold L in *; auto; lia. }
  assert (ESE : forall i, i <= L n -> SE nelx n w' r' i = SE nelx n w r i) by (intros i Hi; apply nsum_ext; intros k Hk; unfold NE; now rewrite ER, EX by lia).
  assert (ESN : forall i, i <= L n -> SN nelx n w' r' i = SN nelx n w r i) by (intros i Hi; apply nsum_ext; intros k Hk; unfold NM; now rewrite ER, EX, ENN by lia).
  unfold FL_of. rewrite ESE, ESN, ENN by lia. f_equal; apply tab1_ext; intros i Hi; auto.
  - apply ENN. unfold L. lia.
  - now rewrite ER.
  - apply ESE. lia.
  - apply ESN. unfold L. lia.
Qed.
End Unique.

Section Search.
Variables (nelx n : nat) (w y : nat -> nat) (r : nat -> bool) (h : R).
Hypothesis HL : layered nelx n w y r.
Hypothesis Hh : (0 < h)%R.
Notation L := (L n).
Notation W := (W n w).
Notation Hy := (Hy n y).
Notation Rf := (Rf n r).
Notation NX := (NX nelx n w).
Notation NE := (NE nelx n w r).
Notation SE := (SE nelx n w r).
Notation SN := (SN nelx n w r).
Notation NN := (NN nelx n w).
Notation Y := (Y n y).
Notation X := (coorl nelx n w y r h).
Notation C := (connl nelx n w r).
Notation sz := (sz n w r).
Notation tm := (tm n r).
Notation elem_case := (elem_case nelx n w r).
Notation m := (FL_of nelx n w y r h).
Notation A := (SE (n - 1)).
Notation corner := (corner nelx n w y r).

Lemma NE_pos iy : iy < L -> 1 <= NE iy.
Proof. intros H. pose proof (NX_pos _ _ _ _ _ HL iy H). unfold Proof_FineLayer.NE. destruct (Rf iy); lia. Qed.
Lemma SE_S iy : SE (S iy) = SE iy + NE iy.
Proof. reflexivity. Qed.
Lemma SE_sym k : k <= L -> SE (L - k) + SE k = SE L.
Proof.
  induction k as [|k IH]; intros Hk; [rewrite Nat.sub_0_r; unfold Proof_FineLayer.SE; cbn; lia|]. rewrite <- (IH ltac:(lia)). rewrite SE_S. replace (L - k) with (S (L - S k)) by lia. rewrite SE_S.
  replace (NE (L - S k)) with (NE k); [lia|]. unfold Proof_FineLayer.NE, Proof_FineLayer.NX, Proof_FineLayer.Rf, Proof_FineLayer.W. replace (dist n (L - S k)) with (dist n k); [reflexivity|]. rewrite <- dist_sym by lia. f_equal. lia.
Qed.
Lemma SE_mid : SE n = A + nelx.
Proof.
  pose proof (l_n _ _ _ _ _ HL) as Hn. replace (SE n) with (SE (S (n - 1))) by (f_equal; lia). rewrite SE_S. unfold Proof_FineLayer.NE. rewrite (Rf_mid _ _ _ _ _ HL). unfold Proof_FineLayer.NX. rewrite (W_mid _ _ _ _ _ HL), Nat.div_1_r. reflexivity.
Qed.
Lemma SE_total : SE L = 2 * A + nelx.
Proof.
  pose proof (l_n _ _ _ _ _ HL) as Hn. pose proof (SE_sym (n - 1) ltac:(unfold Proof_FineLayer.L; lia)) as Q. replace (L - (n - 1)) with n in Q by (unfold Proof_FineLayer.L; lia). rewrite SE_mid in Q. lia.
Qed.
Lemma emid : (SE L - SE L mod 2) / 2 = A + nelx / 2.
Proof.
  pose proof (Nat.div_mod (SE L) 2 ltac:(lia)) as D. replace (SE L - SE L mod 2) with (SE L / 2 * 2) by lia. rewrite Nat.div_mul by lia. rewrite SE_total. replace (2 * A + nelx) with (A * 2 + nelx) by lia. apply Nat.div_add_l. lia.
Qed.
Lemma mid_sz : sz (n - 1) = 1.
Proof. unfold Proof_FineLayerMesh.sz. now rewrite (Rf_mid _ _ _ _ _ HL), (W_mid _ _ _ _ _ HL). Qed.
Lemma mid_elem i : i < nelx -> exists p0 p1 p2 p3, nth_error C (A + i) = Some [p0; p1; p2; p3] /\
  node_case nelx n w y r p0 i (Y (n - 1)) /\ node_case nelx n w y r p1 (i + 1) (Y (n - 1)) /\ node_case nelx n w y r p2 (i + 1) (Y (n - 1) + 1).
Proof.
  intros Hi. pose proof (n_L _ _ _ _ _ HL) as Hn.
  assert (EC : elem_case (A + i) (n - 1) i sq).
  { apply (Elem_case _ _ _ _ _ _ _ _ 0); [exact Hn| | |].
    - unfold Proof_FineLayer.NX. now rewrite (W_mid _ _ _ _ _ HL), Nat.div_1_r.
    - unfold Proof_FineLayerMesh.tm. now rewrite (Rf_mid _ _ _ _ _ HL).
    - unfold Proof_FineLayerMesh.tm. rewrite (Rf_mid _ _ _ _ _ HL). cbn [length]. lia. }
  destruct (elem_at _ _ _ _ _ HL _ _ _ _ _ _ _ EC) as (p0 & p1 & p2 & p3 & E & C0 & C1 & C2 & _). exists p0, p1, p2, p3. split; [exact E|].
  unfold Proof_FineLayerMesh.corner, cx, cy in C0, C1, C2. rewrite mid_sz, (W_mid _ _ _ _ _ HL) in C0, C1, C2. cbn [fst snd] in *.
  rewrite !Nat.mul_1_l, ?Nat.add_0_r in C0; rewrite !Nat.mul_1_l, ?Nat.add_0_r in C1; rewrite !Nat.mul_1_l in C2. auto.
Qed.
Lemma case_fun p a b a' b' : node_case nelx n w y r p a b -> node_case nelx n w y r p a' b' -> a = a' /\ b = b'.
Proof.
  intros H H'. apply (node_case_pos _ _ _ _ _ h) in H. apply (node_case_pos _ _ _ _ _ h) in H'. unfold pos in *. rewrite H in H'. injection H' as H'. intros. apply (rowc_inj h Hh). unfold rowc. congruence.
Qed.
Lemma at2_C e E j p : nth_error C e = Some E -> nth_error E j = Some p -> at2 C e j = Ok p.
Proof. intros H1 H2. unfold at2, get. rewrite H1. cbn [bind]. now rewrite H2. Qed.
Lemma at2_X p a b : node_case nelx n w y r p a b -> at2 X p 0 = Ok (h * INR a)%R /\ at2 X p 1 = Ok (h * INR b)%R.
Proof. intros H. apply (node_case_pos _ _ _ _ _ h) in H. unfold pos, rowc in H. unfold at2, get. rewrite H. split; reflexivity. Qed.
Lemma t1_right T : In T (sq :: lows ++ ups) -> 1 <= fst (snd (fst (fst T))).
Proof. cbn. intros H. repeat (destruct H as [<-|H]; [cbn; lia|]). destruct H. Qed.

Hypothesis Hn2 : 2 <= n.
Lemma A_pos : 1 <= A.
Proof. pose proof (nsum_le 1 (n - 1) NE ltac:(lia)) as M. cbn [nsum] in M. pose proof (NE_pos 0 ltac:(unfold Proof_FineLayer.L; lia)). unfold Proof_FineLayer.SE. lia. Qed.
Lemma left_Ok : forall i, i < nelx -> go_left C (A + i) = Ok A.
Proof.
  induction i as [|i IH]; intros Hi.
  - destruct (mid_elem 0 Hi) as (p0 & p1 & p2 & p3 & E & C0 & _). rewrite Nat.add_0_r in *. pose proof A_pos as AP. destruct A as [|a] eqn:EA; [lia|]. cbn [go_left].
    rewrite (at2_C _ _ 0 p0 E eq_refl). cbn [bind].
    assert (Ha : a < SE L) by (rewrite SE_total; lia). destruct (elem_cases nelx n w r a Ha) as (iy & ix & T & EC).
    destruct (T_kind _ _ _ _ _ _ _ _ EC) as (Hi' & _ & _ & HT). apply t1_right in HT. destruct T as [[[t0 t1] t2] t3]. cbn [fst snd] in HT.
    destruct (elem_at _ _ _ _ _ HL _ _ _ _ _ _ _ EC) as (q0 & q1 & q2 & q3 & E' & _ & D1 & _). rewrite (at2_C _ _ 1 q1 E' eq_refl). cbn [bind].
    destruct (Nat.eqb_spec p0 q1) as [->|]; [exfalso|reflexivity]. unfold Proof_FineLayerMesh.corner in D1. destruct (case_fun _ _ _ _ _ C0 D1) as [Q _]. unfold cx in Q.
    assert (1 <= sz iy) by (destruct (sz_facts _ _ _ _ _ HL iy Hi') as [(_ & _ & Q1 & _)|(_ & _ & Q1 & _)]; exact Q1). nia.
  - destruct (mid_elem (S i) Hi) as (p0 & p1 & p2 & p3 & E & C0 & _). destruct (mid_elem i ltac:(lia)) as (q0 & q1 & q2 & q3 & E' & _ & C1 & _).
    rewrite Nat.add_succ_r in E |- *. cbn [go_left]. rewrite (at2_C _ _ 0 p0 E eq_refl). cbn [bind]. rewrite (at2_C _ _ 1 q1 E' eq_refl). cbn [bind].
    rewrite Nat.add_1_r in C1. rewrite (case_inj _ _ _ _ _ HL _ _ _ _ C0 C1), Nat.eqb_refl. apply IH. lia.
Qed.
Lemma right_Ok : forall fuel i, i < nelx -> nelx - i <= fuel -> go_right fuel C (A + i) = Some (Ok (A + nelx - 1)).
Proof.
  induction fuel as [|fuel IH]; intros i Hi Hf; [lia|]. cbn [go_right]. destruct (mid_elem i Hi) as (p0 & p1 & p2 & p3 & E & _ & C1 & _). rewrite (at2_C _ _ 1 p1 E eq_refl). cbn [bind].
  pose proof SE_total as ST. pose proof A_pos as AP. pose proof (C_length nelx n w r) as CL.
  destruct (Nat.eq_dec (S i) nelx) as [Q|Q].
  - assert (HnL : n < L) by (unfold Proof_FineLayer.L; lia).
    assert (EC : exists t1 t2 t3, elem_case (A + i + 1) n 0 ((0, 0), t1, t2, t3)).
    { assert (EA : A + i + 1 = SE n + (0 * length (tm n) + 0)) by (rewrite SE_mid; lia). pose proof (NX_pos _ _ _ _ _ HL n HnL) as NP.
      assert (ET : exists t1 t2 t3, nth_error (tm n) 0 = Some ((0, 0), t1, t2, t3)).
      { unfold Proof_FineLayerMesh.tm. rewrite Nat.ltb_irrefl. destruct (Rf n); cbn; do 3 eexists; reflexivity. }
      destruct ET as (t1 & t2 & t3 & ET). exists t1, t2, t3. now apply (Elem_case _ _ _ _ _ _ _ _ 0). }
    destruct EC as (t1 & t2 & t3 & EC). destruct (elem_at _ _ _ _ _ HL _ _ _ _ _ _ _ EC) as (q0 & q1 & q2 & q3 & E' & D0 & _). rewrite (at2_C _ _ 0 q0 E' eq_refl). cbn [bind].
    destruct (Nat.eqb_spec p1 q0) as [->|]; [exfalso|].
    + unfold Proof_FineLayerMesh.corner, cx in D0. destruct (case_fun _ _ _ _ _ C1 D0) as [Q' _]. cbn [fst] in Q'. lia.
    + cbn [andb]. do 2 f_equal. lia.
  - destruct (mid_elem (S i) ltac:(lia)) as (q0 & q1 & q2 & q3 & E' & D0 & _). rewrite Nat.add_succ_r in E'. replace (A + i + 1) with (S (A + i)) by lia. rewrite (at2_C _ _ 0 q0 E' eq_refl). cbn [bind].
    rewrite Nat.add_1_r in C1. rewrite (case_inj _ _ _ _ _ HL _ _ _ _ C1 D0), Nat.eqb_refl. destruct (Nat.ltb_spec (A + i) (length C - 1)) as [_|Q']; [|rewrite CL in Q'; lia]. cbn [andb].
    replace (S (A + i)) with (A + S i) by lia. apply IH; lia.
Qed.

Variable close : R -> R -> bool.
Hypothesis Hclose : forall x, close x x = true.
Lemma mapping_eq : init_by_mapping close X C = same_mesh close X C (FineLayer_init nelx (Y L) h 1) (fun m' => do mid <- elementsMiddleLayer m'; check (equal1 mid (map (Nat.add A) (seq 0 nelx))) (Ok m')).
Proof.
  pose proof (l_nelx _ _ _ _ _ HL) as Hx. pose proof SE_total as ST. pose proof A_pos as AP. pose proof (C_length nelx n w r) as CL. pose proof (Nat.div_lt nelx 2 ltac:(lia) ltac:(lia)) as DL.
  unfold init_by_mapping. rewrite CL. destruct (Nat.eqb_spec (SE L) 1) as [Q|_]; [lia|]. cbv zeta. rewrite emid, right_Ok by lia. rewrite left_Ok by lia. cbn [bind].
  destruct (mid_elem 0 ltac:(lia)) as (p0 & p1 & p2 & p3 & E & C0 & _). rewrite Nat.add_0_r in E. rewrite (at2_C _ _ 0 p0 E eq_refl). cbn [bind]. rewrite (proj1 (at2_X _ _ _ C0)). cbn [bind INR]. rewrite Rmult_0_r, Hclose. cbn [check].
  unfold arange. replace (A + nelx - 1 + 1 - A) with nelx by lia.
  rewrite (mapM_Ok _ _ (fun _ => h)).
  2:{ intros e He. apply in_seq in He. destruct (mid_elem (e - A) ltac:(lia)) as (q0 & q1 & q2 & q3 & E' & D0 & D1 & _). replace (A + (e - A)) with e in E' by lia.
      rewrite (at2_C _ _ 1 q1 E' eq_refl). cbn [bind]. rewrite (proj1 (at2_X _ _ _ D1)). cbn [bind]. rewrite (at2_C _ _ 0 q0 E' eq_refl). cbn [bind]. rewrite (proj1 (at2_X _ _ _ D0)). cbn [bind]. f_equal. rewrite plus_INR, I1. ring. }
  cbn [bind]. rewrite (mapM_Ok _ _ (fun _ => h)).
  2:{ intros e He. apply in_seq in He. destruct (mid_elem (e - A) ltac:(lia)) as (q0 & q1 & q2 & q3 & E' & _ & D1 & D2). replace (A + (e - A)) with e in E' by lia.
      rewrite (at2_C _ _ 2 q2 E' eq_refl). cbn [bind]. rewrite (proj2 (at2_X _ _ _ D2)). cbn [bind]. rewrite (at2_C _ _ 1 q1 E' eq_refl). cbn [bind]. rewrite (proj2 (at2_X _ _ _ D1)). cbn [bind]. f_equal. rewrite plus_INR, I1. ring. }
  cbn [bind]. assert (EM : map (fun _ : nat => h) (seq A nelx) = h :: repeat h (nelx - 1)).
  { now apply map_const. }
  rewrite EM. cbn [aminR]. rewrite amin_const. cbn [bind]. rewrite Hclose. cbn [check].
  assert (AC : allclose0 close (h :: repeat h (nelx - 1)) h = true).
  { unfold allclose0. cbn [forallb]. rewrite Hclose. cbn [andb]. generalize (nelx - 1). intros k. induction k as [|k IH]; [reflexivity|]. cbn. now rewrite Hclose, IH. }
  rewrite AC. cbn [check]. rewrite (coorl_length nelx n w y r h).
  assert (NP : 1 <= NN L) by (unfold Proof_FineLayer.NN; lia).
  assert (CT : node_case nelx n w y r (SN L + NN L - 1) (WN n w L * (NN L - 1)) (Y L)) by (apply case_row; lia).
  rewrite (proj2 (at2_X _ _ _ CT)). cbn [bind].
  assert (C00 : node_case nelx n w y r 0 (WN n w 0 * 0) (Y 0)) by (apply case_row; [lia|unfold Proof_FineLayer.NN; lia|reflexivity]).
  rewrite (proj2 (at2_X 0 _ _ C00)). cbn [bind]. change (Y 0) with 0. cbn [INR]. rewrite Rmult_0_r, Rminus_0_r.
  replace (h * INR (Y L) / h)%R with (INR (Y L)) by (field; lra). unfold to_size. rewrite Int_part_INR, Nat2Z.id. replace (A + nelx - 1 - A + 1) with nelx by lia. reflexivity.
Qed.
End Search.

(** ** one layer *)
Section OneLayer.
Variables (nelx : nat) (w y : nat -> nat) (r : nat -> bool) (h : R).
Hypothesis HL : layered nelx 1 w y r.
Hypothesis Hh : (0 < h)%R.
Notation X := (coorl nelx 1 w y r h).
Notation C := (connl nelx 1 w r).
Lemma one_len : length C = nelx.
Proof. rewrite C_length, (SE_total nelx 1 w y r HL). cbn. lia. Qed.
Lemma one_elem i : i < nelx -> exists p0 p1 p2 p3, nth_error C i = Some [p0; p1; p2; p3] /\
  node_case nelx 1 w y r p0 i 0 /\ node_case nelx 1 w y r p1 (i + 1) 0 /\ node_case nelx 1 w y r p2 (i + 1) 1.
Proof. intros H. exact (mid_elem nelx 1 w y r HL i H). Qed.
Lemma one_left : forall i, i < nelx -> go_left C i = Oob.
Proof.
  induction i as [|i IH]; intros Hi.
  - destruct (one_elem 0 Hi) as (p0 & p1 & p2 & p3 & E & _). cbn [go_left]. now rewrite (at2_C nelx 1 w r _ _ 0 p0 E eq_refl).
  - destruct (one_elem (S i) Hi) as (p0 & p1 & p2 & p3 & E & C0 & _). destruct (one_elem i ltac:(lia)) as (q0 & q1 & q2 & q3 & E' & _ & C1 & _).
    cbn [go_left]. rewrite (at2_C nelx 1 w r _ _ 0 p0 E eq_refl). cbn [bind]. rewrite (at2_C nelx 1 w r _ _ 1 q1 E' eq_refl). cbn [bind].
    rewrite Nat.add_1_r in C1. rewrite (case_inj _ _ _ _ _ HL _ _ _ _ C0 C1), Nat.eqb_refl. apply IH. lia.
Qed.
Lemma one_right : forall fuel i, i < nelx -> nelx - i <= fuel -> go_right fuel C i = Some Oob.
Proof.
  induction fuel as [|fuel IH]; intros i Hi Hf; [lia|]. cbn [go_right]. destruct (one_elem i Hi) as (p0 & p1 & p2 & p3 & E & _ & C1 & _). rewrite (at2_C nelx 1 w r _ _ 1 p1 E eq_refl). cbn [bind].
  destruct (Nat.eq_dec (S i) nelx) as [Q|Q].
  - unfold at2, get. rewrite (proj2 (nth_error_None C (i + 1))) by (rewrite one_len; lia). reflexivity.
  - destruct (one_elem (S i) ltac:(lia)) as (q0 & q1 & q2 & q3 & E' & D0 & _). rewrite Nat.add_1_r in C1 |- *. rewrite (at2_C nelx 1 w r _ _ 0 q0 E' eq_refl). cbn [bind].
    rewrite (case_inj _ _ _ _ _ HL _ _ _ _ C1 D0), Nat.eqb_refl. destruct (Nat.ltb_spec i (length C - 1)) as [_|Q']; [|rewrite one_len in Q'; lia]. cbn [andb]. apply IH; lia.
Qed.
Lemma one_Oob close : 2 <= nelx -> init_by_mapping close X C = Some Oob.
Proof.
  intros H. unfold init_by_mapping. rewrite one_len. destruct (Nat.eqb_spec nelx 1); [lia|]. cbv zeta.
  assert (Q : (nelx - nelx mod 2) / 2 < nelx) by (apply Nat.div_lt_upper_bound; lia).
  rewrite one_right by lia. now rewrite one_left by assumption.
Qed.
Lemma one_single close : nelx = 1 -> init_by_mapping close X C = same_mesh close X C (FineLayer_init 1 1 h 1) Ok.
Proof.
  intros H. destruct (one_elem 0 ltac:(lia)) as (p0 & p1 & p2 & p3 & E & C0 & C1 & _).
  unfold init_by_mapping. rewrite one_len, H. cbn [Nat.eqb]. rewrite H in *. rewrite (at2_C _ 1 w r _ _ 1 p1 E eq_refl). cbn [bind]. rewrite (proj1 (at2_X _ 1 w y r h _ _ _ C1)). cbn [bind].
  rewrite (at2_C _ 1 w r _ _ 0 p0 E eq_refl). cbn [bind]. rewrite (proj1 (at2_X _ 1 w y r h _ _ _ C0)). cbn [bind]. replace (h * INR (0 + 1) - h * INR 0)%R with h by (cbn; ring). reflexivity.
Qed.
End OneLayer.

Lemma same_mesh_Ok close X C m k : (forall x, close x x = true) -> f_conn m = Ok C -> f_coor m = Ok X -> same_mesh close X C (Some (Ok m)) k = Some (k m).
Proof.
  intros Hc HC HX. unfold same_mesh. cbn [option_map bind]. rewrite HC. cbn [bind]. rewrite equal2_refl. cbn [check]. rewrite HX. cbn [bind]. unfold allclose2. rewrite all2_refl; [reflexivity|]. now apply all2_refl.
Qed.

Section Thm.
Variable close : R -> R -> bool.
Hypothesis Hclose : forall x, close x x = true.
Lemma the_layers nelx nely nfine n w y r : greedy nelx nely nfine n w y r -> (3 <= nely <-> 2 <= n).
Proof.
  intros G. pose proof (g_layered _ _ _ _ _ _ _ G) as HL. pose proof (g_enough _ _ _ _ _ _ _ G) as GE. pose proof (g_last _ _ _ _ _ _ _ G) as GL. pose proof (l_n _ _ _ _ _ HL) as Hn.
  pose proof (Nat.div_mod (nely + 1) 2 ltac:(lia)) as D. pose proof (Nat.mod_upper_bound (nely + 1) 2 ltac:(lia)) as M. split; intros H.
  - destruct (Nat.eq_dec n 1) as [->|]; [exfalso|lia]. cbn [nsum] in GE. rewrite (l_y0 _ _ _ _ _ HL) in GE. lia.
  - pose proof (nsum_le 1 (n - 1) y ltac:(lia)) as Q. cbn [nsum] in Q. rewrite (l_y0 _ _ _ _ _ HL) in Q. lia.
Qed.
Lemma V_reconstruct nelx nely h m X C : 1 <= nelx -> 1 <= nely -> (0 < h)%R -> 3 <= nely \/ nelx = 1 ->
  FineLayer_init nelx nely h 1 = Some (Ok m) -> f_coor m = Ok X -> f_conn m = Ok C -> init_by_mapping close X C = Some (Ok m).
Proof.
  intros Hx Hy1 Hh Hc E HX HC. destruct (the_mesh nelx nely 1 h m Hx Hy1 E) as (n & w & y & r & -> & G). pose proof (g_layered _ _ _ _ _ _ _ G) as HL. pose proof (l_n _ _ _ _ _ HL) as Hn.
  pose proof HX as HX'. pose proof HC as HC'. rewrite (Proof_FineLayerMesh.coor_spec _ _ _ _ _ _ HL) in HX. rewrite (Proof_FineLayerMesh.conn_spec _ _ _ _ _ h HL) in HC. injection HX as <-. injection HC as <-.
  assert (SAME : forall ny', 1 <= ny' -> (ny' + 1) / 2 = nsum n y -> FineLayer_init nelx ny' h 1 = Some (Ok (FL_of nelx n w y r h))).
  { intros ny' H1 H2. destruct (FineLayer_init_spec nelx ny' h 1 Hx H1) as (n' & w' & y' & r' & E' & G'). rewrite E'. do 2 f_equal. now apply (same_FL nelx nely ny'). }
  pose proof (Y_half _ _ _ _ _ _ _ G) as YH. assert (YP : 1 <= nsum n y) by (pose proof (nsum_le 1 n y ltac:(lia)) as Q; cbn [nsum] in Q; rewrite (l_y0 _ _ _ _ _ HL) in Q; lia).
  destruct (le_lt_dec 2 n) as [N2|N2].
  - rewrite (mapping_eq nelx n w y r h HL Hh N2 close Hclose). rewrite SAME; [|lia|replace (Y n y (L n) + 1) with (nsum n y * 2) by lia; now rewrite Nat.div_mul].
    rewrite same_mesh_Ok by assumption. rewrite (elementsMiddle_spec _ _ _ _ _ _ HL). cbn [bind]. now rewrite equal1_refl.
  - assert (N1 : n = 1) by lia. assert (X1 : nelx = 1) by (destruct Hc as [Hc|]; [apply (the_layers _ _ _ _ _ _ _ G) in Hc; lia|assumption]). subst n. rewrite (one_single nelx w y r h HL close X1). rewrite <- X1 at 3.
    rewrite SAME; [|lia|cbn; now rewrite (l_y0 _ _ _ _ _ HL)]. now rewrite same_mesh_Ok.
Qed.
Lemma V_one_layer nelx nely nfine h m X C : 2 <= nelx -> 1 <= nely <= 2 -> (0 < h)%R ->
  FineLayer_init nelx nely h nfine = Some (Ok m) -> f_coor m = Ok X -> f_conn m = Ok C -> init_by_mapping close X C = Some Oob.
Proof.
  intros Hx Hy1 Hh E HX HC. destruct (the_mesh nelx nely nfine h m ltac:(lia) ltac:(lia) E) as (n & w & y & r & -> & G). pose proof (g_layered _ _ _ _ _ _ _ G) as HL. pose proof (l_n _ _ _ _ _ HL) as Hn.
  rewrite (Proof_FineLayerMesh.coor_spec _ _ _ _ _ _ HL) in HX. rewrite (Proof_FineLayerMesh.conn_spec _ _ _ _ _ h HL) in HC. injection HX as <-. injection HC as <-.
  assert (N1 : n = 1) by (destruct (le_lt_dec 2 n) as [Q|Q]; [apply (the_layers _ _ _ _ _ _ _ G) in Q; lia|lia]). subst n. now apply one_Oob.
Qed.
(** any [nfine] *)
Lemma V_any nelx nely nfine h m X C : 1 <= nelx -> 3 <= nely -> (0 < h)%R ->
  FineLayer_init nelx nely h nfine = Some (Ok m) -> f_coor m = Ok X -> f_conn m = Ok C ->
  exists k, init_by_mapping close X C = same_mesh close X C (FineLayer_init nelx (f_nely m) h 1) k.
Proof.
  intros Hx Hy1 Hh E HX HC. destruct (the_mesh nelx nely nfine h m Hx ltac:(lia) E) as (n & w & y & r & -> & G). pose proof (g_layered _ _ _ _ _ _ _ G) as HL.
  rewrite (Proof_FineLayerMesh.coor_spec _ _ _ _ _ _ HL) in HX. rewrite (Proof_FineLayerMesh.conn_spec _ _ _ _ _ h HL) in HC. injection HX as <-. injection HC as <-.
  eexists. rewrite (mapping_eq nelx n w y r h HL Hh); [|now apply (the_layers _ _ _ _ _ _ _ G)|assumption]. now rewrite nely_spec.
Qed.
End Thm.
Lemma V_sound close X C m : init_by_mapping close X C = Some (Ok m) ->
  f_conn m = Ok C /\ exists X', f_coor m = Ok X' /\ allclose2 close X' X = true.
Proof.
  intros H.
  assert (S : forall o k, (forall m' m'', k m' = Ok m'' -> m'' = m') -> same_mesh close X C o k = Some (Ok m) -> f_conn m = Ok C /\ exists X', f_coor m = Ok X' /\ allclose2 close X' X = true).
  { intros [o|] k Hk Q; [|discriminate]. cbn [same_mesh option_map] in Q. injection Q as Q. destruct o as [m'| | |]; cbn [bind] in Q; try discriminate.
    destruct (f_conn m') as [c| | |] eqn:Ec; cbn [bind] in Q; try discriminate. unfold check in Q. destruct (equal2 c C) eqn:E2; [|discriminate]. destruct (f_coor m') as [x| | |] eqn:Ex; cbn [bind] in Q; try discriminate.
    destruct (allclose2 close x X) eqn:Ea; [|discriminate]. apply Hk in Q. subst m'. apply equal2_eq in E2. subst c. eauto. }
  unfold init_by_mapping in H. destruct (length C =? 1).
  - match type of H with match ?x with _ => _ end = _ => destruct x; try discriminate end. eapply S; [|exact H]. intros ? ? Q. now injection Q.
  - destruct (go_right _ _ _); [|discriminate]. match type of H with match ?x with _ => _ end = _ => destruct x as [[[[a b] c] d]| | |]; try discriminate end. eapply S; [|exact H].
    intros m' m'' Q. unfold check in Q. destruct (elementsMiddleLayer m') as [l| | |]; cbn [bind] in Q; try discriminate. destruct (equal1 l (map (Nat.add a) (seq 0 b))); [|discriminate]. now injection Q.
Qed.
Lemma V_nfine close h : (forall x, close x x = true) -> (0 < h)%R -> exists m X C, FineLayer_init 3 9 h 9 = Some (Ok m) /\ f_coor m = Ok X /\ f_conn m = Ok C /\ init_by_mapping close X C = Some Throw.
Proof.
  intros Hc Hh. destruct (FineLayer_init_spec 3 9 h 9 ltac:(lia) ltac:(lia)) as (n & w & y & r & E & G). pose proof (g_layered _ _ _ _ _ _ _ G) as HL.
  exists (FL_of 3 n w y r h), (coorl 3 n w y r h), (connl 3 n w r). split; [exact E|]. split; [now apply Proof_FineLayerMesh.coor_spec|]. split; [now apply Proof_FineLayerMesh.conn_spec|].
  destruct (V_any close Hc 3 9 9 h _ _ _ ltac:(lia) ltac:(lia) Hh E (Proof_FineLayerMesh.coor_spec _ _ _ _ _ h HL) (Proof_FineLayerMesh.conn_spec _ _ _ _ _ h HL)) as [k ->].
  assert (Q : f_nely (FL_of 3 n w y r h) = 9 /\ f_nelem (FL_of 3 n w y r h) = 27).
  { assert (Q : forall h, match FineLayer_init 3 9 h 9 with Some (Ok m) => f_nely m = 9 /\ f_nelem m = 27 | _ => False end) by (intros h0; vm_compute; auto). specialize (Q h). now rewrite E in Q. }
  destruct Q as [-> Q27]. destruct (FineLayer_init_spec 3 9 h 1 ltac:(lia) ltac:(lia)) as (n' & w' & y' & r' & E' & G'). rewrite E'.
  assert (Q : f_nelem (FL_of 3 n' w' y' r' h) = 23).
  { assert (Q : forall h, match FineLayer_init 3 9 h 1 with Some (Ok m) => f_nelem m = 23 | _ => False end) by (intros h0; vm_compute; auto). specialize (Q h). now rewrite E' in Q. }
  unfold same_mesh. cbn [option_map bind]. rewrite (Proof_FineLayerMesh.conn_spec _ _ _ _ _ h (g_layered _ _ _ _ _ _ _ G')). cbn [bind].
  destruct (equal2 (connl 3 n' w' r') (connl 3 n w r)) eqn:E2; [exfalso|reflexivity]. apply equal2_eq in E2. apply (f_equal (@length _)) in E2. rewrite !C_length in E2. cbn [f_nelem FL_of] in Q, Q27. lia.
Qed.
