(** Lemmas for C117: the constructor of FineLayer from a mesh. *)
From Coq Require Import Reals ZArith Lra Lia.
From Verif Require Import Base Sums Spec Spec2d Spec_Tiling Spec_FineLayer Model_Numbering Model_Vector Proof_Vector Model_Misc Model_Regular2d Model_FineLayer Model_FineLayerMapping
  Proof_FineLayer Proof_FineLayerThm Model_Checked Spec_Checked Proof_Checked Model_CheckedMesh Spec_CheckedMesh Proof_CheckedMesh Model_CheckedMaps Model_CheckedMore Spec_CheckedMore.
Local Open Scope nat_scope.

Lemma rows2_at {A} n d (a : array A) i j : i < n -> j < d -> at2 (rows2 n d a) i j = Ok (a_ent a [i; j]).
Proof.
  intros Hi Hj. unfold at2, rows2, get. rewrite nth_error_map, nth_error_seq. destruct (Nat.ltb_spec i n); [|lia]. cbn [option_map bind].
  rewrite nth_error_map, nth_error_seq. destruct (Nat.ltb_spec j d); [|lia]. reflexivity.
Qed.
Lemma rows2_out {A} n d (a : array A) i j : n <= i -> at2 (rows2 n d a) i j = Oob.
Proof. intros Hi. unfold at2, rows2, get. rewrite nth_error_map, nth_error_seq. destruct (Nat.ltb_spec i n); [lia|]. reflexivity. Qed.
Lemma rows2_len {A} n d (a : array A) : length (rows2 n d a) = n.
Proof. unfold rows2. now rewrite map_length, seq_length. Qed.
Lemma init_zero nelx h : FineLayer_init nelx 0 h 1 = Some Oob.
Proof. reflexivity. Qed.

Section Search.
Variables (coor : array R) (conn : array nat) (nnode nelem : nat).
Hypothesis H : fine_input coor conn nnode nelem.
Notation X := (rows2 nnode 2 coor).
Notation C := (rows2 nelem 4 conn).

Lemma C_at e j : e < nelem -> j < 4 -> at2 C e j = Ok (a_ent conn [e; j]).
Proof. intros; now apply rows2_at. Qed.
Lemma X_at e m j : e < nelem -> m < 4 -> j < 2 -> at2 X (a_ent conn [e; m]) j = Ok (a_ent coor [a_ent conn [e; m]; j]).
Proof. intros He Hm Hj. apply rows2_at; [|assumption]. destruct H as (_ & _ & _ & _ & N). now apply N. Qed.

Lemma left_spec : forall e, e < nelem ->
  ((forall k, 0 < k -> k <= e -> a_ent conn [k; 0] = a_ent conn [k - 1; 1]) /\ go_left C e = Oob) \/
  (~ (forall k, 0 < k -> k <= e -> a_ent conn [k; 0] = a_ent conn [k - 1; 1]) /\ exists l, go_left C e = Ok l /\ l <= e).
Proof.
  induction e as [|e IH]; intros He; cbn [go_left]; rewrite C_at by lia; cbn [bind].
  - left. split; [intros; lia|reflexivity].
  - rewrite C_at by lia. cbn [bind]. destruct (Nat.eqb_spec (a_ent conn [S e; 0]) (a_ent conn [e; 1])) as [Q|Q].
    + destruct (IH ltac:(lia)) as [[A E]|[A (l & E & L)]].
      * left. split; [|exact E]. intros k K0 Hk. destruct (Nat.eq_dec k (S e)) as [->|]; [|apply A; lia]. replace (S e - 1) with e by lia. exact Q.
      * right. split; [|exists l; split; [exact E|lia]]. intros B. apply A. intros k K0 Hk. apply B; lia.
    + right. split; [|exists (S e); split; [reflexivity|lia]]. intros B. apply Q. rewrite (B (S e)) by lia. now replace (S e - 1) with e by lia.
Qed.
Lemma right_spec : forall fuel e, e < nelem -> nelem - e <= fuel ->
  ((forall k, e <= k -> k + 1 < nelem -> a_ent conn [k; 1] = a_ent conn [k + 1; 0]) /\ go_right fuel C e = Some Oob) \/
  (~ (forall k, e <= k -> k + 1 < nelem -> a_ent conn [k; 1] = a_ent conn [k + 1; 0]) /\ exists r, go_right fuel C e = Some (Ok r) /\ e <= r < nelem).
Proof.
  induction fuel as [|fuel IH]; intros e He Hf; [lia|]. cbn [go_right]. rewrite C_at by lia. cbn [bind]. rewrite rows2_len.
  destruct (Nat.eq_dec (e + 1) nelem) as [Q|Q].
  - rewrite rows2_out by lia. cbn [bind]. left. split; [intros; lia|reflexivity].
  - rewrite C_at by lia. cbn [bind]. destruct (Nat.eqb_spec (a_ent conn [e; 1]) (a_ent conn [e + 1; 0])) as [Q1|Q1].
    + destruct (Nat.ltb_spec e (nelem - 1)); [|lia]. cbn [andb]. destruct (IH (e + 1) ltac:(lia) ltac:(lia)) as [[A E]|[A (r & E & L)]].
      * left. split; [|exact E]. intros k K0 Hk. destruct (Nat.eq_dec k e) as [->|]; [exact Q1|apply A; lia].
      * right. split; [|exists r; split; [exact E|lia]]. intros B. apply A. intros k K0 Hk. apply B; lia.
    + cbn [andb]. right. split; [|exists e; split; [reflexivity|lia]]. intros B. apply Q1. apply B; lia.
Qed.

(** the constructor of the new mesh and the comparisons *)
Definition compare_ (close : R -> R -> bool) (k : FineLayer -> res FineLayer) := (forall m x, k m = Ok x -> x = m) /\
  forall nelx nely h m, 1 <= nelx -> 1 <= nely -> FineLayer_init nelx nely h 1 = Some (Ok m) -> k m = Throw \/ k m = Ok m.
Lemma same_spec close nelx nely h k : 1 <= nelx -> compare_ close k ->
  (same_mesh close X C (FineLayer_checked true nelx nely h 1) k = Some Throw \/ exists m, same_mesh close X C (FineLayer_checked true nelx nely h 1) k = Some (Ok m)) /\
  (forall m, same_mesh close X C (FineLayer_checked true nelx nely h 1) k = Some (Ok m) <-> same_mesh close X C (FineLayer_init nelx nely h 1) k = Some (Ok m)).
Proof.
  intros Hx [_ K]. unfold FineLayer_checked. destruct (Nat.leb_spec 1 nelx); [|lia]. destruct (Nat.leb_spec 1 nely) as [Hy|Hy]; cbn [andb negb].
  - destruct (T_terminates nelx nely h 1 Hx Hy) as [m E]. rewrite E. destruct (T_mesh _ _ _ _ _ Hx Hy E) as (X' & C' & EX & EC & _).
    unfold same_mesh. cbn [option_map bind]. rewrite EC. cbn [bind]. split; [|reflexivity]. destruct (equal2 _ _); [|left; reflexivity]. cbn [check]. rewrite EX. cbn [bind].
    destruct (allclose2 _ _ _); [|left; reflexivity]. cbn [check]. destruct (K nelx nely h m Hx Hy E) as [->| ->]; [left; reflexivity|right; now exists m].
  - replace nely with 0 by lia. rewrite init_zero. cbn. split; [left; reflexivity|]. intros m. split; discriminate.
Qed.
Lemma middle_ok close l n : compare_ close (fun m => do mid <- elementsMiddleLayer m; check (equal1 mid (map (Nat.add l) (seq 0 n))) (Ok m)).
Proof.
  split.
  - intros m x. destruct (elementsMiddleLayer m) as [mid| | |]; cbn [bind]; try discriminate. unfold check. destruct (equal1 _ _); [congruence|discriminate].
  - intros nelx nely h m Hx Hy E. destruct (T_middle _ _ _ _ _ Hx Hy E) as (_ & _ & mid & _ & _ & -> & _). cbn [bind]. unfold check. destruct (equal1 _ _); auto.
Qed.
Lemma same_ok close : compare_ close Ok.
Proof. split; [intros m x [= <-]; reflexivity|auto]. Qed.

(** the sizes of the elements in the middle layer *)
Lemma sizes_spec close l r : l <= r -> r < nelem ->
  let body := (do nl <- at2 C l 0; do xl <- at2 X nl 0; check (close xl 0%R) (
     let es := arange l (r + 1) in
     do dx <- mapM (fun e => do n1 <- at2 C e 1; do x1 <- at2 X n1 0; do n0 <- at2 C e 0; do x0 <- at2 X n0 0; Ok (x1 - x0)%R) es;
     do dy <- mapM (fun e => do n2 <- at2 C e 2; do y2 <- at2 X n2 1; do n1 <- at2 C e 1; do y1 <- at2 X n1 1; Ok (y2 - y1)%R) es;
     do hx <- aminR dx; do hy <- aminR dy;
     check (close hx hy) (check (allclose0 close dx hx) (check (allclose0 close dy hy) (
     do last <- at2 X (nnode - 1) 1; do first <- at2 X 0 1;
     Ok (l, r - l + 1, to_size ((last - first) / hx), hx)))))) in
  body = Throw \/ exists ny hx, body = Ok (l, r - l + 1, ny, hx).
Proof.
  intros Hl Hr. cbv zeta. rewrite C_at by lia. cbn [bind]. rewrite X_at by lia. cbn [bind]. destruct (close _ 0%R); cbn [check]; [|left; reflexivity].
  rewrite (mapM_Ok _ _ (fun e => (a_ent coor [a_ent conn [e; 1]; 0]%nat - a_ent coor [a_ent conn [e; 0]; 0]%nat)%R)).
  2:{ intros e He. unfold arange in He. apply in_seq in He. rewrite C_at by lia. cbn [bind]. rewrite X_at by lia. cbn [bind]. rewrite C_at by lia. cbn [bind]. rewrite X_at by lia. reflexivity. }
  cbn [bind]. rewrite (mapM_Ok _ _ (fun e => (a_ent coor [a_ent conn [e; 2]; 1]%nat - a_ent coor [a_ent conn [e; 1]; 1]%nat)%R)).
  2:{ intros e He. unfold arange in He. apply in_seq in He. rewrite C_at by lia. cbn [bind]. rewrite X_at by lia. cbn [bind]. rewrite C_at by lia. cbn [bind]. rewrite X_at by lia. reflexivity. }
  cbn [bind]. unfold arange. replace (r + 1 - l) with (S (r - l)) by lia. cbn [seq map aminR bind].
  destruct (close _ _); cbn [check]; [|left; reflexivity]. destruct (allclose0 _ _ _); cbn [check]; [|left; reflexivity]. destruct (allclose0 _ _ _); cbn [check]; [|left; reflexivity].
  destruct H as (_ & _ & _ & N4 & _). rewrite !rows2_at by lia. cbn [bind]. right. eauto.
Qed.

Definition expected (close : R -> R -> bool) (out rel : option (res FineLayer)) : Prop :=
  (out = Some Oob <-> 1 < nelem /\ (row_from_start conn nelem \/ row_to_end conn nelem)) /\
  (out = Some Oob \/ out = Some Throw \/ exists m, out = Some (Ok m)) /\
  (forall m, out = Some (Ok m) <-> rel = Some (Ok m)).
Lemma half : (nelem - nelem mod 2) / 2 = nelem / 2.
Proof.
  pose proof (Nat.div_mod nelem 2 ltac:(lia)) as D. replace (nelem - nelem mod 2) with (nelem / 2 * 2) by lia. apply Nat.div_mul. lia.
Qed.
Lemma from_spec close : expected close (FineLayer_from_checked true close coor conn) (init_by_mapping close X C).
Proof.
  destruct H as (E1 & E2 & N0 & N4 & N). unfold FineLayer_from_checked, init_by_mapping. rewrite E1, E2, !rows2_len.
  rewrite (proj2 (Nat.ltb_lt 0 nelem) N0), (proj2 (Nat.leb_le 4 nnode) N4), (proj2 (amax_nodes nelem 4 conn nnode)) by (split; [lia|exact N]). cbn [Nat.eqb andb negb].
  destruct (Nat.eqb_spec nelem 1) as [Q|Q].
  - rewrite !C_at by lia. cbn [bind]. rewrite X_at by lia. cbn [bind]. rewrite X_at by lia. cbn [bind].
    destruct (same_spec close 1 1 (a_ent coor [a_ent conn [0; 1]; 0]%nat - a_ent coor [a_ent conn [0; 0]; 0]%nat)%R Ok (le_n 1) (same_ok close)) as [[P|[m P]] R].
    + rewrite P in *. split; [split; [discriminate|lia]|]. split; [auto|exact R].
    + rewrite P in *. split; [split; [discriminate|lia]|]. split; [eauto|exact R].
  - cbv zeta. rewrite half. assert (L : nelem / 2 < nelem) by (apply Nat.div_lt; lia).
    assert (DL : row_from_start conn nelem \/ ~ row_from_start conn nelem) by (destruct (left_spec (nelem / 2) L) as [[A _]|[A _]]; auto).
    destruct (right_spec nelem (nelem / 2) L ltac:(lia)) as [[B ER]|[B (r & ER & LR)]]; rewrite ER.
    + assert (EO : forall T (k : nat -> nat -> res T), (do eleft <- go_left C (nelem / 2); do eright <- Oob; k eleft eright) = Oob).
      { intros T k. destruct (left_spec (nelem / 2) L) as [[_ ->]|[_ (l & -> & _)]]; reflexivity. }
      rewrite EO. split; [split; [intros _; split; [lia|right; exact B]|reflexivity]|]. split; [auto|reflexivity].
    + destruct (left_spec (nelem / 2) L) as [[A EL]|[A (l & EL & LL)]]; rewrite EL; cbn [bind].
      * split; [split; [intros _; split; [lia|left; exact A]|reflexivity]|]. split; [auto|reflexivity].
      * assert (NR : forall P : Prop, (1 < nelem /\ (row_from_start conn nelem \/ row_to_end conn nelem)) -> P).
        { intros P [_ [G|G]]; exfalso; [exact (A G)|exact (B G)]. }
        destruct (sizes_spec close l r ltac:(lia) ltac:(lia)) as [S|(ny & hx & S)]; cbv zeta in S; rewrite S.
        -- split; [split; [discriminate|apply NR]|]. split; [auto|reflexivity].
        -- destruct (same_spec close (r - l + 1) ny hx _ ltac:(lia) (middle_ok close l (r - l + 1))) as [[P|[m P]] R].
           ++ rewrite P in *. split; [split; [discriminate|apply NR]|]. split; [auto|exact R].
           ++ rewrite P in *. split; [split; [discriminate|apply NR]|]. split; [eauto|exact R].
Qed.
End Search.

Lemma from_guard close coor conn : (forall nnode nelem, ~ fine_input coor conn nnode nelem) -> FineLayer_from_checked true close coor conn = Some Throw.
Proof.
  intros G. unfold FineLayer_from_checked. destruct (a_shape coor) as [|nnode [|ndim [|]]] eqn:E1; try reflexivity. destruct (a_shape conn) as [|nelem [|nne [|]]] eqn:E2; try reflexivity.
  destruct (negb _) eqn:T; cbn [andb]; [reflexivity|]. exfalso. apply negb_false_iff in T. repeat (apply andb_true_iff in T; destruct T as [T ?]).
  apply Nat.eqb_eq in T. apply Nat.eqb_eq in H2. apply Nat.ltb_lt in H1. apply Nat.leb_le in H0. apply amax_nodes in H. apply (G nnode nelem). subst. unfold fine_input. tauto.
Qed.
(** without the assertions it is the constructor of C24 *)
Lemma from_release close coor conn nnode nelem : fine_input coor conn nnode nelem -> FineLayer_from_checked false close coor conn = init_by_mapping close (rows2 nnode 2 coor) (rows2 nelem 4 conn).
Proof. intros (E1 & E2 & _). unfold FineLayer_from_checked, init_by_mapping. rewrite E1, E2, !rows2_len. reflexivity. Qed.
Lemma rows_of {A} (a : array A) rows n d : shape2 rows n d -> has_rows a rows n d -> rows2 n d a = rows.
Proof.
  intros [L S] [_ E]. apply nth_error_ext. intros i. unfold rows2. rewrite nth_error_map, nth_error_seq. destruct (Nat.ltb_spec i n) as [Hi|Hi]; [|symmetry; apply nth_error_None; lia].
  cbn [option_map]. destruct (nth_error rows i) as [row|] eqn:Er; [|apply nth_error_None in Er; lia]. f_equal. apply nth_error_ext. intros j. rewrite nth_error_map, nth_error_seq.
  pose proof (S row (nth_error_In _ _ Er)) as SR. destruct (Nat.ltb_spec j d) as [Hj|Hj]; [|symmetry; apply nth_error_None; lia].
  destruct (E i j Hi Hj) as (row' & Er' & Ej). rewrite Er in Er'. injection Er' as <-. now rewrite Ej.
Qed.

(** a FineLayer mesh, as arrays *)
Lemma four_nodes (X : list (list R)) E x0 y0 h : (0 < h)%R -> quad X E x0 y0 (x0 + h) y0 (x0 + h) (y0 + h) x0 (y0 + h) -> 4 <= length X.
Proof.
  intros Hh (a & b & c & d & -> & A & B & C & D). unfold node_at in *.
  assert (N : NoDup [a; b; c; d]).
  { repeat constructor; cbn [In]; intros Q; repeat (destruct Q as [Q|Q]); try contradiction; subst;
      repeat match goal with P : nth_error X ?n = Some _, P' : nth_error X ?n = Some _ |- _ => rewrite P in P'; injection P'; intros; clear P' end; lra. }
  assert (I : incl [a; b; c; d] (seq 0 (length X))).
  { intros x Hx. apply in_seq. assert (nth_error X x <> None) as Q by (cbn [In] in Hx; repeat (destruct Hx as [<-|Hx]; [congruence|]); contradiction). apply nth_error_Some in Q. lia. }
  pose proof (NoDup_incl_length N I) as L. rewrite seq_length in L. exact L.
Qed.
Lemma mesh_input nelx nely h m X C coor conn : 1 <= nelx -> 1 <= nely -> (0 < h)%R -> FineLayer_init nelx nely h 1 = Some (Ok m) -> f_coor m = Ok X -> f_conn m = Ok C ->
  has_rows coor X (f_nnode m) 2 -> has_rows conn C (f_nelem m) 4 ->
  fine_input coor conn (f_nnode m) (f_nelem m) /\ rows2 (f_nnode m) 2 coor = X /\ rows2 (f_nelem m) 4 conn = C.
Proof.
  intros Hx Hy Hh E EX EC RX RC. destruct (T_mesh _ _ _ _ _ Hx Hy E) as (X' & C' & EX' & EC' & SX & SC & B & _).
  rewrite EX in EX'. injection EX' as <-. rewrite EC in EC'. injection EC' as <-.
  split; [|split; [now apply rows_of|now apply rows_of]].
  destruct (T_middle _ _ _ _ _ Hx Hy E) as (X' & C' & l & EX' & EC' & _ & L & Q). rewrite EX in EX'. injection EX' as <-. rewrite EC in EC'. injection EC' as <-.
  destruct l as [|e0 l]; [cbn in L; lia|]. destruct (Q 0 e0 eq_refl) as (E0 & E1 & E2). cbv zeta in E2.
  split; [exact (proj1 RX)|]. split; [exact (proj1 RC)|]. split; [|split].
  - rewrite <- (proj1 SC). destruct C; [now destruct e0|cbn; lia].
  - rewrite <- (proj1 SX). eapply (four_nodes X E0 (h * INR 0) (h * INR ((f_nely m - 1) / 2))); [exact Hh|]. 
    replace (h * INR 0 + h)%R with (h * (INR 0 + 1))%R by ring. replace (h * INR ((f_nely m - 1) / 2) + h)%R with (h * (INR ((f_nely m - 1) / 2) + 1))%R by ring. exact E2.
  - intros e k He Hk. destruct (proj2 RC e k He Hk) as (row & E3 & E4). apply nth_error_In in E3. apply nth_error_In in E4. now apply (B row).
Qed.
