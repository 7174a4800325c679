(** The constructor of Quad4::FineLayer. *)
From Coq Require Import Reals ZArith.
From Verif Require Import Base Model_Numbering Model_Regular2d Model_FineLayer Proof_Vector.

(** ** arrays filled by loops *)
Lemma loop_fill_Ok {A} n (ws : list (nat * A)) : map fst ws = seq 0 n -> loop_fill n ws = Ok (map snd ws).
Proof.
  intros H. unfold loop_fill. set (ws' := map _ ws).
  assert (Hf : map fst ws' = seq 0 n) by (unfold ws'; rewrite map_map; exact H).
  destruct (write_all_Ok ws' (repeat None n)) as (a & E & L & _ & W & _).
  { intros k v Hin. rewrite repeat_length. apply (in_map fst) in Hin. rewrite Hf in Hin. apply in_seq in Hin. simpl in Hin. lia. }
  rewrite E. cbn [bind]. rewrite repeat_length in L.
  assert (Ln : length ws = n) by (rewrite <- (map_length fst), H, seq_length; reflexivity).
  destruct ws as [|w0 ws0] eqn:Ews; [simpl in Ln; rewrite <- Ln; reflexivity|].
  set (d := snd w0). rewrite (mapM_Ok _ _ (fun i => nth i (map snd (w0 :: ws0)) d)).
  - f_equal. apply (nth_ext _ _ d d); [rewrite !map_length, seq_length; lia|].
    intros i Hi. rewrite map_length, seq_length in Hi. now rewrite nth_map_seq.
  - intros i Hi. apply in_seq in Hi. unfold get_init. rewrite (W ltac:(rewrite Hf; apply seq_NoDup) i (Some (nth i (map snd (w0 :: ws0)) d))); [reflexivity|].
    unfold ws'. apply in_map_iff. exists (nth i (w0 :: ws0) w0). split; [|apply nth_In; simpl in *; lia]. f_equal.
    + change (fst (nth i (w0 :: ws0) w0)) with (fst (nth i (w0 :: ws0) w0)). rewrite <- (map_nth fst). rewrite H. rewrite (nth_indep _ _ 0) by (rewrite seq_length; lia). now rewrite seq_nth by lia.
    + f_equal. unfold d. now rewrite (map_nth snd).
Qed.

Lemma fill_rows_Ok {A} n (rows : list A) : length rows = n -> fill_rows n rows = Ok rows.
Proof. intros <-. unfold fill_rows. rewrite Nat.ltb_irrefl. reflexivity. Qed.

Lemma concatM_Ok {A B} (f : A -> res (list B)) g l : (forall a, In a l -> f a = Ok (g a)) -> concatM f l = Ok (flat_map g l).
Proof. intros H. unfold concatM. rewrite (mapM_Ok _ _ g H). cbn [bind]. now rewrite flat_map_concat_map. Qed.

Lemma combine_fst {A B} : forall (a : list A) (b : list B), length a = length b -> map fst (combine a b) = a.
Proof. induction a as [|x a IH]; intros [|y b] H; try discriminate; [reflexivity|]. cbn. now rewrite IH by (simpl in H; lia). Qed.

(** ** sums *)
Fixpoint nsum (n : nat) (f : nat -> nat) : nat := match n with O => 0 | S n => nsum n f + f n end.
Lemma nsum_ext n f g : (forall i, i < n -> f i = g i) -> nsum n f = nsum n g.
Proof. induction n as [|n IH]; intros H; [reflexivity|]. cbn. rewrite IH, H by (auto with arith; intros; apply H; lia). reflexivity. Qed.
Lemma nsum_le n k f : n <= k -> nsum n f <= nsum k f.
Proof. induction 1; cbn; lia. Qed.

(** ** the layers above the middle *)
Definition triple : Type := nat * nat * Z.
Definition tx (t : triple) : nat := fst (fst t).
Definition ty (t : triple) : nat := snd (fst t).
Definition tr (t : triple) : Z := snd t.

Fixpoint layers (fuel nelx nmin w ntot : nat) : list triple :=
  match fuel with
  | O => []
  | S fuel =>
      if nmin <=? ntot then []
      else if (3 * w <=? ntot) && (nelx mod (3 * w) =? 0) && (ntot + w <? nmin)
        then (3 * w, 2 * w, 0%Z) :: layers fuel nelx nmin (3 * w) (ntot + 2 * w)
        else (w, w, (-1)%Z) :: layers fuel nelx nmin w (ntot + w)
  end.
Definition heights (l : list triple) : nat := fold_right Nat.add 0 (map ty l).

Lemma set_app {A} (p : list A) x q k v : length p = k -> set (p ++ x :: q) k v = Ok (p ++ v :: q).
Proof. revert k. induction p as [|a p IH]; intros k <-; [reflexivity|]. cbn. now rewrite IH. Qed.
Lemma get_app {A} (p : list A) x q k : length p = k -> get (p ++ x :: q) k = Ok x.
Proof. intros <-. unfold get. rewrite nth_error_app2, Nat.sub_diag by lia. reflexivity. Qed.
Lemma mul_from_app k f p q : length p = k -> mul_from k f (p ++ q) = p ++ map (fun x => x * f) q.
Proof.
  intros <-. unfold mul_from. rewrite firstn_app, skipn_app, firstn_all, skipn_all, Nat.sub_diag. cbn. now rewrite app_nil_r.
Qed.
Lemma map_repeat' {A B} (f : A -> B) x n : map f (repeat x n) = repeat (f x) n.
Proof. induction n; cbn; [reflexivity|now rewrite IHn]. Qed.

Lemma init_loop_spec nelx nmin nely : forall fuel iy px py pr w ntot, nmin <= nely ->
  length px = iy -> length py = iy -> length pr = iy -> iy <= nely -> iy <= ntot -> 1 <= w -> nely - iy < fuel ->
  let ls := layers (nely - iy) nelx nmin w ntot in
  exists s, init_loop fuel nelx nely nmin iy (mkHalf (px ++ repeat w (nely - iy)) (py ++ repeat w (nely - iy)) (pr ++ repeat (-1)%Z (nely - iy)) ntot)
    = Some (Ok (s, iy + length ls)) /\
  (exists qx qy qr, t_nhx s = px ++ map tx ls ++ qx /\ t_nhy s = py ++ map ty ls ++ qy /\ t_refine s = pr ++ map tr ls ++ qr) /\
  t_ntot s = ntot + heights ls.
Proof.
  induction fuel as [|fuel IH]; intros iy px py pr w ntot Hm Lx Ly Lr Hi Ht Hw Hf ls; [lia|].
  assert (Stop : (nely <=? iy) || (nmin <=? ntot) = true -> ls = []).
  { unfold ls. intros E. apply orb_prop in E. destruct E as [E|E].
    - apply Nat.leb_le in E. replace (nely - iy) with 0 by lia. reflexivity.
    - destruct (nely - iy); [reflexivity|]. cbn. now rewrite E. }
  cbn [init_loop t_ntot]. destruct ((nely <=? iy) || (nmin <=? ntot)) eqn:E.
  { rewrite (Stop eq_refl). eexists. split; [rewrite Nat.add_0_r; reflexivity|]. split; [|cbn; lia]. exists (repeat w (nely - iy)), (repeat w (nely - iy)), (repeat (-1)%Z (nely - iy)). repeat split. }
  clear Stop. apply orb_false_elim in E. destruct E as [E1 E2]. apply Nat.leb_gt in E1.
  destruct (nely - iy) as [|k] eqn:Ek; [lia|]. cbn [repeat]. unfold coarsen. cbn [t_nhy t_nhx t_refine t_ntot].
  rewrite (get_app py w _ iy Ly), (get_app px w _ iy Lx). cbn [bind].
  assert (Els : ls = if (3 * w <=? ntot) && (nelx mod (3 * w) =? 0) && (ntot + w <? nmin)
        then (3 * w, 2 * w, 0%Z) :: layers k nelx nmin (3 * w) (ntot + 2 * w)
        else (w, w, (-1)%Z) :: layers k nelx nmin w (ntot + w)).
  { unfold ls. cbn [layers]. now rewrite E2. }
  clearbody ls. subst ls.
  assert (Hk : nely - (iy + 1) = k) by lia.
  assert (Step : forall px' py' pr' w' ntot', length px' = iy + 1 -> length py' = iy + 1 -> length pr' = iy + 1 ->
     iy + 1 <= ntot' -> 1 <= w' ->
     exists s, (if (nely <=? iy + 1) || (nmin <=? ntot') then Some (Ok (mkHalf (px' ++ repeat w' k) (py' ++ repeat w' k) (pr' ++ repeat (-1)%Z k) ntot', iy + 1))
                else init_loop fuel nelx nely nmin (iy + 1) (mkHalf (px' ++ repeat w' k) (py' ++ repeat w' k) (pr' ++ repeat (-1)%Z k) ntot'))
       = Some (Ok (s, iy + 1 + length (layers k nelx nmin w' ntot'))) /\
     (exists qx qy qr, t_nhx s = px' ++ map tx (layers k nelx nmin w' ntot') ++ qx /\ t_nhy s = py' ++ map ty (layers k nelx nmin w' ntot') ++ qy /\
        t_refine s = pr' ++ map tr (layers k nelx nmin w' ntot') ++ qr) /\
     t_ntot s = ntot' + heights (layers k nelx nmin w' ntot')).
  { intros px' py' pr' w' ntot' L1 L2 L3 Ht' Hw'. destruct ((nely <=? iy + 1) || (nmin <=? ntot')) eqn:E.
    - assert (N : layers k nelx nmin w' ntot' = []).
      { apply orb_prop in E. destruct E as [E|E].
        - apply Nat.leb_le in E. replace k with 0 by lia. reflexivity.
        - destruct k; [reflexivity|]. cbn. now rewrite E. }
      rewrite N. eexists. split; [rewrite Nat.add_0_r; reflexivity|]. split; [|cbn; lia]. exists (repeat w' k), (repeat w' k), (repeat (-1)%Z k). repeat split.
    - specialize (IH (iy + 1) px' py' pr' w' ntot'). rewrite Hk in IH. apply IH; try assumption; lia. }
  destruct ((3 * w <=? ntot) && (nelx mod (3 * w) =? 0) && (ntot + w <? nmin)) eqn:C.
  - rewrite (set_app pr _ _ iy 0%Z Lr). cbn [bind]. rewrite (set_app py _ _ iy (w * 2) Ly). cbn [bind t_nhx t_nhy t_refine t_ntot].
    rewrite (mul_from_app iy 3 px (w :: repeat w k) Lx).
    replace (py ++ w * 2 :: repeat w k) with ((py ++ [w * 2]) ++ repeat w k) by (rewrite <- app_assoc; reflexivity).
    rewrite (mul_from_app (iy + 1) 3 (py ++ [w * 2]) (repeat w k)) by (rewrite app_length; cbn; lia).
    rewrite <- app_assoc. cbn [app]. rewrite (get_app py (w * 2) _ iy Ly). cbn [bind]. cbn [map]. rewrite !map_repeat'.
    assert (Eq : mkHalf (px ++ w * 3 :: repeat (w * 3) k) (py ++ w * 2 :: repeat (w * 3) k) (pr ++ 0%Z :: repeat (-1)%Z k) (ntot + w * 2)
      = mkHalf ((px ++ [3 * w]) ++ repeat (3 * w) k) ((py ++ [2 * w]) ++ repeat (3 * w) k) ((pr ++ [0%Z]) ++ repeat (-1)%Z k) (ntot + 2 * w)).
    { rewrite <- !app_assoc. cbn [app]. rewrite !(Nat.mul_comm w). reflexivity. }
    rewrite Eq. clear Eq. cbn [t_ntot].
    destruct (Step (px ++ [3 * w]) (py ++ [2 * w]) (pr ++ [0%Z]) (3 * w) (ntot + 2 * w)) as (s & Es & (qx & qy & qr & Q1 & Q2 & Q3) & T); try (rewrite app_length; cbn; lia); try lia.
    exists s. split; [|split].
    + rewrite Es. do 3 f_equal. cbn [length]. lia.
    + exists qx, qy, qr. cbn [map app]. rewrite Q1, Q2, Q3, <- !app_assoc. repeat split.
    + rewrite T. unfold heights. cbn [map fold_right ty fst snd]. lia.
  - cbn [bind t_nhx t_nhy t_refine t_ntot]. rewrite (get_app py w _ iy Ly). cbn [bind].
    assert (Eq : mkHalf (px ++ w :: repeat w k) (py ++ w :: repeat w k) (pr ++ (-1)%Z :: repeat (-1)%Z k) (ntot + w)
      = mkHalf ((px ++ [w]) ++ repeat w k) ((py ++ [w]) ++ repeat w k) ((pr ++ [(-1)%Z]) ++ repeat (-1)%Z k) (ntot + w)).
    { rewrite <- !app_assoc. reflexivity. }
    rewrite Eq. clear Eq. cbn [t_ntot].
    destruct (Step (px ++ [w]) (py ++ [w]) (pr ++ [(-1)%Z]) w (ntot + w)) as (s & Es & (qx & qy & qr & Q1 & Q2 & Q3) & T); try (rewrite app_length; cbn; lia); try lia.
    exists s. split; [|split].
    + rewrite Es. do 3 f_equal. cbn [length]. lia.
    + exists qx, qy, qr. cbn [map app]. rewrite Q1, Q2, Q3, <- !app_assoc. repeat split.
    + rewrite T. unfold heights. cbn [map fold_right ty fst snd]. lia.
Qed.

(** ** properties of the list of layers *)
Lemma layers_height nelx nmin : forall fuel w ntot, 1 <= w -> nmin <= ntot + fuel ->
  let ls := layers fuel nelx nmin w ntot in nmin <= ntot + heights ls.
Proof.
  induction fuel as [|fuel IH]; intros w ntot Hw Hf ls; [cbn in ls; subst ls; cbn; lia|].
  unfold ls. cbn [layers]. destruct (Nat.leb_spec nmin ntot); [cbn; lia|].
  destruct (_ && _).
  - pose proof (IH (3 * w) (ntot + 2 * w) ltac:(lia) ltac:(lia)) as G. unfold heights in *. cbn [map fold_right ty fst snd] in *. lia.
  - pose proof (IH w (ntot + w) ltac:(lia) ltac:(lia)) as G. unfold heights in *. cbn [map fold_right ty fst snd] in *. lia.
Qed.

(** the step from a layer of width [w] to the next layer [t], at distance [ntot] from the middle *)
Definition layer_step (nelx nmin w ntot : nat) (t : triple) : Prop :=
  ntot < nmin /\
  (t = (w, w, (-1)%Z) /\ ~ (3 * w <= ntot /\ nelx mod (3 * w) = 0 /\ ntot + w < nmin) \/
   t = (3 * w, 2 * w, 0%Z) /\ (3 * w <= ntot /\ nelx mod (3 * w) = 0 /\ ntot + w < nmin)).

Lemma layers_nth nelx nmin : forall fuel w ntot i t, let ls := layers fuel nelx nmin w ntot in
  nth_error ls i = Some t ->
  layer_step nelx nmin (match i with O => w | S j => tx (nth j ls (0, 0, 0%Z)) end) (ntot + heights (firstn i ls)) t.
Proof.
  induction fuel as [|fuel IH]; intros w ntot i t ls Hn; [unfold ls in Hn; cbn in Hn; destruct i; discriminate|].
  unfold ls in *. cbn [layers] in *. destruct (Nat.leb_spec nmin ntot); [destruct i; discriminate|].
  destruct ((3 * w <=? ntot) && (nelx mod (3 * w) =? 0) && (ntot + w <? nmin)) eqn:C.
  - apply andb_prop in C. destruct C as [C C3]. apply andb_prop in C. destruct C as [C1 C2].
    apply Nat.leb_le in C1. apply Nat.eqb_eq in C2. apply Nat.ltb_lt in C3.
    destruct i as [|i]; cbn [nth_error] in Hn.
    + injection Hn as <-. unfold heights. cbn [firstn map fold_right]. rewrite Nat.add_0_r. split; [assumption|]. right. auto.
    + specialize (IH (3 * w) (ntot + 2 * w) i t Hn). cbn [firstn]. unfold heights in *. cbn [map fold_right ty fst snd]. rewrite Nat.add_assoc.
      destruct i; cbn [nth]; exact IH.
  - assert (Hno : ~ (3 * w <= ntot /\ nelx mod (3 * w) = 0 /\ ntot + w < nmin)).
    { intros (A & B & D). apply Nat.leb_le in A. apply Nat.eqb_eq in B. apply Nat.ltb_lt in D. rewrite A, B, D in C. discriminate. }
    destruct i as [|i]; cbn [nth_error] in Hn.
    + injection Hn as <-. unfold heights. cbn [firstn map fold_right]. rewrite Nat.add_0_r. split; [assumption|]. left. auto.
    + specialize (IH w (ntot + w) i t Hn). cbn [firstn]. unfold heights in *. cbn [map fold_right ty fst snd]. rewrite Nat.add_assoc.
      destruct i; cbn [nth]; exact IH.
Qed.

(** ** the mesh given by widths, heights and kinds of the layers, from the middle outward *)
Section Layers.
Variables (nelx n : nat) (w y : nat -> nat) (r : nat -> bool).

Definition dist (iy : nat) : nat := if iy <? n then n - 1 - iy else iy - (n - 1).
Definition L : nat := n * 2 - 1.
Definition W (iy : nat) : nat := w (dist iy).
Definition Hy (iy : nat) : nat := y (dist iy).
Definition Rf (iy : nat) : bool := r (dist iy).
Definition NX (iy : nat) : nat := nelx / W iy.
(** distance between the nodes of node row [iy] (the bottom row of layer [iy], the top row of layer [iy - 1]) *)
Definition WN (iy : nat) : nat := if iy <? n then W iy else W (iy - 1).
Definition NN (iy : nat) : nat := nelx / WN iy + 1.
Definition NM (iy : nat) : nat := if Rf iy then 2 * NX iy else 0.
Definition NE (iy : nat) : nat := if Rf iy then 4 * NX iy else NX iy.
Definition SN (iy : nat) : nat := nsum iy (fun k => NN k + NM k).
Definition SE (iy : nat) : nat := nsum iy NE.
Definition Y (iy : nat) : nat := nsum iy Hy.
Definition Zr (b : bool) : Z := if b then 0%Z else (-1)%Z.

Definition FL_of (h : R) : FineLayer :=
  mkFL h (SE L) (SN L + NN L) (h * INR nelx)%R (tab1 L NX) (tab1 L W) (tab1 L Hy) (tab1 (n * 2) NN)
    (tab1 L (fun iy => Zr (Rf iy))) (tab1 L SE) (tab1 (n * 2) SN).

(** the structure of the layers *)
Record layered : Prop := {
  l_nelx : 1 <= nelx;
  l_n : 1 <= n;
  l_w0 : w 0 = 1; l_y0 : y 0 = 1; l_r0 : r 0 = false;
  l_step : forall d, S d < n ->
    (r (S d) = false /\ w (S d) = w d /\ y (S d) = w d) \/
    (r (S d) = true /\ w (S d) = 3 * w d /\ y (S d) = 2 * w d /\ nelx mod (3 * w d) = 0) }.
End Layers.

Lemma tab1_get {A} n (f : nat -> A) i : i < n -> get (tab1 n f) i = Ok (f i).
Proof. intros H. unfold get, tab1. rewrite nth_error_map, nth_error_seq. destruct (Nat.ltb_spec i n); [reflexivity|lia]. Qed.
Lemma tab1_len {A} n (f : nat -> A) : length (tab1 n f) = n.
Proof. apply tab1_length. Qed.
Lemma tab1_ext {A} n (f g : nat -> A) : (forall i, i < n -> f i = g i) -> tab1 n f = tab1 n g.
Proof. intros H. apply map_ext_in. intros i Hi. apply in_seq in Hi. apply H. lia. Qed.

Lemma map_add_seq b k : forall a, map (fun i => i + b) (seq a k) = seq (a + b) k.
Proof. induction k as [|k IH]; intros a; [reflexivity|]. cbn. f_equal. apply IH. Qed.

Lemma symmetrise_spec {A} n (t q : list A) (f : nat -> A) : 1 <= n -> t = tab1 n f ++ q -> symmetrise n t = Ok (tab1 (L n) (fun iy => f (dist n iy))).
Proof.
  intros Hn ->. unfold symmetrise.
  assert (G : forall i, i < n -> get (tab1 n f ++ q) i = Ok (f i)).
  { intros i Hi. unfold get. rewrite nth_error_app1 by (rewrite tab1_len; lia). exact (tab1_get n f i Hi). }
  rewrite (mapM_Ok _ _ (fun iy => (iy, f (dist n iy)))).
  2:{ intros iy Hi. apply in_seq in Hi. rewrite G by lia. cbn [bind]. unfold dist. destruct (Nat.ltb_spec iy n); [|lia]. do 3 f_equal. lia. }
  cbn [bind]. rewrite (mapM_Ok _ _ (fun iy => (iy + n, f (dist n (iy + n))))).
  2:{ intros iy Hi. apply in_seq in Hi. rewrite G by lia. cbn [bind]. unfold dist. destruct (Nat.ltb_spec (iy + n) n); [lia|]. do 3 f_equal. lia. }
  cbn [bind]. unfold L.
  assert (S2 : map (fun i => i + n) (seq 0 (n - 1)) = seq n (n - 1)).
  { apply (map_add_seq n (n - 1) 0). }
  assert (S1 : seq 0 n ++ map (fun i => i + n) (seq 0 (n - 1)) = seq 0 (n * 2 - 1)).
  { rewrite S2. change n with (0 + n) at 2. rewrite <- seq_app. f_equal. lia. }
  rewrite loop_fill_Ok.
  - rewrite map_app, !map_map. cbn [snd]. f_equal. unfold tab1. rewrite <- S1, map_app, map_map. reflexivity.
  - rewrite map_app, !map_map. cbn [fst]. rewrite map_id. exact S1.
Qed.

(** ** facts about layered meshes *)
Section Facts.
Variables (nelx n : nat) (w y : nat -> nat) (r : nat -> bool).
Hypothesis HL : layered nelx n w y r.
Notation L := (L n).
Notation W := (W n w).
Notation Hy := (Hy n y).
Notation Rf := (Rf n r).
Notation NX := (NX nelx n w).
Notation WN := (WN n w).
Notation NN := (NN nelx n w).
Notation NM := (NM nelx n w r).
Notation NE := (NE nelx n w r).
Notation SN := (SN nelx n w r).
Notation SE := (SE nelx n w r).
Notation Y := (Y n y).

Lemma w_pow d : d < n -> exists k, w d = 3 ^ k.
Proof.
  induction d as [|d IH]; intros Hd; [exists 0; apply HL|].
  destruct (IH ltac:(lia)) as [k Ek]. destruct (l_step _ _ _ _ _ HL d Hd) as [(_ & -> & _)|(_ & -> & _)].
  - now exists k.
  - exists (S k). rewrite Ek. reflexivity.
Qed.
Lemma w_pos d : d < n -> 1 <= w d.
Proof. intros H. destruct (w_pow d H) as [k ->]. pose proof (Nat.pow_nonzero 3 k). lia. Qed.
Lemma w_div d : d < n -> nelx mod w d = 0.
Proof.
  induction d as [|d IH]; intros Hd; [rewrite (l_w0 _ _ _ _ _ HL); apply Nat.mod_1_r|].
  destruct (l_step _ _ _ _ _ HL d Hd) as [(_ & -> & _)|(_ & -> & _ & E)]; [apply IH; lia|exact E].
Qed.
Lemma w_y d : d < n -> (r d = false /\ y d = w d) \/ (r d = true /\ exists s, 1 <= s /\ w d = 3 * s /\ y d = 2 * s).
Proof.
  destruct d as [|d]; intros Hd; [left; destruct HL as [? ? -> -> -> ?]; split; reflexivity|].
  destruct (l_step _ _ _ _ _ HL d Hd) as [(-> & -> & ->)|(-> & -> & -> & _)]; [left; split; reflexivity|].
  right. split; [reflexivity|]. exists (w d). repeat split. apply w_pos. lia.
Qed.

Lemma dist_lt iy : iy < L -> dist n iy < n.
Proof. unfold L, dist. pose proof (l_n _ _ _ _ _ HL). destruct (Nat.ltb_spec iy n); lia. Qed.
Lemma dist_low iy : iy < n -> dist n iy = n - 1 - iy.
Proof. intros H. unfold dist. destruct (Nat.ltb_spec iy n); lia. Qed.
Lemma dist_up iy : n - 1 <= iy -> dist n iy = iy - (n - 1).
Proof. intros H. unfold dist. pose proof (l_n _ _ _ _ _ HL). destruct (Nat.ltb_spec iy n); lia. Qed.
Lemma L_half : (L - 1) / 2 = n - 1.
Proof. unfold L. replace (n * 2 - 1 - 1) with ((n - 1) * 2) by lia. now rewrite Nat.div_mul. Qed.
Lemma L_half' : (L + 1) / 2 = n.
Proof. pose proof (l_n _ _ _ _ _ HL). unfold L. replace (n * 2 - 1 + 1) with (n * 2) by lia. now rewrite Nat.div_mul. Qed.
Lemma L_S : n * 2 = L + 1.
Proof. pose proof (l_n _ _ _ _ _ HL). unfold L. lia. Qed.
Lemma n_L : n - 1 < L.
Proof. pose proof (l_n _ _ _ _ _ HL). unfold L. lia. Qed.

Lemma W_pos iy : iy < L -> 1 <= W iy.
Proof. intros H. apply w_pos, dist_lt, H. Qed.
Lemma W_NX iy : iy < L -> W iy * NX iy = nelx.
Proof.
  intros H. unfold Proof_FineLayer.NX. pose proof (W_pos iy H). pose proof (w_div _ (dist_lt iy H)) as D. fold (W iy) in D.
  pose proof (Nat.div_mod nelx (W iy) ltac:(lia)). lia.
Qed.
Lemma NX_pos iy : iy < L -> 1 <= NX iy.
Proof. intros H. pose proof (W_NX iy H). pose proof (l_nelx _ _ _ _ _ HL). destruct (NX iy); lia. Qed.
Lemma WN_low iy : iy < n -> WN iy = W iy.
Proof. intros H. unfold Proof_FineLayer.WN. destruct (Nat.ltb_spec iy n); [reflexivity|lia]. Qed.
Lemma WN_up iy : n <= iy -> WN iy = W (iy - 1).
Proof. intros H. unfold Proof_FineLayer.WN. destruct (Nat.ltb_spec iy n); [lia|reflexivity]. Qed.
Lemma WN_is iy : iy <= L -> exists i, i < L /\ WN iy = W i /\ NN iy = NX i + 1.
Proof.
  intros H. pose proof (l_n _ _ _ _ _ HL). unfold Proof_FineLayer.NN. destruct (le_lt_dec n iy).
  - exists (iy - 1). rewrite WN_up by assumption. repeat split. lia.
  - exists iy. rewrite WN_low by assumption. repeat split. unfold L. lia.
Qed.
Lemma WN_NN iy : iy <= L -> exists k, 1 <= k /\ NN iy = k + 1 /\ WN iy * k = nelx /\ 1 <= WN iy.
Proof.
  intros H. destruct (WN_is iy H) as (i & Hi & E1 & E2). exists (NX i). rewrite E1. repeat split; auto using NX_pos, W_NX, W_pos.
Qed.

(** the step across layer [iy] *)
Lemma step_low iy : S iy < n -> (Rf iy = false /\ W iy = W (iy + 1)) \/ (Rf iy = true /\ W iy = 3 * W (iy + 1)).
Proof.
  intros H. unfold Proof_FineLayer.W, Proof_FineLayer.Rf. rewrite !dist_low by lia.
  replace (n - 1 - iy) with (S (n - 1 - (iy + 1))) by lia.
  destruct (l_step _ _ _ _ _ HL (n - 1 - (iy + 1)) ltac:(lia)) as [(-> & -> & _)|(-> & -> & _)]; [left|right]; split; reflexivity.
Qed.
Lemma step_up iy : n <= iy -> iy < L -> (Rf iy = false /\ W iy = W (iy - 1)) \/ (Rf iy = true /\ W iy = 3 * W (iy - 1)).
Proof.
  intros H HH. unfold L in HH. unfold Proof_FineLayer.W, Proof_FineLayer.Rf. rewrite !dist_up by lia.
  replace (iy - (n - 1)) with (S (iy - 1 - (n - 1))) by lia.
  destruct (l_step _ _ _ _ _ HL (iy - 1 - (n - 1)) ltac:(lia)) as [(-> & -> & _)|(-> & -> & _)]; [left|right]; split; reflexivity.
Qed.
Lemma Rf_mid : Rf (n - 1) = false.
Proof. pose proof (l_n _ _ _ _ _ HL). unfold Proof_FineLayer.Rf. rewrite dist_low by lia. rewrite Nat.sub_diag. apply HL. Qed.
Lemma W_mid : W (n - 1) = 1.
Proof. pose proof (l_n _ _ _ _ _ HL). unfold Proof_FineLayer.W. rewrite dist_low by lia. rewrite Nat.sub_diag. apply HL. Qed.

(** widths of the node rows below and above layer [iy] *)
Lemma WN_layer iy : iy < L ->
  (Rf iy = false /\ WN iy = W iy /\ WN (iy + 1) = W iy /\ Hy iy = W iy) \/
  (Rf iy = true /\ exists s, 1 <= s /\ W iy = 3 * s /\ Hy iy = 2 * s /\
     ((iy < n - 1 /\ WN iy = 3 * s /\ WN (iy + 1) = s) \/ (n - 1 < iy /\ WN iy = s /\ WN (iy + 1) = 3 * s))).
Proof.
  intros H. destruct (w_y _ (dist_lt iy H)) as [(Er & Ey)|(Er & s & Hs & Ew & Ey)]; fold (Rf iy) (Hy iy) (W iy) in *.
  - left. split; [exact Er|]. destruct (le_lt_dec n iy) as [Hn|Hn].
    + rewrite (WN_up iy Hn), (WN_up (iy + 1)) by lia. replace (iy + 1 - 1) with iy by lia.
      destruct (step_up iy Hn H) as [(_ & E)|(E & _)]; [|congruence]. now rewrite <- E.
    + rewrite (WN_low iy Hn). destruct (Nat.eq_dec iy (n - 1)) as [->|Hne].
      * rewrite WN_up by lia. now replace (n - 1 + 1 - 1) with (n - 1) by lia.
      * rewrite WN_low by lia. destruct (step_low iy ltac:(lia)) as [(_ & E)|(E & _)]; [|congruence]. now rewrite <- E.
  - right. split; [exact Er|]. exists s. rewrite Ew. repeat split; try assumption.
    assert (iy <> n - 1) by (intros ->; rewrite Rf_mid in Er; discriminate).
    destruct (le_lt_dec n iy) as [Hn|Hn]; [right|left]; (split; [lia|]).
    + rewrite (WN_up iy Hn), (WN_up (iy + 1)) by lia. replace (iy + 1 - 1) with iy by lia.
      destruct (step_up iy Hn H) as [(E & _)|(_ & E)]; [congruence|]. lia.
    + rewrite WN_low, WN_low by lia. destruct (step_low iy ltac:(lia)) as [(E & _)|(_ & E)]; [congruence|]. lia.
Qed.
Lemma Hy_pos iy : iy < L -> 1 <= Hy iy.
Proof. intros H. pose proof (W_pos iy H). destruct (WN_layer iy H) as [(_ & _ & _ & E)|(_ & s & Hs & _ & E & _)]; lia. Qed.

(** ** the constructor *)
Lemma start_fold c : forall k a st, a + k <= L ->
  (forall i, a <= i < a + k -> NN i + NM i = if Rf i then c * NX i + 1 else NX i + 1) ->
  s_nnode st = SN a -> s_nelem st = SE a -> s_elem st = map (fun i => (i, SE i)) (seq 0 a) -> s_node st = map (fun i => (i, SN i)) (seq 0 (a + 1)) ->
  exists st', foldM (start_layer (tab1 L NX) (tab1 L (fun iy => Zr (Rf iy))) c) (seq a k) st = Ok st' /\
    s_nnode st' = SN (a + k) /\ s_nelem st' = SE (a + k) /\ s_elem st' = map (fun i => (i, SE i)) (seq 0 (a + k)) /\
    s_node st' = map (fun i => (i, SN i)) (seq 0 (a + k + 1)).
Proof.
  induction k as [|k IH]; intros a st Ha Hc E1 E2 E3 E4.
  - cbn. exists st. rewrite Nat.add_0_r. repeat split; assumption.
  - cbn [seq foldM]. unfold start_layer at 1. rewrite !tab1_get by lia. cbn [bind].
    replace (a + S k) with (S a + k) by lia. apply IH; cbn [s_nnode s_nelem s_elem s_node].
    + lia.
    + intros i Hi. apply Hc. lia.
    + rewrite E1. cbn [Proof_FineLayer.SN nsum]. change (nsum a _) with (SN a). rewrite Hc by lia. unfold Zr. destruct (Rf a); cbn; lia.
    + rewrite E2. unfold Proof_FineLayer.SE. cbn [nsum]. unfold Proof_FineLayer.NE at 3. unfold Zr. destruct (Rf a); cbn; lia.
    + rewrite E3, E2. replace (S a) with (a + 1) by lia. rewrite seq_app, map_app. reflexivity.
    + rewrite E4, E1. replace (S a + 1) with (a + 1 + 1) by lia. rewrite (seq_app (a + 1) 1 0), map_app. cbn [map seq]. do 4 f_equal; try lia.
      rewrite (Nat.add_0_l (a + 1)). replace (a + 1) with (S a) by lia. unfold Proof_FineLayer.SN. cbn [nsum]. rewrite Hc by lia. unfold Zr. destruct (Rf a); cbn; lia.
Qed.

Lemma SN_low i : i < n - 1 -> NN i + NM i = if Rf i then 3 * NX i + 1 else NX i + 1.
Proof.
  intros H. unfold Proof_FineLayer.NN, Proof_FineLayer.NM. rewrite WN_low by lia. fold (NX i). destruct (Rf i); lia.
Qed.
Lemma SN_up i : n - 1 <= i < L -> NN i + NM i = if Rf i then 5 * NX i + 1 else NX i + 1.
Proof.
  intros [H H']. pose proof (W_NX i H') as E. destruct (WN_NN i ltac:(lia)) as (k & Hk & -> & Ek & Hw). unfold Proof_FineLayer.NM.
  destruct (WN_layer i H') as [(Er & E1 & E2 & E3)|(Er & s & Hs & E1 & E2 & [(E3 & _)|(_ & E3 & _)])]; rewrite Er; try lia.
  - rewrite E1 in Ek. rewrite <- E in Ek. apply Nat.mul_cancel_l in Ek; lia.
  - rewrite E3 in Ek. assert (k = 3 * NX i); [|lia]. rewrite <- E, E1 in Ek. replace (3 * s * NX i) with (s * (3 * NX i)) in Ek by lia. apply Nat.mul_cancel_l in Ek; lia.
Qed.

Lemma finish_spec h s qx qy qr : t_nhx s = tab1 n w ++ qx -> t_nhy s = tab1 n y ++ qy ->
  t_refine s = tab1 n (fun i => Zr (r i)) ++ qr -> finish nelx h s n = Ok (FL_of nelx n w y r h).
Proof.
  intros E1 E2 E3. pose proof (l_n _ _ _ _ _ HL) as Hn. pose proof n_L as HnL. unfold finish.
  rewrite (symmetrise_spec n _ _ _ Hn E1), (symmetrise_spec n _ _ _ Hn E2), (symmetrise_spec n _ _ _ Hn E3). cbn [bind].
  rewrite tab1_len.
  change (tab1 L (fun iy => w (dist n iy))) with (tab1 L W). change (tab1 L (fun iy => y (dist n iy))) with (tab1 L Hy).
  change (tab1 L (fun iy => Zr (r (dist n iy)))) with (tab1 L (fun iy => Zr (Rf iy))).
  rewrite (mapM_Ok _ _ NX). 2:{ intros i Hi. apply in_seq in Hi. rewrite tab1_get by lia. reflexivity. }
  cbn [bind]. change (map NX (seq 0 L)) with (tab1 L NX). rewrite L_half, L_half'.
  rewrite (mapM_Ok _ _ (fun i => (i, NN i))).
  2:{ intros i Hi. apply in_seq in Hi. rewrite tab1_get by (unfold L; lia). cbn [bind]. unfold Proof_FineLayer.NN. rewrite WN_low by lia. reflexivity. }
  cbn [bind]. rewrite (mapM_Ok _ _ (fun i => (i + 1, NN (i + 1)))).
  2:{ intros i Hi. apply in_seq in Hi. rewrite tab1_get by lia. cbn [bind]. unfold Proof_FineLayer.NN. rewrite WN_up by lia.
      replace (i + 1 - 1) with i by lia. reflexivity. }
  cbn [bind]. rewrite loop_fill_Ok.
  2:{ rewrite map_app, !map_map. cbn [fst]. rewrite map_id, map_add_seq. replace (n - 1 + 1) with (0 + n) by lia. rewrite <- seq_app. f_equal. unfold L. lia. }
  cbn [bind]. destruct (start_fold 3 (n - 1) 0 (mkStarts 0 0 [] [(0, 0)])) as (st & F & S1 & S2 & S3 & S4); try reflexivity; [lia|intros i Hi; apply SN_low; lia|].
  rewrite F. cbn [bind]. cbn [Nat.add] in *. destruct (start_fold 5 (L - (n - 1)) (n - 1) st) as (st' & F' & S1' & S2' & S3' & S4'); try assumption; [lia|intros i Hi; apply SN_up; lia|].
  rewrite F'. cbn [bind]. replace (n - 1 + (L - (n - 1))) with L in * by lia. rewrite S3', S4'.
  rewrite loop_fill_Ok. 2:{ rewrite map_map. cbn [fst]. rewrite map_id. reflexivity. }
  cbn [bind]. rewrite loop_fill_Ok. 2:{ rewrite map_map. cbn [fst]. rewrite map_id. now rewrite L_S. }
  cbn [bind]. rewrite tab1_get by lia. cbn [bind]. unfold FL_of. f_equal. rewrite S1', S2'. f_equal.
  - unfold Proof_FineLayer.NN. rewrite WN_up by (unfold L; lia). reflexivity.
  - rewrite map_app, !map_map. cbn [snd]. unfold tab1. rewrite <- (map_map (fun i => i + 1) NN), map_add_seq. rewrite <- map_app. f_equal. replace (n - 1 + 1) with (0 + n) by lia. rewrite <- seq_app. f_equal. unfold L. lia.
  - rewrite map_map. cbn [snd]. reflexivity.
  - rewrite map_map. cbn [snd]. unfold tab1. now rewrite L_S.
Qed.
End Facts.

(** ** the layers found by [init] *)
Lemma init_nmin_eq nely : init_nmin nely = (nely + 1) / 2.
Proof.
  unfold init_nmin. destruct (Nat.eqb_spec (nely mod 2) 0) as [E|E]; [|reflexivity].
  pose proof (Nat.div_mod nely 2 ltac:(lia)). rewrite E in H. replace (nely + 1) with (1 + nely / 2 * 2) by lia.
  rewrite Nat.div_add by lia. reflexivity.
Qed.
Lemma init_nfine_eq nfine nmin : init_nfine nfine nmin = Nat.min (nfine / 2 + 1) nmin.
Proof.
  unfold init_nfine. set (a := if nfine mod 2 =? 0 then _ else _).
  assert (Ha : a = nfine / 2 + 1).
  { unfold a. pose proof (Nat.div_mod nfine 2 ltac:(lia)) as D. destruct (Nat.eqb_spec (nfine mod 2) 0) as [E|E]; [reflexivity|].
    assert (nfine mod 2 = 1) by (pose proof (Nat.mod_upper_bound nfine 2); lia). rewrite H in D.
    replace (nfine + 1) with (0 + (nfine / 2 + 1) * 2) by lia. rewrite Nat.div_add by lia. reflexivity. }
  rewrite Ha. destruct (Nat.ltb_spec (nfine / 2 + 1) 1); [lia|]. destruct (Nat.ltb_spec nmin (nfine / 2 + 1)); lia.
Qed.

Definition rule (nelx nmin nfine d w ntot : nat) : Prop := nfine < 2 * d /\ 3 * w <= ntot /\ nelx mod (3 * w) = 0 /\ ntot + w < nmin.

Record greedy (nelx nely nfine n : nat) (w y : nat -> nat) (r : nat -> bool) : Prop := {
  g_layered : layered nelx n w y r;
  g_rule : forall d, S d < n -> (r (S d) = true <-> rule nelx ((nely + 1) / 2) nfine (S d) (w d) (nsum (S d) y));
  g_enough : (nely + 1) / 2 <= nsum n y;
  g_last : nsum (n - 1) y < (nely + 1) / 2 }.

Lemma heights_nsum (l : list triple) : forall k, k <= length l -> heights (firstn k l) = nsum k (fun i => ty (nth i l (0, 0, 0%Z))).
Proof.
  induction k as [|k IH]; intros Hk; [reflexivity|]. cbn [nsum]. rewrite <- IH by lia.
  unfold heights. clear IH. revert l Hk. induction k as [|k IH]; intros [|t l] Hk; cbn [length] in Hk; try lia.
  - cbn. lia.
  - change (firstn (S (S k)) (t :: l)) with (t :: firstn (S k) l). change (firstn (S k) (t :: l)) with (t :: firstn k l). cbn [map fold_right nth].
    rewrite IH by lia. lia.
Qed.

Lemma heights_app a b : heights (a ++ b) = heights a + heights b.
Proof. unfold heights. rewrite map_app. induction (map ty a) as [|x l IH]; [reflexivity|]. cbn. rewrite IH. lia. Qed.
Lemma heights_repeat k : heights (repeat (1, 1, (-1)%Z) k) = k.
Proof. induction k; [reflexivity|]. unfold heights in *. cbn. now rewrite IHk. Qed.

Lemma map_tab1 {A B} (f : A -> B) (l : list A) d : map f l = tab1 (length l) (fun i => f (nth i l d)).
Proof.
  unfold tab1. rewrite <- (map_map (fun i => nth i l d) f). f_equal. apply (nth_ext _ _ d d); [now rewrite map_length, seq_length|].
  intros i Hi. rewrite nth_map_seq by assumption. reflexivity.
Qed.

Lemma FineLayer_init_spec nelx nely h nfine : 1 <= nelx -> 1 <= nely ->
  exists n w y r, FineLayer_init nelx nely h nfine = Some (Ok (FL_of nelx n w y r h)) /\ greedy nelx nely nfine n w y r.
Proof.
  intros Hx Hy. unfold FineLayer_init. rewrite init_nmin_eq, init_nfine_eq. set (nmin := (nely + 1) / 2).
  set (nf := Nat.min (nfine / 2 + 1) nmin).
  assert (Hm : 1 <= nmin <= nely).
  { unfold nmin. pose proof (Nat.div_mod (nely + 1) 2 ltac:(lia)). pose proof (Nat.mod_upper_bound (nely + 1) 2 ltac:(lia)). lia. }
  assert (Hf : 1 <= nf <= nmin) by (unfold nf; lia).
  set (ls := layers (nely - nf) nelx nmin 1 nf).
  set (full := repeat (1, 1, (-1)%Z) nf ++ ls : list triple).
  set (dflt := (0, 0, 0%Z) : triple).
  set (w := fun d => tx (nth d full dflt)). set (y := fun d => ty (nth d full dflt)). set (r := fun d => (tr (nth d full dflt) =? 0)%Z).
  set (n := nf + length ls).
  assert (Lf : length full = n) by (unfold full; now rewrite app_length, repeat_length).
  assert (Fine : forall d, d < nf -> nth d full dflt = (1, 1, (-1)%Z)).
  { intros d Hd. unfold full. rewrite app_nth1 by (rewrite repeat_length; lia).
    apply (nth_error_nth _ _ dflt). now apply nth_error_repeat_lt. }
  assert (Coarse : forall d, nth (nf + d) full dflt = nth d ls dflt).
  { intros d. unfold full. rewrite app_nth2 by (rewrite repeat_length; lia). rewrite repeat_length. now replace (nf + d - nf) with d by lia. }
  assert (Sums : forall d, d <= length ls -> nsum (nf + d) y = nf + heights (firstn d ls)).
  { intros d Hd. unfold y. rewrite <- heights_nsum by lia. unfold full. rewrite firstn_app, repeat_length.
    rewrite firstn_all2 by (rewrite repeat_length; lia). rewrite heights_app, heights_repeat. now replace (nf + d - nf) with d by lia. }
  assert (Step : forall d, nf <= S d -> S d < n -> layer_step nelx nmin (w d) (nsum (S d) y) (nth (S d) full dflt)).
  { intros d H1 H2. assert (Hi : S d - nf < length ls) by (unfold n in H2; lia).
    destruct (nth_error ls (S d - nf)) as [t|] eqn:En; [|apply nth_error_None in En; lia].
    pose proof (layers_nth _ _ _ _ _ _ _ En) as G. fold ls in G. rewrite <- Sums in G by lia. replace (nf + (S d - nf)) with (S d) in G by lia.
    replace (nth (S d) full dflt) with t.
    2:{ replace (S d) with (nf + (S d - nf)) by lia. rewrite Coarse. symmetry. apply (nth_error_nth _ _ dflt), En. }
    destruct (S d - nf) as [|j] eqn:Ej.
    - replace (w d) with 1; [exact G|]. unfold w. rewrite Fine by lia. reflexivity.
    - replace (w d) with (tx (nth j ls (0, 0, 0%Z))); [exact G|]. unfold w. replace d with (nf + j) by lia. now rewrite Coarse. }
  assert (HL : layered nelx n w y r).
  { constructor; try assumption; try (unfold w, y, r; rewrite Fine by lia; reflexivity); [unfold n; lia|].
    intros d Hd. change (w (S d)) with (tx (nth (S d) full dflt)). change (y (S d)) with (ty (nth (S d) full dflt)). change (r (S d)) with (tr (nth (S d) full dflt) =? 0)%Z.
    destruct (le_lt_dec nf (S d)) as [H|H].
    - destruct (Step d H Hd) as (_ & [(-> & _)|(-> & _ & E & _)]); [left|right]; repeat split; exact E.
    - left. unfold w. rewrite (Fine (S d)), (Fine d) by lia. repeat split. }
  exists n, w, y, r. split.
  - destruct (init_loop_spec nelx nmin nely (S nely) nf (repeat 1 nf) (repeat 1 nf) (repeat (-1)%Z nf) 1 nf) as (s & E & (qx & qy & qr & Q1 & Q2 & Q3) & _); try (rewrite repeat_length; reflexivity); try lia.
    rewrite <- !repeat_app in E. replace (nf + (nely - nf)) with nely in E by lia. rewrite E. fold ls. fold n.
    assert (Rp : forall A (f : triple -> A), map f full = repeat (f (1, 1, (-1)%Z)) nf ++ map f ls).
    { intros A f. unfold full. now rewrite map_app, map_repeat'. }
    rewrite (finish_spec nelx n w y r HL h s qx qy qr); [reflexivity| | |].
    + rewrite Q1, app_assoc. f_equal. fold ls. change (repeat 1 nf) with (repeat (tx (1, 1, (-1)%Z)) nf). rewrite <- (Rp _ tx), <- Lf. apply map_tab1.
    + rewrite Q2, app_assoc. f_equal. fold ls. change (repeat 1 nf) with (repeat (ty (1, 1, (-1)%Z)) nf). rewrite <- (Rp _ ty), <- Lf. apply map_tab1.
    + rewrite Q3, app_assoc. f_equal. fold ls. change (repeat (-1)%Z nf) with (repeat (tr (1, 1, (-1)%Z)) nf). rewrite <- (Rp _ tr), (map_tab1 tr full dflt), Lf. apply tab1_ext.
      intros i Hi. unfold r. destruct (le_lt_dec nf i) as [H|H].
      * destruct i as [|d]; [lia|]. destruct (Step d H Hi) as (_ & [(-> & _)|(-> & _)]); reflexivity.
      * rewrite Fine by assumption. reflexivity.
  - constructor; [exact HL| | |].
    + intros d Hd. fold nmin. unfold rule. unfold r. destruct (le_lt_dec nf (S d)) as [H|H].
      * destruct (Step d H Hd) as (B & C).
        assert (Hnf : nfine < 2 * S d).
        { assert (nf < nmin).
          { destruct (Nat.eq_dec nf nmin) as [En|En]; [exfalso|lia]. unfold n in Hd. assert (0 < length ls) by lia.
            unfold ls in H0. rewrite En in H0. destruct (nely - nmin); cbn in H0; [lia|]. rewrite Nat.leb_refl in H0. cbn in H0. lia. }
          assert (nfine / 2 < S d) by (unfold nf in *; lia).
          pose proof (Nat.div_mod nfine 2 ltac:(lia)). pose proof (Nat.mod_upper_bound nfine 2 ltac:(lia)). lia. }
        destruct C as [(-> & C)|(-> & C)]; cbn [tr snd]; (split; [try discriminate|]); auto. intros (_ & C'). contradiction.
      * rewrite Fine by assumption. split; [discriminate|]. intros (C & _). exfalso.
        assert (S d <= nfine / 2) by (unfold nf in H; lia).
        pose proof (Nat.div_mod nfine 2 ltac:(lia)). lia.
    + fold nmin. unfold n. rewrite Sums by lia. rewrite firstn_all. apply layers_height; lia.
    + fold nmin. destruct (length ls) as [|k] eqn:El.
      * replace (n - 1) with (nf - 1) by (unfold n; lia).
        assert (G : forall k, k <= nf -> nsum k y = k).
        { induction k as [|k IH]; intros Hk; [reflexivity|]. cbn. rewrite IH by lia. unfold y. rewrite Fine by lia. cbn. lia. }
        rewrite G by lia. lia.
      * replace (n - 1) with (S (nf + k - 1)) by (unfold n; lia).
        apply (Step (nf + k - 1)); unfold n; lia.
Qed.
