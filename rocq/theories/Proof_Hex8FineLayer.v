(** The constructor of Hex8::FineLayer. *)
From Coq Require Import Reals ZArith.
From Verif Require Import Base Model_Numbering Model_Regular2d Model_FineLayer Model_Hex8Regular Model_Hex8FineLayer Proof_Vector Proof_FineLayer.

(** ** the layers above the middle: block sizes and type *)
Record layer := mkLayer { lx : nat; ly : nat; lz : nat; lt : Z }.
Definition fine1 : layer := mkLayer 1 1 1 (-1).

(** height of the blocks that follow a layer *)
Definition unit_of (p : layer) : nat := if (lt p =? -1)%Z then ly p else 3 * (ly p / 2).

(** the layer that follows [p], at distance [d] *)
Definition next3 (nelx nelz nmin : nat) (p : layer) (d : nat) : layer :=
  let u := unit_of p in
  if (lt p =? 0)%Z && (d + ly p <? nmin) && (nelz mod (3 * lz p) =? 0) then mkLayer (lx p) (ly p) (3 * lz p) 2
  else if (3 * u <=? d) && (nelx mod (3 * lx p) =? 0) && (d + u <? nmin) then mkLayer (3 * lx p) (2 * u) (lz p) 0
  else if (3 * u <=? d) && (nelz mod (3 * lz p) =? 0) && (d + u <? nmin) then mkLayer (lx p) (2 * u) (3 * lz p) 2
  else mkLayer (lx p) u (lz p) (-1).

Fixpoint layers3 (fuel nelx nelz nmin : nat) (p : layer) (d : nat) : list layer :=
  match fuel with
  | O => []
  | S fuel => if nmin <=? d then [] else let t := next3 nelx nelz nmin p d in t :: layers3 fuel nelx nelz nmin t (d + ly t)
  end.
Definition heights3 (l : list layer) : nat := fold_right Nat.add 0 (map ly l).

Lemma bind_Ok {A B} (a : A) (f : A -> res B) : bind (Ok a) f = f a.
Proof. reflexivity. Qed.
Lemma half_2 u : 2 * u / 2 = u.
Proof. rewrite Nat.mul_comm, Nat.div_mul; lia. Qed.

Section Loop.
Variables (nelx nelz nmin nely : nat).
Hypothesis Hm : nmin <= nely.
Notation LS := (fun k p d => layers3 k nelx nelz nmin p d).
Notation nx3 := (next3 nelx nelz nmin).

(** state at the head of the loop, after layer [p] *)
Definition st3 (px py pz : list nat) (pr : list Z) (p : layer) (k d : nat) : half3 :=
  mkHalf3 (px ++ repeat (lx p) k) (py ++ repeat (unit_of p) k) (pz ++ repeat (lz p) k) (pr ++ repeat (-1)%Z k) d.
Definition no_double (p : layer) (d : nat) : Prop := (lt p =? 0)%Z && (d + ly p <? nmin) && (nelz mod (3 * lz p) =? 0) = false.

Definition final (px py pz : list nat) (pr : list Z) (ls : list layer) (d : nat) (s : half3) : Prop :=
  (exists qx qy qz qr, t3_nhx s = px ++ map lx ls ++ qx /\ t3_nhy s = py ++ map ly ls ++ qy /\ t3_nhz s = pz ++ map lz ls ++ qz /\ t3_refine s = pr ++ map lt ls ++ qr) /\
  t3_ntot s = d + heights3 ls.

Lemma final_nil px py pz pr p k d : final px py pz pr [] d (st3 px py pz pr p k d).
Proof. split; [|cbn; lia]. do 4 eexists. repeat split; reflexivity. Qed.
Lemma final_cons px py pz pr t ls d s : final (px ++ [lx t]) (py ++ [ly t]) (pz ++ [lz t]) (pr ++ [lt t]) ls (d + ly t) s -> final px py pz pr (t :: ls) d s.
Proof.
  intros ((qx & qy & qz & qr & E1 & E2 & E3 & E4) & E5). split.
  - exists qx, qy, qz, qr. cbn [map]. rewrite E1, E2, E3, E4, <- !app_assoc. repeat split; reflexivity.
  - rewrite E5. unfold heights3. cbn [map fold_right]. lia.
Qed.

Lemma layers3_stop k p d : k = 0 \/ nmin <= d -> LS k p d = [].
Proof. intros [-> | H]; [reflexivity|]. destruct k; [reflexivity|]. cbn. destruct (Nat.leb_spec nmin d); [reflexivity|lia]. Qed.

Lemma stop_true a b : (nely <=? a) || (nmin <=? b) = true -> nely - a = 0 \/ nmin <= b.
Proof. intros H. apply orb_prop in H. destruct H as [H|H]; apply Nat.leb_le in H; lia. Qed.
Lemma stop_false a b : (nely <=? a) || (nmin <=? b) = false -> a < nely /\ b < nmin.
Proof. intros H. apply orb_false_elim in H. destruct H as [H1 H2]. apply Nat.leb_gt in H1, H2. lia. Qed.

Ltac snoc := rewrite <- ?app_assoc; cbn [app].

Lemma coarsen3_spec px py pz pr p k d iy : length px = iy -> length py = iy -> length pz = iy -> length pr = iy ->
  iy + S k = nely -> iy <= d -> d < nmin -> 1 <= unit_of p -> no_double p d ->
  let t := nx3 p d in
  let t' := nx3 t (d + ly t) in
  exists s1 iy1 y, coarsen3 nelx nelz nely nmin iy (st3 px py pz pr p (S k) d) = Ok (s1, iy1) /\ get (t3_nhy s1) iy1 = Ok y /\
   1 <= unit_of t /\ ly t <= d + ly t /\ 1 <= ly t /\
   ((iy1 = iy /\ no_double t (d + ly t) /\
     mkHalf3 (t3_nhx s1) (t3_nhy s1) (t3_nhz s1) (t3_refine s1) (t3_ntot s1 + y) =
     st3 (px ++ [lx t]) (py ++ [ly t]) (pz ++ [lz t]) (pr ++ [lt t]) t k (d + ly t)) \/
    (exists k', k = S k' /\ iy1 = iy + 1 /\ d + ly t < nmin /\ no_double t' (d + ly t + ly t') /\ 1 <= unit_of t' /\ 1 <= ly t' /\
     mkHalf3 (t3_nhx s1) (t3_nhy s1) (t3_nhz s1) (t3_refine s1) (t3_ntot s1 + y) =
     st3 (px ++ [lx t] ++ [lx t']) (py ++ [ly t] ++ [ly t']) (pz ++ [lz t] ++ [lz t']) (pr ++ [lt t] ++ [lt t']) t' k' (d + ly t + ly t'))).
Proof.
  intros Lx Ly Lz Lr Hk Hd Hd' Hu Hn t t'. unfold coarsen3, st3. cbn [t3_nhx t3_nhy t3_nhz t3_refine t3_ntot repeat].
  rewrite (get_app py _ _ iy Ly), (get_app px _ _ iy Lx), (get_app pz _ _ iy Lz), !bind_Ok.
  assert (Et : t = if (3 * unit_of p <=? d) && (nelx mod (3 * lx p) =? 0) && (d + unit_of p <? nmin) then mkLayer (3 * lx p) (2 * unit_of p) (lz p) 0
     else if (3 * unit_of p <=? d) && (nelz mod (3 * lz p) =? 0) && (d + unit_of p <? nmin) then mkLayer (lx p) (2 * unit_of p) (3 * lz p) 2
     else mkLayer (lx p) (unit_of p) (lz p) (-1)).
  { unfold t, next3. unfold no_double in Hn. rewrite Hn. reflexivity. }
  set (u := unit_of p) in *. destruct ((3 * u <=? d) && (nelx mod (3 * lx p) =? 0) && (d + u <? nmin)) eqn:C1.
  - unfold coarsen_x. cbn [t3_nhx t3_nhy t3_nhz t3_refine t3_ntot].
    rewrite (set_app pr _ _ iy 0%Z Lr), bind_Ok. rewrite (get_app py u _ iy Ly), bind_Ok. rewrite (set_app py _ _ iy (u * 2) Ly), bind_Ok.
    replace (py ++ u * 2 :: repeat u k) with ((py ++ [u * 2]) ++ repeat u k) by (snoc; reflexivity).
    rewrite (mul_from_app (iy + 1) 3 (py ++ [u * 2]) (repeat u k)) by (rewrite app_length; cbn; lia).
    rewrite (mul_from_app iy 3 px (lx p :: repeat (lx p) k) Lx). cbn [map]. rewrite !map_repeat'. rewrite <- app_assoc. cbn [app].
    rewrite (get_app py (u * 2) _ iy Ly), bind_Ok.
    assert (Ut : unit_of t = 3 * u) by (rewrite Et; unfold unit_of; cbn [lt ly Z.eqb]; now rewrite half_2).
    destruct ((iy + 1 <? nely) && (d + 2 * (u * 2) <? nmin)) eqn:C2.
    + apply andb_prop in C2. destruct C2 as [C2 C3]. apply Nat.ltb_lt in C2. destruct k as [|k']; [lia|].
      cbn [repeat]. replace (pz ++ lz p :: lz p :: repeat (lz p) k') with ((pz ++ [lz p]) ++ lz p :: repeat (lz p) k') by (snoc; reflexivity).
      rewrite (get_app (pz ++ [lz p])) by (rewrite app_length; cbn; lia). rewrite bind_Ok. destruct (nelz mod (3 * lz p) =? 0) eqn:C4.
      * replace (pr ++ 0%Z :: (-1)%Z :: repeat (-1)%Z k') with ((pr ++ [0%Z]) ++ (-1)%Z :: repeat (-1)%Z k') by (snoc; reflexivity).
        rewrite (set_app (pr ++ [0%Z])) by (rewrite app_length; cbn; lia). rewrite bind_Ok.
        replace (iy + 1 - 1) with iy by lia. rewrite (get_app py (u * 2) _ iy Ly), bind_Ok.
        replace (py ++ u * 2 :: u * 3 :: repeat (u * 3) k') with ((py ++ [u * 2]) ++ u * 3 :: repeat (u * 3) k') by (snoc; reflexivity).
        rewrite (set_app (py ++ [u * 2])) by (rewrite app_length; cbn; lia). rewrite bind_Ok.
        rewrite (mul_from_app (iy + 1) 3 (pz ++ [lz p])) by (rewrite app_length; cbn; lia).
        assert (Et' : t' = mkLayer (3 * lx p) (2 * u) (3 * lz p) 2).
        { unfold t', next3. rewrite Et. cbn [lt ly lz lx Z.eqb andb]. rewrite C4. replace (d + 2 * u + 2 * u) with (d + 2 * (u * 2)) by lia. rewrite C3. reflexivity. }
        assert (Ut' : unit_of t' = 3 * u) by (rewrite Et'; unfold unit_of; cbn [lt ly Z.eqb]; now rewrite half_2).
        do 3 eexists. split; [reflexivity|]. cbn [t3_nhx t3_nhy t3_nhz t3_refine t3_ntot]. split; [apply get_app; rewrite app_length; cbn; lia|].
        apply Nat.ltb_lt in C3. assert (Lt : ly t = 2 * u) by (rewrite Et; reflexivity). split; [lia|]. split; [lia|]. split; [lia|].
        right. exists k'. split; [reflexivity|]. split; [reflexivity|]. split; [lia|]. split; [unfold no_double; rewrite Et'; reflexivity|].
        split; [lia|]. split; [rewrite Et'; cbn [ly]; lia|]. unfold st3. rewrite Ut', Et', Et. cbn [lx ly lz lt map app]. rewrite map_repeat'. snoc.
        rewrite !(Nat.mul_comm _ 2), !(Nat.mul_comm _ 3). reflexivity.
      * do 3 eexists. split; [reflexivity|]. cbn [t3_nhx t3_nhy t3_nhz t3_refine t3_ntot]. split; [apply get_app; assumption|].
        rewrite Ut. split; [lia|]. split; [lia|]. rewrite Et. split; [cbn [ly]; lia|]. left. split; [reflexivity|]. split.
        { unfold no_double. cbn [lt lz ly]. rewrite C4. apply andb_false_r. }
cbn [lx ly lz lt]. snoc. rewrite !(Nat.mul_comm _ 2), !(Nat.mul_comm _ 3). reflexivity.
    + do 3 eexists. split; [reflexivity|]. cbn [t3_nhx t3_nhy t3_nhz t3_refine t3_ntot]. split; [apply get_app; assumption|].
      rewrite Ut. split; [lia|]. split; [lia|]. rewrite Et. split; [cbn [ly]; lia|]. left. split; [reflexivity|]. split.
      { unfold no_double. cbn [lt lz ly Z.eqb andb]. apply andb_false_iff in C2. destruct (Nat.ltb_spec (d + 2 * u + 2 * u) nmin); [|reflexivity].
        exfalso. destruct C2 as [C2|C2]; apply Nat.ltb_ge in C2; lia. }
      cbn [lx ly lz lt]. snoc. rewrite !(Nat.mul_comm _ 2), !(Nat.mul_comm _ 3). reflexivity.
  - destruct ((3 * u <=? d) && (nelz mod (3 * lz p) =? 0) && (d + u <? nmin)) eqn:C2.
    + unfold coarsen_z. cbn [t3_nhx t3_nhy t3_nhz t3_refine t3_ntot].
      rewrite (set_app pr _ _ iy 2%Z Lr), bind_Ok. rewrite (get_app py u _ iy Ly), bind_Ok. rewrite (set_app py _ _ iy (u * 2) Ly), bind_Ok.
      replace (py ++ u * 2 :: repeat u k) with ((py ++ [u * 2]) ++ repeat u k) by (snoc; reflexivity).
      rewrite (mul_from_app (iy + 1) 3 (py ++ [u * 2]) (repeat u k)) by (rewrite app_length; cbn; lia).
      rewrite (mul_from_app iy 3 pz (lz p :: repeat (lz p) k) Lz). cbn [map]. rewrite !map_repeat'.
      assert (Ut : unit_of t = 3 * u) by (rewrite Et; unfold unit_of; cbn [lt ly Z.eqb]; now rewrite half_2).
      do 3 eexists. split; [reflexivity|]. cbn [t3_nhx t3_nhy t3_nhz t3_refine t3_ntot]. split; [rewrite <- app_assoc; cbn [app]; apply get_app; assumption|].
      rewrite Ut. split; [lia|]. split; [lia|]. rewrite Et. split; [cbn [ly]; lia|]. left. split; [reflexivity|]. split; [reflexivity|].
      cbn [lx ly lz lt]. snoc. rewrite !(Nat.mul_comm _ 2), !(Nat.mul_comm _ 3). reflexivity.
    + assert (Ut : unit_of t = u) by (rewrite Et; unfold unit_of; cbn [lt ly Z.eqb]; reflexivity).
      do 3 eexists. split; [reflexivity|]. cbn [t3_nhx t3_nhy t3_nhz t3_refine t3_ntot]. split; [apply get_app; assumption|].
      rewrite Ut. split; [lia|]. split; [lia|]. rewrite Et. split; [cbn [ly]; lia|]. left. split; [reflexivity|]. split; [reflexivity|].
      cbn [lx ly lz lt]. snoc. reflexivity.
Qed.

Lemma init_loop3_spec : forall fuel iy px py pz pr p d,
  length px = iy -> length py = iy -> length pz = iy -> length pr = iy -> iy <= nely -> iy <= d -> 1 <= unit_of p -> no_double p d -> nely - iy < fuel ->
  let ls := LS (nely - iy) p d in
  exists s, init_loop3 fuel nelx nelz nely nmin iy (st3 px py pz pr p (nely - iy) d) = Some (Ok (s, iy + length ls)) /\ final px py pz pr ls d s.
Proof.
  induction fuel as [|fuel IH]; intros iy px py pz pr p d Lx Ly Lz Lr Hi Hd Hu Hn Hf ls; [lia|].
  cbn [init_loop3]. change (t3_ntot (st3 px py pz pr p (nely - iy) d)) with d. destruct ((nely <=? iy) || (nmin <=? d)) eqn:E.
  { apply stop_true in E. unfold ls. rewrite layers3_stop by assumption. eexists. split; [rewrite Nat.add_0_r; reflexivity|]. apply final_nil. }
  apply stop_false in E. destruct E as [E1 E2]. destruct (nely - iy) as [|k] eqn:Ek; [lia|].
  destruct (coarsen3_spec px py pz pr p k d iy) as (s1 & iy1 & y & Ec & Ey & Hut & Hlt & Hlt' & Cases); auto; [lia|].
  rewrite Ec, bind_Ok, Ey, bind_Ok. set (t := nx3 p d) in *.
  assert (Els : ls = t :: LS k t (d + ly t)) by (unfold ls; cbn [layers3]; destruct (Nat.leb_spec nmin d); [lia|reflexivity]). clearbody ls. subst ls.
  assert (Go : forall fuel' iy' px' py' pz' pr' p' d' k', nely - iy' = k' -> fuel' = fuel -> length px' = iy' -> length py' = iy' -> length pz' = iy' -> length pr' = iy' ->
     iy < iy' <= nely -> iy' <= d' -> 1 <= unit_of p' -> no_double p' d' ->
     exists s, (if (nely <=? iy') || (nmin <=? d') then Some (Ok (st3 px' py' pz' pr' p' k' d', iy'))
                else init_loop3 fuel' nelx nelz nely nmin iy' (st3 px' py' pz' pr' p' k' d')) = Some (Ok (s, iy' + length (LS k' p' d'))) /\ final px' py' pz' pr' (LS k' p' d') d' s).
  { intros fuel' iy' px' py' pz' pr' p' d' k' <- -> L1 L2 L3 L4 Hi' Hd' Hu' Hn'. destruct ((nely <=? iy') || (nmin <=? d')) eqn:E.
    - apply stop_true in E. rewrite layers3_stop by assumption. eexists. split; [rewrite Nat.add_0_r; reflexivity|]. apply final_nil.
    - apply (IH iy' px' py' pz' pr' p' d'); auto; lia. }
  destruct Cases as [(-> & Hn' & Es)|(k' & -> & -> & Hlt2 & Hn' & Hu' & Hl' & Es)].
  - rewrite Es. change (t3_ntot (st3 _ _ _ _ _ _ _)) with (d + ly t).
    destruct (Go fuel (iy + 1) (px ++ [lx t]) (py ++ [ly t]) (pz ++ [lz t]) (pr ++ [lt t]) t (d + ly t) k) as (s & Gs & Gf); auto; try (rewrite app_length; cbn; lia); try lia.
    exists s. split; [rewrite Gs; do 3 f_equal; cbn [length]; lia|]. now apply final_cons.
  - set (t' := nx3 t (d + ly t)) in *. rewrite Es. change (t3_ntot (st3 _ _ _ _ _ _ _)) with (d + ly t + ly t').
    assert (El : LS (S k') t (d + ly t) = t' :: LS k' t' (d + ly t + ly t')) by (cbn [layers3]; destruct (Nat.leb_spec nmin (d + ly t)); [lia|reflexivity]).
    rewrite El. rewrite !app_assoc in *.
    destruct (Go fuel (iy + 1 + 1) ((px ++ [lx t]) ++ [lx t']) ((py ++ [ly t]) ++ [ly t']) ((pz ++ [lz t]) ++ [lz t']) ((pr ++ [lt t]) ++ [lt t']) t' (d + ly t + ly t') k') as (s & Gs & Gf); auto; try (rewrite !app_length; cbn; lia); try lia.
    exists s. split; [rewrite Gs; do 3 f_equal; cbn [length]; lia|]. now apply final_cons, final_cons.
Qed.
End Loop.

(** ** properties of the list of layers *)
Lemma next3_pos nelx nelz nmin p d : 1 <= unit_of p -> 1 <= ly p -> let t := next3 nelx nelz nmin p d in 1 <= unit_of t /\ 1 <= ly t.
Proof.
  intros Hu Hl t. unfold t, next3. destruct (_ && _) eqn:C.
  - unfold unit_of in *. cbn [lt ly Z.eqb]. apply andb_prop in C. destruct C as [C _]. apply andb_prop in C. destruct C as [C _]. apply Z.eqb_eq in C. rewrite C in Hu. cbn [Z.eqb] in Hu. split; assumption.
  - set (u := unit_of p) in *. repeat match goal with |- context [if ?c then mkLayer _ _ _ _ else _] => destruct c end; unfold unit_of; cbn [lt ly Z.eqb Pos.eqb]; rewrite ?half_2; clearbody u; lia.
Qed.

Lemma layers3_height nelx nelz nmin : forall fuel p d, 1 <= unit_of p -> 1 <= ly p -> nmin <= d + fuel -> nmin <= d + heights3 (layers3 fuel nelx nelz nmin p d).
Proof.
  induction fuel as [|fuel IH]; intros p d Hu Hl Hf; [cbn; lia|]. cbn [layers3]. destruct (Nat.leb_spec nmin d); [cbn; lia|].
  destruct (next3_pos nelx nelz nmin p d Hu Hl) as [A B]. set (t := next3 nelx nelz nmin p d) in *.
  pose proof (IH t (d + ly t) A B ltac:(lia)) as G. unfold heights3 in *. cbn [map fold_right]. lia.
Qed.

Lemma layers3_nth nelx nelz nmin : forall fuel p d i t, let ls := layers3 fuel nelx nelz nmin p d in
  nth_error ls i = Some t ->
  let prev := match i with O => p | S j => nth j ls fine1 end in
  let dist := d + heights3 (firstn i ls) in dist < nmin /\ t = next3 nelx nelz nmin prev dist.
Proof.
  induction fuel as [|fuel IH]; intros p d i t ls Hn prev dst; [unfold ls in Hn; cbn in Hn; destruct i; discriminate|].
  unfold prev, dst, ls in *. clear prev dst. cbn [layers3] in *. destruct (Nat.leb_spec nmin d); [destruct i; discriminate|].
  set (t1 := next3 nelx nelz nmin p d) in *. destruct i as [|i]; cbn [nth_error] in Hn.
  - injection Hn as <-. unfold heights3. cbn [firstn map fold_right]. rewrite Nat.add_0_r. split; [assumption|reflexivity].
  - specialize (IH t1 (d + ly t1) i t Hn). cbv zeta in IH. destruct IH as [I1 I2]. cbn [firstn]. unfold heights3 in *. cbn [map fold_right]. rewrite Nat.add_assoc.
    split; [exact I1|]. destruct i; cbn [nth]; exact I2.
Qed.

(** ** the mesh given by the sizes and types of the layers, from the middle outward *)
Definition isx (t : Z) : bool := (t =? 0)%Z.
Definition isz (t : Z) : bool := (t =? 2)%Z.
(** in each direction the widths are those of a two-dimensional layered mesh, with these heights *)
Definition fh (w : nat -> nat) (r : nat -> bool) (d : nat) : nat :=
  match d with O => 1 | S d' => if r (S d') then 2 * w d' else w d' end.

Section Layers.
Variables (nelx nelz n : nat) (wx wz y : nat -> nat) (r : nat -> Z).
Definition rx (d : nat) : bool := isx (r d).
Definition rz (d : nat) : bool := isz (r d).

Record layered3 : Prop := {
  l3_x : layered nelx n wx (fh wx rx) rx;
  l3_z : layered nelz n wz (fh wz rz) rz;
  l3_y0 : y 0 = 1;
  l3_y : forall d, d < n -> 1 <= y d;
  l3_t : forall d, d < n -> r d = (-1)%Z \/ ((r d = 0%Z \/ r d = 2%Z) /\ exists s, 1 <= s /\ y d = 2 * s) }.

Notation Wx := (W n wx).
Notation Wz := (W n wz).
Notation NX := (NX nelx n wx).
Notation NZ := (Proof_FineLayer.NX nelz n wz).
Notation NNx := (NN nelx n wx).
Notation NNz := (NN nelz n wz).
Notation Rx := (Rf n rx).
Notation Rz := (Rf n rz).
Notation L := (L n).
Definition T (iy : nat) : Z := r (dist n iy).
Definition NN3 (iy : nat) : nat := NNx iy * NNz iy.
Definition NM3 (iy : nat) : nat := if Rx iy then 2 * NX iy * (NZ iy + 1) else if Rz iy then (NX iy + 1) * (2 * NZ iy) else 0.
Definition NE3 (iy : nat) : nat := if Rx iy || Rz iy then NZ iy * (NX iy * 4) else NZ iy * NX iy.
Definition SN3 (iy : nat) : nat := nsum iy (fun k => NN3 k + NM3 k).
Definition SE3 (iy : nat) : nat := nsum iy NE3.
Definition HFL_of (h : R) : HexFineLayer :=
  mkHFL h (SE3 L) (SN3 L + NN3 L) (h * INR nelx)%R (h * INR nelz)%R (tab1 L NX) (tab1 L NZ) (tab1 (n * 2) NN3)
    (tab1 L Wx) (tab1 L (Hy n y)) (tab1 L Wz) (tab1 L T) (tab1 L SE3) (tab1 (n * 2) SN3).
End Layers.

Lemma NN_low nelx n w y r (HL : layered nelx n w y r) i : i < n -> NN nelx n w i = NX nelx n w i + 1.
Proof. intros H. unfold NN. rewrite WN_low by lia. reflexivity. Qed.
Lemma NN_top' nelx n w y r (HL : layered nelx n w y r) i : n - 1 <= i -> NN nelx n w (i + 1) = NX nelx n w i + 1.
Proof. intros H. unfold NN. rewrite WN_up by lia. now replace (i + 1 - 1) with i by lia. Qed.
Lemma NN_up nelx n w y r (HL : layered nelx n w y r) i : n - 1 <= i < L n -> NN nelx n w i = if Rf n r i then 3 * NX nelx n w i + 1 else NX nelx n w i + 1.
Proof. intros H. pose proof (SN_up _ _ _ _ _ HL i H) as E. unfold NM in E. destruct (Rf n r i); lia. Qed.
Lemma NN_next nelx n w y r (HL : layered nelx n w y r) i : i < n - 1 -> NN nelx n w (i + 1) = if Rf n r i then 3 * NX nelx n w i + 1 else NX nelx n w i + 1.
Proof.
  intros H. rewrite (NN_low _ _ _ _ _ HL) by lia. unfold NX. assert (Hi : i < L n) by (unfold L; lia). pose proof (W_NX _ _ _ _ _ HL i Hi) as E.
  pose proof (W_pos _ _ _ _ _ HL (i + 1) ltac:(unfold L; lia)) as P.
  destruct (step_low _ _ _ _ _ HL i ltac:(lia)) as [(-> & <-)|(-> & E')]; [reflexivity|]. f_equal.
  fold (NX nelx n w i). rewrite <- E, E' at 1. replace (3 * W n w (i + 1) * NX nelx n w i) with (3 * NX nelx n w i * W n w (i + 1)) by lia. now rewrite Nat.div_mul by lia.
Qed.

Section Facts.
Variables (nelx nelz n : nat) (wx wz y : nat -> nat) (r : nat -> Z).
Hypothesis HL : layered3 nelx nelz n wx wz y r.
Notation HX := (l3_x _ _ _ _ _ _ _ HL).
Notation HZ := (l3_z _ _ _ _ _ _ _ HL).
Notation Wx := (W n wx).
Notation Wz := (W n wz).
Notation NX := (NX nelx n wx).
Notation NZ := (Proof_FineLayer.NX nelz n wz).
Notation NNx := (NN nelx n wx).
Notation NNz := (NN nelz n wz).
Notation Rx := (Rf n (rx r)).
Notation Rz := (Rf n (rz r)).
Notation L := (L n).
Notation T := (T n r).
Notation NN3 := (NN3 nelx nelz n wx wz).
Notation NM3 := (NM3 nelx nelz n wx wz r).
Notation NE3 := (NE3 nelx nelz n wx wz r).
Notation SN3 := (SN3 nelx nelz n wx wz r).
Notation SE3 := (SE3 nelx nelz n wx wz r).

Lemma start_fold3 c : forall k a st, a + k <= L ->
  (forall i, a <= i < a + k -> NN3 i + NM3 i = if Rx i then (c * NX i + 1) * (NZ i + 1) else if Rz i then (NX i + 1) * (c * NZ i + 1) else (NX i + 1) * (NZ i + 1)) ->
  s_nnode st = SN3 a -> s_nelem st = SE3 a -> s_elem st = map (fun i => (i, SE3 i)) (seq 0 a) -> s_node st = map (fun i => (i, SN3 i)) (seq 0 (a + 1)) ->
  exists st', foldM (start_layer3 (tab1 L NX) (tab1 L NZ) (tab1 L T) c) (seq a k) st = Ok st' /\
    s_nnode st' = SN3 (a + k) /\ s_nelem st' = SE3 (a + k) /\ s_elem st' = map (fun i => (i, SE3 i)) (seq 0 (a + k)) /\
    s_node st' = map (fun i => (i, SN3 i)) (seq 0 (a + k + 1)).
Proof.
  induction k as [|k IH]; intros a st Ha Hc E1 E2 E3 E4.
  - cbn. exists st. rewrite Nat.add_0_r. repeat split; assumption.
  - cbn [seq foldM]. unfold start_layer3 at 1. rewrite !tab1_get by lia. cbn [bind].
    assert (EN : SN3 (S a) = s_nnode st + (if (T a =? 0)%Z then (c * NX a + 1) * (NZ a + 1) else if (T a =? 2)%Z then (NX a + 1) * (c * NZ a + 1) else (NX a + 1) * (NZ a + 1))).
    { rewrite E1. unfold Proof_Hex8FineLayer.SN3 at 1. cbn [nsum]. fold (SN3 a). rewrite (Hc a) by lia. reflexivity. }
    assert (EE : SE3 (S a) = s_nelem st + (if (T a =? 0)%Z then 4 * NX a * NZ a else if (T a =? 2)%Z then NX a * (4 * NZ a) else NX a * NZ a)).
    { rewrite E2. unfold Proof_Hex8FineLayer.SE3 at 1. cbn [nsum]. fold (SE3 a). f_equal. unfold Proof_Hex8FineLayer.NE3, Rf, rx, rz, isx, isz. fold (T a).
      destruct (T a =? 0)%Z; [cbn [orb]; lia|]. destruct (T a =? 2)%Z; cbn [orb]; lia. }
    replace (a + S k) with (S a + k) by lia. apply IH; cbn [s_nnode s_nelem s_elem s_node].
    + lia.
    + intros i Hi. apply Hc. lia.
    + now rewrite EN.
    + now rewrite EE.
    + rewrite E3, E2. replace (S a) with (a + 1) by lia. rewrite seq_app, map_app. reflexivity.
    + rewrite E4, <- EN. replace (S a + 1) with (a + 1 + 1) by lia. rewrite (seq_app (a + 1) 1 0), map_app. cbn [map seq]. do 2 f_equal.
      rewrite (Nat.add_0_l (a + 1)). now replace (a + 1) with (S a) by lia.
Qed.

Lemma not_both iy : Rx iy = true -> Rz iy = false.
Proof. unfold Rf, rx, rz, isx, isz. intros H. apply Z.eqb_eq in H. now rewrite H. Qed.

Lemma SN3_low i : i < n - 1 -> NN3 i + NM3 i = if Rx i then (3 * NX i + 1) * (NZ i + 1) else if Rz i then (NX i + 1) * (3 * NZ i + 1) else (NX i + 1) * (NZ i + 1).
Proof.
  intros H. unfold Proof_Hex8FineLayer.NN3, Proof_Hex8FineLayer.NM3. rewrite (NN_low _ _ _ _ _ HX), (NN_low _ _ _ _ _ HZ) by lia.
  destruct (Rx i); [lia|]. destruct (Rz i); lia.
Qed.
Lemma SN3_up i : n - 1 <= i < L -> NN3 i + NM3 i = if Rx i then (5 * NX i + 1) * (NZ i + 1) else if Rz i then (NX i + 1) * (5 * NZ i + 1) else (NX i + 1) * (NZ i + 1).
Proof.
  intros H. unfold Proof_Hex8FineLayer.NN3, Proof_Hex8FineLayer.NM3. rewrite (NN_up _ _ _ _ _ HX), (NN_up _ _ _ _ _ HZ) by lia.
  pose proof (not_both i) as B. destruct (Rx i); [rewrite (B eq_refl); lia|]. destruct (Rz i); lia.
Qed.

Lemma finish3_spec h s qx qy qz qr : t3_nhx s = tab1 n wx ++ qx -> t3_nhy s = tab1 n y ++ qy -> t3_nhz s = tab1 n wz ++ qz ->
  t3_refine s = tab1 n r ++ qr -> finish3 nelx nelz h s n = Ok (HFL_of nelx nelz n wx wz y r h).
Proof.
  intros E1 E2 E4 E3. pose proof (l_n _ _ _ _ _ HX) as Hn. pose proof (n_L _ _ _ _ _ HX) as HnL. unfold finish3.
  rewrite (symmetrise_spec n _ _ _ Hn E1), (symmetrise_spec n _ _ _ Hn E2), (symmetrise_spec n _ _ _ Hn E4), (symmetrise_spec n _ _ _ Hn E3). cbn [bind].
  rewrite tab1_len.
  change (tab1 L (fun iy => wx (dist n iy))) with (tab1 L Wx). change (tab1 L (fun iy => wz (dist n iy))) with (tab1 L Wz).
  change (tab1 L (fun iy => y (dist n iy))) with (tab1 L (Hy n y)). change (tab1 L (fun iy => r (dist n iy))) with (tab1 L T).
  rewrite (mapM_Ok _ _ NX). 2:{ intros i Hi. apply in_seq in Hi. rewrite tab1_get by lia. reflexivity. }
  cbn [bind]. rewrite (mapM_Ok _ _ NZ). 2:{ intros i Hi. apply in_seq in Hi. rewrite tab1_get by lia. reflexivity. }
  cbn [bind]. change (map NX (seq 0 L)) with (tab1 L NX). change (map NZ (seq 0 L)) with (tab1 L NZ). rewrite L_half, (L_half' _ _ _ _ _ HX).
  rewrite (mapM_Ok _ _ (fun i => (i, NN3 i))).
  2:{ intros i Hi. apply in_seq in Hi. rewrite !tab1_get by (unfold Proof_FineLayer.L; lia). cbn [bind]. unfold Proof_Hex8FineLayer.NN3. rewrite (NN_low _ _ _ _ _ HX), (NN_low _ _ _ _ _ HZ) by lia. reflexivity. }
  cbn [bind]. rewrite (mapM_Ok _ _ (fun i => (i + 1, NN3 (i + 1)))).
  2:{ intros i Hi. apply in_seq in Hi. rewrite !tab1_get by lia. cbn [bind]. unfold Proof_Hex8FineLayer.NN3. rewrite (NN_top' _ _ _ _ _ HX), (NN_top' _ _ _ _ _ HZ) by lia. reflexivity. }
  cbn [bind]. rewrite loop_fill_Ok.
  2:{ rewrite map_app, !map_map. cbn [fst]. rewrite map_id, map_add_seq. replace (n - 1 + 1) with (0 + n) by lia. rewrite <- seq_app. f_equal. unfold Proof_FineLayer.L. lia. }
  cbn [bind]. destruct (start_fold3 3 (n - 1) 0 (mkStarts 0 0 [] [(0, 0)])) as (st & F & S1 & S2 & S3 & S4); try reflexivity; [lia|intros i Hi; apply SN3_low; lia|].
  rewrite F. cbn [bind]. cbn [Nat.add] in *. destruct (start_fold3 5 (L - (n - 1)) (n - 1) st) as (st' & F' & S1' & S2' & S3' & S4'); try assumption; [lia|intros i Hi; apply SN3_up; lia|].
  rewrite F'. cbn [bind]. replace (n - 1 + (L - (n - 1))) with L in * by lia. rewrite S3', S4'.
  rewrite loop_fill_Ok. 2:{ rewrite map_map. cbn [fst]. rewrite map_id. reflexivity. }
  cbn [bind]. rewrite loop_fill_Ok. 2:{ rewrite map_map. cbn [fst]. rewrite map_id. now rewrite (L_S _ _ _ _ _ HX). }
  cbn [bind]. rewrite !tab1_get by lia. cbn [bind]. unfold HFL_of. f_equal. rewrite S1', S2'. f_equal.
  - pose proof (NN_top' _ _ _ _ _ HX (L - 1) ltac:(unfold Proof_FineLayer.L; lia)) as A1. pose proof (NN_top' _ _ _ _ _ HZ (L - 1) ltac:(unfold Proof_FineLayer.L; lia)) as A2.
    replace (L - 1 + 1) with L in A1, A2 by lia. unfold Proof_Hex8FineLayer.NN3 at 1. now rewrite A1, A2.
  - rewrite map_app, !map_map. cbn [snd]. unfold tab1. rewrite <- (map_map (fun i => i + 1) NN3), map_add_seq. rewrite <- map_app. f_equal. replace (n - 1 + 1) with (0 + n) by lia. rewrite <- seq_app. f_equal. unfold Proof_FineLayer.L. lia.
  - rewrite map_map. cbn [snd]. reflexivity.
  - rewrite map_map. cbn [snd]. unfold tab1. now rewrite (L_S _ _ _ _ _ HX).
Qed.
End Facts.

Definition lay (wx wz y : nat -> nat) (r : nat -> Z) (d : nat) : layer := mkLayer (wx d) (y d) (wz d) (r d).

Record greedy3 (nelx nely nelz nfine n : nat) (wx wz y : nat -> nat) (r : nat -> Z) : Prop := {
  g3_layered : layered3 nelx nelz n wx wz y r;
  g3_fine : forall d, d < n -> 2 * d <= nfine -> lay wx wz y r d = fine1;
  g3_rule : forall d, S d < n -> nfine < 2 * S d ->
    lay wx wz y r (S d) = next3 nelx nelz ((nely + 1) / 2) (lay wx wz y r d) (nsum (S d) y);
  g3_enough : (nely + 1) / 2 <= nsum n y;
  g3_last : nsum (n - 1) y < (nely + 1) / 2 }.

Lemma heights3_nsum (l : list layer) : forall k, k <= length l -> heights3 (firstn k l) = nsum k (fun i => ly (nth i l fine1)).
Proof.
  induction k as [|k IH]; intros Hk; [reflexivity|]. cbn [nsum]. rewrite <- IH by lia.
  unfold heights3. clear IH. revert l Hk. induction k as [|k IH]; intros [|t l] Hk; cbn [length] in Hk; try lia.
  - cbn. lia.
  - change (firstn (S (S k)) (t :: l)) with (t :: firstn (S k) l). change (firstn (S k) (t :: l)) with (t :: firstn k l). cbn [map fold_right nth].
    rewrite IH by lia. lia.
Qed.
Lemma heights3_app a b : heights3 (a ++ b) = heights3 a + heights3 b.
Proof. unfold heights3. rewrite map_app. induction (map ly a) as [|x l IH]; [reflexivity|]. cbn. rewrite IH. lia. Qed.
Lemma heights3_repeat k : heights3 (repeat fine1 k) = k.
Proof. induction k; [reflexivity|]. unfold heights3 in *. cbn. now rewrite IHk. Qed.

(** one step, seen in each direction *)
Lemma next3_x nelx nelz nmin p d : let t := next3 nelx nelz nmin p d in
  (isx (lt t) = false /\ lx t = lx p) \/ (isx (lt t) = true /\ lx t = 3 * lx p /\ nelx mod (3 * lx p) = 0).
Proof.
  intros t. unfold t, next3. destruct (_ && _); [left; split; reflexivity|].
  destruct ((3 * unit_of p <=? d) && (nelx mod (3 * lx p) =? 0) && (d + unit_of p <? nmin)) eqn:C.
  - right. apply andb_prop in C. destruct C as [C _]. apply andb_prop in C. destruct C as [_ C]. apply Nat.eqb_eq in C. repeat split. exact C.
  - left. destruct ((3 * unit_of p <=? d) && (nelz mod (3 * lz p) =? 0) && (d + unit_of p <? nmin)); split; reflexivity.
Qed.
Lemma next3_z nelx nelz nmin p d : let t := next3 nelx nelz nmin p d in
  (isz (lt t) = false /\ lz t = lz p) \/ (isz (lt t) = true /\ lz t = 3 * lz p /\ nelz mod (3 * lz p) = 0).
Proof.
  intros t. unfold t, next3. destruct ((lt p =? 0)%Z && (d + ly p <? nmin) && (nelz mod (3 * lz p) =? 0)) eqn:C.
  - right. apply andb_prop in C. destruct C as [_ C]. apply Nat.eqb_eq in C. repeat split. exact C.
  - destruct ((3 * unit_of p <=? d) && (nelx mod (3 * lx p) =? 0) && (d + unit_of p <? nmin)); [left; split; reflexivity|].
    destruct ((3 * unit_of p <=? d) && (nelz mod (3 * lz p) =? 0) && (d + unit_of p <? nmin)) eqn:C'; [right|left; split; reflexivity].
    apply andb_prop in C'. destruct C' as [C' _]. apply andb_prop in C'. destruct C' as [_ C']. apply Nat.eqb_eq in C'. repeat split. exact C'.
Qed.
Definition even_ok (t : layer) : Prop := 1 <= ly t /\ 1 <= unit_of t /\ (lt t = (-1)%Z \/ ((lt t = 0%Z \/ lt t = 2%Z) /\ exists s, 1 <= s /\ ly t = 2 * s)).
Lemma next3_even nelx nelz nmin p d : even_ok p -> even_ok (next3 nelx nelz nmin p d).
Proof.
  intros (H1 & H2 & H3). destruct (next3_pos nelx nelz nmin p d H2 H1) as [A B]. split; [exact B|]. split; [exact A|]. clear A B.
  unfold next3. destruct ((lt p =? 0)%Z && (d + ly p <? nmin) && (nelz mod (3 * lz p) =? 0)) eqn:C.
  - apply andb_prop in C. destruct C as [C _]. apply andb_prop in C. destruct C as [C _]. apply Z.eqb_eq in C. right. cbn [lt ly]. split; [now right|].
    destruct H3 as [H3|[_ H3]]; [congruence|exact H3].
  - destruct ((3 * unit_of p <=? d) && (nelx mod (3 * lx p) =? 0) && (d + unit_of p <? nmin)); [right; cbn [lt ly]; split; [now left|]; exists (unit_of p); lia|].
    destruct ((3 * unit_of p <=? d) && (nelz mod (3 * lz p) =? 0) && (d + unit_of p <? nmin)); [right; cbn [lt ly]; split; [now right|]; exists (unit_of p); lia|].
    left. reflexivity.
Qed.

Lemma HexFineLayer_init_spec nelx nely nelz h nfine : 1 <= nelx -> 1 <= nely -> 1 <= nelz ->
  exists n wx wz y r, HexFineLayer_init nelx nely nelz h nfine = Some (Ok (HFL_of nelx nelz n wx wz y r h)) /\ greedy3 nelx nely nelz nfine n wx wz y r.
Proof.
  intros Hx Hy Hz. unfold HexFineLayer_init. rewrite init_nmin_eq, init_nfine_eq. set (nmin := (nely + 1) / 2).
  set (nf := Nat.min (nfine / 2 + 1) nmin).
  assert (Hm : 1 <= nmin <= nely).
  { unfold nmin. pose proof (Nat.div_mod (nely + 1) 2 ltac:(lia)). pose proof (Nat.mod_upper_bound (nely + 1) 2 ltac:(lia)). lia. }
  assert (Hf : 1 <= nf <= nmin) by (unfold nf; lia).
  set (ls := layers3 (nely - nf) nelx nelz nmin fine1 nf).
  set (full := repeat fine1 nf ++ ls).
  set (wx := fun d => lx (nth d full fine1)). set (wz := fun d => lz (nth d full fine1)). set (y := fun d => ly (nth d full fine1)). set (r := fun d => lt (nth d full fine1)).
  set (n := nf + length ls).
  assert (Lf : length full = n) by (unfold full; now rewrite app_length, repeat_length).
  assert (Lay : forall d, lay wx wz y r d = nth d full fine1) by (intros d; unfold lay, wx, wz, y, r; destruct (nth d full fine1); reflexivity).
  assert (Fine : forall d, d < nf -> nth d full fine1 = fine1).
  { intros d Hd. unfold full. rewrite app_nth1 by (rewrite repeat_length; lia). apply (nth_error_nth _ _ fine1). now apply nth_error_repeat_lt. }
  assert (Coarse : forall d, nth (nf + d) full fine1 = nth d ls fine1).
  { intros d. unfold full. rewrite app_nth2 by (rewrite repeat_length; lia). rewrite repeat_length. now replace (nf + d - nf) with d by lia. }
  assert (Sums : forall d, d <= length ls -> nsum (nf + d) y = nf + heights3 (firstn d ls)).
  { intros d Hd. unfold y. rewrite <- heights3_nsum by lia. unfold full. rewrite firstn_app, repeat_length.
    rewrite firstn_all2 by (rewrite repeat_length; lia). rewrite heights3_app, heights3_repeat. now replace (nf + d - nf) with d by lia. }
  assert (Step : forall d, nf <= S d -> S d < n -> nsum (S d) y < nmin /\ nth (S d) full fine1 = next3 nelx nelz nmin (nth d full fine1) (nsum (S d) y)).
  { intros d H1 H2. assert (Hi : S d - nf < length ls) by (unfold n in H2; lia).
    destruct (nth_error ls (S d - nf)) as [t|] eqn:En; [|apply nth_error_None in En; lia].
    pose proof (layers3_nth _ _ _ _ _ _ _ _ En) as G. cbv zeta in G. fold ls in G. rewrite <- Sums in G by lia. replace (nf + (S d - nf)) with (S d) in G by lia.
    replace (nth (S d) full fine1) with t.
    2:{ replace (S d) with (nf + (S d - nf)) by lia. rewrite Coarse. symmetry. apply (nth_error_nth _ _ fine1), En. }
    destruct (S d - nf) as [|j] eqn:Ej.
    - rewrite (Fine d) by lia. exact G.
    - replace d with (nf + j) at 2 by lia. rewrite Coarse. exact G. }
  assert (Even : forall d, d < n -> even_ok (nth d full fine1)).
  { induction d as [|d IH]; intros Hd.
    - rewrite Fine by lia. repeat split; cbn; auto; lia.
    - destruct (le_lt_dec nf (S d)) as [H|H].
      + destruct (Step d H Hd) as [_ ->]. apply next3_even, IH. lia.
      + rewrite Fine by assumption. repeat split; cbn; auto; lia. }
  assert (HL : layered3 nelx nelz n wx wz y r).
  { constructor.
    - constructor; auto; [unfold n; lia|unfold wx; rewrite Fine by lia; reflexivity|unfold rx, isx, r; rewrite Fine by lia; reflexivity|].
      intros d Hd. cbn [fh]. change (rx r (S d)) with (isx (lt (nth (S d) full fine1))). change (wx (S d)) with (lx (nth (S d) full fine1)). change (wx d) with (lx (nth d full fine1)).
      destruct (le_lt_dec nf (S d)) as [H|H].
      + destruct (Step d H Hd) as [_ ->]. destruct (next3_x nelx nelz nmin (nth d full fine1) (nsum (S d) y)) as [(-> & ->)|(-> & -> & E)]; [left|right]; repeat split. exact E.
      + left. rewrite (Fine (S d)), (Fine d) by lia. repeat split.
    - constructor; auto; [unfold n; lia|unfold wz; rewrite Fine by lia; reflexivity|unfold rz, isz, r; rewrite Fine by lia; reflexivity|].
      intros d Hd. cbn [fh]. change (rz r (S d)) with (isz (lt (nth (S d) full fine1))). change (wz (S d)) with (lz (nth (S d) full fine1)). change (wz d) with (lz (nth d full fine1)).
      destruct (le_lt_dec nf (S d)) as [H|H].
      + destruct (Step d H Hd) as [_ ->]. destruct (next3_z nelx nelz nmin (nth d full fine1) (nsum (S d) y)) as [(-> & ->)|(-> & -> & E)]; [left|right]; repeat split. exact E.
      + left. rewrite (Fine (S d)), (Fine d) by lia. repeat split.
    - unfold y. rewrite Fine by lia. reflexivity.
    - intros d Hd. apply (Even d Hd).
    - intros d Hd. apply (Even d Hd). }
  exists n, wx, wz, y, r. split.
  - destruct (init_loop3_spec nelx nelz nmin nely ltac:(lia) (S nely) nf (repeat 1 nf) (repeat 1 nf) (repeat 1 nf) (repeat (-1)%Z nf) fine1 nf) as (s & E & (qx & qy & qz & qr & Q1 & Q2 & Q3 & Q4) & _);
      try (rewrite repeat_length; reflexivity); try lia; try reflexivity.
    unfold st3 in E. cbn [fine1 lx lz unit_of lt ly Z.eqb Pos.eqb] in E. rewrite <- !repeat_app in E. replace (nf + (nely - nf)) with nely in E by lia.
    fold fine1 in E. rewrite E. fold ls. fold n.
    assert (Rp : forall A (f : layer -> A), map f full = repeat (f fine1) nf ++ map f ls).
    { intros A f. unfold full. now rewrite map_app, map_repeat'. }
    rewrite (finish3_spec nelx nelz n wx wz y r HL h s qx qy qz qr); [reflexivity| | | |].
    + rewrite Q1, app_assoc. f_equal. fold ls. change (repeat 1 nf) with (repeat (lx fine1) nf). rewrite <- (Rp _ lx), <- Lf. apply map_tab1.
    + rewrite Q2, app_assoc. f_equal. fold ls. change (repeat 1 nf) with (repeat (ly fine1) nf). rewrite <- (Rp _ ly), <- Lf. apply map_tab1.
    + rewrite Q3, app_assoc. f_equal. fold ls. change (repeat 1 nf) with (repeat (lz fine1) nf). rewrite <- (Rp _ lz), <- Lf. apply map_tab1.
    + rewrite Q4, app_assoc. f_equal. fold ls. change (repeat (-1)%Z nf) with (repeat (lt fine1) nf). rewrite <- (Rp _ lt), <- Lf. apply map_tab1.
  - assert (Hnf : forall d, 2 * d <= nfine -> d < n -> d < nf).
    { intros d Hd Hn. destruct (le_lt_dec (nfine / 2 + 1) nmin) as [Q|Q].
      - pose proof (Nat.div_mod nfine 2 ltac:(lia)). pose proof (Nat.mod_upper_bound nfine 2 ltac:(lia)). unfold nf. lia.
      - assert (En : nf = nmin) by (unfold nf; lia). unfold n in Hn. enough (length ls = 0) by lia. unfold ls. rewrite (layers3_stop nelx nelz nmin nely); [reflexivity|lia|right; lia]. }
    assert (Hnf' : forall d, nfine < 2 * d -> nf <= d).
    { intros d Hd. pose proof (Nat.div_mod nfine 2 ltac:(lia)). pose proof (Nat.mod_upper_bound nfine 2 ltac:(lia)). unfold nf. lia. }
    constructor; [exact HL| | | |].
    + intros d Hd Hd'. rewrite Lay. apply Fine. auto.
    + intros d Hd Hd'. fold nmin. rewrite !Lay. apply Step; auto.
    + fold nmin. unfold n. rewrite Sums by lia. rewrite firstn_all. apply layers3_height; [apply le_n|apply le_n|lia].
    + fold nmin. destruct (length ls) as [|k] eqn:El.
      * replace (n - 1) with (nf - 1) by (unfold n; lia).
        assert (G : forall k, k <= nf -> nsum k y = k).
        { induction k as [|k IH]; intros Hk; [reflexivity|]. cbn. rewrite IH by lia. unfold y. rewrite Fine by lia. cbn. lia. }
        rewrite G by lia. lia.
      * replace (n - 1) with (S (nf + k - 1)) by (unfold n; lia).
        apply (Step (nf + k - 1)); unfold n; lia.
Qed.
