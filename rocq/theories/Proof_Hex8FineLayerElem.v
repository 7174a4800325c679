(** The elements of Hex8::FineLayer. *)
From Coq Require Import Reals ZArith Lra.
From Verif Require Import Base Spec Spec3d Model_Numbering Model_Regular2d Model_FineLayer Model_Hex8Regular Model_Hex8FineLayer
  Proof_Vector Proof_Regular2d Proof_Hex8Regular Proof_FineLayer Proof_FineLayerMesh Proof_Hex8FineLayer Proof_Hex8FineLayerMesh.

Lemma eq_cons {A} (a b : A) l l' : a = b -> l = l' -> a :: l = b :: l'.
Proof. now intros -> ->. Qed.

Lemma dir_geo nelx n w y r (HL : layered nelx n w y r) iy : iy < L n ->
  (Rf n r iy = false /\ WN n w iy = W n w iy /\ WN n w (iy + 1) = W n w iy /\ NN nelx n w iy = NX nelx n w iy + 1 /\ NN nelx n w (iy + 1) = NX nelx n w iy + 1) \/
  (Rf n r iy = true /\ exists s, 1 <= s /\ W n w iy = 3 * s /\
    ((iy < n - 1 /\ WN n w iy = 3 * s /\ WN n w (iy + 1) = s /\ NN nelx n w iy = NX nelx n w iy + 1 /\ NN nelx n w (iy + 1) = 3 * NX nelx n w iy + 1) \/
     (n - 1 < iy /\ WN n w iy = s /\ WN n w (iy + 1) = 3 * s /\ NN nelx n w iy = 3 * NX nelx n w iy + 1 /\ NN nelx n w (iy + 1) = NX nelx n w iy + 1))).
Proof.
  intros H. pose proof (NN_low _ _ _ _ _ HL iy) as A. pose proof (NN_next _ _ _ _ _ HL iy) as B. pose proof (NN_top' _ _ _ _ _ HL iy) as C. pose proof (NN_up _ _ _ _ _ HL iy) as D.
  destruct (WN_layer _ _ _ _ _ HL iy H) as [(E & E1 & E2 & _)|(E & s & Hs & E1 & _ & [(F & F1 & F2)|(F & F1 & F2)])]; rewrite E in *.
  - left. split; [reflexivity|]. split; [exact E1|]. split; [exact E2|]. split; [destruct (le_lt_dec n iy); [apply D; lia|apply A; lia]|].
    destruct (le_lt_dec (n - 1) iy); [apply C; lia|apply B; lia].
  - right. split; [reflexivity|]. exists s. split; [exact Hs|]. split; [exact E1|]. left. split; [exact F|]. split; [exact F1|]. split; [exact F2|]. split; [apply A; lia|apply B; lia].
  - right. split; [reflexivity|]. exists s. split; [exact Hs|]. split; [exact E1|]. right. split; [exact F|]. split; [exact F1|]. split; [exact F2|]. split; [apply D; lia|apply C; lia].
Qed.

(** the local positions of the corners *)
Definition vlow (a v : nat) : Prop := (v = 0 /\ (a = 0 \/ a = 3)) \/ (v = 1 /\ (a = 1 \/ a = 2)) \/ (v = 2 /\ (a = 0 \/ a = 1 \/ a = 2 \/ a = 3)).
Definition vup (a v : nat) : Prop := (v = 0 /\ (a = 0 \/ a = 1 \/ a = 2 \/ a = 3)) \/ (v = 1 /\ (a = 1 \/ a = 2)) \/ (v = 2 /\ (a = 0 \/ a = 3)).
Definition v01 (a : nat) : Prop := a = 0 \/ a = 1.

Section Elem.
Variables (nelx nelz n : nat) (wx wz y : nat -> nat) (r : nat -> Z) (h : R).
Hypothesis HL : layered3 nelx nelz n wx wz y r.
Notation HX := (l3_x _ _ _ _ _ _ _ HL).
Notation HZ := (l3_z _ _ _ _ _ _ _ HL).
Notation Wx := (W n wx).
Notation Wz := (W n wz).
Notation WNx := (WN n wx).
Notation WNz := (WN n wz).
Notation Hy := (Hy n y).
Notation Y := (Y n y).
Notation NX := (NX nelx n wx).
Notation NZ := (Proof_FineLayer.NX nelz n wz).
Notation NNx := (NN nelx n wx).
Notation NNz := (NN nelz n wz).
Notation Rx := (Rf n (rx r)).
Notation Rz := (Rf n (rz r)).
Notation L := (L n).
Notation T := (T n r).
Notation NN3 := (NN3 nelx nelz n wx wz).
Notation NE3 := (NE3 nelx nelz n wx wz r).
Notation SN := (SN3 nelx nelz n wx wz r).
Notation SE := (SE3 nelx nelz n wx wz r).
Notation m := (HFL_of nelx nelz n wx wz y r h).
Notation node_case3 := (node_case3 nelx nelz n wx wz y r).

(** sizes of the cells of a block *)
Definition sx (iy : nat) : nat := if Rx iy then Wx iy / 3 else Wx iy.
Definition sz (iy : nat) : nat := if Rz iy then Wz iy / 3 else Wz iy.
Definition sy (iy : nat) : nat := if Rx iy || Rz iy then Hy iy / 2 else Hy iy.
Definition tm3 (iy : nat) : list tmpl3 :=
  if Rx iy then (if iy <? n then lowx else upx) else if Rz iy then (if iy <? n then lowz else upz) else sqs.

(** node at a corner of block (ix, iz) *)
Definition nd (iy ix iz : nat) (t : nat * nat * nat) : nat :=
  let '(u, v, w) := t in
  let bot := SN iy in let mid := SN iy + NN3 iy in let top := SN (iy + 1) in
  if Rx iy then
    if iy <? n then
      match v with
      | 0 => bot + ((ix + u / 3) + (iz + w) * (NX iy + 1))
      | 1 => mid + ((2 * ix + (u - 1)) + (iz + w) * (2 * NX iy))
      | _ => top + ((3 * ix + u) + (iz + w) * (3 * NX iy + 1))
      end
    else
      match v with
      | 0 => bot + ((3 * ix + u) + (iz + w) * (3 * NX iy + 1))
      | 1 => mid + ((2 * ix + (u - 1)) + (iz + w) * (2 * NX iy))
      | _ => top + ((ix + u / 3) + (iz + w) * (NX iy + 1))
      end
  else if Rz iy then
    if iy <? n then
      match v with
      | 0 => bot + ((ix + u) + (iz + w / 3) * (NX iy + 1))
      | 1 => mid + ((ix + u) + (2 * iz + (w - 1)) * (NX iy + 1))
      | _ => top + ((ix + u) + (3 * iz + w) * (NX iy + 1))
      end
    else
      match v with
      | 0 => bot + ((ix + u) + (3 * iz + w) * (NX iy + 1))
      | 1 => mid + ((ix + u) + (2 * iz + (w - 1)) * (NX iy + 1))
      | _ => top + ((ix + u) + (iz + w / 3) * (NX iy + 1))
      end
  else
    match v with
    | 0 => bot + ((ix + u) + (iz + w) * (NX iy + 1))
    | _ => top + ((ix + u) + (iz + w) * (NX iy + 1))
    end.

Definition els (iy iz ix : nat) : list (list nat) := map (fun K => map (nd iy ix iz) (corners3 K)) (tm3 iy).
Definition lconn3 (iy : nat) : list (list nat) := flat_map (fun iz => flat_map (els iy iz) (seq 0 (NX iy))) (seq 0 (NZ iy)).
Definition connl3 : list (list nat) := flat_map lconn3 (seq 0 L).

Lemma layer_conn3_spec iy : iy < L -> layer_conn3 m iy = Ok (lconn3 iy).
Proof.
  intros Hi. pose proof (n_pos _ _ _ _ _ _ _ HL) as Hn. unfold layer_conn3. rewrite (layers_m3 nelx nelz n wx wz y r h), (L_half n).
  cbn [g_startNode g_nnd g_refine g_layer_nelx g_layer_nelz HFL_of]. rewrite !tab1_get by (assumption || (rewrite (L_S _ _ _ _ _ HX); lia)). cbn [bind].
  unfold lconn3, els, tm3.
  destruct (layer_kinds _ _ _ _ _ _ _ HL iy Hi) as [E1 E2 ->|s E1 E2 -> _ _|s E1 E2 -> _ _]; rewrite E1, ?E2; cbn [Z.eqb Pos.eqb andb].
  - apply (f_equal Ok). rewrite forin2_flat. apply flat_map_ext_in'. intros iz _. apply flat_map_ext_in'. intros ix _.
    cbn [map sqs corners3 sq tX fst snd nd]. rewrite E1, E2. apply eq_cons; [repeat (apply eq_cons; [lia|])|]; reflexivity.
  - destruct (Nat.leb_spec iy (n - 1)); destruct (Nat.ltb_spec iy n) as [E|E]; try lia.
    + apply (f_equal Ok). rewrite concat_forin2. apply flat_map_ext_in'. intros iz _. apply flat_map_ext_in'. intros ix _.
      cbn [map lowx lows combine corners3 tX fst snd]. unfold nd. rewrite E1. destruct (Nat.ltb_spec iy n); [|lia].
      cbv [tX tZ]; cbn [Nat.div Nat.divmod fst snd Nat.sub]. repeat (apply eq_cons; [repeat (apply eq_cons; [lia|]); reflexivity|]). reflexivity.
    + destruct (Nat.ltb_spec (n - 1) iy); [|lia]. apply (f_equal Ok). rewrite concat_forin2. apply flat_map_ext_in'. intros iz _. apply flat_map_ext_in'. intros ix _.
      cbn [map upx ups combine corners3 tX fst snd]. unfold nd. rewrite E1. destruct (Nat.ltb_spec iy n); [lia|].
      cbv [tX tZ]; cbn [Nat.div Nat.divmod fst snd Nat.sub]. repeat (apply eq_cons; [repeat (apply eq_cons; [lia|]); reflexivity|]). reflexivity.
  - destruct (Nat.leb_spec iy (n - 1)); destruct (Nat.ltb_spec iy n) as [E|E]; try lia.
    + apply (f_equal Ok). rewrite concat_forin2. apply flat_map_ext_in'. intros iz _. apply flat_map_ext_in'. intros ix _.
      cbn [map lowz lows combine corners3 tZ fst snd]. unfold nd. rewrite E1, E2. destruct (Nat.ltb_spec iy n); [|lia].
      cbv [tX tZ]; cbn [Nat.div Nat.divmod fst snd Nat.sub]. repeat (apply eq_cons; [repeat (apply eq_cons; [lia|]); reflexivity|]). reflexivity.
    + destruct (Nat.ltb_spec (n - 1) iy); [|lia]. apply (f_equal Ok). rewrite concat_forin2. apply flat_map_ext_in'. intros iz _. apply flat_map_ext_in'. intros ix _.
      cbn [map upz ups combine corners3 tZ fst snd]. unfold nd. rewrite E1, E2. destruct (Nat.ltb_spec iy n); [lia|].
      cbv [tX tZ]; cbn [Nat.div Nat.divmod fst snd Nat.sub]. repeat (apply eq_cons; [repeat (apply eq_cons; [lia|]); reflexivity|]). reflexivity.
Qed.

Lemma tm3_length iy : NZ iy * (NX iy * length (tm3 iy)) = NE3 iy.
Proof.
  unfold tm3, Proof_Hex8FineLayer.NE3. destruct (Rx iy); [destruct (iy <? n)|destruct (Rz iy); [destruct (iy <? n)|]];
  cbn [orb length lowx upx lowz upz sqs combine lows ups]; lia.
Qed.
Lemma lconn3_length iy : length (lconn3 iy) = NE3 iy.
Proof.
  unfold lconn3. rewrite <- tm3_length. rewrite (length_flat_map_const _ (NX iy * length (tm3 iy))); [now rewrite seq_length|].
  intros iz _. rewrite (length_flat_map_const _ (length (tm3 iy))); [now rewrite seq_length|]. intros ix _. unfold els. now rewrite map_length.
Qed.
Lemma conn3_spec : g_conn m = Ok connl3.
Proof.
  unfold g_conn. rewrite (layers_m3 nelx nelz n wx wz y r h). rewrite (concatM_Ok _ lconn3).
  2:{ intros i Hi. apply in_seq in Hi. apply layer_conn3_spec. lia. }
  cbn [bind]. apply fill_rows_Ok. cbn [g_nelem HFL_of]. apply length_blocks. intros i _. apply lconn3_length.
Qed.
Lemma connl3_length : length connl3 = SE L.
Proof. apply length_blocks. intros i _. apply lconn3_length. Qed.

Inductive elem_case3 (e iy ix iz : nat) (K : tmpl3) : Prop :=
  | Elem_case3 k : iy < L -> ix < NX iy -> iz < NZ iy -> nth_error (tm3 iy) k = Some K ->
      e = SE iy + (iz * (NX iy * length (tm3 iy)) + (ix * length (tm3 iy) + k)) -> elem_case3 e iy ix iz K.

Lemma elem_cases3 e : e < SE L -> exists iy ix iz K, elem_case3 e iy ix iz K.
Proof.
  intros H. destruct (blocks_split _ _ _ H) as (iy & j & Hi & Hj & E). fold (SE iy) in E. rewrite <- tm3_length in Hj.
  destruct (split2 _ _ _ Hj) as (iz & q & A1 & A2 & A3). destruct (split2 _ _ _ A2) as (ix & k & B1 & B2 & B3).
  destruct (nth_error (tm3 iy) k) as [K|] eqn:EK; [|apply nth_error_None in EK; lia].
  exists iy, ix, iz, K. apply (Elem_case3 _ _ _ _ _ k); auto. rewrite E, A3, B3. lia.
Qed.

Lemma elem_nodes e iy ix iz K : elem_case3 e iy ix iz K -> nth_error connl3 e = Some (map (nd iy ix iz) (corners3 K)).
Proof.
  intros [k Hi Hx Hz Hk ->]. assert (Lk : k < length (tm3 iy)) by (apply nth_error_Some; congruence).
  assert (B1 : ix * length (tm3 iy) + k < NX iy * length (tm3 iy)) by nia.
  unfold connl3, Proof_Hex8FineLayer.SE3. rewrite (nth_blocks _ NE3) by (auto using lconn3_length || (rewrite <- tm3_length; nia)).
  unfold lconn3. rewrite (nth_error_flat_map_const _ (NX iy * length (tm3 iy))).
  2:{ intros j _. rewrite (length_flat_map_const _ (length (tm3 iy))); [now rewrite seq_length|]. intros. unfold els. now rewrite map_length. }
  2: exact B1.
  rewrite nth_error_seq. destruct (Nat.ltb_spec iz (NZ iy)); [|lia]. cbn [Nat.add].
  rewrite (nth_error_flat_map_const _ (length (tm3 iy))) by (exact Lk || (intros; unfold els; now rewrite map_length)).
  rewrite nth_error_seq. destruct (Nat.ltb_spec ix (NX iy)); [|lia]. cbn [Nat.add]. unfold els. now rewrite nth_error_map, Hk.
Qed.

Definition valid (iy : nat) (t : nat * nat * nat) : Prop :=
  let '(u, v, w) := t in
  if Rx iy then v01 w /\ (if iy <? n then vlow u v else vup u v)
  else if Rz iy then v01 u /\ (if iy <? n then vlow w v else vup w v)
  else v01 u /\ v01 v /\ v01 w.
Definition pts (iy : nat) : list (nat * nat * nat) := flat_map corners3 (tm3 iy).

Lemma pts_valid iy t : In t (pts iy) -> valid iy t.
Proof.
  unfold pts, tm3, valid. destruct t as [[u v] w].
  destruct (Rx iy); [destruct (iy <? n)|destruct (Rz iy); [destruct (iy <? n)|]]; intros H;
  cbn [flat_map corners3 lowx upx lowz upz sqs combine lows ups app In tX tZ sq fst snd] in H;
  repeat (let E := fresh in destruct H as [E|H]; [injection E as <- <- <-; cbn [v01 vlow vup]; unfold v01, vlow, vup; auto 10|]); destruct H.
Qed.
Lemma valid_pts iy t : valid iy t -> In t (pts iy).
Proof.
  unfold pts, tm3, valid. destruct t as [[u v] w].
  destruct (Rx iy); [destruct (iy <? n)|destruct (Rz iy); [destruct (iy <? n)|]]; unfold v01, vlow, vup; intros H;
  cbn [flat_map corners3 lowx upx lowz upz sqs combine lows ups app tX tZ sq fst snd];
  repeat match goal with
  | H : _ /\ _ |- _ => destruct H
  | H : _ \/ _ |- _ => destruct H
  end; subst; cbn [In]; repeat (first [left; reflexivity|right]).
Qed.

(** corner [t] of block (ix, iz) of layer [iy] is node [p] *)
Definition corner (p iy ix iz : nat) (t : nat * nat * nat) : Prop :=
  let '(u, v, w) := t in node_case3 p (Wx iy * ix + sx iy * u) (Y iy + sy iy * v) (Wz iy * iz + sz iy * w).

Lemma row_case3 iy ix iz p a b c : iy <= L -> p = SN iy + (ix + iz * NNx iy) -> a = WNx iy * ix -> b = Y iy -> c = WNz iy * iz -> a <= nelx -> c <= nelz -> node_case3 p a b c.
Proof.
  intros Hi -> -> -> -> Ha Hc. apply case3_row; auto.
  - destruct (WN_NN _ _ _ _ _ HX iy Hi) as (k & _ & -> & E & Hw). nia.
  - destruct (WN_NN _ _ _ _ _ HZ iy Hi) as (k & _ & -> & E & Hw). nia.
Qed.

Lemma size_facts iy : iy < L -> 1 <= sx iy /\ 1 <= sy iy /\ 1 <= sz iy /\
  Wx iy = sx iy * (if Rx iy then 3 else 1) /\ Hy iy = sy iy * (if Rx iy || Rz iy then 2 else 1) /\ Wz iy = sz iy * (if Rz iy then 3 else 1).
Proof.
  intros H. unfold sx, sy, sz. pose proof (W_pos _ _ _ _ _ HX iy H). pose proof (W_pos _ _ _ _ _ HZ iy H). pose proof (Hy_pos3 _ _ _ _ _ _ _ HL iy H).
  destruct (layer_kinds _ _ _ _ _ _ _ HL iy H) as [E1 E2 _|t E1 E2 _ Ht Eh|t E1 E2 _ Ht Eh]; rewrite E1, E2; cbn [orb].
  - lia.
  - destruct (Wx_3 _ _ _ _ _ _ _ HL iy H E1) as (s & Hs & Es). rewrite (div3 _ _ Es), (div2 _ _ Eh). lia.
  - destruct (Wz_3 _ _ _ _ _ _ _ HL iy H E2) as (s & Hs & Es). rewrite (div3 _ _ Es), (div2 _ _ Eh). lia.
Qed.

Lemma nd_corner iy ix iz t : iy < L -> ix < NX iy -> iz < NZ iy -> valid iy t -> corner (nd iy ix iz t) iy ix iz t.
Proof.
  destruct t as [[u v] w]. intros Hi Hx Hz V. unfold corner. pose proof (W_NX _ _ _ _ _ HX iy Hi) as EX. pose proof (W_NX _ _ _ _ _ HZ iy Hi) as EZ.
  assert (EY : Y (iy + 1) = Y iy + Hy iy) by (rewrite Nat.add_1_r; reflexivity).
  destruct (size_facts iy Hi) as (P1 & P2 & P3 & F1 & F2 & F3).
  assert (Bx : Wx iy * ix + Wx iy <= nelx) by (rewrite <- EX; nia). assert (Bz : Wz iy * iz + Wz iy <= nelz) by (rewrite <- EZ; nia).
  pose proof (dir_geo _ _ _ _ _ HX iy Hi) as GX. pose proof (dir_geo _ _ _ _ _ HZ iy Hi) as GZ.
  unfold nd, valid in *. destruct (layer_kinds _ _ _ _ _ _ _ HL iy Hi) as [E1 E2 _|q E1 E2 _ Ht Eh|q E1 E2 _ Ht Eh]; rewrite ?E1, ?E2 in *; cbn [orb] in *.
  - destruct GX as [(_ & X1 & X2 & X3 & X4)|(X0 & _)]; [|discriminate]. destruct GZ as [(_ & Z1 & Z2 & Z3 & Z4)|(Z0 & _)]; [|discriminate].
    destruct V as (V1 & V2 & V3). rewrite Nat.mul_1_r in F1, F2, F3. rewrite <- F1, <- F2, <- F3.
    destruct V2 as [-> | ->].
    + apply (row_case3 iy (ix + u) (iz + w)); rewrite ?X3, ?X1, ?Z1; unfold v01 in *; nia.
    + apply (row_case3 (iy + 1) (ix + u) (iz + w)); rewrite ?X4, ?X2, ?Z2; unfold v01 in *; nia.
  - destruct GX as [(X0 & _)|(_ & s & Hs & Es & GX)]; [discriminate|]. destruct GZ as [(_ & Z1 & Z2 & Z3 & Z4)|(Z0 & _)]; [|discriminate].
    assert (Esx : sx iy = s) by lia. assert (Esy : sy iy = q) by lia. assert (Esz : sz iy = Wz iy) by lia. rewrite Esx, Esy, Esz in *. destruct V as [V1 V2].
    assert (Hw : Wz iy * (iz + w) <= nelz) by (unfold v01 in *; nia).
    destruct GX as [(Hc & X1 & X2 & X3 & X4)|(Hc & X1 & X2 & X3 & X4)].
    + destruct (Nat.ltb_spec iy n); [|lia]. destruct V2 as [(-> & V2)|[(-> & V2)|(-> & V2)]].
      * apply (row_case3 iy (ix + u / 3) (iz + w)); rewrite ?X3, ?X1, ?Z1; destruct V2 as [-> | ->]; cbn [Nat.div Nat.divmod fst]; nia.
      * replace (Wx iy * ix + s * u) with (Wx iy * ix + s * (u - 1 + 1)) by (destruct V2 as [-> | ->]; reflexivity). rewrite Nat.mul_1_r, <- Nat.mul_add_distr_l.
        apply (case3_midx _ _ _ _ _ _ _ _ iy ix (u - 1) (iz + w) s q); auto; unfold v01 in *; lia.
      * apply (row_case3 (iy + 1) (3 * ix + u) (iz + w)); rewrite ?X4, ?X2, ?Z2; nia.
    + destruct (Nat.ltb_spec iy n); [lia|]. destruct V2 as [(-> & V2)|[(-> & V2)|(-> & V2)]].
      * apply (row_case3 iy (3 * ix + u) (iz + w)); rewrite ?X3, ?X1, ?Z1; nia.
      * replace (Wx iy * ix + s * u) with (Wx iy * ix + s * (u - 1 + 1)) by (destruct V2 as [-> | ->]; reflexivity). rewrite Nat.mul_1_r, <- Nat.mul_add_distr_l.
        apply (case3_midx _ _ _ _ _ _ _ _ iy ix (u - 1) (iz + w) s q); auto; unfold v01 in *; lia.
      * apply (row_case3 (iy + 1) (ix + u / 3) (iz + w)); rewrite ?X4, ?X2, ?Z2; destruct V2 as [-> | ->]; cbn [Nat.div Nat.divmod fst]; nia.
  - destruct GZ as [(X0 & _)|(_ & s & Hs & Es & GZ)]; [discriminate|]. destruct GX as [(_ & X1 & X2 & X3 & X4)|(Z0 & _)]; [|discriminate].
    assert (Esx : sz iy = s) by lia. assert (Esy : sy iy = q) by lia. assert (Esz : sx iy = Wx iy) by lia. rewrite Esx, Esy, Esz in *. destruct V as [V1 V2].
    assert (Hw : Wx iy * (ix + u) <= nelx) by (unfold v01 in *; nia).
    destruct GZ as [(Hc & Z1 & Z2 & Z3 & Z4)|(Hc & Z1 & Z2 & Z3 & Z4)].
    + destruct (Nat.ltb_spec iy n); [|lia]. destruct V2 as [(-> & V2)|[(-> & V2)|(-> & V2)]].
      * apply (row_case3 iy (ix + u) (iz + w / 3)); rewrite ?X3, ?X1, ?Z1; destruct V2 as [-> | ->]; cbn [Nat.div Nat.divmod fst]; nia.
      * replace (Wz iy * iz + s * w) with (Wz iy * iz + s * (w - 1 + 1)) by (destruct V2 as [-> | ->]; reflexivity). rewrite Nat.mul_1_r, <- Nat.mul_add_distr_l.
        apply (case3_midz _ _ _ _ _ _ _ _ iy iz (w - 1) (ix + u) s q); auto; unfold v01 in *; lia.
      * apply (row_case3 (iy + 1) (ix + u) (3 * iz + w)); rewrite ?X4, ?X2, ?Z2; nia.
    + destruct (Nat.ltb_spec iy n); [lia|]. destruct V2 as [(-> & V2)|[(-> & V2)|(-> & V2)]].
      * apply (row_case3 iy (ix + u) (3 * iz + w)); rewrite ?X3, ?X1, ?Z1; nia.
      * replace (Wz iy * iz + s * w) with (Wz iy * iz + s * (w - 1 + 1)) by (destruct V2 as [-> | ->]; reflexivity). rewrite Nat.mul_1_r, <- Nat.mul_add_distr_l.
        apply (case3_midz _ _ _ _ _ _ _ _ iy iz (w - 1) (ix + u) s q); auto; unfold v01 in *; lia.
      * apply (row_case3 (iy + 1) (ix + u) (iz + w / 3)); rewrite ?X4, ?X2, ?Z2; destruct V2 as [-> | ->]; cbn [Nat.div Nat.divmod fst]; nia.
Qed.
End Elem.
