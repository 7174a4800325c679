(** Proofs for Prop_ConformHex.v *)
From Coq Require Import Reals Lra Lia List Arith.
From Verif Require Import Base Spec Spec3d Spec_Vector Model_Hex8Regular Model_Regular2d Proof_Regular2d Proof_Hex8Regular Spec_HexMesh Proof_ElementHex8 Proof_HexGrid Proof_HexBody Spec_ConformHex.
Import ListNotations.
Local Open Scope nat_scope.

Section H.
Variable m : HexRegular.
Notation nx := (hx_nelx m). Notation ny := (hx_nely m). Notation nz := (hx_nelz m). Notation h := (hx_h m).
Notation N := (N3 m). Notation E := (E3 m). Notation C := (hex_conn m).
Hypothesis Hh : (0 < h)%R.
Hypothesis X1 : 1 <= nx. Hypothesis Y1 : 1 <= ny. Hypothesis Z1 : 1 <= nz.

Definition bnd : list (list nat) := [nodesFront m; nodesBack m; nodesLeft m; nodesRight m; nodesBottom m; nodesTop m].

Lemma row ix iy iz : ix < nx -> iy < ny -> iz < nz -> nth (E ix iy iz) C [] =
  [N ix iy iz; N (ix+1) iy iz; N (ix+1) (iy+1) iz; N ix (iy+1) iz; N ix iy (iz+1); N (ix+1) iy (iz+1); N (ix+1) (iy+1) (iz+1); N ix (iy+1) (iz+1)].
Proof. intros Hx Hy Hz. unfold E3. now rewrite (nth_error_nth _ _ [] (hex_conn_at m ix iy iz Hx Hy Hz)). Qed.
Lemma len : length C = hex_nelem m.
Proof. apply hex_conn_shape. Qed.
Lemma has ix iy iz a b c : ix < nx -> iy < ny -> iz < nz -> a <= nx -> b <= ny ->
  (In (N a b c) (nth (E ix iy iz) C []) <-> ix <= a <= ix + 1 /\ iy <= b <= iy + 1 /\ iz <= c <= iz + 1).
Proof.
  intros Hx Hy Hz Ha Hb. rewrite row by assumption. split.
  - intros H. cbn [In] in H. repeat match type of H with _ \/ _ => destruct H as [H|H] end; try contradiction; apply N3_inj in H; try lia.
  - intros (Ka & Kb & Kc). cbn [In].
    assert (Qa : a = ix \/ a = ix + 1) by lia. assert (Qb : b = iy \/ b = iy + 1) by lia. assert (Qc : c = iz \/ c = iz + 1) by lia.
    destruct Qa as [-> | ->], Qb as [-> | ->], Qc as [-> | ->]; tauto.
Qed.
(** coordinate [s / 2] of the boundary sets *)
Definition on (s a b c : nat) : Prop := match s with 0 => c = 0 | 1 => c = nz | 2 => a = 0 | 3 => a = nx | 4 => b = 0 | _ => b = ny end.
Lemma bnd_iff s a b c : s < 6 -> a <= nx -> b <= ny -> c <= nz -> (In (N a b c) (nth s bnd []) <-> on s a b c).
Proof.
  intros Hs La Lb Lc. pose proof (hex_faces m Hh) as F. cbv zeta in F. apply Forall_inv in F as F1. apply Forall_inv_tail in F. apply Forall_inv in F as F2. apply Forall_inv_tail in F. apply Forall_inv in F as F3. apply Forall_inv_tail in F.
  apply Forall_inv in F as F4. apply Forall_inv_tail in F. apply Forall_inv in F as F5. apply Forall_inv_tail in F. apply Forall_inv in F as F6. cbn [fst snd] in *.
  pose proof (hex_coor_at m a b c La Lb Lc) as P.
  assert (Q : forall l (pr : R -> R -> R -> Prop), lists_nodes3 (hex_coor m) l pr -> (In (N a b c) l <-> pr (h * INR a)%R (h * INR b)%R (h * INR c)%R)).
  { intros l pr [_ HL]. rewrite HL. split; [|intros; eauto]. intros (u & v & w & Hn & Hp). destruct (node_at3_fun _ _ _ _ _ _ _ _ P Hn) as (-> & -> & ->). exact Hp. }
  destruct s as [|[|[|[|[|[|]]]]]]; [| | | | | |lia]; cbn [nth bnd on]; [rewrite (Q _ _ F1)|rewrite (Q _ _ F2)|rewrite (Q _ _ F3)|rewrite (Q _ _ F4)|rewrite (Q _ _ F5)|rewrite (Q _ _ F6)];
    rewrite <- ?(cx_0 m) by exact Hh; rewrite <- ?(cx_eq m) by exact Hh; tauto.
Qed.
Lemma bnd_in s n : s < 6 -> In n (nth s bnd []) -> exists a b c, a <= nx /\ b <= ny /\ c <= nz /\ n = N a b c.
Proof.
  intros Hs H. apply N3_surj. pose proof (hex_faces m Hh) as F. cbv zeta in F.
  assert (Q : forall l (pr : R -> R -> R -> Prop), lists_nodes3 (hex_coor m) l pr -> In n l -> n < hex_nnode m).
  { intros l pr [_ HL] Hn. apply HL in Hn. destruct Hn as (u & v & w & Hn & _). rewrite <- (proj1 (hex_coor_shape m)). apply nth_error_Some. unfold node_at3 in Hn. congruence. }
  apply Forall_inv in F as F1. apply Forall_inv_tail in F. apply Forall_inv in F as F2. apply Forall_inv_tail in F. apply Forall_inv in F as F3. apply Forall_inv_tail in F.
  apply Forall_inv in F as F4. apply Forall_inv_tail in F. apply Forall_inv in F as F5. apply Forall_inv_tail in F. apply Forall_inv in F as F6. cbn [fst snd] in *.
  destruct s as [|[|[|[|[|[|]]]]]]; [| | | | | |lia]; cbn [nth bnd] in H; eauto.
Qed.
(** the element across side [s], if there is one *)
Definition next (s ix iy iz : nat) : nat * nat * nat :=
  match s with 0 => (ix, iy, iz - 1) | 1 => (ix, iy, iz + 1) | 2 => (ix - 1, iy, iz) | 3 => (ix + 1, iy, iz) | 4 => (ix, iy - 1, iz) | _ => (ix, iy + 1, iz) end.
Definition inner (s ix iy iz : nat) : Prop := match s with 0 => 0 < iz | 1 => iz + 1 < nz | 2 => 0 < ix | 3 => ix + 1 < nx | 4 => 0 < iy | _ => iy + 1 < ny end.
Definition opp (s : nat) : nat := match s with 0 => 1 | 1 => 0 | 2 => 3 | 3 => 2 | 4 => 5 | _ => 4 end.
Notation EE t := (let '(a, b, c) := t in E a b c).

Lemma common s ix iy iz : s < 6 -> ix < nx -> iy < ny -> iz < nz -> inner s ix iy iz -> EE (next s ix iy iz) < hex_nelem m /\ common_side C (E ix iy iz) s (EE (next s ix iy iz)) (opp s).
Proof.
  intros Hs Hx Hy Hz I. destruct s as [|[|[|[|[|[|]]]]]]; [| | | | | |lia]; cbn [next inner opp] in *; (split; [apply E3_lt; lia|]); unfold common_side, side; rewrite !row by lia; cbn [hex_sides nth map rev app];
    rewrite ?Nat.sub_add by lia.
  all: first [exists 3; reflexivity|exists 1; reflexivity|exists 0; reflexivity|exists 2; reflexivity].
Qed.
Lemma next_cell s ix iy iz : s < 6 -> ix < nx -> iy < ny -> iz < nz -> inner s ix iy iz -> exists jx jy jz, next s ix iy iz = (jx, jy, jz) /\ jx < nx /\ jy < ny /\ jz < nz /\ (jx <> ix \/ jy <> iy \/ jz <> iz).
Proof.
  intros Hs Hx Hy Hz I. destruct s as [|[|[|[|[|[|]]]]]]; [| | | | | |lia]; cbn [next inner] in *; do 3 eexists; (split; [reflexivity|]); lia.
Qed.
Lemma E3_inj ix iy iz jx jy jz : ix < nx -> iy < ny -> jx < nx -> jy < ny -> E ix iy iz = E jx jy jz -> ix = jx /\ iy = jy /\ iz = jz.
Proof.
  unfold E3. intros H1 H2 H3 H4 Q. apply grid_inj in Q; [|nia|nia]. destruct Q as [-> Q]. apply grid_inj in Q; [|lia|lia]. tauto.
Qed.
Lemma side_in s ix iy iz jx jy jz : s < 6 -> ix < nx -> iy < ny -> iz < nz -> jx < nx -> jy < ny -> jz < nz -> incl (side C (E ix iy iz) s) (nth (E jx jy jz) C []) ->
  (jx = ix /\ jy = iy /\ jz = iz) \/ (inner s ix iy iz /\ (jx, jy, jz) = next s ix iy iz).
Proof.
  intros Hs Hx Hy Hz Kx Ky Kz I.
  assert (Q : forall k, In k (nth s hex_sides []) -> In (nth k (nth (E ix iy iz) C []) 0) (nth (E jx jy jz) C [])) by (intros k Hk; apply I; unfold side; now apply (in_map (fun k => nth k (nth (E ix iy iz) C []) 0))).
  rewrite (row ix iy iz Hx Hy Hz) in Q.
  destruct s as [|[|[|[|[|[|]]]]]]; [| | | | | |lia]; cbn [hex_sides nth In] in Q; cbn [next inner].
  - pose proof (Q 0 ltac:(tauto)) as A. pose proof (Q 2 ltac:(tauto)) as B. cbn [nth] in A, B. apply has in A, B; try lia. destruct (Nat.eq_dec jz iz); [left; lia|right]. split; [lia|]. repeat f_equal; lia.
  - pose proof (Q 4 ltac:(tauto)) as A. pose proof (Q 6 ltac:(tauto)) as B. cbn [nth] in A, B. apply has in A, B; try lia. destruct (Nat.eq_dec jz iz); [left; lia|right]. split; [lia|]. repeat f_equal; lia.
  - pose proof (Q 0 ltac:(tauto)) as A. pose proof (Q 7 ltac:(tauto)) as B. cbn [nth] in A, B. apply has in A, B; try lia. destruct (Nat.eq_dec jx ix); [left; lia|right]. split; [lia|]. repeat f_equal; lia.
  - pose proof (Q 1 ltac:(tauto)) as A. pose proof (Q 6 ltac:(tauto)) as B. cbn [nth] in A, B. apply has in A, B; try lia. destruct (Nat.eq_dec jx ix); [left; lia|right]. split; [lia|]. repeat f_equal; lia.
  - pose proof (Q 0 ltac:(tauto)) as A. pose proof (Q 5 ltac:(tauto)) as B. cbn [nth] in A, B. apply has in A, B; try lia. destruct (Nat.eq_dec jy iy); [left; lia|right]. split; [lia|]. repeat f_equal; lia.
  - pose proof (Q 3 ltac:(tauto)) as A. pose proof (Q 6 ltac:(tauto)) as B. cbn [nth] in A, B. apply has in A, B; try lia. destruct (Nat.eq_dec jy iy); [left; lia|right]. split; [lia|]. repeat f_equal; lia.
Qed.
(** the nodes of a side, by coordinates *)
Lemma side_nodes s ix iy iz n : s < 6 -> ix < nx -> iy < ny -> iz < nz -> (In n (side C (E ix iy iz) s) <->
  exists a b c, n = N a b c /\ ix <= a <= ix + 1 /\ iy <= b <= iy + 1 /\ iz <= c <= iz + 1 /\
    match s with 0 => c = iz | 1 => c = iz + 1 | 2 => a = ix | 3 => a = ix + 1 | 4 => b = iy | _ => b = iy + 1 end).
Proof.
  intros Hs Hx Hy Hz. unfold side. rewrite row by assumption. split.
  - intros H. destruct s as [|[|[|[|[|[|]]]]]]; [| | | | | |lia]; cbn [hex_sides nth map In] in H; repeat match type of H with _ \/ _ => destruct H as [<-|H] end; try contradiction; do 3 eexists; (split; [reflexivity|lia]).
  - intros (a & b & c & -> & Ka & Kb & Kc & K).
    assert (Qa : a = ix \/ a = ix + 1) by lia. assert (Qb : b = iy \/ b = iy + 1) by lia. assert (Qc : c = iz \/ c = iz + 1) by lia. clear Ka Kb Kc.
    destruct s as [|[|[|[|[|[|]]]]]]; [| | | | | |lia]; cbn [hex_sides nth map In]; subst; try (destruct Qa as [-> | ->]); try (destruct Qb as [-> | ->]); try (destruct Qc as [-> | ->]); tauto.
Qed.

Theorem conforming : conforming_hex C bnd.
Proof.
  split.
  - intros e He. rewrite len in He. destruct (E3_surj m e He) as (ix & iy & iz & Hx & Hy & Hz & ->). rewrite row by assumption. split; [reflexivity|].
    repeat (constructor; [intros F; cbn [In] in F; repeat (destruct F as [F|F]; [apply N3_inj in F; lia|]); exact F|]). constructor.
  - intros e s He Hs. rewrite len in *. destruct (E3_surj m e He) as (ix & iy & iz & Hx & Hy & Hz & ->).
    assert (D : inner s ix iy iz \/ (~ inner s ix iy iz /\ match s with 0 => iz = 0 | 1 => iz + 1 = nz | 2 => ix = 0 | 3 => ix + 1 = nx | 4 => iy = 0 | _ => iy + 1 = ny end)).
    { destruct s as [|[|[|[|[|[|]]]]]]; cbn [inner]; lia. }
    destruct D as [I|[I B]].
    + right. split.
      * intros b Hb Q. assert (G : exists t, t < 6 /\ b = nth t bnd []). { apply In_nth with (d := []) in Hb. destruct Hb as (t & Ht & <-). exists t. split; [exact Ht|reflexivity]. }
        destruct G as (t & Ht & ->).
        assert (P : forall a b c, ix <= a <= ix + 1 -> iy <= b <= iy + 1 -> iz <= c <= iz + 1 -> match s with 0 => c = iz | 1 => c = iz + 1 | 2 => a = ix | 3 => a = ix + 1 | 4 => b = iy | _ => b = iy + 1 end -> on t a b c).
        { intros a b c Ka Kb Kc K. apply bnd_iff; [exact Ht|lia|lia|lia|]. apply Q. apply side_nodes; try assumption. exists a, b, c. auto. }
        clear Q Hb.
        destruct s as [|[|[|[|[|[|]]]]]]; [| | | | | |lia]; cbn [inner] in I;
        [ pose proof (P ix iy iz ltac:(lia) ltac:(lia) ltac:(lia) eq_refl); pose proof (P (ix+1) (iy+1) iz ltac:(lia) ltac:(lia) ltac:(lia) eq_refl)
        | pose proof (P ix iy (iz+1) ltac:(lia) ltac:(lia) ltac:(lia) eq_refl); pose proof (P (ix+1) (iy+1) (iz+1) ltac:(lia) ltac:(lia) ltac:(lia) eq_refl)
        | pose proof (P ix iy iz ltac:(lia) ltac:(lia) ltac:(lia) eq_refl); pose proof (P ix (iy+1) (iz+1) ltac:(lia) ltac:(lia) ltac:(lia) eq_refl)
        | pose proof (P (ix+1) iy iz ltac:(lia) ltac:(lia) ltac:(lia) eq_refl); pose proof (P (ix+1) (iy+1) (iz+1) ltac:(lia) ltac:(lia) ltac:(lia) eq_refl)
        | pose proof (P ix iy iz ltac:(lia) ltac:(lia) ltac:(lia) eq_refl); pose proof (P (ix+1) iy (iz+1) ltac:(lia) ltac:(lia) ltac:(lia) eq_refl)
        | pose proof (P ix (iy+1) iz ltac:(lia) ltac:(lia) ltac:(lia) eq_refl); pose proof (P (ix+1) (iy+1) (iz+1) ltac:(lia) ltac:(lia) ltac:(lia) eq_refl) ];
        destruct t as [|[|[|[|[|[|]]]]]]; cbn [on] in *; lia.
      * destruct (common s ix iy iz Hs Hx Hy Hz I) as [L K]. destruct (next_cell s ix iy iz Hs Hx Hy Hz I) as (jx & jy & jz & En & Jx & Jy & Jz & Ne). rewrite En in L, K.
        exists (E jx jy jz), (opp s). split; [exact L|]. split; [intros Q; apply E3_inj in Q; lia|]. split; [destruct s as [|[|[|[|[|]]]]]; cbn; lia|]. split; [exact K|].
        intros g Hg Q. destruct (E3_surj m g Hg) as (kx & ky & kz & Kx & Ky & Kz & ->). apply side_in in Q; try assumption. destruct Q as [(-> & -> & ->)|[_ Q]]; [now left|right]. rewrite En in Q. now injection Q as -> -> ->.
    + left. split.
      * intros n Hn. apply side_nodes in Hn; try assumption. destruct Hn as (a & b & c & -> & Ka & Kb & Kc & K). apply bnd_iff; try lia.
        destruct s as [|[|[|[|[|[|]]]]]]; cbn [on]; lia.
      * intros f Hf Q. destruct (E3_surj m f Hf) as (kx & ky & kz & Kx & Ky & Kz & ->). apply side_in in Q; try assumption. destruct Q as [(-> & -> & ->)|[Q _]]; [reflexivity|contradiction].
  - intros s n Hs Hn. rewrite len. destruct (bnd_in s n Hs Hn) as (a & b & c & La & Lb & Lc & ->). apply bnd_iff in Hn; try assumption.
    set (p := fun a n => if a =? n then a - 1 else a).
    assert (R : forall a n, 1 <= n -> a <= n -> p a n < n /\ p a n <= a <= p a n + 1 /\ (a = 0 -> p a n = 0) /\ (a = n -> p a n + 1 = n)).
    { intros u n U1 U2. unfold p. destruct (Nat.eqb_spec u n); lia. }
    destruct (R a nx X1 La) as (A1 & A2 & A3 & A4). destruct (R b ny Y1 Lb) as (B1 & B2 & B3 & B4). destruct (R c nz Z1 Lc) as (C1 & C2 & C3 & C4).
    exists (E (p a nx) (p b ny) (p c nz)). split; [apply E3_lt; assumption|]. split.
    + apply side_nodes; try assumption. exists a, b, c. split; [reflexivity|]. destruct s as [|[|[|[|[|[|]]]]]]; cbn [on] in Hn; lia.
    + intros n' Hn'. apply side_nodes in Hn'; try assumption. destruct Hn' as (a' & b' & c' & -> & Ka & Kb & Kc & K). apply bnd_iff; try lia. destruct s as [|[|[|[|[|[|]]]]]]; cbn [on] in *; lia.
Qed.

Lemma joined_walk : forall d ix iy iz jx jy jz, ix < nx -> iy < ny -> iz < nz -> jx < nx -> jy < ny -> jz < nz ->
  (jx - ix) + (ix - jx) + ((jy - iy) + (iy - jy)) + ((jz - iz) + (iz - jz)) = d -> joined_hex C (E ix iy iz) (E jx jy jz).
Proof.
  induction d as [|d IH]; intros ix iy iz jx jy jz Hx Hy Hz Kx Ky Kz Q.
  - replace jx with ix by lia. replace jy with iy by lia. replace jz with iz by lia. constructor.
  - assert (S : exists s kx ky kz, s < 6 /\ kx < nx /\ ky < ny /\ kz < nz /\ inner s kx ky kz /\ next s kx ky kz = (jx, jy, jz) /\ (kx - ix) + (ix - kx) + ((ky - iy) + (iy - ky)) + ((kz - iz) + (iz - kz)) = d).
    { destruct (lt_eq_lt_dec ix jx) as [[L|L]|L]; [exists 3, (jx - 1), jy, jz| |exists 2, (jx + 1), jy, jz]; try (cbn [inner next]; repeat split; try lia; repeat f_equal; lia).
      destruct (lt_eq_lt_dec iy jy) as [[L'|L']|L']; [exists 5, jx, (jy - 1), jz| |exists 4, jx, (jy + 1), jz]; try (cbn [inner next]; repeat split; try lia; repeat f_equal; lia).
      destruct (lt_eq_lt_dec iz jz) as [[M|M]|M]; [exists 1, jx, jy, (jz - 1)|lia|exists 0, jx, jy, (jz + 1)]; cbn [inner next]; repeat split; try lia; repeat f_equal; lia. }
    destruct S as (s & kx & ky & kz & Hs & Lx & Ly & Lz & I & En & D). destruct (common s kx ky kz Hs Lx Ly Lz I) as [L K]. rewrite En in L, K.
    apply (jh_step _ _ (E kx ky kz) _ s (opp s)); [now apply IH|rewrite len; exact L|exact Hs|destruct s as [|[|[|[|[|]]]]]; cbn; lia|exact K].
Qed.
Theorem joined e f : e < length C -> f < length C -> joined_hex C e f.
Proof.
  rewrite len. intros He Hf. destruct (E3_surj m e He) as (ix & iy & iz & Hx & Hy & Hz & ->). destruct (E3_surj m f Hf) as (jx & jy & jz & Kx & Ky & Kz & ->). now eapply joined_walk.
Qed.
End H.
