(** Hex8::Regular tiles its domain without hanging nodes. *)
From Coq Require Import Reals ZArith Lra.
From Verif Require Import Base Spec Spec3d Spec_Element Spec_Tiling3 Model_Numbering Model_Regular2d Model_Hex8Regular Proof_Vector Proof_Regular2d Proof_Hex8Regular
  Proof_RegularTiling Proof_FineLayerMesh Proof_FineLayerTiling Proof_Hex8FineLayerMesh Proof_Tiling3.
Local Open Scope R_scope.

Section Hex.
Variable m : HexRegular.
Notation nx := (hx_nelx m).
Notation ny := (hx_nely m).
Notation nz := (hx_nelz m).
Notation h := (hx_h m).
Notation N3 := (N3 m).
Notation elem ix iy iz := [ N3 ix iy iz; N3 (ix+1) iy iz; N3 (ix+1) (iy+1) iz; N3 ix (iy+1) iz;
    N3 ix iy (iz+1); N3 (ix+1) iy (iz+1); N3 (ix+1) (iy+1) (iz+1); N3 ix (iy+1) (iz+1) ].
Definition hf (ix iy iz : nat) (t : nat * nat * nat) : nat := let '(u, v, w) := t in N3 (ix + u) (iy + v) (iz + w).
Definition ho (ix iy iz j : nat) : R := match j with 0%nat => h * INR ix | 1%nat => h * INR iy | _ => h * INR iz end.

Lemma elem_tmpl ix iy iz : elem ix iy iz = map (hf ix iy iz) (corners3 (KX, sq)).
Proof. cbn [map corners3 sq hf tX fst snd]. now rewrite !Nat.add_0_r. Qed.

Lemma elem_corner ix iy iz t : (ix < nx)%nat -> (iy < ny)%nat -> (iz < nz)%nat -> In t (corners3 (KX, sq)) ->
  node_at3 (hex_coor m) (hf ix iy iz t) (ho ix iy iz 0 + h * tc t 0) (ho ix iy iz 1 + h * tc t 1) (ho ix iy iz 2 + h * tc t 2).
Proof.
  intros Hx Hy Hz Ht. destruct t as [[u v] w]. assert (u <= 1 /\ v <= 1 /\ w <= 1)%nat as (Hu & Hv & Hw).
  { cbn in Ht. repeat (destruct Ht as [E|Ht]; [injection E as <- <- <-; lia|]). destruct Ht. }
  unfold ho, tc, hf. rewrite <- !Rmult_plus_distr_l, <- !plus_INR. apply hex_coor_at; lia.
Qed.

Lemma box_local x i : 0 < h -> exists u, x = h * INR i + h * u.
Proof. intros Hh. exists ((x - h * INR i) / h). field. lra. Qed.
Lemma cell_local i u : 0 < h -> (h * INR i <= h * INR i + h * u <= h * INR (i + 1) <-> 0 <= u <= 1) /\ (h * INR i < h * INR i + h * u < h * INR (i + 1) <-> 0 < u < 1).
Proof. intros Hh. rewrite plus_INR, I1. split; split; intros; nra. Qed.
Lemma tin_sq u v : tin sq u v <-> 0 <= u <= 1 /\ 0 <= v <= 1.
Proof. cbn [tin sq fst snd]. rewrite I0, I1. apply inside_box; lra. Qed.
Lemma tint_sq u v : tint sq u v <-> 0 < u < 1 /\ 0 < v < 1.
Proof. cbn [tint sq fst snd]. rewrite I0, I1. apply strictly_inside_box; lra. Qed.

Lemma hex_box ix iy iz x y z : 0 < h -> (ix < nx)%nat -> (iy < ny)%nat -> (iz < nz)%nat ->
  (in_element3 (hex_coor m) (elem ix iy iz) x y z <->
     (h * INR ix <= x <= h * INR (ix + 1) /\ h * INR iy <= y <= h * INR (iy + 1) /\ h * INR iz <= z <= h * INR (iz + 1))) /\
  (in_interior3 (hex_coor m) (elem ix iy iz) x y z ->
     (h * INR ix < x < h * INR (ix + 1) /\ h * INR iy < y < h * INR (iy + 1) /\ h * INR iz < z < h * INR (iz + 1))).
Proof.
  intros Hh Hx Hy Hz. rewrite elem_tmpl. destruct (box_local x ix Hh) as (u & ->). destruct (box_local y iy Hh) as (v & ->). destruct (box_local z iz Hh) as (w & ->).
  assert (HT : In sq (sq :: lows ++ ups)) by (left; reflexivity).
  pose proof (el_in (hex_coor m) (hf ix iy iz) KX sq (ho ix iy iz) (fun _ => h) HT (fun _ => Hh) (fun t => elem_corner ix iy iz t Hx Hy Hz) u v w) as A.
  pose proof (el_int (hex_coor m) (hf ix iy iz) KX sq (ho ix iy iz) (fun _ => h) HT (fun _ => Hh) (fun t => elem_corner ix iy iz t Hx Hy Hz) u v w) as B.
  unfold tin3, tint3 in A, B. cbn [fst snd ho] in A, B. rewrite tin_sq in A. rewrite tint_sq in B. cbn beta in A, B.
  destruct (cell_local ix u Hh) as [X1 X2], (cell_local iy v Hh) as [Y1 Y2], (cell_local iz w Hh) as [Z1 Z2].
  split; [rewrite A; tauto|]. intros I. apply B in I. tauto.
Qed.

Lemma hex_nth k e : nth_error (hex_conn m) k = Some e -> exists ix iy iz, (ix < nx)%nat /\ (iy < ny)%nat /\ (iz < nz)%nat /\
  k = (iz * (ny * nx) + (iy * nx + ix))%nat /\ e = elem ix iy iz.
Proof.
  intros H. assert (Hk : (k < hex_nelem m)%nat) by (rewrite <- (proj1 (hex_conn_shape m)); apply nth_error_Some; congruence). unfold hex_nelem in Hk.
  assert (0 < nx /\ 0 < ny)%nat as [P1 P2] by nia.
  destruct (grid_split (ny * nx) k) as (iz & r & Hr & ->); [nia|]. destruct (grid_split nx r) as (iy & ix & Hx & ->); [lia|].
  assert (Hy : (iy < ny)%nat) by nia. assert (Hz : (iz < nz)%nat) by nia.
  rewrite hex_conn_at in H by assumption. injection H as <-. exists ix, iy, iz. auto.
Qed.

Lemma HexRegular_tiles : 0 < h -> (1 <= nx)%nat -> (1 <= ny)%nat -> (1 <= nz)%nat -> tiles3 (hex_coor m) (hex_conn m) (h * INR nx) (h * INR ny) (h * INR nz).
Proof.
  intros Hh Hx1 Hy1 Hz1. constructor.
  - intros e He. destruct (hex_in_conn m e He) as (ix & iy & iz & Hx & Hy & Hz & ->). rewrite elem_tmpl.
    apply (el_jac (hex_coor m) (hf ix iy iz) KX sq (ho ix iy iz) (fun _ => h)); [left; reflexivity|auto|]. intros t. now apply elem_corner.
  - intros x y z Hx Hy Hz. destruct (cell_closed h nx x Hh Hx1 Hx) as (ix & Lx & Cx). destruct (cell_closed h ny y Hh Hy1 Hy) as (iy & Ly & Cy). destruct (cell_closed h nz z Hh Hz1 Hz) as (iz & Lz & Cz).
    exists (elem ix iy iz). split; [eapply nth_error_In; now apply hex_conn_at|]. apply hex_box; auto.
  - intros e x y z He I. destruct (hex_in_conn m e He) as (ix & iy & iz & Hx & Hy & Hz & ->). apply hex_box in I; try assumption. destruct I as ([A B] & [C D] & [E F]).
    assert (h * INR (ix + 1) <= h * INR nx) by (apply Rmult_le_compat_l; [lra|]; apply le_INR; lia).
    assert (h * INR (iy + 1) <= h * INR ny) by (apply Rmult_le_compat_l; [lra|]; apply le_INR; lia).
    assert (h * INR (iz + 1) <= h * INR nz) by (apply Rmult_le_compat_l; [lra|]; apply le_INR; lia).
    pose proof (Rmult_le_pos _ _ (Rlt_le _ _ Hh) (pos_INR ix)). pose proof (Rmult_le_pos _ _ (Rlt_le _ _ Hh) (pos_INR iy)). pose proof (Rmult_le_pos _ _ (Rlt_le _ _ Hh) (pos_INR iz)). lra.
  - intros k k' e e' x y z Hk Hk' Hne I I'. destruct (hex_nth k e Hk) as (ix & iy & iz & Hx & Hy & Hz & -> & ->). destruct (hex_nth k' e' Hk') as (ix' & iy' & iz' & Hx' & Hy' & Hz' & -> & ->).
    apply hex_box in I; try assumption. apply hex_box in I'; try assumption. destruct I as (A & B & C), I' as (A' & B' & C'). apply Hne.
    now rewrite (cell_meets h ix ix' x Hh A A'), (cell_meets h iy iy' y Hh B B'), (cell_meets h iz iz' z Hh C C').
  - intros e p x y z He Hp I. destruct (hex_in_conn m e He) as (ix & iy & iz & Hx & Hy & Hz & ->). apply hex_box in I; try assumption. destruct I as (A & B & C).
    apply node_at3_iff in Hp. destruct Hp as (a & b & c & Ha & Hb & Hc & -> & -> & -> & ->). apply cell_node in A; [|assumption]. apply cell_node in B; [|assumption]. apply cell_node in C; [|assumption].
    destruct A as [-> | ->], B as [-> | ->], C as [-> | ->]; cbn [In]; auto 9.
  - intros p Hp. rewrite hex_coor_length in Hp. destruct (N3_surj m p Hp) as (a & b & c & Ha & Hb & Hc & ->).
    assert (Q : forall i n, (i <= n)%nat -> (1 <= n)%nat -> exists j, (j < n)%nat /\ (i = j \/ i = (j + 1)%nat)).
    { intros i n Hi Hn. destruct (Nat.eq_dec i n) as [->|Hne]; [exists (n - 1)%nat; lia|exists i; lia]. }
    destruct (Q a nx Ha Hx1) as (i & Hi & Ei). destruct (Q b ny Hb Hy1) as (j & Hj & Ej). destruct (Q c nz Hc Hz1) as (k & Hk & Ek).
    exists (elem i j k). split; [eapply nth_error_In; now apply hex_conn_at|]. destruct Ei as [-> | ->], Ej as [-> | ->], Ek as [-> | ->]; cbn [In]; auto 9.
Qed.
End Hex.
