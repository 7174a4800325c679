(** Quad4::Regular tiles its domain without hanging nodes. *)
From Coq Require Import Reals ZArith Lra.
From Verif Require Import Base Spec Spec2d Spec_Tiling Model_Numbering Model_Regular2d Proof_Vector Proof_Regular2d.
Local Open Scope R_scope.

Lemma inside_box x0 y0 x1 y1 x y : x0 < x1 -> y0 < y1 -> (inside x0 y0 x1 y0 x1 y1 x0 y1 x y <-> (x0 <= x <= x1 /\ y0 <= y <= y1)).
Proof.
  intros Hx Hy. unfold inside, area2. split.
  - intros (A & B & D & E). repeat split; nra.
  - intros [[A B] [D E]]. repeat split; nra.
Qed.
Lemma strictly_inside_box x0 y0 x1 y1 x y : x0 < x1 -> y0 < y1 -> (strictly_inside x0 y0 x1 y0 x1 y1 x0 y1 x y <-> (x0 < x < x1 /\ y0 < y < y1)).
Proof.
  intros Hx Hy. unfold strictly_inside, area2. split.
  - intros (A & B & D & E). repeat split; nra.
  - intros [[A B] [D E]]. repeat split; nra.
Qed.
Lemma quad_unique X e x0 y0 x1 y1 x2 y2 x3 y3 x0' y0' x1' y1' x2' y2' x3' y3' : quad X e x0 y0 x1 y1 x2 y2 x3 y3 -> quad X e x0' y0' x1' y1' x2' y2' x3' y3' ->
  x0' = x0 /\ y0' = y0 /\ x1' = x1 /\ y1' = y1 /\ x2' = x2 /\ y2' = y2 /\ x3' = x3 /\ y3' = y3.
Proof.
  intros (n0 & n1 & n2 & n3 & -> & A0 & A1 & A2 & A3) (m0 & m1 & m2 & m3 & E & B0 & B1 & B2 & B3). injection E as <- <- <- <-.
  destruct (node_at_fun _ _ _ _ _ _ A0 B0) as [-> ->]. destruct (node_at_fun _ _ _ _ _ _ A1 B1) as [-> ->].
  destruct (node_at_fun _ _ _ _ _ _ A2 B2) as [-> ->]. destruct (node_at_fun _ _ _ _ _ _ A3 B3) as [-> ->]. auto 10.
Qed.
Lemma in_element_box X e x0 y0 x1 y1 x y : quad X e x0 y0 x1 y0 x1 y1 x0 y1 -> x0 < x1 -> y0 < y1 ->
  (in_element X e x y <-> (x0 <= x <= x1 /\ y0 <= y <= y1)) /\ (in_interior X e x y <-> (x0 < x < x1 /\ y0 < y < y1)).
Proof.
  intros Q Hx Hy. rewrite <- inside_box, <- strictly_inside_box by assumption. unfold in_element, in_interior. split; split.
  - intros (a0 & b0 & a1 & b1 & a2 & b2 & a3 & b3 & Q' & I). destruct (quad_unique _ _ _ _ _ _ _ _ _ _ _ _ _ _ _ _ _ _ Q Q') as (-> & -> & -> & -> & -> & -> & -> & ->). exact I.
  - intros I. do 8 eexists. split; [exact Q|exact I].
  - intros (a0 & b0 & a1 & b1 & a2 & b2 & a3 & b3 & Q' & I). destruct (quad_unique _ _ _ _ _ _ _ _ _ _ _ _ _ _ _ _ _ _ Q Q') as (-> & -> & -> & -> & -> & -> & -> & ->). exact I.
  - intros I. do 8 eexists. split; [exact Q|exact I].
Qed.

Lemma cell_closed h n x : 0 < h -> (1 <= n)%nat -> 0 <= x <= h * INR n -> exists i, (i < n)%nat /\ h * INR i <= x <= h * INR (i + 1).
Proof.
  intros Hh Hn [A B]. destruct (Rle_lt_dec (h * INR n) x) as [G|G].
  - exists (n - 1)%nat. split; [lia|]. replace (n - 1 + 1)%nat with n by lia. split; [|assumption]. apply Rle_trans with (2 := G). apply Rmult_le_compat_l; [lra|]. apply le_INR. lia.
  - destruct (cell_floor h n x Hh (conj A G)) as (i & Hi & C & D). exists i. split; [assumption|]. lra.
Qed.
Lemma cell_meets h i j x : 0 < h -> h * INR i < x < h * INR (i + 1) -> h * INR j <= x <= h * INR (j + 1) -> i = j.
Proof.
  intros Hh [A B] [C D]. destruct (Rle_lt_dec (h * INR (j + 1)) x) as [G|G].
  - assert (E : x = h * INR (j + 1)) by lra. subst x. apply Rmult_lt_reg_l in A; [|assumption]. apply Rmult_lt_reg_l in B; [|assumption]. apply INR_lt in A. apply INR_lt in B. lia.
  - apply (cell_unique h i j x Hh); lra.
Qed.
Lemma cell_node h i a : 0 < h -> h * INR i <= h * INR a <= h * INR (i + 1) -> a = i \/ a = (i + 1)%nat.
Proof.
  intros Hh [A B]. apply Rmult_le_reg_l in A; [|assumption]. apply Rmult_le_reg_l in B; [|assumption]. apply INR_le in A. apply INR_le in B. lia.
Qed.

Section Reg.
Variable m : Regular.
Notation nx := (nelx m).
Notation ny := (nely m).
Notation h := (hh m).
Notation elem ix iy := ([ iy * (nx + 1) + ix; iy * (nx + 1) + (ix + 1); (iy + 1) * (nx + 1) + (ix + 1); (iy + 1) * (nx + 1) + ix ]%nat).

Lemma reg_quad ix iy : (ix < nx)%nat -> (iy < ny)%nat ->
  quad (coor m) (elem ix iy) (h * INR ix) (h * INR iy) (h * INR (ix + 1)) (h * INR iy) (h * INR (ix + 1)) (h * INR (iy + 1)) (h * INR ix) (h * INR (iy + 1)).
Proof.
  intros Hx Hy. do 4 eexists. split; [reflexivity|]. unfold node_at. rewrite !coor_at by lia. repeat split.
Qed.
Lemma reg_box ix iy x y : 0 < h -> (ix < nx)%nat -> (iy < ny)%nat ->
  (in_element (coor m) (elem ix iy) x y <-> (h * INR ix <= x <= h * INR (ix + 1) /\ h * INR iy <= y <= h * INR (iy + 1))) /\
  (in_interior (coor m) (elem ix iy) x y <-> (h * INR ix < x < h * INR (ix + 1) /\ h * INR iy < y < h * INR (iy + 1))).
Proof.
  intros Hh Hx Hy. apply in_element_box; [now apply reg_quad| |]; (apply Rmult_lt_compat_l; [assumption|]; apply lt_INR; lia).
Qed.

Lemma reg_nth k e : nth_error (conn m) k = Some e -> exists ix iy, (ix < nx)%nat /\ (iy < ny)%nat /\ k = (iy * nx + ix)%nat /\ e = elem ix iy.
Proof.
  intros H. assert (Hk : (k < nelem m)%nat) by (rewrite <- (proj1 (conn_shape m)); apply nth_error_Some; congruence). unfold nelem in Hk.
  destruct (grid_split nx k) as (iy & ix & Hx & ->); [lia|]. assert (Hy : (iy < ny)%nat) by nia. rewrite conn_at in H by assumption. injection H as <-. eauto 6.
Qed.

Lemma Regular_tiles : 0 < h -> (1 <= nx)%nat -> (1 <= ny)%nat -> tiles (coor m) (conn m) (h * INR nx) (h * INR ny).
Proof.
  intros Hh Hx1 Hy1. constructor.
  - intros e He. destruct (in_conn m e He) as (ix & iy & Hx & Hy & ->). do 8 eexists. split; [now apply reg_quad|].
    assert (h * INR ix < h * INR (ix + 1)) by (apply Rmult_lt_compat_l; [assumption|]; apply lt_INR; lia).
    assert (h * INR iy < h * INR (iy + 1)) by (apply Rmult_lt_compat_l; [assumption|]; apply lt_INR; lia).
    unfold convex_ccw, area2. repeat split; nra.
  - intros x y Hx Hy. destruct (cell_closed h nx x Hh Hx1 Hx) as (ix & Lx & Cx). destruct (cell_closed h ny y Hh Hy1 Hy) as (iy & Ly & Cy).
    exists (elem ix iy). split; [eapply nth_error_In; now apply conn_at|]. apply reg_box; auto.
  - intros e x y He I. destruct (in_conn m e He) as (ix & iy & Hx & Hy & ->). apply reg_box in I; try assumption. destruct I as [[A B] [C D]].
    assert (h * INR (ix + 1) <= h * INR nx) by (apply Rmult_le_compat_l; [lra|]; apply le_INR; lia).
    assert (h * INR (iy + 1) <= h * INR ny) by (apply Rmult_le_compat_l; [lra|]; apply le_INR; lia).
    pose proof (Rmult_le_pos _ _ (Rlt_le _ _ Hh) (pos_INR ix)). pose proof (Rmult_le_pos _ _ (Rlt_le _ _ Hh) (pos_INR iy)). lra.
  - intros k k' e e' x y Hk Hk' Hne I I'. destruct (reg_nth k e Hk) as (ix & iy & Hx & Hy & -> & ->). destruct (reg_nth k' e' Hk') as (ix' & iy' & Hx' & Hy' & -> & ->).
    apply reg_box in I; try assumption. apply reg_box in I'; try assumption. destruct I as [A B], I' as [A' B']. apply Hne.
    now rewrite (cell_meets h ix ix' x Hh A A'), (cell_meets h iy iy' y Hh B B').
  - intros e p x y He Hp I. destruct (in_conn m e He) as (ix & iy & Hx & Hy & ->). apply reg_box in I; try assumption. destruct I as [A B].
    apply node_at_iff in Hp. destruct Hp as (a & b & Ha & Hb & -> & -> & ->). apply cell_node in A; [|assumption]. apply cell_node in B; [|assumption].
    destruct A as [-> | ->], B as [-> | ->]; cbn [In]; auto.
  - intros p Hp. rewrite coor_length in Hp. exact (conn_used m p Hx1 Hy1 Hp).
Qed.
Lemma Regular_distinct p q x y : 0 < h -> node_at (coor m) p x y -> node_at (coor m) q x y -> p = q.
Proof.
  intros Hh Hp Hq. apply node_at_iff in Hp, Hq. destruct Hp as (a & b & Ha & Hb & -> & -> & ->). destruct Hq as (a' & b' & Ha' & Hb' & -> & E1 & E2).
  apply INR_mult_inj in E1; [|assumption]. apply INR_mult_inj in E2; [|assumption]. now subst.
Qed.

(** ** Tri3 *)
Notation n0 ix iy := (iy * (nx + 1) + ix)%nat.
Notation n1 ix iy := (iy * (nx + 1) + (ix + 1))%nat.
Notation n2 ix iy := ((iy + 1) * (nx + 1) + (ix + 1))%nat.
Notation n3 ix iy := ((iy + 1) * (nx + 1) + ix)%nat.
Lemma triangle_unique X e x0 y0 x1 y1 x2 y2 x0' y0' x1' y1' x2' y2' : triangle X e x0 y0 x1 y1 x2 y2 -> triangle X e x0' y0' x1' y1' x2' y2' ->
  x0' = x0 /\ y0' = y0 /\ x1' = x1 /\ y1' = y1 /\ x2' = x2 /\ y2' = y2.
Proof.
  intros (p0 & p1 & p2 & -> & A0 & A1 & A2) (q0 & q1 & q2 & E & B0 & B1 & B2). injection E as <- <- <-.
  destruct (node_at_fun _ _ _ _ _ _ A0 B0) as [-> ->]. destruct (node_at_fun _ _ _ _ _ _ A1 B1) as [-> ->].
  destruct (node_at_fun _ _ _ _ _ _ A2 B2) as [-> ->]. auto 10.
Qed.
Lemma in_triangle_iff X e x0 y0 x1 y1 x2 y2 x y : triangle X e x0 y0 x1 y1 x2 y2 ->
  (in_triangle X e x y <-> (0 <= area2 x0 y0 x1 y1 x y /\ 0 <= area2 x1 y1 x2 y2 x y /\ 0 <= area2 x2 y2 x0 y0 x y)) /\
  (in_triangle_interior X e x y <-> (0 < area2 x0 y0 x1 y1 x y /\ 0 < area2 x1 y1 x2 y2 x y /\ 0 < area2 x2 y2 x0 y0 x y)).
Proof.
  intros Q. unfold in_triangle, in_triangle_interior. split; split.
  - intros (a0 & b0 & a1 & b1 & a2 & b2 & Q' & I). destruct (triangle_unique _ _ _ _ _ _ _ _ _ _ _ _ _ _ Q Q') as (-> & -> & -> & -> & -> & ->). exact I.
  - intros I. do 6 eexists. split; [exact Q|exact I].
  - intros (a0 & b0 & a1 & b1 & a2 & b2 & Q' & I). destruct (triangle_unique _ _ _ _ _ _ _ _ _ _ _ _ _ _ Q Q') as (-> & -> & -> & -> & -> & ->). exact I.
  - intros I. do 6 eexists. split; [exact Q|exact I].
Qed.
Lemma S_INR1 i : INR (i + 1) = INR i + 1. Proof. now rewrite plus_INR. Qed.
Lemma tri_low ix iy : (ix < nx)%nat -> (iy < ny)%nat ->
  triangle (tri_coor m) [n0 ix iy; n1 ix iy; n3 ix iy] (h * INR ix) (h * INR iy) (h * INR (ix + 1)) (h * INR iy) (h * INR ix) (h * INR (iy + 1)).
Proof. intros Hx Hy. rewrite tri_coor_eq. do 3 eexists. split; [reflexivity|]. unfold node_at. rewrite !coor_at by lia. repeat split. Qed.
Lemma tri_upp ix iy : (ix < nx)%nat -> (iy < ny)%nat ->
  triangle (tri_coor m) [n1 ix iy; n2 ix iy; n3 ix iy] (h * INR (ix + 1)) (h * INR iy) (h * INR (ix + 1)) (h * INR (iy + 1)) (h * INR ix) (h * INR (iy + 1)).
Proof. intros Hx Hy. rewrite tri_coor_eq. do 3 eexists. split; [reflexivity|]. unfold node_at. rewrite !coor_at by lia. repeat split. Qed.
Lemma low_box ix iy x y : 0 < h -> (ix < nx)%nat -> (iy < ny)%nat ->
  (in_triangle (tri_coor m) [n0 ix iy; n1 ix iy; n3 ix iy] x y <->
    (h * INR ix <= x <= h * INR (ix + 1) /\ h * INR iy <= y <= h * INR (iy + 1) /\ x + y <= h * INR ix + h * INR iy + h)) /\
  (in_triangle_interior (tri_coor m) [n0 ix iy; n1 ix iy; n3 ix iy] x y <->
    (h * INR ix < x < h * INR (ix + 1) /\ h * INR iy < y < h * INR (iy + 1) /\ x + y < h * INR ix + h * INR iy + h)).
Proof.
  intros Hh Hx Hy. destruct (in_triangle_iff _ _ _ _ _ _ _ _ x y (tri_low ix iy Hx Hy)) as [A B]. rewrite A, B. rewrite !S_INR1. unfold area2.
  generalize (INR ix) (INR iy). intros a b. clear - Hh. split; split.
  - intros (P & Q & T). repeat split; nra.
  - intros ((P & Q) & (T & U) & V). repeat split; nra.
  - intros (P & Q & T). repeat split; nra.
  - intros ((P & Q) & (T & U) & V). repeat split; nra.
Qed.
Lemma upp_box ix iy x y : 0 < h -> (ix < nx)%nat -> (iy < ny)%nat ->
  (in_triangle (tri_coor m) [n1 ix iy; n2 ix iy; n3 ix iy] x y <->
    (h * INR ix <= x <= h * INR (ix + 1) /\ h * INR iy <= y <= h * INR (iy + 1) /\ x + y >= h * INR ix + h * INR iy + h)) /\
  (in_triangle_interior (tri_coor m) [n1 ix iy; n2 ix iy; n3 ix iy] x y <->
    (h * INR ix < x < h * INR (ix + 1) /\ h * INR iy < y < h * INR (iy + 1) /\ x + y > h * INR ix + h * INR iy + h)).
Proof.
  intros Hh Hx Hy. destruct (in_triangle_iff _ _ _ _ _ _ _ _ x y (tri_upp ix iy Hx Hy)) as [A B]. rewrite A, B. rewrite !S_INR1. unfold area2.
  generalize (INR ix) (INR iy). intros a b. clear - Hh. split; split.
  - intros (P & Q & T). repeat split; nra.
  - intros ((P & Q) & (T & U) & V). repeat split; nra.
  - intros (P & Q & T). repeat split; nra.
  - intros ((P & Q) & (T & U) & V). repeat split; nra.
Qed.
Lemma tri_nth k e : nth_error (tri_conn m) k = Some e -> exists ix iy, (ix < nx)%nat /\ (iy < ny)%nat /\
  ((k = (iy * nx + ix) * 2 /\ e = [n0 ix iy; n1 ix iy; n3 ix iy]) \/ (k = (iy * nx + ix) * 2 + 1 /\ e = [n1 ix iy; n2 ix iy; n3 ix iy]))%nat.
Proof.
  intros H. assert (Hk : (k < tri_nelem m)%nat) by (rewrite <- (proj1 (tri_conn_shape m)); apply nth_error_Some; congruence). unfold tri_nelem in Hk.
  destruct (grid_split 2 k) as (c & t & Ht & ->); [lia|]. destruct (grid_split nx c) as (iy & ix & Hx & ->); [nia|].
  assert (Hy : (iy < ny)%nat) by nia. destruct (tri_conn_at m ix iy Hx Hy) as [E0 E1]. exists ix, iy. split; [assumption|]. split; [assumption|].
  assert (T : (t = 0 \/ t = 1)%nat) by lia. destruct T as [-> | ->].
  - rewrite Nat.add_0_r in H |- *. rewrite E0 in H. injection H as <-. left; auto.
  - rewrite E1 in H. injection H as <-. right; auto.
Qed.
Lemma Tri3_tiles : 0 < h -> (1 <= nx)%nat -> (1 <= ny)%nat -> tri_tiles (tri_coor m) (tri_conn m) (h * INR nx) (h * INR ny).
Proof.
  intros Hh Hx1 Hy1. constructor.
  - intros e He. destruct (tri_in_conn m e He) as (ix & iy & Hx & Hy & E). cbv zeta in E. destruct E as [-> | ->].
    + do 6 eexists. split; [apply (tri_low ix iy Hx Hy)|]. rewrite !S_INR1. unfold area2. generalize (INR ix) (INR iy). intros. nra.
    + do 6 eexists. split; [apply (tri_upp ix iy Hx Hy)|]. rewrite !S_INR1. unfold area2. generalize (INR ix) (INR iy). intros. nra.
  - intros x y Hx Hy. destruct (cell_closed h nx x Hh Hx1 Hx) as (ix & Lx & Cx). destruct (cell_closed h ny y Hh Hy1 Hy) as (iy & Ly & Cy).
    destruct (tri_conn_at m ix iy Lx Ly) as [E0 E1]. destruct (Rle_lt_dec (x + y) (h * INR ix + h * INR iy + h)) as [D|D].
    + eexists. split; [eapply nth_error_In; exact E0|]. apply low_box; auto.
    + eexists. split; [eapply nth_error_In; exact E1|]. apply upp_box; auto. repeat split; try tauto. lra.
  - intros e x y He I. assert (B : exists ix iy, (ix < nx)%nat /\ (iy < ny)%nat /\ h * INR ix <= x <= h * INR (ix + 1) /\ h * INR iy <= y <= h * INR (iy + 1)).
    { destruct (tri_in_conn m e He) as (ix & iy & Hx & Hy & E). cbv zeta in E. exists ix, iy. destruct E as [-> | ->]; [apply low_box in I|apply upp_box in I]; tauto. }
    destruct B as (ix & iy & Hx & Hy & [A B] & [C D]).
    assert (h * INR (ix + 1) <= h * INR nx) by (apply Rmult_le_compat_l; [lra|]; apply le_INR; lia).
    assert (h * INR (iy + 1) <= h * INR ny) by (apply Rmult_le_compat_l; [lra|]; apply le_INR; lia).
    pose proof (Rmult_le_pos _ _ (Rlt_le _ _ Hh) (pos_INR ix)). pose proof (Rmult_le_pos _ _ (Rlt_le _ _ Hh) (pos_INR iy)). lra.
  - intros k k' e e' x y Hk Hk' Hne I I'. destruct (tri_nth k e Hk) as (ix & iy & Hx & Hy & E). destruct (tri_nth k' e' Hk') as (ix' & iy' & Hx' & Hy' & E'). apply Hne.
    destruct E as [[-> ->]|[-> ->]], E' as [[-> ->]|[-> ->]];
      (apply low_box in I || apply upp_box in I); (apply low_box in I' || apply upp_box in I'); try assumption;
      destruct I as (A & B & D), I' as (A' & B' & D');
      pose proof (cell_meets h ix ix' x Hh A A'); pose proof (cell_meets h iy iy' y Hh B B'); subst ix' iy'; try reflexivity; exfalso; lra.
  - intros e p x y He Hp I. destruct (tri_in_conn m e He) as (ix & iy & Hx & Hy & E). cbv zeta in E. rewrite tri_coor_eq in Hp.
    apply node_at_iff in Hp. destruct Hp as (a & b & Ha & Hb & -> & -> & ->).
    destruct E as [-> | ->]; (apply low_box in I || apply upp_box in I); try assumption; destruct I as (A & B & D);
      (apply cell_node in A; [|assumption]); (apply cell_node in B; [|assumption]);
      destruct A as [-> | ->], B as [-> | ->]; cbn [In]; auto; exfalso; rewrite ?S_INR1 in D; lra.
  - intros p Hp. rewrite tri_coor_eq, coor_length in Hp. exact (tri_conn_used m p Hx1 Hy1 Hp).
Qed.
End Reg.
