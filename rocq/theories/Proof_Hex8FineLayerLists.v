(** Hex8::FineLayer: the node sets on the boundary, by position. *)
From Coq Require Import Reals ZArith Lra.
From Verif Require Import Base Spec Spec3d Model_Numbering Model_Regular2d Model_FineLayer Model_Hex8Regular Model_Hex8FineLayer
  Proof_Vector Proof_Regular2d Proof_Hex8Regular Proof_FineLayer Proof_FineLayerMesh Proof_FineLayerThm Proof_FineLayerBoundary
  Proof_Hex8FineLayer Proof_Hex8FineLayerMesh Proof_Hex8FineLayerElem Proof_Hex8FineLayerSides Proof_Hex8FineLayerFaces Proof_Hex8FineLayerBoundary.

Section OpenDir.
Variables (nel n : nat) (w v y : nat -> nat) (rr : nat -> bool).
Hypothesis HD : layered nel n w v rr.
Hypothesis Hpos : forall iy, iy < L n -> 1 <= Hy n y iy.
Hypothesis Heven : forall iy, iy < L n -> Rf n rr iy = true -> exists t, 1 <= t /\ Hy n y iy = 2 * t.
Notation Y := (Y n y).
Notation cnt := (NN nel n w).
Notation L := (L n).

Lemma d_win : describes nel n w y rr (oidx n cnt (mcd nel n w rr)) (fun a b => 0 < a < nel /\ Y 1 <= b <= Y (L - 1)).
Proof.
  unfold oidx. destruct (Nat.eqb_spec n 1) as [E|E]; [now apply (d_open1 nel n w v)|]. apply (d_open nel n w v); auto. pose proof (l_n _ _ _ _ _ HD). lia.
Qed.
Lemma Rf_ends : Rf n rr (L - 1) = Rf n rr 0.
Proof. pose proof (l_n _ _ _ _ _ HD). unfold Rf. f_equal. unfold dist, Proof_FineLayer.L. destruct (Nat.ltb_spec (n * 2 - 1 - 1) n), (Nat.ltb_spec 0 n); lia. Qed.
(** without refinement in the outermost layers, nothing is missed *)
Lemma d_win_full x : Rf n rr 0 = false -> wfi nel n w rr x -> (0 < height n y x < Y L <-> Y 1 <= height n y x <= Y (L - 1)).
Proof.
  intros E Hx. rewrite (height_in nel n w v y rr HD Hpos Heven x Hx), (height_win nel n w v y rr HD Hpos Heven x Hx). destruct x as [k i|iy q]; destruct Hx as [H1 H2].
  - rewrite In_range. lia.
  - assert (iy <> 0 /\ iy <> L - 1); [|lia]. split; intros ->; unfold mcd in H2; [|rewrite Rf_ends in H2]; rewrite E in H2; lia.
Qed.
Lemma d_inside : Rf n rr 0 = false -> describes nel n w y rr (oidx n cnt (mcd nel n w rr)) (fun a b => 0 < a < nel /\ 0 < b < Y L).
Proof.
  intros E. destruct d_win as (N & W & D). split; [exact N|]. split; [exact W|]. intros x Hx. rewrite (D x Hx), (d_win_full x E Hx). tauto.
Qed.
End OpenDir.

Section Lists.
Variables (nelx nelz n : nat) (wx wz y : nat -> nat) (r : nat -> Z) (h : R).
Hypothesis HL : layered3 nelx nelz n wx wz y r.
Hypothesis Hh : (0 < h)%R.
Notation HX := (l3_x _ _ _ _ _ _ _ HL).
Notation HZ := (l3_z _ _ _ _ _ _ _ HL).
Notation Hy := (Hy n y).
Notation Y := (Y n y).
Notation NNx := (NN nelx n wx).
Notation NNz := (NN nelz n wz).
Notation L := (L n).
Notation m := (HFL_of nelx nelz n wx wz y r h).
Notation X := (coorl3 nelx nelz n wx wz y r h).
Notation Ff := (Ff nelx nelz n wx wz r).
Notation Fb := (Fb nelx nelz n wx wz r).
Notation Fl := (Fl nelx nelz n wx wz r).
Notation Fr := (Fr nelx nelz n wx wz r).
Notation mcx := (mcx nelx n wx r).
Notation mcz := (mcz nelz n wz r).
Notation Lx := (h * INR nelx)%R.
Notation Ly := (h * INR (Y L))%R.
Notation Lz := (h * INR nelz)%R.
Notation PY := (pos_y _ _ _ _ _ _ _ HL).
Notation EX := (even_x _ _ _ _ _ _ _ HL).
Notation EZ := (even_z _ _ _ _ _ _ _ HL).
Notation nodes := (nodes_of nelx nelz n wx wz y r).

Lemma e1 a b : (h * INR a)%R = (h * INR b)%R <-> a = b.
Proof. split; [now apply hINR_inj|congruence]. Qed.
Lemma e0 a : (h * INR a)%R = 0%R <-> a = 0.
Proof. rewrite <- (e1 a 0). cbn [INR]. now rewrite Rmult_0_r. Qed.
Lemma ein a b : inside (h * INR b) (h * INR a) <-> 0 < a < b.
Proof.
  unfold inside. split.
  - intros [H1 H2]. split; apply INR_lt; [cbn [INR]|]; nra.
  - intros [H1 H2]. apply lt_INR in H1, H2. cbn [INR] in H1. nra.
Qed.
Lemma ele a b : (h * INR a <= h * INR b)%R <-> a <= b.
Proof. split; intros H; [apply INR_le; nra|apply le_INR in H; nra]. Qed.
Lemma Y1_eq : Y 1 = Hy 0.
Proof. reflexivity. Qed.
Lemma YL_eq : Y L = Y (L - 1) + Hy 0.
Proof.
  pose proof (L1 _ _ _ _ _ _ _ HL) as H. replace L with (S (L - 1)) at 1 by lia. change (Y (S (L - 1))) with (Y (L - 1) + Hy (L - 1)). f_equal.
  pose proof (n_pos _ _ _ _ _ _ _ HL). unfold Proof_FineLayer.Hy. f_equal. unfold dist, Proof_FineLayer.L. destruct (Nat.ltb_spec (n * 2 - 1 - 1) n), (Nat.ltb_spec 0 n); lia.
Qed.
(** the heights of the layers between the outermost ones *)
Definition win (y' : R) : Prop := (h * INR (Hy 0) <= y' <= h * INR (Y L) - h * INR (Hy 0))%R.
Lemma ewin b : win (h * INR b)%R <-> Y 1 <= b <= Y (L - 1).
Proof.
  unfold win. replace (h * INR (Y L) - h * INR (Hy 0))%R with (h * INR (Y (L - 1)))%R; [|rewrite YL_eq, plus_INR; ring]. now rewrite !ele, Y1_eq.
Qed.

Notation is_list := (fun lP : res (list nat) * (R -> R -> R -> Prop) => exists l, fst lP = Ok l /\ lists_nodes3 X l (snd lP)).

Ltac posn := let a := fresh in let b := fresh in let c := fresh in intros a b c _ _ _; rewrite ?e1, ?e0, ?ein, ?ewin; change (Y 0) with 0; intuition discriminate.
Ltac by_nodes G := eapply nodes_of_lists; [exact HL|eapply G|posn].

Lemma faces3 : Forall is_list
  [ (g_nodesFront m, fun x y z => z = 0%R); (g_nodesBack m, fun x y z => z = Lz);
    (g_nodesLeft m, fun x y z => x = 0%R); (g_nodesRight m, fun x y z => x = Lx);
    (g_nodesBottom m, fun x y z => y = 0%R); (g_nodesTop m, fun x y z => y = Ly) ].
Proof.
  repeat constructor; cbn [fst snd]; eexists; (split; [first [apply front_eq|apply back_eq|apply left_eq|apply right_eq|apply bottom_eq|apply top_eq]; exact HL|]).
  - by_nodes (front_nodes _ _ _ _ _ _ _ HL _ _ (d_full nelx n wx y (rx r))).
  - by_nodes (back_nodes _ _ _ _ _ _ _ HL _ _ (d_full nelx n wx y (rx r))).
  - by_nodes (left_nodes _ _ _ _ _ _ _ HL _ _ (d_full nelz n wz y (rz r))).
  - by_nodes (right_nodes _ _ _ _ _ _ _ HL _ _ (d_full nelz n wz y (rz r))).
  - by_nodes (plane_nodes _ _ _ _ _ _ _ HL false 0 (Nat.le_0_l _)).
  - by_nodes (plane_nodes _ _ _ _ _ _ _ HL false L (le_n _)).
Qed.

Lemma win_faces3 : Forall is_list
  [ (g_nodesFrontFace m, fun x y z => z = 0%R /\ inside Lx x /\ win y); (g_nodesBackFace m, fun x y z => z = Lz /\ inside Lx x /\ win y);
    (g_nodesLeftFace m, fun x y z => x = 0%R /\ win y /\ inside Lz z); (g_nodesRightFace m, fun x y z => x = Lx /\ win y /\ inside Lz z);
    (g_nodesBottomFace m, fun x y z => y = 0%R /\ inside Lx x /\ inside Lz z); (g_nodesTopFace m, fun x y z => y = Ly /\ inside Lx x /\ inside Lz z) ].
Proof.
  repeat constructor; cbn [fst snd]; eexists; (split; [first [apply frontface_eq|apply backface_eq|apply leftface_eq|apply rightface_eq|apply bottomface_eq|apply topface_eq]; exact HL|]).
  - by_nodes (front_nodes _ _ _ _ _ _ _ HL _ _ (d_win nelx n wx _ y (rx r) HX PY EX)).
  - by_nodes (back_nodes _ _ _ _ _ _ _ HL _ _ (d_win nelx n wx _ y (rx r) HX PY EX)).
  - by_nodes (left_nodes _ _ _ _ _ _ _ HL _ _ (d_win nelz n wz _ y (rz r) HZ PY EZ)).
  - by_nodes (right_nodes _ _ _ _ _ _ _ HL _ _ (d_win nelz n wz _ y (rz r) HZ PY EZ)).
  - by_nodes (plane_nodes _ _ _ _ _ _ _ HL true 0 (Nat.le_0_l _)).
  - by_nodes (plane_nodes _ _ _ _ _ _ _ HL true L (le_n _)).
Qed.

Lemma open_faces3_x : Rf n (rx r) 0 = false -> Forall is_list
  [ (g_nodesFrontFace m, fun x y z => z = 0%R /\ inside Lx x /\ inside Ly y); (g_nodesBackFace m, fun x y z => z = Lz /\ inside Lx x /\ inside Ly y) ].
Proof.
  intros E. repeat constructor; cbn [fst snd]; eexists; (split; [first [apply frontface_eq|apply backface_eq]; exact HL|]).
  - by_nodes (front_nodes _ _ _ _ _ _ _ HL _ _ (d_inside nelx n wx _ y (rx r) HX PY EX E)).
  - by_nodes (back_nodes _ _ _ _ _ _ _ HL _ _ (d_inside nelx n wx _ y (rx r) HX PY EX E)).
Qed.
Lemma open_faces3_z : Rf n (rz r) 0 = false -> Forall is_list
  [ (g_nodesLeftFace m, fun x y z => x = 0%R /\ inside Ly y /\ inside Lz z); (g_nodesRightFace m, fun x y z => x = Lx /\ inside Ly y /\ inside Lz z) ].
Proof.
  intros E. repeat constructor; cbn [fst snd]; eexists; (split; [first [apply leftface_eq|apply rightface_eq]; exact HL|]).
  - by_nodes (left_nodes _ _ _ _ _ _ _ HL _ _ (d_inside nelz n wz _ y (rz r) HZ PY EZ E)).
  - by_nodes (right_nodes _ _ _ _ _ _ _ HL _ _ (d_inside nelz n wz _ y (rz r) HZ PY EZ E)).
Qed.

(** edges *)
Notation fl := (fl nelx nelz n wx wz r).
Notation fr := (fr nelx nelz n wx wz r).
Notation bl := (bl nelx nelz n wx wz r).
Notation br := (br nelx nelz n wx wz r).
Lemma fl_nodes op : nodes (map fl (range op (L + 1))) (fun a b c => c = 0 /\ a = 0 /\ (op = true -> 0 < b < Y L)).
Proof. pose proof (front_nodes _ _ _ _ _ _ _ HL _ _ (d_col nelx n wx _ y (rx r) HX PY EX op)) as G. rewrite map_map in G. exact G. Qed.
Lemma fr_nodes op : nodes (map fr (range op (L + 1))) (fun a b c => c = 0 /\ a = nelx /\ (op = true -> 0 < b < Y L)).
Proof. pose proof (front_nodes _ _ _ _ _ _ _ HL _ _ (d_col' nelx n wx _ y (rx r) HX PY EX op)) as G. rewrite map_map in G. exact G. Qed.
Lemma bl_nodes op : nodes (map bl (range op (L + 1))) (fun a b c => c = nelz /\ a = 0 /\ (op = true -> 0 < b < Y L)).
Proof. pose proof (back_nodes _ _ _ _ _ _ _ HL _ _ (d_col nelx n wx _ y (rx r) HX PY EX op)) as G. rewrite map_map in G. exact G. Qed.
Lemma br_nodes op : nodes (map br (range op (L + 1))) (fun a b c => c = nelz /\ a = nelx /\ (op = true -> 0 < b < Y L)).
Proof. pose proof (back_nodes _ _ _ _ _ _ _ HL _ _ (d_col' nelx n wx _ y (rx r) HX PY EX op)) as G. rewrite map_map in G. exact G. Qed.

Definition yedge (op : bool) := if op then open_edge_y m else edge_y m.
Lemma yedge_fl op : yedge op (at_fl) = Ok (map fl (range op (L + 1))).
Proof. destruct op; [apply open_edge_y_eq|apply edge_y_eq]; try exact HL; intros iy Hi; [apply (at_fl_low _ _ _ _ _ y _ HL)|apply (at_fl_up _ _ _ _ _ y _ HL)|apply (at_fl_low _ _ _ _ _ y _ HL)|apply (at_fl_up _ _ _ _ _ y _ HL)]; exact Hi. Qed.
Lemma yedge_fr op : yedge op (at_fr m) = Ok (map fr (range op (L + 1))).
Proof. destruct op; [apply open_edge_y_eq|apply edge_y_eq]; try exact HL; intros iy Hi; [apply at_fr_low|apply at_fr_up|apply at_fr_low|apply at_fr_up]; auto. Qed.
Lemma yedge_bl op : yedge op (at_bl m) = Ok (map bl (range op (L + 1))).
Proof. destruct op; [apply open_edge_y_eq|apply edge_y_eq]; try exact HL; intros iy Hi; [apply at_bl_low|apply at_bl_up|apply at_bl_low|apply at_bl_up]; auto. Qed.
Lemma yedge_br op : yedge op (at_br m) = Ok (map br (range op (L + 1))).
Proof. destruct op; [apply open_edge_y_eq|apply edge_y_eq]; try exact HL; intros iy Hi; [apply at_br_low|apply at_br_up|apply at_br_low|apply at_br_up]; auto. Qed.

Lemma xbot op back : edge_x m op back 0 0 = Ok (map (if back : bool then Fb else Ff) (irow NNx op 0)).
Proof. apply edge_x_eq; [exact HL|auto]. Qed.
Lemma xtop op back : edge_x m op back (g_layers m) (g_layers m - 1) = Ok (map (if back : bool then Fb else Ff) (irow NNx op L)).
Proof. rewrite layers_m3. apply edge_x_eq; [exact HL|auto]. Qed.
Lemma zbot op right : edge_z m op right 0 0 = Ok (map (if right : bool then Fr else Fl) (irow NNz op 0)).
Proof. apply edge_z_eq; [exact HL|auto]. Qed.
Lemma ztop op right : edge_z m op right (g_layers m) (g_layers m - 1) = Ok (map (if right : bool then Fr else Fl) (irow NNz op L)).
Proof. rewrite layers_m3. apply edge_z_eq; [exact HL|auto]. Qed.

Lemma edges_of (op : bool) (Sx Sy Sz : R -> Prop) :
  (forall a, Sx (h * INR a)%R <-> (op = true -> 0 < a < nelx)) -> (forall a, Sy (h * INR a)%R <-> (op = true -> 0 < a < Y L)) -> (forall a, Sz (h * INR a)%R <-> (op = true -> 0 < a < nelz)) ->
  Forall is_list
   [ (edge_x m op false 0 0, fun x y z => z = 0%R /\ y = 0%R /\ Sx x); (edge_x m op false (g_layers m) (g_layers m - 1), fun x y z => z = 0%R /\ y = Ly /\ Sx x);
     (yedge op at_fl, fun x y z => z = 0%R /\ x = 0%R /\ Sy y); (yedge op (at_fr m), fun x y z => z = 0%R /\ x = Lx /\ Sy y);
     (edge_x m op true 0 0, fun x y z => z = Lz /\ y = 0%R /\ Sx x); (edge_x m op true (g_layers m) (g_layers m - 1), fun x y z => z = Lz /\ y = Ly /\ Sx x);
     (yedge op (at_bl m), fun x y z => z = Lz /\ x = 0%R /\ Sy y); (yedge op (at_br m), fun x y z => z = Lz /\ x = Lx /\ Sy y);
     (edge_z m op false 0 0, fun x y z => y = 0%R /\ x = 0%R /\ Sz z); (edge_z m op true 0 0, fun x y z => y = 0%R /\ x = Lx /\ Sz z);
     (edge_z m op false (g_layers m) (g_layers m - 1), fun x y z => y = Ly /\ x = 0%R /\ Sz z); (edge_z m op true (g_layers m) (g_layers m - 1), fun x y z => y = Ly /\ x = Lx /\ Sz z) ].
Proof.
  intros HSx HSy HSz.
  assert (P : forall l Q P, nodes l Q -> (forall a b c, P (h * INR a)%R (h * INR b)%R (h * INR c)%R <-> Q a b c) -> lists_nodes3 X l P).
  { intros l Q P N E. eapply nodes_of_lists; [exact HL|exact N|]. intros; apply E. }
  repeat constructor; cbn [fst snd]; eexists; (split; [first [apply xbot|apply xtop|apply zbot|apply ztop|apply yedge_fl|apply yedge_fr|apply yedge_bl|apply yedge_br]|]).
  - eapply P; [exact (front_nodes _ _ _ _ _ _ _ HL _ _ (d_row nelx n wx _ y (rx r) HX PY EX op 0 (Nat.le_0_l _)))|]. intros a b c. cbv beta. now rewrite e0, e0, HSx.
  - eapply P; [exact (front_nodes _ _ _ _ _ _ _ HL _ _ (d_row nelx n wx _ y (rx r) HX PY EX op L (le_n _)))|]. intros a b c. cbv beta. now rewrite e0, e1, HSx.
  - eapply P; [exact (fl_nodes op)|]. intros a b c. cbv beta. now rewrite e0, e0, HSy.
  - eapply P; [exact (fr_nodes op)|]. intros a b c. cbv beta. now rewrite e0, e1, HSy.
  - eapply P; [exact (back_nodes _ _ _ _ _ _ _ HL _ _ (d_row nelx n wx _ y (rx r) HX PY EX op 0 (Nat.le_0_l _)))|]. intros a b c. cbv beta. now rewrite e1, e0, HSx.
  - eapply P; [exact (back_nodes _ _ _ _ _ _ _ HL _ _ (d_row nelx n wx _ y (rx r) HX PY EX op L (le_n _)))|]. intros a b c. cbv beta. now rewrite e1, e1, HSx.
  - eapply P; [exact (bl_nodes op)|]. intros a b c. cbv beta. now rewrite e1, e0, HSy.
  - eapply P; [exact (br_nodes op)|]. intros a b c. cbv beta. now rewrite e1, e1, HSy.
  - eapply P; [exact (left_nodes _ _ _ _ _ _ _ HL _ _ (d_row nelz n wz _ y (rz r) HZ PY EZ op 0 (Nat.le_0_l _)))|]. intros a b c. cbv beta. rewrite e0, e0, HSz. change (Y 0) with 0. tauto.
  - eapply P; [exact (right_nodes _ _ _ _ _ _ _ HL _ _ (d_row nelz n wz _ y (rz r) HZ PY EZ op 0 (Nat.le_0_l _)))|]. intros a b c. cbv beta. rewrite e0, e1, HSz. change (Y 0) with 0. tauto.
  - eapply P; [exact (left_nodes _ _ _ _ _ _ _ HL _ _ (d_row nelz n wz _ y (rz r) HZ PY EZ op L (le_n _)))|]. intros a b c. cbv beta. rewrite e1, e0, HSz. tauto.
  - eapply P; [exact (right_nodes _ _ _ _ _ _ _ HL _ _ (d_row nelz n wz _ y (rz r) HZ PY EZ op L (le_n _)))|]. intros a b c. cbv beta. rewrite e1, e1, HSz. tauto.
Qed.

Lemma edges3 : Forall is_list
   [ (g_nodesFrontBottomEdge m, fun x y z => z = 0%R /\ y = 0%R); (g_nodesFrontTopEdge m, fun x y z => z = 0%R /\ y = Ly);
     (g_nodesFrontLeftEdge m, fun x y z => z = 0%R /\ x = 0%R); (g_nodesFrontRightEdge m, fun x y z => z = 0%R /\ x = Lx);
     (g_nodesBackBottomEdge m, fun x y z => z = Lz /\ y = 0%R); (g_nodesBackTopEdge m, fun x y z => z = Lz /\ y = Ly);
     (g_nodesBackLeftEdge m, fun x y z => z = Lz /\ x = 0%R); (g_nodesBackRightEdge m, fun x y z => z = Lz /\ x = Lx);
     (g_nodesBottomLeftEdge m, fun x y z => y = 0%R /\ x = 0%R); (g_nodesBottomRightEdge m, fun x y z => y = 0%R /\ x = Lx);
     (g_nodesTopLeftEdge m, fun x y z => y = Ly /\ x = 0%R); (g_nodesTopRightEdge m, fun x y z => y = Ly /\ x = Lx) ].
Proof.
  assert (T : forall k a, True <-> (false = true -> 0 < a < k)) by (intros; split; [discriminate|auto]).
  pose proof (edges_of false (fun _ => True) (fun _ => True) (fun _ => True) (T _) (T _) (T _)) as G.
  assert (W : forall l (P P' : R -> R -> R -> Prop), (forall a b c, P' a b c <-> P a b c) -> is_list (l, P) -> is_list (l, P')).
  { intros l P P' E (l' & A1 & A2). exists l'. split; [exact A1|]. cbn [snd] in *. destruct A2 as [N A2]. split; [exact N|]. intros p. rewrite A2. split; intros (a & b & c & B1 & B2); exists a, b, c; (split; [exact B1|]); now apply E. }
  repeat (apply Forall_cons_iff in G; destruct G as [?G G]).
  repeat (constructor; [eapply W; [|eassumption]; intros a b c; cbv beta; tauto|]). constructor.
Qed.
Lemma open_edges3 : Forall is_list
   [ (g_nodesFrontBottomOpenEdge m, fun x y z => z = 0%R /\ y = 0%R /\ inside Lx x); (g_nodesFrontTopOpenEdge m, fun x y z => z = 0%R /\ y = Ly /\ inside Lx x);
     (g_nodesFrontLeftOpenEdge m, fun x y z => z = 0%R /\ x = 0%R /\ inside Ly y); (g_nodesFrontRightOpenEdge m, fun x y z => z = 0%R /\ x = Lx /\ inside Ly y);
     (g_nodesBackBottomOpenEdge m, fun x y z => z = Lz /\ y = 0%R /\ inside Lx x); (g_nodesBackTopOpenEdge m, fun x y z => z = Lz /\ y = Ly /\ inside Lx x);
     (g_nodesBackLeftOpenEdge m, fun x y z => z = Lz /\ x = 0%R /\ inside Ly y); (g_nodesBackRightOpenEdge m, fun x y z => z = Lz /\ x = Lx /\ inside Ly y);
     (g_nodesBottomLeftOpenEdge m, fun x y z => y = 0%R /\ x = 0%R /\ inside Lz z); (g_nodesBottomRightOpenEdge m, fun x y z => y = 0%R /\ x = Lx /\ inside Lz z);
     (g_nodesTopLeftOpenEdge m, fun x y z => y = Ly /\ x = 0%R /\ inside Lz z); (g_nodesTopRightOpenEdge m, fun x y z => y = Ly /\ x = Lx /\ inside Lz z) ].
Proof.
  assert (T : forall k a, inside (h * INR k) (h * INR a) <-> (true = true -> 0 < a < k)) by (intros; rewrite ein; intuition).
  exact (edges_of true (inside Lx) (inside Ly) (inside Lz) (T _) (T _) (T _)).
Qed.

(** corners *)
Lemma corners3 : Forall (fun cP => exists p, fst cP = Ok p /\ match snd cP with (x, y, z) => node_at3 X p x y z end)
   [ (g_nodesFrontBottomLeftCorner m, (0, 0, 0)); (g_nodesFrontBottomRightCorner m, (Lx, 0, 0));
     (g_nodesFrontTopLeftCorner m, (0, Ly, 0)); (g_nodesFrontTopRightCorner m, (Lx, Ly, 0));
     (g_nodesBackBottomLeftCorner m, (0, 0, Lz)); (g_nodesBackBottomRightCorner m, (Lx, 0, Lz));
     (g_nodesBackTopLeftCorner m, (0, Ly, Lz)); (g_nodesBackTopRightCorner m, (Lx, Ly, Lz)) ]%R.
Proof.
  assert (Z : (h * INR 0 = 0)%R) by (cbn; ring).
  assert (P : forall p a b c x y' z, Proof_Hex8FineLayerMesh.node_case3 nelx nelz n wx wz y r p a b c -> x = (h * INR a)%R -> y' = (h * INR b)%R -> z = (h * INR c)%R -> node_at3 X p x y' z).
  { intros p a b c x y' z H -> -> ->. exact (node_case3_pos _ _ _ _ _ _ _ h _ _ _ _ H). }
  pose proof (cnt_pos nelx n wx _ (rx r) HX) as C.
  assert (A0 : forall k, k <= L -> wfi nelx n wx (rx r) (Row k 0) /\ wfi nelx n wx (rx r) (Row k (NNx k - 1))).
  { intros k Hk. pose proof (C k Hk). cbn [wfi]. lia. }
  assert (B0 : forall k, k <= L -> along n wx (Row k 0) = 0 /\ along n wx (Row k (NNx k - 1)) = nelx).
  { intros k Hk. cbn [along]. split; [lia|]. exact (WN_end _ _ _ _ _ HX k Hk). }
  repeat constructor; cbn [fst snd]; eexists;
    (split; [first [apply (corner_bot _ _ _ _ _ _ _ _ HL) with (g := fl); exact (at_fl_low _ _ _ _ _ _ _ HL)|apply (corner_bot _ _ _ _ _ _ _ _ HL) with (g := fr); exact (at_fr_low _ _ _ _ _ _ _ h HL)|apply (corner_bot _ _ _ _ _ _ _ _ HL) with (g := bl); exact (at_bl_low _ _ _ _ _ _ _ h HL)|apply (corner_bot _ _ _ _ _ _ _ _ HL) with (g := br); exact (at_br_low _ _ _ _ _ _ _ h HL)
     |apply (corner_top _ _ _ _ _ _ _ _ HL) with (g := fl); exact (at_fl_up _ _ _ _ _ _ _ HL)|apply (corner_top _ _ _ _ _ _ _ _ HL) with (g := fr); exact (at_fr_up _ _ _ _ _ _ _ h HL)|apply (corner_top _ _ _ _ _ _ _ _ HL) with (g := bl); exact (at_bl_up _ _ _ _ _ _ _ h HL)|apply (corner_top _ _ _ _ _ _ _ _ HL) with (g := br); exact (at_br_up _ _ _ _ _ _ _ h HL)]|]).
  - destruct (B0 0 (Nat.le_0_l _)) as [E1 E2]. eapply P; [apply (Ff_case _ _ _ _ _ _ _ HL), A0, Nat.le_0_l| | |]; rewrite ?E1, ?E2; cbn [height]; change (Y 0) with 0; auto.
  - destruct (B0 0 (Nat.le_0_l _)) as [E1 E2]. eapply P; [apply (Ff_case _ _ _ _ _ _ _ HL), A0, Nat.le_0_l| | |]; rewrite ?E1, ?E2; cbn [height]; change (Y 0) with 0; auto.
  - destruct (B0 L (le_n _)) as [E1 E2]. eapply P; [apply (Ff_case _ _ _ _ _ _ _ HL), A0, le_n| | |]; rewrite ?E1, ?E2; cbn [height]; auto.
  - destruct (B0 L (le_n _)) as [E1 E2]. eapply P; [apply (Ff_case _ _ _ _ _ _ _ HL), A0, le_n| | |]; rewrite ?E1, ?E2; cbn [height]; auto.
  - destruct (B0 0 (Nat.le_0_l _)) as [E1 E2]. eapply P; [apply (Fb_case _ _ _ _ _ _ _ HL), A0, Nat.le_0_l| | |]; rewrite ?E1, ?E2; cbn [height]; change (Y 0) with 0; auto.
  - destruct (B0 0 (Nat.le_0_l _)) as [E1 E2]. eapply P; [apply (Fb_case _ _ _ _ _ _ _ HL), A0, Nat.le_0_l| | |]; rewrite ?E1, ?E2; cbn [height]; change (Y 0) with 0; auto.
  - destruct (B0 L (le_n _)) as [E1 E2]. eapply P; [apply (Fb_case _ _ _ _ _ _ _ HL), A0, le_n| | |]; rewrite ?E1, ?E2; cbn [height]; auto.
  - destruct (B0 L (le_n _)) as [E1 E2]. eapply P; [apply (Fb_case _ _ _ _ _ _ _ HL), A0, le_n| | |]; rewrite ?E1, ?E2; cbn [height]; auto.
Qed.
End Lists.
