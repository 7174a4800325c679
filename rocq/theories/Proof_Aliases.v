(** The accessors of the base classes. *)
From Coq Require Import Reals ZArith Lra.
From Verif Require Import Base Spec Spec2d Spec3d Spec_Sides Spec_FineLayer Model_Numbering Model_Regular2d Model_FineLayer Model_Hex8Regular Model_Hex8FineLayer Model_Aliases
  Proof_Regular2d Proof_Hex8Regular Proof_FineLayerThm Proof_Hex8FineLayerThm.

Lemma lists_nodes3_iff X l (P Q : R -> R -> R -> Prop) : (forall x y z, P x y z <-> Q x y z) -> lists_nodes3 X l P -> lists_nodes3 X l Q.
Proof.
  intros H [N I]. split; [exact N|]. intros n. rewrite I. split; intros (x & y & z & A & B); exists x, y, z; (split; [exact A|]); now apply H.
Qed.

(** the words of a method and the set it returns *)
Lemma edge_methods a b : (axis a <> axis b <-> edge_method a b <> None) /\ open_edge_method a b = edge_method a b.
Proof. destruct a, b; cbn; (split; [|reflexivity]); split; intros; congruence || lia. Qed.
Lemma corner_methods a b c : (axis a <> axis b /\ axis a <> axis c /\ axis b <> axis c) <-> corner_method a b c <> None.
Proof. destruct a, b, c; cbn; split; intros; try congruence; try lia; repeat split; discriminate. Qed.

Definition edge_walls (e : edge) : wall * wall :=
  match e with EFrontBottom => (Front, Bottom) | EFrontTop => (Front, Top) | EFrontLeft => (Front, Left) | EFrontRight => (Front, Right)
  | EBackBottom => (Back, Bottom) | EBackTop => (Back, Top) | EBackLeft => (Back, Left) | EBackRight => (Back, Right)
  | EBottomLeft => (Bottom, Left) | EBottomRight => (Bottom, Right) | ETopLeft => (Top, Left) | ETopRight => (Top, Right) end.

Section Generic.
Variables (X : list (list R)) (Lx Ly Lz : R) (E O : edge -> res (list nat)) (C : corner -> res nat).
Notation on := (on_wall Lx Ly Lz).
Notation along := (inside_along Lx Ly Lz).
Hypothesis HE : forall e, exists l, E e = Ok l /\ lists_nodes3 X l (fun x y z => on (fst (edge_walls e)) x y z /\ on (snd (edge_walls e)) x y z).
Hypothesis HO : forall e, exists l, O e = Ok l /\ lists_nodes3 X l (fun x y z => on (fst (edge_walls e)) x y z /\ on (snd (edge_walls e)) x y z /\
  along (3 - axis (fst (edge_walls e)) - axis (snd (edge_walls e))) x y z).
Lemma gen_edge a b : axis a <> axis b -> exists e l, edge_method a b = Some e /\ E e = Ok l /\ lists_nodes3 X l (fun x y z => on a x y z /\ on b x y z).
Proof.
  intros H. destruct (edge_method a b) as [e|] eqn:Ee; [|destruct (edge_methods a b) as [[M _] _]; now apply M in H].
  destruct (HE e) as (l & El & L). exists e, l. split; [reflexivity|]. split; [exact El|]. revert L. apply lists_nodes3_iff. intros x y z.
  destruct a, b; cbn in H, Ee; try congruence; injection Ee as <-; cbn; tauto.
Qed.
Lemma gen_open a b : axis a <> axis b -> exists e l, open_edge_method a b = Some e /\ O e = Ok l /\
  lists_nodes3 X l (fun x y z => on a x y z /\ on b x y z /\ along (3 - axis a - axis b) x y z).
Proof.
  intros H. destruct (open_edge_method a b) as [e|] eqn:Ee; [|destruct (edge_methods a b) as [[M _] Q]; rewrite Q in Ee; now apply M in H].
  destruct (HO e) as (l & El & L). exists e, l. split; [reflexivity|]. split; [exact El|]. revert L. apply lists_nodes3_iff. intros x y z.
  destruct a, b; cbn in H, Ee; try congruence; injection Ee as <-; cbn; tauto.
Qed.
End Generic.

Definition corner_point (Lx Ly Lz : R) (c : corner) : R * R * R :=
  match c with CFrontBottomLeft => (0, 0, 0) | CFrontBottomRight => (Lx, 0, 0) | CFrontTopLeft => (0, Ly, 0) | CFrontTopRight => (Lx, Ly, 0)
  | CBackBottomLeft => (0, 0, Lz) | CBackBottomRight => (Lx, 0, Lz) | CBackTopLeft => (0, Ly, Lz) | CBackTopRight => (Lx, Ly, Lz) end%R.
Lemma gen_corner X Lx Ly Lz (C : corner -> res nat) : (forall c, exists p, C c = Ok p /\ match corner_point Lx Ly Lz c with (x, y, z) => node_at3 X p x y z end) ->
  forall a b c, axis a <> axis b -> axis a <> axis c -> axis b <> axis c -> exists k p x y z, corner_method a b c = Some k /\ C k = Ok p /\ node_at3 X p x y z /\
    on_wall Lx Ly Lz a x y z /\ on_wall Lx Ly Lz b x y z /\ on_wall Lx Ly Lz c x y z.
Proof.
  intros HC a b c H1 H2 H3. destruct (corner_method a b c) as [k|] eqn:Ek; [|pose proof (proj1 (corner_methods a b c)) as M; rewrite Ek in M; exfalso; apply M; auto].
  destruct (HC k) as (p & Ep & N). destruct (corner_point Lx Ly Lz k) as [[x y] z] eqn:Ec. exists k, p, x, y, z. split; [reflexivity|]. split; [exact Ep|]. split; [exact N|].
  destruct a, b, c; cbn in H1, H2, H3, Ek; try congruence; injection Ek as <-; cbn in Ec; injection Ec as <- <- <-; cbn; auto.
Qed.

Ltac pick F := repeat match type of F with Forall _ (_ :: _) => let H := fresh "H" in apply Forall_cons_iff in F; destruct F as [H F] end.

Lemma hex_edges_ok m : (0 < hx_h m)%R -> forall e, exists l, hexreg_edge m e = Ok l /\
  lists_nodes3 (hex_coor m) l (fun x y z => on_wall (hx_h m * INR (hx_nelx m)) (hx_h m * INR (hx_nely m)) (hx_h m * INR (hx_nelz m)) (fst (edge_walls e)) x y z /\
    on_wall (hx_h m * INR (hx_nelx m)) (hx_h m * INR (hx_nely m)) (hx_h m * INR (hx_nelz m)) (snd (edge_walls e)) x y z).
Proof.
  intros Hh e. pose proof (hex_edges m Hh) as F. cbv zeta in F. pick F. cbn [fst snd] in *.
  destruct e; (eexists; split; [reflexivity|]); cbn [edge_walls fst snd on_wall]; assumption.
Qed.
Lemma hex_open_edges_ok m : (0 < hx_h m)%R -> let Lx := (hx_h m * INR (hx_nelx m))%R in let Ly := (hx_h m * INR (hx_nely m))%R in let Lz := (hx_h m * INR (hx_nelz m))%R in
  forall e, exists l, hexreg_open_edge m e = Ok l /\
  lists_nodes3 (hex_coor m) l (fun x y z => on_wall Lx Ly Lz (fst (edge_walls e)) x y z /\ on_wall Lx Ly Lz (snd (edge_walls e)) x y z /\
    inside_along Lx Ly Lz (3 - axis (fst (edge_walls e)) - axis (snd (edge_walls e))) x y z).
Proof.
  intros Hh Lx Ly Lz e. pose proof (hex_open_edges m Hh) as F. cbv zeta in F. pick F. cbn [fst snd] in *.
  destruct e; (eexists; split; [reflexivity|]); cbn [edge_walls fst snd on_wall axis Nat.sub inside_along]; assumption.
Qed.
Lemma hex_corners_ok m : forall c, exists p, hexreg_corner m c = Ok p /\
  match corner_point (hx_h m * INR (hx_nelx m)) (hx_h m * INR (hx_nely m)) (hx_h m * INR (hx_nelz m)) c with (x, y, z) => node_at3 (hex_coor m) p x y z end.
Proof.
  intros c. destruct (hex_corners m) as (A & B & D & E & F & G & H & I). destruct c; (eexists; split; [reflexivity|]); cbn [corner_point]; assumption.
Qed.

Theorem alias_hex_regular m : (0 < hx_h m)%R -> let Lx := (hx_h m * INR (hx_nelx m))%R in let Ly := (hx_h m * INR (hx_nely m))%R in let Lz := (hx_h m * INR (hx_nelz m))%R in
  let on := on_wall Lx Ly Lz in
  (forall a b, axis a <> axis b ->
     (exists e l, edge_method a b = Some e /\ hexreg_edge m e = Ok l /\ lists_nodes3 (hex_coor m) l (fun x y z => on a x y z /\ on b x y z)) /\
     (exists e l, open_edge_method a b = Some e /\ hexreg_open_edge m e = Ok l /\
        lists_nodes3 (hex_coor m) l (fun x y z => on a x y z /\ on b x y z /\ inside_along Lx Ly Lz (3 - axis a - axis b) x y z))) /\
  (forall a b c, axis a <> axis b -> axis a <> axis c -> axis b <> axis c ->
     exists k p x y z, corner_method a b c = Some k /\ hexreg_corner m k = Ok p /\ node_at3 (hex_coor m) p x y z /\ on a x y z /\ on b x y z /\ on c x y z) /\
  (exists p, origin3 (hexreg_corner m) = Ok p /\ node_at3 (hex_coor m) p 0 0 0).
Proof.
  intros Hh Lx Ly Lz on. split; [|split].
  - intros a b H. split; [exact (gen_edge _ _ _ _ _ (hex_edges_ok m Hh) a b H)|exact (gen_open _ _ _ _ _ (hex_open_edges_ok m Hh) a b H)].
  - exact (gen_corner _ _ _ _ _ (hex_corners_ok m)).
  - exact (hex_corners_ok m CFrontBottomLeft).
Qed.

Theorem alias_hex_finelayer nelx nely nelz nfine h m : 1 <= nelx -> 1 <= nely -> 1 <= nelz -> HexFineLayer_init nelx nely nelz h nfine = Some (Ok m) -> (0 < h)%R ->
  let Lx := (h * INR nelx)%R in let Ly := (h * INR (g_nely m))%R in let Lz := (h * INR nelz)%R in
  let on := on_wall Lx Ly Lz in
  exists X, g_coor m = Ok X /\
  (forall a b, axis a <> axis b ->
     (exists e l, edge_method a b = Some e /\ fine3_edge m e = Ok l /\ lists_nodes3 X l (fun x y z => on a x y z /\ on b x y z)) /\
     (exists e l, open_edge_method a b = Some e /\ fine3_open_edge m e = Ok l /\
        lists_nodes3 X l (fun x y z => on a x y z /\ on b x y z /\ inside_along Lx Ly Lz (3 - axis a - axis b) x y z))) /\
  (forall a b c, axis a <> axis b -> axis a <> axis c -> axis b <> axis c ->
     exists k p x y z, corner_method a b c = Some k /\ fine3_corner m k = Ok p /\ node_at3 X p x y z /\ on a x y z /\ on b x y z /\ on c x y z) /\
  (exists p, origin3 (fine3_corner m) = Ok p /\ node_at3 X p 0 0 0).
Proof.
  intros Hx Hy Hz E Hh Lx Ly Lz on. destruct (T3_edges _ _ _ _ _ _ Hx Hy Hz E Hh) as (X & EX & F). destruct (T3_open_edges _ _ _ _ _ _ Hx Hy Hz E Hh) as (X' & EX' & G).
  destruct (T3_corners _ _ _ _ _ _ Hx Hy Hz E) as (X2 & EX2 & K). rewrite EX in EX', EX2. injection EX' as <-. injection EX2 as <-. cbv zeta in F, G, K.
  assert (CO : forall c, exists p, fine3_corner m c = Ok p /\ match corner_point Lx Ly Lz c with (x, y, z) => node_at3 X p x y z end).
  { clear F G. pick K. cbn [fst snd] in *. destruct c; cbn [fine3_corner corner_point]; assumption. }
  exists X. split; [exact EX|]. split; [|split].
  - intros a b H. split.
    + apply (gen_edge X Lx Ly Lz (fine3_edge m)); [|exact H]. clear G K CO. pick F. cbn [fst snd] in *. intros e. destruct e; cbn [fine3_edge edge_walls fst snd on_wall]; assumption.
    + apply (gen_open X Lx Ly Lz (fine3_open_edge m)); [|exact H]. clear F K CO. pick G. cbn [fst snd] in *. intros e. destruct e; cbn [fine3_open_edge edge_walls fst snd on_wall axis Nat.sub inside_along]; assumption.
  - exact (gen_corner _ _ _ _ _ CO).
  - exact (CO CFrontBottomLeft).
Qed.

(** ** two dimensions *)
Lemma gen_corner2 X Lx Ly bot top lft rgt obot otop olft orgt bl br tl tr (C : corner2 -> res nat) :
  boundary_sets X Lx Ly bot top lft rgt obot otop olft orgt bl br tl tr -> C DBottomLeft = Ok bl -> C DBottomRight = Ok br -> C DTopLeft = Ok tl -> C DTopRight = Ok tr ->
  (forall a b, axis a < 2 -> axis b < 2 -> axis a <> axis b -> exists k p x y, corner2_method a b = Some k /\ C k = Ok p /\ node_at X p x y /\ on_wall Lx Ly 0 a x y 0 /\ on_wall Lx Ly 0 b x y 0) /\
  (exists p, origin2 C = Ok p /\ node_at X p 0 0).
Proof.
  intros B E1 E2 E3 E4. destruct B as [_ _ _ _ _ _ _ _ B1 B2 B3 B4]. split.
  - intros a b Ha Hb H. destruct a, b; cbn in Ha, Hb, H; try lia; cbn [corner2_method on_wall]; do 4 eexists; (split; [reflexivity|]); (split; [eassumption|]); (split; [eassumption|]); auto.
  - exists bl. auto.
Qed.

Definition corners2_ok (X : list (list R)) (Lx Ly : R) (C : corner2 -> res nat) : Prop :=
  (forall a b, axis a < 2 -> axis b < 2 -> axis a <> axis b -> exists k p x y, corner2_method a b = Some k /\ C k = Ok p /\ node_at X p x y /\ on_wall Lx Ly 0 a x y 0 /\ on_wall Lx Ly 0 b x y 0) /\
  (exists p, origin2 C = Ok p /\ node_at X p 0 0).
Theorem alias_quad m : 1 <= nelx m -> 1 <= nely m -> (0 < hh m)%R -> corners2_ok (coor m) (hh m * INR (nelx m)) (hh m * INR (nely m)) (quad_corner m).
Proof. intros H1 H2 H3. eapply gen_corner2; [exact (Regular_boundary_sets m H1 H2 H3)|reflexivity..]. Qed.
Theorem alias_tri m : 1 <= nelx m -> 1 <= nely m -> (0 < hh m)%R -> corners2_ok (tri_coor m) (hh m * INR (nelx m)) (hh m * INR (nely m)) (tri_corner m).
Proof. intros H1 H2 H3. eapply gen_corner2; [exact (tri_boundary_sets m H1 H2 H3)|reflexivity..]. Qed.
Theorem alias_finelayer nelx nely nfine h m : 1 <= nelx -> 1 <= nely -> FineLayer_init nelx nely h nfine = Some (Ok m) -> (0 < h)%R ->
  exists X, f_coor m = Ok X /\ corners2_ok X (h * INR nelx) (h * INR (f_nely m)) (fine_corner m).
Proof.
  intros H1 H2 E Hh. destruct (T_boundary _ _ _ _ _ H1 H2 E Hh) as (X & bot & top & lft & rgt & obot & otop & olft & orgt & bl & br & tl & tr & EX & _ & _ & _ & _ & _ & _ & _ & _ & E1 & E2 & E3 & E4 & B).
  exists X. split; [exact EX|]. eapply gen_corner2; eassumption.
Qed.
Theorem all_methods :
  (forall a b, axis a <> axis b <-> edge_method a b <> None) /\
  (forall a b, axis a <> axis b <-> open_edge_method a b <> None) /\
  (forall a b c, (axis a <> axis b /\ axis a <> axis c /\ axis b <> axis c) <-> corner_method a b c <> None).
Proof.
  split; [|split].
  - intros a b. apply edge_methods.
  - intros a b. destruct (edge_methods a b) as [H ->]. exact H.
  - intros a b c. apply corner_methods.
Qed.
