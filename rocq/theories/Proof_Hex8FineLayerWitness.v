(** Hex8::FineLayer: the witness, a mesh whose outermost layers are refined in x-direction. *)
From Coq Require Import Reals ZArith Lra.
From Verif Require Import Base Spec Spec3d Spec_FineLayer Spec_FineLayer3 Spec_Tiling3 Model_Numbering Model_Regular2d Model_FineLayer Model_Hex8Regular Model_Hex8FineLayer.

Lemma witness3_sets : forall h, match HexFineLayer_init 3 9 2 h 1 with
  | Some (Ok m) => g_nely m = 9 /\ g_nodesFrontFace m = Ok [13; 14; 25; 26; 37; 38; 49; 50; 61; 62; 73; 74] /\
      match g_nodesPeriodic m with Ok t => existsb (Nat.eqb 10) (map snd t) = false | _ => False end /\
      match g_dofsPeriodic m with Ok D => match at2 D 6 0, at2 D 10 0 with Some a, Some b => (a =? b) = false | _, _ => False end | _ => False end
  | _ => False end.
Proof. intros h. vm_compute. repeat split. Qed.

Lemma witness3_coor : forall h, match HexFineLayer_init 3 9 2 h 1 with
  | Some (Ok m) => match g_coor m with Ok X => node_at3 X 6 h h 0 /\ node_at3 X 10 h h (h + h) | _ => False end
  | _ => False end.
Proof.
  intros h. vm_compute. split; apply (f_equal Some); apply (f_equal3 (fun a b c => [a; b; c])).
  all: change R0 with 0%R; change R1 with 1%R; field.
Qed.

Lemma witness3 : match HexFineLayer_init 3 9 2 1 1 with
  | Some (Ok m) => g_nely m = 9 /\ g_nodesFrontFace m = Ok [13; 14; 25; 26; 37; 38; 49; 50; 61; 62; 73; 74] /\
      match g_coor m with Ok X => node_at3 X 6 1 1 0 /\ node_at3 X 10 1 1 2 | _ => False end /\
      match g_nodesPeriodic m with Ok t => ~ In 10 (map snd t) | _ => False end /\
      match g_dofsPeriodic m with Ok D => at2 D 6 0 <> at2 D 10 0 /\ at2 D 6 0 <> None /\ at2 D 10 0 <> None | _ => False end
  | _ => False end.
Proof.
  generalize (witness3_sets 1) (witness3_coor 1). destruct (HexFineLayer_init 3 9 2 1 1) as [[m| | |]|]; try (intros []; fail).
  intros (A & B & P & D) X. split; [exact A|]. split; [exact B|]. split; [|split].
  - destruct (g_coor m); try contradiction X. replace 2%R with (1 + 1)%R by ring. exact X.
  - destruct (g_nodesPeriodic m); try contradiction P. intros I. enough (existsb (Nat.eqb 10) (map snd a) = true) by congruence.
    apply existsb_exists. exists 10. split; [exact I|]. apply Nat.eqb_refl.
  - destruct (g_dofsPeriodic m); try contradiction D. destruct (at2 a 6 0), (at2 a 10 0); try contradiction D. apply Nat.eqb_neq in D. repeat split; congruence.
Qed.

Lemma T3_open_faces_refuted :
  ~ (forall nelx nely nelz nfine h m, 1 <= nelx -> 1 <= nely -> 1 <= nelz ->
     HexFineLayer_init nelx nely nelz h nfine = Some (Ok m) -> (0 < h)%R ->
     exists X l, g_coor m = Ok X /\ g_nodesFrontFace m = Ok l /\
       lists_nodes3 X l (fun x y z => z = 0%R /\ inside (h * INR nelx) x /\ inside (h * INR (g_nely m)) y)).
Proof.
  intros H. pose proof witness3 as W. destruct (HexFineLayer_init 3 9 2 1 1) as [[m| | |]|] eqn:E; try contradiction W.
  destruct W as (Wn & Wl & Wx & _). destruct (H 3 9 2 1 1%R m ltac:(lia) ltac:(lia) ltac:(lia) E ltac:(lra)) as (X & l & EX & El & _ & L).
  rewrite EX in Wx. rewrite Wl in El. injection El as <-. destruct Wx as [W6 _].
  assert (I : In 6 [13; 14; 25; 26; 37; 38; 49; 50; 61; 62; 73; 74]).
  { apply L. exists 1%R, 1%R, 0%R. split; [exact W6|]. rewrite Wn. unfold inside. cbn [INR]. repeat split; lra. }
  cbn [In] in I. intuition discriminate.
Qed.

Lemma T3_periodic_refuted :
  ~ (forall nelx nely nelz nfine h m, 1 <= nelx -> 1 <= nely -> 1 <= nelz ->
     HexFineLayer_init nelx nely nelz h nfine = Some (Ok m) -> (0 < h)%R ->
     exists X ties, g_coor m = Ok X /\ g_nodesPeriodic m = Ok ties /\ periodic_ties3 X (h * INR nelx) (h * INR (g_nely m)) (h * INR nelz) ties) /\
  ~ (forall nelx nely nelz nfine h m, 1 <= nelx -> 1 <= nely -> 1 <= nelz ->
     HexFineLayer_init nelx nely nelz h nfine = Some (Ok m) -> (0 < h)%R ->
     exists X D N, g_coor m = Ok X /\ g_dofsPeriodic m = Ok D /\ periodic_dofs3 X (h * INR nelx) (h * INR (g_nely m)) (h * INR nelz) 3 D N).
Proof.
  pose proof witness3 as W. destruct (HexFineLayer_init 3 9 2 1 1) as [[m| | |]|] eqn:E; try contradiction W.
  destruct W as (Wn & _ & Wx & Wt & Wd). split; intros H.
  - destruct (H 3 9 2 1 1%R m ltac:(lia) ltac:(lia) ltac:(lia) E ltac:(lra)) as (X & ties & EX & Et & _ & _ & _ & L).
    rewrite EX in Wx. rewrite Et in Wt. destruct Wx as [_ W10]. apply Wt, L. exists 1%R, 1%R, 2%R. split; [exact W10|]. right. right. cbn [INR]. lra.
  - destruct (H 3 9 2 1 1%R m ltac:(lia) ltac:(lia) ltac:(lia) E ltac:(lra)) as (X & D & N & EX & ED & _ & L & _).
    rewrite EX in Wx. rewrite ED in Wd. destruct Wx as [W6 W10], Wd as (D1 & D2 & D3). destruct (at2 D 6 0) as [a|] eqn:E6; [|congruence]. destruct (at2 D 10 0) as [b|] eqn:E10; [|congruence].
    apply D1. f_equal. apply (L _ _ _ _ _ _ _ _ _ _ _ _ E6 E10 W6 W10). split; [reflexivity|]. exists 0%Z, 0%Z, 1%Z. cbn [INR]. repeat split; lra.
Qed.
