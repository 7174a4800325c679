(** RegularBase3d::nodesPeriodic: periodicity from the node sets on the boundary. *)
From Coq Require Import Reals ZArith Lra.
From Verif Require Import Base Spec Spec3d Model_Numbering Model_Hex8Regular Proof_Regular2d Proof_Hex8Regular Proof_FineLayerBoundary.

Section Generic3.
Variables (X : list (list R)) (Lx Ly Lz : R) (b : boundary3d) (WX WZ : R -> Prop).
Hypothesis D : in_domain3 X Lx Ly Lz.
Hypothesis HLx : (0 < Lx)%R.
Hypothesis HLy : (0 < Ly)%R.
Hypothesis HLz : (0 < Lz)%R.
(** the heights of the nodes on the faces front/back, left/right *)
Hypothesis HWX : forall y, WX y -> inside Ly y.
Hypothesis HWZ : forall y, WZ y -> inside Ly y.
Hypothesis DWX : forall y, WX y \/ ~ WX y.
Hypothesis DWZ : forall y, WZ y \/ ~ WZ y.
Notation lists := (lists_nodes3 X).
Hypothesis P_fro : lists (f_fro b) (fun x y z => z = 0%R /\ inside Lx x /\ WX y).
Hypothesis P_bck : lists (f_bck b) (fun x y z => z = Lz /\ inside Lx x /\ WX y).
Hypothesis P_lft : lists (f_lft b) (fun x y z => x = 0%R /\ WZ y /\ inside Lz z).
Hypothesis P_rgt : lists (f_rgt b) (fun x y z => x = Lx /\ WZ y /\ inside Lz z).
Hypothesis P_bot : lists (f_bot b) (fun x y z => y = 0%R /\ inside Lx x /\ inside Lz z).
Hypothesis P_top : lists (f_top b) (fun x y z => y = Ly /\ inside Lx x /\ inside Lz z).
Hypothesis P_froBot : lists (e_froBot b) (fun x y z => z = 0%R /\ y = 0%R /\ inside Lx x).
Hypothesis P_froTop : lists (e_froTop b) (fun x y z => z = 0%R /\ y = Ly /\ inside Lx x).
Hypothesis P_froLft : lists (e_froLft b) (fun x y z => z = 0%R /\ x = 0%R /\ inside Ly y).
Hypothesis P_froRgt : lists (e_froRgt b) (fun x y z => z = 0%R /\ x = Lx /\ inside Ly y).
Hypothesis P_bckBot : lists (e_bckBot b) (fun x y z => z = Lz /\ y = 0%R /\ inside Lx x).
Hypothesis P_bckTop : lists (e_bckTop b) (fun x y z => z = Lz /\ y = Ly /\ inside Lx x).
Hypothesis P_bckLft : lists (e_bckLft b) (fun x y z => z = Lz /\ x = 0%R /\ inside Ly y).
Hypothesis P_bckRgt : lists (e_bckRgt b) (fun x y z => z = Lz /\ x = Lx /\ inside Ly y).
Hypothesis P_botLft : lists (e_botLft b) (fun x y z => y = 0%R /\ x = 0%R /\ inside Lz z).
Hypothesis P_botRgt : lists (e_botRgt b) (fun x y z => y = 0%R /\ x = Lx /\ inside Lz z).
Hypothesis P_topLft : lists (e_topLft b) (fun x y z => y = Ly /\ x = 0%R /\ inside Lz z).
Hypothesis P_topRgt : lists (e_topRgt b) (fun x y z => y = Ly /\ x = Lx /\ inside Lz z).
Hypothesis P_fbl : node_at3 X (n_fbl b) 0 0 0.
Hypothesis P_fbr : node_at3 X (n_fbr b) Lx 0 0.
Hypothesis P_ftl : node_at3 X (n_ftl b) 0 Ly 0.
Hypothesis P_ftr : node_at3 X (n_ftr b) Lx Ly 0.
Hypothesis P_bbl : node_at3 X (n_bbl b) 0 0 Lz.
Hypothesis P_bbr : node_at3 X (n_bbr b) Lx 0 Lz.
Hypothesis P_btl : node_at3 X (n_btl b) 0 Ly Lz.
Hypothesis P_btr : node_at3 X (n_btr b) Lx Ly Lz.

(** the lists correspond: same length, and the nodes have the same coordinates in the directions of [d] *)
Definition paired (l l' : list nat) (d : (R -> R -> R -> R -> R -> R -> Prop)) : Prop :=
  length l = length l' /\ forall p q x y z x' y' z', In (p, q) (combine l l') -> node_at3 X p x y z -> node_at3 X q x' y' z' -> d x y z x' y' z'.
Notation sx := (fun x y z x' y' z' => x = x').
Notation sy := (fun x y z x' y' z' => y = y').
Notation sz := (fun x y z x' y' z' => z = z').
Notation sxy := (fun x y z x' y' z' => x = x' /\ y = y').
Notation syz := (fun x y z x' y' z' => y = y' /\ z = z').
Notation sxz := (fun x y z x' y' z' => x = x' /\ z = z').
Hypothesis C1 : paired (e_froBot b) (e_bckBot b) sx.
Hypothesis C2 : paired (e_froBot b) (e_bckTop b) sx.
Hypothesis C3 : paired (e_froBot b) (e_froTop b) sx.
Hypothesis C4 : paired (e_botLft b) (e_botRgt b) sz.
Hypothesis C5 : paired (e_botLft b) (e_topRgt b) sz.
Hypothesis C6 : paired (e_botLft b) (e_topLft b) sz.
Hypothesis C7 : paired (e_froLft b) (e_froRgt b) sy.
Hypothesis C8 : paired (e_froLft b) (e_bckRgt b) sy.
Hypothesis C9 : paired (e_froLft b) (e_bckLft b) sy.
Hypothesis C10 : paired (f_fro b) (f_bck b) sxy.
Hypothesis C11 : paired (f_lft b) (f_rgt b) syz.
Hypothesis C12 : paired (f_bot b) (f_top b) sxz.

Definition moved (L u u' : R) : Prop := (u' = u \/ (u = 0 /\ u' = L))%R.
Definition tie_ok (p q : nat) : Prop := exists x y z x' y' z', node_at3 X p x y z /\ node_at3 X q x' y' z' /\
  (0 <= x < Lx /\ 0 <= y < Ly /\ 0 <= z < Lz)%R /\ (x' = Lx \/ y' = Ly \/ z' = Lz) /\ moved Lx x x' /\ moved Ly y y' /\ moved Lz z z'.

Lemma pair_ok l l' P P' d p q : lists l P -> lists l' P' -> paired l l' d -> In (p, q) (combine l l') ->
  exists x y z x' y' z', node_at3 X p x y z /\ node_at3 X q x' y' z' /\ P x y z /\ P' x' y' z' /\ d x y z x' y' z'.
Proof.
  intros [_ A] [_ A'] [_ C] H. pose proof (in_combine_l _ _ _ _ H) as H1. pose proof (in_combine_r _ _ _ _ H) as H2.
  apply A in H1. apply A' in H2. destruct H1 as (x & y & z & B1 & B2), H2 as (x' & y' & z' & B1' & B2'). exists x, y, z, x', y', z'. repeat split; auto. eapply C; eassumption.
Qed.

Ltac close := unfold inside, moved in *; cbv beta in *; repeat match goal with H : _ /\ _ |- _ => destruct H end; subst; repeat split; try lra; auto 6.

Lemma ties_ok p q : In (p, q) (nodesPeriodic3d b) -> tie_ok p q.
Proof.
  intros H. unfold nodesPeriodic3d in H. apply in_app_or in H. destruct H as [H|H].
  - cbn [In] in H. destruct H as [E|[E|[E|[E|[E|[E|[E|[]]]]]]]]; injection E as <- <-; unfold tie_ok; do 6 eexists; (split; [exact P_fbl|]); (split; [eassumption|]); close.
  - assert (S : forall l l' P P' d, lists l P -> lists l' P' -> paired l l' d -> 
      (forall x y z x' y' z', P x y z -> P' x' y' z' -> d x y z x' y' z' -> (0 <= x < Lx /\ 0 <= y < Ly /\ 0 <= z < Lz)%R /\ (x' = Lx \/ y' = Ly \/ z' = Lz) /\ moved Lx x x' /\ moved Ly y y' /\ moved Lz z z') ->
      In (p, q) (combine l l') -> tie_ok p q).
    { intros l l' P P' d A A' C K I. destruct (pair_ok _ _ _ _ _ _ _ A A' C I) as (x & y & z & x' & y' & z' & B1 & B2 & B3 & B4 & B5). exists x, y, z, x', y', z'. split; [exact B1|]. split; [exact B2|]. now apply K. }
    repeat (apply in_app_or in H; destruct H as [H|H]).
    + revert H. apply (S _ _ _ _ _ P_froBot P_bckBot C1). intros; close.
    + revert H. apply (S _ _ _ _ _ P_froBot P_bckTop C2). intros; close.
    + revert H. apply (S _ _ _ _ _ P_froBot P_froTop C3). intros; close.
    + revert H. apply (S _ _ _ _ _ P_botLft P_botRgt C4). intros; close.
    + revert H. apply (S _ _ _ _ _ P_botLft P_topRgt C5). intros; close.
    + revert H. apply (S _ _ _ _ _ P_botLft P_topLft C6). intros; close.
    + revert H. apply (S _ _ _ _ _ P_froLft P_froRgt C7). intros; close.
    + revert H. apply (S _ _ _ _ _ P_froLft P_bckRgt C8). intros; close.
    + revert H. apply (S _ _ _ _ _ P_froLft P_bckLft C9). intros; close.
    + revert H. apply (S _ _ _ _ _ P_fro P_bck C10). intros x y z x' y' z' (A1 & A2 & A3) ? ?. specialize (HWX y A3) as K. close.
    + revert H. apply (S _ _ _ _ _ P_lft P_rgt C11). intros x y z x' y' z' (A1 & A2 & A3) ? ?. specialize (HWZ y A2) as K. close.
    + revert H. apply (S _ _ _ _ _ P_bot P_top C12). intros; close.
Qed.

Lemma ties_snd3 : map snd (nodesPeriodic3d b) = [n_fbr b; n_bbr b; n_bbl b; n_ftl b; n_ftr b; n_btr b; n_btl b]
  ++ e_bckBot b ++ e_bckTop b ++ e_froTop b ++ e_botRgt b ++ e_topRgt b ++ e_topLft b ++ e_froRgt b ++ e_bckRgt b ++ e_bckLft b ++ f_bck b ++ f_rgt b ++ f_top b.
Proof.
  unfold nodesPeriodic3d. rewrite !map_app. rewrite !map_snd_combine by (apply C1 || apply C2 || apply C3 || apply C4 || apply C5 || apply C6 || apply C7 || apply C8 || apply C9 || apply C10 || apply C11 || apply C12). reflexivity.
Qed.

Lemma lists_app l l' P P' : lists l P -> lists l' P' -> (forall x y z, P x y z -> P' x y z -> False) -> lists (l ++ l') (fun x y z => P x y z \/ P' x y z).
Proof.
  intros [N A] [N' A'] K. split.
  - apply NoDup_app_intro; auto. intros p H H'. apply A in H. apply A' in H'. destruct H as (x & y & z & B1 & B2), H' as (x' & y' & z' & B1' & B2').
    destruct (node_at3_fun _ _ _ _ _ _ _ _ B1 B1') as (<- & <- & <-). eauto.
  - intros p. rewrite in_app_iff, A, A'. split.
    + intros [(x & y & z & B1 & B2)|(x & y & z & B1 & B2)]; exists x, y, z; auto.
    + intros (x & y & z & B1 & [B2|B2]); [left|right]; exists x, y, z; auto.
Qed.
Lemma lists_cons p l P x y z : node_at3 X p x y z -> lists l P -> ~ P x y z -> lists (p :: l) (fun x' y' z' => (x' = x /\ y' = y /\ z' = z) \/ P x' y' z').
Proof.
  intros H A K. apply (lists_app [p] l (fun x' y' z' => x' = x /\ y' = y /\ z' = z) P); [|exact A|intros ? ? ? (-> & -> & ->) B; auto].
  split; [repeat constructor; intros []|]. intros q. cbn [In]. split.
  - intros [<-|[]]. exists x, y, z. auto.
  - intros (x' & y' & z' & B & -> & -> & ->). left. destruct D as (_ & _ & J). eapply J; eassumption.
Qed.

(** the nodes at the right, top and back, except those of the faces that are not listed *)
Definition tied (x y z : R) : Prop :=
  (x = Lx \/ y = Ly \/ z = Lz) /\ ~ (z = Lz /\ inside Lx x /\ inside Ly y /\ ~ WX y) /\ ~ (x = Lx /\ inside Lz z /\ inside Ly y /\ ~ WZ y).

Lemma ties_lists : lists (map snd (nodesPeriodic3d b)) tied.
Proof.
  rewrite ties_snd3. cbn [app].
  pose proof (HWX 0%R) as HX0. pose proof (HWX Ly) as HX1. pose proof (HWZ 0%R) as HZ0. pose proof (HWZ Ly) as HZ1. unfold inside in HX0, HX1, HZ0, HZ1.
  match goal with |- lists ?l _ => assert (G : exists P, lists l P /\ forall x y z, P x y z <-> (0 <= x <= Lx /\ 0 <= y <= Ly /\ 0 <= z <= Lz)%R /\ tied x y z) end.
  - eexists. split.
    + repeat (eapply lists_cons; [eassumption| |]).
      { repeat (eapply lists_app; [eassumption| |]). eassumption.
        all: intros x y z; unfold inside; intros; repeat match goal with H : _ /\ _ |- _ => destruct H | H : _ \/ _ |- _ => destruct H end; subst; try lra;
          try (apply HX0 in H1 || apply HX1 in H1 || apply HZ0 in H1 || apply HZ1 in H1; lra);
          match goal with H : WX _ |- _ => first [apply HX0 in H|apply HX1 in H]; lra | H : WZ _ |- _ => first [apply HZ0 in H|apply HZ1 in H]; lra end. }
      all: unfold inside; intros; repeat match goal with H : _ /\ _ |- _ => destruct H | H : _ \/ _ |- _ => destruct H end; subst; try lra.
    + intros x y z. unfold tied. split.
      * intros H. repeat match goal with H : _ \/ _ |- _ => destruct H end; repeat match goal with H : _ /\ _ |- _ => destruct H end;
        repeat match goal with H : WX ?u |- _ => lazymatch goal with _ : inside Ly u |- _ => fail | _ => pose proof (HWX u H) end | H : WZ ?u |- _ => lazymatch goal with _ : inside Ly u |- _ => fail | _ => pose proof (HWZ u H) end end;
        unfold inside in *; subst; (split; [lra|]); (split; [tauto|]); split; intros (K1 & K2 & K3 & K4); solve [lra|tauto].
      * intros ((Dx & Dy & Dz) & K & N1 & N2).
        assert (Ex : x = 0%R \/ x = Lx \/ inside Lx x) by (unfold inside; destruct (Rtotal_order x 0) as [|[|]]; destruct (Rtotal_order x Lx) as [|[|]]; auto; lra).
        assert (Ey : y = 0%R \/ y = Ly \/ inside Ly y) by (unfold inside; destruct (Rtotal_order y 0) as [|[|]]; destruct (Rtotal_order y Ly) as [|[|]]; auto; lra).
        assert (Ez : z = 0%R \/ z = Lz \/ inside Lz z) by (unfold inside; destruct (Rtotal_order z 0) as [|[|]]; destruct (Rtotal_order z Lz) as [|[|]]; auto; lra).
        assert (K1 : z = Lz -> inside Lx x -> inside Ly y -> WX y) by (destruct (DWX y); tauto).
        assert (K2 : x = Lx -> inside Lz z -> inside Ly y -> WZ y) by (destruct (DWZ y); tauto). clear N1 N2.
        destruct Ex as [Ex|[Ex|Ex]], Ey as [Ey|[Ey|Ey]], Ez as [Ez|[Ez|Ez]];
          first [solve [repeat first [solve [left; (split; [|split]); auto]|right]; (split; [|split]); auto]|exfalso; clear - HLx HLy HLz K Ex Ey Ez; unfold inside in *; lra].
  - destruct G as (P & [N A] & E). split; [exact N|]. intros p. rewrite A. split; intros (x & y & z & B1 & B2); exists x, y, z; (split; [exact B1|]).
    + apply E in B2. tauto.
    + apply E. split; [|exact B2]. destruct D as (_ & B & _). exact (B _ _ _ _ B1).
Qed.

Lemma tie_congruent p q x y z x' y' z' : In (p, q) (nodesPeriodic3d b) -> node_at3 X p x y z -> node_at3 X q x' y' z' -> congruent3 Lx Ly Lz x y z x' y' z'.
Proof.
  intros H A B. destruct (ties_ok p q H) as (u & v & w & u' & v' & w' & A' & B' & _ & _ & M1 & M2 & M3).
  destruct (node_at3_fun _ _ _ _ _ _ _ _ A A') as (-> & -> & ->), (node_at3_fun _ _ _ _ _ _ _ _ B B') as (-> & -> & ->).
  assert (S : forall L a a', moved L a a' -> exists k, a' = (a + IZR k * L)%R) by (intros L a a' [->|[-> ->]]; [exists 0%Z|exists 1%Z]; ring).
  destruct (S _ _ _ M1) as (k1 & E1), (S _ _ _ M2) as (k2 & E2), (S _ _ _ M3) as (k3 & E3). exists k1, k2, k3. auto.
Qed.

Lemma ties_wf : wf_ties (length X) (nodesPeriodic3d b).
Proof.
  split; [|split].
  - intros p q H. destruct (ties_ok p q H) as (u & v & w & u' & v' & w' & A & B & _). split; eapply node_at3_lt; eassumption.
  - apply ties_lists.
  - intros p Hp Hq. apply in_map_iff in Hp. destruct Hp as ([p' q] & E & Hp). cbn in E. subst p'.
    apply in_map_iff in Hq. destruct Hq as ([p' q'] & E & Hq). cbn in E. subst q'.
    destruct (ties_ok _ _ Hp) as (x & y & z & _ & _ & _ & A & _ & K & _). destruct (ties_ok _ _ Hq) as (_ & _ & _ & x' & y' & z' & _ & B & _ & K' & _).
    destruct (node_at3_fun _ _ _ _ _ _ _ _ A B) as (-> & -> & ->). lra.
Qed.

Lemma ties_periodic : (forall p x y z, node_at3 X p x y z -> (z = Lz -> inside Lx x -> inside Ly y -> WX y) /\ (x = Lx -> inside Lz z -> inside Ly y -> WZ y)) ->
  periodic_ties3 X Lx Ly Lz (nodesPeriodic3d b).
Proof.
  intros K. split; [exact ties_wf|]. split; [intros; eapply tie_congruent; eassumption|]. destruct ties_lists as [N A]. split; [exact N|].
  intros p. rewrite A. split; intros (x & y & z & B1 & B2); exists x, y, z; (split; [exact B1|]).
  - apply B2.
  - destruct (K p x y z B1) as [K1 K2]. split; [exact B2|]. tauto.
Qed.
End Generic3.
