(** Property C75: rolling a mesh with a fine layer: the map of the nodes that [elemmap2nodemap] makes from [roll]. *)
From Coq Require Import Reals Lra Lia Permutation.
From Verif Require Import Model_Element Spec_Element Base Spec Sums Spec2d Spec_Tiling Spec_FineLayer Spec_Vector Model_Misc Model_MeshGeometry Model_FineLayer Prop_FineLayer Prop_MeshGeometry.
Import ListNotations.
Local Open Scope R_scope.

(** C75: for every mesh with a fine layer and every roll [k]: [elemmap2nodemap (mesh.roll(k), coor, conn)] exists, and maps each node to a node at the same height that is [k] of the coarsest
    blocks to the left, modulo the width of the mesh.  Hence to take the values of a horizontally periodic nodal field with it ([view(field, keep(nodemap))]) is to translate the field, whatever the field. *)
Theorem C75_roll : forall nelx nely nfine h m, (1 <= nelx)%nat -> (1 <= nely)%nat -> FineLayer_init nelx nely h nfine = Some (Ok m) -> 0 < h ->
  exists X C n0, f_coor m = Ok X /\ f_conn m = Ok C /\ nth_error (f_layer_nelx m) 0 = Some n0 /\
  forall k, exists l ret, f_roll m k = Ok l /\ elemmap2nodemap' l (length X) 2 C 4 = Ok ret /\ length ret = f_nnode m /\
    (forall p, (p < f_nnode m)%nat -> exists p' x y z, nth_error ret p = Some p' /\ node_at X p' x y /\
       node_at X p (x + (INR k * (h * INR nelx / INR n0) - INR z * (h * INR nelx))) y) /\
    (forall (A : Type) (f : R -> R -> A) field, (forall x y, f (x + h * INR nelx) y = f x y) -> length field = f_nnode m ->
       (forall p x y, node_at X p x y -> nth_error field p = Some (f x y)) ->
       exists rolled, mapM (get field) ret = Ok rolled /\ forall p x y, node_at X p x y -> nth_error rolled p = Some (f (x - INR k * (h * INR nelx / INR n0)) y)).
Proof.
  intros nelx nely nfine h m Hx Hy Em Hh. destruct (C22_roll _ _ _ _ _ Hx Hy Em Hh) as [X [C [n0 [EX [EC [E0 [HR _]]]]]]]. exists X, C, n0. split; [exact EX|]. split; [exact EC|]. split; [exact E0|]. intros k.
  destruct (C17_mesh _ _ _ _ _ Hx Hy Em) as [X' [C' [EX' [EC' [[SX SX2] [[SC SC2] [HN HU]]]]]]]. rewrite EX in EX'. injection EX' as <-. rewrite EC in EC'. injection EC' as <-.
  destruct (HR k) as [l [El [Pl Ht]]]. pose proof (Permutation_length Pl) as Ll. rewrite seq_length in Ll.
  assert (Hrow : forall e, (e < f_nelem m)%nat -> exists a b c d, nth_error C e = Some [a; b; c; d] /\ (a < f_nnode m)%nat /\ (b < f_nnode m)%nat /\ (c < f_nnode m)%nat /\ (d < f_nnode m)%nat).
  { intros e He. destruct (nth_error C e) as [r|] eqn:Er; [|apply nth_error_None in Er; lia]. pose proof (nth_error_In _ _ Er) as Ir. pose proof (SC2 r Ir) as Lr.
    destruct r as [|a [|b [|c [|d [|]]]]]; try discriminate. exists a, b, c, d. split; [reflexivity|]. repeat split; apply (HN _ _ Ir); cbn; auto. }
  assert (Hpos : forall p, (p < f_nnode m)%nat -> exists x y, node_at X p x y).
  { intros p Hp. unfold node_at. destruct (nth_error X p) as [r|] eqn:Er; [|apply nth_error_None in Er; lia]. pose proof (SX2 r (nth_error_In _ _ Er)) as Lr.
    destruct r as [|x [|y [|]]]; try discriminate. now exists x, y. }
  destruct (C75_nodemap l C (f_nelem m) (length X)) as [ret [_ [Er [Lr HV]]]].
  { split; [exact SC|exact SC2]. }
  { intros e i He Hi. destruct (Hrow e He) as [a [b [c [d [Ee [Ha [Hb [Hc Hd]]]]]]]]. unfold idx2, nth2. rewrite (nth_error_nth _ _ _ Ee), SX. destruct i as [|[|[|[|i]]]]; cbn; lia. }
  { exact Ll. }
  { intros e He. apply (Permutation_in _ Pl), in_seq in He. lia. }
  rewrite SX in Lr. exists l, ret. split; [exact El|]. split; [exact Er|]. split; [exact Lr|].
  assert (H1 : forall p, (p < f_nnode m)%nat -> exists p' x y z, nth_error ret p = Some p' /\ node_at X p' x y /\ node_at X p (x + (INR k * (h * INR nelx / INR n0) - INR z * (h * INR nelx))) y).
  { intros p Hp. exists (nth p ret 0%nat). destruct (HV p ltac:(lia)) as [[Hno _]|[e [i [He [Hi [Ep [En _]]]]]]].
    - exfalso. destruct (HU p Hp) as [r [Ir Ip]]. destruct (In_nth_error _ _ Ir) as [e Ee]. destruct (In_nth_error _ _ Ip) as [i Ei].
      assert (e < f_nelem m)%nat by (rewrite <- SC; apply nth_error_Some; congruence). assert (i < 4)%nat by (rewrite <- (SC2 r Ir); apply nth_error_Some; congruence).
      apply (Hno e i); [assumption|assumption|]. unfold idx2, nth2. rewrite (nth_error_nth _ _ _ Ee). exact (nth_error_nth _ _ _ Ei).
    - destruct (Ht e He) as [e' [r [r' [z [El' [Er1 [Er2 Htr]]]]]]].
      assert (He' : (e' < f_nelem m)%nat) by (rewrite <- SC; apply nth_error_Some; congruence).
      destruct (Hrow e' He') as [a [b [c [d [Ee' [Ha [Hb [Hc Hd]]]]]]]]. rewrite Er2 in Ee'. injection Ee' as ->.
      destruct (Hpos a Ha) as [xa [ya Na]], (Hpos b Hb) as [xb [yb Nb]], (Hpos c Hc) as [xc [yc Nc]], (Hpos d Hd) as [xd [yd Nd]].
      destruct (Htr xa ya xb yb xc yc xd yd) as [a1 [b1 [c1 [d1 [-> [Ma [Mb [Mc Md]]]]]]]]; [exists a, b, c, d; auto|].
      unfold idx2, nth2 in Ep, En. rewrite (nth_error_nth _ _ _ Er1) in Ep. rewrite (nth_error_nth _ _ _ El'), (nth_error_nth _ _ _ Er2) in En.
      assert (Hret : nth_error ret p = Some (nth p ret 0%nat)) by (apply nth_error_nth'; lia).
      destruct i as [|[|[|[|i]]]]; [| | | |lia]; cbn [nth] in Ep, En; rewrite En in *; subst p; eexists _, _, z; (split; [exact Hret|]; split; [eassumption|assumption]). }
  split; [exact H1|]. intros A f field Hper Lf Hf.
  assert (Hz : forall (z : nat) x y, f (x - INR z * (h * INR nelx)) y = f x y).
  { induction z as [|z IH]; intros x y; [f_equal; cbn; ring|]. rewrite <- Hper, <- (IH x y). f_equal. rewrite S_INR. ring. }
  exists (map (fun p => match nth_error X p with Some [x; y] => f (x - INR k * (h * INR nelx / INR n0)) y | _ => match field with v :: _ => v | [] => f 0 0 end end) (seq 0 (f_nnode m))).
  split.
  - assert (G : forall L s, (forall j p', nth_error L j = Some p' -> exists x y x' y', node_at X (s + j) x y /\ node_at X p' x' y' /\ f x' y' = f (x - INR k * (h * INR nelx / INR n0)) y) ->
      mapM (get field) L = Ok (map (fun p => match nth_error X p with Some [x; y] => f (x - INR k * (h * INR nelx / INR n0)) y | _ => match field with v :: _ => v | [] => f 0 0 end end) (seq s (length L)))).
    { induction L as [|q L IH]; intros s HL; [reflexivity|]. cbn [mapM length seq map].
      destruct (HL 0%nat q eq_refl) as [x [y [x' [y' [Nx [Ny Ef]]]]]]. rewrite Nat.add_0_r in Nx. unfold get at 1. rewrite (Hf _ _ _ Ny). cbn [bind]. rewrite (IH (S s)).
      - cbn [bind]. unfold node_at in Nx. rewrite Nx. now rewrite Ef.
      - intros j p' Hj. destruct (HL (S j) p' Hj) as [x1 [y1 [x2 [y2 Q]]]]. exists x1, y1, x2, y2. now replace (S s + j)%nat with (s + S j)%nat by lia. }
    rewrite <- Lr. apply (G ret 0%nat). intros j p' Hj. assert (Hjl : (j < f_nnode m)%nat) by (rewrite <- Lr; apply nth_error_Some; congruence).
    destruct (H1 j Hjl) as [p1 [x [y [z [E1 [N1 N2]]]]]]. rewrite Hj in E1. injection E1 as <-. eexists _, _, x, y. split; [exact N2|]. split; [exact N1|]. rewrite <- (Hz z x y) at 1. f_equal. ring.
  - intros p x y Np. assert (Hp : (p < f_nnode m)%nat) by (rewrite <- SX; apply nth_error_Some; unfold node_at in Np; congruence).
    rewrite nth_error_map, (nth_error_nth' _ 0%nat) by (rewrite seq_length; lia). rewrite seq_nth by lia. cbn [option_map Nat.add]. unfold node_at in Np. now rewrite Np.
Qed.
Print Assumptions C75_roll.
(** the periodic field of the test (tests/basic/Mesh.cpp:261-275), rolled by one *)
Example C75_roll_ex : forall h, match FineLayer_init 3 3 h 1 with Some (Ok m) =>
  match f_roll m 1, f_conn m with Ok l, Ok C => (do nm <- elemmap2nodemap' l 16 2 C 4; mapM (get [1; 0; 0; 1; 1; 0; 0; 1; 1; 0; 0; 1; 1; 0; 0; 1]%nat) nm) = Ok [0; 1; 0; 0; 0; 1; 0; 0; 0; 1; 0; 0; 0; 1; 0; 0]%nat | _, _ => False end | _ => False end.
Proof. intros h. vm_compute. reflexivity. Qed.
