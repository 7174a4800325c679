(** Property C122: explicit dynamics on a mesh of hexahedra: the Verlet program with the diagonal mass matrix of the nodal integration runs, and conserves the momentum. *)
From Coq Require Import Reals ZArith Lra Lia List Arith Permutation.
From Verif Require Import Model_Element Spec_Element Proof_Element Proof_ElementHex8 Proof_ElementMath Base Spec Spec3d Sums Spec_Vector Spec_Matrix Spec_MatrixDiagonal Spec_Macro Spec_HexMesh Spec_FineLayer3 Spec_LumpedMass Model_Numbering Proof_Numbering Model_Vector Proof_Vector Model_MatrixDiagonal
  Model_Hex8Regular Model_Hex8FineLayer Model_MeshGeometry Model_Pipeline Spec_Pipeline Proof_Pipeline Proof_MeshGeometry Proof_HexGrid Proof_HexBox Prop_Hex8Regular Prop_Hex8FineLayer Prop_MatrixPartitioned Prop_Pipeline Prop_HexMass.
Import ListNotations.

Lemma dofs_get nnode ndim n i : n < nnode -> i < ndim -> idx2 (dofs nnode ndim) n i = n * ndim + i.
Proof.
  intros Hn Hi. pose proof (dofs_at nnode ndim n i Hn Hi) as E. unfold idx2, nth2, at2 in *.
  destruct (nth_error (dofs nnode ndim) n) as [r|] eqn:Er; [|discriminate]. rewrite (nth_error_nth _ _ _ Er). exact (nth_error_nth _ _ _ E).
Qed.
Lemma own_numbering conn nelem nnode : 1 <= nnode -> Spec.shape2 conn nelem 8 -> (forall e, In e conn -> forall p, In p e -> p < nnode) ->
  mesh_dofs conn (dofs nnode 3) nelem 8 nnode 3 (nnode * 3) /\ no_holes (dofs nnode 3) (nnode * 3).
Proof.
  intros Hn SC B. split.
  - constructor; [exact SC|apply dofs_shape| |].
    + intros e k He Hk. destruct SC as [L S']. apply (B (nth e conn [])); [apply nth_In; lia|]. unfold idx2, nth2. apply nth_In. rewrite S'; [exact Hk|apply nth_In; lia].
    + rewrite concat_dofs. destruct nnode as [|n]; [lia|]. replace (S n * 3)%nat with (S (S (S (n * 3)))) by lia. now rewrite fold_max_seq.
  - intros d Hd. rewrite concat_dofs. apply in_seq. lia.
Qed.

(** a program for explicit dynamics: nodes [nnode], elements [conn], element mass matrices [K], element object [E]: no external force, initially no acceleration.
    The program runs any number of steps, for any law of the stress in each of the steps, any displacement and velocity at the start;
    the mass [mass] of the DOFs n * 3 + i is positive, the same in every direction, adds up to three times the mass of the body, and the momentum is conserved *)
Definition free_flight (conn : list (list nat)) (nelem nnode : nat) (K : list (list (list R))) (body : R) (E : Elem) : Prop :=
  let v := mkVector conn 8 (dofs nnode 3) 3 in
  exists M mass, MD_assemble (new_MatrixDiagonal v) K = Ok M /\ MD_data M = Ok mass /\ (forall d, d < nnode * 3 -> (0 < val1 mass d)%R) /\ sumn (nnode * 3) (val1 mass) = (3 * body)%R /\
  forall dt zero u w, (Spec.shape2 zero nnode 3 /\ forall n i, n < nnode -> i < 3 -> val2 zero n i = 0%R) -> Spec.shape2 u nnode 3 -> Spec.shape2 w nnode 3 ->
  forall steps : list ((arr -> arr) * (call * call)), Forall (fun s => valid_calls nelem (snd s)) steps ->
  exists u' w' a' M', foldM (fun st s => verlet_step v E (fst s) zero dt st (snd s)) steps (u, w, zero, M) = Ok (u', w', a', M') /\
    Spec.shape2 u' nnode 3 /\ Spec.shape2 w' nnode 3 /\ Spec.shape2 a' nnode 3 /\
    forall i, i < 3 -> sumn nnode (fun n => val1 mass (n * 3 + i) * val2 w' n i)%R = sumn nnode (fun n => val1 mass (n * 3 + i) * val2 w n i)%R.

Lemma own_nodal nnode u : Spec.shape2 u nnode 3 -> nodal (dofs nnode 3) nnode 3 u.
Proof.
  intros S. split; [exact S|]. intros m i n j Hm Hi Hn Hj Ed. rewrite !dofs_get in Ed by assumption.
  assert (m = n /\ i = j) as [-> ->] by lia. reflexivity.
Qed.

Theorem C122_flight : forall conn nelem nnode, 1 <= nnode -> Spec.shape2 conn nelem 8 -> (forall e, In e conn -> forall p, In p e -> p < nnode) ->
  forall Km body, Spec_Vector.shape3 Km nelem 24 24 -> good_mass conn (dofs nnode 3) nelem 8 nnode 3 (nnode * 3) Km (3 * body) ->
  forall x nip xi wt Q, Hex8_obj nelem nip xi wt x Q -> free_flight conn nelem nnode Km body (Hex8_elem Q).
Proof.
  intros conn nelem nnode Hn SC B Km body SK (_ & M & mass & EM & Ed & Lm & Pm & Tm & _) x nip xi wt Q HQ. unfold free_flight. set (v := mkVector conn 8 (dofs nnode 3) 3).
  destruct (own_numbering conn nelem nnode Hn SC B) as [Hmd _].
  exists M, mass. split; [exact EM|]. split; [exact Ed|]. split; [exact Pm|]. split; [exact Tm|].
  intros dt zero u w [SZ VZ] Su Sw steps Hst.
  set (order := list_prod (seq 0 nnode) (seq 0 3)).
  assert (Ho : Permutation order (node_iters v)) by (unfold v; rewrite (node_iters_eq conn (dofs nnode 3) nelem 8 nnode 3 (nnode * 3) Hmd); reflexivity).
  assert (AD : forall y, Spec.shape2 y nnode 3 -> exists Y, AsDofs_nodevec v order y = Ok Y /\ forall n i, n < nnode -> i < 3 -> val1 Y (n * 3 + i) = val2 y n i).
  { intros y Sy. destruct (AsDofs_nodevec_spec v nelem 8 nnode 3 (nnode * 3) eq_refl eq_refl Hmd order y Ho Sy (proj2 (own_nodal nnode y Sy))) as (Y & EY & _ & VY & _).
    exists Y. split; [exact EY|]. intros n i H1 H2. specialize (VY n i H1 H2). change (m_dofs v) with (dofs nnode 3) in VY. now rewrite dofs_get in VY. }
  destruct (AD zero SZ) as (F & EF & VF). destruct (AD w Sw) as (W & EW & VW).
  assert (D0 : forall (g : nat -> R), sumn (nnode * 3) (fun d => g d * val1 F d)%R = 0%R).
  { intros g. rewrite sumn_block. apply sumn_zero. intros n H1. apply sumn_zero. intros i H2. rewrite VF, VZ by assumption. ring. }
  assert (Main : forall i, i < 3 -> exists u' w' a' M', foldM (fun st s => verlet_step v (Hex8_elem Q) (fst s) zero dt st (snd s)) steps (u, w, zero, M) = Ok (u', w', a', M') /\
    Spec.shape2 u' nnode 3 /\ Spec.shape2 w' nnode 3 /\ Spec.shape2 a' nnode 3 /\
    sumn nnode (fun n => val1 mass (n * 3 + i) * val2 w' n i)%R = sumn nnode (fun n => val1 mass (n * 3 + i) * val2 w n i)%R).
  { intros i Hi. set (y := map (fun d => if d mod 3 =? i then 1%R else 0%R) (seq 0 (nnode * 3))).
    assert (Vy : forall n k, n < nnode -> k < 3 -> val1 y (n * 3 + k) = if k =? i then 1%R else 0%R).
    { intros n k H1 H2. unfold y, val1. set (g := fun d => if d mod 3 =? i then 1%R else 0%R). rewrite (nth_indep _ 0%R (g 0)) by (rewrite map_length, seq_length; nia).
      rewrite (map_nth g), seq_nth by nia. unfold g. cbn [Nat.add]. now rewrite (Nat.add_comm (n * 3)), Nat.mod_add, Nat.mod_small by lia. }
    destruct (C85_momentum conn (dofs nnode 3) nelem nnode (nnode * 3) x (Hex8_elem Q) (cart_Hex8 nelem nip xi wt x Q HQ)) with
      (Km := Km) (M := M) (mass := mass) (dt := dt) (fext := zero) (u := u) (w := w) (a := zero) (order := order) (F := F) (W := W) (A := F) (y := y)
      (t := fun k => if k =? i then 1%R else 0%R) (steps := steps) as (u' & w' & a' & M' & W' & E1 & S1 & N2 & N3 & _ & _ & EW' & R1).
    - exact Hmd.
    - exact SK.
    - exact EM.
    - exact Ed.
    - intros d Hd. specialize (Pm d Hd). lra.
    - now apply own_nodal.
    - exact Su.
    - now apply own_nodal.
    - now apply own_nodal.
    - reflexivity.
    - exact EF.
    - exact EW.
    - exact EF.
    - unfold y. now rewrite map_length, seq_length.
    - intros n k H1 H2. rewrite dofs_get by assumption. now apply Vy.
    - rewrite (sumn_ext _ _ (fun d => (val1 y d * val1 mass d) * val1 F d)%R) by (intros; ring). now rewrite !D0.
    - exact Hst.
    - exists u', w', a', M'. split; [exact E1|]. split; [exact S1|]. split; [apply N2|]. split; [apply N3|].
      rewrite D0 in R1. destruct (AD w' (proj1 N2)) as (W2 & EW2 & VW2). 
      assert (W2 = W') by (change (Hex8_elem Q) with (Hex8_elem Q) in EW'; cbn [Hex8_elem el_nne el_ndim] in EW'; fold v in EW'; rewrite EW2 in EW'; congruence). subst W2.
      assert (G : forall z Z, (forall n k, n < nnode -> k < 3 -> val1 Z (n * 3 + k) = val2 z n k) ->
        sumn (nnode * 3) (fun d => val1 y d * (val1 mass d * val1 Z d))%R = sumn nnode (fun n => val1 mass (n * 3 + i) * val2 z n i)%R).
      { intros z Z VZ'. rewrite sumn_block. apply sumn_ext. intros n H1.
        rewrite (sumn_ext 3 _ (fun k => if k =? i then val1 mass (n * 3 + k) * val2 z n k else 0)%R) by (intros k H2; rewrite Vy, VZ' by assumption; destruct (k =? i); ring).
        destruct i as [|[|[|i]]]; try lia; unfold sumn, sumL; cbn; ring. }
      rewrite (G w' W' VW2), (G w W VW) in R1. rewrite R1. ring. }
  destruct (Main 0 ltac:(lia)) as (u' & w' & a' & M' & E1 & S1 & S2 & S3 & R0).
  exists u', w', a', M'. split; [exact E1|]. split; [exact S1|]. split; [exact S2|]. split; [exact S3|].
  intros i Hi. destruct (Main i Hi) as (u2 & w2 & a2 & M2 & E2 & _ & _ & _ & R2). rewrite E1 in E2. now injection E2 as <- <- <- <-.
Qed.
Print Assumptions C122_flight.

Lemma g_nnode_pos nelx nely nelz nfine h m : 1 <= nelx -> 1 <= nely -> 1 <= nelz -> HexFineLayer_init nelx nely nelz h nfine = Some (Ok m) -> 1 <= g_nnode m.
Proof.
  intros H1 H2 H3 Hm. destruct (C25_mesh nelx nely nelz nfine h m H1 H2 H3 Hm) as (X & C & EX & EC & SX & SC & B & U).
  destruct (C26_middle nelx nely nelz nfine h m H1 H2 H3 Hm) as (X' & C' & l & _ & EC' & _ & Ll & A). assert (C' = C) by congruence. subst C'.
  destruct l as [|e l]; [cbn in Ll; nia|]. destruct (A 0 e eq_refl) as (E & HE & _). apply nth_error_In in HE.
  pose proof (proj2 SC E HE) as LE. assert (P : nth 0 E 0 < g_nnode m) by (apply (B E); [exact HE|apply nth_In; lia]). lia.
Qed.

(** C122: Mesh::Hex8::FineLayer, also with refined layers (which have non-matching gradients, C120): density [r] everywhere,
    mass matrix with the nodal quadrature, forces with any quadrature *)
Theorem C122_fine : forall nelx nely nelz nfine h m, 1 <= nelx -> 1 <= nely -> 1 <= nelz ->
  HexFineLayer_init nelx nely nelz h nfine = Some (Ok m) -> (0 < h)%R ->
  exists X C, g_coor m = Ok X /\ g_conn m = Ok C /\
    forall j j' x QM, coordinates C (g_nelem m) 8 3 X x -> Hex8_obj (g_nelem m) 8 (Nodal8_xi j) (Gauss8_w j') x QM ->
    forall es rho old r, schedule (g_nelem m) es -> (0 < r)%R -> (forall e q, e < g_nelem m -> q < 8 -> rho [e; q]%nat = r) ->
    forall nip xi wt Q, Hex8_obj (g_nelem m) nip xi wt x Q ->
    free_flight C (g_nelem m) (g_nnode m) (to_rows (g_nelem m) 24 24 (Hex8_int_N_scalar_NT_dV es QM rho old))
      (r * (h * INR nelx * (h * INR (g_nely m)) * (h * INR nelz)))%R (Hex8_elem Q).
Proof.
  intros nelx nely nelz nfine h m H1 H2 H3 Hm Hh. destruct (C121_fine nelx nely nelz nfine h m H1 H2 H3 Hm Hh) as (X & C & EX & EC & V).
  destruct (C25_mesh nelx nely nelz nfine h m H1 H2 H3 Hm) as (X2 & C2 & EX2 & EC2 & _ & SC & B & U).
  assert (C2 = C) by congruence. subst C2. exists X, C. split; [exact EX|]. split; [exact EC|].
  intros j j' x QM Hx HQM es rho old r Hes Hr Hrho nip xi wt Q HQ.
  assert (Hn : 1 <= g_nnode m) by now apply (g_nnode_pos nelx nely nelz nfine h m).
  destruct (own_numbering C (g_nelem m) (g_nnode m) Hn SC (fun e He p Hp => B e p He Hp)) as [Hmd Hho].
  apply (C122_flight C (g_nelem m) (g_nnode m) Hn SC (fun e He p Hp => B e p He Hp)) with (nip := nip) (xi := xi) (wt := wt) (x := x); [apply to_rows_shape| |exact HQ].
  now apply (V (dofs (g_nnode m) 3) (g_nnode m * 3) Hmd Hho j j' x QM Hx HQM).
Qed.
Print Assumptions C122_fine.

(** C122: Mesh::Hex8::Regular *)
Theorem C122_regular : forall m, hex_mesh m ->
  forall j j' x QM, coordinates (hex_conn m) (hex_nelem m) 8 3 (hex_coor m) x -> Hex8_obj (hex_nelem m) 8 (Nodal8_xi j) (Gauss8_w j') x QM ->
  forall es rho old r, schedule (hex_nelem m) es -> (0 < r)%R -> (forall e q, e < hex_nelem m -> q < 8 -> rho [e; q]%nat = r) ->
  forall nip xi wt Q, Hex8_obj (hex_nelem m) nip xi wt x Q ->
  free_flight (hex_conn m) (hex_nelem m) (hex_nnode m) (to_rows (hex_nelem m) 24 24 (Hex8_int_N_scalar_NT_dV es QM rho old))
    (r * (hx_h m * INR (hx_nelx m) * (hx_h m * INR (hx_nely m)) * (hx_h m * INR (hx_nelz m))))%R (Hex8_elem Q).
Proof.
  intros m HM j j' x QM Hx HQM es rho old r Hes Hr Hrho nip xi wt Q HQ. destruct (C12_conn m) as (SC & _ & _ & B & _).
  assert (Hn : 1 <= hex_nnode m) by (destruct HM as (_ & ? & ? & ?); unfold hex_nnode; nia).
  destruct (own_numbering _ (hex_nelem m) (hex_nnode m) Hn SC (fun e He p Hp => B e p He Hp)) as [Hmd Hho].
  apply (C122_flight _ (hex_nelem m) (hex_nnode m) Hn SC (fun e He p Hp => B e p He Hp)) with (nip := nip) (xi := xi) (wt := wt) (x := x); [apply to_rows_shape| |exact HQ].
  now apply (C121_regular m HM (dofs (hex_nnode m) 3) (hex_nnode m * 3) Hmd Hho j j' x QM Hx HQM).
Qed.
Print Assumptions C122_regular.

(** the refined mesh of 3 x 9 x 2, at rest and moving in one direction *)
Example C122_ex : exists m C, HexFineLayer_init 3 9 2 1 1 = Some (Ok m) /\ g_conn m = Ok C /\ g_nelem m = 46 /\ g_nnode m = 96 /\
  Spec.shape2 C 46 8 /\ (forall e, In e C -> forall p, In p e -> p < 96) /\ Spec.shape2 (repeat [0; 0; 0]%R 96) 96 3 /\ Spec.shape2 (repeat [1; 0; 0]%R 96) 96 3.
Proof.
  destruct (C25_terminates 3 9 2 1%R 1 ltac:(lia) ltac:(lia) ltac:(lia)) as (m & Hm).
  destruct (C25_mesh 3 9 2 1 1%R m ltac:(lia) ltac:(lia) ltac:(lia) Hm) as (X & C & EX & EC & _ & SC & B & _).
  assert (N : g_nelem m = 46 /\ g_nnode m = 96) by (vm_compute in Hm; injection Hm as <-; vm_compute; split; reflexivity). destruct N as [N1 N2].
  exists m, C. rewrite N1, N2 in *. do 4 (split; [assumption || reflexivity|]). split; [exact SC|]. split; [intros e He p Hp; now apply (B e p)|].
  split; (split; [apply repeat_length|]; intros l Hl; apply repeat_spec in Hl; now rewrite Hl).
Qed.
