(** Property C119: the integration volumes on Mesh::Hex8::FineLayer and Mesh::Hex8::Regular are positive and add up to the volume of the domain; mass. *)
From Coq Require Import Reals ZArith Lra Lia List Arith.
From Verif Require Import Model_Element Spec_Element Proof_Element Proof_ElementQuad4 Proof_ElementMath Proof_ElementHex8 Base Spec Spec3d Sums Spec_Vector Spec_Macro Spec_HexMesh Model_Hex8Regular Model_Hex8FineLayer Model_Pipeline
  Proof_Hex8FineLayer Proof_Hex8FineLayerMesh Proof_Hex8FineLayerElem Proof_Hex8FineLayerThm Proof_HexBox Proof_HexGrid Proof_HexBody Proof_HexFineVolume.
Import ListNotations.

(** C119: Mesh::Hex8::FineLayer, also where the layers are refined and the elements are not boxes; both rules of eight points, and any history of update_x *)
Theorem C119_volume : forall nelx nely nelz nfine h m, 1 <= nelx -> 1 <= nely -> 1 <= nelz ->
  HexFineLayer_init nelx nely nelz h nfine = Some (Ok m) -> (0 < h)%R ->
  exists X C, g_coor m = Ok X /\ g_conn m = Ok C /\
    forall nip xi w x Q, full_rule3 nip xi w -> coordinates C (g_nelem m) 8 3 X x -> Hex8_obj (g_nelem m) nip xi w x Q ->
      (forall e q, e < g_nelem m -> q < nip -> (0 < q_vol Q [e;q])%R) /\
      sumn (g_nelem m) (fun e => sumn nip (fun q => q_vol Q [e;q])) = (h * INR nelx * (h * INR (g_nely m)) * (h * INR nelz))%R.
Proof.
  intros nelx nely nelz nfine h m H1 H2 H3 Hm Hh. destruct (the_mesh3 nelx nely nelz nfine h m H1 H2 H3 Hm) as (n & wx & wz & y & r & -> & G). pose proof (g3_layered _ _ _ _ _ _ _ _ _ G) as HL.
  exists (coorl3 nelx nelz n wx wz y r h), (connl3 nelx nelz n wx wz r). split; [now apply coor3_spec|]. split; [now apply conn3_spec|].
  rewrite nely_spec3.
  intros nip xi w x Q HR Hx HQ. apply (object_volume nelx nelz n wx wz y r h HL Hh _ nip xi w x Q); try assumption. rewrite connl3_length. reflexivity.
Qed.
Print Assumptions C119_volume.

(** C119: the mass of a body of density [rho]: the entries of the element matrices of Int_N_scalar_NT_dV that belong to one direction add up to
    the density times the volume, for any object with these volumes *)
Theorem C119_mass : forall nelem nip xi w x Q V, Hex8_obj nelem nip xi w x Q -> sumn nelem (fun e => sumn nip (fun q => q_vol Q [e;q])) = V ->
  forall es dens old rho, schedule nelem es -> (forall e q, e < nelem -> q < nip -> dens [e;q] = rho) -> forall i, i < 3 ->
  sumn nelem (fun e => sumn 8 (fun m => sumn 8 (fun k => Hex8_int_N_scalar_NT_dV es Q dens old [e; m * 3 + i; k * 3 + i]))) = (rho * V)%R.
Proof.
  intros nelem nip xi w x Q V HQ <- es dens old rho Hes Hd i Hi. pose proof (Hex8_facts _ _ _ _ _ _ HQ) as F. rewrite <- sumn_scal. apply sumn_ext. intros e He.
  rewrite (sumn_ext 8 _ (fun m => sumn nip (fun q => rho * q_vol Q [e;q] * Spec_Element.shape3 m (point xi q)))%R).
  - rewrite sumn_swap. rewrite <- sumn_scal. apply sumn_ext. intros q Hq. rewrite sumn_scal, shape3_sum. ring.
  - intros m Hm. rewrite (sumn_ext 8 _ (fun k => sumn nip (fun q => Spec_Element.shape3 m (point xi q) * rho * q_vol Q [e;q] * Spec_Element.shape3 k (point xi q)))%R).
    + rewrite sumn_swap. apply sumn_ext. intros q Hq. rewrite sumn_scal, shape3_sum. ring.
    + intros k Hk. rewrite (h_mass_at _ _ _ _ _ _ F es Hes) by assumption. rewrite Nat.eqb_refl. apply sumn_ext. intros q Hq. rewrite Hd by assumption. ring.
Qed.
Print Assumptions C119_mass.

(** C119: Mesh::Hex8::Regular *)
Theorem C119_regular : forall m, hex_mesh m -> forall x E, hex_body m x E ->
  (forall e q, e < hex_nelem m -> q < el_nip E -> (0 < el_dV E [e;q])%R) /\
  volume (hex_nelem m) E = (hx_h m * INR (hx_nelx m) * (hx_h m * INR (hx_nely m)) * (hx_h m * INR (hx_nelz m)))%R.
Proof.
  intros m (Hh & _) x E HB. split; [exact (box_volume _ x E (hex_box m x E Hh HB))|exact (hex_volume m x E Hh HB)].
Qed.
Print Assumptions C119_regular.

(** a mesh with refined layers: 46 elements that fill 3 x 9 x 2 *)
Example C119_ex : forall h, (0 < h)%R -> exists m X C x Q, HexFineLayer_init 3 9 2 h 1 = Some (Ok m) /\ g_coor m = Ok X /\ g_conn m = Ok C /\ coordinates C (g_nelem m) 8 3 X x /\
  Hex8_obj (g_nelem m) 8 (Gauss8_xi (fun _ => 0%R)) (Gauss8_w (fun _ => 0%R)) x Q /\ g_nelem m = 46 /\ g_nely m = 9 /\
  sumn 46 (fun e => sumn 8 (fun q => q_vol Q [e;q])) = (54 * (h * h * h))%R.
Proof.
  intros h Hh. destruct (HexFineLayer_init 3 9 2 h 1) as [m0|] eqn:E; [|vm_compute in E; discriminate]. destruct m0 as [m| | |]; try (vm_compute in E; discriminate).
  destruct (C119_volume 3 9 2 1 h m ltac:(lia) ltac:(lia) ltac:(lia) E Hh) as (X & C & EX & EC & V).
  assert (N : g_nelem m = 46 /\ g_nely m = 9) by (vm_compute in E; injection E as <-; split; vm_compute; reflexivity). destruct N as [N1 N2].
  exists m, X, C, (fun k => match k with [e;a;i] => val2 X (idx2 C e a) i | _ => 0%R end). eexists. split; [reflexivity|]. split; [exact EX|]. split; [exact EC|].
  assert (K : coordinates C (g_nelem m) 8 3 X (fun k => match k with [e;a;i] => val2 X (idx2 C e a) i | _ => 0%R end)) by (intros e a i _ _ _; reflexivity).
  split; [exact K|]. assert (O : Hex8_obj (g_nelem m) 8 (Gauss8_xi (fun _ => 0%R)) (Gauss8_w (fun _ => 0%R)) (fun k => match k with [e;a;i] => val2 X (idx2 C e a) i | _ => 0%R end)
    (Hex8_new (seq 0 (g_nelem m)) (g_nelem m) (fun k => match k with [e;a;i] => val2 X (idx2 C e a) i | _ => 0%R end) 8 (Gauss8_xi (fun _ => 0%R)) (Gauss8_w (fun _ => 0%R)) (fun _ => 0%R) (fun _ => 0%R) (fun _ => 0%R) (fun _ => 0%R) (fun _ => 0%R)))
    by (apply Hex8_obj_new, Permutation.Permutation_refl).
  split; [exact O|]. split; [exact N1|]. split; [exact N2|]. destruct (V 8 _ _ _ _ (rule_Gauss8 _ _) K O) as [_ S]. rewrite N1, N2 in S. rewrite N1. rewrite S. cbn [INR]. ring.
Qed.
