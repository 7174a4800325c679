(** C100: the quadrature classes in memory: no access out of bounds, and the entries of the result are those of the mathematical model.
    C101: constructor and update_x in memory. *)
From Coq Require Import Reals.
From Verif Require Import Prop_ElementQuad4.
From Verif Require Import Model_Element Spec_Element Base Model_Checked Model_ElementMemory Spec_ElementMemory Proof_Checked Proof_ElementMemory Proof_ElementKernels Proof_ElementObjects.

Lemma new_m_x ck c es g1 g2 g3 g4 junk x xi w Q : new_quad ck c es g1 g2 g3 g4 junk x xi w = Ok Q -> m_x Q = x.
Proof.
  unfold new_quad. destruct (b_shape x) as [|a [|b [|d [|]]]]; try discriminate. destruct (b_shape xi) as [|a' [|b' [|]]]; try discriminate. destruct (b_shape w) as [|a'' [|]]; try discriminate. cbv zeta.
  unfold assert. intro H.
  destruct c; cbn in H;
    repeat match type of H with
    | (if ?b then _ else _) = Ok _ => destruct b; [discriminate|]
    | bind ?r _ = Ok _ => destruct r; cbn [bind] in H; try discriminate
    end; injection H as <-; reflexivity.
Qed.
Lemma update_m_x ck c es junk x Q Q' : update_x ck c es junk x Q = Ok Q' -> m_x Q' = x.
Proof. unfold update_x, assert. destruct (ck && _); [discriminate|]. intro H. destruct (m_compute_dN _ _ _ _ _ _ _ _ _); cbn [bind] in H; try discriminate. now injection H as <-. Qed.
Lemma constructed_m_x ck c xi w x Q : constructed ck c xi w x Q -> m_x Q = x.
Proof. intros [es g1 g2 g3 g4 junk x' Q' _ _ H | es junk x0 Q0 x' Q' _ _ _ _ H]; [eapply new_m_x | eapply update_m_x]; exact H. Qed.
Lemma update_shape ck c es junk x Q Q' : update_x ck c es junk x Q = Ok Q' -> ck = true -> b_shape x = b_shape (m_x Q).
Proof. unfold update_x, assert. intros H ->. destruct (has_shape (b_shape x) (b_shape (m_x Q))) eqn:E; [now apply has_shape_eq | discriminate]. Qed.
Lemma constructed_represents ck c nelem nip xi w x Q : constructed ck c xi w x Q -> array xi -> array w -> documented c nelem nip x xi w -> exists O, represents c nelem nip xi w x Q O.
Proof.
  intros H Axi Aw. induction H as [es g1 g2 g3 g4 junk x Q Hes Ax E | es junk x0 Q x Q' Hes Ax H IH Hsh E]; intro Hd.
  - destruct (new_rep ck c es g1 g2 g3 g4 junk nelem nip x xi w Hes Ax Axi Aw Hd) as (Q' & O & E' & R). rewrite E in E'. injection E' as <-. eauto.
  - assert (Esh : b_shape x = b_shape x0).
    { destruct ck; [|now apply Hsh]. rewrite (update_shape _ _ _ _ _ _ _ E eq_refl). now rewrite (constructed_m_x _ _ _ _ _ _ H). }
    destruct Hd as (Hx & Hd). destruct IH as (O & R); [rewrite Esh in Hx; now split|].
    destruct (update_rep ck c es junk nelem nip xi w x0 x Q O Hes Ax R Hx) as (Q1 & O' & E' & R'). rewrite E in E'. injection E' as <-. eauto.
Qed.

Lemma call_kernel c es nelem nip xi w x Q O f n arg out ck : represents c nelem nip xi w x Q O -> components c f n ->
  b_shape arg = argument_shape c nelem nip f n -> b_shape out = result_shape c nelem nip f n ->
  call ck c es Q f arg out = kernel c (es nelem) Q f n arg out.
Proof.
  intros R Hn Ea Eo. unfold call. cbv zeta.
  assert (W : forall m, io_shapes c Q f m = io_shapes c Q f n -> kernel c (es (m_nelem Q)) Q f m arg out = kernel c (es (m_nelem Q)) Q f n arg out ->
    (let (i, o) := io_shapes c Q f m in assert ck (has_shape (b_shape arg) i) (assert ck (has_shape (b_shape out) o) (kernel c (es (m_nelem Q)) Q f m arg out))) = kernel c (es nelem) Q f n arg out).
  { intros m E1 E2. rewrite E1, E2, (io_documented _ _ _ _ _ _ _ _ _ _ R Hn), Ea, Eo, !has_shape_refl, !assert_true. destruct R as (_ & -> & _). reflexivity. }
  assert (A2 : match f with InterpQuad_vector | Int_N_vector_dV => nth_error (b_shape arg) 2 = Some n | _ => True end) by (rewrite Ea; destruct f; auto).
  destruct f, c; try rewrite A2; apply W; reflexivity.
Qed.

(** ** C100 *)
(** an object built by the constructor and updated any number of times stands for an object of the mathematical model, and every method does
    what that model does, with or without assertions: no access out of bounds, result of the documented shape *)
Theorem C100_methods ck c nelem nip xi w x Q : constructed ck c xi w x Q -> array xi -> array w -> documented c nelem nip x xi w ->
  exists O, is_object c nelem nip (entry xi) (entry w) (entry x) O
    /\ (forall ck' es f n arg out, schedules es -> components c f n -> array arg -> array out ->
          b_shape arg = argument_shape c nelem nip f n -> b_shape out = result_shape c nelem nip f n ->
          exists r, call ck' c es Q f arg out = Ok r /\ array r /\ b_shape r = result_shape c nelem nip f n
            /\ forall ix, index (result_shape c nelem nip f n) ix -> entry r ix = result O (es nelem) f n (entry arg) (entry out) ix).
Proof.
  intros H Axi Aw Hd. destruct (constructed_represents _ _ _ _ _ _ _ _ H Axi Aw Hd) as (O & R). exists O. split; [apply R|].
  intros ck' es f n arg out Hes Hn Aa Ao Ea Eo. rewrite (call_kernel _ _ _ _ _ _ _ _ _ _ _ _ _ ck' R Hn Ea Eo).
  destruct (kernel_rep c (es nelem) nelem nip xi w x Q O f n arg out (Hes nelem) R Hn Aa Ao Ea Eo) as (r & E & S).
  exists r. split; [exact E|]. split; [eapply stored_array; exact S|]. split; [apply S|]. intros ix Hi. exact (entry_stored _ _ _ _ S Hi).
Qed.

(** the methods that return their result do the same, whatever was in the new memory *)
Theorem C100_by_value ck c nelem nip xi w x Q : constructed ck c xi w x Q -> array xi -> array w -> documented c nelem nip x xi w ->
  exists O, is_object c nelem nip (entry xi) (entry w) (entry x) O
    /\ (forall ck' es f n g arg, schedules es -> components c f n -> array arg -> b_shape arg = argument_shape c nelem nip f n ->
          exists r, call_by_value ck' c es Q f g arg = Ok r /\ array r /\ b_shape r = result_shape c nelem nip f n
            /\ forall ix, index (result_shape c nelem nip f n) ix -> entry r ix = result O (es nelem) f n (entry arg) (entry (uninit (result_shape c nelem nip f n) g)) ix).
Proof.
  intros H Axi Aw Hd. destruct (constructed_represents _ _ _ _ _ _ _ _ H Axi Aw Hd) as (O & R). exists O. split; [apply R|].
  intros ck' es f n g arg Hes Hn Aa Ea. pose proof (uninit_array (result_shape c nelem nip f n) g) as Ao.
  assert (E : call_by_value ck' c es Q f g arg = call ck' c es Q f arg (uninit (result_shape c nelem nip f n) g)).
  { unfold call_by_value. cbv zeta.
    assert (A2 : match f with InterpQuad_vector | Int_N_vector_dV => nth_error (b_shape arg) 2 = Some n | _ => True end) by (rewrite Ea; destruct f; auto).
    assert (I : match f with InterpQuad_vector | Int_N_vector_dV => True | _ => snd (io_shapes c Q f 0) = result_shape c nelem nip f n end).
    { destruct f; auto; rewrite (io_documented c nelem nip xi w x Q O _ 0 R); cbn; destruct c; reflexivity || exact Logic.I. }
    assert (E1 : m_nelem Q = nelem) by apply R. assert (E2 : m_nip Q = nip) by apply R. assert (E3 : s_nne c = nodes_per_element c) by (destruct c; reflexivity).
    destruct f; try rewrite A2; unfold shape_qvector_n, shape_elemvec_n; rewrite ?E1, ?E2, ?E3; try rewrite I; reflexivity. }
  rewrite E, (call_kernel c es nelem nip xi w x Q O f n arg (uninit (result_shape c nelem nip f n) g) ck' R Hn Ea eq_refl).
  destruct (kernel_rep c (es nelem) nelem nip xi w x Q O f n arg _ (Hes nelem) R Hn Aa Ao Ea eq_refl) as (r & E' & S).
  exists r. split; [exact E'|]. split; [eapply stored_array; exact S|]. split; [apply S|]. intros ix Hi. exact (entry_stored _ _ _ _ S Hi).
Qed.

(** with assertions, anything else throws; InterpQuad_vector (but Quad4's) and Int_N_vector_dV need at least rank three to get that far *)
Theorem C100_checked ck c nelem nip xi w x Q es f arg out : constructed ck c xi w x Q -> array xi -> array w -> documented c nelem nip x xi w ->
  (f = InterpQuad_vector \/ f = Int_N_vector_dV -> 3 <= length (b_shape arg)) ->
  ~ (exists n, components c f n /\ b_shape arg = argument_shape c nelem nip f n /\ b_shape out = result_shape c nelem nip f n) ->
  call true c es Q f arg out = Throw.
Proof.
  intros H Axi Aw Hd Hr Hno. destruct (constructed_represents _ _ _ _ _ _ _ _ H Axi Aw Hd) as (O & R).
  assert (T : forall n, components c f n -> (let (i, o) := io_shapes c Q f n in assert true (has_shape (b_shape arg) i) (assert true (has_shape (b_shape out) o) (kernel c (es (m_nelem Q)) Q f n arg out))) = Throw).
  { intros n Hn. rewrite (io_documented _ _ _ _ _ _ _ _ _ _ R Hn).
    destruct (has_shape (b_shape arg) (argument_shape c nelem nip f n)) eqn:Ea; [|reflexivity]. cbn.
    destruct (has_shape (b_shape out) (result_shape c nelem nip f n)) eqn:Eo; [|reflexivity]. exfalso. apply Hno. exists n. apply has_shape_eq in Ea, Eo. auto. }
  unfold call. cbv zeta.
  assert (A2 : f = InterpQuad_vector \/ f = Int_N_vector_dV -> exists n, nth_error (b_shape arg) 2 = Some n).
  { intro Hf. specialize (Hr Hf). destruct (nth_error (b_shape arg) 2) eqn:E; [eauto|]. apply nth_error_None in E. lia. }
  assert (Z : io_shapes CQuad4 Q InterpQuad_vector 0 = io_shapes CQuad4 Q InterpQuad_vector 2) by reflexivity.
  destruct f; try (destruct A2 as (n & A2); [tauto|]).
  - destruct c; try (rewrite A2; apply T; exact I). exact (T 2 eq_refl).
  - destruct c; apply (T 0); exact I.
  - destruct c; apply (T 0); exact I.
  - destruct c; apply (T 0); exact I.
  - destruct c; rewrite A2; apply T; exact I.
  - destruct c; apply (T 0); exact I.
  - destruct c; apply (T 0); exact I.
  - destruct c; apply (T 0); exact I.
Qed.

(** the getters: shape functions, gradients and integration volumes *)
Theorem C100_getters ck c nelem nip xi w x Q : constructed ck c xi w x Q -> array xi -> array w -> documented c nelem nip x xi w ->
  exists O, is_object c nelem nip (entry xi) (entry w) (entry x) O /\ m_nelem Q = nelem /\ m_nip Q = nip /\ m_x Q = x
    /\ b_shape (m_N Q) = [nip; nodes_per_element c] /\ b_shape (m_grad Q) = gradient_shape c nelem nip /\ b_shape (m_vol Q) = [nelem; nip]
    /\ (forall ix, index [nip; nodes_per_element c] ix -> entry (m_N Q) ix = obj_N O ix)
    /\ (forall ix, index (gradient_shape c nelem nip) ix -> entry (m_grad Q) ix = obj_grad O ix)
    /\ (forall ix, index [nelem; nip] ix -> entry (m_vol Q) ix = obj_vol O ix).
Proof.
  intros H Axi Aw Hd. destruct (constructed_represents _ _ _ _ _ _ _ _ H Axi Aw Hd) as (O & R). exists O. destruct R as (HO & E1 & E2 & E3 & _ & _ & SN & _ & Sg & Sv & Ex & _).
  repeat split; try assumption; try apply SN; try apply Sg; try apply Sv; intros ix Hi; eapply entry_stored; eassumption.
Qed.

(** the two levels together: in memory, the gradient of an affine field a + B . x is B^T at every integration point of every (non-degenerate) element *)
Theorem C100_affine ck nelem nip xi w x Q : constructed ck CQuad4 xi w x Q -> array xi -> array w -> documented CQuad4 nelem nip x xi w ->
  forall ck' es g u, schedules es -> array u -> b_shape u = [nelem; 4; 2] ->
  exists r, call_by_value ck' CQuad4 es Q GradN_vector g u = Ok r /\ b_shape r = [nelem; nip; 2; 2] /\
    forall a B e q i j, e < nelem -> q < nip -> i < 2 -> j < 2 ->
      jac2 (nodes (entry x) e) (point (entry xi) q) <> 0%R -> affine 2 4 a B (entry x) (entry u) e -> nth (((e * nip + q) * 2 + i) * 2 + j) (b_data r) 0%R = B j i.
Proof.
  intros H Axi Aw Hd ck' es g u Hes Au Eu. destruct (C100_by_value _ _ _ _ _ _ _ _ H Axi Aw Hd) as (O & HO & M). destruct O as [F|F|F|F]; cbn [is_object] in HO; try tauto.
  destruct (M ck' es GradN_vector 2 g u Hes I Au Eu) as (r & Er & _ & Sr & Hr). exists r. split; [exact Er|]. split; [exact Sr|].
  intros a B e q i j He Hq Hi Hj HJ Ha. specialize (Hr [e; q; i; j]). unfold entry in Hr at 1. rewrite Sr in Hr. cbn [result_shape tensor_dimension] in Hr.
  replace (place [nelem; nip; 2; 2] [e; q; i; j]) with (((e * nip + q) * 2 + i) * 2 + j) in Hr by (unfold place, size; cbn; ring). rewrite Hr by idx.
  exact (C56_affine _ _ _ _ _ _ HO (es nelem) (Hes nelem) a B _ _ e q i j He Hq Hi Hj HJ Ha).
Qed.

(** ** C101 *)
(** the documented shapes: the constructor succeeds, with or without assertions *)
Theorem C101_constructor ck c es g1 g2 g3 g4 junk nelem nip x xi w : schedules es -> array x -> array xi -> array w -> documented c nelem nip x xi w ->
  exists Q, new_quad ck c es g1 g2 g3 g4 junk x xi w = Ok Q /\ constructed ck c xi w x Q.
Proof.
  intros Hes Ax Axi Aw Hd. destruct (new_rep ck c es g1 g2 g3 g4 junk nelem nip x xi w Hes Ax Axi Aw Hd) as (Q & O & E & R). exists Q. split; [exact E|]. econstructor; eassumption.
Qed.
(** with assertions it succeeds only for them *)
Theorem C101_constructor_only c es g1 g2 g3 g4 junk x xi w Q : new_quad true c es g1 g2 g3 g4 junk x xi w = Ok Q ->
  documented c (m_nelem Q) (m_nip Q) x xi w.
Proof.
  intro H. unfold documented. unfold new_quad in H. destruct (b_shape x) as [|a [|b [|d [|]]]]; try discriminate. destruct (b_shape xi) as [|a' [|b' [|]]]; try discriminate. destruct (b_shape w) as [|a'' [|]]; try discriminate. cbv zeta in H.
  assert (K : forall k : res quad, assert true (b =? s_nne c) (assert true (d =? s_ndim c) (assert true (has_shape [a'; b'] [a''; s_ndim c]) (assert true (has_shape [a''] [a'']) k))) = Ok Q ->
     k = Ok Q /\ b = nodes_per_element c /\ d = dimension c /\ a' = a'' /\ b' = dimension c).
  { intros k E. unfold assert in E. destruct (Nat.eqb_spec b (s_nne c)); [|discriminate]. destruct (Nat.eqb_spec d (s_ndim c)); [|discriminate].
    destruct (has_shape [a'; b'] [a''; s_ndim c]) eqn:F; [|discriminate]. apply has_shape_eq in F. injection F as -> ->. rewrite has_shape_refl in E. cbn in E.
    repeat split; try assumption; destruct c; assumption || reflexivity. }
  assert (P : forall N dNxi, (do st <- m_compute_dN c (es a) a'' junk w N dNxi x (uninit (shape_grad c a a'') g3, uninit [a; a''] g4);
        Ok {| m_nelem := a; m_nip := a''; m_x := x; m_w := w; m_xi := xi; m_N := N; m_dNxi := dNxi; m_grad := fst st; m_vol := snd st |}) = Ok Q -> m_nelem Q = a /\ m_nip Q = a'').
  { intros N D E. destruct (m_compute_dN _ _ _ _ _ _ _ _ _); cbn [bind] in E; try discriminate. injection E as <-. auto. }
  destruct c; repeat match type of H with
    | assert true _ _ = Ok _ => apply K in H; destruct H as (H & -> & -> & -> & ->)
    | bind (m_compute_dN _ _ _ _ _ _ _ _ _) _ = Ok _ => apply P in H; destruct H as (-> & ->); auto
    | bind ?r _ = Ok _ => let E := fresh "E" in destruct r eqn:E; cbn [bind] in H; try discriminate H
    end.
Qed.
(** with assertions it throws for all others, if xi has enough rows and columns; QuadratureAxisymmetric needs no such condition *)
Theorem C101_constructor_throws_partial c es g1 g2 g3 g4 junk x xi w : array xi ->
  length (b_shape x) = 3 -> length (b_shape xi) = 2 -> length (b_shape w) = 1 ->
  (c <> CAxisym -> forall rows cols nip, b_shape xi = [rows; cols] -> b_shape w = [nip] -> nip <= rows /\ dimension c <= cols) ->
  ~ (exists nelem nip, documented c nelem nip x xi w) ->
  new_quad true c es g1 g2 g3 g4 junk x xi w = Throw.
Proof.
  intros Axi Lx Lxi Lw Hbig Hno.
  pose proof (stored_entry _ Axi) as Sxi. unfold documented in Hno. unfold new_quad.
  destruct (b_shape x) as [|a [|b [|d [|]]]]; try discriminate. destruct (b_shape xi) as [|a' [|b' [|]]]; try discriminate. destruct (b_shape w) as [|a'' [|]]; try discriminate. cbv zeta.
  assert (K : forall k : res quad, assert true (b =? s_nne c) (assert true (d =? s_ndim c) (assert true (has_shape [a'; b'] [a''; s_ndim c]) (assert true (has_shape [a''] [a'']) k))) = Throw).
  { intro k. unfold assert. destruct (Nat.eqb_spec b (s_nne c)); [|reflexivity]. destruct (Nat.eqb_spec d (s_ndim c)); [|reflexivity].
    destruct (has_shape [a'; b'] [a''; s_ndim c]) eqn:F; [|reflexivity]. exfalso. apply Hno. apply has_shape_eq in F. injection F as -> ->. exists a, a''. subst. destruct c; auto. }
  destruct c as [|t| |].
  - destruct Hbig with (rows := a') (cols := b') (nip := a'') as (H1 & H2); [discriminate | reflexivity | reflexivity|].
    destruct (Quad4_N_ok a'' a' b' xi _ _ _ H1 H2 Sxi (uninit_stored [a''; 4] g1)) as (N & EN & _).
    destruct (Quad4_dNxi_ok a'' a' b' xi _ _ _ H1 H2 Sxi (uninit_stored [a''; 4; 2] g2)) as (D & ED & _).
    cbn [s_nne s_ndim] in *. rewrite EN. cbn [bind]. rewrite ED. cbn [bind]. apply K.
  - destruct Hbig with (rows := a') (cols := b') (nip := a'') as (H1 & H2); [discriminate | reflexivity | reflexivity|].
    destruct (Quad4_N_ok a'' a' b' xi _ _ _ H1 H2 Sxi (uninit_stored [a''; 4] g1)) as (N & EN & _).
    destruct (Quad4_dNxi_ok a'' a' b' xi _ _ _ H1 H2 Sxi (uninit_stored [a''; 4; 2] g2)) as (D & ED & _).
    cbn [s_nne s_ndim] in *. rewrite EN. cbn [bind]. rewrite ED. cbn [bind]. apply K.
  - apply K.
  - destruct Hbig with (rows := a') (cols := b') (nip := a'') as (H1 & H2); [discriminate | reflexivity | reflexivity|].
    destruct (Hex8_N_ok a'' a' b' xi _ _ _ H1 H2 Sxi (uninit_stored [a''; 8] g1)) as (N & EN & _).
    destruct (Hex8_dNxi_ok a'' a' b' xi _ _ _ H1 H2 Sxi (uninit_stored [a''; 8; 3] g2)) as (D & ED & _).
    cbn [s_nne s_ndim] in *. rewrite EN. cbn [bind]. rewrite ED. cbn [bind]. apply K.
Qed.
(** without that condition it is false of Quad4: three weights and two points, with assertions enabled, read beyond xi *)
Definition two_points : buf := mkBuf [2; 2] [0; 0; 0; 0]%R.
Definition three_weights : buf := mkBuf [3] [1; 1; 1]%R.
Definition one_square : buf := mkBuf [1; 4; 2] [0; 0; 1; 0; 1; 1; 0; 1]%R.
Theorem C101_constructor_refuted :
  ~ (forall c es g1 g2 g3 g4 junk x xi w, array x -> array xi -> array w -> length (b_shape x) = 3 -> length (b_shape xi) = 2 -> length (b_shape w) = 1 ->
     ~ (exists nelem nip, documented c nelem nip x xi w) -> new_quad true c es g1 g2 g3 g4 junk x xi w = Throw).
Proof.
  intro H. specialize (H CQuad4 (fun n => seq 0 n) (fun _ => 0%R) (fun _ => 0%R) (fun _ => 0%R) (fun _ => 0%R) (fun _ => 0%R) one_square two_points three_weights).
  enough (E : new_quad true CQuad4 (fun n => seq 0 n) (fun _ => 0%R) (fun _ => 0%R) (fun _ => 0%R) (fun _ => 0%R) (fun _ => 0%R) one_square two_points three_weights = Oob).
  { rewrite E in H. discriminate H; try reflexivity. intros (nelem & nip & _ & E2 & E3). cbn in E2, E3. injection E3 as <-. discriminate. }
  reflexivity.
Qed.
(** update_x: with assertions exactly the shape of the current coordinates is accepted *)
Theorem C101_update_x ck c nelem nip xi w x Q es junk x' : constructed ck c xi w x Q -> array xi -> array w -> documented c nelem nip x xi w -> schedules es -> array x' ->
  (b_shape x' = b_shape x -> forall ck', exists Q', update_x ck' c es junk x' Q = Ok Q' /\ m_x Q' = x')
  /\ (b_shape x' <> b_shape x -> update_x true c es junk x' Q = Throw).
Proof.
  intros H Axi Aw Hd Hes Ax'. destruct (constructed_represents _ _ _ _ _ _ _ _ H Axi Aw Hd) as (O & R). destruct Hd as (Ex & Hd). split.
  - intros E ck'. destruct (update_rep ck' c es junk nelem nip xi w x x' Q O Hes Ax' R) as (Q' & O' & E' & R'); [congruence|]. exists Q'. split; [exact E' | apply R'].
  - intro E. unfold update_x. rewrite (constructed_m_x _ _ _ _ _ _ H). unfold assert. destruct (has_shape (b_shape x') (b_shape x)) eqn:F; [|reflexivity]. now apply has_shape_eq in F.
Qed.

(** ** a concrete case: one square, one integration point; the gradient of a linear displacement *)
Definition mid : buf := mkBuf [1; 2] [0; 0]%R.
Definition one_weight : buf := mkBuf [1] [4]%R.
Example C100_ex : array one_square /\ array mid /\ array one_weight /\ documented CQuad4 1 1 one_square mid one_weight
  /\ exists Q, constructed true CQuad4 mid one_weight one_square Q
     /\ exists r, call_by_value true CQuad4 (fun n => seq 0 n) Q GradN_vector (fun _ => 7%R) one_square = Ok r /\ b_shape r = [1; 1; 2; 2].
Proof.
  assert (D : documented CQuad4 1 1 one_square mid one_weight) by (repeat split).
  do 3 (split; [reflexivity|]). split; [exact D|].
  assert (S : schedules (fun n => seq 0 n)) by (intro n; apply Permutation_refl).
  destruct (C101_constructor true CQuad4 (fun n => seq 0 n) (fun _ => 0%R) (fun _ => 0%R) (fun _ => 0%R) (fun _ => 0%R) (fun _ => 0%R) 1 1 one_square mid one_weight S eq_refl eq_refl eq_refl D) as (Q & E & HQ).
  exists Q. split; [exact HQ|]. destruct (C100_by_value true CQuad4 1 1 mid one_weight one_square Q HQ eq_refl eq_refl D) as (O & _ & M).
  destruct (M true (fun n => seq 0 n) GradN_vector 2 (fun _ => 7%R) one_square S I eq_refl eq_refl) as (r & Er & _ & Sr & _). eauto.
Qed.
(** without assertions, Quad4's InterpQuad_vector of a field with one component is out of bounds: it returns an array with one component per point, but
    writes two; with assertions it throws.  (The other classes interpolate any number of components.) *)
Theorem C100_Quad4_one_component : exists Q arg, constructed false CQuad4 mid one_weight one_square Q /\ array arg /\ b_shape arg = [1; 4; 1]
  /\ call_by_value false CQuad4 (fun n => seq 0 n) Q InterpQuad_vector (fun _ => 0%R) arg = Oob
  /\ call_by_value true CQuad4 (fun n => seq 0 n) Q InterpQuad_vector (fun _ => 0%R) arg = Throw.
Proof.
  destruct (C101_constructor false CQuad4 (fun n => seq 0 n) (fun _ => 0%R) (fun _ => 0%R) (fun _ => 0%R) (fun _ => 0%R) (fun _ => 0%R) 1 1 one_square mid one_weight) as (Q & E & HQ);
    try reflexivity; [intro n; apply Permutation_refl | repeat split |].
  pose proof (C100_getters false CQuad4 1 1 mid one_weight one_square Q HQ eq_refl eq_refl) as (O & _ & E1 & E2 & _ & SN & _); [repeat split|].
  exists Q, (mkBuf [1; 4; 1] [0; 0; 0; 0]%R). split; [exact HQ|]. do 2 (split; [reflexivity|]).
  clear E. destruct Q as [ne ni X W Xi N dn gr vl]. cbn [m_nelem m_nip m_N] in *. subst ne ni. split; [|reflexivity].
  destruct N as [sh d]. cbn in SN. subst sh.
  unfold call_by_value, call, io_shapes, kernel, m_Quad4_interpQuad_vector, setv, sum4e, rdv, zero, uninit, shape_qvector_n, at_, addr, store. cbn. unfold get. cbn.
  destruct d as [|d0 [|d1 [|d2 [|d3 d]]]]; reflexivity.
Qed.

Print Assumptions C100_methods.
Print Assumptions C100_by_value.
Print Assumptions C100_checked.
Print Assumptions C100_getters.
Print Assumptions C100_affine.
Print Assumptions C100_Quad4_one_component.
Print Assumptions C101_constructor.
Print Assumptions C101_constructor_only.
Print Assumptions C101_constructor_throws_partial.
Print Assumptions C101_constructor_refuted.
Print Assumptions C101_update_x.
