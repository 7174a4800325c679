(** Proofs of the memory model: the loops on memory do what the loops on mathematical arrays do. *)
From Coq Require Import Reals.
From Verif Require Import Model_Element Spec_Element Base Model_Checked Model_ElementMemory Spec_ElementMemory Proof_Checked.

(** ** addresses *)
Lemma index_length s ix : index s ix -> length ix = length s.
Proof. intro H. induction H; cbn; congruence. Qed.
Lemma place_lt s ix : index s ix -> place s ix < size s.
Proof. intro H. induction H; cbn; [lia|]. change (fold_right Nat.mul 1 l') with (size l'). nia. Qed.
Lemma place_inj s ix jx : index s ix -> index s jx -> place s ix = place s jx -> ix = jx.
Proof.
  intros H. revert jx. induction H as [|i d ix s Hi H IH]; intros jx Hj E; inversion Hj; subst; [reflexivity|].
  cbn in E. change (fold_right Nat.mul 1 s) with (size s) in E. pose proof (place_lt _ _ H). pose proof (place_lt _ _ H4).
  assert (i = x) by nia. subst x. f_equal. apply IH; [assumption|]. lia.
Qed.
Lemma dot_place s ix : index s ix -> dot ix (strides s) = place s ix.
Proof.
  intro H. induction H as [|i d ix s Hi H IH]; [reflexivity|]. cbn [strides dot place]. rewrite IH.
  destruct (Nat.eqb_spec d 1); [subst; assert (i = 0) by lia; subst; lia | reflexivity].
Qed.
Lemma dot_zero k st : dot (repeat 0 k) st = 0.
Proof. revert st. induction k; intros [|a st]; cbn; auto. Qed.
Lemma size_app p s : size (p ++ s) = size p * size s.
Proof. induction p as [|d p IH]; [cbn [app]; change (size []) with 1; lia|]. change (size ((d :: p) ++ s)) with (d * size (p ++ s)). change (size (d :: p)) with (d * size p). rewrite IH. ring. Qed.
Lemma dot_prefix p s l k : index p l -> dot (l ++ repeat 0 k) (strides (p ++ s)) = place p l * size s.
Proof.
  intro H. induction H as [|i d l p Hi H IH]; cbn [app strides dot place]; [apply dot_zero|]. rewrite IH, size_app.
  destruct (Nat.eqb_spec d 1); [subst; assert (i = 0) by lia; subst; lia | ring].
Qed.
Lemma place_app p s l ix : index p l -> place (p ++ s) (l ++ ix) = place p l * size s + place s ix.
Proof. intro H. induction H as [|i d l p Hi H IH]; cbn [app place]; [lia|]. rewrite IH, size_app. ring. Qed.
Lemma index_app p s l ix : index p l -> index s ix -> index (p ++ s) (l ++ ix).
Proof. apply Forall2_app. Qed.
(** the view xt::adapt(&b(l, 0, .., 0), s) of an array of shape (p, s) *)
Lemma at_place b ix0 s ix p l : b_shape b = p ++ s -> ix0 = l ++ repeat 0 (length s) -> index p l -> index s ix -> at_ b ix0 s ix = place (p ++ s) (l ++ ix).
Proof. intros E -> Hl Hi. unfold at_, addr. rewrite E, (dot_prefix _ _ _ _ Hl), (dot_place _ _ Hi), (place_app _ _ _ _ Hl). reflexivity. Qed.

(** ** what memory stores *)
Definition stored (s : list nat) (b : buf) (a : arr) : Prop :=
  b_shape b = s /\ length (b_data b) = size s /\ forall ix, index s ix -> nth_error (b_data b) (place s ix) = Some (a ix).

Lemma stored_entry b : array b -> stored (b_shape b) b (entry b).
Proof.
  intro H. split; [reflexivity|]. split; [exact H|]. intros ix Hi. unfold entry. apply nth_error_nth'. rewrite H. now apply place_lt.
Qed.
Lemma stored_array s b a : stored s b a -> array b.
Proof. intros (H1 & H2 & _). unfold array. congruence. Qed.
Lemma entry_stored s b a ix : stored s b a -> index s ix -> entry b ix = a ix.
Proof. intros (H1 & H2 & H3) Hi. unfold entry. rewrite H1. now apply nth_error_nth, H3. Qed.
Lemma uninit_array s g : array (uninit s g).
Proof. unfold array, uninit. cbn. now rewrite map_length, seq_length. Qed.
Lemma stored_zero s b a : stored s b a -> stored s (zero b) (fill 0 a).
Proof.
  intros (H1 & H2 & H3). split; [exact H1|]. unfold zero. cbn. split; [now rewrite map_length|]. intros ix Hi. now rewrite nth_error_map, (H3 _ Hi).
Qed.

Lemma set_spec {A} (l : list A) i x : i < length l -> exists l', set l i x = Ok l' /\ length l' = length l /\ forall k, nth_error l' k = if k =? i then Some x else nth_error l k.
Proof.
  revert i. induction l as [|a l IH]; intros [|i] H; cbn in *; try lia.
  - eexists. split; [reflexivity|]. split; [reflexivity|]. intros [|k]; reflexivity.
  - destruct (IH i) as (l' & -> & E1 & E2); [lia|]. cbn. eexists. split; [reflexivity|]. split; [cbn; congruence|]. intros [|k]; [reflexivity|]. cbn. apply E2.
Qed.
Lemma store_ok s b a ix k v : stored s b a -> index s ix -> k = place s ix -> exists b', store k v b = Ok b' /\ stored s b' (upd ix v a).
Proof.
  intros (H1 & H2 & H3) Hi ->. unfold store. destruct (set_spec (b_data b) (place s ix) v) as (d & -> & E1 & E2); [rewrite H2; now apply place_lt|].
  cbn. eexists. split; [reflexivity|]. split; [exact H1|]. cbn. split; [congruence|]. intros jx Hj. rewrite E2. unfold upd.
  destruct (list_eq_dec Nat.eq_dec jx ix) as [->|E]; [now rewrite Nat.eqb_refl|]. destruct (Nat.eqb_spec (place s jx) (place s ix)) as [E'|_]; [|now apply H3].
  now apply place_inj in E'.
Qed.

(** ** right-hand sides *)
Definition evals (x : expr) (v : R) : Prop := ev x = Ok v.
Lemma evals_cst r : evals (Cst r) r. Proof. reflexivity. Qed.
Lemma evals_bin f x y u v : evals x u -> evals y v -> evals (Bin f x y) (f u v).
Proof. unfold evals. cbn. now intros -> ->. Qed.
Lemma evals_sum4 (f : nat -> expr) (g : nat -> R) : (forall m, m < 4 -> evals (f m) (g m)) -> evals (sum4e f) (sum4 g).
Proof. intro H. unfold sum4e, sum4. repeat apply evals_bin; apply H; lia. Qed.
Lemma evals_ld s b a ix k : stored s b a -> index s ix -> k = place s ix -> evals (Ld b k) (a ix).
Proof. intros (_ & _ & H3) Hi ->. unfold evals. cbn. unfold get. now rewrite (H3 _ Hi). Qed.
Lemma evals_rd s b a ix : stored s b a -> index s ix -> evals (rd b ix) (a ix).
Proof. intros H Hi. eapply evals_ld; [exact H | exact Hi |]. unfold addr. destruct H as (-> & _). now apply dot_place. Qed.
Lemma evals_rdv p s b a ix0 l ix jx : stored (p ++ s) b a -> ix0 = l ++ repeat 0 (length s) -> jx = l ++ ix -> index p l -> index s ix -> evals (rdv b ix0 s ix) (a jx).
Proof.
  intros H E -> Hl Hi. eapply evals_ld; [exact H | now apply index_app |]. destruct H as (Es & _). now apply at_place.
Qed.
Lemma evals_rdp p s b a ix0 l ix jx k : stored (p ++ s) b a -> ix0 = l ++ repeat 0 (length s) -> jx = l ++ ix -> index p l -> index s ix -> k = place s ix -> evals (rdp b ix0 k) (a jx).
Proof.
  intros H -> -> Hl Hi ->. eapply evals_ld; [exact H | now apply index_app |]. destruct H as (Es & _). unfold addr. rewrite Es, (dot_prefix _ _ _ _ Hl), (place_app _ _ _ _ Hl). reflexivity.
Qed.

(** ** statements: [rel] relates the state in memory and the mathematical state *)
Definition sim {S T} (rel : S -> T -> Prop) (f : S -> res S) (g : T -> T) : Prop := forall s t, rel s t -> exists s', f s = Ok s' /\ rel s' (g t).
Lemma sim_loop {S T} (rel : S -> T -> Prop) l f g : (forall i, In i l -> sim rel (f i) (g i)) -> sim rel (loop l f) (forL l g).
Proof.
  intro H. unfold loop, forL. induction l as [|i l IH]; intros s t R; cbn; [eauto|]. destruct (H i (or_introl eq_refl) s t R) as (s' & -> & R'). cbn.
  apply IH; [|exact R']. intros; apply H; now right.
Qed.
Lemma sim_loop_ {S T} (rel : S -> T -> Prop) n f g : (forall i, i < n -> sim rel (f i) (g i)) -> sim rel (loop_ n f) (for_ n g).
Proof. intro H. apply sim_loop. intros i Hi. apply H. apply in_seq in Hi. lia. Qed.
Lemma sim_run {S T} (rel : S -> T -> Prop) l l' : Forall2 (sim rel) l l' -> sim rel (run l) (block l').
Proof.
  unfold run, block. intro H. induction H as [|f g l l' Hf H IH]; intros s t R; cbn; [eauto|]. destruct (Hf s t R) as (s' & -> & R'). cbn. now apply IH.
Qed.
Lemma sim_setm s ix x v : evals x v -> index s ix -> sim (stored s) (setm ix x) (upd ix v).
Proof.
  intros E Hi b a H. unfold setm. rewrite E. cbn [bind]. eapply store_ok; [exact H | exact Hi |]. unfold addr. destruct H as (-> & _). now apply dot_place.
Qed.
Lemma sim_setv p s ix0 l ix jx x v : evals x v -> ix0 = l ++ repeat 0 (length s) -> jx = l ++ ix -> index p l -> index s ix -> sim (stored (p ++ s)) (setv ix0 s ix x) (upd jx v).
Proof.
  intros E E0 -> Hl Hi b a H. unfold setv. rewrite E. cbn [bind]. eapply store_ok; [exact H | now apply index_app |]. destruct H as (Es & _). now apply at_place.
Qed.
Lemma incr_ok s b a ix k x v : stored s b a -> index s ix -> k = place s ix -> evals x v -> exists b', incr k x b = Ok b' /\ stored s b' (plus ix v a).
Proof.
  intros H Hi Ek E. unfold incr. rewrite E. cbn [bind]. pose proof H as (_ & _ & H3). unfold get. rewrite Ek, (H3 _ Hi). cbn [bind]. rewrite <- Ek. eapply store_ok; eauto.
Qed.
Lemma sim_addv p s ix0 l ix jx x v : evals x v -> ix0 = l ++ repeat 0 (length s) -> jx = l ++ ix -> index p l -> index s ix -> sim (stored (p ++ s)) (addv ix0 s ix x) (plus jx v).
Proof.
  intros E E0 -> Hl Hi b a H. unfold addv. eapply incr_ok; [exact H | now apply index_app | | exact E]. destruct H as (Es & _). now apply at_place.
Qed.
Lemma sim_addp p s ix0 l ix jx k x v : evals x v -> ix0 = l ++ repeat 0 (length s) -> jx = l ++ ix -> index p l -> index s ix -> k = place s ix -> sim (stored (p ++ s)) (addp ix0 k x) (plus jx v).
Proof.
  intros E -> -> Hl Hi -> b a H. unfold addp. eapply incr_ok; [exact H | now apply index_app | | exact E].
  destruct H as (Es & _). unfold addr. rewrite Es, (dot_prefix _ _ _ _ Hl), (place_app _ _ _ _ Hl). reflexivity.
Qed.
(** b(jx) = b(kx), two entries of the same view *)
Lemma sim_copy p s ix0 l ix jx ix' jx' :
  ix0 = l ++ repeat 0 (length s) -> jx = l ++ ix -> jx' = l ++ ix' -> index p l -> index s ix -> index s ix' ->
  sim (stored (p ++ s)) (fun b => setv ix0 s ix (rdv b ix0 s ix') b) (fun a => upd jx (a jx') a).
Proof.
  intros E0 E E' Hl Hi Hi' b a H. eapply sim_setv; eauto. eapply evals_rdv; eauto.
Qed.
Lemma sim_from {S T} (rel : S -> T -> Prop) f g s t : sim rel f g -> rel s t -> exists s', f s = Ok s' /\ rel s' (g t).
Proof. auto. Qed.
Definition rel2 (s1 s2 : list nat) (st : buf * buf) (at_ : arr * arr) : Prop := stored s1 (fst st) (fst at_) /\ stored s2 (snd st) (snd at_).
Lemma sim_pair s1 s2 f1 g1 f2 g2 : sim (stored s1) f1 g1 -> sim (stored s2) f2 g2 -> sim (rel2 s1 s2) (run [on_fst f1; on_snd f2]) (fun st => (g1 (fst st), g2 (snd st))).
Proof.
  intros H1 H2 [b1 b2] [a1 a2] [R1 R2]. cbn [fst snd] in *. destruct (H1 _ _ R1) as (b1' & E1 & R1'). destruct (H2 _ _ R2) as (b2' & E2 & R2').
  exists (b1', b2'). unfold run, foldM, on_fst, on_snd. cbn [fst snd bind]. rewrite E1. cbn [fst snd bind]. rewrite E2. cbn [bind]. split; [reflexivity | now split].
Qed.
Lemma loop_pure {S} l (f : nat -> S -> res S) g s : (forall i s, In i l -> f i s = Ok (g i s)) -> loop l f s = Ok (forL l g s).
Proof.
  intro H. unfold loop, forL. revert s. induction l as [|i l IH]; intro s; cbn; [reflexivity|]. rewrite (H i s (or_introl eq_refl)). cbn. apply IH. intros; apply H; now right.
Qed.

(** ** automation *)
Ltac idx := unfold index; repeat first [apply Forall2_nil | apply Forall2_cons]; try lia; try nia.
Ltac prefix_of ix0 s := let k := eval cbn in (length ix0 - length s) in eval cbn in (firstn k ix0).
Ltac shapes p s H := first [ exact H | exact (H : stored (p ++ s) _ _) ].
Ltac ev_step :=
  match goal with
  | |- evals (Cst _) _ => apply evals_cst
  | |- evals (sum4e _) (sum4 _) => apply evals_sum4; intros ? ?
  | |- evals (Bin _ _ _) _ => apply evals_bin
  | H : stored ?sh ?b _ |- evals (rd ?b _) _ => apply (evals_rd sh _ _ _ H); idx
  | H : stored ?sh ?b _ |- evals (rdv ?b ?ix0 ?s ?ix) _ =>
      let l := prefix_of ix0 s in let k := eval cbn in (length sh - length s) in let p := eval cbn in (firstn k sh) in
      apply (evals_rdv p s b _ ix0 l ix _ H eq_refl eq_refl); idx
  end.
Ltac sim_step :=
  match goal with
  | |- sim _ (loop_ _ _) (for_ _ _) => apply sim_loop_; intros ? ?
  | |- sim _ (run _) (block _) => apply sim_run; repeat first [apply Forall2_nil | apply Forall2_cons]
  | |- sim (stored ?sh) (setm _ _) (upd _ _) => apply sim_setm; [repeat ev_step | idx]
  | |- sim (stored ?sh) (setv ?ix0 ?s ?ix _) (upd _ _) =>
      let l := prefix_of ix0 s in let k := eval cbn in (length sh - length s) in let p := eval cbn in (firstn k sh) in
      apply (sim_setv p s ix0 l ix _); [repeat ev_step | reflexivity | reflexivity | idx | idx]
  | |- sim (stored ?sh) (addv ?ix0 ?s ?ix _) (plus _ _) =>
      let l := prefix_of ix0 s in let k := eval cbn in (length sh - length s) in let p := eval cbn in (firstn k sh) in
      apply (sim_addv p s ix0 l ix _); [repeat ev_step | reflexivity | reflexivity | idx | idx]
  | |- sim (stored ?sh) (fun b => setv ?ix0 ?s ?ix (rdv b _ _ ?ix') b) _ =>
      let l := prefix_of ix0 s in let k := eval cbn in (length sh - length s) in let p := eval cbn in (firstn k sh) in
      apply (sim_copy p s ix0 l ix _ ix' _); [reflexivity | reflexivity | reflexivity | idx | idx | idx]
  end.
Ltac sims := cbv zeta; repeat sim_step.
