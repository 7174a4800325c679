(** Quad4::FineLayer: areas, and the elements per layer. *)
From Coq Require Import Reals ZArith Lra.
From Verif Require Import Base Spec Spec2d Spec_Tiling Model_Numbering Model_Regular2d Model_FineLayer Proof_Vector Proof_Regular2d Proof_FineLayer Proof_FineLayerMesh Proof_FineLayerTiling.

Lemma seq_blocks len : forall k, seq 0 (nsum k len) = flat_map (fun i => map (Nat.add (nsum i len)) (seq 0 (len i))) (seq 0 k).
Proof.
  induction k as [|k IH]; [reflexivity|]. rewrite seq_S, flat_map_app, <- IH. cbn [nsum flat_map Nat.add]. rewrite app_nil_r, seq_app. f_equal.
  cbn [Nat.add]. rewrite <- (Nat.add_0_r (nsum k len)) at 1. generalize 0 as a. generalize (nsum k len) as b. clear. induction (len k) as [|l IH]; intros b a; [reflexivity|]. cbn. f_equal. rewrite <- IH. f_equal. lia.
Qed.
Lemma seq_const_blocks len k : seq 0 (k * len) = flat_map (fun i => map (Nat.add (i * len)) (seq 0 len)) (seq 0 k).
Proof.
  assert (E : forall j, nsum j (fun _ => len) = j * len) by (induction j; cbn; lia).
  rewrite <- E, seq_blocks. apply flat_map_ext_in'. intros i _. now rewrite E.
Qed.

Lemma sumR_app a b : sumR (a ++ b) = (sumR a + sumR b)%R.
Proof. unfold sumR. induction a as [|x a IH]; cbn; [ring|]. rewrite IH. ring. Qed.
Lemma sumR_flat_map {A B} (f : B -> R) (g : A -> list B) l : sumR (map f (flat_map g l)) = sumR (map (fun a => sumR (map f (g a))) l).
Proof. induction l as [|a l IH]; [reflexivity|]. cbn [flat_map map]. rewrite map_app, sumR_app, IH. reflexivity. Qed.
Lemma sumR_ext {A} (f g : A -> R) l : (forall a, In a l -> f a = g a) -> sumR (map f l) = sumR (map g l).
Proof. intros H. f_equal. now apply map_ext_in. Qed.

Lemma quad_area_scale h a b S x0 y0 x1 y1 x2 y2 x3 y3 :
  quad_area (h * (a + S * x0)) (h * (b + S * y0)) (h * (a + S * x1)) (h * (b + S * y1)) (h * (a + S * x2)) (h * (b + S * y2)) (h * (a + S * x3)) (h * (b + S * y3))
  = ((h * S) * (h * S) * quad_area x0 y0 x1 y1 x2 y2 x3 y3)%R.
Proof. unfold quad_area. field. Qed.

Definition tarea (T : tmpl) : R :=
  match T with (a, b, c, d) => quad_area (INR (fst a)) (INR (snd a)) (INR (fst b)) (INR (snd b)) (INR (fst c)) (INR (snd c)) (INR (fst d)) (INR (snd d)) end.

Section Area.
Variables (nelx n : nat) (w y : nat -> nat) (r : nat -> bool) (h : R).
Hypothesis HL : layered nelx n w y r.
Notation L := (L n).
Notation W := (W n w).
Notation Hy := (Hy n y).
Notation Rf := (Rf n r).
Notation NX := (NX nelx n w).
Notation NE := (NE nelx n w r).
Notation SE := (SE nelx n w r).
Notation Y := (Y n y).
Notation X := (coorl nelx n w y r h).
Notation C := (connl nelx n w r).
Notation sz := (sz n w r).
Notation tm := (tm n r).
Notation elem_case := (elem_case nelx n w r).
Notation m := (FL_of nelx n w y r h).

Lemma C_length : length C = SE L.
Proof. apply length_blocks. intros. apply lconn_length. Qed.

Lemma quad_element_area E x0 y0 x1 y1 x2 y2 x3 y3 : quad X E x0 y0 x1 y1 x2 y2 x3 y3 -> element_area X E = quad_area x0 y0 x1 y1 x2 y2 x3 y3.
Proof.
  intros (n0 & n1 & n2 & n3 & -> & A0 & A1 & A2 & A3). unfold element_area. cbn [map]. unfold node_at in *.
  now rewrite (nth_of_nth_error _ _ _ _ A0), (nth_of_nth_error _ _ _ _ A1), (nth_of_nth_error _ _ _ _ A2), (nth_of_nth_error _ _ _ _ A3).
Qed.

Lemma elem_area e iy ix T : elem_case e iy ix T -> element_area X (nth e C []) = ((h * INR (sz iy)) * (h * INR (sz iy)) * tarea T)%R.
Proof.
  intros K. destruct (elem_quad _ _ _ _ _ h HL _ _ _ _ K) as (E & HE & Q & _). rewrite (nth_of_nth_error _ _ _ _ HE).
  destruct T as [[[t0 t1] t2] t3]. cbn in Q. rewrite (quad_element_area _ _ _ _ _ _ _ _ _ Q). unfold px, py, tarea. apply quad_area_scale.
Qed.

Lemma tm_area iy : sumR (map tarea (tm iy)) = (INR (bw (tm iy)) * INR (bh (tm iy)))%R.
Proof.
  destruct (tm_kinds n r iy) as [-> |[-> | ->]]; unfold sumR; cbn [map fold_right sq lows ups tarea bw bh fst snd];
  rewrite ?I0, ?I1, ?I2, ?I3; unfold quad_area; field.
Qed.

Lemma nth_seq_map {A} (l : list A) d : map (fun i => nth i l d) (seq 0 (length l)) = l.
Proof. symmetry. rewrite <- (map_id l) at 1. exact (map_tab1 (fun x => x) l d). Qed.

Lemma layer_area iy : iy < L -> sumR (map (fun j => element_area X (nth (SE iy + j) C [])) (seq 0 (NE iy))) = (h * INR nelx * (h * INR (Hy iy)))%R.
Proof.
  intros Hi. destruct (block_size _ _ _ _ _ HL iy Hi) as (S1 & S2 & S3).
  rewrite <- (tm_length nelx n w r), Nat.mul_comm, seq_const_blocks. rewrite sumR_flat_map.
  rewrite (sumR_ext _ (fun _ => (h * INR (W iy) * (h * INR (Hy iy)))%R)).
  - rewrite (sumR_const (h * INR (W iy) * (h * INR (Hy iy)))).
    + rewrite map_length, seq_length. rewrite <- (W_NX _ _ _ _ _ HL iy Hi) at 2. rewrite mult_INR. ring.
    + intros x Hx. apply in_map_iff in Hx. destruct Hx as (? & <- & _). reflexivity.
  - intros ix Hx. apply in_seq in Hx. rewrite map_map.
    rewrite (sumR_ext _ (fun k => (h * INR (sz iy)) * (h * INR (sz iy)) * tarea (nth k (tm iy) sq))%R).
    + rewrite S2, S3, !mult_INR. transitivity ((h * INR (sz iy)) * (h * INR (sz iy)) * (INR (bw (tm iy)) * INR (bh (tm iy))))%R; [|ring].
      rewrite <- tm_area. replace (map tarea (tm iy)) with (map (fun k => tarea (nth k (tm iy) sq)) (seq 0 (length (tm iy)))) by (rewrite <- (map_map (fun k => nth k (tm iy) sq) tarea); f_equal; apply nth_seq_map).
      unfold sumR.
      induction (seq 0 (length (tm iy))) as [|k l IH]; cbn; [ring|]. rewrite IH. ring.
    + intros k Hk. apply in_seq in Hk. apply (elem_area _ iy ix). apply (Elem_case _ _ _ _ _ _ _ _ k); auto; [lia|]. apply nth_error_nth'. lia.
Qed.

Lemma FL_total_area : sumR (map (element_area X) C) = ((h * INR nelx) * (h * INR (Y L)))%R.
Proof.
  rewrite <- (nth_seq_map C []) at 1. rewrite map_map, C_length. unfold Proof_FineLayer.SE. rewrite seq_blocks, sumR_flat_map.
  rewrite (sumR_ext _ (fun iy => h * INR nelx * (h * INR (Hy iy)))%R).
  - unfold Proof_FineLayer.Y. generalize L as k. induction k as [|k IH]; [cbn; ring|]. rewrite seq_S, map_app, sumR_app, IH. cbn [map nsum]. rewrite plus_INR. unfold sumR. cbn. ring.
  - intros iy Hi. apply in_seq in Hi. rewrite map_map. apply layer_area. lia.
Qed.

(** *** elements per layer *)
Lemma elementsLayer_spec iy : iy < L -> elementsLayer m iy = Ok (map (Nat.add (SE iy)) (seq 0 (NE iy))).
Proof.
  intros H. unfold elementsLayer. cbn [f_layer_nelx f_refine f_startElem FL_of]. rewrite !tab1_get by assumption. cbn [bind].
  unfold Zr, Proof_FineLayer.NE. destruct (Rf iy); cbn [Z.eqb]; do 3 f_equal. lia.
Qed.
Lemma elementsMiddle_spec : elementsMiddleLayer m = Ok (map (Nat.add (SE (n - 1))) (seq 0 nelx)).
Proof.
  unfold elementsMiddleLayer. rewrite layers_m, (L_half n). pose proof (n_L _ _ _ _ _ HL). cbn [f_layer_nelx f_startElem FL_of]. rewrite !tab1_get by assumption. cbn [bind].
  do 3 f_equal. pose proof (W_NX _ _ _ _ _ HL (n - 1) H) as E. rewrite (W_mid _ _ _ _ _ HL) in E. lia.
Qed.
End Area.
