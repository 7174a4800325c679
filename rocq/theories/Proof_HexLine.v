(** A rotation axis parallel to two vectors that are not parallel is zero. *)
From Coq Require Import Reals Nsatz.
Local Open Scope R_scope.
Lemma axis_zero (r0 r1 r2 x y z x' y' z' : R) : r1 * z = r2 * y -> r2 * x = r0 * z -> r0 * y = r1 * x -> r1 * z' = r2 * y' -> r2 * x' = r0 * z' -> r0 * y' = r1 * x' ->
  y * z' - z * y' <> 0 \/ z * x' - x * z' <> 0 \/ x * y' - y * x' <> 0 -> r0 = 0 /\ r1 = 0 /\ r2 = 0.
Proof.
  intros b0 b1 b2 c0 c1 c2 HD. assert (P : forall p q : R, p <> 0 -> p * q = 0 -> q = 0) by (intros p q Hp Hq; apply Rmult_integral in Hq; destruct Hq; [contradiction|assumption]).
  destruct HD as [D|[D|D]]; repeat split; apply (P _ _ D); nsatz.
Qed.
