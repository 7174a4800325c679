(** The loops of every method, in memory and on mathematical arrays (Proof_ElementMemory.v). *)
From Coq Require Import Reals.
From Verif Require Import Model_Element Spec_Element Base Model_Checked Model_ElementMemory Spec_ElementMemory Proof_ElementMemory.

Section Kernels.
Variables (nelem nip : nat) (es : list nat).
Hypothesis Hes : forall e, In e es -> e < nelem.
Local Notation M := (fun f g => sim (stored _) f g).

Ltac over := apply sim_loop; let e := fresh "e" in intros e ?He; apply Hes in He.

Lemma base_interp nne n N aN u au o ao :
  stored [nip; nne] N aN -> stored [nelem; nne; n] u au -> stored [nelem; nip; n] o ao ->
  exists o', m_base_interpQuad_vector es nip nne n N u o = Ok o' /\ stored [nelem; nip; n] o' (base_interpQuad_vector es nip nne n aN au ao).
Proof.
  intros HN Hu Ho. unfold m_base_interpQuad_vector, base_interpQuad_vector. refine (sim_from _ _ _ _ _ _ (stored_zero _ _ _ Ho)). over. do 3 sim_step.
  apply (sim_addp [nelem; nip] [n] _ [e; i] [i1]); [| reflexivity | reflexivity | idx | idx | cbn; lia].
  apply evals_bin.
  - apply (evals_rdp [nip] [nne] N aN _ [i] [i0]); [exact HN | reflexivity | reflexivity | idx | idx | cbn; lia].
  - apply (evals_rdp [nelem] [nne; n] u au _ [e] [i0; i1]); [exact Hu | reflexivity | reflexivity | idx | idx | cbn; lia].
Qed.
Lemma base_grad nne ndim tdim g ag u au o ao : ndim <= tdim ->
  stored [nelem; nip; nne; ndim] g ag -> stored [nelem; nne; ndim] u au -> stored [nelem; nip; tdim; tdim] o ao ->
  exists o', m_base_gradN_vector es nip nne ndim tdim g u o = Ok o' /\ stored [nelem; nip; tdim; tdim] o' (base_gradN_vector es nip nne ndim ag au ao).
Proof.
  intros Hd Hg Hu Ho. unfold m_base_gradN_vector, base_gradN_vector. refine (sim_from _ _ _ _ _ _ (stored_zero _ _ _ Ho)). over. sims.
Qed.
Lemma base_grad_T nne ndim tdim g ag u au o ao : ndim <= tdim ->
  stored [nelem; nip; nne; ndim] g ag -> stored [nelem; nne; ndim] u au -> stored [nelem; nip; tdim; tdim] o ao ->
  exists o', m_base_gradN_vector_T es nip nne ndim tdim g u o = Ok o' /\ stored [nelem; nip; tdim; tdim] o' (base_gradN_vector_T es nip nne ndim ag au ao).
Proof.
  intros Hd Hg Hu Ho. unfold m_base_gradN_vector_T, base_gradN_vector_T. refine (sim_from _ _ _ _ _ _ (stored_zero _ _ _ Ho)). over. sims.
Qed.
Lemma base_sym nne ndim tdim g ag u au o ao : ndim <= tdim ->
  stored [nelem; nip; nne; ndim] g ag -> stored [nelem; nne; ndim] u au -> stored [nelem; nip; tdim; tdim] o ao ->
  exists o', m_base_symGradN_vector es nip nne ndim tdim g u o = Ok o' /\ stored [nelem; nip; tdim; tdim] o' (base_symGradN_vector es nip nne ndim ag au ao).
Proof.
  intros Hd Hg Hu Ho. unfold m_base_symGradN_vector, base_symGradN_vector. refine (sim_from _ _ _ _ _ _ (stored_zero _ _ _ Ho)). over. sims.
Qed.
Lemma base_int_N nne n N aN vol av p ap o ao :
  stored [nip; nne] N aN -> stored [nelem; nip] vol av -> stored [nelem; nip; n] p ap -> stored [nelem; nne; n] o ao ->
  exists o', m_base_int_N_vector_dV es nip nne n N vol p o = Ok o' /\ stored [nelem; nne; n] o' (base_int_N_vector_dV es nip nne n aN av ap ao).
Proof.
  intros HN Hv Hp Ho. unfold m_base_int_N_vector_dV, base_int_N_vector_dV. refine (sim_from _ _ _ _ _ _ (stored_zero _ _ _ Ho)). over. do 3 sim_step.
  apply (sim_addp [nelem] [nne; n] _ [e] [i0; i1]); [| reflexivity | reflexivity | idx | idx | cbn; lia].
  apply evals_bin; [apply evals_bin|].
  - apply (evals_rdp [nip] [nne] N aN _ [i] [i0]); [exact HN | reflexivity | reflexivity | idx | idx | cbn; lia].
  - apply (evals_rdp [nelem; nip] [n] p ap _ [e; i] [i1]); [exact Hp | reflexivity | reflexivity | idx | idx | cbn; lia].
  - ev_step.
Qed.
Lemma base_tensor4 nne ndim tdim g ag vol av C aC o ao : ndim <= tdim ->
  stored [nelem; nip; nne; ndim] g ag -> stored [nelem; nip] vol av -> stored [nelem; nip; tdim; tdim; tdim; tdim] C aC -> stored [nelem; nne * ndim; nne * ndim] o ao ->
  exists o', m_base_int_gradN_dot_tensor4_dot_gradNT_dV es nip nne ndim tdim g vol C o = Ok o'
    /\ stored [nelem; nne * ndim; nne * ndim] o' (base_int_gradN_dot_tensor4_dot_gradNT_dV es nip nne ndim ag av aC ao).
Proof.
  intros Hd Hg Hv HC Ho. unfold m_base_int_gradN_dot_tensor4_dot_gradNT_dV, base_int_gradN_dot_tensor4_dot_gradNT_dV. refine (sim_from _ _ _ _ _ _ (stored_zero _ _ _ Ho)). over. sims.
Qed.

(** ** Quad4, Planar *)
Lemma Quad4_N_ok rows cols xi axi o ao : nip <= rows -> 2 <= cols -> stored [rows; cols] xi axi -> stored [nip; 4] o ao -> exists o', m_Quad4_N nip xi o = Ok o' /\ stored [nip; 4] o' (Quad4_N nip axi ao).
Proof. intros Hr Hc Hx Ho. unfold m_Quad4_N, Quad4_N. refine (sim_from _ _ _ _ _ _ Ho). sims. Qed.
Lemma Quad4_dNxi_ok rows cols xi axi o ao : nip <= rows -> 2 <= cols -> stored [rows; cols] xi axi -> stored [nip; 4; 2] o ao -> exists o', m_Quad4_dNxi nip xi o = Ok o' /\ stored [nip; 4; 2] o' (Quad4_dNxi nip axi ao).
Proof. intros Hr Hc Hx Ho. unfold m_Quad4_dNxi, Quad4_dNxi. refine (sim_from _ _ _ _ _ _ Ho). sims. Qed.
Lemma Quad4_interp N aN u au o ao : stored [nip; 4] N aN -> stored [nelem; 4; 2] u au -> stored [nelem; nip; 2] o ao ->
  exists o', m_Quad4_interpQuad_vector es nip N u o = Ok o' /\ forall Q, q_nip Q = nip -> q_N Q = aN -> stored [nelem; nip; 2] o' (Quad4_interpQuad_vector es Q au ao).
Proof.
  intros HN Hu Ho. unfold m_Quad4_interpQuad_vector.
  enough (exists o', m_Quad4_interpQuad_vector es nip N u o = Ok o' /\ stored [nelem; nip; 2] o'
    (forL es (fun e => for_ nip (fun q => block [ upd [e;q;0]%nat (sum4 (fun m => aN [q;m] * au [e;m;0]%nat)%R); upd [e;q;1]%nat (sum4 (fun m => aN [q;m] * au [e;m;1]%nat)%R) ])) (fill 0 ao))) as (o' & E & H)
    by (exists o'; split; [exact E|]; intros Q <- <-; exact H).
  refine (sim_from _ _ _ _ _ _ (stored_zero _ _ _ Ho)). over. sims.
Qed.
Lemma Quad4_grad tdim g ag u au o ao : 2 <= tdim -> stored [nelem; nip; 4; 2] g ag -> stored [nelem; 4; 2] u au -> stored [nelem; nip; tdim; tdim] o ao ->
  exists o', m_points es nip (m_Quad4_grad_block tdim g u) o = Ok o' /\ stored [nelem; nip; tdim; tdim] o' (forL es (fun e => for_ nip (fun q => Quad4_grad_block ag au e q)) ao).
Proof. intros Hd Hg Hu Ho. unfold m_points. refine (sim_from _ _ _ _ _ _ Ho). over. sim_step. unfold m_Quad4_grad_block, Quad4_grad_block. sims. Qed.
Lemma Quad4_grad_T tdim g ag u au o ao : 2 <= tdim -> stored [nelem; nip; 4; 2] g ag -> stored [nelem; 4; 2] u au -> stored [nelem; nip; tdim; tdim] o ao ->
  exists o', m_points es nip (m_Quad4_grad_T_block tdim g u) o = Ok o' /\ stored [nelem; nip; tdim; tdim] o' (forL es (fun e => for_ nip (fun q => Quad4_grad_T_block ag au e q)) ao).
Proof. intros Hd Hg Hu Ho. unfold m_points. refine (sim_from _ _ _ _ _ _ Ho). over. sim_step. unfold m_Quad4_grad_T_block, Quad4_grad_T_block. sims. Qed.
Lemma Quad4_sym tdim g ag u au o ao : 2 <= tdim -> stored [nelem; nip; 4; 2] g ag -> stored [nelem; 4; 2] u au -> stored [nelem; nip; tdim; tdim] o ao ->
  exists o', m_points es nip (m_Quad4_sym_block tdim g u) o = Ok o' /\ stored [nelem; nip; tdim; tdim] o' (forL es (fun e => for_ nip (fun q => Quad4_sym_block ag au e q)) ao).
Proof. intros Hd Hg Hu Ho. unfold m_points. refine (sim_from _ _ _ _ _ _ Ho). over. sim_step. unfold m_Quad4_sym_block, Quad4_sym_block. sims. Qed.
Lemma Quad4_mass N aN vol av p ap o ao : stored [nip; 4] N aN -> stored [nelem; nip] vol av -> stored [nelem; nip] p ap -> stored [nelem; 8; 8] o ao ->
  exists o', m_Quad4_int_N_scalar_NT_dV es nip N vol p o = Ok o' /\ stored [nelem; 8; 8] o' (Quad4_int_N_scalar_NT_dV_impl es nip aN av ap ao).
Proof.
  intros HN Hv Hp Ho. unfold m_Quad4_int_N_scalar_NT_dV, Quad4_int_N_scalar_NT_dV_impl. refine (sim_from _ _ _ _ _ _ (stored_zero _ _ _ Ho)). over. sims.
Qed.
Lemma Quad4_force tdim g ag vol av p ap o ao : 2 <= tdim ->
  stored [nelem; nip; 4; 2] g ag -> stored [nelem; nip] vol av -> stored [nelem; nip; tdim; tdim] p ap -> stored [nelem; 4; 2] o ao ->
  exists o', m_Quad4_int_gradN_dot_tensor2_dV es nip tdim g vol p o = Ok o' /\ stored [nelem; 4; 2] o' (Quad4_int_gradN_dot_tensor2_dV_impl es nip ag av ap ao).
Proof.
  intros Hd Hg Hv Hp Ho. unfold m_Quad4_int_gradN_dot_tensor2_dV, Quad4_int_gradN_dot_tensor2_dV_impl. refine (sim_from _ _ _ _ _ _ (stored_zero _ _ _ Ho)). over. sims.
Qed.
Lemma Quad4_jacobian_ok dNxi ad x ax q e junk : stored [nip; 4; 2] dNxi ad -> stored [nelem; 4; 2] x ax -> q < nip -> e < nelem ->
  m_Quad4_jacobian dNxi x q e junk = Ok (Quad4_jacobian ad ax q e junk).
Proof.
  intros Hd Hx Hq He. unfold m_Quad4_jacobian, local2, Quad4_jacobian. cbv zeta.
  assert (E : forall i j, i < 2 -> j < 2 -> ev (sum4e (fun m => Bin Rmult (rdv dNxi [q; 0; 0] [4; 2] [m; i]) (rdv x [e; 0; 0] [4; 2] [m; j]))) = Ok (sum4 (fun m => ad [q; m; i] * ax [e; m; j])%R)).
  { intros i j Hi Hj. change (evals (sum4e (fun m => Bin Rmult (rdv dNxi [q; 0; 0] [4; 2] [m; i]) (rdv x [e; 0; 0] [4; 2] [m; j]))) (sum4 (fun m => ad [q; m; i] * ax [e; m; j])%R)). repeat ev_step. }
  rewrite (E 0 0), (E 0 1), (E 1 0), (E 1 1) by lia. reflexivity.
Qed.
Lemma Quad4_dN junk w aw dNxi ad x ax vol_of st ast :
  stored [nip] w aw -> stored [nip; 4; 2] dNxi ad -> stored [nelem; 4; 2] x ax -> rel2 [nelem; nip; 4; 2] [nelem; nip] st ast ->
  exists st', m_Quad4_compute_dN es nip junk w dNxi x vol_of st = Ok st' /\ rel2 [nelem; nip; 4; 2] [nelem; nip] st' (Quad4_compute_dN es nip junk aw ad ax vol_of ast).
Proof.
  intros Hw Hd Hx Hst. unfold m_Quad4_compute_dN, Quad4_compute_dN. refine (sim_from _ _ _ _ _ _ Hst). over. sim_step.
  intros s t R. rewrite (Quad4_jacobian_ok _ _ _ _ _ _ _ Hd Hx) by assumption. cbn [bind]. cbv zeta. revert s t R.
  apply (sim_pair [nelem; nip; 4; 2] [nelem; nip]); sims.
Qed.

(** ** Axisymmetric *)
Lemma Axisym_dN junk w aw N aN dNxi ad x ax st ast :
  stored [nip] w aw -> stored [nip; 4] N aN -> stored [nip; 4; 2] dNxi ad -> stored [nelem; 4; 2] x ax -> rel2 [nelem; nip; 4; 3; 3; 3] [nelem; nip] st ast ->
  exists st', m_Axisym_compute_dN es nip junk w N dNxi x st = Ok st' /\ rel2 [nelem; nip; 4; 3; 3; 3] [nelem; nip] st' (Axisym_compute_dN es nip junk aw aN ad ax ast).
Proof.
  intros Hw HN Hd Hx Hst. unfold m_Axisym_compute_dN, Axisym_compute_dN.
  assert (Hst' : rel2 [nelem; nip; 4; 3; 3; 3] [nelem; nip] (zero (fst st), snd st) (fill 0 (fst ast), snd ast)) by (destruct Hst; split; [now apply stored_zero | assumption]).
  refine (sim_from _ _ _ _ _ _ Hst'). over. sim_step.
  intros s t R. rewrite (Quad4_jacobian_ok _ _ _ _ _ _ _ Hd Hx) by assumption. cbn [bind]. cbv zeta.
  assert (E : evals (sum4e (fun m => Bin Rmult (rdv N [i; 0] [4] [m]) (rdv x [e; 0; 0] [4; 2] [m; 1]))) (sum4 (fun m => aN [i; m] * ax [e; m; 1%nat])%R)) by (repeat ev_step).
  unfold evals in E. rewrite E. cbn [bind]. clear E. revert s t R.
  apply (sim_pair [nelem; nip; 4; 3; 3; 3] [nelem; nip]); sims.
Qed.
Lemma Axisym_grad B aB u au o ao : stored [nelem; nip; 4; 3; 3; 3] B aB -> stored [nelem; 4; 2] u au -> stored [nelem; nip; 3; 3] o ao ->
  exists o', m_points es nip (m_Axisym_grad_block B u) o = Ok o' /\ stored [nelem; nip; 3; 3] o'
    (forL es (fun e => for_ nip (fun q => block
    [ upd [e;q;0;0]%nat (sum4 (fun m => aB [e;q;m;0;0;0]%nat * au [e;m;1]%nat)%R);
      upd [e;q;1;1]%nat (sum4 (fun m => aB [e;q;m;1;1;0]%nat * au [e;m;1]%nat)%R);
      upd [e;q;2;2]%nat (sum4 (fun m => aB [e;q;m;2;2;2]%nat * au [e;m;0]%nat)%R);
      upd [e;q;0;2]%nat (sum4 (fun m => aB [e;q;m;0;2;2]%nat * au [e;m;0]%nat)%R);
      upd [e;q;2;0]%nat (sum4 (fun m => aB [e;q;m;2;0;0]%nat * au [e;m;1]%nat)%R) ])) ao).
Proof. intros HB Hu Ho. unfold m_points. refine (sim_from _ _ _ _ _ _ Ho). over. sim_step. unfold m_Axisym_grad_block. sims. Qed.
Lemma Axisym_grad_T B aB u au o ao : stored [nelem; nip; 4; 3; 3; 3] B aB -> stored [nelem; 4; 2] u au -> stored [nelem; nip; 3; 3] o ao ->
  exists o', m_points es nip (m_Axisym_grad_T_block B u) o = Ok o' /\ stored [nelem; nip; 3; 3] o'
    (forL es (fun e => for_ nip (fun q => block
    [ upd [e;q;0;0]%nat (sum4 (fun m => aB [e;q;m;0;0;0]%nat * au [e;m;1]%nat)%R);
      upd [e;q;1;1]%nat (sum4 (fun m => aB [e;q;m;1;1;0]%nat * au [e;m;1]%nat)%R);
      upd [e;q;2;2]%nat (sum4 (fun m => aB [e;q;m;2;2;2]%nat * au [e;m;0]%nat)%R);
      upd [e;q;2;0]%nat (sum4 (fun m => aB [e;q;m;0;2;2]%nat * au [e;m;0]%nat)%R);
      upd [e;q;0;2]%nat (sum4 (fun m => aB [e;q;m;2;0;0]%nat * au [e;m;1]%nat)%R) ])) ao).
Proof. intros HB Hu Ho. unfold m_points. refine (sim_from _ _ _ _ _ _ Ho). over. sim_step. unfold m_Axisym_grad_T_block. sims. Qed.
Lemma Axisym_sym B aB u au o ao : stored [nelem; nip; 4; 3; 3; 3] B aB -> stored [nelem; 4; 2] u au -> stored [nelem; nip; 3; 3] o ao ->
  exists o', m_points es nip (m_Axisym_sym_block B u) o = Ok o' /\ stored [nelem; nip; 3; 3] o'
    (forL es (fun e => for_ nip (fun q => block
    [ upd [e;q;0;0]%nat (sum4 (fun m => aB [e;q;m;0;0;0]%nat * au [e;m;1]%nat)%R);
      upd [e;q;1;1]%nat (sum4 (fun m => aB [e;q;m;1;1;0]%nat * au [e;m;1]%nat)%R);
      upd [e;q;2;2]%nat (sum4 (fun m => aB [e;q;m;2;2;2]%nat * au [e;m;0]%nat)%R);
      upd [e;q;2;0]%nat (0.5 * (sum4 (fun m => aB [e;q;m;0;2;2]%nat * au [e;m;0]%nat)
                                + aB [e;q;0;2;0;0]%nat * au [e;0;1]%nat + aB [e;q;1;2;0;0]%nat * au [e;1;1]%nat
                                + aB [e;q;2;2;0;0]%nat * au [e;2;1]%nat + aB [e;q;3;2;0;0]%nat * au [e;3;1]%nat))%R;
      (fun eps => upd [e;q;0;2]%nat (eps [e;q;2;0]%nat) eps) ])) ao).
Proof. intros HB Hu Ho. unfold m_points. refine (sim_from _ _ _ _ _ _ Ho). over. sim_step. unfold m_Axisym_sym_block. sims. Qed.
Lemma Axisym_force B aB vol av p ap o ao : stored [nelem; nip; 4; 3; 3; 3] B aB -> stored [nelem; nip] vol av -> stored [nelem; nip; 3; 3] p ap -> stored [nelem; 4; 2] o ao ->
  exists o', m_Axisym_int_gradN_dot_tensor2_dV es nip B vol p o = Ok o' /\
    forall A, a_nip A = nip -> a_B A = aB -> a_vol A = av -> stored [nelem; 4; 2] o' (Axisym_int_gradN_dot_tensor2_dV es A ap ao).
Proof.
  intros HB Hv Hp Ho. set (A := {| a_nelem := nelem; a_nip := nip; a_x := aB; a_w := aB; a_xi := aB; a_N := aB; a_dNxi := aB; a_B := aB; a_vol := av |}).
  enough (exists o', m_Axisym_int_gradN_dot_tensor2_dV es nip B vol p o = Ok o' /\ stored [nelem; 4; 2] o' (Axisym_int_gradN_dot_tensor2_dV es A ap ao)) as (o' & E & H).
  { exists o'. split; [exact E|]. intros A' E1 E2 E3. unfold Axisym_int_gradN_dot_tensor2_dV. rewrite E1, E2, E3. exact H. }
  unfold m_Axisym_int_gradN_dot_tensor2_dV, Axisym_int_gradN_dot_tensor2_dV, A. cbn [a_B a_vol a_nip]. refine (sim_from _ _ _ _ _ _ (stored_zero _ _ _ Ho)). over. sims.
Qed.
Lemma Axisym_tensor4 B aB vol av p ap o ao : stored [nelem; nip; 4; 3; 3; 3] B aB -> stored [nelem; nip] vol av -> stored [nelem; nip; 3; 3; 3; 3] p ap -> stored [nelem; 8; 8] o ao ->
  exists o', m_Axisym_int_gradN_dot_tensor4_dot_gradNT_dV es nip B vol p o = Ok o' /\
    forall A, a_nip A = nip -> a_B A = aB -> a_vol A = av -> stored [nelem; 8; 8] o' (Axisym_int_gradN_dot_tensor4_dot_gradNT_dV es A ap ao).
Proof.
  intros HB Hv Hp Ho. set (A := {| a_nelem := nelem; a_nip := nip; a_x := aB; a_w := aB; a_xi := aB; a_N := aB; a_dNxi := aB; a_B := aB; a_vol := av |}).
  enough (exists o', m_Axisym_int_gradN_dot_tensor4_dot_gradNT_dV es nip B vol p o = Ok o' /\ stored [nelem; 8; 8] o' (Axisym_int_gradN_dot_tensor4_dot_gradNT_dV es A ap ao)) as (o' & E & H).
  { exists o'. split; [exact E|]. intros A' E1 E2 E3. unfold Axisym_int_gradN_dot_tensor4_dot_gradNT_dV. rewrite E1, E2, E3. exact H. }
  unfold m_Axisym_int_gradN_dot_tensor4_dot_gradNT_dV, Axisym_int_gradN_dot_tensor4_dot_gradNT_dV, A, K_plus, B_at, C_at. cbn [a_B a_vol a_nip]. refine (sim_from _ _ _ _ _ _ (stored_zero _ _ _ Ho)). over.
  cbv zeta. do 3 sim_step. unfold axisym_terms. cbv beta iota zeta delta [map]. sims.
Qed.

(** ** Hex8 *)
Lemma Hex8_N_ok rows cols xi axi o ao : nip <= rows -> 3 <= cols -> stored [rows; cols] xi axi -> stored [nip; 8] o ao -> exists o', m_Hex8_N nip xi o = Ok o' /\ stored [nip; 8] o' (Hex8_N nip axi ao).
Proof. intros Hr Hc Hx Ho. unfold m_Hex8_N, Hex8_N. refine (sim_from _ _ _ _ _ _ Ho). sims. Qed.
Lemma Hex8_dNxi_ok rows cols xi axi o ao : nip <= rows -> 3 <= cols -> stored [rows; cols] xi axi -> stored [nip; 8; 3] o ao -> exists o', m_Hex8_dNxi nip xi o = Ok o' /\ stored [nip; 8; 3] o' (Hex8_dNxi nip axi ao).
Proof. intros Hr Hc Hx Ho. unfold m_Hex8_dNxi, Hex8_dNxi. refine (sim_from _ _ _ _ _ _ Ho). sims. Qed.
Lemma Hex8_mass N aN vol av p ap o ao : stored [nip; 8] N aN -> stored [nelem; nip] vol av -> stored [nelem; nip] p ap -> stored [nelem; 24; 24] o ao ->
  exists o', m_Hex8_int_N_scalar_NT_dV es nip N vol p o = Ok o' /\
    forall Q, q_nip Q = nip -> q_N Q = aN -> q_vol Q = av -> stored [nelem; 24; 24] o' (Hex8_int_N_scalar_NT_dV es Q ap ao).
Proof.
  intros HN Hv Hp Ho. set (Q := {| q_nelem := nelem; q_nip := nip; q_x := aN; q_w := aN; q_xi := aN; q_N := aN; q_dNxi := aN; q_dNx := aN; q_vol := av |}).
  enough (exists o', m_Hex8_int_N_scalar_NT_dV es nip N vol p o = Ok o' /\ stored [nelem; 24; 24] o' (Hex8_int_N_scalar_NT_dV es Q ap ao)) as (o' & E & H).
  { exists o'. split; [exact E|]. intros Q' E1 E2 E3. unfold Hex8_int_N_scalar_NT_dV. rewrite E1, E2, E3. exact H. }
  unfold m_Hex8_int_N_scalar_NT_dV, Hex8_int_N_scalar_NT_dV, Q. cbn [q_N q_vol q_nip]. refine (sim_from _ _ _ _ _ _ (stored_zero _ _ _ Ho)). over. sims.
Qed.
Lemma Hex8_force g ag vol av p ap o ao : stored [nelem; nip; 8; 3] g ag -> stored [nelem; nip] vol av -> stored [nelem; nip; 3; 3] p ap -> stored [nelem; 8; 3] o ao ->
  exists o', m_Hex8_int_gradN_dot_tensor2_dV es nip g vol p o = Ok o' /\
    forall Q, q_nip Q = nip -> q_dNx Q = ag -> q_vol Q = av -> stored [nelem; 8; 3] o' (Hex8_int_gradN_dot_tensor2_dV es Q ap ao).
Proof.
  intros HN Hv Hp Ho. set (Q := {| q_nelem := nelem; q_nip := nip; q_x := ag; q_w := ag; q_xi := ag; q_N := ag; q_dNxi := ag; q_dNx := ag; q_vol := av |}).
  enough (exists o', m_Hex8_int_gradN_dot_tensor2_dV es nip g vol p o = Ok o' /\ stored [nelem; 8; 3] o' (Hex8_int_gradN_dot_tensor2_dV es Q ap ao)) as (o' & E & H).
  { exists o'. split; [exact E|]. intros Q' E1 E2 E3. unfold Hex8_int_gradN_dot_tensor2_dV. rewrite E1, E2, E3. exact H. }
  unfold m_Hex8_int_gradN_dot_tensor2_dV, Hex8_int_gradN_dot_tensor2_dV, Q. cbn [q_dNx q_vol q_nip]. refine (sim_from _ _ _ _ _ _ (stored_zero _ _ _ Ho)). over. sims.
Qed.
Lemma base_jacobian_ok nne ndim dNxi ad x ax q e : stored [nip; nne; ndim] dNxi ad -> stored [nelem; nne; ndim] x ax -> q < nip -> e < nelem ->
  m_base_jacobian nne ndim dNxi x q e = Ok (base_jacobian nne ndim ad ax q e).
Proof.
  intros Hd Hx Hq He. unfold m_base_jacobian, base_jacobian. unfold loop_, for_.
  apply loop_pure; intros m s Hm; apply in_seq in Hm. apply loop_pure; intros i s' Hi; apply in_seq in Hi. apply loop_pure; intros j s'' Hj; apply in_seq in Hj.
  assert (E : evals (Bin Rmult (rdv dNxi [q; 0; 0] [nne; ndim] [m; i]) (rdv x [e; 0; 0] [nne; ndim] [m; j])) (ad [q; m; i] * ax [e; m; j])%R) by (repeat ev_step).
  unfold evals in E. rewrite E. reflexivity.
Qed.
Lemma base_dN nne ndim det inv junk w aw dNxi ad x ax st ast :
  stored [nip] w aw -> stored [nip; nne; ndim] dNxi ad -> stored [nelem; nne; ndim] x ax -> rel2 [nelem; nip; nne; ndim] [nelem; nip] st ast ->
  exists st', m_base_compute_dN es nip nne ndim det inv junk w dNxi x st = Ok st' /\ rel2 [nelem; nip; nne; ndim] [nelem; nip] st' (base_compute_dN es nip nne ndim det inv junk aw ad ax ast).
Proof.
  intros Hw Hd Hx Hst. unfold m_base_compute_dN, base_compute_dN.
  assert (Hst' : rel2 [nelem; nip; nne; ndim] [nelem; nip] (zero (fst st), snd st) (fill 0 (fst ast), snd ast)) by (destruct Hst; split; [now apply stored_zero | assumption]).
  refine (sim_from _ _ _ _ _ _ Hst'). over. sim_step.
  intros s t R. rewrite (base_jacobian_ok _ _ _ _ _ _ _ _ Hd Hx) by assumption. cbn [bind]. cbv zeta. revert s t R.
  apply (sim_pair [nelem; nip; nne; ndim] [nelem; nip]); sims.
Qed.
End Kernels.
