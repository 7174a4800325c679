(** C94, C95: the library built with its assertions enabled. *)
From Coq Require Import Reals Lra Lia.
From Verif Require Import Base Spec Spec_Vector Model_Numbering Model_Vector Model_VectorPartitioned Model_Checked Spec_Checked Proof_Checked.

(** C94: which meshes a checked [Vector] accepts: exactly the valid ones.  All others throw, and a valid mesh gives the same object
    without assertions. *)
Theorem C94_build : forall conn dofs,
  (forall z, valid_mesh conn dofs z -> exists v, new_Vector true conn dofs = Ok v /\ new_Vector false conn dofs = Ok v /\
     m_nelem v = z_nelem z /\ m_nne v = z_nne z /\ m_nnode v = z_nnode z /\ m_ndim v = z_ndim z /\ m_ndof v = z_ndof z) /\
  ((forall z, ~ valid_mesh conn dofs z) -> new_Vector true conn dofs = Throw).
Proof.
  intros conn dofs. split; [|apply new_throw]. intros z V. exists (the_vector conn dofs z). rewrite !(new_ok _ _ _ _ V). do 2 (split; [reflexivity|]).
  destruct (c_sizes conn dofs z V) as [-> [-> ->]]. repeat split.
Qed.
(** the valid meshes have one set of sizes *)
Theorem C94_sizes : forall conn dofs z z', valid_mesh conn dofs z -> valid_mesh conn dofs z' -> z_nelem z = z_nelem z' /\ z_nne z = z_nne z' /\ z_nnode z = z_nnode z' /\ z_ndim z = z_ndim z' /\ z_ndof z = z_ndof z'.
Proof.
  intros conn dofs z z' V W. assert (E := eq_trans (eq_sym (vm_conn _ _ _ V)) (vm_conn _ _ _ W)). assert (F := eq_trans (eq_sym (vm_dofs _ _ _ V)) (vm_dofs _ _ _ W)).
  injection E as E1 E2. injection F as F1 F2. repeat split; try assumption.
  destruct (vm_last _ _ _ V) as [a [i [Ha [Hi A]]]]. destruct (vm_last _ _ _ W) as [b [j [Hb [Hj B]]]].
  pose proof (vm_below _ _ _ W a i ltac:(lia) ltac:(lia)). pose proof (vm_below _ _ _ V b j ltac:(lia) ltac:(lia)). lia.
Qed.

(** every conversion of a checked [Vector], called with an array of any rank and shape, any output array and any order of the parallel
    iterations: it succeeds exactly on the documented shapes, with an output of the documented shape and the entries that the build
    without assertions gives, and throws on everything else.  It never accesses an array out of bounds. *)
Theorem C94_total : forall conn dofs z v o c arg ret, valid_mesh conn dofs z -> any_order z o -> new_Vector true conn dofs = Ok v ->
  (In (a_shape arg) (accepts z c) /\ ret = gives z c ->
     exists y, convert_into true v o c arg ret = Ok y /\ out_shape y (gives z c) /\ convert_into false v o c arg ret = Ok y) /\
  (~ (In (a_shape arg) (accepts z c) /\ ret = gives z c) -> convert_into true v o c arg ret = Throw).
Proof.
  intros conn dofs z v o c arg ret V O Ev. rewrite (new_ok _ _ _ _ V) in Ev. injection Ev as <-. split.
  - exact (convert_accepted conn dofs z V o O true c arg ret).
  - exact (convert_rejected conn dofs z V o c arg ret).
Qed.
(** the by-value forms allocate the right output themselves *)
Theorem C94_by_value : forall conn dofs z v o c arg, valid_mesh conn dofs z -> any_order z o -> new_Vector true conn dofs = Ok v ->
  (In (a_shape arg) (accepts z c) -> exists y, convert true v o c arg = Ok y /\ out_shape y (gives z c) /\ convert false v o c arg = Ok y) /\
  (~ In (a_shape arg) (accepts z c) -> convert true v o c arg = Throw).
Proof.
  intros conn dofs z v o c arg V O Ev. assert (G : target_shape v c = gives z c). { rewrite (new_ok _ _ _ _ V) in Ev. injection Ev as <-. exact (c_gives conn dofs z V c). }
  destruct (C94_total conn dofs z v o c arg (gives z c) V O Ev) as [A B]. unfold convert. rewrite G. split; [intros H; now apply A|intros H; apply B; tauto].
Qed.
(** without assertions: an array of a rank that the conversion does not take still throws, and an accepted one is converted *)
Theorem C94_rank : forall conn dofs z v o c arg ret, valid_mesh conn dofs z -> new_Vector false conn dofs = Ok v ->
  (forall s, In s (accepts z c) -> length s <> length (a_shape arg)) -> convert_into false v o c arg ret = Throw.
Proof. intros conn dofs z v o c arg ret V Ev H. rewrite (new_ok _ _ _ _ V) in Ev. injection Ev as <-. exact (convert_rank conn dofs z o c arg ret H). Qed.
(** the allocated arrays: their shape is the documented one, with one value everywhere, and the conversions accept them *)
Theorem C94_allocate : forall conn dofs z v val, valid_mesh conn dofs z -> new_Vector true conn dofs = Ok v ->
  (out_shape (allocate_dofval v val) (dofval z) /\ constant (allocate_dofval v val) val) /\
  (out_shape (allocate_nodevec v val) (nodevec z) /\ constant (allocate_nodevec v val) val) /\
  (out_shape (allocate_elemvec v val) (elemvec z) /\ constant (allocate_elemvec v val) val) /\
  (out_shape (allocate_elemmat v val) [z_nelem z; z_nne z * z_ndim z; z_nne z * z_ndim z] /\ constant (allocate_elemmat v val) val) /\
  shape_dofval v = dofval z /\ shape_nodevec v = nodevec z /\ shape_elemvec v = elemvec z /\ shape_elemmat v = [z_nelem z; z_nne z * z_ndim z; z_nne z * z_ndim z].
Proof.
  intros conn dofs z v val V Ev. rewrite (new_ok _ _ _ _ V) in Ev. injection Ev as <-. pose proof (c_sizes conn dofs z V) as S. set (v := the_vector conn dofs z) in *. destruct S as [S1 [S2 S3]].
  assert (N : m_nne v = z_nne z) by reflexivity. assert (D : m_ndim v = z_ndim z) by reflexivity.
  unfold shape_dofval, shape_nodevec, shape_elemvec, shape_elemmat, allocate_dofval, allocate_nodevec, allocate_elemvec, allocate_elemmat. rewrite S1, S2, S3, N, D.
  assert (R2 : forall n d, shape2 (repeat (repeat val d) n) n d). { intros. split; [apply repeat_length|]. intros r Hr. apply repeat_spec in Hr. subst r. apply repeat_length. }
  assert (R3 : forall n k d, shape3 (repeat (repeat (repeat val d) k) n) n k d). { intros. split; [apply repeat_length|]. intros r Hr. apply repeat_spec in Hr. subst r. apply R2. }
  assert (C1 : forall n, constant (Out1 (repeat val n)) val). { intros n y Hy. now apply repeat_spec in Hy. }
  assert (C2 : forall n d, constant (Out2 (repeat (repeat val d) n)) val). { intros n d r y Hr Hy. apply repeat_spec in Hr. rewrite Hr in Hy. now apply (C1 d). }
  assert (C3 : forall n k d, constant (Out3 (repeat (repeat (repeat val d) k) n)) val). { intros n k d s r y Hs Hr Hy. apply repeat_spec in Hs. rewrite Hs in Hr. now apply (C2 k d r). }
  split; [split; [apply repeat_length|apply C1]|]. split; [split; [apply R2|apply C2]|]. split; [split; [apply R3|apply C3]|]. split; [split; [apply R3|apply C3]|]. repeat split.
Qed.

(** a bar of two elements: valid; its conversions in the two builds, on a good array, on one that is too small, and on one of a wrong rank *)
Definition bar_conn := mkArray [2; 2] (fun ix => match ix with [e; m] => e + m | _ => 0 end).
Definition bar_dofs := mkArray [3; 1] (fun ix => match ix with [n; _] => n | _ => 0 end).
Definition bar := mkSizes 2 2 3 1 3.
Definition bar_order := mkSchedule [(2, 0); (0, 0); (1, 0)] [(0, 0, 0); (1, 0, 0); (0, 1, 0); (1, 1, 0)].
Example C94_ex_valid : valid_mesh bar_conn bar_dofs bar.
Proof.
  constructor; try reflexivity; cbn; try lia. exists 2, 0. lia.
Qed.
Example C94_ex_order : any_order bar bar_order.
Proof.
  split; cbn.
  - apply Permutation_sym. apply perm_trans with [(0,0);(2,0);(1,0)]; [apply perm_skip, perm_swap|apply perm_swap].
  - apply perm_skip. apply perm_swap.
Qed.
Definition entries (s : list nat) : array R := mkArray s (fun ix => INR (fold_right plus 0 ix)).
Example C94_ex : forall v, new_Vector true bar_conn bar_dofs = Ok v ->
  (exists y, convert true v bar_order ToElement (entries [3]) = Ok y /\ out_shape y [2; 2; 1]) /\
  convert true v bar_order ToElement (entries [2]) = Throw /\ convert false v bar_order ToElement (entries [2]) = Oob /\ convert false v bar_order ToElement (entries []) = Throw.
Proof.
  intros v Ev. split.
  - destruct (C94_by_value _ _ _ v bar_order ToElement (entries [3]) C94_ex_valid C94_ex_order Ev) as [A _]. destruct A as [y [E [S _]]]; [now left|]. eauto.
  - injection Ev as <-. split; [|split]; reflexivity.
Qed.
(** a connectivity that names a node that does not exist is rejected, without assertions it is accepted *)
Example C94_ex_bad : new_Vector true (mkArray [1; 2] (fun _ => 7)) bar_dofs = Throw /\ exists v, new_Vector false (mkArray [1; 2] (fun _ => 7)) bar_dofs = Ok v.
Proof. split; [reflexivity|]. eexists. reflexivity. Qed.

(** C95: the same for [VectorPartitioned].  Which prescribed DOFs are accepted *)
Theorem C95_build : forall conn dofs iip,
  (forall z n, valid_mesh conn dofs z -> valid_iip iip z n ->
     exists p, new_VectorPartitioned_checked true conn dofs iip = Ok p /\ new_VectorPartitioned_checked false conn dofs iip = Ok p /\
       m_nnp p = n /\ m_ndof (vp_v p) = z_ndof z /\
       (exists free, NoDup free /\ length free = m_nnu p /\ forall d, In d free <->
          (exists m i, m < z_nnode z /\ i < z_ndim z /\ a_ent dofs [m; i] = d) /\ ~ exists k, k < n /\ a_ent iip [k] = d)) /\
  ((forall z n, valid_mesh conn dofs z -> ~ valid_iip iip z n) -> new_VectorPartitioned_checked true conn dofs iip = Throw).
Proof.
  intros conn dofs iip. split; [|apply p_new_throw]. intros z n V I. destruct (p_new conn dofs iip z n V I true) as [p [E F]]. destruct (p_new conn dofs iip z n V I false) as [q [E' F']].
  rewrite F in F'. injection F' as F'. rewrite <- F' in E'. exists p. split; [exact E|]. split; [exact E'|]. split; [exact (p_nnp conn dofs iip z n V I p F)|]. split; [exact (proj2 (proj2 (p_shapes conn dofs iip z n V I p F)))|].
  exists (setdiff1d (concat (m_dofs (the_vector conn dofs z))) (rows1 n iip)). split; [apply setdiff1d_NoDup|]. split; [symmetry; exact (p_nnu conn dofs iip z n V I p F)|].
  intros d. rewrite setdiff1d_In, in_rows1. cbn [the_vector m_dofs]. now rewrite in_rows2.
Qed.
(** copying the unknown or the prescribed part of one nodal vector to another *)
Theorem C95_copy : forall conn dofs iip z n p, valid_mesh conn dofs z -> valid_iip iip z n -> new_VectorPartitioned_checked true conn dofs iip = Ok p ->
  forall unknown src dest,
  (a_shape src = nodevec z /\ a_shape dest = nodevec z -> exists y, P_copy true p unknown src dest = Ok y /\ P_copy false p unknown src dest = Ok y /\ out_shape y (nodevec z)) /\
  (~ (a_shape src = nodevec z /\ a_shape dest = nodevec z) -> P_copy true p unknown src dest = Throw).
Proof.
  intros conn dofs iip z n p V I Ep u s d. destruct (p_new conn dofs iip z n V I true) as [q [E F]]. rewrite Ep in E. injection E as E. rewrite <- E in F. split.
  - intros [A B]. destruct (p_copy conn dofs iip z n V I p F true u s d A B) as [y [Ey Sy]]. exists (Out2 y). split; [exact Ey|]. split; [now apply p_release_copy|exact Sy].
  - intros H. apply p_copy_rejected. now rewrite (proj1 (p_shapes conn dofs iip z n V I p F)).
Qed.
(** putting the two parts together, as DOF values, a nodal vector or element vectors *)
Theorem C95_combine : forall conn dofs iip z n p, valid_mesh conn dofs z -> valid_iip iip z n -> new_VectorPartitioned_checked true conn dofs iip = Ok p ->
  forall c u q, In c [ToDofs; ToNode; ToElement] ->
  (a_shape u = [m_nnu p] /\ a_shape q = [n] -> exists y, P_combine true p c u q = Ok y /\ P_combine false p c u q = Ok y /\ out_shape y (gives z c)) /\
  (~ (a_shape u = [m_nnu p] /\ a_shape q = [n]) -> P_combine true p c u q = Throw).
Proof.
  intros conn dofs iip z n p V I Ep c u q Hc. destruct (p_new conn dofs iip z n V I true) as [r [E F]]. rewrite Ep in E. injection E as E. rewrite <- E in F. split.
  - intros [A B]. destruct (p_combine conn dofs iip z n V I p F true c u q) as [y [Ey Sy]]; [destruct Hc as [<-|[<-|[<-|[]]]]; tauto|exact A|exact B|]. exists y. split; [exact Ey|]. split; [now apply p_release_combine|exact Sy].
  - intros H. apply p_combine_rejected. now rewrite (p_nnp conn dofs iip z n V I p F).
Qed.
(** taking one of the two parts out of DOF values, a nodal vector or element vectors, for any order of the parallel iterations *)
Theorem C95_select : forall conn dofs iip z n p o, valid_mesh conn dofs z -> valid_iip iip z n -> any_order z o -> new_VectorPartitioned_checked true conn dofs iip = Ok p ->
  forall unknown arg,
  (In (a_shape arg) [dofval z; nodevec z; elemvec z] -> exists y, P_select true p o unknown arg = Ok y /\ P_select false p o unknown arg = Ok y /\ out_shape y [if unknown then m_nnu p else n]) /\
  (~ In (a_shape arg) [dofval z; nodevec z; elemvec z] -> P_select true p o unknown arg = Throw).
Proof.
  intros conn dofs iip z n p o V I O Ep u a. destruct (p_new conn dofs iip z n V I true) as [r [E F]]. rewrite Ep in E. injection E as E. rewrite <- E in F. split.
  - intros H. destruct (p_select conn dofs iip z n V I p F o O true u a H) as [y [Ey Ly]]. exists (Out1 y). split; [exact Ey|]. split; [now apply p_release_select|exact Ly].
  - intros H. apply p_select_rejected. destruct (p_shapes conn dofs iip z n V I p F) as [-> [-> ->]]. exact H.
Qed.

(** the bar with its last DOF prescribed *)
Definition bar_iip := mkArray [1] (fun _ : list nat => 2).
Example C95_ex_valid : valid_iip bar_iip bar 1.
Proof. split; [reflexivity|]. cbn. split; [lia|]. intros k l Hk Hl _. lia. Qed.
Example C95_ex : exists p, new_VectorPartitioned_checked true bar_conn bar_dofs bar_iip = Ok p /\ m_nnu p = 2 /\
  (exists y, P_select true p bar_order true (entries [3; 1]) = Ok y /\ out_shape y [2]) /\ P_select true p bar_order true (entries [4; 1]) = Throw /\
  P_combine true p ToNode (entries [2]) (entries [2]) = Throw /\ (exists y, P_combine true p ToNode (entries [2]) (entries [1]) = Ok y /\ out_shape y [3; 1]).
Proof.
  destruct (C95_build bar_conn bar_dofs bar_iip) as [A _]. destruct (A bar 1 C94_ex_valid C95_ex_valid) as [p [E _]]. exists p. split; [exact E|].
  assert (N : m_nnu p = 2) by (injection E as <-; reflexivity). split; [exact N|].
  destruct (C95_select _ _ _ _ _ p bar_order C94_ex_valid C95_ex_valid C94_ex_order E true (entries [3; 1])) as [S _].
  destruct (C95_select _ _ _ _ _ p bar_order C94_ex_valid C95_ex_valid C94_ex_order E true (entries [4; 1])) as [_ S'].
  destruct (C95_combine _ _ _ _ _ p C94_ex_valid C95_ex_valid E ToNode (entries [2]) (entries [2])) as [_ T']; [cbn; tauto|].
  destruct (C95_combine _ _ _ _ _ p C94_ex_valid C95_ex_valid E ToNode (entries [2]) (entries [1])) as [T _]; [cbn; tauto|]. rewrite N in *.
  split; [destruct S as [y [Ey [_ Sy]]]; [cbn; tauto|eauto]|]. split; [apply S'; cbn; intros [H|[H|[H|[]]]]; discriminate|]. split; [apply T'; cbn; intros [_ H]; discriminate|].
  destruct T as [y [Ey [_ Sy]]]; [now split|eauto].
Qed.
(** DOFs that are prescribed twice or do not exist are rejected *)
Example C95_ex_bad : new_VectorPartitioned_checked true bar_conn bar_dofs (mkArray [2] (fun _ => 1)) = Throw /\ new_VectorPartitioned_checked true bar_conn bar_dofs (mkArray [1] (fun _ => 3)) = Throw.
Proof. split; reflexivity. Qed.

Print Assumptions C94_build.
Print Assumptions C94_sizes.
Print Assumptions C94_total.
Print Assumptions C94_by_value.
Print Assumptions C94_rank.
Print Assumptions C94_allocate.
Print Assumptions C95_build.
Print Assumptions C95_copy.
Print Assumptions C95_combine.
Print Assumptions C95_select.
