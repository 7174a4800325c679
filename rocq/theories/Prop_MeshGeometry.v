(** Properties C39 and C75: geometry of meshes of quadrilaterals (Mesh::edgesize, centers, nodal_mass,
    center_of_gravity, elemmap2nodemap).  [mem]: the contents of uninitialised memory and the order in
    which parallel loops visit the elements. *)
From Coq Require Import Reals Lra Permutation.
From Verif Require Import Model_Element Spec_Element Base Spec Sums Spec_Vector Model_Misc Model_MeshGeometry Spec_MeshGeometry
  Proof_MeshGeometry Proof_Vector.
Local Open Scope R_scope.

(** C39: edgesize are the lengths of the four sides, side [k] from node [k] to the next node *)
Theorem C39_edgesize : forall coor conn nelem nnode, quad_mesh coor conn nelem nnode ->
  exists ret, edgesize coor conn Quad4 = Ok ret /\ edgesize' coor 2 conn 4 = Ok ret /\ Spec.shape2 ret nelem 4 /\
  forall e k, (e < nelem)%nat -> (k < 4)%nat -> let l := ((k + 1) mod 4)%nat in let x := corners coor conn e in
  val2 ret e k = sqrt ((x l 0%nat - x k 0%nat) ^ 2 + (x l 1%nat - x k 1%nat) ^ 2).
Proof.
  intros coor conn nelem nnode H. destruct (edgesize_spec coor conn nelem nnode H) as (ret & E & S & V).
  exists ret. split; [exact E|]. split; [exact E|]. split; [exact S|]. intros e k He Hk l x.
  rewrite V by assumption. fold l. cbv [sumn seq sumL map fold_right]. f_equal. fold x. ring.
Qed.
Print Assumptions C39_edgesize.

(** C39: centers is the mean of the four nodes *)
Theorem C39_centers : forall coor conn nelem nnode, quad_mesh coor conn nelem nnode ->
  exists ret, centers coor 2 conn Quad4 = Ok ret /\ centers' coor 2 conn 4 = Ok ret /\ Spec.shape2 ret nelem 2 /\
  forall e j, (e < nelem)%nat -> (j < 2)%nat ->
  val2 ret e j = (corners coor conn e 0 j + corners coor conn e 1 j + corners coor conn e 2 j + corners coor conn e 3 j) / 4.
Proof.
  intros coor conn nelem nnode H. destruct (centers_spec coor conn nelem nnode H) as (ret & E & S & V).
  exists ret. split; [exact E|]. split; [exact E|]. split; [exact S|]. intros e j He Hj.
  rewrite V by assumption. cbv [sumn seq sumL map fold_right]. lra.
Qed.
Print Assumptions C39_centers.

(** C39: other element types are refused by all functions *)
Theorem C39_other_types : forall type, type <> Quad4 -> forall mem coor ndim conn nne elem_map N,
  edgesize coor conn type = Throw /\ centers coor ndim conn type = Throw /\
  nodal_mass mem coor ndim conn nne type = Throw /\ center_of_gravity mem coor ndim conn nne type = Throw /\
  elemmap2nodemap elem_map N conn type = Throw.
Proof. intros [] Ht mem coor ndim conn nne elem_map N; [|congruence| |]; repeat split. Qed.
Print Assumptions C39_other_types.

(** C39: the mass of a node is what the nodal quadrature rule gives it, in each column; the masses sum
    to the area of the mesh; nodes outside the connectivity have none; for convex elements all other
    nodes have a positive mass *)
Theorem C39_nodal_mass : forall coor conn nelem nnode, quad_mesh coor conn nelem nnode -> (0 < nnode)%nat ->
  forall mem, schedule nelem (es_new mem) -> schedule nelem (es_int mem) ->
  exists ret, nodal_mass mem coor 2 conn 4 Quad4 = Ok ret /\ nodal_mass' mem coor 2 conn 4 = Ok ret /\ Spec.shape2 ret nnode 2 /\
  (forall n i, (n < nnode)%nat -> (i < 2)%nat -> val2 ret n i =
     sumn nelem (fun e => sumn 4 (fun m => if (idx2 conn e m =? n)%nat then turn (corners coor conn e) m / 4 else 0))) /\
  (forall i, (i < 2)%nat -> sumn nnode (fun n => val2 ret n i) = sumn nelem (fun e => quad_area (corners coor conn e))) /\
  (forall n i, (n < nnode)%nat -> (i < 2)%nat ->
     (forall e m, (e < nelem)%nat -> (m < 4)%nat -> idx2 conn e m <> n) -> val2 ret n i = 0) /\
  ((forall e, (e < nelem)%nat -> convex (corners coor conn e)) ->
     forall e m i, (e < nelem)%nat -> (m < 4)%nat -> (i < 2)%nat -> 0 < val2 ret (idx2 conn e m) i).
Proof.
  intros coor conn nelem nnode H Hp mem S1 S2.
  destruct (nodal_mass_spec coor conn nelem nnode H Hp mem S1 S2) as (ret & E & S & V).
  exists ret. split; [exact E|]. split; [exact E|]. split; [exact S|]. split; [exact V|]. split; [|split].
  - intros i Hi. rewrite <- (nodal_mass_total coor conn nelem nnode H Hp : _ = sumn nelem _).
    apply sumn_ext. intros n Hn. now apply V.
  - intros n i Hn Hi Hu. rewrite V by assumption. exact (node_mass_unused coor conn nelem nnode H Hp n Hu).
  - intros Hc e m i He Hm Hi. rewrite V; [|exact (qm_node _ _ _ _ H e m He Hm)|exact Hi].
    exact (node_mass_pos coor conn nelem nnode H Hp e m Hc He Hm).
Qed.
Print Assumptions C39_nodal_mass.

(** C39: center_of_gravity is the mean of the nodes weighted by the nodal mass *)
Theorem C39_center_of_gravity : forall coor conn nelem nnode, quad_mesh coor conn nelem nnode -> (0 < nnode)%nat ->
  forall mem, schedule nelem (es_new mem) -> schedule nelem (es_int mem) ->
  exists M c, nodal_mass mem coor 2 conn 4 Quad4 = Ok M /\
  center_of_gravity mem coor 2 conn 4 Quad4 = Ok c /\ center_of_gravity' mem coor 2 conn 4 = Ok c /\ length c = 2%nat /\
  forall j, (j < 2)%nat -> val1 c j = sumn nnode (fun n => val2 M n j * val2 coor n j) / sumn nnode (fun n => val2 M n j).
Proof.
  intros coor conn nelem nnode H Hp mem S1 S2.
  destruct (nodal_mass_spec coor conn nelem nnode H Hp mem S1 S2) as (M & E & S & V).
  destruct (average_spec coor conn nelem nnode H Hp M S) as (c & Ec & Lc & Hc).
  assert (G : center_of_gravity mem coor 2 conn 4 Quad4 = Ok c) by (unfold center_of_gravity; rewrite E; exact Ec).
  exists M, c. split; [exact E|]. split; [exact G|]. split; [exact G|]. split; [exact Lc|]. intros j Hj. rewrite Hc by exact Hj.
  f_equal. apply sumn_ext. intros n _. ring.
Qed.
Print Assumptions C39_center_of_gravity.

(** C39: it commutes with translations, and with every invertible affine map x -> b + B x *)
Theorem C39_affine : forall (B : nat -> nat -> R) (b : nat -> R) coor coor' conn nelem nnode mem mem',
  quad_mesh coor conn nelem nnode -> quad_mesh coor' conn nelem nnode -> (0 < nnode)%nat ->
  schedule nelem (es_new mem) -> schedule nelem (es_int mem) -> schedule nelem (es_new mem') -> schedule nelem (es_int mem') ->
  (forall n i, (n < nnode)%nat -> (i < 2)%nat -> val2 coor' n i = b i + sumn 2 (fun l => B i l * val2 coor n l)) ->
  B 0%nat 0%nat * B 1%nat 1%nat - B 0%nat 1%nat * B 1%nat 0%nat <> 0 -> total_area coor conn nelem <> 0 ->
  exists c c', center_of_gravity mem coor 2 conn 4 Quad4 = Ok c /\ center_of_gravity mem' coor' 2 conn 4 Quad4 = Ok c' /\
  forall i, (i < 2)%nat -> val1 c' i = b i + sumn 2 (fun l => B i l * val1 c l).
Proof. exact cog_affine. Qed.
Print Assumptions C39_affine.

(** C39: for parallelograms it is the mean of the centers of the elements weighted by their area *)
Theorem C39_parallelograms : forall coor conn nelem nnode, quad_mesh coor conn nelem nnode -> (0 < nnode)%nat ->
  forall mem, schedule nelem (es_new mem) -> schedule nelem (es_int mem) ->
  (forall e, (e < nelem)%nat -> parallelogram (corners coor conn e)) ->
  exists x c, centers coor 2 conn Quad4 = Ok x /\ center_of_gravity mem coor 2 conn 4 Quad4 = Ok c /\
  forall j, (j < 2)%nat -> val1 c j =
    sumn nelem (fun e => quad_area (corners coor conn e) * val2 x e j) / sumn nelem (fun e => quad_area (corners coor conn e)).
Proof.
  intros coor conn nelem nnode H Hp mem S1 S2 HP.
  destruct (centers_spec coor conn nelem nnode H) as (x & Ex & Sx & Vx).
  destruct (cog_spec coor conn nelem nnode H Hp mem S1 S2) as (c & Ec & Lc & Hc).
  exists x, c. split; [exact Ex|]. split; [exact Ec|]. intros j Hj. rewrite Hc by exact Hj.
  rewrite (cog_elements coor conn nelem nnode H Hp j). f_equal. apply sumn_ext. intros e He. rewrite Vx by assumption.
  unfold Rdiv at 2. rewrite <- sumn_scal_r, <- sumn_scal. apply sumn_ext. intros m Hm.
  rewrite (parallelogram_turn _ (HP e He) m Hm). unfold Rdiv. ring.
Qed.
Print Assumptions C39_parallelograms.

(** two convex elements (one of them no parallelogram) and a node that is not used *)
Definition ex_coor : list (list R) := [[0;0];[1;0];[3;0];[0;1];[1;1];[2;2];[9;9]].
Definition ex_conn : list (list nat) := [[0;1;4;3];[1;2;5;4]]%nat.
Definition ex_mem : memory :=
  {| j_xi := fun _ => 7; j_w := fun _ => 7; j1 := fun _ => 7; j2 := fun _ => 7; j3 := fun _ => 7; j4 := fun _ => 7; j5 := fun _ => 7;
     j_K := fun _ => 7; es_new := [1;0]%nat; es_int := [0;1]%nat |}.
Example C39_ex : quad_mesh ex_coor ex_conn 2 7 /\ schedule 2 (es_new ex_mem) /\ schedule 2 (es_int ex_mem) /\
  (forall e, (e < 2)%nat -> convex (corners ex_coor ex_conn e)) /\ total_area ex_coor ex_conn 2 <> 0 /\
  (forall e m, (e < 2)%nat -> (m < 4)%nat -> idx2 ex_conn e m <> 6%nat).
Proof.
  split; [|split; [apply perm_swap|split; [apply Permutation_refl|split; [|split]]]].
  - constructor.
    + split; [reflexivity|]. intros r Hr. repeat destruct Hr as [<-|Hr]; try reflexivity. destruct Hr.
    + split; [reflexivity|]. intros r Hr. repeat destruct Hr as [<-|Hr]; try reflexivity. destruct Hr.
    + intros [|[|e]] [|[|[|[|m]]]] He Hm; try lia; cbn; lia.
  - intros [|[|e]] He [|[|[|[|m]]]] Hm; try lia; unfold turn, corners, val2, idx2, nth2; cbn; lra.
  - unfold total_area, quad_area, corners, val2, idx2, nth2. cbn. lra.
  - intros [|[|e]] [|[|[|[|m]]]] He Hm; try lia; cbn; lia.
Qed.
Example C39_ex_parallelograms : forall e, (e < 1)%nat -> parallelogram (corners ex_coor ex_conn e).
Proof. intros [|e] He; [|lia]. intros [|[|i]] Hi; [| |lia]; unfold corners, val2, idx2, nth2; cbn; lra. Qed.

(** C75: elemmap2nodemap maps node [n] with the first local node number that it has in some element:
    to the node with that number in the element that [elem_map] takes the place of that element from;
    nodes outside the connectivity are given the number of nodes *)
Theorem C75_nodemap : forall elem_map conn nelem N,
  Spec.shape2 conn nelem 4 -> (forall e m, (e < nelem)%nat -> (m < 4)%nat -> (idx2 conn e m < N)%nat) ->
  length elem_map = nelem -> (forall e, In e elem_map -> (e < nelem)%nat) ->
  exists ret, elemmap2nodemap elem_map N conn Quad4 = Ok ret /\ elemmap2nodemap' elem_map N 2 conn 4 = Ok ret /\ length ret = N /\
  forall n, (n < N)%nat ->
    ((forall e i, (e < nelem)%nat -> (i < 4)%nat -> idx2 conn e i <> n) /\ nth n ret 0%nat = N) \/
    (exists e i, (e < nelem)%nat /\ (i < 4)%nat /\ idx2 conn e i = n /\ nth n ret 0%nat = idx2 conn (nth e elem_map 0%nat) i /\
      forall e' i', (e' < nelem)%nat -> (i' < i)%nat -> idx2 conn e' i' <> n).
Proof.
  intros elem_map conn nelem N H1 H2 H3 H4. destruct (elemmap2nodemap_spec elem_map conn nelem N H1 H2 H3 H4) as (ret & E & L & V).
  exists ret. repeat (split; [assumption|]). exact V.
Qed.
Print Assumptions C75_nodemap.

(** C75: if the element map is induced by a map of the nodes, that is what is returned *)
Theorem C75_induced : forall elem_map conn nelem N (f : nat -> nat),
  Spec.shape2 conn nelem 4 -> (forall e m, (e < nelem)%nat -> (m < 4)%nat -> (idx2 conn e m < N)%nat) ->
  length elem_map = nelem -> (forall e, In e elem_map -> (e < nelem)%nat) ->
  (forall e i, (e < nelem)%nat -> (i < 4)%nat -> idx2 conn (nth e elem_map 0%nat) i = f (idx2 conn e i)) ->
  (forall n, (n < N)%nat -> exists e i, (e < nelem)%nat /\ (i < 4)%nat /\ idx2 conn e i = n) ->
  elemmap2nodemap elem_map N conn Quad4 = Ok (map f (seq 0 N)).
Proof.
  intros elem_map conn nelem N f H1 H2 H3 H4 Hf Ha. destruct (elemmap2nodemap_spec elem_map conn nelem N H1 H2 H3 H4) as (ret & E & L & V).
  rewrite E. f_equal. apply (list_ext1 0%nat _ _ N); [exact L|now rewrite map_length, seq_length|].
  intros n Hn. rewrite (nth_map_seq f N n 0%nat Hn).
  destruct (V n Hn) as [[A _]|(e & i & A1 & A2 & A3 & A4 & _)].
  - destruct (Ha n Hn) as (e & i & He & Hi & E'). now elim (A e i He Hi).
  - rewrite A4, Hf, A3 by assumption. reflexivity.
Qed.
Print Assumptions C75_induced.

(** two elements one above the other with periodic nodes, rotated *)
Example C75_ex : elemmap2nodemap [1;0]%nat 4 [[0;1;3;2];[2;3;1;0]]%nat Quad4 = Ok (map (fun n => (n + 2) mod 4) (seq 0 4))%nat /\
  (forall e i, (e < 2)%nat -> (i < 4)%nat ->
    idx2 [[0;1;3;2];[2;3;1;0]]%nat (nth e [1;0]%nat 0%nat) i = ((idx2 [[0;1;3;2];[2;3;1;0]] e i + 2) mod 4)%nat).
Proof. split; [reflexivity|]. intros [|[|e]] [|[|[|[|m]]]] He Hm; try lia; reflexivity. Qed.
