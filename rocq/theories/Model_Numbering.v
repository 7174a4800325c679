(** Model of the (DOF-)numbering utilities of Mesh.h. *)
From Verif Require Import Base.

(** Mesh.h:66-78 [detail::renum]: ret = mapping(arg), entry by entry.
    [mapping] may hold uninitialised entries (Mesh.h:129). *)
Definition renum (mapping : list (option nat)) (arg : list nat) : res (list nat) :=
  mapM (get_init mapping) arg.

(** the same for an array of rank 2 (Mesh.h:66-78, iterates over all entries in row-major order) *)
Definition renum2 (mapping : list (option nat)) (arg : list (list nat)) : res (list (list nat)) :=
  mapM (renum mapping) arg.

(** Mesh.h:131-134 (Renumber) and Mesh.h:2412-2417 (Reorder): [for (auto& j : js) m_renum(j) = i++] *)
Fixpoint number_from (i : nat) (js : list nat) (arr : list (option nat)) : res (list (option nat)) :=
  match js with
  | [] => Ok arr
  | j :: js' => bind (set arr j (Some i)) (fun arr' => number_from (S i) js' arr')
  end.

(** Mesh.h:121-135 constructor [Renumber(dofs)]; [dofs] flattened. *)
Definition Renumber (dofs : list nat) : res (list (option nat)) :=
  let n := amax dofs + 1 in
  let u := unique dofs in
  number_from 0 u (empty n).

(** Mesh.h:143-147 [Renumber::apply] *)
Definition Renumber_apply (m_renum : list (option nat)) (l : list nat) : res (list nat) :=
  renum m_renum l.

(** Mesh.h:156-159 [Renumber::index] *)
Definition Renumber_index (m_renum : list (option nat)) : list (option nat) := m_renum.

(** Mesh.h:171-175 [renumber] for an array of rank 1 *)
Definition renumber (dofs : list nat) : res (list nat) :=
  bind (Renumber dofs) (fun r => Renumber_apply r dofs).

(** Mesh.h:171-175 [renumber] for an array of rank 2 *)
Definition renumber2 (dofs : list (list nat)) : res (list (list nat)) :=
  bind (Renumber (concat dofs)) (fun r => renum2 r dofs).

(** Mesh.h:2394-2402 size of the mapping of [Reorder] *)
Definition Reorder_size (args : list (list nat)) : nat :=
  fold_left (fun n arg => if length arg =? 0 then n else Nat.max n (amax arg + 1)) args 0.

(** Mesh.h:2391-2418 constructor [Reorder(args)] *)
Definition Reorder (args : list (list nat)) : res (list (option nat)) :=
  number_from 0 (concat args) (empty (Reorder_size args)).

(** Mesh.h:2426-2438 [Reorder::apply], rank 1 and rank 2 *)
Definition Reorder_apply (m_renum : list (option nat)) (l : list nat) : res (list nat) :=
  mapM (get_init m_renum) l.
Definition Reorder_apply2 (m_renum : list (option nat)) (l : list (list nat)) : res (list (list nat)) :=
  mapM (Reorder_apply m_renum) l.

(** Mesh.h:2447-2450 [Reorder::index] *)
Definition Reorder_index (m_renum : list (option nat)) : list (option nat) := m_renum.

(** [xt::reshape_view(l, {n, d})], row-major *)
Definition reshape2 {A} (n d : nat) (l : list A) : list (list A) :=
  map (fun r => firstn d (skipn (r * d) l)) (seq 0 n).

(** Mesh.h:93-96 [dofs(nnode, ndim)] *)
Definition dofs (nnode ndim : nat) : list (list nat) :=
  reshape2 nnode ndim (seq 0 (nnode * ndim)).

(** read / write [a(i,j)] of an array of rank 2 stored as rows *)
Definition get2 {A} (a : list (list A)) (i j : nat) : res A :=
  bind (get a i) (fun r => get r j).
Definition set2 {A} (a : list (list A)) (i j : nat) (x : A) : res (list (list A)) :=
  bind (get a i) (fun r => bind (set r j x) (fun r' => set a i r')).

(** Mesh.h:299: [view(ret, keep(dependent), j) = view(ret, keep(independent), j)]:
    the right-hand side is evaluated (xtensor uses a temporary), then written in order. *)
Definition tie_column (ties : list (nat * nat)) (j : nat) (ret : list (list nat)) : res (list (list nat)) :=
  bind (mapM (fun t => get2 ret (fst t) j) ties) (fun vals =>
  foldM (fun a dv => set2 a (fst dv) j (snd dv)) (combine (map snd ties) vals) ret).

(** Mesh.h:291-303 [RegularBase::dofsPeriodic] for [nodesPeriodic() = ties],
    rows (independent, dependent). *)
Definition dofsPeriodic (nnode ndim : nat) (ties : list (nat * nat)) : res (list (list nat)) :=
  bind (foldM (fun a j => tie_column ties j a) (seq 0 ndim) (dofs nnode ndim)) (fun ret =>
  renumber2 ret).
