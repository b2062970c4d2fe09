(** * Properties of BSTMap under a lawful order: C01-C06, C14-C17, C37 (part)

    Vocabulary: [Spec.v] (finite maps as lists, trees), [SpecHistory.v] (what
    each call should do), [SpecObs.v] (reachable maps and observations). *)

From Verif Require Export ProofEqClone Samples.
Local Open Scope N_scope.

(** C01. After any history the lookups answer as a finite map (a list of entries)
    that was fed the same calls with the same results. *)
Theorem C01_lookups_agree_with_abstract_map {K V : Type} (cmp : K -> K -> comparison) :
  lawful cmp -> forall e (s : start K V) cs rs m,
  legal_start cmp s -> Forall (legal cmp) cs -> reached e s cs rs m ->
  exists l, steps (map_step cmp) (start_map cmp s) cs rs l /\
    (exists l', l' ≡ₚ l /\ sorted cmp l' /\ yields m In l') /\
    map_len e m = Ret (N.of_nat (length l)) /\
    forall f o, is_query cmp f -> surely o f ->
      map_get m o = Ret (snd <$> assoc_find f l) /\
      map_get_entry m o = Ret (assoc_find f l) /\
      map_contains_key m o = Ret (match assoc_find f l with Some _ => true | None => false end).
Proof. exact (lookups_refine cmp). Qed.
Print Assumptions C01_lookups_agree_with_abstract_map.

Example C01_case : lawful scmp /\ legal_start scmp (@SNew SK N) /\ Forall (legal scmp) sample_ops /\
  reached senv SNew sample_ops sample_run.1 sample /\
  map_get_entry sample (so (sq 30)) = Ret (Some ((30, 0), 20)) /\ map_get sample (so (sq 50)) = Ret None.
Proof.
  split; [exact scmp_lawful|]. split; [exact I|]. split; [exact sample_legal|]. split; [exact sample_reached|].
  by vm_compute.
Qed.

(** C02. insert, as an operation on the list of entries ... *)
Theorem C02_insert {K V : Type} (cmp : K -> K -> comparison) :
  lawful cmp -> forall e (m : bstmap K V) o k v l r m',
  ordered_reachable cmp e m -> surely o (cmp k) -> yields m In l ->
  bstmap_insert e o k v m = (r, m') ->
  match r with
  | Ret x => x = snd <$> assoc_find (cmp k) l /\ exists l', yields m' In l' /\ l' ≡ₚ assoc_insert cmp k v l
  | _ => alloc_refused r /\ yields m' In l
  end.
Proof. exact (insert_refines cmp). Qed.
Print Assumptions C02_insert.

(** ... and entry by entry: the stored key is kept, other entries stay. *)
Theorem C02_insert_changes_only_its_key {K V : Type} (cmp : K -> K -> comparison) :
  lawful cmp -> forall e (m : bstmap K V) o k v l x m',
  ordered_reachable cmp e m -> surely o (cmp k) -> yields m In l ->
  bstmap_insert e o k v m = (Ret x, m') ->
  exists l', yields m' In l' /\
    (forall k0 v0, (k0, v0) ∈ l -> cmp k k0 = Eq -> x = Some v0 /\ (k0, v) ∈ l' /\ length l' = length l) /\
    ((forall k0 v0, (k0, v0) ∈ l -> cmp k k0 <> Eq) -> x = None /\ (k, v) ∈ l' /\ length l' = S (length l)) /\
    (forall k0 v0, cmp k k0 <> Eq -> (k0, v0) ∈ l' <-> (k0, v0) ∈ l).
Proof. exact (insert_pointwise cmp). Qed.
Print Assumptions C02_insert_changes_only_its_key.

Example C02_case : ordered_reachable scmp senv sample /\ yields sample In sample_entries /\
  (bstmap_insert senv (so (scmp (65, 3))) (65, 3) 77 sample).1 = Ret (Some 9) /\
  map_get_entry (bstmap_insert senv (so (scmp (65, 3))) (65, 3) 77 sample).2 (so (sq 65)) = Ret (Some ((65, 0), 77)) /\
  (bstmap_insert senv (so (scmp (66, 3))) (66, 3) 77 sample).1 = Ret None.
Proof. split; [exact sample_ordered|]. split; [exact sample_yields|]. by vm_compute. Qed.

(** C03. remove_entry and remove. Neither can fail when the comparisons do not. *)
Theorem C03_remove_entry {K V : Type} (cmp : K -> K -> comparison) :
  lawful cmp -> forall e (m : bstmap K V) o f l r m',
  ordered_reachable cmp e m -> is_query cmp f -> surely o f -> yields m In l ->
  map_remove_entry e o m = (r, m') ->
  r = Ret (assoc_find f l) /\ yields m' In (assoc_remove f l).
Proof. exact (remove_entry_refines cmp). Qed.
Print Assumptions C03_remove_entry.

Theorem C03_remove {K V : Type} (cmp : K -> K -> comparison) :
  lawful cmp -> forall e (m : bstmap K V) o f l r m',
  ordered_reachable cmp e m -> is_query cmp f -> surely o f -> yields m In l ->
  map_remove e o m = (r, m') ->
  r = Ret (snd <$> assoc_find f l) /\ yields m' In (assoc_remove f l).
Proof. exact (remove_refines cmp). Qed.
Print Assumptions C03_remove.

(** What [assoc_remove] and [assoc_find] mean for the sorted list of entries. *)
Theorem C03_removes_exactly_one {K V : Type} (cmp : K -> K -> comparison) :
  lawful cmp -> forall f (l : list (K * V)), is_query cmp f -> sorted cmp l ->
  (forall k v, (k, v) ∈ assoc_remove f l <-> (k, v) ∈ l /\ f k <> Eq) /\
  (forall k v, assoc_find f l = Some (k, v) <-> (k, v) ∈ l /\ f k = Eq).
Proof. exact (assoc_remove_pointwise cmp). Qed.
Print Assumptions C03_removes_exactly_one.

Example C03_case : ordered_reachable scmp senv sample /\ yields sample In sample_entries /\
  (map_remove_entry senv (so (sq 70)) sample).1 = Ret (Some ((70, 0), 6)) /\
  (map_remove senv (so (sq 71)) sample).1 = Ret None /\ sorted scmp sample_entries.
Proof.
  split; [exact sample_ordered|]. split; [exact sample_yields|]. split; [by vm_compute|]. split; [by vm_compute|].
  repeat constructor.
Qed.

(** C04. len counts the entries; is_empty says whether it is 0 (any comparator). *)
Theorem C04_len_counts_entries {K V : Type} : forall e (m : bstmap K V), reachable e m ->
  exists l, (forall d, exists l', yields m d l' /\ length l' = length l) /\
    yields m In l /\ map_len e m = Ret (N.of_nat (length l)) /\
    map_is_empty e m = Ret (N.of_nat (length l) =? 0).
Proof. exact len_counts. Qed.
Print Assumptions C04_len_counts_entries.

Example C04_case : reachable senv sample /\ map_len senv sample = Ret 7 /\ map_is_empty senv sample = Ret false /\
  reachable senv_release mad /\ map_len senv_release mad = Ret 5.
Proof. split; [exact sample_reachable|]. split; [by vm_compute|]. split; [by vm_compute|]. split; [exact mad_reachable|by vm_compute]. Qed.

(** C05. clear empties the map and keeps the capacity ... *)
Theorem C05_clear {K V : Type} : forall e (m : bstmap K V) r m', reachable e m ->
  map_clear e (fun _ => false) m = (r, m') ->
  r = Ret tt /\ (forall d, yields m' d []) /\ shows m' tleaf /\ map_len e m' = Ret 0 /\
  map_capacity m' = map_capacity m /\
  (forall o, map_get m' o = Ret None /\ map_get_entry m' o = Ret None /\ map_contains_key m' o = Ret false) /\
  reachable e m'.
Proof. exact clear_empties. Qed.
Print Assumptions C05_clear.

(** ... and any further history behaves as on a new map: the results are those
    of the specification started from the empty tree and the empty finite map. *)
Theorem C05_cleared_map_is_like_new {K V : Type} (cmp : K -> K -> comparison) :
  lawful cmp -> forall e (m : bstmap K V) r m' cs rs m2,
  ordered_reachable cmp e m -> map_clear e (fun _ => false) m = (r, m') ->
  Forall (legal cmp) cs -> run e cs m' = (rs, m2) ->
  (exists t, steps (tree_step cmp) tleaf cs rs t /\ shows m2 t) /\
  (exists l l', steps (map_step cmp) [] cs rs l /\ yields m2 In l' /\ l' ≡ₚ l).
Proof. exact (clear_like_new cmp). Qed.
Print Assumptions C05_cleared_map_is_like_new.

Example C05_case : ordered_reachable scmp senv sample /\ map_capacity sample = 8 /\
  map_capacity (map_clear senv (fun _ => false) sample).2 = 8 /\
  (map_clear senv (fun _ => false) sample).1 = Ret tt /\ Forall (legal scmp) sample_ops.
Proof. split; [exact sample_ordered|]. split; [by vm_compute|]. split; [by vm_compute|]. split; [by vm_compute|exact sample_legal]. Qed.

(** C06. In-order iteration: strictly increasing keys, exactly the entries of the
    abstract map. *)
Theorem C06_inorder_sorted {K V : Type} (cmp : K -> K -> comparison) :
  lawful cmp -> forall e (m : bstmap K V) l, ordered_reachable cmp e m -> yields m In l -> sorted cmp l.
Proof. exact (inorder_sorted cmp). Qed.
Print Assumptions C06_inorder_sorted.

Theorem C06_inorder_complete {K V : Type} (cmp : K -> K -> comparison) :
  lawful cmp -> forall e (s : start K V) cs rs m,
  legal_start cmp s -> Forall (legal cmp) cs -> reached e s cs rs m ->
  exists l, steps (map_step cmp) (start_map cmp s) cs rs l /\ exists l', yields m In l' /\ l' ≡ₚ l.
Proof. exact (inorder_complete cmp). Qed.
Print Assumptions C06_inorder_complete.

Example C06_case : ordered_reachable scmp senv sample /\ yields sample In sample_entries /\
  sample_entries.*1 = [(30, 0); (40, 0); (60, 0); (65, 0); (70, 0); (80, 0); (90, 0)].
Proof. split; [exact sample_ordered|]. split; [exact sample_yields|done]. Qed.

(** C14. The tree seen through root/left/right is a search tree. *)
Theorem C14_search_tree {K V : Type} (cmp : K -> K -> comparison) :
  lawful cmp -> forall e (m : bstmap K V) t, ordered_reachable cmp e m -> shows m t -> bst cmp t.
Proof. exact (shown_bst cmp). Qed.
Print Assumptions C14_search_tree.

Theorem C14_a_tree_is_shown {K V : Type} : forall e (m : bstmap K V), reachable e m -> exists t, shows m t.
Proof. exact shown_exists. Qed.
Print Assumptions C14_a_tree_is_shown.

Example C14_case : ordered_reachable scmp senv sample /\ reachable senv_release mad.
Proof. split; [exact sample_ordered|exact mad_reachable]. Qed.

(** C15. get_mut and get_entry_mut find what get and get_entry find, at the same
    address, for every behaviour of the comparisons ... *)
Theorem C15_get_mut_same_entry {K V : Type} : forall e (m : bstmap K V) o, reachable e m ->
  map_get_mut m o = rmap (fmap fst) (map_get_ref m o) /\
  map_get_entry_mut m o = rmap (fmap (fun x => (x.2.1, x.1))) (map_get_entry_ref m o) /\
  map_get m o = rmap (fmap snd) (map_get_ref m o) /\
  map_get_entry m o = rmap (fmap snd) (map_get_entry_ref m o).
Proof. exact get_mut_same. Qed.
Print Assumptions C15_get_mut_same_entry.

(** ... and writing through the reference changes this value and nothing else. *)
Theorem C15_write_changes_one_value {K V : Type} : forall e (m : bstmap K V) p k v w,
  reachable e m -> stored m p k v ->
  exists m', write_value p w m = (Ret tt, m') /\
    (forall d lp, iter_collect m d = Ret lp -> iter_collect m' d = Ret (assign p w lp)) /\
    (forall t, shows m t -> exists t', shows m' t' /\ tree_keys t' = tree_keys t) /\
    map_len e m' = map_len e m /\ map_capacity m' = map_capacity m.
Proof. exact write_only. Qed.
Print Assumptions C15_write_changes_one_value.

Theorem C15_get_mut_refines {K V : Type} (cmp : K -> K -> comparison) :
  lawful cmp -> forall e (m : bstmap K V) o f l,
  ordered_reachable cmp e m -> is_query cmp f -> surely o f -> yields m In l ->
  match assoc_find f l with
  | None => map_get_mut m o = Ret None /\ map_get_entry_mut m o = Ret None
  | Some (k, v) => exists p, map_get_mut m o = Ret (Some p) /\ map_get_entry_mut m o = Ret (Some (k, p)) /\ stored m p k v /\
      forall w m', write_value p w m = (Ret tt, m') -> yields m' In (assoc_set f w l) /\ ordered_reachable cmp e m'
  end.
Proof. exact (get_mut_refines cmp). Qed.
Print Assumptions C15_get_mut_refines.

Example C15_case : ordered_reachable scmp senv sample /\ yields sample In sample_entries /\
  assoc_find (sq 60) sample_entries = Some ((60, 0), 10) /\ stored sample (0, 4) (60, 0) 10.
Proof.
  split; [exact sample_ordered|]. split; [exact sample_yields|]. split; [done|].
  eexists. split; [by vm_compute|]. by do 2 right; left.
Qed.

(** C16. Equality is equality of the entries, whatever the shape ... *)
Theorem C16_equality_is_equality_of_contents {K V : Type} (eqK : K -> K -> bool) (eqV : V -> V -> bool)
    (cmp : K -> K -> comparison) :
  lawful cmp -> (forall a b, eqK a b = true <-> cmp a b = Eq) ->
  forall e e1 e2 (m1 m2 : bstmap K V) l1 l2, ordered_reachable cmp e1 m1 -> ordered_reachable cmp e2 m2 ->
  yields m1 In l1 -> yields m2 In l2 ->
  exists b, map_eq e eqK eqV m1 m2 = Ret b /\
    (b = true <->
     (forall x, x ∈ l1 -> exists y, y ∈ l2 /\ eqK x.1 y.1 = true /\ eqV x.2 y.2 = true) /\
     (forall y, y ∈ l2 -> exists x, x ∈ l1 /\ eqK x.1 y.1 = true /\ eqV x.2 y.2 = true)).
Proof. exact (map_eq_contents eqK eqV cmp). Qed.
Print Assumptions C16_equality_is_equality_of_contents.

(** ... and an equivalence relation when the equalities of the elements are. *)
Theorem C16_reflexive {K V : Type} (eqK : K -> K -> bool) (eqV : V -> V -> bool) :
  forall e e1 (m : bstmap K V), reachable e1 m -> (forall a, eqK a a = true) -> (forall a, eqV a a = true) ->
  map_eq e eqK eqV m m = Ret true.
Proof. exact (map_eq_refl eqK eqV). Qed.
Print Assumptions C16_reflexive.

Theorem C16_symmetric {K V : Type} (eqK : K -> K -> bool) (eqV : V -> V -> bool) :
  forall e e1 e2 (m1 m2 : bstmap K V) b, reachable e1 m1 -> reachable e2 m2 ->
  (forall a b, eqK a b = eqK b a) -> (forall a b, eqV a b = eqV b a) ->
  map_eq e eqK eqV m1 m2 = Ret b -> map_eq e eqK eqV m2 m1 = Ret b.
Proof. exact (map_eq_sym eqK eqV). Qed.
Print Assumptions C16_symmetric.

Theorem C16_transitive {K V : Type} (eqK : K -> K -> bool) (eqV : V -> V -> bool) :
  forall e e1 e2 e3 (m1 m2 m3 : bstmap K V), reachable e1 m1 -> reachable e2 m2 -> reachable e3 m3 ->
  (forall a b c, eqK a b = true -> eqK b c = true -> eqK a c = true) ->
  (forall a b c, eqV a b = true -> eqV b c = true -> eqV a c = true) ->
  map_eq e eqK eqV m1 m2 = Ret true -> map_eq e eqK eqV m2 m3 = Ret true -> map_eq e eqK eqV m1 m3 = Ret true.
Proof. exact (map_eq_trans eqK eqV). Qed.
Print Assumptions C16_transitive.

(** Two maps with the same entries and different shapes are equal. *)
Definition seqK (a b : SK) : bool := match scmp a b with Eq => true | _ => false end.
Definition other_ops : list (op SK N) :=
  [ins 90 1 7; ins 80 1 3; ins 30 1 20; ins 40 1 55; ins 65 1 9; ins 60 1 10; ins 70 1 6].
Example C16_case :
  ordered_reachable scmp senv sample /\
  ordered_reachable scmp senv_release (run senv_release other_ops map_new).2 /\
  (forall a b, seqK a b = true <-> scmp a b = Eq) /\
  map_eq senv seqK N.eqb sample (run senv_release other_ops map_new).2 = Ret true /\
  map_eq senv seqK N.eqb sample (map_remove senv (so (sq 90)) sample).2 = Ret false.
Proof.
  split; [exact sample_ordered|]. split; [|split; [|by vm_compute]].
  - eexists SNew, other_ops, _. split; [exact I|]. split; [repeat constructor|].
    split; [exists map_new; split; [done|apply surjective_pairing]|]. vm_compute. repeat constructor; discriminate.
  - intros a b. unfold seqK. by destruct (scmp a b).
Qed.

(** C17. The clone has the shape of the original, with the clones of its keys and
    values in their places; the original is only read ([map_clone] returns no new
    state for it). *)
Theorem C17_clone {K V : Type} (cmp : K -> K -> comparison) :
  lawful cmp -> forall e os ck cv (m : bstmap K V) t r m2,
  ordered_reachable cmp e m -> legal_inserts cmp os ->
  (forall j k k', ck j k = Some k' -> cmp k' k = Eq) -> shows m t ->
  map_clone e os ck cv m = (r, m2) ->
  match r with
  | Ret _ =>
    exists t2, shows m2 t2 /\ clones ck cv 0 (tree_preorder t) = (tree_preorder t2, true) /\
      tree_shape t2 = tree_shape t /\ bst cmp t2 /\
      Forall2 (fun a b => (exists i, ck i b.1 = Some a.1) /\ (exists i, cv i b.2 = Some a.2)) (tree_inorder t2) (tree_inorder t) /\
      N.of_nat (length (tree_preorder t)) <= map_capacity m2 /\ ordered_reachable cmp e m2
  | _ => alloc_refused r \/ clone_panicked os ck cv (tree_inorder t) r
  end.
Proof. exact (clone_spec cmp). Qed.
Print Assumptions C17_clone.

Theorem C17_exact_clone_shows_the_same_tree {K V : Type} (cmp : K -> K -> comparison) :
  lawful cmp -> forall e os (m : bstmap K V) t m2,
  ordered_reachable cmp e m -> legal_inserts cmp os -> shows m t ->
  map_clone e os (fun _ k => Some k) (fun _ v => Some v) m = (Ret tt, m2) ->
  shows m2 t /\ forall d, exists l, yields m d l /\ yields m2 d l.
Proof. exact (clone_same_tree cmp). Qed.
Print Assumptions C17_exact_clone_shows_the_same_tree.

Theorem C17_clone_equals_original {K V : Type} (cmp : K -> K -> comparison) :
  lawful cmp -> forall e os ck cv eqK eqV (m m2 : bstmap K V),
  ordered_reachable cmp e m -> legal_inserts cmp os ->
  (forall j k k', ck j k = Some k' -> cmp k' k = Eq) ->
  (forall j k k', ck j k = Some k' -> eqK k' k = true) -> (forall j v v', cv j v = Some v' -> eqV v' v = true) ->
  map_clone e os ck cv m = (Ret tt, m2) -> map_eq e eqK eqV m2 m = Ret true.
Proof. exact (clone_equal cmp). Qed.
Print Assumptions C17_clone_equals_original.

Example C17_case : ordered_reachable scmp senv sample /\ legal_inserts scmp sos /\
  (map_clone senv sos (fun _ k => Some (k.1, k.2 + 1)) (fun _ v => Some v) sample).1 = Ret tt /\
  (forall (j : nat) k k', Some (k.1, k.2 + 1) = Some k' -> scmp k' k = Eq) /\
  iter_collect (map_clone senv sos (fun _ k => Some (k.1, k.2 + 1)) (fun _ v => Some v) sample).2 Post <> Ret [].
Proof.
  split; [exact sample_ordered|]. split; [exact sos_legal|]. split; [by vm_compute|]. split.
  - intros j k k' [= <-]. unfold scmp. apply N.compare_refl.
  - by vm_compute.
Qed.
