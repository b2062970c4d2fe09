(** * Properties of extend, collect and the macros, of the number of comparisons,
    of borrowed forms and of arbitrary comparators: C31, C36, C37, C56 *)

From Verif Require Export ProofExtend ProofLog Samples.
Local Open Scope N_scope.

(** C31. [extend] leaves the tree that single inserts leave, whatever the hint of
    the iterator and the comparisons; this also holds when the iterator panics
    after its items. *)
Theorem C31_extend_is_inserts {K V : Type} : forall e os it (m : bstmap K V) r m1 rs m2, reachable e m ->
  exec e (OExtend os it) m = (r, m1) -> (exists x, r = Ret x) \/ r = Panic PIter ->
  run e (inserts os (ui_items it)) m = (rs, m2) -> returned_all rs ->
  exists t : tree K V, shows m1 t /\ shows m2 t.
Proof. exact extend_is_inserts. Qed.
Print Assumptions C31_extend_is_inserts.

(** It panics like the iterator, and otherwise returns. *)
Theorem C31_extend_iterator_panic {K V : Type} : forall e os it (m : bstmap K V) (t : tree K V) r m', reachable e m -> shows m t ->
  exec e (OExtend os it) m = (r, m') -> (exists x, r = Ret x) \/ r = Panic PIter ->
  exists t', otree_insert_all os 0 (ui_items it) t = (t', true) /\ shows m' t' /\
    r = if ui_panics it then Panic PIter else Ret OutUnit.
Proof. exact extend_shows. Qed.
Print Assumptions C31_extend_iterator_panic.

(** When [extend] panics for any reason (the iterator, a comparison, the allocator), some of
    the first items are in the map as if inserted one by one, and no others. *)
Theorem C31_extend_stops {K V : Type} : forall e os it (m : bstmap K V) (t : tree K V) q m', reachable e m -> shows m t ->
  exec e (OExtend os it) m = (Panic q, m') ->
  exists n t', (n <= length (ui_items it))%nat /\ otree_insert_all os 0 (take n (ui_items it)) t = (t', true) /\ shows m' t'.
Proof. exact extend_stops. Qed.
Print Assumptions C31_extend_stops.

Theorem C31_collect_is_inserts {K V : Type} : forall e os it (m1 : bstmap K V) rs m2, map_from_iter e os it = (Ret tt, m1) ->
  run e (inserts os (ui_items it)) map_new = (rs, m2) -> returned_all rs ->
  exists t : tree K V, shows m1 t /\ shows m2 t /\ ui_panics it = false.
Proof. exact collect_is_inserts. Qed.
Print Assumptions C31_collect_is_inserts.

Theorem C31_bstmap_macro_is_inserts {K V : Type} : forall e os (items : list (K * V)) panics m1 rs m2,
  bstmap_macro e os items panics = (Ret tt, m1) ->
  run e (inserts os items) map_new = (rs, m2) -> returned_all rs ->
  exists t : tree K V, shows m1 t /\ shows m2 t.
Proof. exact bstmap_macro_is_inserts. Qed.
Print Assumptions C31_bstmap_macro_is_inserts.

(** The same for sets. *)
Theorem C31_set_extend_is_inserts {T : Type} : forall e os it (m : bstset T) r m1 xs m2, set_reachable e m ->
  set_exec e (SetExtend os it) m = (r, m1) -> (exists x, r = Ret x) \/ r = Panic PIter ->
  set_run e (set_inserts os (ui_items it)) m = (xs, m2) -> returned_all xs ->
  exists t, set_shows m1 t /\ set_shows m2 t.
Proof. exact set_extend_is_inserts. Qed.
Print Assumptions C31_set_extend_is_inserts.

Theorem C31_set_collect_is_inserts {T : Type} : forall e os it (m1 : bstset T) xs m2, set_from_iter e os it = (Ret tt, m1) ->
  set_run e (set_inserts os (ui_items it)) set_new = (xs, m2) -> returned_all xs ->
  exists t, set_shows m1 t /\ set_shows m2 t /\ ui_panics it = false.
Proof. exact set_collect_is_inserts. Qed.
Print Assumptions C31_set_collect_is_inserts.

Theorem C31_bstset_macro_is_inserts {T : Type} : forall e os items later (m1 : bstset T) xs m2,
  bstset_macro e os items later = (Ret tt, m1) ->
  set_run e (set_inserts os items) set_new = (xs, m2) -> returned_all xs ->
  exists t, set_shows m1 t /\ set_shows m2 t /\ later = 0.
Proof. exact bstset_macro_is_inserts. Qed.
Print Assumptions C31_bstset_macro_is_inserts.

(** With a lawful order: after [extend], the entry found has the first matching
    key (of the map, then of the items) and the last matching value. *)
Theorem C31_last_value_first_key {K V : Type} (cmp : K -> K -> comparison) :
  lawful cmp -> forall e os it (m : bstmap K V) l r m' f o,
  ordered_reachable cmp e m -> yields m In l -> legal_inserts cmp os ->
  exec e (OExtend os it) m = (r, m') -> (exists x, r = Ret x) \/ r = Panic PIter -> is_query cmp f -> surely o f ->
  map_get_entry m' o = Ret (
    match assoc_find f (l ++ ui_items it) with
    | None => None
    | Some (k, v) => Some (k, match assoc_find f (rev (ui_items it)) with Some (_, w) => w | None => v end)
    end).
Proof. exact (extend_lookup cmp). Qed.
Print Assumptions C31_last_value_first_key.

(** A lying hint, a panicking iterator, equal keys. *)
Definition c31_it : user_iter (SK * N) :=
  mkUserIter 100 (Some 3) [((65, 7), 1); ((20, 1), 2); ((20, 2), 3); ((99, 0), 4)] true.
Example C31_case :
  ordered_reachable scmp senv sample /\ yields sample In sample_entries /\ legal_inserts scmp sos /\
  (exec senv (OExtend sos c31_it) sample).1 = Panic PIter /\
  returned_all (run senv (inserts sos (ui_items c31_it)) sample).1 /\
  map_get_entry (exec senv (OExtend sos c31_it) sample).2 (so (sq 20)) = Ret (Some ((20, 1), 3)) /\
  map_get_entry (exec senv (OExtend sos c31_it) sample).2 (so (sq 65)) = Ret (Some ((65, 0), 1)) /\
  (map_from_iter senv sos (mkUserIter 0 None (ui_items c31_it) false)).1 = Ret tt /\
  (bstmap_macro senv sos (ui_items c31_it) false).1 = Ret tt /\
  returned_all (run senv (inserts sos (ui_items c31_it)) map_new).1 /\
  (bstset_macro senv sos [(3, 0); (1, 0); (2, 0)] 0).1 = Ret tt /\
  returned_all (set_run senv (set_inserts sos [(3, 0); (1, 0); (2, 0)]) set_new).1 /\
  (set_exec senv (SetExtend sos (mkUserIter 0 None [(3, 0); (1, 0)] false)) set_new).1 = Ret SetUnit.
Proof.
  split; [exact sample_ordered|]. split; [exact sample_yields|]. split; [exact sos_legal|].
  split; [by vm_compute|]. split; [vm_compute; repeat constructor; by eexists|].
  split; [by vm_compute|]. split; [by vm_compute|]. split; [by vm_compute|]. split; [by vm_compute|].
  split; [vm_compute; repeat constructor; by eexists|]. split; [by vm_compute|].
  split; [vm_compute; repeat constructor; by eexists|by vm_compute].
Qed.

(** C36. A comparator that answers at most as often as the tree is high, and then
    panics, changes nothing: no call asks more often ... *)
Theorem C36_at_most_height_comparisons {K V : Type} : forall e call (m : bstmap K V) (t : tree K V) o, reachable e m -> shows m t ->
  search_call call \/ (exists k v, call = fun o => OInsert o k v) ->
  exec e (call (first_answers (height t) o)) m = exec e (call o) m.
Proof. exact height_cost. Qed.
Print Assumptions C36_at_most_height_comparisons.

Theorem C36_height_at_most_count {K V : Type} : forall e (m : bstmap K V) (t : tree K V), reachable e m -> shows m t ->
  N.of_nat (height t) <= entry_count e m.
Proof. exact height_count. Qed.
Print Assumptions C36_height_at_most_count.

(** ... and after inserting sorted keys a search for the last one needs as many
    comparisons as there are entries. *)
Theorem C36_sorted_insertion_is_linear {K V : Type} (cmp : K -> K -> comparison) :
  lawful cmp -> forall e s items k v os rs (m : bstmap K V), (s = SNew \/ exists c, s = SWithCapacity c) ->
  sorted cmp (items ++ [(k, v)]) -> legal_inserts cmp os -> reached e s (inserts os (items ++ [(k, v)])) rs m -> returned_all rs ->
  shows m (right_spine (items ++ [(k, v)])) /\ entry_count e m = N.of_nat (S (length items)) /\
  forall n, (n <= length items)%nat -> (exec e (OGet (first_answers n (fun _ k' => Some (cmp k k')))) m).1 = Panic PCmp.
Proof. exact (sorted_insertion cmp). Qed.
Print Assumptions C36_sorted_insertion_is_linear.

(** The documented bound O(log n) of [get] is false: for every constant [c] up to
    [2^40] (a larger one cannot be refuted by a map that fits a 64-bit address
    space with elements of a few kilobytes), a program reaches a map where a
    lookup makes more than [c * (log2 len + 1)] comparisons. *)
Theorem C36_documented_log_bound_refuted : forall e c,
  (forall i n, e_alloc e i n = Some n) -> 0 < e_size e <= 4096 -> c <= 2 ^ 40 ->
  exists (m : bstmap N N) q, ordered_reachable N.compare e m /\ 0 < entry_count e m /\
    (exec e (OGet (first_answers (N.to_nat (c * (N.log2 (entry_count e m) + 1))) (fun _ k => Some (N.compare q k)))) m).1
      = Panic PCmp.
Proof. exact not_logarithmic. Qed.
Print Assumptions C36_documented_log_bound_refuted.

Definition sample_tree : tree SK N :=
  tnode (tnode tleaf (30, 0) 20 (tnode tleaf (40, 0) 55 (tnode tleaf (60, 0) 10 (tnode tleaf (65, 0) 9 tleaf))))
    (70, 0) 6 (tnode tleaf (80, 0) 3 (tnode tleaf (90, 0) 7 tleaf)).
Lemma sample_shows : shows sample sample_tree.
Proof.
  eexists. split; [vm_compute; reflexivity|].
  repeat first [apply exposes_none | eapply exposes_some; [vm_compute; reflexivity| |vm_compute; reflexivity|]].
Qed.

Definition c36_items : list (SK * N) := [((1, 0), 10); ((2, 0), 20); ((3, 0), 30)].
Example C36_case :
  reachable senv sample /\ shows sample sample_tree /\ height sample_tree = 5%nat /\
  (exec senv (OGet (first_answers 5 (so (sq 65)))) sample).1 = Ret (OutValue (Some 9)) /\
  (exec senv (OGet (first_answers 4 (so (sq 65)))) sample).1 = Panic PCmp /\
  sorted scmp (c36_items ++ [((4, 0), 40)]) /\
  reached senv SNew (inserts sos (c36_items ++ [((4, 0), 40)])) (run senv (inserts sos (c36_items ++ [((4, 0), 40)])) map_new).1
    (run senv (inserts sos (c36_items ++ [((4, 0), 40)])) map_new).2 /\
  returned_all (run senv (inserts sos (c36_items ++ [((4, 0), 40)])) map_new).1 /\
  (forall i n, e_alloc senv i n = Some n) /\ 0 < e_size senv <= 4096.
Proof.
  split; [exact sample_reachable|]. split; [exact sample_shows|]. split; [done|].
  split; [by vm_compute|]. split; [by vm_compute|].
  split; [repeat constructor|]. split; [exists map_new; split; [done|apply surjective_pairing]|].
  split; [vm_compute; repeat constructor; by eexists|]. split; [done|]. by vm_compute.
Qed.

(** C37. A search for a borrowed form [q] does exactly what the search for a key
    does whose borrowed form equals [q], on every state ... *)
Theorem C37_borrowed_forms {K V Q : Type} (cmp : K -> K -> comparison) (cmpQ : Q -> Q -> comparison) (borrow : K -> Q) :
  forall (p : nat -> K -> bool) q k e call (m : bstmap K V),
  lawful cmpQ -> (forall a b, cmpQ (borrow a) (borrow b) = cmp a b) -> cmpQ q (borrow k) = Eq -> search_call call ->
  exec e (call (fun i x => if p i x then None else Some (cmpQ q (borrow x)))) m =
  exec e (call (fun i x => if p i x then None else Some (cmp k x))) m.
Proof. exact (borrowed_forms cmp cmpQ borrow). Qed.
Print Assumptions C37_borrowed_forms.

(** ... and in every history. *)
Theorem C37_borrowed_histories {K V Q : Type} (cmp : K -> K -> comparison) (cmpQ : Q -> Q -> comparison) (borrow : K -> Q) :
  forall e cs cs', lawful cmpQ -> (forall a b, cmpQ (borrow a) (borrow b) = cmp a b) ->
  Forall2 (borrowed_alike cmp cmpQ borrow) cs cs' -> forall m : bstmap K V, run e cs m = run e cs' m.
Proof. exact (borrowed_history cmp cmpQ borrow). Qed.
Print Assumptions C37_borrowed_histories.

Theorem C37_set_borrowed_forms {T Q : Type} (cmp : T -> T -> comparison) (cmpQ : Q -> Q -> comparison) (borrow : T -> Q) :
  forall (p : nat -> T -> bool) q x e call (m : bstset T),
  lawful cmpQ -> (forall a b, cmpQ (borrow a) (borrow b) = cmp a b) -> cmpQ q (borrow x) = Eq ->
  set_search_call call -> set_reachable e m ->
  set_exec e (call (fun i y => if p i y then None else Some (cmpQ q (borrow y)))) m =
  set_exec e (call (fun i y => if p i y then None else Some (cmp x y))) m.
Proof. exact (set_borrowed_forms cmp cmpQ borrow). Qed.
Print Assumptions C37_set_borrowed_forms.

(** Keys are pairs; the number is the borrowed form. *)
Example C37_case : lawful N.compare /\ (forall a b : SK, N.compare a.1 b.1 = scmp a b) /\
  N.compare 40 (fst (40, 99)) = Eq /\ search_call (@ORemoveEntry SK N) /\ set_search_call (@SetTake SK) /\
  set_reachable senv (@set_new SK) /\
  Forall2 (borrowed_alike scmp N.compare fst) [ins 5 0 1; OGet (fun i x => if Nat.eqb i 3 then None else Some (N.compare 40 x.1))]
    [ins 5 0 1; OGet (fun i x => if Nat.eqb i 3 then None else Some (scmp (40, 99) x))] /\
  (exec senv (ORemoveEntry (fun _ x => Some (N.compare 40 x.1))) sample).1 = Ret (OutEntry (Some ((40, 0), 55))).
Proof.
  split; [exact N_lawful|]. split; [done|]. split; [done|]. split; [constructor|]. split; [constructor|].
  split; [exists SetNew, [], []; split; [by exists set_new|constructor]|]. split.
  - constructor; [constructor|]. constructor; [|constructor].
    by apply (alike_search scmp N.compare fst OGet (fun i _ => Nat.eqb i 3) 40 (40, 99) sc_get).
  - by vm_compute.
Qed.

(** C56. With comparisons that answer anything, or panic, every history does what
    the textbook tree does when it gets the same answers. *)
Theorem C56_any_comparator {K V : Type} : forall e (s : start K V) cs rs m, reached e s cs rs m ->
  exists t0 t : tree K V, otree_start s t0 /\ steps otree_step t0 cs rs t /\ shows m t /\ forall d, yields m d (tree_order d t).
Proof. exact any_comparator. Qed.
Print Assumptions C56_any_comparator.

Theorem C56_any_comparator_call {K V : Type} : forall e c (m : bstmap K V) (t : tree K V) r m',
  reachable e m -> shows m t -> exec e c m = (r, m') ->
  exists t' : tree K V, shows m' t' /\ otree_step t c r t'.
Proof. exact any_comparator_call. Qed.
Print Assumptions C56_any_comparator_call.

(** Comparisons that contradict each other leave the keys out of order and 30 twice; a later
    comparison panics. *)
Definition c56_ops : list (op SK N) := mad_ops ++ [OGet (so_panic 1 (fun _ => Lt)); ins 30 3 9].
Definition c56_run := run senv_release c56_ops map_new.
Example C56_case : reached senv_release SNew c56_ops c56_run.1 c56_run.2 /\
  nth 7 c56_run.1 (Ret OutUnit) = Panic PCmp /\ reachable senv_release c56_run.2 /\
  (exists t, shows c56_run.2 t) /\
  yields c56_run.2 In [((10, 0), 4); ((30, 3), 9); ((50, 0), 1); ((60, 0), 6); ((20, 0), 3); ((30, 0), 5)].
Proof.
  assert (Hr : reachable senv_release c56_run.2).
  { unfold c56_run. apply reachable_of. vm_compute. repeat constructor; discriminate. }
  split; [exists map_new; split; [done|apply surjective_pairing]|]. split; [by vm_compute|].
  split; [exact Hr|]. split; [apply (shown_exists senv_release), Hr|].
  eexists. split; vm_compute; reflexivity.
Qed.
