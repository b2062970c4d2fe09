(** * Properties of capacity, growth, build profiles and panicking destructors:
    C21-C23, C29, C32, C33, C44, C46, C55 *)

From Verif Require Export ProofMem Samples.
Local Open Scope N_scope.

(** Programs for the examples: a full first chunk, then one entry removed. *)
Definition eight_ops : list (op SK N) :=
  [ins 40 0 1; ins 20 0 2; ins 60 0 3; ins 10 0 4; ins 30 0 5; ins 50 0 6; ins 70 0 7; ins 80 0 8].
Definition holed_ops : list (op SK N) := eight_ops ++ [ORemove (so (sq 20))].
Definition holed : bstmap SK N := (run senv holed_ops map_new).2.
Definition holed_release : bstmap SK N := (run senv_release holed_ops map_new).2.
Lemma holed_reachable : reachable senv holed.
Proof. unfold holed. apply reachable_of. vm_compute. repeat constructor; discriminate. Qed.
Lemma holed_release_reachable : reachable senv_release holed_release.
Proof. unfold holed_release. apply reachable_of. vm_compute. repeat constructor; discriminate. Qed.

(** C21. [with_capacity] gives the smallest room for [n] entries. *)
Theorem C21_with_capacity {K V : Type} : forall e n (m : bstmap K V), begin e (SWithCapacity n) = (Ret tt, m) ->
  map_len e m = Ret 0 /\ (forall d, yields m d []) /\ least_room n (map_capacity m) /\ (n = 0 -> m = map_new).
Proof. exact with_capacity_room. Qed.
Print Assumptions C21_with_capacity.

(** If it panics it leaks nothing. *)
Theorem C21_with_capacity_fails {K V : Type} : forall e n p (m : bstmap K V), begin e (SWithCapacity n) = (Panic p, m) ->
  (p = PCapacity \/ p = PAssert) /\ blocks m = ∅.
Proof. exact with_capacity_fails. Qed.
Print Assumptions C21_with_capacity_fails.

Theorem C21_new_allocates_nothing {K V : Type} : forall e,
  map_with_capacity (K := K) (V := V) e 0 = (Ret tt, map_new) /\
  map_capacity (@map_new K V) = 0 /\ requests (@map_new K V) = 0 /\ blocks (@map_new K V) = ∅.
Proof. exact new_allocates_nothing. Qed.
Print Assumptions C21_new_allocates_nothing.

Example C21_case :
  (exists m : bstmap SK N, begin senv (SWithCapacity 25) = (Ret tt, m) /\ map_capacity m = 56) /\
  (exists m : bstmap SK N, begin senv (SWithCapacity (2 ^ 62)) = (Panic PCapacity, m)) /\
  (exists m : bstmap SK N, begin senv_assert (SWithCapacity 9) = (Panic PAssert, m)).
Proof. split; [|split]; [apply runs_to_with|apply runs_to|apply runs_to]; by vm_compute. Qed.

(** C22. When [reserve] returns, the promised room is there; nothing else
    changed; and the new capacity is the smallest possible for the slots in use. *)
Theorem C22_reserve {K V : Type} : forall e n (m : bstmap K V) x m', reachable e m -> exec e (OReserve n) m = (Ret x, m') ->
  (e_chk e = true \/ slots m + n < USIZE) ->
  entry_count e m + n <= map_capacity m' /\ map_capacity m <= map_capacity m' /\ same_tree m m' /\
  (map_capacity m < slots m + n -> least_room (slots m + n) (map_capacity m')).
Proof. exact reserve_room. Qed.
Print Assumptions C22_reserve.

Example C22_case : reachable senv holed /\ map_capacity holed = 8 /\ entry_count senv holed = 7 /\
  exists m', exec senv (OReserve 100) holed = (Ret OutUnit, m') /\ map_capacity m' = 120.
Proof. split; [exact holed_reachable|]. split; [by vm_compute|]. split; [by vm_compute|]. apply runs_to_with; by vm_compute. Qed.

(** The condition is needed: in a release build there is a map with 7 entries and
    a request of [n] more, with [7 + n] representable, after which there is no room. *)
Theorem C22_release_refuted : exists e (m : bstmap SK N) n, reachable e m /\ entry_count e m + n < USIZE /\
  exec e (OReserve n) m = (Ret OutUnit, m) /\ map_capacity m < entry_count e m + n.
Proof.
  exists senv_release, holed_release, (2 ^ 64 - 8). split; [exact holed_release_reachable|].
  split; [by vm_compute|]. split; [|by vm_compute].
  apply reserve_wraps; [exact holed_release_reachable|by vm_compute..].
Qed.
Print Assumptions C22_release_refuted.

(** C23. *)
Theorem C23_shrink {K V : Type} : forall e (m : bstmap K V) r m', reachable e m -> exec e OShrink m = (r, m') ->
  r = Ret OutUnit /\ same_tree m m' /\ map_capacity m' <= map_capacity m /\ entry_count e m <= map_capacity m' /\
  least_room (slots m) (map_capacity m') /\ requests m' = requests m.
Proof. exact shrink_tight. Qed.
Print Assumptions C23_shrink.

Theorem C23_idempotent {K V : Type} : forall e (m : bstmap K V) r m', reachable e m -> exec e OShrink m = (r, m') ->
  exec e OShrink m' = (Ret OutUnit, m').
Proof. exact shrink_idempotent. Qed.
Print Assumptions C23_idempotent.

(** From 248 to 24 slots, with 9 slots in use. *)
Definition large_ops : list (op SK N) := eight_ops ++ [ins 90 0 9; OReserve 200].
Definition large : bstmap SK N := (run senv large_ops map_new).2.
Example C23_case : reachable senv large /\ map_capacity large = 248 /\ slots large = 9 /\
  exists m', exec senv OShrink large = (Ret OutUnit, m') /\ map_capacity m' = 24.
Proof.
  split; [unfold large; apply reachable_of; vm_compute; repeat constructor; discriminate|].
  split; [by vm_compute|]. split; [by vm_compute|]. apply runs_to_with; by vm_compute.
Qed.

(** C29 is false: whenever the destructor of a stored entry panics during
    [clear], dropping or clearing the map afterwards runs a destructor again. *)
Theorem C29_clear_drops_twice {K V : Type} : forall e bad (m : bstmap K V) l k v,
  reachable e m -> e_nd e = true -> yields m In l -> (k, v) ∈ l -> bad k v = true ->
  exists m', map_clear e (fun n => bad (n_key n) (n_value n)) m = (Panic PDrop, m') /\
    (forall pn, (map_drop e pn m').1 = UB UDropped) /\ (forall pn, (map_clear e pn m').1 = UB UDropped).
Proof. exact clear_drops_twice. Qed.
Print Assumptions C29_clear_drops_twice.

Theorem C29_refuted : exists e (m m' : bstmap SK N), reachable e m /\
  map_clear e (fun n => n_value n =? 9) m = (Panic PDrop, m') /\
  (map_drop e (fun _ => false) m').1 = UB UDropped.
Proof.
  destruct (clear_drops_twice senv (fun _ v => v =? 9) sample sample_entries (65, 0) 9 sample_reachable)
    as (m' & H1 & H2 & _); [done|exact sample_yields|by vm_compute; do 3 right; left|done|].
  exists senv, sample, m'. split_and!; [exact sample_reachable|exact H1|apply H2].
Qed.
Print Assumptions C29_refuted.

Example C29_case : reachable senv sample /\ e_nd senv = true /\ yields sample In sample_entries /\
  ((65, 0), 9) ∈ sample_entries.
Proof. split_and!; [exact sample_reachable|done|exact sample_yields|by vm_compute; do 3 right; left]. Qed.

(** C32 is false: the upper bound of [size_hint] is reserved in advance, so an
    allocator with any limit refuses an iterator with a large upper bound, no matter
    how few items it yields. *)
Theorem C32_collect_needs_hint {K V : Type} : forall e limit os (it : user_iter (K * V)) m, limited e limit ->
  2 * limit < hinted it -> begin e (SFromIter os it) <> (Ret tt, m).
Proof. exact collect_limited. Qed.
Print Assumptions C32_collect_needs_hint.

Theorem C32_extend_needs_hint {K V : Type} : forall e limit os (it : user_iter (K * V)) (m : bstmap K V) x m',
  reachable e m -> limited e limit ->
  slots m + hinted it < USIZE -> map_capacity m < hinted it -> 2 * limit < hinted it ->
  exec e (OExtend os it) m <> (Ret x, m').
Proof. exact extend_limited. Qed.
Print Assumptions C32_extend_needs_hint.

(** One item, an honest hint, and the process aborts, although inserting the item
    works. *)
Definition one_of_many : user_iter (SK * N) := mkUserIter 0 (Some 1000) [((5, 0), 1)] false.
Theorem C32_refuted : exists e limit (it : user_iter (SK * N)), limited e limit /\ honest_hint it /\
  length (ui_items it) = 1%nat /\ (begin e (SFromIter sos it)).1 = Abort /\
  exists m, exec e (ins 5 0 1) map_new = (Ret (OutValue None), m).
Proof.
  exists senv_tight, 8, one_of_many. split.
  { split; [done|]. intros i n Hn. simpl. destruct (N.leb_spec n 8); [lia|done]. }
  split; [by vm_compute|]. split; [done|]. split; [by vm_compute|]. apply runs_to; by vm_compute.
Qed.
Print Assumptions C32_refuted.

(** What does hold: with a hint not above the number of items, only the room for
    the items is reserved. *)
Theorem C32_collect_partial {K V : Type} : forall e os (it : user_iter (K * V)) m, begin e (SFromIter os it) = (Ret tt, m) ->
  hinted it <= N.of_nat (length (ui_items it)) ->
  forall c, N.of_nat (length (ui_items it)) <= chunks_room c -> map_capacity m <= chunks_room c.
Proof. exact collect_room. Qed.
Print Assumptions C32_collect_partial.

Theorem C32_extend_partial {K V : Type} : forall e os (it : user_iter (K * V)) (m : bstmap K V) x m',
  reachable e m -> exec e (OExtend os it) m = (Ret x, m') ->
  hinted it <= N.of_nat (length (ui_items it)) -> slots m + N.of_nat (length (ui_items it)) < USIZE ->
  forall c, map_capacity m <= chunks_room c -> slots m + N.of_nat (length (ui_items it)) <= chunks_room c ->
    map_capacity m' <= chunks_room c.
Proof. exact extend_room. Qed.
Print Assumptions C32_extend_partial.

Definition three : user_iter (SK * N) := mkUserIter 2 (Some 3) [((5, 0), 1); ((3, 0), 2); ((5, 1), 3)] false.
Example C32_case :
  (exists m : bstmap SK N, begin senv (SFromIter sos three) = (Ret tt, m) /\ map_capacity m = 8) /\
  (exists m', exec senv (OExtend sos three) holed = (Ret OutUnit, m') /\ map_capacity m' = 24).
Proof. split; apply runs_to_with; by vm_compute. Qed.

(** C33 holds in builds with overflow checks ... *)
Theorem C33_reserve_overflow_partial {K V : Type} : forall e n (m : bstmap K V), reachable e m -> e_chk e = true ->
  USIZE <= slots m + n -> exec e (OReserve n) m = (Panic POverflow, m).
Proof. exact reserve_overflow. Qed.
Print Assumptions C33_reserve_overflow_partial.

(** ... but not without: the sum wraps around and [reserve] returns. *)
Theorem C33_release_wraps {K V : Type} : forall e n (m : bstmap K V), reachable e m -> e_chk e = false ->
  USIZE <= slots m + n -> n < USIZE -> slots m + n - USIZE <= map_capacity m ->
  exec e (OReserve n) m = (Ret OutUnit, m).
Proof. exact reserve_wraps. Qed.
Print Assumptions C33_release_wraps.

Theorem C33_refuted : exists e (m : bstmap SK N) n, reachable e m /\ n < USIZE /\ USIZE <= entry_count e m + n /\
  exec e (OReserve n) m = (Ret OutUnit, m).
Proof.
  exists senv_release, holed_release, (2 ^ 64 - 1). split; [exact holed_release_reachable|].
  split; [by vm_compute|]. split; [by vm_compute|].
  apply reserve_wraps; [exact holed_release_reachable|by vm_compute..].
Qed.
Print Assumptions C33_refuted.

Example C33_case : reachable senv holed /\ e_chk senv = true /\ USIZE <= slots holed + (2 ^ 64 - 1) /\
  (exec senv (OReserve (2 ^ 64 - 1)) holed).1 = Panic POverflow.
Proof. split; [exact holed_reachable|]. by vm_compute. Qed.

(** C44. Every panic is the caller's or a memory request's; no internal check
    fails, except the overflow check of an oversized request. *)
Theorem C44_panics_excused {K V : Type} : forall e c (m : bstmap K V) p m', reachable e m ->
  exec e c m = (Panic p, m') -> excused e c m p.
Proof. exact panics_excused. Qed.
Print Assumptions C44_panics_excused.

Theorem C44_begin_excused {K V : Type} : forall e (s : start K V) p m, begin e s = (Panic p, m) ->
  match p with PCapacity | PAssert | PCmp | PIter => True | _ => False end.
Proof. exact begin_excused. Qed.
Print Assumptions C44_begin_excused.

(** With an allocator that grants exactly what is asked for, the assertion of
    arena.rs:405 never fails either. *)
Theorem C44_no_assertion {K V : Type} : forall e, exact_allocator e ->
  (forall s : start K V, (begin e s).1 <> Panic PAssert) /\
  (forall c (m : bstmap K V), reachable e m -> (exec e c m).1 <> Panic PAssert).
Proof. intros e He. split; [exact (begin_exact e He)|exact (exec_exact e He)]. Qed.
Print Assumptions C44_no_assertion.

(** The two builds do the same. *)
Theorem C44_same_call {K V : Type} : forall e c (m : bstmap K V), reachable e m ->
  (match requested c with Some n => slots m + n < USIZE | None => True end) -> exec (release e) c m = exec e c m.
Proof. exact exec_profiles. Qed.
Print Assumptions C44_same_call.

Theorem C44_same_begin {K V : Type} : forall e (s : start K V), begin (release e) s = begin e s.
Proof. exact begin_profiles. Qed.
Print Assumptions C44_same_begin.

Theorem C44_same_history {K V : Type} : forall e (s : start K V) cs rs m, reached e s cs rs m ->
  Forall (fun r => r <> Panic POverflow) rs -> reached (release e) s cs rs m.
Proof. exact profiles. Qed.
Print Assumptions C44_same_history.

Theorem C44_modest_history {K V : Type} : forall e (s : start K V) cs rs m, Forall modest cs -> reached e s cs rs m ->
  Forall (fun r => r <> Panic POverflow) rs /\ reached (release e) s cs rs m.
Proof. exact modest_history. Qed.
Print Assumptions C44_modest_history.

(** The sample program is modest; an oversized request tells the builds apart. *)
Example C44_case : Forall modest sample_ops /\ reached senv SNew sample_ops sample_run.1 sample /\
  exact_allocator senv /\ release senv = senv_release /\
  (exec senv (OReserve (2 ^ 64 - 1)) sample).1 = Panic POverflow /\
  (exec senv_release (OReserve (2 ^ 64 - 1)) sample).1 = Ret OutUnit.
Proof.
  split. { by repeat constructor. }
  split; [exact sample_reached|]. split. { split; [done|]. intros i n c [= ->]. done. }
  split; [done|]. by vm_compute.
Qed.

(** C46 is false when slots are free: [reserve] counts them as used and grows. *)
Theorem C46_needless_growth {K V : Type} : forall e n (m : bstmap K V) x m', reachable e m ->
  exec e (OReserve n) m = (Ret x, m') -> slots m + n < USIZE -> map_capacity m < slots m + n ->
  2 * map_capacity m + 8 <= map_capacity m'.
Proof. exact reserve_needless. Qed.
Print Assumptions C46_needless_growth.

Theorem C46_refuted : exists e n (m m' : bstmap SK N), reachable e m /\ entry_count e m + n <= map_capacity m /\
  exec e (OReserve n) m = (Ret OutUnit, m') /\ map_capacity m < map_capacity m' /\ requests m < requests m'.
Proof.
  exists senv, 1, holed. 
  destruct (runs_to_with (fun m' => map_capacity holed < map_capacity m' /\ requests holed < requests m')
    (exec senv (OReserve 1) holed) (Ret OutUnit)) as (m' & H1 & H2); [by vm_compute|by vm_compute|].
  exists m'. split_and!; [exact holed_reachable|by vm_compute|exact H1|apply H2..].
Qed.
Print Assumptions C46_refuted.

(** What does hold: nothing happens when there is room beside the used and free slots. *)
Theorem C46_reserve_idle_partial {K V : Type} : forall e n (m : bstmap K V), reachable e m ->
  slots m + n <= map_capacity m -> exec e (OReserve n) m = (Ret OutUnit, m).
Proof. exact reserve_idle. Qed.
Print Assumptions C46_reserve_idle_partial.

Example C46_case : reachable senv large /\ slots large + 239 <= map_capacity large /\
  reachable senv holed /\ map_capacity holed < slots holed + 1.
Proof.
  split; [unfold large; apply reachable_of; vm_compute; repeat constructor; discriminate|].
  split; [by vm_compute|]. split; [exact holed_reachable|by vm_compute].
Qed.

(** C55. An insertion grows the memory only when every slot holds an entry, and
    then to twice the capacity plus eight. *)
Theorem C55_geometric_growth {K V : Type} : forall e (o : oracle K) (k : K) (v : V) m r m', reachable e m ->
  exec e (OInsert o k v) m = (r, m') ->
  map_capacity m' = map_capacity m \/
  (map_capacity m' = 2 * map_capacity m + 8 /\ entry_count e m = map_capacity m /\ r = Ret (OutValue None)).
Proof. exact insert_growth. Qed.
Print Assumptions C55_geometric_growth.

Definition full_map : bstmap SK N := (run senv eight_ops map_new).2.
Example C55_case : reachable senv full_map /\ map_capacity full_map = 8 /\
  exists m', exec senv (ins 5 0 0) full_map = (Ret (OutValue None), m') /\ map_capacity m' = 24.
Proof.
  split; [unfold full_map; apply reachable_of; vm_compute; repeat constructor; discriminate|].
  split; [by vm_compute|]. apply runs_to_with; by vm_compute.
Qed.
