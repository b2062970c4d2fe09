(** * Properties of safety, ownership and space: C18-C20, C24-C28, C30, C51, C62, C63

    All of them hold for every comparator behaviour: every comparison of every
    call has its own, arbitrary answer, or panics. *)

From Verif Require Export ProofLedger Samples.
Local Open Scope nat_scope.

(** C18. No call and no drop has undefined behaviour. *)
Theorem C18_no_undefined_behaviour {K V : Type} : forall e (s : start K V) cs,
  no_ub (begin e s).1 /\
  forall rs m, reached e s cs rs m -> Forall no_ub rs /\ no_ub (map_drop e (fun _ => false) m).1.
Proof. exact no_ub_history. Qed.
Print Assumptions C18_no_undefined_behaviour.

(** The model does have undefined behaviour to avoid: a removed slot, a bad block. *)
Example C18_case : reached senv_release SNew mad_ops mad_run.1 mad /\
  (exists u, node_new sample (0, 2)%N = UB u) /\
  (exists u, node_new mad (9, 0)%N = UB u).
Proof.
  split; [exists map_new; split; [done|apply surjective_pairing]|].
  split; eexists; vm_compute; reflexivity.
Qed.

(** C19. Every call ends; [n + 1] visits are enough for every descent, [n] being
    the length: with that much fuel each loop gives its final result. *)
Theorem C19_every_call_ends {K V : Type} : forall e (s : start K V) cs,
  (begin e s).1 <> Diverge /\
  forall rs m, reached e s cs rs m -> Forall (fun r => r <> Diverge) rs /\ (map_drop e (fun _ => false) m).1 <> Diverge.
Proof. exact always_settles. Qed.
Print Assumptions C19_every_call_ends.

Theorem C19_descents {K V : Type} : forall e (m : bstmap K V) n, reachable e m -> map_len e m = Ret n ->
  forall fuel, (n < N.of_nat fuel)%N ->
  (forall o, rbind (map_root m) (contains_loop m o fuel 0) = map_contains_key m o) /\
  (forall o, rbind (map_root m) (get_loop m o fuel 0) = map_get_ref m o) /\
  (forall o, rbind (map_root m) (get_entry_loop m o fuel 0) = map_get_entry_ref m o) /\
  (forall o, rbind (map_root_mut m) (get_mut_loop m o fuel 0) = map_get_mut m o) /\
  (forall o, rbind (map_root_mut m) (get_entry_mut_loop m o fuel 0) = map_get_entry_mut m o) /\
  (forall o k v r, map_root_mut m = Ret r ->
     insert_loop e o fuel 0 k v r m = insert_loop e o (map_fuel m) 0 k v r m) /\
  (forall o, remove_find m o fuel 0 None (m_root m) = remove_find m o (map_fuel m) 0 None (m_root m)).
Proof. exact descent_bound. Qed.
Print Assumptions C19_descents.

(** The search for the successor inside remove_entry. *)
Theorem C19_successor {K V : Type} : forall e (m : bstmap K V) n x r rl, reachable e m -> map_len e m = Ret n ->
  forall fuel, (n < N.of_nat fuel)%N ->
  handle m x -> node_right m x = Ret (Some r) -> node_left m r = Ret (Some rl) ->
  succ_loop m fuel (nd_ptr r) (nd_ptr rl) = succ_loop m (map_fuel m) (nd_ptr r) (nd_ptr rl) /\
  succ_loop m fuel (nd_ptr r) (nd_ptr rl) <> Diverge.
Proof. exact successor_bound. Qed.
Print Assumptions C19_successor.

(** Four nodes on the path to 65: three visits are too few, five enough. *)
Example C19_case : reachable senv sample /\ map_len senv sample = Ret 7%N /\
  rbind (map_root sample) (contains_loop sample (so (sq 65)) 3 0) = Diverge /\
  rbind (map_root sample) (contains_loop sample (so (sq 65)) 8 0) = Ret true.
Proof. split; [exact sample_reachable|]. by vm_compute. Qed.

Definition two_sided : bstmap SK N := (run senv [ins 50 0 1; ins 30 0 2; ins 80 0 3; ins 70 0 4; ins 60 0 5] map_new).2.
Example C19_successor_case : reachable senv two_sided /\ map_len senv two_sided = Ret 5%N /\
  exists x r rl, handle two_sided x /\ node_right two_sided x = Ret (Some r) /\ node_left two_sided r = Ret (Some rl).
Proof.
  split.
  { exists SNew, [ins 50 0 1; ins 30 0 2; ins 80 0 3; ins 70 0 4; ins 60 0 5]. eexists. split.
    - exists map_new. split; [done|]. unfold two_sided. apply surjective_pairing.
    - vm_compute. repeat constructor; discriminate. }
  split; [by vm_compute|].
  eexists _, _, _. split; [exists []; eexists; split; [by vm_compute|done]|].
  split; by vm_compute.
Qed.

(** C20. An entry stays at its address as long as no call removes it. *)
Theorem C20_entries_stay {K V : Type} : forall e (m : bstmap K V) cs rs m' p k v, reachable e m -> run e cs m = (rs, m') ->
  Forall (spares k) cs -> stored m p k v -> exists v', stored m' p k v'.
Proof. exact entries_stay. Qed.
Print Assumptions C20_entries_stay.

(** A removal leaves every entry where it was, with its value, except the one it
    returns, and that one's address is not used any more. *)
Theorem C20_removals {K V : Type} : forall e (m : bstmap K V) o m' y p k v, reachable e m ->
  exec e (ORemoveEntry o) m = (Ret (OutEntry y), m') ->
  stored m p k v -> stored m' p k v \/ (y = Some (k, v) /\ forall k' v', ~ stored m' p k' v').
Proof. exact removal_stays. Qed.
Print Assumptions C20_removals.

(** Removing the root moves links only; the map grows by a chunk and shrinks. *)
Definition moving_ops : list (op SK N) :=
  [ORemoveEntry (so (sq 70)); ins 1 0 1; ins 2 0 1; ins 3 0 1; ins 4 0 1; OReserve 100; OShrink;
   ORemove (so (sq 30)); OGetMut (so (sq 40)) (Some 77%N)].
Example C20_case : reachable senv sample /\ Forall (spares (40, 0)%N) moving_ops /\
  (exists p, stored sample p (40, 0)%N 55%N /\ stored (run senv moving_ops sample).2 p (40, 0)%N 77%N) /\
  exists m', exec senv (ORemoveEntry (so (sq 70))) sample = (Ret (OutEntry (Some ((70, 0), 6)%N)), m').
Proof.
  split; [exact sample_reachable|]. split; [repeat constructor; intros ?; by vm_compute|].
  split; [|apply runs_to; by vm_compute].
  exists (0, 3)%N. split.
  - eexists. split; [by vm_compute|]. rewrite elem_of_list_In. vm_compute. tauto.
  - eexists. split; [by vm_compute|]. rewrite elem_of_list_In. vm_compute. tauto.
Qed.

(** C24. Inserts below the capacity neither allocate nor fail (a comparison may
    panic); removals and clear keep the capacity. *)
Theorem C24_insert_below_capacity {K V : Type} : forall e cs (m : bstmap K V) rs m', reachable e m ->
  Forall (fun c => exists o k v, c = OInsert o k v) cs ->
  (entry_count e m + N.of_nat (length cs) <= map_capacity m)%N -> run e cs m = (rs, m') ->
  length rs = length cs /\ Forall (fun r => r = Panic PCmp \/ exists x, r = Ret x) rs /\
  requests m' = requests m /\ map_capacity m' = map_capacity m.
Proof. exact inserts_room. Qed.
Print Assumptions C24_insert_below_capacity.

Theorem C24_one_insert {K V : Type} : forall e o k v (m : bstmap K V) r m', reachable e m ->
  (entry_count e m < map_capacity m)%N -> exec e (OInsert o k v) m = (r, m') ->
  (r = Panic PCmp \/ exists x, r = Ret x) /\ requests m' = requests m /\ map_capacity m' = map_capacity m /\
  (entry_count e m' <= entry_count e m + 1)%N.
Proof. exact insert_room. Qed.
Print Assumptions C24_one_insert.

Theorem C24_removing_keeps_the_capacity {K V : Type} : forall e c (m : bstmap K V) r m', reachable e m ->
  exec e c m = (r, m') -> match c with ORemove _ | ORemoveEntry _ | OClear => True | _ => False end ->
  map_capacity m' = map_capacity m /\ requests m' = requests m.
Proof. exact removing_keeps_room. Qed.
Print Assumptions C24_removing_keeps_the_capacity.

(** With an allocator that refuses everything above eight, the eight inserts
    succeed and the ninth aborts. *)
Definition eight : list (op SK N) := (fun n => ins n 0 n) <$> [5; 3; 8; 1; 4; 7; 9; 2]%N.
Definition roomy : bstmap SK N := (run senv_tight [OReserve 8] map_new).2.
Example C24_case : reachable senv_tight roomy /\ entry_count senv_tight roomy = 0%N /\ map_capacity roomy = 8%N /\
  length eight = 8 /\ Forall (fun r => r = Ret (OutValue None)) (run senv_tight eight roomy).1 /\
  (exec senv_tight (ins 6 0 6) (run senv_tight eight roomy).2).1 = Abort.
Proof.
  split; [unfold roomy; apply reachable_of; vm_compute; repeat constructor; discriminate|].
  repeat match goal with |- _ /\ _ => split end; try by vm_compute. vm_compute. repeat constructor.
Qed.

(** C25. The slots in use are the largest number of entries the map has had since
    it was last cleared, so a freed slot is always used first. *)
Theorem C25_high_water_mark {K V : Type} : forall e (s : start K V) cs rs m m0,
  begin e s = (Ret tt, m0) -> run e cs m0 = (rs, m) -> slots m = peak e cs m0 (entry_count e m0).
Proof. exact high_water. Qed.
Print Assumptions C25_high_water_mark.

Theorem C25_freed_slots_first {K V : Type} : forall e o k v (m : bstmap K V) r m', reachable e m ->
  (entry_count e m < slots m)%N -> exec e (OInsert o k v) m = (r, m') -> slots m' = slots m /\ requests m' = requests m.
Proof. exact reuse. Qed.
Print Assumptions C25_freed_slots_first.

Definition churn : list (op SK N) :=
  mjoin ((fun n => [ins n 0 n; ins (n + 1) 0 n; ORemove (so (sq n)); ORemove (so (sq (n + 1)))]) <$> [1; 5; 9; 20; 30; 40]%N).
Example C25_case : slots (run senv churn map_new).2 = 2%N /\ peak senv churn map_new 0 = 2%N /\
  entry_count senv (run senv churn map_new).2 = 0%N /\ reachable senv sample /\ (entry_count senv sample < slots sample)%N.
Proof.
  split; [by vm_compute|]. split; [by vm_compute|]. split; [by vm_compute|].
  split; [exact sample_reachable|by vm_compute].
Qed.

(** C26. What was given to the map is stored in it, was dropped, or was handed
    back. *)
Theorem C26_conserved {K V : Type} : forall e (s : start K V) cs rs m, e_nd e = true -> Forall no_clone cs ->
  reached e s cs rs m -> alive rs ->
  exists G B, ledger cs rs G B /\ forall d l, yields m d l -> owned l ++ dropped m ++ B ≡ₚ start_taken s ++ G.
Proof. exact conserved. Qed.
Print Assumptions C26_conserved.

(** Clone: what the clones of keys and values produced is in the new map or
    dropped. *)
Theorem C26_clone {K V : Type} : forall e os ck cv (m : bstmap K V) l, reachable e m -> e_nd e = true -> yields m Pre l ->
  match map_clone e os ck cv m with
  | (Ret _, m') => forall d l', yields m' d l' -> owned l' ++ dropped m' ≡ₚ owned (clones ck cv 0 l).1
  | (Panic p, m') => blocks m' = ∅ /\ exists g, clones_made os ck cv 0 l p g /\ dropped m' ≡ₚ g
  | _ => True
  end.
Proof. exact clone_ledger. Qed.
Print Assumptions C26_clone.

(** A collect that panics drops what it had pulled from the iterator. *)
Theorem C26_collect_panics {K V : Type} : forall e os it p (m : bstmap K V), e_nd e = true ->
  begin e (SFromIter os it) = (Panic p, m) ->
  blocks m = ∅ /\ exists n, pulled os it p n /\ dropped m ≡ₚ owned (take n (ui_items it)).
Proof. exact collect_fails. Qed.
Print Assumptions C26_collect_panics.

(** Insert over an equal key (the new key is dropped, the old value handed back),
    a removal, an insert whose comparison panics, a clear, a last insert. *)
Definition owning_ops : list (op SK N) :=
  [ins 5 0 1; ins 3 0 2; ins 5 7 3; ORemove (so (sq 3)); OInsert (so_panic 0 (scmp (9, 0)%N)) (9, 0)%N 4%N;
   ins 8 0 5; OClear; ins 1 0 6].
Definition owning_run := run senv owning_ops map_new.
Example C26_case : let rs := owning_run.1 in let m := owning_run.2 in
  reached senv SNew owning_ops rs m /\ alive rs /\ Forall no_clone owning_ops /\
  yields m In [((1, 0), 6)]%N /\
  dropped m ≡ₚ [inl (5, 7); inl (3, 0); inl (9, 0); inr 4; inl (5, 0); inr 3; inl (8, 0); inr 5]%N /\
  mjoin (zip_with handed owning_ops rs) = [inr 1; inr 2]%N.
Proof.
  split; [exists map_new; split; [done|apply surjective_pairing]|].
  split; [vm_compute; repeat constructor; discriminate|]. split; [repeat constructor|].
  split; [eexists; split; vm_compute; reflexivity|].
  split; [|by vm_compute].
  match goal with |- ?a ≡ₚ _ => let b := eval vm_compute in a in change a with b end. solve_Permutation.
Qed.

Example C26_clone_case : reachable senv sample /\
  (exists m', map_clone senv sos (fun _ k => Some k) (fun i v => if Nat.eqb i 3 then None else Some v) sample = (Panic PClone, m') /\
     length (dropped m') = 7) /\
  exists m : bstmap SK N, begin senv (SFromIter (fun j k => so_panic (if Nat.eqb j 2 then 1 else 9) (scmp k))
    (mkUserIter 3%N (Some 3%N) [((60, 0), 8); ((65, 0), 9); ((62, 1), 10)]%N false)) = (Panic PCmp, m) /\ length (dropped m) = 6.
Proof.
  split; [exact sample_reachable|].
  split; (apply runs_to_with; [by vm_compute|]; by vm_compute).
Qed.

(** C27. Dropping a map frees every chunk and drops every entry, once. *)
Theorem C27_drop {K V : Type} : forall e (m : bstmap K V), reachable e m ->
  exists m', map_drop e (fun _ => false) m = (Ret tt, m') /\ blocks m' = ∅ /\
  (e_nd e = true -> forall d l, yields m d l -> dropped m' ≡ₚ dropped m ++ owned l).
Proof. exact drop_releases. Qed.
Print Assumptions C27_drop.

(** Over a whole life: all that was given was dropped once or handed back. *)
Theorem C27_whole_life {K V : Type} : forall e (s : start K V) cs rs m, e_nd e = true -> Forall no_clone cs ->
  reached e s cs rs m -> alive rs ->
  exists G B m', ledger cs rs G B /\ map_drop e (fun _ => false) m = (Ret tt, m') /\ blocks m' = ∅ /\
    dropped m' ++ B ≡ₚ start_taken s ++ G.
Proof. exact whole_life. Qed.
Print Assumptions C27_whole_life.

Example C27_case : reachable senv sample /\ yields sample In sample_entries /\ blocks sample <> ∅ /\
  length (dropped (map_drop senv (fun _ => false) sample).2) = length (dropped sample) + 14.
Proof.
  split; [exact sample_reachable|]. split; [exact sample_yields|].
  split; [intros H; apply (f_equal (fun h => h !! 0%N)) in H; vm_compute in H; discriminate|by vm_compute].
Qed.

(** C28. A call (other than extend, which is many inserts) that panics leaves the
    map as it was. *)
Theorem C28_panic_changes_nothing {K V : Type} : forall e c (m : bstmap K V) p m', reachable e m ->
  exec e c m = (Panic p, m') -> match c with OReserve _ | OExtend _ _ => False | _ => True end ->
  same_map m m' /\ reachable e m'.
Proof. exact panic_same. Qed.
Print Assumptions C28_panic_changes_nothing.

Example C28_case : reachable senv sample /\
  (exists m', exec senv (ORemoveEntry (so_panic 2 (sq 60))) sample = (Panic PCmp, m')) /\
  (exists m', exec senv (OInsert (so_panic 3 (scmp (64, 0)%N)) (64, 0)%N 1%N) sample = (Panic PCmp, m')) /\
  (exists m', exec senv (OGetMut (so_panic 1 (sq 60)) (Some 1%N)) sample = (Panic PCmp, m')).
Proof. split; [exact sample_reachable|]. repeat split; apply runs_to; by vm_compute. Qed.

(** C30. The same for any other panic; a reserve that panics keeps the tree and
    the addresses, an extend keeps every entry that was there at its address. *)
Theorem C30_insert {K V : Type} : forall e o k v (m : bstmap K V) p m', reachable e m ->
  exec e (OInsert o k v) m = (Panic p, m') -> same_map m m' /\ reachable e m'.
Proof. exact (fun e o k v m p m' H1 H2 => panic_same e _ m p m' H1 H2 I). Qed.
Print Assumptions C30_insert.

Theorem C30_reserve {K V : Type} : forall e n (m : bstmap K V) p m', reachable e m ->
  exec e (OReserve n) m = (Panic p, m') ->
  same_tree m m' /\ (map_capacity m <= map_capacity m')%N /\ reachable e m'.
Proof. exact reserve_fails. Qed.
Print Assumptions C30_reserve.

Theorem C30_extend {K V : Type} : forall e os it (m : bstmap K V) q m', reachable e m ->
  exec e (OExtend os it) m = (Panic q, m') ->
  (forall p k v, stored m p k v -> exists v', stored m' p k v') /\ (map_capacity m <= map_capacity m')%N /\ reachable e m'.
Proof. exact extend_fails. Qed.
Print Assumptions C30_extend.

(** The ninth insert meets an allocation of the wrong size; a reserve that is too
    large; an extend whose fifth item meets the bad allocation. *)
Definition full : bstmap SK N := (run senv_assert eight map_new).2.
Example C30_case : reachable senv_assert full /\
  (exists m', exec senv_assert (ins 6 0 6) full = (Panic PAssert, m')) /\
  (exists m', exec senv_assert (OReserve (2 ^ 64 - 1)%N) full = (Panic POverflow, m')) /\
  (exists m', exec senv_assert (OReserve (2 ^ 62)%N) full = (Panic PAssert, m')) /\
  (exists m', exec senv_assert (OExtend sos (mkUserIter 0%N None [((60, 0), 8); ((65, 0), 9)]%N false)) full = (Panic PAssert, m')).
Proof.
  split.
  { exists SNew, eight. eexists. split; [exists map_new; split; [done|apply surjective_pairing]|].
    vm_compute. repeat constructor; discriminate. }
  repeat split; apply runs_to; by vm_compute.
Qed.

(** C51. With any comparator, the entries of the map are those inserted and not
    removed, replaced or cleared: every call makes a loose step on the multiset
    of entries, and every listing shows it. *)
Theorem C51_bookkeeping {K V : Type} : forall e (s : start K V) cs rs m, reached e s cs rs m ->
  exists l0 l, loose_start s l0 /\ steps loose_step l0 cs rs l /\ map_len e m = Ret (N.of_nat (length l)) /\
    forall d, exists l', yields m d l' /\ l' ≡ₚ l.
Proof. exact loose_history. Qed.
Print Assumptions C51_bookkeeping.

(** Two equal keys in the map after inconsistent answers; the listing still has
    len entries. *)
Definition twice_ops : list (op SK N) := [ins 50 0 1; OInsert (so (fun _ => Lt)) (50, 1)%N 2%N; OInsert so_mad (50, 2)%N 3%N].
Definition twice_run := run senv twice_ops map_new.
Example C51_case : reached senv_release SNew mad_ops mad_run.1 mad /\
  let rs := twice_run.1 in let m := twice_run.2 in reached senv SNew twice_ops rs m /\ map_len senv m = Ret 3%N /\
    yields m In [((50, 1), 2); ((50, 0), 1); ((50, 2), 3)]%N.
Proof.
  split; [exists map_new; split; [done|apply surjective_pairing]|].
  split; [exists map_new; split; [done|apply surjective_pairing]|]. split; [by vm_compute|].
  eexists. split; vm_compute; reflexivity.
Qed.

(** C62. When keys and values need no drop, clear and the drop of the map visit no
    entry; they succeed whatever a destructor would do. *)
Theorem C62_plain_data {K V : Type} : forall e (m : bstmap K V) pn, reachable e m -> e_nd e = false ->
  visited m = 0 /\
  (exists m', map_clear e pn m = (Ret tt, m') /\ visited m' = 0 /\ forall d, yields m' d []) /\
  (exists m', map_drop e pn m = (Ret tt, m') /\ visited m' = 0 /\ blocks m' = ∅).
Proof. exact plain_data. Qed.
Print Assumptions C62_plain_data.

(** The same map with and without destructors. *)
Definition senv_plain : env := Env true 40%N false (fun _ n => Some n).
Definition plain := (run senv_plain sample_ops map_new).2.
Example C62_case : reachable senv_plain plain /\ yields plain In sample_entries /\
  (map_clear senv_plain (fun _ => true) plain).1 = Ret tt /\
  (map_clear senv (fun _ => true) sample).1 = Panic PDrop /\ visited (map_drop senv (fun _ => false) sample).2 = 7 + visited sample.
Proof.
  split.
  { exists SNew, sample_ops. eexists. split; [exists map_new; split; [done|apply surjective_pairing]|].
    vm_compute. repeat constructor; discriminate. }
  split; [eexists; split; vm_compute; reflexivity|]. repeat split; by vm_compute.
Qed.

(** C63. When the destructor of an entry panics while the map is dropped, the
    destructors of the entries before it have run, once each, no other ones run,
    and all memory is freed. *)
Theorem C63_drop_stops {K V : Type} : forall e bad (m : bstmap K V) d l, reachable e m -> e_nd e = true -> yields m d l ->
  exists l1 l2 m', l ≡ₚ l1 ++ l2 /\ dropped m' ≡ₚ dropped m ++ owned l1 /\ blocks m' = ∅ /\
    let r := map_drop e (fun n => bad (n_key n) (n_value n)) m in
    ((r = (Ret tt, m') /\ all_destroyed bad l1 l2) \/ (r = (Panic PDrop, m') /\ stopped_at_panic bad l1 l2)).
Proof. exact drop_stops. Qed.
Print Assumptions C63_drop_stops.

(** The same for clear (what happens to the map afterwards is C29). *)
Theorem C63_clear_stops {K V : Type} : forall e bad (m : bstmap K V) d l, reachable e m -> e_nd e = true -> yields m d l ->
  exists l1 l2 m', l ≡ₚ l1 ++ l2 /\ dropped m' ≡ₚ dropped m ++ owned l1 /\
    let r := map_clear e (fun n => bad (n_key n) (n_value n)) m in
    ((r = (Ret tt, m') /\ all_destroyed bad l1 l2 /\ (forall d, yields m' d [])) \/ (r = (Panic PDrop, m') /\ stopped_at_panic bad l1 l2)).
Proof. exact clear_stops. Qed.
Print Assumptions C63_clear_stops.

Example C63_case : reachable senv sample /\ yields sample In sample_entries /\
  let bad (k : SK) v := N.eqb v 9 in
  (exists m', map_drop senv (fun n => bad (n_key n) (n_value n)) sample = (Panic PDrop, m') /\ 0 < length (dropped m') - length (dropped sample) < 14) /\
  (exists m', map_clear senv (fun n => bad (n_key n) (n_value n)) sample = (Panic PDrop, m') /\ 0 < length (dropped m') - length (dropped sample) < 14).
Proof.
  split; [exact sample_reachable|]. split; [exact sample_yields|].
  split; (apply runs_to_with; [by vm_compute|]; vm_compute; lia).
Qed.
