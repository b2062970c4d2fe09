(** * When memory is asked for and refused: C59, C60, C61

    Vocabulary: [SpecAlloc.v]. The other properties let a call that may allocate
    end with an abort or one of two panics when memory is refused; these say that
    this happens only when a request that was necessary was refused. *)

From Coq Require Import String.
From Verif Require Export ProofAlloc ProofBox ProofReserve Samples.
From Verif Require Import SpecSafety.
Local Open Scope N_scope.

(** A full map of eight entries under an allocator that refuses the second request. *)
Definition full_ops : list (op SK N) :=
  [ins 40 0 1; ins 20 0 2; ins 60 0 3; ins 10 0 4; ins 30 0 5; ins 50 0 6; ins 70 0 7; ins 80 0 8].
Definition full_map : bstmap SK N := (run senv_tight full_ops map_new).2.
Lemma full_reachable : reachable senv_tight full_map.
Proof. unfold full_map. apply reachable_of. vm_compute. repeat constructor; discriminate. Qed.

(** C59. An insert is refused memory only if every slot of the map is occupied and
    the request for the next chunk, eight more than the capacity, is refused. *)
Theorem C59_insert {K V : Type} : forall e o (k : K) (v : V) (m : bstmap K V), reachable e m ->
  alloc_refused (exec e (OInsert o k v) m).1 ->
  entry_count e m = map_capacity m /\ refuses e (requests m) (map_capacity m + 8) (exec e (OInsert o k v) m).1.
Proof. exact insert_refused. Qed.
Print Assumptions C59_insert.

(** The converse: with all slots occupied and the request refused, the call ends as
    the refusal says, unless a comparison panicked or the key was there already. *)
Theorem C59_insert_full {K V : Type} : forall e o (k : K) (v : V) (m : bstmap K V) r, reachable e m ->
  entry_count e m = map_capacity m -> refuses e (requests m) (map_capacity m + 8) r ->
  (exec e (OInsert o k v) m).1 = r \/ (exec e (OInsert o k v) m).1 = Panic PCmp \/
  exists w, (exec e (OInsert o k v) m).1 = Ret (OutValue (Some w)).
Proof. exact insert_full. Qed.
Print Assumptions C59_insert_full.

(** An insert that grows the map made exactly that request. *)
Theorem C59_insert_grows {K V : Type} : forall e o (k : K) (v : V) (m : bstmap K V) x m', reachable e m ->
  exec e (OInsert o k v) m = (Ret x, m') -> map_capacity m < map_capacity m' ->
  granted e (requests m) (map_capacity m + 8).
Proof. exact insert_grants. Qed.
Print Assumptions C59_insert_grows.

(** Every call: memory is refused only because a request for a chunk was refused
    that is needed for the number of entries the call may have to store. *)
Theorem C59_call {K V : Type} : forall e c (m : bstmap K V), reachable e m -> alloc_refused (exec e c m).1 ->
  refused_request e (first_request c m) (most_entries e c m) (exec e c m).1.
Proof. exact call_request. Qed.
Print Assumptions C59_call.

Theorem C59_creation {K V : Type} : forall e (s : start K V), alloc_refused (begin e s).1 ->
  refused_request e 0 (most_entries_at_start s) (begin e s).1.
Proof. exact begin_request. Qed.
Print Assumptions C59_creation.

(** So with an allocator that grants these requests no call is refused memory. *)
Theorem C59_generous {K V : Type} : forall e c (m : bstmap K V), reachable e m ->
  (forall i j, first_request c m <= i -> chunks_room j < most_entries e c m -> granted e i (8 * 2 ^ j)) ->
  ~ alloc_refused (exec e c m).1.
Proof. exact call_granted. Qed.
Print Assumptions C59_generous.

Theorem C59_generous_creation {K V : Type} : forall e (s : start K V),
  (forall i j, chunks_room j < most_entries_at_start s -> granted e i (8 * 2 ^ j)) -> ~ alloc_refused (begin e s).1.
Proof. exact begin_granted. Qed.
Print Assumptions C59_generous_creation.

Example C59_case :
  (** the ninth insert aborts ... *)
  (reachable senv_tight full_map /\ entry_count senv_tight full_map = 8 /\ map_capacity full_map = 8 /\
   requests full_map = 1 /\ refuses (A := out SK N) senv_tight 1 16 Abort /\
   (exec senv_tight (ins 90 0 9) full_map).1 = Abort)
  (** ... but not if the key is there already, or with a slot free *)
  /\ (exec senv_tight (ins 30 7 9) full_map).1 = Ret (OutValue (Some 5))
  /\ (exec senv_tight (ins 90 0 9) (exec senv_tight (ORemove (so (sq 20))) full_map).2).1 = Ret (OutValue None)
  (** [reserve] and the creation with a capacity need chunks of 8, 16 and 32 slots *)
  /\ refused_request senv_tight (first_request (OReserve 20) full_map) (most_entries senv_tight (OReserve 20) full_map)
       (exec senv_tight (OReserve 20) full_map).1
  /\ refused_request senv_assert 0 (most_entries_at_start (SWithCapacity (K := SK) (V := N) 9))
       (begin (K := SK) (V := N) senv_assert (SWithCapacity 9)).1
  (** an allocator that grants everything: growing from 8 to 24 slots *)
  /\ exists m', exec senv (ins 90 0 9) (run senv full_ops map_new).2 = (Ret (OutValue None), m') /\ map_capacity m' = 24.
Proof.
  split; [split; [exact full_reachable|]; split_and!; by vm_compute|].
  split; [by vm_compute|]. split; [by vm_compute|].
  split; [apply C59_call; [exact full_reachable|vm_compute; by repeat first [left; reflexivity|right]]|].
  split; [apply C59_creation; vm_compute; by repeat first [left; reflexivity|right]|].
  apply runs_to_with; by vm_compute.
Qed.

(** The hypothesis of [C59_generous] holds of an allocator that grants everything:
    here the clone of a full map, and 1000 more entries. *)
Example C59_generous_case : reachable senv (run senv full_ops map_new).2 /\
  ~ alloc_refused (exec senv (OReserve 1000) (run senv full_ops map_new).2).1 /\
  ~ alloc_refused (begin (K := SK) (V := N) senv (SWithCapacity 1000)).1.
Proof.
  assert (Hg : forall i j n, chunks_room j < n -> n <= 2000 -> granted senv i (8 * 2 ^ j)).
  { intros i j n H1 H2. unfold chunks_room in H1.
    assert (2 ^ j <= 251) by (destruct (2 ^ j); lia). repeat split; [done|].
    change (e_size senv) with 40. etransitivity; [apply N.mul_le_mono_r, N.mul_le_mono_l; eassumption|done]. }
  assert (Hr : reachable senv (run senv full_ops map_new).2).
  { apply reachable_of. vm_compute. repeat constructor; discriminate. }
  split; [exact Hr|]. split.
  - apply C59_generous; [exact Hr|]. intros i j _ Hj. eapply Hg; [exact Hj|]. by vm_compute.
  - apply C59_generous_creation. intros i j Hj. eapply Hg; [exact Hj|]. by vm_compute.
Qed.

(** Sets. *)
Theorem C59_set {T : Type} : forall e c (m : bstset T), set_reachable e m -> alloc_refused (set_exec e c m).1 ->
  refused_request e (set_first_request c m) (most_values e c m) (set_exec e c m).1.
Proof. exact set_call_request. Qed.
Print Assumptions C59_set.

Theorem C59_set_creation {T : Type} : forall e (s : set_start T), alloc_refused (set_begin e s).1 ->
  refused_request e 0 (most_values_at_start s) (set_begin e s).1.
Proof. exact set_begin_request. Qed.
Print Assumptions C59_set_creation.

Definition full_set_ops : list (set_op SK) :=
  (fun n => SetInsert (so (scmp (n, 0))) (n, 0)) <$> [40; 20; 60; 10; 30; 50; 70; 80].
Definition full_set : bstset SK := (set_run senv_tight full_set_ops set_new).2.
Example C59_set_case : set_reachable senv_tight full_set /\
  (set_exec senv_tight (SetInsert (so (scmp (90, 0))) (90, 0)) full_set).1 = Abort /\
  (set_begin senv_tight (SetFromIter sos (mkUserIter 9 None ((fun n => (n, 0)) <$> [4; 3; 1]) false))).1 = Abort.
Proof.
  split; [|by vm_compute]. exists SetNew, full_set_ops, (set_run senv_tight full_set_ops set_new).1. split.
  - exists set_new. split; [done|]. apply surjective_pairing.
  - vm_compute. repeat constructor; discriminate.
Qed.

(** Arenas and slabs. *)
Theorem C59_arena_alloc {T : Type} : forall e n cs rs (a : arena T) x,
  arena_reached e n cs rs a -> arena_contract [] cs rs -> Forall process_on rs ->
  alloc_refused (arena_exec e (AAlloc x) a).1 ->
  arena_len a = arena_capacity a /\ refuses e (a_next a) (arena_capacity a + 8) (arena_exec e (AAlloc x) a).1.
Proof. exact arena_alloc_refused. Qed.
Print Assumptions C59_arena_alloc.

Theorem C59_arena {T : Type} : forall e n cs rs (a : arena T) c,
  arena_reached e n cs rs a -> arena_contract [] cs rs -> Forall process_on rs ->
  arena_legal (arena_contents [] cs rs) c -> alloc_refused (arena_exec e c a).1 ->
  refused_request e (a_next a) (most_items c a) (arena_exec e c a).1.
Proof. exact arena_call_request. Qed.
Print Assumptions C59_arena.

Theorem C59_arena_creation {T : Type} : forall e n, alloc_refused (arena_begin (T := T) e n).1 ->
  refused_request e 0 (default 0 n) (arena_begin (T := T) e n).1.
Proof. exact arena_begin_request. Qed.
Print Assumptions C59_arena_creation.

Theorem C59_slab_push {T : Type} : forall e n cs rs (s : slab T) x,
  slab_reached e n cs rs s -> slab_contract ∅ cs rs -> Forall process_on rs ->
  alloc_refused (slab_exec e (SPush x) s).1 ->
  slab_len e s = Ret (slab_capacity s) /\
  refuses e (a_next (s_items s)) (slab_capacity s + 8) (slab_exec e (SPush x) s).1.
Proof. exact slab_push_refused. Qed.
Print Assumptions C59_slab_push.

Theorem C59_slab {T : Type} : forall e n cs rs (s : slab T) c,
  slab_reached e n cs rs s -> slab_contract ∅ cs rs -> Forall process_on rs ->
  slab_legal (slab_contents ∅ cs rs) c -> alloc_refused (slab_exec e c s).1 ->
  refused_request e (a_next (s_items s)) (most_slots c s) (slab_exec e c s).1.
Proof. exact slab_call_request. Qed.
Print Assumptions C59_slab.

Theorem C59_slab_creation {T : Type} : forall e n, alloc_refused (slab_begin (T := T) e n).1 ->
  refused_request e 0 (default 0 n) (slab_begin (T := T) e n).1.
Proof. exact slab_begin_request. Qed.
Print Assumptions C59_slab_creation.

(** Eight values; the ninth is refused, a slot freed before makes room for it. *)
Definition full_arena_ops : list (arena_op N) := (fun i => AAlloc (N.of_nat i)) <$> seq 0 8.
Definition full_slab_ops : list (slab_op N) := (fun i => SPush (N.of_nat i)) <$> seq 0 8.
Definition full_arena_run := arena_run senv_tight full_arena_ops arena_new.
Definition full_slab_run := slab_run senv_tight full_slab_ops slab_new.
Example C59_containers_case :
  (arena_reached senv_tight None full_arena_ops full_arena_run.1 full_arena_run.2 /\
   arena_contract [] full_arena_ops full_arena_run.1 /\ Forall process_on full_arena_run.1 /\
   (arena_exec senv_tight (AAlloc 9) full_arena_run.2).1 = Abort /\ arena_capacity full_arena_run.2 = 8)
  /\ (slab_reached senv_tight None full_slab_ops full_slab_run.1 full_slab_run.2 /\
   slab_contract ∅ full_slab_ops full_slab_run.1 /\ Forall process_on full_slab_run.1 /\
   (slab_exec senv_tight (SPush 9) full_slab_run.2).1 = Abort /\ slab_capacity full_slab_run.2 = 8)
  /\ (slab_exec senv_tight (SPush 9) (slab_exec senv_tight (SRemove (0, 3)) full_slab_run.2).2).1 = Ret (SlabPtr (0, 3))
  /\ (arena_begin (T := N) senv_tight (Some 9)).1 = Abort.
Proof.
  split; [|split; [|by vm_compute]].
  - split; [exists arena_new; split; [done|unfold full_arena_run; apply surjective_pairing]|].
    split; [by vm_compute|]. split; [vm_compute; by repeat constructor|]. by vm_compute.
  - split; [exists slab_new; split; [done|unfold full_slab_run; apply surjective_pairing]|].
    split; [by vm_compute|]. split; [vm_compute; by repeat constructor|]. by vm_compute.
Qed.

(** ** C60: SimpleBSTMap and SimpleBSTSet *)

(** A call aborts only if one of the boxes it may need is refused, or the map
    fills the address space. *)
Theorem C60_call {K V : Type} : forall e c (m : simple K V), simple_reachable e m -> simple_has c = true ->
  (simple_exec e c m).1 = Abort -> box_refused e (first_box c m) (most_boxes c m) (simple_len m).
Proof. exact simple_call_boxes. Qed.
Print Assumptions C60_call.

Theorem C60_creation {K V : Type} : forall e (s : start K V), (simple_begin e s).1 = Abort ->
  box_refused e 0 (most_boxes_at_start s) 0.
Proof. exact simple_begin_boxes. Qed.
Print Assumptions C60_creation.

(** So it does not abort if these boxes are granted. *)
Theorem C60_generous {K V : Type} : forall e c (m : simple K V), simple_reachable e m -> simple_has c = true ->
  (forall i, first_box c m <= i < first_box c m + most_boxes c m -> b_addr e i <> None) ->
  simple_len m + most_boxes c m + 1 < 2 ^ 60 -> (simple_exec e c m).1 <> Abort.
Proof. exact simple_call_generous. Qed.
Print Assumptions C60_generous.

Theorem C60_generous_creation {K V : Type} : forall e (s : start K V),
  (forall i, i < most_boxes_at_start s -> b_addr e i <> None) -> most_boxes_at_start s + 1 < 2 ^ 60 ->
  (simple_begin e s).1 <> Abort.
Proof. exact simple_begin_generous. Qed.
Print Assumptions C60_generous_creation.

(** The converse for [insert] into a map that is not empty: a refused box ends the
    process, unless a comparison panicked or the key was there already. *)
Theorem C60_insert_refused {K V : Type} : forall e o (k : K) (v : V) (m : simple K V), simple_reachable e m ->
  simple_len m <> 0 -> b_addr e (s_boxes m) = None ->
  (simple_exec e (OInsert o k v) m).1 = Abort \/ (simple_exec e (OInsert o k v) m).1 = Panic PCmp \/
  exists w, (simple_exec e (OInsert o k v) m).1 = Ret (OutValue (Some w)).
Proof. exact simple_insert_full. Qed.
Print Assumptions C60_insert_refused.

Theorem C60_set {T : Type} : forall e c (m : sset T), sset_reachable e m -> sset_has c = true ->
  (sset_exec e c m).1 = Abort -> box_refused e (sset_first_box c m) (sset_most_boxes c m) (sset_len m).
Proof. exact sset_call_boxes. Qed.
Print Assumptions C60_set.

Theorem C60_set_creation {T : Type} : forall e (s : set_start T), (sset_begin e s).1 = Abort ->
  box_refused e 0 (sset_most_boxes_at_start s) 0.
Proof. exact sset_begin_boxes. Qed.
Print Assumptions C60_set_creation.

(** Room for three boxes: a root and three more nodes. *)
Definition three_boxes : benv := BEnv true (fun n => if n <? 3 then Some n else None).
Definition four_ops : list (op SK N) := [ins 50 0 1; ins 30 0 2; ins 80 0 3; ins 40 0 4].
Definition four : simple SK N := (simple_run three_boxes four_ops simple_new).2.
Definition four_set_ops : list (set_op SK) := (fun n => SetInsert (so (scmp (n, 0))) (n, 0)) <$> [50; 30; 80; 40].
Definition four_set : sset SK := (sset_run three_boxes four_set_ops sset_new).2.
Example C60_case :
  (simple_reachable three_boxes four /\ simple_len four = 4 /\ b_addr three_boxes (s_boxes four) = None)
  /\ (simple_exec three_boxes (ins 90 0 9) four).1 = Abort
  /\ (simple_exec three_boxes (ins 30 7 9) four).1 = Ret (OutValue (Some 2))
  /\ (simple_exec three_boxes (ORemove (so (sq 50))) four).1 = Abort
  /\ (simple_exec three_boxes (ORemove (so (sq 40))) four).1 = Ret (OutValue (Some 4))
  (** a clone asks for the boxes of the new map: as many as the original has *)
  /\ (simple_exec three_boxes (OClone sos (fun _ k => Some k) (fun _ v => Some v)) four).1 = Ret OutUnit
  /\ (simple_begin (K := SK) (V := N) three_boxes (SFromIter sos (mkUserIter 0 None ((fun n => ((n, 0), n)) <$> [5; 3; 8; 4; 6]) false))).1 = Abort
  (** four boxes granted: nothing aborts *)
  /\ (simple_exec (BEnv true Some) (ORemove (so (sq 50))) (simple_run (BEnv true Some) four_ops simple_new).2).1 <> Abort
  /\ (sset_reachable three_boxes four_set /\ (sset_exec three_boxes (SetInsert (so (scmp (90, 0))) (90, 0)) four_set).1 = Abort).
Proof.
  split; [|do 6 (split; [by vm_compute|]); split].
  - split; [|by vm_compute]. exists SNew, four_ops, (simple_run three_boxes four_ops simple_new).1. split; [done|].
    split; [by repeat constructor|]. split; [|vm_compute; repeat constructor; discriminate].
    exists simple_new. split; [done|]. unfold four. apply surjective_pairing.
  - apply C60_generous; [|done|done|by vm_compute].
    exists SNew, four_ops, (simple_run (BEnv true Some) four_ops simple_new).1. split; [done|].
    split; [by repeat constructor|]. split; [|vm_compute; repeat constructor; discriminate].
    exists simple_new. split; [done|]. apply surjective_pairing.
  - split; [|by vm_compute]. exists SetNew, four_set_ops, (sset_run three_boxes four_set_ops sset_new).1. split; [done|].
    split; [by repeat constructor|]. split; [|vm_compute; repeat constructor; discriminate].
    exists sset_new. split; [done|]. unfold four_set. apply surjective_pairing.
Qed.

(** C61. [extend] reserves the room its iterator announces before it pulls the first
    item: when the reservation fails, [extend] fails in the same way and nothing was
    pulled; ... *)
Theorem C61_extend_reserves_first {K V : Type} : forall e os it (m : bstmap K V) r m1,
  exec e (OReserve (hinted it)) m = (r, m1) -> (forall x, r <> Ret x) -> exec e (OExtend os it) m = (r, m1).
Proof. exact extend_fails_first. Qed.
Print Assumptions C61_extend_reserves_first.

(** ... when it does not, the room is there afterwards, even if the iterator or a
    comparison panicked; ... *)
Theorem C61_extend_room {K V : Type} : forall e os it (m : bstmap K V) r m', reachable e m ->
  exec e (OExtend os it) m = (r, m') -> (e_chk e = true \/ slots m + hinted it < USIZE) ->
  (exists x, r = Ret x) \/ r = Panic PIter \/ r = Panic PCmp -> slots m + hinted it <= map_capacity m'.
Proof. exact extend_reserved. Qed.
Print Assumptions C61_extend_room.

(** ... and an iterator that yields no more than it announces makes [extend] ask for
    nothing more: neither the capacity nor the number of requests changes while the
    items are inserted, and no insertion fails for want of memory. *)
Theorem C61_extend_asks_once {K V : Type} : forall e os it (m : bstmap K V) x m1 r m', reachable e m ->
  exec e (OReserve (hinted it)) m = (Ret x, m1) -> (e_chk e = true \/ slots m + hinted it < USIZE) ->
  N.of_nat (length (ui_items it)) <= hinted it -> exec e (OExtend os it) m = (r, m') ->
  map_capacity m' = map_capacity m1 /\ requests m' = requests m1 /\ (r = Ret OutUnit \/ r = Panic PIter \/ r = Panic PCmp).
Proof. exact extend_no_growth. Qed.
Print Assumptions C61_extend_asks_once.

(** [from_iter] likewise starts with [with_capacity]. *)
Theorem C61_collect_reserves_first {K V : Type} : forall e os it r (m : bstmap K V),
  begin e (SWithCapacity (hinted it)) = (r, m) -> r <> Ret tt -> begin e (SFromIter os it) = (r, m).
Proof. exact collect_fails_first. Qed.
Print Assumptions C61_collect_reserves_first.

Theorem C61_collect_asks_once {K V : Type} : forall e os it (m0 m : bstmap K V),
  begin e (SWithCapacity (hinted it)) = (Ret tt, m0) -> begin e (SFromIter os it) = (Ret tt, m) ->
  hinted it <= map_capacity m /\
  (N.of_nat (length (ui_items it)) <= hinted it -> map_capacity m = map_capacity m0 /\ requests m = requests m0).
Proof. exact collect_no_growth. Qed.
Print Assumptions C61_collect_asks_once.

(** A clone asks for what [with_capacity] of the number of entries asks for. *)
Theorem C61_clone {K V : Type} : forall e os ck cv (m : bstmap K V), reachable e m ->
  match begin (K := K) (V := V) e (SWithCapacity (entry_count e m)) with
  | (Ret _, m0) =>
    match map_clone e os ck cv m with
    | (Ret _, m') => map_capacity m' = map_capacity m0 /\ requests m' = requests m0
    | (r, _) => r = Panic PClone \/ r = Panic PCmp
    end
  | (r, m0) => map_clone e os ck cv m = (r, m0)
  end.
Proof. exact clone_room. Qed.
Print Assumptions C61_clone.

Theorem C61_set_room {T : Type} : forall e os it (m : bstset T) r m', set_reachable e m ->
  set_exec e (SetExtend os it) m = (r, m') -> (e_chk e = true \/ slots m + hinted it < USIZE) ->
  (exists x, r = Ret x) \/ r = Panic PIter \/ r = Panic PCmp -> slots m + hinted it <= set_capacity m'.
Proof. exact set_extend_reserved. Qed.
Print Assumptions C61_set_room.

Theorem C61_set_asks_once {T : Type} : forall e os it (m : bstset T) x m1 r m', set_reachable e m ->
  set_exec e (SetReserve (hinted it)) m = (Ret x, m1) -> (e_chk e = true \/ slots m + hinted it < USIZE) ->
  N.of_nat (length (ui_items it)) <= hinted it -> set_exec e (SetExtend os it) m = (r, m') ->
  set_capacity m' = set_capacity m1 /\ requests m' = requests m1 /\ (r = Ret SetUnit \/ r = Panic PIter \/ r = Panic PCmp).
Proof. exact set_extend_no_growth. Qed.
Print Assumptions C61_set_asks_once.

(** A hundred announced, three yielded, the second comparison of the third panics:
    the room for a hundred stays. Nine announced under an allocator that refuses the
    second chunk: nothing is pulled. *)
Definition announced (n : N) : user_iter (SK * N) := mkUserIter 3 (Some n) [((60, 0), 8); ((65, 0), 9); ((62, 1), 10)] false.
Definition announced_set (n : N) : user_iter SK := mkUserIter 3 (Some n) [(60, 0); (65, 0); (62, 1)] false.
Definition third_panics : nat -> SK -> oracle SK := fun j k => so_panic (if Nat.eqb j 2 then 1 else 99) (scmp k).
Definition small_set : bstset SK := (set_run senv (set_inserts sos [(5, 0); (3, 0)]) set_new).2.
Example C61_case :
  reachable senv sample /\ map_capacity sample < 100 /\
  (exists m1, exec senv (OReserve 100) sample = (Ret OutUnit, m1) /\ map_capacity m1 = 120) /\
  (exists m', exec senv (OExtend sos (announced 100)) sample = (Ret OutUnit, m') /\ map_capacity m' = 120) /\
  (exists m', exec senv (OExtend third_panics (announced 100)) sample = (Panic PCmp, m') /\ map_capacity m' = 120) /\
  reachable senv_tight full_map /\
  (exists m1, exec senv_tight (OReserve 3) full_map = (Abort, m1)) /\
  (exists m1 : bstmap SK N, begin senv_tight (SWithCapacity 9) = (Abort, m1)) /\
  (exists m : bstmap SK N, begin senv (SFromIter sos (announced 9)) = (Ret tt, m) /\ map_capacity m = 24 /\ requests m = 2) /\
  (exists m', map_clone senv sos (fun _ k => Some k) (fun _ v => Some v) sample = (Ret tt, m') /\ map_capacity m' = 8 /\ requests m' = 1) /\
  set_reachable senv small_set /\
  (exists m', set_exec senv (SetExtend sos (announced_set 100)) small_set = (Ret SetUnit, m') /\ set_capacity m' = 120).
Proof.
  split; [exact sample_reachable|]. split; [by vm_compute|].
  split; [apply runs_to_with; by vm_compute|]. split; [apply runs_to_with; by vm_compute|].
  split; [apply runs_to_with; by vm_compute|]. split; [exact full_reachable|].
  split; [apply runs_to; by vm_compute|]. split; [apply runs_to; by vm_compute|].
  split; [apply runs_to_with; by vm_compute|]. split; [apply runs_to_with; by vm_compute|].
  split; [|apply runs_to_with; by vm_compute].
  exists SetNew, (set_inserts sos [(5, 0); (3, 0)]), (set_run senv (set_inserts sos [(5, 0); (3, 0)]) set_new).1.
  split; [exists set_new; split; [done|apply surjective_pairing]|]. vm_compute. repeat constructor; discriminate.
Qed.
