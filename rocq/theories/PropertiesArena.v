(** * Properties of the two private containers: C41, C42, C43, C53, C54, C58

    Vocabulary: [SpecArena.v]. *)

From Verif Require Export ProofArenaRun Samples.
Local Open Scope N_scope.

(** A sample arena: 30 values over three chunks, with stores, [reserve],
    [shrink_to_fit], [clear] and a second generation of 20 values; then both kinds
    of iteration. *)
Definition arena_fill (from : N) (n : nat) : list (arena_op N) := (fun i => AAlloc (from + N.of_nat i)) <$> seq 0 n.
Definition arena_ops1 : list (arena_op N) :=
  arena_fill 100 30 ++ [ASet (1, 3) 7; AReserve 200; AGet (1, 3); AShrink; AGet (2, 5); ALen; ACapacity;
    AClear (fun _ => false); AIsEmpty] ++ arena_fill 500 20 ++
  [ASet (0, 2) 1; AIter [AtFront; AtBack; AtBack; AtFront];
   AIterMut [(AtFront, Some 77); (AtBack, None); (AtBack, Some 78)]; AGet (0, 0); AReserve (2 ^ 64 - 1)].
Definition arena_run1 := arena_run senv arena_ops1 arena_new.
Definition arena_sample : arena N := arena_run1.2.

Lemma arena_sample_reached : arena_reached senv None arena_ops1 arena_run1.1 arena_sample.
Proof. exists arena_new. split; [done|]. unfold arena_sample, arena_run1. apply surjective_pairing. Qed.
Lemma arena_sample_contract : arena_contract [] arena_ops1 arena_run1.1.
Proof. vm_compute. repeat split; repeat constructor. Qed.
Lemma arena_sample_on : Forall process_on arena_run1.1.
Proof. vm_compute. repeat constructor. Qed.

(** ** C41: the index computation *)

Theorem C41_in_chunk (e : env) : forall i, i < 2 ^ 64 - 8 ->
  exists pos n, position_for e i = Ret pos /\ chunk_len e (chunk_index pos) = Ret n /\ item_index pos < n.
Proof. exact (position_ok e). Qed.
Print Assumptions C41_in_chunk.

Theorem C41_distinct (e : env) : forall i j, i < 2 ^ 64 - 8 -> j < 2 ^ 64 - 8 ->
  position_for e i = position_for e j -> i = j.
Proof. exact (position_inj e). Qed.
Print Assumptions C41_distinct.

Theorem C41_every_position (e : env) : forall c n k, c <= 60 -> chunk_len e c = Ret n -> k < n ->
  exists i, i < 2 ^ 64 - 8 /\ position_for e i = Ret (mkChunkPos c k).
Proof. exact (position_surj e). Qed.
Print Assumptions C41_every_position.

Theorem C41_chunk_lengths (e : env) : forall c, c <= 60 -> chunk_len e c = Ret (8 * 2 ^ c).
Proof. exact (chunk_lengths e). Qed.
Print Assumptions C41_chunk_lengths.

(** The bound is the best possible: the eight last indexes overflow. *)
Theorem C41_bound_is_tight (e : env) : e_chk e = true -> forall i, 2 ^ 64 - 8 <= i < 2 ^ 64 ->
  position_for e i = Panic POverflow.
Proof. exact (fun H i => position_bound_tight e i H). Qed.
Print Assumptions C41_bound_is_tight.

Example C41_case :
  (position_for senv 1000 = Ret (mkChunkPos 6 496) /\ chunk_len senv 6 = Ret 512 /\
   position_for senv (2 ^ 64 - 9) = Ret (mkChunkPos 60 (2 ^ 63 - 1)))
  /\ (exists i, i < 2 ^ 64 - 8 /\ position_for senv i = Ret (mkChunkPos 59 12345))
  /\ position_for senv (2 ^ 64 - 8) = Panic POverflow.
Proof.
  split; [by vm_compute|]. split.
  - eapply (C41_every_position senv 59 (8 * 2 ^ 59)); [done|by vm_compute|done].
  - by apply C41_bound_is_tight.
Qed.

(** ** C42: addresses are distinct, stable and readable *)

(** Every call of every history that respects the contract gets a result allowed by
    the specification. *)
Theorem C42_history {T : Type} (e : env) : forall n cs rs (a : arena T),
  arena_reached e n cs rs a -> arena_contract [] cs rs -> arena_results [] cs rs.
Proof. exact (arena_history e). Qed.
Print Assumptions C42_history.

(** At the end, every address handed out since the last [clear] can be read. *)
Theorem C42_readable {T : Type} (e : env) : forall n cs rs (a : arena T) p x,
  arena_reached e n cs rs a -> arena_contract [] cs rs -> Forall process_on rs ->
  (p, x) ∈ arena_contents [] cs rs -> arena_get a p = Ret x.
Proof. exact (arena_reads e). Qed.
Print Assumptions C42_readable.

Theorem C42_distinct {T : Type} (e : env) : forall n cs rs (a : arena T),
  arena_reached e n cs rs a -> arena_contract [] cs rs -> Forall process_on rs ->
  NoDup (arena_contents [] cs rs).*1.
Proof. exact (arena_addresses e). Qed.
Print Assumptions C42_distinct.

Theorem C42_creation {T : Type} (e : env) : forall n,
  match arena_begin (T:=T) e n with
  | (Ret _, a) => default 0 n <= arena_capacity a /\ arena_len a = 0
  | (r, a) => no_room r /\ (r = Abort \/ a_heap a = ∅)
  end.
Proof. exact (arena_begin_cases e). Qed.
Print Assumptions C42_creation.

Example C42_case :
  arena_results [] arena_ops1 arena_run1.1
  /\ NoDup (arena_contents [] arena_ops1 arena_run1.1).*1
  /\ arena_get arena_sample (0, 2) = Ret 1 /\ arena_get arena_sample (1, 11) = Ret 519
  /\ arena_contents [] arena_ops1 arena_run1.1 !! 0%nat = Some ((0, 0), 77)
  /\ length (arena_contents [] arena_ops1 arena_run1.1) = 20%nat
  /\ last arena_run1.1 = Some (Panic POverflow).
Proof.
  split; [exact (C42_history senv _ _ _ _ arena_sample_reached arena_sample_contract)|].
  split; [exact (C42_distinct senv _ _ _ _ arena_sample_reached arena_sample_contract arena_sample_on)|].
  split; [|split; [|by vm_compute]];
    (apply (C42_readable senv _ _ _ _ _ _ arena_sample_reached arena_sample_contract arena_sample_on);
     apply (bool_decide_unpack _); vm_compute; exact I).
Qed.

(** Memory exhaustion: the failed call leaves everything as it was. *)
Example C42_failing_case :
  exists rs a, arena_reached senv_tight None (arena_fill 0 9 ++ [ALen]) rs a /\
    arena_contract [] (arena_fill 0 9 ++ [ALen]) rs /\ last rs = Some Abort /\ length rs = 9%nat.
Proof.
  eexists _, _. split; [exists arena_new; split; [done|apply surjective_pairing]|]. split; [by vm_compute|by vm_compute].
Qed.

(** ** C43: double-ended iteration *)

(** Both iterators yield the contents from the two ends ([from_ends]: length left and
    element); [iter_mut] also writes through. *)
Theorem C43_iteration {T : Type} (e : env) : forall n cs rs (a : arena T) ds,
  arena_reached e n (cs ++ [AIter ds.*1; AIterMut ds]) rs a ->
  arena_contract [] (cs ++ [AIter ds.*1; AIterMut ds]) rs ->
  arena_results [] (cs ++ [AIter ds.*1; AIterMut ds]) rs.
Proof. exact (fun n cs rs a ds => arena_history e n _ rs a). Qed.
Print Assumptions C43_iteration.

(** What the specification of an interleaving says: every element comes out at most
    once, at the front in order or at the back in reverse order... *)
Theorem C43_each_once {A : Type} (ds : list iter_end) (l : list A) : exists left_,
  l = came_out AtFront ds (from_ends l ds) ++ left_ ++ reverse (came_out AtBack ds (from_ends l ds)) /\
  length left_ = (length l - length ds)%nat.
Proof. exact (from_ends_split ds l). Qed.
Print Assumptions C43_each_once.

(** ... the size is exact, and [None] comes exactly when all have come out. *)
Theorem C43_exact_size {A : Type} (ds : list iter_end) (l : list A) : forall i n y,
  from_ends l ds !! i = Some (n, y) -> n = N.of_nat (length l - i) /\ (y = None <-> (length l <= i)%nat).
Proof. exact (from_ends_none ds l). Qed.
Print Assumptions C43_exact_size.

Definition arena_ends : list (iter_end * option N) :=
  [(AtBack, Some 9); (AtFront, None); (AtFront, Some 8); (AtBack, Some 7); (AtFront, Some 6); (AtBack, None)].
Definition arena_iter_ops : list (arena_op N) := arena_fill 10 4 ++ [AIter arena_ends.*1; AIterMut arena_ends].
Definition arena_iter_run := arena_run senv arena_iter_ops arena_new.
Example C43_case :
  arena_results [] arena_iter_ops arena_iter_run.1
  /\ last arena_iter_run.1 = Some (Ret (AItems
       [(4, Some ((0, 3), 13)); (3, Some ((0, 0), 10)); (2, Some ((0, 1), 11)); (1, Some ((0, 2), 12)); (0, None); (0, None)]))
  /\ arena_contents [] arena_iter_ops arena_iter_run.1 = [((0, 0), 10); ((0, 1), 8); ((0, 2), 7); ((0, 3), 9)].
Proof.
  split; [|by vm_compute].
  assert (Hr : arena_reached senv None arena_iter_ops arena_iter_run.1 arena_iter_run.2).
  { exists arena_new. split; [done|]. unfold arena_iter_run. apply surjective_pairing. }
  refine (C43_iteration senv None (arena_fill 10 4) _ _ arena_ends Hr _). vm_compute. repeat split.
Qed.

(** ** C54: comparing and clearing arenas *)

Theorem C54_eq {T : Type} (e : env) (eqT : T -> T -> bool) : forall n1 n2 cs1 cs2 rs1 rs2 (a1 a2 : arena T),
  arena_reached e n1 cs1 rs1 a1 -> arena_contract [] cs1 rs1 -> Forall process_on rs1 ->
  arena_reached e n2 cs2 rs2 a2 -> arena_contract [] cs2 rs2 -> Forall process_on rs2 ->
  exists b, arena_eq eqT e a1 a2 = Ret b /\
    (b = true <-> Forall2 (fun x y => eqT x y = true) (arena_contents [] cs1 rs1).*2 (arena_contents [] cs2 rs2).*2).
Proof. exact (arena_history_eq e eqT). Qed.
Print Assumptions C54_eq.

Theorem C54_clear {T : Type} (e : env) : forall n cs rs (a : arena T) pn,
  arena_reached e n cs rs a -> arena_contract [] cs rs -> Forall process_on rs ->
  Forall (fun x => pn x = false) (arena_contents [] cs rs).*2 ->
  exists a', arena_clear e (e_nd e) pn a = (Ret tt, a') /\
    a_drops a' = a_drops a ++ (if e_nd e then (arena_contents [] cs rs).*2 else []) /\
    arena_capacity a' = arena_capacity a /\ arena_len a' = 0.
Proof. exact (arena_history_clear e). Qed.
Print Assumptions C54_clear.

(** Over a whole life, up to and including the drop of the arena. *)
Theorem C54_drop {T : Type} (e : env) : forall n cs rs (a : arena T) pn,
  arena_reached e n cs rs a -> arena_contract [] cs rs -> Forall process_on rs ->
  Forall (fun x => pn x = false) (arena_contents [] cs rs).*2 ->
  exists a', arena_drop e (e_nd e) pn a = (Ret tt, a') /\ a_heap a' = ∅ /\
    a_drops a' = arena_dropped (e_nd e) [] cs rs ++ (if e_nd e then (arena_contents [] cs rs).*2 else []).
Proof. exact (arena_history_drop e). Qed.
Print Assumptions C54_drop.

Definition arena_ops2 : list (arena_op N) :=
  arena_fill 500 20 ++ [ASet (0, 0) 77; ASet (0, 2) 1; ASet (1, 10) 78].
Definition arena_run2 := arena_run senv arena_ops2 arena_new.
Lemma arena_sample2_reached : arena_reached senv None arena_ops2 arena_run2.1 arena_run2.2.
Proof. exists arena_new. split; [done|]. unfold arena_run2. apply surjective_pairing. Qed.
Lemma arena_sample2_contract : arena_contract [] arena_ops2 arena_run2.1.
Proof. vm_compute. repeat split; repeat constructor. Qed.
Lemma arena_sample2_on : Forall process_on arena_run2.1.
Proof. vm_compute. repeat constructor. Qed.

Example C54_case :
  (exists b, arena_eq N.eqb senv arena_sample arena_run2.2 = Ret b /\
    (b = true <-> Forall2 (fun x y => N.eqb x y = true) (arena_contents [] arena_ops1 arena_run1.1).*2
                                                    (arena_contents [] arena_ops2 arena_run2.1).*2))
  /\ arena_eq N.eqb senv arena_sample arena_run2.2 = Ret true
  /\ arena_capacity arena_sample <> arena_capacity arena_run2.2
  /\ (exists a', arena_clear senv (e_nd senv) (fun _ => false) arena_sample = (Ret tt, a') /\
       a_drops a' = a_drops arena_sample ++ (if e_nd senv then (arena_contents [] arena_ops1 arena_run1.1).*2 else []) /\
       arena_capacity a' = arena_capacity arena_sample /\ arena_len a' = 0)
  /\ length (a_drops arena_sample) = 30%nat.
Proof.
  split; [exact (C54_eq senv N.eqb _ _ _ _ _ _ _ _ arena_sample_reached arena_sample_contract arena_sample_on
                                         arena_sample2_reached arena_sample2_contract arena_sample2_on)|].
  split; [by vm_compute|]. split; [by vm_compute|]. split; [|by vm_compute].
  exact (C54_clear senv _ _ _ _ (fun _ => false) arena_sample_reached arena_sample_contract arena_sample_on
           (proj2 (Forall_forall _ _) (fun _ _ => eq_refl))).
Qed.

Example C54_drop_case :
  exists a', arena_drop senv (e_nd senv) (fun _ => false) arena_sample = (Ret tt, a') /\ a_heap a' = ∅ /\
    a_drops a' = arena_dropped (e_nd senv) [] arena_ops1 arena_run1.1 ++ (if e_nd senv then (arena_contents [] arena_ops1 arena_run1.1).*2 else []).
Proof.
  exact (C54_drop senv _ _ _ _ (fun _ => false) arena_sample_reached arena_sample_contract arena_sample_on
           (proj2 (Forall_forall _ _) (fun _ _ => eq_refl))).
Qed.

(** If a destructor panics, [clear] leaves the length as it was: dropping the arena
    afterwards touches a value that was already destroyed. *)
Theorem C54_clear_with_panicking_destructor_refuted :
  ~ (forall n cs rs (a : arena N) pn p a1,
       arena_reached senv n cs rs a -> arena_contract [] cs rs -> Forall process_on rs ->
       arena_clear senv (e_nd senv) pn a = (Panic p, a1) ->
       exists a2, arena_drop senv (e_nd senv) (fun _ => false) a1 = (Ret tt, a2)).
Proof.
  intros H.
  destruct (H None (arena_fill 0 3) (arena_run senv (arena_fill 0 3) arena_new).1 (arena_run senv (arena_fill 0 3) arena_new).2 (fun x => x =? 1) PDrop
              (arena_clear senv true (fun x => x =? 1) (arena_run senv (arena_fill 0 3) arena_new).2).2) as [a2 Ha2].
  - exists arena_new. split; [done|apply surjective_pairing].
  - vm_compute. done.
  - vm_compute. repeat constructor.
  - by vm_compute.
  - vm_compute in Ha2. discriminate.
Qed.
Print Assumptions C54_clear_with_panicking_destructor_refuted.

(** ** C58: the consuming iterator and the textual form *)

Theorem C58_into_iter_panics {T : Type} (e : env) : forall n cs rs (a : arena T) pn,
  arena_reached e n cs rs a -> arena_contract [] cs rs -> Forall process_on rs ->
  Forall (fun x => pn x = false) (arena_contents [] cs rs).*2 ->
  exists a', arena_into_iter e pn a = (Panic PTodo, a') /\ a_heap a' = ∅ /\
    a_drops a' = arena_dropped (e_nd e) [] cs rs ++ (if e_nd e then (arena_contents [] cs rs).*2 else []).
Proof. exact (arena_history_into_iter e). Qed.
Print Assumptions C58_into_iter_panics.

Theorem C58_debug {T : Type} (e : env) : forall n cs rs (a : arena T),
  arena_reached e n cs rs a -> arena_contract [] cs rs -> Forall process_on rs ->
  arena_debug e a = Ret (arena_contents [] cs rs).*2.
Proof. exact (arena_history_debug e). Qed.
Print Assumptions C58_debug.

Example C58_case :
  arena_debug senv arena_sample = Ret (arena_contents [] arena_ops1 arena_run1.1).*2
  /\ exists a', arena_into_iter senv (fun _ => false) arena_sample = (Panic PTodo, a') /\ a_heap a' = ∅ /\
    a_drops a' = arena_dropped (e_nd senv) [] arena_ops1 arena_run1.1 ++ (if e_nd senv then (arena_contents [] arena_ops1 arena_run1.1).*2 else []).
Proof.
  split; [exact (C58_debug senv _ _ _ _ arena_sample_reached arena_sample_contract arena_sample_on)|].
  exact (C58_into_iter_panics senv _ _ _ _ (fun _ => false) arena_sample_reached arena_sample_contract arena_sample_on
           (proj2 (Forall_forall _ _) (fun _ _ => eq_refl))).
Qed.

(** ** C53: the slab is a finite map from addresses to values *)

Theorem C53_history {T : Type} (e : env) : forall n cs rs (s : slab T),
  slab_reached e n cs rs s -> slab_contract ∅ cs rs -> slab_results ∅ cs rs.
Proof. exact (slab_history e). Qed.
Print Assumptions C53_history.

Theorem C53_readable {T : Type} (e : env) : forall n cs rs (s : slab T) p x,
  slab_reached e n cs rs s -> slab_contract ∅ cs rs -> Forall process_on rs ->
  slab_contents ∅ cs rs !! p = Some x -> slab_get s p = Ret x.
Proof. exact (slab_reads e). Qed.
Print Assumptions C53_readable.

(** Every value still present is destroyed once, when the slab is dropped; removed
    values are not. *)
Theorem C53_drop {T : Type} (e : env) : forall n cs rs (s : slab T) pn,
  slab_reached e n cs rs s -> slab_contract ∅ cs rs -> Forall process_on rs -> (forall x, pn x = false) ->
  exists s', slab_drop e pn s = (Ret tt, s') /\ a_heap (s_items s') = ∅ /\
    s_drops s' ≡ₚ slab_dropped (e_nd e) ∅ cs rs ++ (if e_nd e then (map_to_list (slab_contents ∅ cs rs)).*2 else []).
Proof. exact (slab_drops_all e). Qed.
Print Assumptions C53_drop.

Definition slab_ops : list (slab_op N) :=
  ((fun i => SPush (N.of_nat i)) <$> seq 0 12) ++
  [SRemove (0, 5); SRemove (1, 1); SLen; SPush 40; SUpdate (0, 2) (N.add 100); SReserve 50; SShrink; SCapacity;
   SRemove (0, 0); SPush 41; SPush 42; SGet (0, 2); SIsEmpty; SPush 43; SRemove (1, 3); SLen].
Definition slab_sample_run := slab_run senv slab_ops slab_new.
Lemma slab_sample_reached : slab_reached senv None slab_ops slab_sample_run.1 slab_sample_run.2.
Proof. exists slab_new. split; [done|]. unfold slab_sample_run. apply surjective_pairing. Qed.
Lemma slab_sample_contract : slab_contract ∅ slab_ops slab_sample_run.1.
Proof. vm_compute. repeat split; eexists; reflexivity. Qed.
Lemma slab_sample_on : Forall process_on slab_sample_run.1.
Proof. vm_compute. repeat constructor. Qed.

Example C53_case :
  slab_results ∅ slab_ops slab_sample_run.1
  /\ slab_get slab_sample_run.2 (0, 5) = Ret 42 /\ slab_get slab_sample_run.2 (1, 1) = Ret 40
  /\ last slab_sample_run.1 = Some (Ret (SlabNum 12))
  /\ exists s', slab_drop senv (fun _ => false) slab_sample_run.2 = (Ret tt, s') /\ a_heap (s_items s') = ∅ /\
       s_drops s' ≡ₚ slab_dropped (e_nd senv) ∅ slab_ops slab_sample_run.1 ++
         (if e_nd senv then (map_to_list (slab_contents ∅ slab_ops slab_sample_run.1)).*2 else []).
Proof.
  split; [exact (C53_history senv _ _ _ _ slab_sample_reached slab_sample_contract)|].
  split; [exact (C53_readable senv _ _ _ _ (0, 5) 42 slab_sample_reached slab_sample_contract slab_sample_on ltac:(by vm_compute))|].
  split; [exact (C53_readable senv _ _ _ _ (1, 1) 40 slab_sample_reached slab_sample_contract slab_sample_on ltac:(by vm_compute))|].
  split; [by vm_compute|].
  exact (C53_drop senv _ _ _ _ (fun _ => false) slab_sample_reached slab_sample_contract slab_sample_on (fun _ => eq_refl)).
Qed.
