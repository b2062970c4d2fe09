(** * Properties of the memory held by the private containers: C71, C72

    Vocabulary: [SpecRoom.v]. [a_next] counts the requests made to the allocator. *)

From Verif Require Export ProofRoom Samples.
From Verif Require Import PropertiesArena PropertiesMap.
Local Open Scope N_scope.

(** ** C71: the arena *)

Theorem C71_with_capacity {T : Type} (e : env) : forall n (a : arena T),
  arena_begin e (Some n) = (Ret tt, a) ->
  least_room n (arena_capacity a) /\ (n = 0 -> a = arena_new).
Proof. exact (arena_begin_room e). Qed.
Print Assumptions C71_with_capacity.

(** Memory is asked for only by an [alloc] on a full arena, which makes one request. *)
Theorem C71_alloc {T : Type} (e : env) : forall n cs rs (a : arena T) x r a',
  arena_reached e n cs rs a -> arena_contract [] cs rs -> Forall process_on rs -> arena_exec e (AAlloc x) a = (r, a') ->
  let len := N.of_nat (length (arena_contents [] cs rs)) in
  len <= arena_capacity a /\
  (len < arena_capacity a -> (exists p, r = Ret (APtr p)) /\ arena_capacity a' = arena_capacity a /\ a_next a' = a_next a) /\
  (len = arena_capacity a -> forall y, r = Ret y -> arena_capacity a' = 2 * arena_capacity a + 8 /\ a_next a' = a_next a + 1) /\
  ((forall y, r <> Ret y) -> arena_capacity a' = arena_capacity a).
Proof. exact (arena_alloc_room e). Qed.
Print Assumptions C71_alloc.

Theorem C71_reserve {T : Type} (e : env) : forall n cs rs (a : arena T) k x a',
  arena_reached e n cs rs a -> arena_contract [] cs rs -> Forall process_on rs -> arena_exec e (AReserve k) a = (Ret x, a') ->
  let want := N.of_nat (length (arena_contents [] cs rs)) + k in
  (e_chk e = true \/ want < 2 ^ 64) ->
  want <= arena_capacity a' /\ arena_capacity a <= arena_capacity a' /\ (want <= arena_capacity a -> a' = a) /\
  (arena_capacity a < want -> least_room want (arena_capacity a')).
Proof. exact (arena_reserve_room e). Qed.
Print Assumptions C71_reserve.

Theorem C71_shrink {T : Type} (e : env) : forall n cs rs (a : arena T) r a',
  arena_reached e n cs rs a -> arena_contract [] cs rs -> Forall process_on rs -> arena_exec e AShrink a = (r, a') ->
  r = Ret AUnit /\ least_room (N.of_nat (length (arena_contents [] cs rs))) (arena_capacity a') /\
  arena_capacity a' <= arena_capacity a /\ a_next a' = a_next a.
Proof. exact (arena_shrink_room e). Qed.
Print Assumptions C71_shrink.

Theorem C71_others {T : Type} (e : env) : forall n cs rs (a : arena T) c r a',
  arena_reached e n cs rs a -> arena_contract [] cs rs -> Forall process_on rs -> arena_legal (arena_contents [] cs rs) c ->
  arena_keeps_room c -> arena_exec e c a = (r, a') ->
  arena_capacity a' = arena_capacity a /\ a_next a' = a_next a.
Proof. exact (arena_others_room e). Qed.
Print Assumptions C71_others.

(** The memory held is what [capacity] says, also for the maps built on it. *)
Theorem C71_memory {T : Type} (e : env) : forall n cs rs (a : arena T),
  arena_reached e n cs rs a -> arena_contract [] cs rs -> Forall process_on rs -> footprint (a_heap a) = arena_capacity a.
Proof. exact (arena_memory e). Qed.
Print Assumptions C71_memory.

Theorem C71_map_memory {K V : Type} (e : env) : forall m : bstmap K V, reachable e m -> footprint (blocks m) = map_capacity m.
Proof. exact (map_memory e). Qed.
Print Assumptions C71_map_memory.

Definition full_arena_ops : list (arena_op N) := arena_fill 0 8.
Definition full_arena_run := arena_run senv full_arena_ops arena_new.
Lemma full_arena_reached : arena_reached senv None full_arena_ops full_arena_run.1 full_arena_run.2.
Proof. exists arena_new. split; [done|]. unfold full_arena_run. apply surjective_pairing. Qed.
Lemma full_arena_contract : arena_contract [] full_arena_ops full_arena_run.1.
Proof. vm_compute. repeat split; repeat constructor. Qed.
Lemma full_arena_on : Forall process_on full_arena_run.1.
Proof. vm_compute. repeat constructor. Qed.

Lemma ran_to {A B} (f : res A * B) x : f.1 = Ret x -> f = (Ret x, f.2).
Proof. destruct f as [r b]. cbn [fst snd]. by intros ->. Qed.
Lemma arena_sample_length : N.of_nat (length (arena_contents [] arena_ops1 arena_run1.1)) = 20.
Proof. by vm_compute. Qed.

(** The ninth [alloc], [reserve], [shrink_to_fit] and [clear] on an arena that holds
    20 values in 24 slots, and one that is full. *)
Example C71_case :
  least_room 9 (arena_capacity (arena_begin (T:=N) senv (Some 9)).2)
  /\ arena_capacity (arena_begin (T:=N) senv (Some 9)).2 = 24
  /\ (arena_capacity full_arena_run.2 = 8 /\
      arena_capacity (arena_exec senv (AAlloc 9) full_arena_run.2).2 = 2 * 8 + 8 /\
      a_next (arena_exec senv (AAlloc 9) full_arena_run.2).2 = a_next full_arena_run.2 + 1)
  /\ (arena_capacity arena_sample = 56 /\
      arena_capacity (arena_exec senv (AAlloc 9) arena_sample).2 = arena_capacity arena_sample)
  /\ least_room (20 + 200) (arena_capacity (arena_exec senv (AReserve 200) arena_sample).2)
  /\ (arena_exec senv (AReserve 20) arena_sample).2 = arena_sample
  /\ least_room 20 (arena_capacity (arena_exec senv AShrink arena_sample).2)
  /\ arena_capacity (arena_exec senv AShrink arena_sample).2 = 24
  /\ arena_capacity (arena_exec senv (AClear (fun _ => false)) arena_sample).2 = arena_capacity arena_sample
  /\ footprint (a_heap arena_sample) = 56.
Proof.
  split; [exact (proj1 (C71_with_capacity senv 9 _ (ran_to (arena_begin (T:=N) senv (Some 9)) tt ltac:(by vm_compute))))|].
  split; [by vm_compute|].
  split.
  { split; [by vm_compute|].
    pose proof (C71_alloc senv _ _ _ _ 9 _ _ full_arena_reached full_arena_contract full_arena_on (surjective_pairing _)) as (_ & _ & H & _).
    apply (H ltac:(by vm_compute) (APtr (1, 0)) ltac:(by vm_compute)). }
  split.
  { split; [by vm_compute|].
    pose proof (C71_alloc senv _ _ _ _ 9 _ _ arena_sample_reached arena_sample_contract arena_sample_on (surjective_pairing _)) as (_ & H & _).
    exact (proj1 (proj2 (H ltac:(by vm_compute)))). }
  split.
  { pose proof (C71_reserve senv _ _ _ _ 200 AUnit _ arena_sample_reached arena_sample_contract arena_sample_on
      (ran_to (arena_exec senv (AReserve 200) arena_sample) AUnit ltac:(by vm_compute)) (or_introl eq_refl)) as (_ & _ & _ & H).
    rewrite arena_sample_length in H. apply H. by vm_compute. }
  split.
  { pose proof (C71_reserve senv _ _ _ _ 20 AUnit _ arena_sample_reached arena_sample_contract arena_sample_on
      (ran_to (arena_exec senv (AReserve 20) arena_sample) AUnit ltac:(by vm_compute)) (or_introl eq_refl)) as (_ & _ & H & _).
    rewrite arena_sample_length in H. apply H. by vm_compute. }
  split.
  { pose proof (C71_shrink senv _ _ _ _ _ _ arena_sample_reached arena_sample_contract arena_sample_on (surjective_pairing _)) as (_ & H & _).
    by rewrite arena_sample_length in H. }
  split; [by vm_compute|].
  split.
  { pose proof (C71_others senv _ _ _ _ (AClear (fun _ => false)) _ _ arena_sample_reached arena_sample_contract arena_sample_on
      (proj2 (Forall_forall _ _) (fun _ _ => eq_refl)) I (surjective_pairing _)) as [H _]. exact H. }
  by vm_compute.
Qed.

Example C71_map_memory_case : footprint (blocks sample) = map_capacity sample /\ map_capacity sample = 8.
Proof. split; [exact (C71_map_memory senv _ sample_reachable)|by vm_compute]. Qed.

(** ** C72: the slab *)

Theorem C72_with_capacity {T : Type} (e : env) : forall n (s : slab T),
  slab_begin e (Some n) = (Ret tt, s) ->
  least_room n (slab_capacity s) /\ (n = 0 -> s = slab_new).
Proof. exact (slab_begin_room e). Qed.
Print Assumptions C72_with_capacity.

(** As many slots were ever taken as the slab held values at one time since the last [clear]. *)
Theorem C72_high_water {T : Type} (e : env) : forall n cs rs (s : slab T),
  slab_reached e n cs rs s -> slab_contract ∅ cs rs -> Forall process_on rs ->
  N.of_nat (slab_peak 0 ∅ cs rs) = arena_len (s_items s) /\
  slab_peak 0 ∅ cs rs = (size (slab_contents ∅ cs rs) + length (slab_free [] cs rs))%nat.
Proof. exact (slab_slots e). Qed.
Print Assumptions C72_high_water.

(** A [push] takes the address freed last; only without free addresses it takes a new
    slot, and only a full slab asks for memory. *)
Theorem C72_push {T : Type} (e : env) : forall n cs rs (s : slab T) x r s',
  slab_reached e n cs rs s -> slab_contract ∅ cs rs -> Forall process_on rs -> slab_exec e (SPush x) s = (r, s') ->
  match slab_free [] cs rs with
  | p :: _ => r = Ret (SlabPtr p) /\ slab_capacity s' = slab_capacity s /\ a_next (s_items s') = a_next (s_items s)
  | [] =>
    let len := N.of_nat (size (slab_contents ∅ cs rs)) in
    len <= slab_capacity s /\
    (len < slab_capacity s ->
       (exists p, r = Ret (SlabPtr p)) /\ slab_capacity s' = slab_capacity s /\ a_next (s_items s') = a_next (s_items s)) /\
    (len = slab_capacity s -> forall y, r = Ret y ->
       slab_capacity s' = 2 * slab_capacity s + 8 /\ a_next (s_items s') = a_next (s_items s) + 1) /\
    ((forall y, r <> Ret y) -> slab_capacity s' = slab_capacity s)
  end.
Proof. exact (slab_push_room e). Qed.
Print Assumptions C72_push.

(** [reserve] does not count the free slots as room. *)
Theorem C72_reserve {T : Type} (e : env) : forall n cs rs (s : slab T) k x s',
  slab_reached e n cs rs s -> slab_contract ∅ cs rs -> Forall process_on rs -> slab_exec e (SReserve k) s = (Ret x, s') ->
  let want := N.of_nat (slab_peak 0 ∅ cs rs) + k in
  (e_chk e = true \/ want < 2 ^ 64) ->
  want <= slab_capacity s' /\ slab_capacity s <= slab_capacity s' /\ (want <= slab_capacity s -> s' = s) /\
  (slab_capacity s < want -> least_room want (slab_capacity s')).
Proof. exact (slab_reserve_room e). Qed.
Print Assumptions C72_reserve.

Theorem C72_shrink {T : Type} (e : env) : forall n cs rs (s : slab T) r s',
  slab_reached e n cs rs s -> slab_contract ∅ cs rs -> Forall process_on rs -> slab_exec e SShrink s = (r, s') ->
  r = Ret SlabUnit /\ least_room (N.of_nat (slab_peak 0 ∅ cs rs)) (slab_capacity s') /\
  slab_capacity s' <= slab_capacity s /\ a_next (s_items s') = a_next (s_items s).
Proof. exact (slab_shrink_room e). Qed.
Print Assumptions C72_shrink.

Theorem C72_others {T : Type} (e : env) : forall n cs rs (s : slab T) c r s',
  slab_reached e n cs rs s -> slab_contract ∅ cs rs -> Forall process_on rs -> slab_legal (slab_contents ∅ cs rs) c ->
  slab_keeps_room c -> slab_exec e c s = (r, s') ->
  slab_capacity s' = slab_capacity s /\ a_next (s_items s') = a_next (s_items s).
Proof. exact (slab_others_room_run e). Qed.
Print Assumptions C72_others.

Theorem C72_memory {T : Type} (e : env) : forall n cs rs (s : slab T),
  slab_reached e n cs rs s -> slab_contract ∅ cs rs -> Forall process_on rs ->
  footprint (a_heap (s_items s)) = slab_capacity s.
Proof. exact (slab_memory e). Qed.
Print Assumptions C72_memory.


(** 12 values are pushed, three removed and one pushed again, which leaves two free
    slots below the high-water mark. *)
Definition holes_ops : list (slab_op N) :=
  ((fun i => SPush (N.of_nat i)) <$> seq 0 12) ++ [SRemove (0, 5); SRemove (1, 1); SPush 40; SRemove (0, 2); SReserve 2; SLen].
Definition holes_run := slab_run senv holes_ops slab_new.
Lemma holes_reached : slab_reached senv None holes_ops holes_run.1 holes_run.2.
Proof. exists slab_new. split; [done|]. unfold holes_run. apply surjective_pairing. Qed.
Lemma holes_contract : slab_contract ∅ holes_ops holes_run.1.
Proof. vm_compute. repeat split; eexists; reflexivity. Qed.
Lemma holes_on : Forall process_on holes_run.1.
Proof. vm_compute. repeat constructor. Qed.

Lemma holes_peak : N.of_nat (slab_peak 0 ∅ holes_ops holes_run.1) = 12.
Proof. by vm_compute. Qed.

Example C72_case :
  least_room 25 (slab_capacity (slab_begin (T:=N) senv (Some 25)).2)
  /\ slab_free [] holes_ops holes_run.1 = [(0, 2); (0, 5)]
  /\ (slab_peak 0 ∅ holes_ops holes_run.1 = 12%nat /\ size (slab_contents ∅ holes_ops holes_run.1) = 10%nat /\
      slab_capacity holes_run.2 = 24)
  /\ ((slab_exec senv (SPush 77) holes_run.2).1 = Ret (SlabPtr (0, 2)) /\
      slab_capacity (slab_exec senv (SPush 77) holes_run.2).2 = slab_capacity holes_run.2)
  /\ (least_room (12 + 13) (slab_capacity (slab_exec senv (SReserve 13) holes_run.2).2) /\
      slab_capacity (slab_exec senv (SReserve 13) holes_run.2).2 = 56)
  /\ (least_room 12 (slab_capacity (slab_exec senv SShrink holes_run.2).2) /\
      slab_capacity (slab_exec senv SShrink holes_run.2).2 = 24)
  /\ slab_capacity (slab_exec senv (SRemove (0, 3)) holes_run.2).2 = slab_capacity holes_run.2
  /\ footprint (a_heap (s_items holes_run.2)) = slab_capacity holes_run.2.
Proof.
  split; [exact (proj1 (C72_with_capacity senv 25 _ (ran_to (slab_begin (T:=N) senv (Some 25)) tt ltac:(by vm_compute))))|].
  split; [by vm_compute|].
  split; [by vm_compute|].
  split.
  { pose proof (C72_push senv _ _ _ _ 77 _ _ holes_reached holes_contract holes_on (surjective_pairing _)) as H.
    replace (slab_free [] holes_ops holes_run.1) with [(0, 2); (0, 5)] in H by (by vm_compute). exact (conj (proj1 H) (proj1 (proj2 H))). }
  split.
  { split; [|by vm_compute].
    pose proof (C72_reserve senv _ _ _ _ 13 SlabUnit _ holes_reached holes_contract holes_on
      (ran_to (slab_exec senv (SReserve 13) holes_run.2) SlabUnit ltac:(by vm_compute)) (or_introl eq_refl)) as (_ & _ & _ & H).
    rewrite holes_peak in H. apply H. by vm_compute. }
  split.
  { split; [|by vm_compute].
    pose proof (C72_shrink senv _ _ _ _ _ _ holes_reached holes_contract holes_on (surjective_pairing _)) as (_ & H & _).
    by rewrite holes_peak in H. }
  split.
  { pose proof (C72_others senv _ _ _ _ (SRemove (0, 3)) _ _ holes_reached holes_contract holes_on
      (mk_is_Some _ 3 ltac:(by vm_compute)) I (surjective_pairing _)) as [H _]. exact H. }
  exact (C72_memory senv _ _ _ _ holes_reached holes_contract holes_on).
Qed.
