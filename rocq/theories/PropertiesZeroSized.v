(** * Arenas of zero-sized values: C97

    Vocabulary: [SpecArena.v] and [SpecAlloc.v]. [e_size e] is the size of an element. *)

From Verif Require Export ProofZeroSized PropertiesArena.
Local Open Scope N_scope.

(** C97. The claim would be that an arena can hold values of any type if the allocator does
    not fail. It is false for types of size zero: the vector behind a chunk then has the
    capacity [usize::MAX], which the assertion in [push_chunk] does not accept. *)
Theorem C97_refuted : exists e (x : unit), (forall i n, e_alloc e i n = Some n) /\
  (arena_exec e (AAlloc x) arena_new).1 = Panic PAssert.
Proof. exists (Env true 0 false (fun _ n => Some n)), tt. split; [done|by vm_compute]. Qed.
Print Assumptions C97_refuted.

(** No arena of such values ever holds one, and every attempt to get room panics. *)
Theorem C97_zero_sized {T : Type} : forall e n cs rs (a : arena T), e_size e = 0 -> arena_reached e n cs rs a ->
  arena_len a = 0 /\ arena_capacity a = 0 /\
  (forall x, (arena_exec e (AAlloc x) a).1 = Panic PAssert) /\
  (forall k, 0 < k < 2 ^ 64 -> (arena_exec e (AReserve k) a).1 = Panic PAssert).
Proof. exact zero_sized. Qed.
Print Assumptions C97_zero_sized.

Theorem C97_zero_sized_creation {T : Type} : forall e n, e_size e = 0 -> 0 < n ->
  (arena_begin (T:=T) e (Some n)).1 = Panic PAssert.
Proof. exact zero_sized_creation. Qed.
Print Assumptions C97_zero_sized_creation.

(** For all other types the claim holds: [granted] means that the element size is not zero,
    that the next chunk has at most [isize::MAX] bytes, and that the allocator gives it. *)
Theorem C97_other_sizes_partial {T : Type} : forall e n cs rs (a : arena T) x,
  arena_reached e n cs rs a -> arena_contract [] cs rs -> Forall process_on rs ->
  granted e (a_next a) (arena_capacity a + 8) -> exists p, (arena_exec e (AAlloc x) a).1 = Ret (APtr p).
Proof. exact other_sizes. Qed.
Print Assumptions C97_other_sizes_partial.

(** The calls that ask for no room work on an arena of zero-sized values. *)
Definition zero_env : env := Env true 0 false (fun _ n => Some n).
Example C97_case : e_size zero_env = 0 /\
  (arena_run zero_env [AAlloc tt; AReserve 0; AReserve 3; AShrink; AIter [AtFront]; ALen] arena_new).1 =
    [Panic PAssert; Ret AUnit; Panic PAssert; Ret AUnit; Ret (AItems [(0, None)]); Ret (ANum 0)] /\
  granted senv (a_next arena_sample) (arena_capacity arena_sample + 8) /\
  (exists p, (arena_exec senv (AAlloc 5) arena_sample).1 = Ret (APtr p)).
Proof.
  assert (granted senv (a_next arena_sample) (arena_capacity arena_sample + 8)) as H.
  { split_and!; [done|by vm_compute|by vm_compute]. }
  split; [done|]. split; [by vm_compute|]. split; [done|].
  exact (C97_other_sizes_partial _ _ _ _ _ 5 arena_sample_reached arena_sample_contract arena_sample_on H).
Qed.
