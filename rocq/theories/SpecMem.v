(** * Vocabulary for capacities *)

From Verif Require Export SpecProfiles.
Local Open Scope N_scope.

(** Memory is requested in chunks of 8, 16, 32, ... entries: the capacity with
    [j] chunks. *)
Definition chunks_room (j : N) : N := 8 * (2 ^ j - 1).

(** [c] is the smallest chunk-aligned capacity that covers [n] entries. *)
Definition least_room (n c : N) : Prop :=
  (exists j, c = chunks_room j) /\ n <= c /\ forall j, n <= chunks_room j -> c <= chunks_room j.

(** The allocator refuses every request for more than [limit] entries. *)
Definition limited (e : env) (limit : N) : Prop :=
  e_size e <> 0 /\ forall i n, limit < n -> e_alloc e i n = None.

(** The iterator keeps the promise of its [size_hint]. *)
Definition honest_hint {A} (it : user_iter A) : Prop :=
  ui_lo it <= N.of_nat (length (ui_items it)) /\
  match ui_hi it with Some n => N.of_nat (length (ui_items it)) <= n | None => True end.
