(** * Properties of the memory that a history needs: C99 *)

From Verif Require Export ProofBudget Samples.
From Verif Require Import PropertiesMem PropertiesSetSafety.
From Verif Require Import SpecRoom SpecSafety.
Local Open Scope N_scope.

(** The capacity never passes the smallest chunk-aligned one that covers what the
    most demanding call needed. *)
Theorem C99_capacity {K V : Type} : forall e (s : start K V) cs rs m m0,
  begin e s = (Ret tt, m0) -> run e cs m0 = (rs, m) ->
  at_most_least_room (N.max (start_wants e s m0) (most_wanted e cs m0)) (map_capacity m).
Proof. exact history_room. Qed.
Print Assumptions C99_capacity.

Theorem C99_twice {K V : Type} : forall e (s : start K V) cs rs m m0,
  begin e s = (Ret tt, m0) -> run e cs m0 = (rs, m) ->
  let w := N.max (start_wants e s m0) (most_wanted e cs m0) in
  map_capacity m <= 2 * w + 6 /\ (w = 0 -> map_capacity m = 0).
Proof. exact history_twice. Qed.
Print Assumptions C99_twice.

(** The same for the memory itself, while the process runs. *)
Theorem C99_memory {K V : Type} : forall e (s : start K V) cs rs m m0,
  begin e s = (Ret tt, m0) -> run e cs m0 = (rs, m) -> alive rs ->
  footprint (blocks m) <= 2 * N.max (start_wants e s m0) (most_wanted e cs m0) + 6.
Proof. exact history_memory. Qed.
Print Assumptions C99_memory.

(** Without [shrink_to_fit], each chunk was asked for once. *)
Theorem C99_requests {K V : Type} : forall e (s : start K V) cs rs m m0, exact e ->
  begin e s = (Ret tt, m0) -> run e cs m0 = (rs, m) -> Forall (fun c => ~ gives_back c) cs ->
  map_capacity m = chunks_room (requests m).
Proof. exact history_requests. Qed.
Print Assumptions C99_requests.

(** So the number of requests is logarithmic. *)
Theorem C99_few_requests {K V : Type} : forall e (s : start K V) cs rs m m0, exact e ->
  begin e s = (Ret tt, m0) -> run e cs m0 = (rs, m) -> Forall (fun c => ~ gives_back c) cs ->
  4 * 2 ^ requests m <= N.max (start_wants e s m0) (most_wanted e cs m0) + 7.
Proof. exact history_few. Qed.
Print Assumptions C99_few_requests.

(** Histories without [reserve] and [extend]: only the largest number of entries
    counts, whatever was inserted and removed in between. *)
Theorem C99_plain {K V : Type} : forall e cs rs (m : bstmap K V), run e cs map_new = (rs, m) -> Forall plain_call cs ->
  let n := most_held e cs map_new in
  map_capacity m <= 2 * n + 6 /\ (n = 0 -> map_capacity m = 0) /\
  (exact e -> Forall (fun c => ~ gives_back c) cs -> 4 * 2 ^ requests m <= n + 7).
Proof. exact plain_history. Qed.
Print Assumptions C99_plain.

(** Both bounds are reached by nine insertions; [reserve] counts with what it
    names. *)
Example C99_case : exact senv /\ Forall plain_call (eight_ops ++ [ins 90 0 9]) /\
  Forall (fun c => ~ gives_back c) (eight_ops ++ [ins 90 0 9]) /\
  most_held senv (eight_ops ++ [ins 90 0 9]) map_new = 9 /\
  (exists rs m, run senv (eight_ops ++ [ins 90 0 9]) map_new = (rs, m) /\ alive rs /\
     map_capacity m = 2 * 9 + 6 /\ 4 * 2 ^ requests m = 9 + 7) /\
  most_wanted senv (large_ops) map_new = 209 /\ map_capacity (run senv large_ops map_new).2 = 248.
Proof.
  split; [split; [done|]; intros i n c [= <-]; done|]. split; [repeat constructor|].
  split; [repeat (constructor; [discriminate|]); constructor|]. split; [by vm_compute|].
  split; [|by vm_compute].
  exists (run senv (eight_ops ++ [ins 90 0 9]) map_new).1, (run senv (eight_ops ++ [ins 90 0 9]) map_new).2.
  split; [apply surjective_pairing|]. split; [vm_compute; repeat constructor; discriminate|]. by vm_compute.
Qed.

(** With [shrink_to_fit] the requests are not bounded by the entries: the chunk
    is given back and asked for again. *)
Theorem C99_shrink_refuted : exists e cs rs (m : bstmap SK N), exact e /\ Forall plain_call cs /\
  run e cs map_new = (rs, m) /\ most_held e cs map_new = 1 /\ 1 + 7 < 4 * 2 ^ requests m.
Proof.
  pose (cs := [ins 1 0 0; OClear; OShrink; ins 1 0 0] : list (op SK N)).
  exists senv, cs, (run senv cs map_new).1, (run senv cs map_new).2.
  split; [split; [done|]; intros i n c [= <-]; done|]. split; [repeat constructor|].
  split; [apply surjective_pairing|]. by vm_compute.
Qed.
Print Assumptions C99_shrink_refuted.

(** The same for [BSTSet]. *)
Theorem C99_set_capacity {T : Type} : forall e (s : set_start T) cs xs m m0,
  set_begin e s = (Ret tt, m0) -> set_run e cs m0 = (xs, m) ->
  at_most_least_room (N.max (set_start_wants e s m0) (set_most_wanted e cs m0)) (set_capacity m).
Proof. exact set_history_room. Qed.
Print Assumptions C99_set_capacity.

Theorem C99_set_requests {T : Type} : forall e (s : set_start T) cs xs m m0, exact e ->
  set_begin e s = (Ret tt, m0) -> set_run e cs m0 = (xs, m) -> Forall (fun c => c <> SetShrink) cs ->
  set_capacity m = chunks_room (requests m) /\
  4 * 2 ^ requests m <= N.max (set_start_wants e s m0) (set_most_wanted e cs m0) + 7.
Proof. exact set_history_few. Qed.
Print Assumptions C99_set_requests.

Example C99_set_case : Forall (fun c => c <> SetShrink) (set_eight ++ [sins 6 0]) /\
  set_most_wanted senv (set_eight ++ [sins 6 0]) set_new = 9 /\
  exists m xs, set_run senv (set_eight ++ [sins 6 0]) set_new = (xs, m) /\ set_capacity m = 24 /\ requests m = 2.
Proof.
  split; [repeat (constructor; [discriminate|]); constructor|]. split; [by vm_compute|].
  exists (set_run senv (set_eight ++ [sins 6 0]) set_new).2, (set_run senv (set_eight ++ [sins 6 0]) set_new).1.
  split; [apply surjective_pairing|]. by vm_compute.
Qed.
