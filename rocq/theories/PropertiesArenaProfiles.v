(** * Build profiles of the two private containers: C83

    Vocabulary: [SpecArena.v] (histories and contracts), [SpecProfiles.v]
    ([release]).  [senv] is a build with overflow checks and debug assertions. *)

From Verif Require Export ProofArenaProfiles PropertiesArena.
Local Open Scope N_scope.

(** ** C83: the release build does what the debug build does *)

(** The constructors, whatever the capacity asked for. *)
Theorem C83_begin {T : Type} (e : env) : forall n,
  arena_begin (T := T) (release e) n = arena_begin e n /\ slab_begin (T := T) (release e) n = slab_begin e n.
Proof. exact (fun n => conj (arena_begin_profiles e n) (slab_begin_profiles e n)). Qed.
Print Assumptions C83_begin.

(** One more permitted call on an arena: same answer and same arena, as long as
    the size asked of [reserve] does not overflow. *)
Theorem C83_arena_call {T : Type} (e : env) : forall n cs rs (a : arena T) c,
  arena_reached e n cs rs a -> arena_contract [] cs rs -> Forall process_on rs ->
  arena_legal (arena_contents [] cs rs) c ->
  (match c with AReserve k => N.of_nat (length (arena_contents [] cs rs)) + k < 2 ^ 64 | _ => True end) ->
  arena_exec (release e) c a = arena_exec e c a.
Proof. exact (fun n cs rs a c => arena_call_profiles e n cs rs a c). Qed.
Print Assumptions C83_arena_call.

(** Whole histories: where no call stopped at an overflow check, the release build
    gives the same answers and ends in the same arena. *)
Theorem C83_arena_history {T : Type} (e : env) : forall n cs rs (a : arena T),
  arena_reached e n cs rs a -> arena_contract [] cs rs ->
  Forall (fun r => r <> Panic POverflow) rs -> arena_reached (release e) n cs rs a.
Proof. exact (arena_profiles e). Qed.
Print Assumptions C83_arena_history.

(** Destruction, the consuming iterator and the textual form. *)
Theorem C83_arena_ends {T : Type} (e : env) : forall n cs rs (a : arena T) pn,
  arena_reached e n cs rs a -> arena_contract [] cs rs -> Forall process_on rs ->
  Forall (fun x => pn x = false) (arena_contents [] cs rs).*2 ->
  arena_drop (release e) (e_nd e) pn a = arena_drop e (e_nd e) pn a /\
  arena_into_iter (release e) pn a = arena_into_iter e pn a /\
  arena_debug (release e) a = arena_debug e a.
Proof. exact (arena_ends_profiles e). Qed.
Print Assumptions C83_arena_ends.

(** [==], with a comparison of the values that may be stateful and may panic. *)
Theorem C83_arena_eq {T S : Type} (e : env) (eqT : T -> T -> M S bool) : forall n1 n2 cs1 cs2 rs1 rs2 (a1 a2 : arena T) s,
  arena_reached e n1 cs1 rs1 a1 -> arena_contract [] cs1 rs1 -> Forall process_on rs1 ->
  arena_reached e n2 cs2 rs2 a2 -> arena_contract [] cs2 rs2 -> Forall process_on rs2 ->
  arena_eq_with eqT (release e) a1 a2 s = arena_eq_with eqT e a1 a2 s.
Proof. exact (arena_eq_profiles e eqT). Qed.
Print Assumptions C83_arena_eq.

(** The same for the slab. *)
Theorem C83_slab_call {T : Type} (e : env) : forall n cs rs (s : slab T) c,
  slab_reached e n cs rs s -> slab_contract ∅ cs rs -> Forall process_on rs ->
  slab_legal (slab_contents ∅ cs rs) c ->
  (match c with SReserve k => k < 2 ^ 63 | _ => True end) ->
  slab_exec (release e) c s = slab_exec e c s.
Proof. exact (fun n cs rs s c => slab_call_profiles e n cs rs s c). Qed.
Print Assumptions C83_slab_call.

Theorem C83_slab_history {T : Type} (e : env) : forall n cs rs (s : slab T),
  slab_reached e n cs rs s -> slab_contract ∅ cs rs ->
  Forall (fun r => r <> Panic POverflow) rs -> slab_reached (release e) n cs rs s.
Proof. exact (slab_profiles e). Qed.
Print Assumptions C83_slab_history.

Theorem C83_slab_drop {T : Type} (e : env) : forall n cs rs (s : slab T),
  slab_reached e n cs rs s -> slab_contract ∅ cs rs -> Forall process_on rs ->
  slab_drop (release e) (fun _ => false) s = slab_drop e (fun _ => false) s.
Proof. exact (slab_drop_profiles e). Qed.
Print Assumptions C83_slab_drop.

(** The overflow check is the difference: on an arena that holds values,
    [reserve(usize::MAX)] panics in a debug build and returns in a release build. *)
Theorem C83_oversized_request_refuted :
  ~ (forall n cs rs (a : arena N), arena_reached senv n cs rs a -> arena_contract [] cs rs -> arena_reached (release senv) n cs rs a).
Proof.
  intros H. pose (cs := arena_fill 0 3 ++ [AReserve (2 ^ 64 - 1)]).
  destruct (H None cs (arena_run senv cs arena_new).1 (arena_run senv cs arena_new).2) as (a0 & Hb & Hrun).
  { exists arena_new. split; [done|apply surjective_pairing]. }
  { vm_compute. repeat split. }
  cbn [arena_begin] in Hb. injection Hb as <-. apply (f_equal (fun p => last p.1)) in Hrun. vm_compute in Hrun. discriminate Hrun.
Qed.
Print Assumptions C83_oversized_request_refuted.

Definition arena_ops3 : list (arena_op N) := take (length arena_ops1 - 1) arena_ops1.
Definition arena_run3 := arena_run senv arena_ops3 arena_new.
Lemma arena_sample3_reached : arena_reached senv None arena_ops3 arena_run3.1 arena_run3.2.
Proof. exists arena_new. split; [done|]. unfold arena_run3. apply surjective_pairing. Qed.
Lemma arena_sample3_contract : arena_contract [] arena_ops3 arena_run3.1.
Proof. vm_compute. repeat split; repeat constructor. Qed.

Example C83_case :
  arena_reached senv_release None arena_ops3 arena_run3.1 arena_run3.2
  /\ length arena_ops3 = 63%nat
  /\ arena_exec senv_release (AReserve 500) arena_sample = arena_exec senv (AReserve 500) arena_sample
  /\ (arena_exec senv_release (AReserve (2 ^ 64 - 1)) arena_sample).1 = Ret AUnit
  /\ (arena_exec senv (AReserve (2 ^ 64 - 1)) arena_sample).1 = Panic POverflow
  /\ slab_exec senv_release SLen slab_sample_run.2 = slab_exec senv SLen slab_sample_run.2
  /\ slab_reached senv_release None slab_ops slab_sample_run.1 slab_sample_run.2.
Proof.
  split.
  { apply (C83_arena_history senv); [exact arena_sample3_reached|exact arena_sample3_contract|].
    vm_compute. repeat constructor; discriminate. }
  split; [by vm_compute|].
  split.
  { refine (C83_arena_call senv _ _ _ _ (AReserve 500) arena_sample_reached arena_sample_contract arena_sample_on _ _); by vm_compute. }
  split; [by vm_compute|]. split; [by vm_compute|]. split.
  { refine (C83_slab_call senv _ _ _ _ SLen slab_sample_reached slab_sample_contract slab_sample_on _ _); by vm_compute. }
  apply (C83_slab_history senv); [exact slab_sample_reached|exact slab_sample_contract|].
  vm_compute. repeat constructor; discriminate.
Qed.
