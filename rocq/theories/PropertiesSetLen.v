(** * Properties of [StableArena::set_len]: C93

    Vocabulary: [SpecSetLen.v]. *)

From Verif Require Export ProofSetLen Samples PropertiesArena.
Local Open Scope N_scope.

(** 12 values; the arena is cut to 5 and two slots are written over (no memory is
    needed); then it is extended again to the 12 slots that hold a value; stores into
    elements and into slots past the end; a growth past the old slots. *)
Definition len_ops1 : list (len_op N) :=
  (LCall <$> arena_fill 100 12) ++
  [LSetLen 5; LCall ALen; LCall (AAlloc 77); LCall (AAlloc 78); LCall (AGet (1, 2));
   LCall (ASet (1, 3) 9); LCall (AIter [AtBack; AtFront]); LSetLen 12;
   LCall (AIterMut [(AtBack, Some 50); (AtBack, None); (AtFront, Some 51)]); LCall (AAlloc 79);
   LSetLen 3; LCall ALen; LCall AIsEmpty].
Definition len_run1 := len_run senv len_ops1 arena_new.

Lemma len_sample_reached : len_reached senv None len_ops1 len_run1.1 len_run1.2.
Proof. exists arena_new. split; [done|]. unfold len_run1. apply surjective_pairing. Qed.
Lemma len_sample_contract : len_contract ([], 0%nat) len_ops1 len_run1.1.
Proof. vm_compute. repeat split; repeat constructor; discriminate. Qed.
Lemma len_sample_on : Forall process_on len_run1.1.
Proof. vm_compute. repeat constructor. Qed.

(** ** C93: cutting and restoring the length *)

(** Every call of every history that respects the contract, with any number of
    [set_len]s, gets a result allowed by the specification (in particular, nothing is
    undefined behaviour). *)
Theorem C93_history {T : Type} (e : env) : forall n cs rs (a : arena T),
  len_reached e n cs rs a -> len_contract ([], 0%nat) cs rs -> len_results ([], 0%nat) cs rs.
Proof. exact (len_history e). Qed.
Print Assumptions C93_history.

(** At the end every slot that holds a value can be read, also past the length... *)
Theorem C93_readable {T : Type} (e : env) : forall n cs rs (a : arena T) p x,
  len_reached e n cs rs a -> len_contract ([], 0%nat) cs rs -> Forall process_on rs ->
  (p, x) ∈ (len_filled ([], 0%nat) cs rs).1 -> arena_get a p = Ret x.
Proof. exact (len_reads e). Qed.
Print Assumptions C93_readable.

(** ... and their addresses are distinct. *)
Theorem C93_distinct {T : Type} (e : env) : forall n cs rs (a : arena T),
  len_reached e n cs rs a -> len_contract ([], 0%nat) cs rs -> Forall process_on rs ->
  NoDup (len_filled ([], 0%nat) cs rs).1.*1 /\
  ((len_filled ([], 0%nat) cs rs).2 <= length (len_filled ([], 0%nat) cs rs).1)%nat.
Proof. exact (len_addresses e). Qed.
Print Assumptions C93_distinct.

(** The destructor of the arena frees all chunks and destroys the elements, not the
    values past the length: those are leaked, as is a value that [alloc] wrote over. *)
Theorem C93_drop {T : Type} (e : env) : forall n cs rs (a : arena T) pn,
  len_reached e n cs rs a -> len_contract ([], 0%nat) cs rs -> Forall process_on rs ->
  Forall (fun x => pn x = false) (live_elements (len_filled ([], 0%nat) cs rs)).*2 ->
  exists a', arena_drop e (e_nd e) pn a = (Ret tt, a') /\ a_heap a' = ∅ /\
    a_drops a' = len_dropped (e_nd e) ([], 0%nat) cs rs ++
      (if e_nd e then (live_elements (len_filled ([], 0%nat) cs rs)).*2 else []).
Proof. exact (len_history_drop e). Qed.
Print Assumptions C93_drop.

(** The contract is needed: after any history without [set_len], setting the length to
    more than the number of elements makes iterating undefined behaviour, even within
    the capacity. *)
Theorem C93_contract_needed {T : Type} (e : env) : forall n cs rs (a : arena T) k,
  arena_reached e n cs rs a -> arena_contract [] cs rs -> Forall process_on rs ->
  N.of_nat (length (arena_contents [] cs rs)) < k <= arena_capacity a ->
  (len_run e [LSetLen k; LCall (AIter (repeat AtFront (S (length (arena_contents [] cs rs)))))] a).1
  = [Ret AUnit; UB UUninit].
Proof. exact (set_len_past e). Qed.
Print Assumptions C93_contract_needed.

Example C93_case :
  len_results ([], 0%nat) len_ops1 len_run1.1
  /\ drop 12 len_run1.1 =
       [Ret AUnit; Ret (ANum 5); Ret (APtr (0, 5)); Ret (APtr (0, 6)); Ret (AValue 110); Ret AUnit;
        Ret (AItems [(7, Some ((0, 6), 78)); (6, Some ((0, 0), 100))]); Ret AUnit;
        Ret (AItems [(12, Some ((1, 3), 9)); (11, Some ((1, 2), 110)); (10, Some ((0, 0), 100))]); Ret (APtr (1, 4));
        Ret AUnit; Ret (ANum 3); Ret (ABool false)]
  /\ (len_filled ([], 0%nat) len_ops1 len_run1.1).1.*2 = [51; 101; 102; 103; 104; 77; 78; 107; 108; 109; 110; 50; 79]
  /\ live_elements (len_filled ([], 0%nat) len_ops1 len_run1.1) = [((0, 0), 51); ((0, 1), 101); ((0, 2), 102)]
  /\ arena_get len_run1.2 (1, 4) = Ret 79
  /\ exists a', arena_drop senv true (fun _ => false) len_run1.2 = (Ret tt, a') /\ a_heap a' = ∅ /\ a_drops a' = [51; 101; 102].
Proof.
  split; [exact (C93_history senv _ _ _ _ len_sample_reached len_sample_contract)|].
  split; [by vm_compute|]. split; [by vm_compute|]. split; [by vm_compute|]. split.
  - apply (C93_readable senv _ _ _ _ _ _ len_sample_reached len_sample_contract len_sample_on).
    apply (bool_decide_unpack _). vm_compute. exact I.
  - destruct (C93_drop senv _ _ _ _ (fun _ => false) len_sample_reached len_sample_contract len_sample_on) as (a' & H1 & H2 & H3).
    { vm_compute. repeat constructor. }
    exists a'. split; [exact H1|]. split; [exact H2|]. rewrite H3. by vm_compute.
Qed.

(** The contract ruled out: within the capacity but past the elements; past the
    capacity, where a debug build stops at an assertion and a release build goes on to
    undefined behaviour. *)
Example C93_contract_case :
  (len_run senv [LSetLen 15; LCall (AIter (repeat AtFront 15))] (arena_run senv (arena_fill 10 14) arena_new).2).1
    = [Ret AUnit; UB UUninit]
  /\ (len_run senv [LCall (AAlloc 5); LSetLen 20; LCall (AAlloc 6)] arena_new).1 = [Ret (APtr (0, 0)); Ret AUnit; Panic PDebugAssert]
  /\ (len_run senv_release [LCall (AAlloc 5); LSetLen 20; LCall (AAlloc 6)] arena_new).1 = [Ret (APtr (0, 0)); Ret AUnit; UB UOutOfBounds].
Proof.
  split; [|split; by vm_compute].
  pose proof (C93_contract_needed senv None (arena_fill 10 14) (arena_run senv (arena_fill 10 14) arena_new).1
    (arena_run senv (arena_fill 10 14) arena_new).2 15) as H.
  assert (Hl : length (arena_contents [] (arena_fill 10 14) (arena_run senv (arena_fill 10 14) arena_new).1) = 14%nat) by by vm_compute.
  rewrite Hl in H. apply H.
  - exists arena_new. split; [done|apply surjective_pairing].
  - vm_compute. repeat split.
  - vm_compute. repeat constructor.
  - vm_compute. split; [done|discriminate].
Qed.
