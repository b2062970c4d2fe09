(** * References into the arena: C100

    Vocabulary: [ModelBorrow.v] (the rules), [ModelBorrowArena.v] (the program),
    [SpecBorrowArena.v] (what should be seen). *)

From Verif Require Export SpecBorrowArena.
From Verif Require Import Samples ProofArenaRun ProofBorrowRun ProofBorrowArena PropertiesArena.
Local Open Scope N_scope.

(** ** C100. The arena's iterators obey Stacked and Tree Borrows

    While a mutable iterator is alive, or any number of shared ones, the references yielded
    so far may be used in any order: nothing is undefined, the elements come out as they
    should, and a value read is the one last written. *)
Theorem C100_session {T : Type} : forall (R : rules) e n cs rs (a : arena T) b mut evs,
  arena_reached e n cs rs a -> arena_contract [] cs rs -> Forall process_on rs -> ok R b ->
  Forall (event_legal mut (arena_contents [] cs rs)) evs ->
  exists s, ba_session e mut evs (a, b) = (Ret (events_out evs (at_start (arena_contents [] cs rs))), s) /\ ok R s.2 /\
    forall p x, (p, x) ∈ (events_after evs (at_start (arena_contents [] cs rs))).1.1 -> arena_get s.1 p = Ret x.
Proof. exact arena_session. Qed.
Print Assumptions C100_session.

(** Whole programs: calls and such sessions in any order. *)
Theorem C100_programs {T : Type} : forall (R : rules) tagged e n (a : arena T) b cs rs s,
  arena_begin e n = (Ret tt, a) -> ok R b -> ba_run tagged e cs (a, b) = (rs, s) ->
  prog_contract (e_nd e) [] cs rs -> prog_results [] cs rs /\ ok R s.2.
Proof. exact arena_programs. Qed.
Print Assumptions C100_programs.

Theorem C100_programs_end {T : Type} : forall (R : rules) tagged e n (a : arena T) b cs rs s,
  arena_begin e n = (Ret tt, a) -> ok R b -> ba_run tagged e cs (a, b) = (rs, s) ->
  prog_contract (e_nd e) [] cs rs -> Forall process_on rs ->
  forall p x, (p, x) ∈ prog_contents [] cs rs -> arena_get s.1 p = Ret x.
Proof. exact arena_programs_end. Qed.
Print Assumptions C100_programs_end.

(** [clear] is a part of the programs only for elements without a destructor. With one, it
    makes a slice of a whole chunk from a reference to the first element. If raw pointers
    have tags, this is undefined whenever the arena is not empty. *)
Theorem C100_clear {T : Type} : forall e n cs rs (a : arena T) b,
  arena_reached e n cs rs a -> arena_contract [] cs rs -> Forall process_on rs -> ok Stacked b ->
  e_nd e = true -> arena_contents [] cs rs <> [] -> (ba_exec true e BClear (a, b)).1 = UB UAlias.
Proof. exact clear_ub. Qed.
Print Assumptions C100_clear.

Theorem C100_clear_refuted : exists e n cs rs (a : arena N) b,
  arena_reached e n cs rs a /\ arena_contract [] cs rs /\ Forall process_on rs /\ ok Stacked b /\
  arena_legal (arena_contents [] cs rs) (AClear (fun _ => false)) /\ (ba_exec true e BClear (a, b)).1 = UB UAlias.
Proof.
  exists senv, None, arena_ops1, arena_run1.1, arena_sample, (fresh_borrows Stacked).
  split; [exact arena_sample_reached|]. split; [exact arena_sample_contract|]. split; [exact arena_sample_on|]. split; [exact fresh_ok|].
  split; [by apply Forall_forall|].
  apply (C100_clear senv None _ _ _ _ arena_sample_reached arena_sample_contract arena_sample_on fresh_ok eq_refl). by vm_compute.
Qed.
Print Assumptions C100_clear_refuted.

Definition mut_events1 : list (ref_event N) :=
  [RNext 0 AtFront; RNext 0 AtBack; RNext 0 AtFront; RWrite 1 91; RWrite 0 90; RRead 1; RNext 0 AtBack; RRead 0;
   RWrite 2 92; RRead 3; RWrite 1 93; RRead 1; RRead 2; RNext 1 AtFront; RRead 9].
Definition shr_events1 : list (ref_event N) :=
  [RNext 0 AtBack; RIter; RNext 1 AtBack; RNext 0 AtFront; RGet (1, 2); RRead 0; RRead 1; RRead 3; RRead 2; RNext 1 AtFront; RRead 4].
Definition prog1 : list (ref_op N) :=
  (BAlloc <$> [10; 11; 12; 13; 14; 15; 16; 17; 18; 19; 20]) ++
  [BIterMut mut_events1; BGet (1, 2); BSet (1, 1) 55; BIters shr_events1; BLen; BIterMut mut_events1].
Definition plain_env : env := Env (e_chk senv) (e_size senv) false (e_alloc senv).
Definition prog_run1 (R : rules) := ba_run true plain_env prog1 (arena_new, fresh_borrows R).

Lemma prog_ran1 R : ba_run true plain_env prog1 (arena_new, fresh_borrows R) = ((prog_run1 R).1, (prog_run1 R).2).
Proof. unfold prog_run1. generalize (ba_run true plain_env prog1 (arena_new, fresh_borrows R)). by intros []. Qed.
Lemma prog_contract1 R : prog_contract (e_nd plain_env) [] prog1 (prog_run1 R).1.
Proof.
  destruct R; vm_compute; repeat split; repeat (constructor; try (repeat split; apply (bool_decide_unpack _); vm_compute; exact I)).
Qed.

Example C100_case (R : rules) :
  ok R (fresh_borrows R) /\ prog_results [] prog1 (prog_run1 R).1 /\
  (prog_run1 R).1 !! 11%nat = Some (Ret (OSession
    [OItem (Some (0, 0)); OItem (Some (1, 2)); OItem (Some (0, 1)); OMade; OMade; OValue (Some 91); OItem (Some (1, 1));
     OValue (Some 90); OMade; OValue (Some 19); OMade; OValue (Some 93); OValue (Some 92); OItem None; OValue None])) /\
  (prog_run1 R).1 !! 14%nat = Some (Ret (OSession
    [OItem (Some (1, 2)); OMade; OItem (Some (1, 2)); OItem (Some (0, 0)); OItem (Some (1, 2)); OValue (Some 93);
     OValue (Some 93); OValue (Some 93); OValue (Some 90); OItem (Some (0, 0)); OValue (Some 90)])).
Proof.
  split; [exact fresh_ok|]. split.
  - pose proof (C100_programs R true plain_env None arena_new (fresh_borrows R) prog1 (prog_run1 R).1 (prog_run1 R).2 eq_refl fresh_ok
      (prog_ran1 R) (prog_contract1 R)) as H. exact (proj1 H).
  - destruct R; by vm_compute.
Qed.

(** The rules do say something: two [&mut] of one element cannot both be written through. *)
Example C100_twice_case (R : rules) :
  ((let! n := retag_mut base [litem (0, 0)] in
    let! n' := retag_mut base [litem (0, 0)] in
    let! _ := access true n' (litem (0, 0)) in
    access true n (litem (0, 0))) (fresh_borrows R)).1 = UB UAlias.
Proof. destruct R; by vm_compute. Qed.
