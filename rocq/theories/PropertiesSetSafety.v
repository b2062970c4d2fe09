(** * Properties of BSTSet with any comparator: C66-C70 *)

From Coq Require Import String.
From Verif Require Export ProofSetSafety PropertiesSet.
From Verif Require Import SpecSafety.
Local Open Scope N_scope.

(** A program whose comparisons contradict each other: 50 is stored twice. *)
Definition set_mad_ops : list (set_op SK) :=
  [sins 50 0; SetInsert (so (fun _ => Lt)) (50, 1); SetInsert so_mad (20, 0); sins 50 2;
   SetInsert (so_panic 1 (fun _ => Gt)) (90, 0); SetTake (fun i k => Some (if Nat.eqb i 1 then Eq else Gt)); sins 70 0; sins 60 0;
   SetRemove (so (fun x => if x.1 =? 50 then Eq else Lt)); SetExtend (fun _ _ => so_mad) (mkUserIter 0 None [(1, 0); (2, 0)] true)].
Definition set_mad_run := set_run senv set_mad_ops set_new.
Definition set_mad : bstset SK := set_mad_run.2.
Lemma set_mad_reached : set_reached senv SetNew set_mad_ops set_mad_run.1 set_mad.
Proof. exists set_new. split; [done|apply surjective_pairing]. Qed.
Lemma set_mad_alive : alive set_mad_run.1.
Proof. vm_compute. repeat constructor; discriminate. Qed.
Lemma set_mad_reachable : set_reachable senv set_mad.
Proof. exists SetNew, set_mad_ops, set_mad_run.1. split; [exact set_mad_reached|exact set_mad_alive]. Qed.

(** C66. No call and no drop of a set has undefined behaviour; every call ends. *)
Theorem C66_no_undefined_behaviour {T : Type} : forall e (s : set_start T) cs,
  no_ub (set_begin e s).1 /\ (set_begin e s).1 <> Diverge /\
  forall rs m, set_reached e s cs rs m ->
    Forall no_ub rs /\ Forall (fun r => r <> Diverge) rs /\
    no_ub (map_drop e (fun _ => false) m).1 /\ (map_drop e (fun _ => false) m).1 <> Diverge.
Proof. exact set_no_ub. Qed.
Print Assumptions C66_no_undefined_behaviour.

(** A call that panics leaves the set as it was. *)
Theorem C66_panic_changes_nothing {T : Type} : forall e c (m : bstset T) p m', set_reachable e m ->
  set_exec e c m = (Panic p, m') -> match c with SetReserve _ | SetExtend _ _ => False | _ => True end ->
  same_map m m' /\ same_values m m' /\ set_reachable e m'.
Proof. exact set_panic_same. Qed.
Print Assumptions C66_panic_changes_nothing.

Theorem C66_reserve_fails {T : Type} : forall e n (m : bstset T) p m', set_reachable e m ->
  set_exec e (SetReserve n) m = (Panic p, m') ->
  same_values m m' /\ set_capacity m <= set_capacity m' /\ set_reachable e m'.
Proof. exact set_reserve_fails. Qed.
Print Assumptions C66_reserve_fails.

(** An extend that panics keeps the values and has added some of the iterator's. *)
Theorem C66_extend_fails {T : Type} : forall e os it (m : bstset T) p m', set_reachable e m ->
  set_exec e (SetExtend os it) m = (Panic p, m') ->
  (forall d l l', set_yields m d l -> set_yields m' d l' -> exists new, l' ≡ₚ l ++ new /\ new ⊆+ ui_items it) /\
  set_capacity m <= set_capacity m' /\ set_reachable e m'.
Proof. exact set_extend_fails. Qed.
Print Assumptions C66_extend_fails.

Lemma set_yields_of (e : env) (m : bstset SK) d l : set_reachable e m ->
  rmap (fun lp => lp.*2.*1) (iter_collect m d) = Ret l -> set_yields m d l.
Proof.
  intros [_ (t & fl & Hrep)]%set_reachable_rep H. destruct (iter_collect m d) as [lp| | | |] eqn:E; try done.
  injection H as <-. eapply yields_set; [done|]. by exists lp.
Qed.
Lemma set_mad_yields : set_yields set_mad In [(50, 1); (60, 0); (1, 0); (2, 0); (70, 0)].
Proof. apply (set_yields_of senv); [exact set_mad_reachable|]. by vm_compute. Qed.

Example C66_case : set_reached senv SetNew set_mad_ops set_mad_run.1 set_mad /\ set_reachable senv set_mad /\
  set_yields set_mad In [(50, 1); (60, 0); (1, 0); (2, 0); (70, 0)] /\
  (exists m', set_exec senv (SetTake (so_panic 0 (sq 60))) set_mad = (Panic PCmp, m')) /\
  (exists m', set_exec senv (SetReserve (2 ^ 64 - 1)) set_mad = (Panic POverflow, m')) /\
  (exists m', set_exec senv (SetExtend sos (mkUserIter 0 None [(5, 0); (95, 0)] true)) set_mad = (Panic PIter, m')).
Proof.
  split; [exact set_mad_reached|]. split; [exact set_mad_reachable|]. split; [exact set_mad_yields|].
  repeat split; apply runs_to; by vm_compute.
Qed.

(** C67. The values given to a set are stored in it, were dropped, or were handed
    back. *)
Theorem C67_conserved {T : Type} : forall e (s : set_start T) cs rs m, e_nd e = true -> Forall set_no_clone cs ->
  set_reached e s cs rs m -> alive rs ->
  exists G B, set_ledger cs rs G B /\ forall d l, set_yields m d l -> l ++ set_dropped m ++ B ≡ₚ set_start_taken s ++ G.
Proof. exact set_conserved. Qed.
Print Assumptions C67_conserved.

(** Over the whole life of a set each of them is dropped once or handed back. *)
Theorem C67_whole_life {T : Type} : forall e (s : set_start T) cs rs m, e_nd e = true -> Forall set_no_clone cs ->
  set_reached e s cs rs m -> alive rs ->
  exists G B m', set_ledger cs rs G B /\ map_drop e (fun _ => false) m = (Ret tt, m') /\ blocks m' = ∅ /\
    set_dropped m' ++ B ≡ₚ set_start_taken s ++ G.
Proof. exact set_whole_life. Qed.
Print Assumptions C67_whole_life.

(** What a clone produced is in the new set or dropped. *)
Theorem C67_clone {T : Type} : forall e os ck (m : bstset T) l, set_reachable e m -> e_nd e = true -> set_yields m Pre l ->
  match set_clone e os ck m with
  | (Ret _, m') => forall d l', set_yields m' d l' -> l' ++ set_dropped m' ≡ₚ (value_clones ck 0 l).1
  | (Panic p, m') => blocks m' = ∅ /\ exists g, value_clones_made os ck l p g /\ set_dropped m' ≡ₚ g
  | _ => True
  end.
Proof. exact set_clone_ledger. Qed.
Print Assumptions C67_clone.

Theorem C67_collect_panics {T : Type} : forall e os (it : user_iter T) p m, e_nd e = true ->
  set_begin e (SetFromIter os it) = (Panic p, m) ->
  blocks m = ∅ /\ exists n, set_pulled os it p n /\ set_dropped m ≡ₚ take n (ui_items it).
Proof. exact set_collect_fails. Qed.
Print Assumptions C67_collect_panics.

(** A destructor that panics stops the drop of the set; nothing is destroyed twice
    and all memory is freed. *)
Theorem C67_drop_stops {T : Type} : forall e (bad : T -> bool) (m : bstset T) d l,
  set_reachable e m -> e_nd e = true -> set_yields m d l ->
  exists l1 l2 m', l ≡ₚ l1 ++ l2 /\ set_dropped m' ≡ₚ set_dropped m ++ l1 /\ blocks m' = ∅ /\
    let r := map_drop e (fun n => bad (n_key n)) m in
    ((r = (Ret tt, m') /\ values_destroyed bad l1 l2) \/ (r = (Panic PDrop, m') /\ values_stopped bad l1 l2)).
Proof. exact set_drop_stops. Qed.
Print Assumptions C67_drop_stops.

(** It stops [clear] too, but then the next clear or drop destroys values a second
    time, as for maps (C29). *)
Theorem C67_clear_stops {T : Type} : forall e (bad : T -> bool) (m : bstset T) d l,
  set_reachable e m -> e_nd e = true -> set_yields m d l ->
  exists l1 l2 m', l ≡ₚ l1 ++ l2 /\ set_dropped m' ≡ₚ set_dropped m ++ l1 /\
    let r := set_clear e (fun n => bad (n_key n)) m in
    ((r = (Ret tt, m') /\ values_destroyed bad l1 l2) \/
     (r = (Panic PDrop, m') /\ values_stopped bad l1 l2 /\
      (forall pn, (map_drop e pn m').1 = UB UDropped) /\ (forall pn, (set_clear e pn m').1 = UB UDropped))).
Proof. exact set_clear_stops. Qed.
Print Assumptions C67_clear_stops.

(** Dropped: the 50 that was there already, the 90 whose insertion panicked, the
    removed 50. *)
Example C67_case : set_reached senv SetNew set_mad_ops set_mad_run.1 set_mad /\ alive set_mad_run.1 /\
  Forall set_no_clone set_mad_ops /\ set_yields set_mad In [(50, 1); (60, 0); (1, 0); (2, 0); (70, 0)] /\
  set_dropped set_mad ≡ₚ [(50, 2); (90, 0); (50, 0)] /\
  mjoin (zip_with set_handed set_mad_ops set_mad_run.1) = [(20, 0)] /\
  (map_drop senv (fun n => (n_key n).1 =? 70) set_mad).1 = Panic PDrop /\
  (set_clear senv (fun n => (n_key n).1 =? 70) set_mad).1 = Panic PDrop /\
  (set_clone senv sos (fun j k => if Nat.eqb j 3 then None else Some k) set_mad).1 = Panic PClone /\
  length (set_dropped (set_clone senv sos (fun j k => if Nat.eqb j 3 then None else Some k) set_mad).2) = 3%nat.
Proof.
  split; [exact set_mad_reached|]. split; [exact set_mad_alive|]. split; [repeat constructor|].
  split; [exact set_mad_yields|].
  split; [|repeat split; by vm_compute].
  match goal with |- ?a ≡ₚ _ => let b := eval vm_compute in a in change a with b end. solve_Permutation.
Qed.

(** C68. Capacity of sets. *)
Theorem C68_with_capacity {T : Type} : forall e n (m : bstset T), set_begin e (SetWithCapacity n) = (Ret tt, m) ->
  set_len e m = Ret 0 /\ (forall d, set_yields m d []) /\ least_room n (set_capacity m) /\ (n = 0 -> m = set_new).
Proof. exact set_with_capacity_room. Qed.
Print Assumptions C68_with_capacity.

Theorem C68_with_capacity_fails {T : Type} : forall e n p (m : bstset T), set_begin e (SetWithCapacity n) = (Panic p, m) ->
  (p = PCapacity \/ p = PAssert) /\ blocks m = ∅.
Proof. exact set_with_capacity_stops. Qed.
Print Assumptions C68_with_capacity_fails.

Theorem C68_new_allocates_nothing {T : Type} : forall e,
  set_with_capacity (T := T) e 0 = (Ret tt, set_new) /\
  set_capacity (@set_new T) = 0 /\ requests (@set_new T) = 0 /\ blocks (@set_new T) = ∅.
Proof. exact set_new_allocates_nothing. Qed.
Print Assumptions C68_new_allocates_nothing.

Theorem C68_reserve {T : Type} : forall e n (m : bstset T) x m', set_reachable e m ->
  set_exec e (SetReserve n) m = (Ret x, m') -> (e_chk e = true \/ slots m + n < USIZE) ->
  set_count e m + n <= set_capacity m' /\ set_capacity m <= set_capacity m' /\ same_values m m' /\
  (set_capacity m < slots m + n -> least_room (slots m + n) (set_capacity m')).
Proof. exact set_reserve_room. Qed.
Print Assumptions C68_reserve.

Theorem C68_shrink {T : Type} : forall e (m : bstset T) r m', set_reachable e m -> set_exec e SetShrink m = (r, m') ->
  r = Ret SetUnit /\ same_values m m' /\ set_capacity m' <= set_capacity m /\ set_count e m <= set_capacity m' /\
  least_room (slots m) (set_capacity m') /\ requests m' = requests m.
Proof. exact set_shrink_tight. Qed.
Print Assumptions C68_shrink.

(** Below the capacity insertions neither allocate nor fail. *)
Theorem C68_insert_below_capacity {T : Type} : forall e cs (m : bstset T) rs m', set_reachable e m ->
  Forall (fun c => exists o x, c = SetInsert o x) cs ->
  set_count e m + N.of_nat (length cs) <= set_capacity m -> set_run e cs m = (rs, m') ->
  length rs = length cs /\ Forall (fun r => r = Panic PCmp \/ exists b, r = Ret (SetBool b)) rs /\
  requests m' = requests m /\ set_capacity m' = set_capacity m.
Proof. exact set_inserts_room. Qed.
Print Assumptions C68_insert_below_capacity.

Theorem C68_removing_keeps_the_capacity {T : Type} : forall e c (m : bstset T) r m', set_reachable e m ->
  set_exec e c m = (r, m') -> match c with SetRemove _ | SetTake _ | SetClear => True | _ => False end ->
  set_capacity m' = set_capacity m /\ requests m' = requests m.
Proof. exact set_removing_keeps. Qed.
Print Assumptions C68_removing_keeps_the_capacity.

(** Freed slots are used first, and the slots in use are the largest number of
    values since the last clear. *)
Theorem C68_freed_slots_first {T : Type} : forall e o x (m : bstset T) r m', set_reachable e m ->
  set_count e m < slots m -> set_exec e (SetInsert o x) m = (r, m') -> slots m' = slots m /\ requests m' = requests m.
Proof. exact set_reuse. Qed.
Print Assumptions C68_freed_slots_first.

Theorem C68_high_water_mark {T : Type} : forall e (s : set_start T) cs rs m m0,
  set_begin e s = (Ret tt, m0) -> set_run e cs m0 = (rs, m) -> slots m = set_peak e cs m0 (set_count e m0).
Proof. exact set_high_water. Qed.
Print Assumptions C68_high_water_mark.

Theorem C68_geometric_growth {T : Type} : forall e o x (m : bstset T) r m', set_reachable e m ->
  set_exec e (SetInsert o x) m = (r, m') ->
  set_capacity m' = set_capacity m \/
  (set_capacity m' = 2 * set_capacity m + 8 /\ set_count e m = set_capacity m /\ r = Ret (SetBool true)).
Proof. exact set_growth. Qed.
Print Assumptions C68_geometric_growth.

Definition set_eight : list (set_op SK) := (fun n => sins n 0) <$> [5; 3; 8; 1; 4; 7; 9; 2].
Definition set_roomy : bstset SK := (set_run senv_tight [SetReserve 8] set_new).2.
Definition set_full : bstset SK := (set_run senv_tight (SetReserve 8 :: set_eight) set_new).2.
Lemma set_roomy_reachable : set_reachable senv_tight set_roomy.
Proof.
  exists SetNew, [SetReserve 8]. eexists. split; [exists set_new; split; [done|apply surjective_pairing]|].
  vm_compute. repeat constructor; discriminate.
Qed.
Lemma set_full_reachable : set_reachable senv_tight set_full.
Proof.
  exists SetNew, (SetReserve 8 :: set_eight). eexists. split; [exists set_new; split; [done|apply surjective_pairing]|].
  vm_compute. repeat constructor; discriminate.
Qed.
Example C68_case :
  (exists m : bstset SK, set_begin senv (SetWithCapacity 25) = (Ret tt, m) /\ set_capacity m = 56) /\
  (exists m : bstset SK, set_begin senv (SetWithCapacity (2 ^ 62)) = (Panic PCapacity, m)) /\
  set_reachable senv_tight set_roomy /\ set_count senv_tight set_roomy = 0 /\ set_capacity set_roomy = 8 /\
  Forall (fun r => r = Ret (SetBool true)) (set_run senv_tight set_eight set_roomy).1 /\
  set_reachable senv_tight set_full /\
  (set_exec senv_tight (sins 6 0) set_full).1 = Abort /\
  (exists m, set_exec senv (sins 6 0) set_full = (Ret (SetBool true), m) /\ set_capacity m = 24) /\
  set_reachable senv set_mad /\ set_count senv set_mad = 5 /\ slots set_mad = 5 /\ set_peak senv set_mad_ops set_new 0 = 5 /\
  (exists m, set_exec senv (SetReserve 100) set_mad = (Ret SetUnit, m) /\ set_capacity m = 120 /\
     set_capacity (set_exec senv SetShrink m).2 = 8).
Proof.
  split; [apply runs_to_with; by vm_compute|]. split; [apply runs_to; by vm_compute|].
  split; [exact set_roomy_reachable|]. split; [by vm_compute|]. split; [by vm_compute|].
  split; [vm_compute; repeat constructor|]. split; [exact set_full_reachable|]. split; [by vm_compute|].
  split; [apply runs_to_with; by vm_compute|]. split; [exact set_mad_reachable|].
  split; [by vm_compute|]. split; [by vm_compute|]. split; [by vm_compute|].
  apply runs_to_with; [by vm_compute|]. split; by vm_compute.
Qed.

(** C69. With comparisons that answer anything, or panic, every history of a set
    does what the textbook tree does when it gets the same answers. *)
Theorem C69_any_comparator {T : Type} : forall e (s : set_start T) cs rs m, set_reached e s cs rs m ->
  exists t0 t : stree T, ostree_start s t0 /\ steps ostree_step t0 cs rs t /\ set_shows m t /\
    forall d, set_yields m d (stree_order d t).
Proof. exact set_any. Qed.
Print Assumptions C69_any_comparator.

Theorem C69_any_comparator_call {T : Type} : forall e c (m : bstset T) (t : stree T) r m',
  set_reachable e m -> set_shows m t -> set_exec e c m = (r, m') ->
  exists t' : stree T, set_shows m' t' /\ ostree_step t c r t'.
Proof. exact set_any_call. Qed.
Print Assumptions C69_any_comparator_call.

Example C69_case : set_reached senv SetNew set_mad_ops set_mad_run.1 set_mad /\
  set_mad_run.1 = [Ret (SetBool true); Ret (SetBool true); Ret (SetBool true); Ret (SetBool false); Panic PCmp;
    Ret (SetValue (Some (20, 0))); Ret (SetBool true); Ret (SetBool true); Ret (SetBool true); Panic PIter] /\
  exists t, set_shows set_mad t /\ stree_order In t = [(50, 1); (60, 0); (1, 0); (2, 0); (70, 0)].
Proof.
  split; [exact set_mad_reached|]. split; [by vm_compute|].
  destruct (C69_any_comparator _ _ _ _ _ set_mad_reached) as (t0 & t & _ & _ & Ht & Hy). exists t. split; [done|].
  symmetry. eapply set_yields_fun; [exact set_mad_yields|apply Hy].
Qed.

(** C70. The panics of sets have a reason, and debug and release builds of a set do
    the same. *)
Theorem C70_panics_excused {T : Type} : forall e c (m : bstset T) p m', set_reachable e m ->
  set_exec e c m = (Panic p, m') -> set_excused e c m p.
Proof. exact set_panics_excused. Qed.
Print Assumptions C70_panics_excused.

Theorem C70_begin_excused {T : Type} : forall e (s : set_start T) p m, set_begin e s = (Panic p, m) ->
  match p with PCapacity | PAssert | PCmp | PIter => True | _ => False end.
Proof. exact set_begin_excused. Qed.
Print Assumptions C70_begin_excused.

Theorem C70_same_call {T : Type} : forall e c (m : bstset T), set_reachable e m ->
  (match set_requested c with Some n => slots m + n < USIZE | None => True end) ->
  set_exec (release e) c m = set_exec e c m.
Proof. exact set_exec_profiles. Qed.
Print Assumptions C70_same_call.

Theorem C70_same_begin {T : Type} : forall e (s : set_start T), set_begin (release e) s = set_begin e s.
Proof. exact set_begin_profiles. Qed.
Print Assumptions C70_same_begin.

Theorem C70_same_history {T : Type} : forall e (s : set_start T) cs rs m, set_reached e s cs rs m ->
  Forall (fun r => r <> Panic POverflow) rs -> set_reached (release e) s cs rs m.
Proof. exact set_profiles. Qed.
Print Assumptions C70_same_history.

Theorem C70_modest_history {T : Type} : forall e (s : set_start T) cs rs m, Forall set_modest cs ->
  set_reached e s cs rs m -> Forall (fun r => r <> Panic POverflow) rs /\ set_reached (release e) s cs rs m.
Proof. exact set_modest_history. Qed.
Print Assumptions C70_modest_history.

(** The program is modest; an oversized request tells the builds apart. *)
Example C70_case : Forall set_modest set_mad_ops /\ set_reached senv SetNew set_mad_ops set_mad_run.1 set_mad /\
  set_reachable senv set_mad /\
  (set_exec senv (SetReserve (2 ^ 64 - 1)) set_mad).1 = Panic POverflow /\
  (set_exec senv_release (SetReserve (2 ^ 64 - 1)) set_mad).1 = Ret SetUnit.
Proof.
  split; [repeat constructor; by vm_compute|]. split; [exact set_mad_reached|]. split; [exact set_mad_reachable|].
  split; by vm_compute.
Qed.
