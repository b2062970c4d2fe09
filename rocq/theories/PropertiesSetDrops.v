(** * Properties of SimpleBSTSet with any comparator and of sets whose destructors panic:
      C76 to C79

    [bad x] says that the destructor of the value [x] panics. All of this, but for the
    theorems about sorting, holds for every comparator behaviour. *)

From Coq Require Import String.
From Verif Require Export ProofSetDrops PropertiesSimpleSet.
Local Open Scope nat_scope.

(** C76. Whatever the comparator answers, a SimpleBSTSet is a tree of values without
    memory. *)
Theorem C76_any_comparator {T : Type} : forall e (s : set_start T) cs xs m,
  sset_has_start s = true -> Forall (fun c => sset_has c = true) cs -> sset_reached e s cs xs m ->
  exists t0 t : stree T, ostree_start s t0 /\ steps sstree_step t0 cs xs t /\
    (alive xs -> sset_shows m t /\ forall d, sset_yields m d (stree_order d t)).
Proof. exact sset_any. Qed.
Print Assumptions C76_any_comparator.

Theorem C76_any_comparator_call {T : Type} : forall e c (m : sset T) (t : stree T) x m',
  sset_reachable e m -> sset_shows m t -> sset_has c = true -> sset_exec e c m = (x, m') ->
  (x = Abort /\ set_allocates c = true) \/ exists t' : stree T, sset_shows m' t' /\ sstree_call c t = Some (x, t').
Proof. exact sset_any_call. Qed.
Print Assumptions C76_any_comparator_call.

(** C77. What SimpleBSTSet destroys. [log] is what was destroyed before a call and
    [log'] after it. *)
Theorem C77_call {T : Type} : forall e bad (s : set_start T) cs xs log m l bad' c x log' m',
  sset_calls s cs -> wset_reached e bad s cs xs log m -> alive xs ->
  sset_has c = true -> sset_yields m Pre l -> wset_exec bad' e c (log, m) = (x, (log', m')) -> x <> Abort ->
  exists c' x' g, set_as_if set_cut_of c x c' x' /\ sset_exec e c' m = (x', m') /\ set_took l c' x' g /\
    forall d l', sset_yields m' d l' -> l' ++ just_values log' ++ set_handed c x ≡ₚ l ++ just_values log ++ g.
Proof. exact wset_call. Qed.
Print Assumptions C77_call.

Theorem C77_conserved {T : Type} : forall e bad (s : set_start T) cs xs log m, sset_calls s cs -> Forall set_no_clone cs.*2 ->
  wset_reached e bad s cs xs log m -> alive xs ->
  exists cs' xs' G B, set_all_as_if set_cut_of cs xs cs' xs' /\ set_ledger cs' xs' G B /\
    forall d l, sset_yields m d l -> l ++ just_values log ++ set_all_back cs xs ≡ₚ set_start_taken s ++ G.
Proof. exact wset_conserved. Qed.
Print Assumptions C77_conserved.

Theorem C77_whole_life {T : Type} : forall e bad (s : set_start T) cs xs log m bad' r log' m',
  sset_calls s cs -> Forall set_no_clone cs.*2 ->
  wset_reached e bad s cs xs log m -> alive xs -> wset_drop bad' (log, m) = (r, (log', m')) -> r <> Abort ->
  s_mem m' = ∅ /\ exists cs' xs' G B, set_all_as_if set_cut_of cs xs cs' xs' /\ set_ledger cs' xs' G B /\
    just_values log' ++ set_all_back cs xs ≡ₚ set_start_taken s ++ G.
Proof. exact wset_whole_life. Qed.
Print Assumptions C77_whole_life.

Theorem C77_collect {T : Type} : forall bad e os (it : user_iter T) p log m,
  wset_begin bad e (SetFromIter os it) = (Panic p, (log, m)) ->
  s_mem m = ∅ /\ exists n, just_values log ≡ₚ take n (ui_items it) /\
    set_bads bad (just_values log) = (match p with PDrop => 1 | _ => 0 end) /\
    (p <> PDrop -> set_pulled os it p n /\ (sset_begin e (SetFromIter os it)).1 = Panic p).
Proof. exact wset_collect. Qed.
Print Assumptions C77_collect.

(** C78. Destructors of SimpleBSTSet that panic: the history is as some ordinary one. *)
Theorem C78_as_if {T : Type} : forall e bad (s : set_start T) cs xs log m,
  sset_calls s cs -> wset_reached e bad s cs xs log m -> alive xs ->
  exists cs' xs', sset_reached e s cs' xs' m /\ alive xs' /\ set_all_as_if set_cut_of cs xs cs' xs' /\
    Forall (fun c => sset_has c = true) cs' /\ forall cmp, Forall (set_legal cmp) cs.*2 -> Forall (set_legal cmp) cs'.
Proof. exact wset_as_if. Qed.
Print Assumptions C78_as_if.

(** No undefined behaviour, and every call ends. *)
Theorem C78_safe {T : Type} : forall bad e (s : set_start T) cs, sset_calls s cs ->
  defined (wset_begin bad e s).1 /\
  forall xs log m, wset_reached e bad s cs xs log m -> Forall defined xs /\
    (alive xs -> forall bad', defined (wset_drop bad' (log, m)).1).
Proof. exact wset_safe. Qed.
Print Assumptions C78_safe.

Theorem C78_sorted {T : Type} : forall (cmp : T -> T -> comparison), lawful cmp -> forall e bad (s : set_start T) cs xs log m l,
  sset_calls s cs -> set_legal_start cmp s -> Forall (set_legal cmp) cs.*2 -> wset_reached e bad s cs xs log m -> alive xs ->
  sset_yields m In l -> set_sorted cmp l.
Proof. exact wset_sorted. Qed.
Print Assumptions C78_sorted.

(** [clear] and the destructor destroy the values in pre-order; two panics abort. *)
Theorem C78_clear {T : Type} : forall e bad (s : set_start T) cs xs log m l bad' x log' m',
  sset_calls s cs -> wset_reached e bad s cs xs log m -> alive xs ->
  sset_yields m Pre l -> wset_exec bad' e SetClear (log, m) = (x, (log', m')) ->
  (x = match set_bads bad' l with 0 => Ret SetUnit | 1 => Panic PDrop | _ => Abort end) /\
  (x <> Abort -> just_values log' = just_values log ++ l /\ s_mem m' = ∅ /\ sset_len m' = 0%N).
Proof. exact wset_clear_exact. Qed.
Print Assumptions C78_clear.

Theorem C78_drop {T : Type} : forall e bad (s : set_start T) cs xs log m l bad' r log' m',
  sset_calls s cs -> wset_reached e bad s cs xs log m -> alive xs ->
  sset_yields m Pre l -> wset_drop bad' (log, m) = (r, (log', m')) ->
  (r = match set_bads bad' l with 0 => Ret tt | 1 => Panic PDrop | _ => Abort end) /\
  (r <> Abort -> just_values log' = just_values log ++ l /\ s_mem m' = ∅).
Proof. exact wset_drop_exact. Qed.
Print Assumptions C78_drop.

(** What exactly [insert], [remove] and [clone] do. *)
Theorem C78_insert {T : Type} : forall e bad o (x : T) log m r0 m0 r log' m',
  sset_exec e (SetInsert o x) m = (r0, m0) -> wset_exec bad e (SetInsert o x) (log, m) = (r, (log', m')) ->
  match r0 with
  | Ret (SetBool false) => r = (if bad x then Panic PDrop else r0) /\ m' = m0 /\ just_values log' = just_values log ++ [x]
  | Panic _ => if bad x then r = Abort else r = r0 /\ m' = m0 /\ just_values log' = just_values log ++ [x]
  | _ => r = r0 /\ m' = m0 /\ log' = log
  end.
Proof. exact wset_insert_ends. Qed.
Print Assumptions C78_insert.

Theorem C78_remove {T : Type} : forall e (bad : T -> bool) o log m r0 m0 r log' m',
  sset_exec e (SetRemove o) m = (r0, m0) -> wset_exec bad e (SetRemove o) (log, m) = (r, (log', m')) ->
  match r0 with
  | Ret (SetBool true) => exists x, sset_exec e (SetTake o) m = (Ret (SetValue (Some x)), m0) /\
      r = (if bad x then Panic PDrop else r0) /\ m' = m0 /\ log' = log ++ [inl x]
  | _ => r = r0 /\ m' = m0 /\ log' = log
  end.
Proof. exact wset_remove_ends. Qed.
Print Assumptions C78_remove.

Theorem C78_clone {T : Type} : forall e bad (s : set_start T) cs xs log m l bad' os ck r0 m0 r log' m',
  sset_calls s cs -> wset_reached e bad s cs xs log m -> alive xs ->
  sset_yields m Pre l -> sset_exec e (SetClone os ck) m = (r0, m0) ->
  wset_exec bad' e (SetClone os ck) (log, m) = (r, (log', m')) ->
  match r0 with
  | Ret _ => r = match set_bads bad' l with 0 => r0 | 1 => Panic PDrop | _ => Abort end /\
      (r <> Abort -> m' = m0 /\ just_values log' = just_values log ++ l)
  | Panic _ => if Nat.eqb (set_bads bad' (value_clones ck 0 l).1) 0
      then r = r0 /\ m' = m0 /\ just_values log' ≡ₚ just_values log ++ (value_clones ck 0 l).1
      else r = Abort
  | _ => r = r0
  end.
Proof. exact wset_clone_ends. Qed.
Print Assumptions C78_clone.

(** A call that does not abort runs at most one destructor that panics, and passes
    that panic on. *)
Theorem C78_panics {T : Type} : forall e bad (s : set_start T) cs xs log m bad' c x log' m',
  sset_calls s cs -> wset_reached e bad s cs xs log m -> alive xs ->
  sset_has c = true -> wset_exec bad' e c (log, m) = (x, (log', m')) -> x <> Abort ->
  exists d, log' = log ++ d /\ set_bads bad' (just_values d) = drop_panics x.
Proof. exact wset_panics. Qed.
Print Assumptions C78_panics.

(** If no destructor panics, these programs are those of the other properties. *)
Theorem C78_quiet {T : Type} : forall e bad (s : set_start T) cs xs m,
  (forall y, bad y = false) -> (forall x y, x ∈ cs -> x.1 y = false) -> sset_calls s cs ->
  (exists log, wset_reached e bad s cs xs log m) <-> sset_reached e s cs.*2 xs m.
Proof. exact wset_quiet. Qed.
Print Assumptions C78_quiet.

(** C79. Destructors of BSTSet that panic outside [clear]. *)
Theorem C79_as_if {T : Type} : forall e bad (s : set_start T) cs xs m,
  dset_reached e bad s cs xs m -> Forall set_quiet_clear cs -> alive xs ->
  exists cs' xs' m', set_reached e s cs' xs' m' /\ alive xs' /\ alike m m' /\ set_all_as_if set_part_of cs xs cs' xs' /\
    forall cmp, Forall (set_legal cmp) cs.*2 -> Forall (set_legal cmp) cs'.
Proof. exact dset_as_if. Qed.
Print Assumptions C79_as_if.

(** Sets that are alike behave alike. *)
Theorem C79_alike {T : Type} : forall e cs (m m' : bstset T) xs m1', set_reachable e m' -> alike m m' ->
  set_run e cs m' = (xs, m1') -> exists m1, set_run e cs m = (xs, m1) /\ alike m1 m1'.
Proof. exact dset_alike. Qed.
Print Assumptions C79_alike.

Theorem C79_safe {T : Type} : forall bad e (s : set_start T) cs, Forall set_quiet_clear cs ->
  defined (dset_begin bad e s).1 /\
  forall xs m, dset_reached e bad s cs xs m -> Forall defined xs /\
    (alive xs -> forall bad', defined (map_drop e (bad_node (bad_item bad')) m).1).
Proof. exact dset_safe. Qed.
Print Assumptions C79_safe.

Theorem C79_sorted {T : Type} : forall (cmp : T -> T -> comparison), lawful cmp -> forall e bad (s : set_start T) cs xs m l,
  set_legal_start cmp s -> Forall (set_legal cmp) cs.*2 -> dset_reached e bad s cs xs m -> Forall set_quiet_clear cs -> alive xs ->
  set_yields m In l -> set_sorted cmp l.
Proof. exact dset_sorted. Qed.
Print Assumptions C79_sorted.

(** No value is destroyed twice and none is lost. *)
Theorem C79_conserved {T : Type} : forall e bad (s : set_start T) cs xs m, e_nd e = true -> Forall set_no_clone cs.*2 ->
  Forall set_quiet_clear cs -> dset_reached e bad s cs xs m -> alive xs ->
  exists cs' xs' G B, set_all_as_if set_part_of cs xs cs' xs' /\ set_ledger cs' xs' G B /\
    forall d l, set_yields m d l -> l ++ set_dropped m ++ set_all_back cs xs ≡ₚ set_start_taken s ++ G.
Proof. exact dset_conserved. Qed.
Print Assumptions C79_conserved.

(** A call ends with the first panic of a destructor. *)
Theorem C79_first_panic {T : Type} : forall e bad (s : set_start T) cs xs m bad' c x m',
  dset_reached e bad s cs xs m -> Forall set_quiet_clear cs -> alive xs ->
  set_no_clone c -> c <> SetClear -> dset_exec bad' e c m = (x, m') -> x <> Abort ->
  exists l, just_values (m_drops m') = just_values (m_drops m) ++ l /\ set_stops_at_first bad' x l.
Proof. exact dset_felt. Qed.
Print Assumptions C79_first_panic.

(** What exactly [insert] and [remove] do. *)
Theorem C79_insert {T : Type} : forall e bad o (x : T) m r0 m0 r m',
  set_exec e (SetInsert o x) m = (r0, m0) -> dset_exec bad e (SetInsert o x) m = (r, m') ->
  match r0 with
  | Ret (SetBool false) => r = (if bad x then Panic PDrop else r0) /\ alike m' m0 /\ set_dropped m' = set_dropped m0
  | Panic _ => if bad x then r = Abort else r = r0 /\ m' = m0
  | _ => r = r0 /\ m' = m0
  end.
Proof. exact dset_insert_ends. Qed.
Print Assumptions C79_insert.

Theorem C79_remove {T : Type} : forall e (bad : T -> bool) o m r0 m0 r m',
  set_exec e (SetRemove o) m = (r0, m0) -> dset_exec bad e (SetRemove o) m = (r, m') ->
  match r0 with
  | Ret (SetBool true) => exists x m1, set_exec e (SetTake o) m = (Ret (SetValue (Some x)), m1) /\
      r = (if bad x then Panic PDrop else r0) /\ m' = m0
  | _ => r = r0 /\ m' = m0
  end.
Proof. exact dset_remove_ends. Qed.
Print Assumptions C79_remove.

(** The clone is in place, even if a destructor of the old set panicked. *)
Theorem C79_clone {T : Type} : forall e bad (s : set_start T) cs xs m bad' os ck r0 m0 r m' d l,
  dset_reached e bad s cs xs m -> Forall set_quiet_clear cs -> alive xs -> set_yields m d l ->
  set_exec e (SetClone os ck) m = (r0, m0) -> dset_exec bad' e (SetClone os ck) m = (r, m') ->
  match r0 with
  | Ret _ => Forall (fun y => bad' y = false) (set_dropped m0) ->
      m' = m0 /\ r = if e_nd e && existsb bad' l then Panic PDrop else r0
  | Panic _ => r <> Abort -> m' = m
  | _ => True
  end.
Proof. exact dset_clone_ends. Qed.
Print Assumptions C79_clone.

Theorem C79_collect {T : Type} : forall e bad os (it : user_iter T) r m,
  dset_begin bad e (SetFromIter os it) = (r, m) -> r <> Abort ->
  match set_begin e (SetFromIter os it) with
  | (Ret _, m0) => Forall (fun y => bad y = false) (set_dropped m0) -> r = Ret tt /\ m = m0
  | _ => True
  end /\
  (set_begin e (SetFromIter os it) = (r, m) \/
   r = Panic PDrop /\ blocks m = ∅ /\ exists n,
     (e_nd e = true -> set_dropped m ≡ₚ take n (ui_items it)) /\ exists x, x ∈ set_dropped m /\ bad x = true).
Proof. exact dset_collect. Qed.
Print Assumptions C79_collect.

Theorem C79_quiet {T : Type} : forall e bad (s : set_start T) cs xs m,
  (forall y, bad y = false) -> (forall x y, x ∈ cs -> x.1 y = false) ->
  dset_reached e bad s cs xs m <-> set_reached e s cs.*2 xs m.
Proof. exact dset_quiet. Qed.
Print Assumptions C79_quiet.

(** ** Examples *)

(** The comparator is inconsistent ([wild_set_ops]). *)
Example C76_case : sset_has_start (T := SK) SetNew = true /\ Forall (fun c => sset_has c = true) wild_set_ops /\
  sset_reached sset_env SetNew wild_set_ops (sset_run sset_env wild_set_ops sset_new).1 (sset_run sset_env wild_set_ops sset_new).2 /\
  alive (sset_run sset_env wild_set_ops sset_new).1.
Proof.
  split; [done|]. split; [repeat constructor|]. split; [exists sset_new; split; [done|apply surjective_pairing]|].
  vm_compute. repeat constructor; discriminate.
Qed.

(** A clone keeps the shape of the tree. *)
Example C76_call_case :
  let t : stree SK := (snode (snode sleaf (3, 0) sleaf) (5, 0) (snode sleaf (8, 0) sleaf))%N in
  let t' : stree SK := (snode (snode sleaf (3, 1) sleaf) (5, 0) (snode sleaf (8, 2) sleaf))%N in
  let ck := fun (j : nat) (k : SK) => Some (k.1, N.of_nat j) in
  let debug := fun t : stree SK => Ret (SetDebugged (DStruct "SimpleBSTSet" [("root", stree_debug t)]))%string in
  let m := (sset_run sset_env [sset_ins 5 0; sset_ins 8 0; sset_ins 3 0] sset_new).2 in
  (sset_exec sset_env SetDebug m).1 = debug t /\ sstree_call (SetClone sos ck) t = Some (Ret SetUnit, t') /\
  (sset_exec sset_env SetDebug (sset_exec sset_env (SetClone sos ck) m).2).1 = debug t'.
Proof. by vm_compute. Qed.

Definition calm_value : SK -> bool := fun _ => false.
Definition panics_at (a i : N) : SK -> bool := fun x => bool_decide (x = (a, i)).

(** The value of an [insert] over an equal value, one that a [remove] finds and one of an
    [extend] panic when they are destroyed. *)
Definition bad_set_ops : list (set_dcall SK) :=
  [(calm_value, sset_ins 5 0); (calm_value, sset_ins 3 0); (panics_at 5 7, sset_ins 5 7); (panics_at 3 0, SetRemove (so (sq 3)));
   (panics_at 8 1, SetExtend sos (mkUserIter 0%N None [(8, 0); (8, 1); (9, 0)]%N false));
   (calm_value, SetTake (so (sq 8))); (calm_value, sset_ins 7 0); (calm_value, sset_ins 1 0)].
Definition bad_set_results : list (res (set_out SK)) :=
  [Ret (SetBool true); Ret (SetBool true); Panic PDrop; Panic PDrop; Panic PDrop; Ret (SetValue (Some (8, 0)%N));
   Ret (SetBool true); Ret (SetBool true)].
Definition good_set_ops : list (set_op SK) :=
  [sset_ins 5 0; sset_ins 3 0; sset_ins 5 7; SetRemove (so (sq 3));
   SetExtend sos (mkUserIter 0%N None [(8, 0); (8, 1)]%N false); SetTake (so (sq 8)); sset_ins 7 0; sset_ins 1 0].

Definition bad_sset_run := wset_run sset_env bad_set_ops ([], sset_new).
Definition bad_sset_log := bad_sset_run.2.1.
Definition bad_sset : sset SK := bad_sset_run.2.2.
Lemma bad_sset_reached : wset_reached sset_env calm_value SetNew bad_set_ops bad_set_results bad_sset_log bad_sset.
Proof.
  exists ([], sset_new). split; [done|]. unfold bad_sset_log, bad_sset.
  assert (H : bad_sset_run.1 = bad_set_results) by (by vm_compute). rewrite <- H. unfold bad_sset_run.
  by destruct (wset_run sset_env bad_set_ops ([], sset_new)) as [xs [log m]].
Qed.
Lemma bad_set_calls : sset_calls SetNew bad_set_ops.
Proof. split; [done|repeat constructor]. Qed.
Lemma bad_set_alive : alive bad_set_results.
Proof. repeat constructor; done. Qed.
Lemma bad_set_no_clone : Forall set_no_clone bad_set_ops.*2.
Proof. repeat constructor. Qed.

Example C77_case : wset_reached sset_env calm_value SetNew bad_set_ops bad_set_results bad_sset_log bad_sset /\
  sset_calls SetNew bad_set_ops /\ Forall set_no_clone bad_set_ops.*2 /\ alive bad_set_results /\
  (sset_exec sset_env (SetIter Pre 4) bad_sset).1 = Ret (SetSeq (first_calls 4 [(5, 0); (1, 0); (7, 0)]%N)) /\
  just_values bad_sset_log = [(5, 7); (3, 0); (8, 1)]%N /\ set_all_back bad_set_ops bad_set_results = [(8, 0)%N] /\
  (wset_drop calm_value (bad_sset_log, bad_sset)).1 = Ret tt.
Proof.
  split; [exact bad_sset_reached|]. split; [exact bad_set_calls|]. split; [exact bad_set_no_clone|].
  split; [exact bad_set_alive|]. by vm_compute.
Qed.

Example C77_collect_case :
  let it := mkUserIter 0%N None [(2, 0); (1, 0); (2, 1); (4, 0)]%N false in
  let r := wset_begin calm_value sset_env (SetFromIter (fun j k => if Nat.eqb j 2 then so_panic 0 (scmp k) else so (scmp k)) it) in
  r.1 = Panic PCmp /\ just_values r.2.1 = [(2, 1); (2, 0); (1, 0)]%N /\
  let r := wset_begin (panics_at 2 1) sset_env (SetFromIter sos it) in
  r.1 = Panic PDrop /\ just_values r.2.1 = [(2, 1); (2, 0); (1, 0)]%N.
Proof. by vm_compute. Qed.

Lemma bad_set_as_if xs : xs = [Ret (SetBool true); Ret (SetBool true); Ret (SetBool false); Ret (SetBool true); Ret SetUnit;
    Ret (SetValue (Some (8, 0)%N)); Ret (SetBool true); Ret (SetBool true)] ->
  set_all_as_if set_cut_of bad_set_ops bad_set_results good_set_ops xs /\
  set_all_as_if set_part_of bad_set_ops bad_set_results good_set_ops xs.
Proof.
  intros ->. split; repeat split; try (left; split; reflexivity);
    right; (split; [reflexivity|]); (split; [try reflexivity|eexists; reflexivity]); by exists 2.
Qed.

Example C78_as_if_case : set_all_as_if set_cut_of bad_set_ops bad_set_results good_set_ops (sset_run sset_env good_set_ops sset_new).1 /\
  Forall (fun c => sset_has c = true) good_set_ops.
Proof. split; [|repeat constructor]. apply bad_set_as_if. by vm_compute. Qed.

(** One destructor panics: all values are destroyed and the panic is passed on. Two:
    the program ends. *)
Example C78_clear_case :
  let r := wset_exec (panics_at 7 0) sset_env SetClear (bad_sset_log, bad_sset) in
  r.1 = Panic PDrop /\ just_values r.2.1 = just_values bad_sset_log ++ [(5, 0); (1, 0); (7, 0)]%N /\ sset_len r.2.2 = 0%N /\
  (wset_exec (fun _ => true) sset_env SetClear (bad_sset_log, bad_sset)).1 = Abort /\
  (wset_drop (panics_at 1 0) (bad_sset_log, bad_sset)).1 = Panic PDrop.
Proof. by vm_compute. Qed.

Example C78_insert_case :
  (wset_exec (panics_at 5 1) sset_env (sset_ins 5 1) ([], bad_sset)).1 = Panic PDrop /\
  (wset_exec (panics_at 6 1) sset_env (sset_ins 6 1) ([], bad_sset)).1 = Ret (SetBool true) /\
  (wset_exec (panics_at 5 1) sset_env (SetInsert (so_panic 0 (scmp (5, 1)%N)) (5, 1)%N) ([], bad_sset)).1 = Abort /\
  (wset_exec (panics_at 7 0) sset_env (SetRemove (so (sq 7))) ([], bad_sset)).1 = Panic PDrop.
Proof. by vm_compute. Qed.

(** A clone of three values: the old ones are destroyed; the cloning of the third value
    panics. *)
Example C78_clone_case :
  let c := SetClone sos (fun _ k => Some (k.1, 9%N)) in
  let r := wset_exec (panics_at 7 0) sset_env c ([], bad_sset) in
  r.1 = Panic PDrop /\ just_values r.2.1 = [(5, 0); (1, 0); (7, 0)]%N /\
  (sset_exec sset_env (SetIter Pre 4) r.2.2).1 = Ret (SetSeq (first_calls 4 [(5, 9); (1, 9); (7, 9)]%N)) /\
  let ck := fun (j : nat) (k : SK) => if Nat.eqb j 2 then None else Some (k.1, 9%N) in
  let r := wset_exec calm_value sset_env (SetClone sos ck) ([], bad_sset) in
  r.1 = Panic PClone /\ just_values r.2.1 = [(1, 9); (5, 9)]%N /\
  (value_clones ck 0 [(5, 0); (1, 0); (7, 0)]%N).1 = [(5, 9); (1, 9)]%N /\
  (wset_exec (panics_at 1 9) sset_env (SetClone sos ck) ([], bad_sset)).1 = Abort.
Proof. by vm_compute. Qed.

Example C78_quiet_case : sset_calls SetNew ((fun c => (calm_value, c)) <$> good_set_ops) /\
  (wset_run sset_env ((fun c => (calm_value, c)) <$> good_set_ops) ([], sset_new)).1 = (sset_run sset_env good_set_ops sset_new).1.
Proof. split; [split; [done|repeat constructor]|by vm_compute]. Qed.

Definition bad_bst_run := dset_run senv bad_set_ops set_new.
Lemma bad_bst_reached : dset_reached senv calm_value SetNew bad_set_ops bad_set_results bad_bst_run.2.
Proof.
  exists set_new. split; [done|]. assert (H : bad_bst_run.1 = bad_set_results) by (by vm_compute). rewrite <- H.
  apply surjective_pairing.
Qed.

Example C79_case : dset_reached senv calm_value SetNew bad_set_ops bad_set_results bad_bst_run.2 /\
  Forall set_quiet_clear bad_set_ops /\ alive bad_set_results /\ e_nd senv = true /\ Forall set_no_clone bad_set_ops.*2 /\
  set_all_as_if set_part_of bad_set_ops bad_set_results good_set_ops (set_run senv good_set_ops set_new).1 /\
  (set_exec senv (SetIter Pre 4) bad_bst_run.2).1 = Ret (SetSeq (first_calls 4 [(5, 0); (1, 0); (7, 0)]%N)) /\
  set_dropped bad_bst_run.2 = [(5, 7); (3, 0); (8, 1)]%N.
Proof.
  split; [exact bad_bst_reached|]. split; [repeat constructor; done|]. split; [exact bad_set_alive|]. split; [done|].
  split; [exact bad_set_no_clone|]. split; [apply bad_set_as_if; by vm_compute|]. by vm_compute.
Qed.

Example C79_insert_case :
  (dset_exec (panics_at 5 1) senv (sset_ins 5 1) bad_bst_run.2).1 = Panic PDrop /\
  (set_exec senv (sset_ins 5 1) bad_bst_run.2).1 = Ret (SetBool false) /\
  (dset_exec (panics_at 5 1) senv (SetInsert (so_panic 0 (scmp (5, 1)%N)) (5, 1)%N) bad_bst_run.2).1 = Abort /\
  (dset_exec (panics_at 7 0) senv (SetRemove (so (sq 7))) bad_bst_run.2).1 = Panic PDrop /\
  (set_exec senv (SetRemove (so (sq 7))) bad_bst_run.2).1 = Ret (SetBool true).
Proof. by vm_compute. Qed.

(** A clone whose old values panic; a [collect] in which the second of two equal values
    panics. *)
Example C79_clone_case :
  let r := dset_exec (panics_at 7 0) senv (SetClone sos (fun _ k => Some (k.1, 9%N))) bad_bst_run.2 in
  let it := mkUserIter 0%N None [(2, 0); (1, 0); (2, 1); (4, 0)]%N false in
  let b := dset_begin (panics_at 2 1) senv (SetFromIter sos it) in
  r.1 = Panic PDrop /\ (set_exec senv (SetIter In 4) r.2).1 = Ret (SetSeq (first_calls 4 [(1, 9); (5, 9); (7, 9)]%N)) /\
  b.1 = Panic PDrop /\ size (blocks b.2) = 0%nat /\ set_dropped b.2 ≡ₚ [(2, 0); (1, 0); (2, 1)]%N.
Proof.
  cbv zeta. split; [by vm_compute|]. split; [by vm_compute|]. split; [by vm_compute|]. split; [by vm_compute|].
  match goal with |- ?a ≡ₚ _ => let b := eval vm_compute in a in change a with b end. solve_Permutation.
Qed.
