(** * Properties of what SimpleBSTMap destroys: C74 and C75

    [bad] says which destructors panic. All of this holds for every comparator
    behaviour, and for compilers that leak the result when the last destructor of a
    call panics as well as for those that do not. *)

From Verif Require Export ProofSimpleDrops Samples.
Local Open Scope nat_scope.

(** C74. Every call conserves the keys and values: what the map holds, what was
    destroyed, what is handed back (and what such a compiler leaks) is what was there
    before and what the call took, or made by cloning. *)
Theorem C74_call {K V : Type} : forall leaky e bad (s : start K V) cs rs log m l bad' c r log' m',
  simple_calls s cs -> wreached leaky e bad s cs rs log m -> alive rs ->
  simple_has c = true -> simple_yields m Pre l -> wexec leaky bad' e c (log, m) = (r, (log', m')) -> r <> Abort ->
  exists c' r' g L, acts_as c r c' r' /\ simple_exec e c' m = (r', m') /\ took l c' r' g /\ leaked leaky (drop_panics r) L /\
    forall d l', simple_yields m' d l' -> owned l' ++ log' ++ handed c r ++ L ≡ₚ owned l ++ log ++ g.
Proof. exact wdrops_call. Qed.
Print Assumptions C74_call.

(** So does every history. *)
Theorem C74_conserved {K V : Type} : forall leaky e bad (s : start K V) cs rs log m,
  simple_calls s cs -> Forall no_clone cs.*2 -> wreached leaky e bad s cs rs log m -> alive rs ->
  exists cs' rs' G B L, all_act_as cs rs cs' rs' /\ ledger cs' rs' G B /\ leaked leaky (all_panics rs) L /\
    forall d l, simple_yields m d l -> owned l ++ log ++ all_back cs rs ++ L ≡ₚ start_taken s ++ G.
Proof. exact wdrops_conserved. Qed.
Print Assumptions C74_conserved.

(** When the map is dropped at the end, everything was destroyed exactly once or
    handed back, and no box remains. *)
Theorem C74_whole_life {K V : Type} : forall leaky e bad (s : start K V) cs rs log m bad' r log' m',
  simple_calls s cs -> Forall no_clone cs.*2 -> wreached leaky e bad s cs rs log m -> alive rs ->
  wdrop bad' (log, m) = (r, (log', m')) -> r <> Abort ->
  s_mem m' = ∅ /\ exists cs' rs' G B L, all_act_as cs rs cs' rs' /\ ledger cs' rs' G B /\ leaked leaky (all_panics rs) L /\
    log' ++ all_back cs rs ++ L ≡ₚ start_taken s ++ G.
Proof. exact wdrops_whole_life. Qed.
Print Assumptions C74_whole_life.

(** A [from_iter] that panics destroys the items it pulled and frees its boxes. *)
Theorem C74_collect {K V : Type} : forall leaky bad e os (it : user_iter (K * V)) p log m,
  wbegin leaky bad e (SFromIter os it) = (Panic p, (log, m)) ->
  s_mem m = ∅ /\ exists n L, leaked leaky (match p with PDrop => 1 | _ => 0 end) L /\ log ++ L ≡ₚ owned (take n (ui_items it)) /\
    bads bad log = (match p with PDrop => 1 | _ => 0 end) /\
    (p <> PDrop -> pulled os it p n /\ (simple_begin e (SFromIter os it)).1 = Panic p).
Proof. exact wdrops_collect. Qed.
Print Assumptions C74_collect.

(** C75. A history in which destructors panic, also inside [clear], leaves exactly the
    map of some ordinary history. *)
Theorem C75_as_if {K V : Type} : forall leaky e bad (s : start K V) cs rs log m,
  simple_calls s cs -> wreached leaky e bad s cs rs log m -> alive rs ->
  exists cs' rs', simple_reached e s cs' rs' m /\ alive rs' /\ all_act_as cs rs cs' rs' /\
    Forall (fun c => simple_has c = true) cs' /\ forall cmp, Forall (legal cmp) cs.*2 -> Forall (legal cmp) cs'.
Proof. exact wdrops_as_if. Qed.
Print Assumptions C75_as_if.

(** No undefined behaviour, and every call ends. *)
Theorem C75_safe {K V : Type} : forall leaky bad e (s : start K V) cs, simple_calls s cs ->
  defined (wbegin leaky bad e s).1 /\
  forall rs log m, wreached leaky e bad s cs rs log m -> Forall defined rs /\
    (alive rs -> forall bad', defined (wdrop bad' (log, m)).1).
Proof. exact wdrops_safe. Qed.
Print Assumptions C75_safe.

Theorem C75_sorted {K V : Type} : forall leaky (cmp : K -> K -> comparison), lawful cmp ->
  forall e bad (s : start K V) cs rs log m l,
  simple_calls s cs -> legal_start cmp s -> Forall (legal cmp) cs.*2 -> wreached leaky e bad s cs rs log m -> alive rs ->
  simple_yields m In l -> sorted cmp l.
Proof. exact wdrops_sorted. Qed.
Print Assumptions C75_sorted.

(** [clear] destroys every entry, in pre-order, whatever panics. One panic reaches the
    caller, two abort. *)
Theorem C75_clear {K V : Type} : forall leaky e bad (s : start K V) cs rs log m l bad' r log' m',
  simple_calls s cs -> wreached leaky e bad s cs rs log m -> alive rs ->
  simple_yields m Pre l -> wexec leaky bad' e OClear (log, m) = (r, (log', m')) ->
  (r = match bads bad' (owned l) with 0 => Ret OutUnit | 1 => Panic PDrop | _ => Abort end) /\
  (r <> Abort -> log' = log ++ owned l /\ s_mem m' = ∅ /\ simple_len m' = 0%N).
Proof. exact wclear_exact. Qed.
Print Assumptions C75_clear.

(** The same for the destructor of the map. *)
Theorem C75_drop {K V : Type} : forall leaky e bad (s : start K V) cs rs log m l bad' r log' m',
  simple_calls s cs -> wreached leaky e bad s cs rs log m -> alive rs ->
  simple_yields m Pre l -> wdrop bad' (log, m) = (r, (log', m')) ->
  (r = match bads bad' (owned l) with 0 => Ret tt | 1 => Panic PDrop | _ => Abort end) /\
  (r <> Abort -> log' = log ++ owned l /\ s_mem m' = ∅).
Proof. exact wdrop_exact. Qed.
Print Assumptions C75_drop.

(** What exactly [insert], [remove] and the writing calls do. *)
Theorem C75_insert {K V : Type} : forall leaky e bad o k v log (m : simple K V) r0 m0 r log' m',
  simple_exec e (OInsert o k v) m = (r0, m0) -> wexec leaky bad e (OInsert o k v) (log, m) = (r, (log', m')) ->
  match r0 with
  | Ret (OutValue (Some old)) => ends_with leaky bad (inr old) (inl k) r0 log m0 r log' m'
  | Panic p => if bad (inl k) || bad (inr v) then r = Abort else r = r0 /\ m' = m0 /\ log' = log ++ [inr v; inl k]
  | _ => r = r0 /\ m' = m0 /\ log' = log
  end.
Proof. exact wdrops_insert. Qed.
Print Assumptions C75_insert.

Theorem C75_remove {K V : Type} : forall leaky e bad o log (m : simple K V) r0 m0 r log' m',
  simple_exec e (ORemove o) m = (r0, m0) -> wexec leaky bad e (ORemove o) (log, m) = (r, (log', m')) ->
  match r0 with
  | Ret (OutValue (Some v)) => exists k m1, simple_exec e (ORemoveEntry o) m = (Ret (OutEntry (Some (k, v))), m1) /\
      ends_with leaky bad (inr v) (inl k) r0 log m0 r log' m'
  | _ => r = r0 /\ m' = m0 /\ log' = log
  end.
Proof. exact wdrops_remove. Qed.
Print Assumptions C75_remove.

Theorem C75_write {K V : Type} : forall leaky e bad c log (m : simple K V) r0 m0 r log' m',
  simple_exec e c m = (r0, m0) -> wexec leaky bad e c (log, m) = (r, (log', m')) ->
  match c with OGetMut _ _ | OWalkMut _ _ => True | _ => False end ->
  m' = m0 /\ match replaced c r0 with
             | Some v => log' = log ++ [inr v] /\ r = if bad (inr v) then Panic PDrop else r0
             | None => log' = log /\ r = r0
             end.
Proof. exact wdrops_write. Qed.
Print Assumptions C75_write.

(** [clone]: the old map is destroyed when the clone is ready. When a clone of a key or
    value panics, the clones made so far are destroyed and the map is as before. *)
Theorem C75_clone {K V : Type} : forall leaky e bad (s : start K V) cs rs log m l bad' os ck cv r0 m0 r log' m',
  simple_calls s cs -> wreached leaky e bad s cs rs log m -> alive rs ->
  simple_yields m Pre l -> simple_exec e (OClone os ck cv) m = (r0, m0) ->
  wexec leaky bad' e (OClone os ck cv) (log, m) = (r, (log', m')) ->
  match r0 with
  | Ret _ => r = match bads bad' (owned l) with 0 => r0 | 1 => Panic PDrop | _ => Abort end /\
      (r <> Abort -> m' = m0 /\ log' = log ++ owned l)
  | Panic _ => if Nat.eqb (bads bad' (cloned ck cv 0 l)) 0
      then r = r0 /\ m' = m0 /\ exists d, log' = log ++ d /\ d ≡ₚ cloned ck cv 0 l
      else r = Abort
  | _ => r = r0
  end.
Proof. exact wdrops_clone. Qed.
Print Assumptions C75_clone.

(** A clone that panics leaves no box behind. *)
Theorem C75_clone_frees {K V : Type} : forall leaky e bad (s : start K V) cs rs log m bad' ck cv p log' m',
  simple_calls s cs -> wreached leaky e bad s cs rs log m -> alive rs ->
  wclone bad' e ck cv m log = (Panic p, (log', m')) -> s_mem m' = ∅.
Proof. exact wdrops_clone_frees. Qed.
Print Assumptions C75_clone_frees.

(** A call that does not abort meets at most one destructor that panics, and then it
    panics itself. *)
Theorem C75_panics {K V : Type} : forall leaky e bad (s : start K V) cs rs log m bad' c r log' m',
  simple_calls s cs -> wreached leaky e bad s cs rs log m -> alive rs ->
  simple_has c = true -> wexec leaky bad' e c (log, m) = (r, (log', m')) -> r <> Abort ->
  exists d, log' = log ++ d /\ bads bad' d = drop_panics r.
Proof. exact wdrops_panics. Qed.
Print Assumptions C75_panics.

(** If no destructor panics, these programs are those of the other properties. *)
Theorem C75_quiet {K V : Type} : forall leaky e bad (s : start K V) cs rs m,
  (forall y, bad y = false) -> (forall x y, x ∈ cs -> x.1 y = false) -> simple_calls s cs ->
  (exists log, wreached leaky e bad s cs rs log m) <-> simple_reached e s cs.*2 rs m.
Proof. exact wdrops_quiet. Qed.
Print Assumptions C75_quiet.

(** ** Examples *)

Definition wenv : benv := BEnv true (fun n => Some (n mod 5)%N).
Definition calm : SK + N -> bool := fun _ => false.
Definition key_panics (a i : N) : SK + N -> bool := fun x => match x with inl k => bool_decide (k = (a, i)) | inr _ => false end.
Definition value_panics (a : N) : SK + N -> bool := fun x => match x with inl _ => false | inr v => bool_decide (v = a) end.

(** The key of an [insert] over an equal key, the key of a [remove], an overwritten
    value, a value replaced by an [extend], and a value of the old map panic when they
    are destroyed. *)
Definition w_ops : list (dcall SK N) :=
  [(calm, ins 5 0 1); (calm, ins 3 0 2); (key_panics 5 7, ins 5 7 3); (key_panics 3 0, ORemove (so (sq 3)));
   (value_panics 3, OGetMut (so (sq 5)) (Some 4%N));
   (value_panics 11, OExtend sos (mkUserIter 0%N None [((8, 0), 11); ((8, 1), 12); ((9, 0), 13)]%N false));
   (calm, ORemoveEntry (so (sq 8))); (calm, OInsert (so_panic 0 (scmp (6, 0)%N)) (6, 0)%N 5%N); (calm, ins 1 0 6); (calm, ins 7 0 9)].
Definition w_run (leaky : bool) := wrun leaky wenv w_ops ([], simple_new).
Definition w_results : list (res (out SK N)) :=
  [Ret (OutValue None); Ret (OutValue None); Panic PDrop; Panic PDrop; Panic PDrop; Panic PDrop;
   Ret (OutEntry (Some ((8, 0), 12)))%N; Panic PCmp; Ret (OutValue None); Ret (OutValue None)].
Definition w_good : list (op SK N) :=
  [ins 5 0 1; ins 3 0 2; ins 5 7 3; ORemove (so (sq 3)); OGetMut (so (sq 5)) (Some 4%N);
   OExtend sos (mkUserIter 0%N None [((8, 0), 11); ((8, 1), 12)]%N false);
   ORemoveEntry (so (sq 8)); OInsert (so_panic 0 (scmp (6, 0)%N)) (6, 0)%N 5%N; ins 1 0 6; ins 7 0 9].
Definition w_map (leaky : bool) : simple SK N := (w_run leaky).2.2.
Definition w_log (leaky : bool) : list (SK + N) := (w_run leaky).2.1.

Lemma w_reached leaky : wreached leaky wenv calm SNew w_ops w_results (w_log leaky) (w_map leaky).
Proof.
  exists ([], simple_new). split; [done|]. unfold w_log, w_map, w_run. rewrite (surjective_pairing (wrun leaky wenv w_ops ([], simple_new))) at 1.
  rewrite <- surjective_pairing. f_equal. destruct leaky; by vm_compute.
Qed.
Lemma w_calls : simple_calls SNew w_ops.
Proof. split; [done|]. repeat constructor. Qed.
Lemma w_alive : alive w_results.
Proof. repeat constructor; done. Qed.
Definition w_entries : list (SK * N) := [((5, 0), 4); ((1, 0), 6); ((7, 0), 9)]%N.

Example C74_case : wreached false wenv calm SNew w_ops w_results (w_log false) (w_map false) /\ simple_calls SNew w_ops /\
  Forall no_clone w_ops.*2 /\ alive w_results /\
  (simple_exec wenv (OIter Pre 4) (w_map false)).1 = Ret (OutSeq (first_calls 4 w_entries)) /\
  w_log false = [inl (5, 7); inr 1; inl (3, 0); inr 2; inr 3; inl (8, 1); inr 11; inr 5; inl (6, 0)]%N /\
  w_log true = [inl (5, 7); inl (3, 0); inr 3; inl (8, 1); inr 11; inr 5; inl (6, 0)]%N /\
  all_back w_ops w_results = [inl (8, 0); inr 12]%N /\
  (wdrop calm (w_log false, w_map false)).1 = Ret tt.
Proof.
  split; [apply w_reached|]. split; [exact w_calls|]. split; [repeat constructor|]. split; [exact w_alive|]. by vm_compute.
Qed.

(** The third key panics when it is compared, and when it is cloned; an item pulled by
    a [from_iter] panics when it is replaced. *)
Example C74_collect_case :
  let it := mkUserIter 0%N None [((2, 0), 1); ((1, 0), 2); ((2, 1), 3); ((4, 0), 4)]%N false in
  let r := wbegin false calm wenv (SFromIter (fun j k => if Nat.eqb j 2 then so_panic 0 (scmp k) else so (scmp k)) it) in
  r.1 = Panic PCmp /\ r.2.1 = [inr 3; inl (2, 1); inl (2, 0); inr 1; inl (1, 0); inr 2]%N /\
  let r := wbegin false (value_panics 1) wenv (SFromIter sos it) in
  r.1 = Panic PDrop /\ r.2.1 = [inl (2, 1); inr 1; inl (2, 0); inr 3; inl (1, 0); inr 2]%N.
Proof. by vm_compute. Qed.

Example C75_as_if_case : all_act_as w_ops w_results w_good (simple_run wenv w_good simple_new).1 /\
  Forall (fun c => simple_has c = true) w_good.
Proof.
  split; [|repeat constructor].
  match goal with |- all_act_as _ _ _ ?x => let y := eval vm_compute in x in assert (x = y) as -> by (vm_compute; reflexivity) end.
  repeat split; try (left; split; reflexivity);
    right; (split; [reflexivity|]); (split; [try reflexivity|eexists; reflexivity]). by exists 2.
Qed.

(** One destructor panics: all entries are destroyed and the panic is passed on. Two:
    the program ends. *)
Example C75_clear_case :
  let r := wexec false (value_panics 6) wenv OClear (w_log false, w_map false) in
  r.1 = Panic PDrop /\ r.2.1 = w_log false ++ owned w_entries /\ simple_len r.2.2 = 0%N /\ size (s_mem r.2.2) = 0 /\
  (wexec false (fun x => match x with inl _ => true | _ => false end) wenv OClear (w_log false, w_map false)).1 = Abort /\
  (wdrop (key_panics 5 0) (w_log false, w_map false)).1 = Panic PDrop.
Proof. by vm_compute. Qed.

Example C75_abort_case :
  (wexec false (fun _ => true) wenv (ins 5 1 9) ([], w_map false)).1 = Abort /\
  (wexec true (fun _ => true) wenv (ins 5 1 9) ([], w_map false)).1 = Panic PDrop /\
  (wexec true (value_panics 9) wenv (OInsert (so_panic 0 (scmp (5, 1)%N)) (5, 1)%N 9%N) ([], w_map false)).1 = Abort /\
  (wexec true (value_panics 4) wenv (OWalkMut [] (Some 9%N)) ([], w_map false)).1 = Panic PDrop /\
  replaced (OWalkMut [] (Some 9%N)) (simple_exec wenv (OWalkMut [] (Some 9%N)) (w_map false)).1 = Some 4%N.
Proof. by vm_compute. Qed.

(** A clone whose old map has one value that panics; a clone that panics at the value
    of the third entry, when its key and two entries are already cloned. *)
Example C75_clone_case :
  let c := OClone sos (fun _ k => Some k) (fun _ v => Some (v + 100)%N) in
  let r := wexec true (value_panics 6) wenv c ([], w_map true) in
  r.1 = Panic PDrop /\ r.2.1 = owned w_entries /\
  (simple_exec wenv (OIter Pre 4) r.2.2).1 = Ret (OutSeq (first_calls 4 ((fun kv => (kv.1, kv.2 + 100)%N) <$> w_entries))) /\
  let cv := fun j v => if Nat.eqb j 2 then None else Some (v + 100)%N in
  let c := OClone sos (fun _ k => Some k) cv in
  let r := wexec true calm wenv c ([], w_map true) in
  r.1 = Panic PClone /\ r.2.1 = [inl (7, 0); inl (1, 0); inr 106; inr 104; inl (5, 0)]%N /\
  cloned (fun _ k => Some k) cv 0 w_entries = [inl (5, 0); inr 104; inl (1, 0); inr 106; inl (7, 0)]%N /\
  (wexec true (value_panics 106) wenv c ([], w_map true)).1 = Abort /\
  size (s_mem (wclone calm wenv (fun _ k => Some k) cv (w_map true) []).2.2) = 0.
Proof. by vm_compute. Qed.

Example C75_quiet_case : simple_calls SNew ((fun c => (calm, c)) <$> w_good) /\
  (wrun true wenv ((fun c => (calm, c)) <$> w_good) ([], simple_new)).1 = (simple_run wenv w_good simple_new).1.
Proof. split; [split; [done|repeat constructor]|by vm_compute]. Qed.
