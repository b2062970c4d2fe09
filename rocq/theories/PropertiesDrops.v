(** * Properties of destructors that panic: C73

    [bad] says which destructors panic. All of this holds for every comparator
    behaviour, and for compilers that leak the result in this case and for those
    that do not. *)

From Verif Require Export ProofDropsMore Samples.
Local Open Scope nat_scope.

(** C73. A history in which destructors panic outside [clear] is as some ordinary
    history. *)
Theorem C73_as_if {K V : Type} : forall leaky e bad (s : start K V) cs rs m,
  dreached leaky e bad s cs rs m -> Forall quiet_clear cs -> alive rs ->
  exists cs' rs' m', reached e s cs' rs' m' /\ alive rs' /\ alike m m' /\ all_as_if cs rs cs' rs' /\
    forall cmp, Forall (legal cmp) cs.*2 -> Forall (legal cmp) cs'.
Proof. exact drops_as_if. Qed.
Print Assumptions C73_as_if.

(** Maps that are alike behave alike. *)
Theorem C73_alike {K V : Type} : forall e cs (m m' : bstmap K V) rs m1, alike m m' -> run e cs m = (rs, m1) ->
  exists m1', run e cs m' = (rs, m1') /\ alike m1 m1'.
Proof. exact alike_run. Qed.
Print Assumptions C73_alike.

(** No undefined behaviour, and every call ends. *)
Theorem C73_safe {K V : Type} : forall leaky e bad (s : start K V) cs, Forall quiet_clear cs ->
  defined (dbegin leaky bad e s).1 /\
  forall rs m, dreached leaky e bad s cs rs m -> Forall defined rs /\
    (alive rs -> forall bad', defined (map_drop e (bad_node bad') m).1).
Proof. exact drops_safe. Qed.
Print Assumptions C73_safe.

(** The map stays sorted. *)
Theorem C73_sorted {K V : Type} : forall leaky (cmp : K -> K -> comparison), lawful cmp -> forall e bad (s : start K V) cs rs m l,
  legal_start cmp s -> Forall (legal cmp) cs.*2 -> dreached leaky e bad s cs rs m -> Forall quiet_clear cs -> alive rs ->
  yields m In l -> sorted cmp l.
Proof. exact drops_sorted. Qed.
Print Assumptions C73_sorted.

(** Nothing is destroyed twice; nothing is lost except what the compiler leaks. *)
Theorem C73_conserved {K V : Type} : forall leaky e bad (s : start K V) cs rs m, e_nd e = true -> Forall no_clone cs.*2 ->
  Forall quiet_clear cs -> dreached leaky e bad s cs rs m -> alive rs ->
  exists cs' rs' G B L, all_as_if cs rs cs' rs' /\ ledger cs' rs' G B /\ leaked leaky (all_panics rs) L /\
    forall d l, yields m d l -> owned l ++ dropped m ++ all_handed cs rs ++ L ≡ₚ start_taken s ++ G.
Proof. exact drops_conserved. Qed.
Print Assumptions C73_conserved.

(** A call ends with the first panic of a destructor. *)
Theorem C73_first_panic {K V : Type} : forall leaky e bad (s : start K V) cs rs m bad' c r m',
  dreached leaky e bad s cs rs m -> Forall quiet_clear cs -> alive rs ->
  no_clone c -> c <> OClear -> dexec leaky bad' e c m = (r, m') -> r <> Abort ->
  exists l, m_drops m' = m_drops m ++ l /\ stops_at_first bad' r l.
Proof. exact drops_felt. Qed.
Print Assumptions C73_first_panic.

(** What exactly [insert], [remove] and the writing calls do. *)
Theorem C73_insert {K V : Type} : forall leaky e bad o k v (m : bstmap K V) r0 m0 r m',
  exec e (OInsert o k v) m = (r0, m0) -> dexec leaky bad e (OInsert o k v) m = (r, m') ->
  match r0 with
  | Ret (OutValue (Some old)) => ends_past leaky bad (inr old) (inl k) r0 m0 r m'
  | Panic p => if bad (inl k) || bad (inr v) then r = Abort else r = r0 /\ m' = m0
  | _ => r = r0 /\ m' = m0
  end.
Proof. exact drops_insert. Qed.
Print Assumptions C73_insert.

Theorem C73_remove {K V : Type} : forall leaky e bad o (m : bstmap K V) r0 m0 r m',
  exec e (ORemove o) m = (r0, m0) -> dexec leaky bad e (ORemove o) m = (r, m') ->
  match r0 with
  | Ret (OutValue (Some v)) => exists k m1, exec e (ORemoveEntry o) m = (Ret (OutEntry (Some (k, v))), m1) /\
      ends_past leaky bad (inr v) (inl k) r0 m0 r m'
  | _ => r = r0 /\ m' = m0
  end.
Proof. exact drops_remove. Qed.
Print Assumptions C73_remove.

Theorem C73_write {K V : Type} : forall leaky e bad c (m : bstmap K V) r0 m0 r m',
  exec e c m = (r0, m0) -> dexec leaky bad e c m = (r, m') ->
  match c with OGetMut _ _ | OGetEntryMut _ _ | OWalkMut _ _ => True | _ => False end ->
  m' = m0 /\ r = match overwritten c r0 with Some v => if bad (inr v) then Panic PDrop else r0 | None => r0 end.
Proof. exact drops_write. Qed.
Print Assumptions C73_write.

(** [map = map.clone()]. If no destructor of what the clone had to throw away panics
    (the clone of an entry whose key equals an earlier one), then the clone is in place,
    even if a destructor of the old map panicked. A clone that panics changes nothing. *)
Theorem C73_clone {K V : Type} : forall leaky e bad (s : start K V) cs rs m bad' os ck cv r0 m0 r m' d l,
  dreached leaky e bad s cs rs m -> Forall quiet_clear cs -> alive rs -> yields m d l ->
  exec e (OClone os ck cv) m = (r0, m0) -> dexec leaky bad' e (OClone os ck cv) m = (r, m') ->
  match r0 with
  | Ret _ => Forall (fun y => bad' y = false) (dropped m0) ->
      (r = Abort /\ e_nd e = true /\ exists k v, (k, v) ∈ l /\ bad' (inl k) = true /\ bad' (inr v) = true) \/
      (m' = m0 /\ r = if e_nd e && existsb bad' (owned l) then Panic PDrop else r0)
  | Panic _ => r <> Abort -> m' = m
  | _ => True
  end.
Proof. exact drops_clone. Qed.
Print Assumptions C73_clone.

(** [collect]. If a destructor panics, the map built so far is dropped. *)
Theorem C73_collect {K V : Type} : forall leaky e bad os it r (m : bstmap K V),
  dbegin leaky bad e (SFromIter os it) = (r, m) -> r <> Abort ->
  match begin e (SFromIter os it) with
  | (Ret _, m0) => Forall (fun y => bad y = false) (dropped m0) -> r = Ret tt /\ m = m0
  | _ => True
  end /\
  (begin e (SFromIter os it) = (r, m) \/
   r = Panic PDrop /\ blocks m = ∅ /\ exists n L, leaked leaky 1 L /\
     (e_nd e = true -> dropped m ++ L ≡ₚ owned (take n (ui_items it))) /\ exists x, x ∈ dropped m /\ bad x = true).
Proof. exact drops_collect. Qed.
Print Assumptions C73_collect.

(** If no destructor panics, these programs are those of the other properties. *)
Theorem C73_quiet {K V : Type} : forall leaky e bad (s : start K V) cs rs m,
  (forall y, bad y = false) -> (forall x y, x ∈ cs -> x.1 y = false) ->
  dreached leaky e bad s cs rs m <-> reached e s cs.*2 rs m.
Proof. exact drops_quiet. Qed.
Print Assumptions C73_quiet.

(** The key of an [insert] over an equal key, the key of a [remove], an overwritten
    value, a value replaced by an [extend] and one replaced through a mutable
    iterator panic when they are destroyed; then a last insert. *)
Definition fine : SK + N -> bool := fun _ => false.
Definition bad_key (a i : N) : SK + N -> bool := fun x => match x with inl k => bool_decide (k = (a, i)) | inr _ => false end.
Definition bad_value (a : N) : SK + N -> bool := fun x => match x with inl _ => false | inr v => bool_decide (v = a) end.
Definition bad_ops : list (dcall SK N) :=
  [(fine, ins 5 0 1); (fine, ins 3 0 2); (bad_key 5 7, ins 5 7 3); (bad_key 3 0, ORemove (so (sq 3)));
   (bad_value 3, OGetMut (so (sq 5)) (Some 4%N));
   (bad_value 11, OExtend sos (mkUserIter 0%N None [((8, 0), 11); ((8, 1), 12); ((9, 0), 13)]%N false));
   (bad_value 12, OIterMut In [EvNext; EvNext; EvWrite 1 14%N; EvWrite 0 15%N]);
   (fine, ins 1 0 6)].
Definition bad_run (leaky : bool) := drun leaky senv bad_ops map_new.
Definition bad_results : list (res (out SK N)) :=
  [Ret (OutValue None); Ret (OutValue None); Panic PDrop; Panic PDrop; Panic PDrop; Panic PDrop; Panic PDrop; Ret (OutValue None)].
Definition good_ops : list (op SK N) :=
  [ins 5 0 1; ins 3 0 2; ins 5 7 3; ORemove (so (sq 3)); OGetMut (so (sq 5)) (Some 4%N);
   OExtend sos (mkUserIter 0%N None [((8, 0), 11); ((8, 1), 12)]%N false); OIterMut In [EvNext; EvNext; EvWrite 1 14%N]; ins 1 0 6].

Lemma bad_reached leaky : dreached leaky senv fine SNew bad_ops bad_results (bad_run leaky).2.
Proof.
  exists map_new. split; [done|]. rewrite (surjective_pairing (drun leaky senv bad_ops map_new)).
  f_equal. destruct leaky; by vm_compute.
Qed.
Lemma bad_quiet : Forall quiet_clear bad_ops.
Proof. repeat constructor; done. Qed.
Lemma bad_alive : alive bad_results.
Proof. repeat constructor; done. Qed.

Example C73_as_if_case : dreached true senv fine SNew bad_ops bad_results (bad_run true).2 /\
  all_as_if bad_ops bad_results good_ops (run senv good_ops map_new).1 /\
  yields (bad_run true).2 In [((1, 0), 6); ((5, 0), 4); ((8, 0), 14)]%N /\
  yields (run senv good_ops map_new).2 In [((1, 0), 6); ((5, 0), 4); ((8, 0), 14)]%N.
Proof.
  split; [apply bad_reached|]. split.
  { match goal with |- all_as_if _ _ _ ?x => let y := eval vm_compute in x in assert (x = y) as -> by (vm_compute; reflexivity) end.
    repeat split; try (left; split; reflexivity);
      right; (split; [reflexivity|]); (split; [try reflexivity|eexists; reflexivity]).
    - by exists 2.
    - by exists 3. }
  split; (eexists; split; vm_compute; reflexivity).
Qed.

(** Two of the given values are leaked by one kind of compiler. *)
Example C73_conserved_case : Forall no_clone bad_ops.*2 /\
  dropped (bad_run false).2 ≡ₚ [inl (5, 7); inr 1; inl (3, 0); inr 2; inr 3; inl (8, 1); inr 11; inr 12]%N /\
  dropped (bad_run true).2 ≡ₚ [inl (5, 7); inl (3, 0); inr 3; inl (8, 1); inr 11; inr 12]%N.
Proof.
  split; [repeat constructor|].
  split; match goal with |- ?a ≡ₚ _ => let b := eval vm_compute in a in change a with b end; solve_Permutation.
Qed.

(** Two panics abort; so does a destructor that panics during another panic. *)
Example C73_abort_case :
  (dexec false (fun _ => true) senv (ins 40 1 9) sample).1 = Abort /\
  (dexec true (fun _ => true) senv (ins 40 1 9) sample).1 = Panic PDrop /\
  (dexec true (bad_value 9) senv (OInsert (so_panic 0 (scmp (40, 1)%N)) (40, 1)%N 9%N) sample).1 = Abort /\
  (dexec true (bad_value 55) senv (OGetMut (so (sq 40)) (Some 9%N)) sample).1 = Panic PDrop /\
  overwritten (OGetMut (so (sq 40)) (Some 9%N)) (exec senv (OGetMut (so (sq 40)) (Some 9%N)) sample).1 = Some 55%N.
Proof. by vm_compute. Qed.

(** A clone: a value, or a key, of the old map panics when it is replaced; the clone is
    in place. *)
Example C73_clone_case :
  let c := OClone sos (fun _ k => Some k) (fun _ v => Some (v + 100)%N) in
  (dexec true (bad_value 55) senv c sample).1 = Panic PDrop /\
  yields (dexec true (bad_value 55) senv c sample).2 In ((fun kv => (kv.1, kv.2 + 100)%N) <$> sample_entries) /\
  (dexec true (fun x => match x with inl _ => true | inr v => bool_decide (v = 155%N) end) senv c sample).1 = Panic PDrop.
Proof. split; [by vm_compute|]. split; [|by vm_compute]. eexists. split; vm_compute; reflexivity. Qed.

(** A value replaced during a [collect], and its key, panic when they are destroyed. *)
Example C73_collect_case :
  let it := mkUserIter 0%N None [((2, 0), 1); ((1, 0), 2); ((2, 1), 3); ((4, 0), 4)]%N false in
  let r := dbegin false (bad_value 1) senv (SFromIter sos it) in
  let r' := dbegin true (bad_key 2 1) senv (SFromIter sos it) in
  let g := dbegin true (bad_value 3) senv (SFromIter sos it) in
  r.1 = Panic PDrop /\ r'.1 = Panic PDrop /\ g.1 = Ret tt /\
  dropped r.2 ≡ₚ [inl (2, 0); inr 3; inl (1, 0); inr 2; inl (2, 1); inr 1]%N /\
  dropped r'.2 ++ [inr 1%N] ≡ₚ [inl (2, 0); inr 3; inl (1, 0); inr 2; inl (2, 1); inr 1]%N /\
  size (blocks r.2) = 0%nat /\ yields g.2 In [((1, 0), 2); ((2, 0), 3); ((4, 0), 4)]%N.
Proof.
  cbv zeta. split; [by vm_compute|]. split; [by vm_compute|]. split; [by vm_compute|].
  split; [match goal with |- ?a ≡ₚ _ => let b := eval vm_compute in a in change a with b end; solve_Permutation|].
  split; [match goal with |- ?a ≡ₚ _ => let b := eval vm_compute in a in change a with b end; solve_Permutation|].
  split; [by vm_compute|]. eexists. split; vm_compute; reflexivity.
Qed.
