(** * C94: what [extend] and [collect] ask of an iterator *)

From Verif Require Import Samples PropertiesSimple PropertiesSimpleSet.
From Verif Require Import ModelSource SpecSource ProofSource.
Local Open Scope nat_scope.

(** BSTMap::extend asks for the size hint once and then for one item at a time. It does to the
    map what it does for the list of the items; it stops asking at the first end, panic or
    failed insertion, so what was not asked for stays with the iterator. *)
Theorem C94_map_extend {S K V : Type} (e : env) (os : nat -> K -> oracle K) : forall (src : source S (K * V)) st lo hi items panics fuel (m : bstmap K V),
  src_hint src st = Some (lo, hi) -> yields src st items panics -> length items < fuel ->
  let out := map_extend e os (mkUserIter lo hi items panics) m in
  exists n,
    map_extend_from e os src fuel (m, (st, [])) =
      (out.1, (out.2, ((asked src n st).2, AskedHint :: repeat AskedNext n))) /\
    asked_until (fun l => map_extend e os (mkUserIter lo hi l false) m)
      (fun j x m => rmap (fun _ => tt) (bstmap_insert e (os j x.1) x.1 x.2 m).1)
      items panics out.1 n.
Proof. exact (map_extend_from_yields e os). Qed.
Print Assumptions C94_map_extend.

(** BSTMap::from_iter. *)
Theorem C94_map_collect {S K V : Type} (e : env) (os : nat -> K -> oracle K) : forall (src : source S (K * V)) st lo hi items panics fuel,
  src_hint src st = Some (lo, hi) -> yields src st items panics -> length items < fuel ->
  let out := map_from_iter (V:=V) e os (mkUserIter lo hi items panics) in
  exists n,
    map_collect_from (V:=V) e os src fuel st =
      (out.1, (out.2, ((asked src n st).2, AskedHint :: repeat AskedNext n))) /\
    asked_until (fun l => map_from_iter (V:=V) e os (mkUserIter lo hi l false))
      (fun j x m => rmap (fun _ => tt) (bstmap_insert e (os j x.1) x.1 x.2 m).1)
      items panics out.1 n.
Proof. exact (map_collect_from_yields e os). Qed.
Print Assumptions C94_map_collect.

(** BSTSet::extend. *)
Theorem C94_set_extend {S T : Type} (e : env) (os : nat -> T -> oracle T) : forall (src : source S T) st lo hi items panics fuel (m : bstset T),
  src_hint src st = Some (lo, hi) -> yields src st items panics -> length items < fuel ->
  let out := set_extend e os (mkUserIter lo hi items panics) m in
  exists n,
    set_extend_from e os src fuel (m, (st, [])) =
      (out.1, (out.2, ((asked src n st).2, AskedHint :: repeat AskedNext n))) /\
    asked_until (fun l => set_extend e os (mkUserIter lo hi l false) m)
      (fun j x m => rmap (fun _ => tt) (set_insert e (os j x) x m).1)
      items panics out.1 n.
Proof. exact (set_extend_from_yields e os). Qed.
Print Assumptions C94_set_extend.

(** BSTSet::from_iter. *)
Theorem C94_set_collect {S T : Type} (e : env) (os : nat -> T -> oracle T) : forall (src : source S T) st lo hi items panics fuel,
  src_hint src st = Some (lo, hi) -> yields src st items panics -> length items < fuel ->
  let out := set_from_iter e os (mkUserIter lo hi items panics) in
  exists n,
    set_collect_from e os src fuel st =
      (out.1, (out.2, ((asked src n st).2, AskedHint :: repeat AskedNext n))) /\
    asked_until (fun l => set_from_iter e os (mkUserIter lo hi l false))
      (fun j x m => rmap (fun _ => tt) (set_insert e (os j x) x m).1)
      items panics out.1 n.
Proof. exact (set_collect_from_yields e os). Qed.
Print Assumptions C94_set_collect.

(** SimpleBSTMap::extend never asks for the size hint. *)
Theorem C94_simple_extend {S K V : Type} (e : benv) (os : nat -> K -> oracle K) : forall (src : source S (K * V)) st lo hi items panics fuel (m : simple K V),
  yields src st items panics -> length items < fuel ->
  let out := simple_extend e os (mkUserIter lo hi items panics) m in
  exists n,
    simple_extend_from e os src fuel (m, (st, [])) =
      (out.1, (out.2, ((asked src n st).2, repeat AskedNext n))) /\
    asked_until (fun l => simple_extend e os (mkUserIter lo hi l false) m)
      (fun j x m => rmap (fun _ => tt) (simple_insert e (os j x.1) x.1 x.2 m).1)
      items panics out.1 n.
Proof. intros *. apply simple_from_yields. Qed.
Print Assumptions C94_simple_extend.

(** SimpleBSTMap::from_iter. *)
Theorem C94_simple_collect {S K V : Type} (e : benv) (os : nat -> K -> oracle K) : forall (src : source S (K * V)) st lo hi items panics fuel,
  yields src st items panics -> length items < fuel ->
  let out := simple_from_iter (V:=V) e os (mkUserIter lo hi items panics) in
  exists n,
    simple_collect_from (V:=V) e os src fuel st =
      (out.1, (out.2, ((asked src n st).2, repeat AskedNext n))) /\
    asked_until (fun l => simple_from_iter (V:=V) e os (mkUserIter lo hi l false))
      (fun j x m => rmap (fun _ => tt) (simple_insert e (os j x.1) x.1 x.2 m).1)
      items panics out.1 n.
Proof. intros *. apply (simple_from_yields e os src st lo hi items panics fuel []). Qed.
Print Assumptions C94_simple_collect.

(** SimpleBSTSet::extend. *)
Theorem C94_sset_extend {S T : Type} (e : benv) (os : nat -> T -> oracle T) : forall (src : source S T) st lo hi items panics fuel (m : sset T),
  yields src st items panics -> length items < fuel ->
  let out := sset_extend e os (mkUserIter lo hi items panics) m in
  exists n,
    sset_extend_from e os src fuel (m, (st, [])) =
      (out.1, (out.2, ((asked src n st).2, repeat AskedNext n))) /\
    asked_until (fun l => sset_extend e os (mkUserIter lo hi l false) m)
      (fun j x m => rmap (fun _ => tt) (sset_insert e (os j x) x m).1)
      items panics out.1 n.
Proof. intros *. apply sset_from_yields. Qed.
Print Assumptions C94_sset_extend.

(** SimpleBSTSet::from_iter. *)
Theorem C94_sset_collect {S T : Type} (e : benv) (os : nat -> T -> oracle T) : forall (src : source S T) st lo hi items panics fuel,
  yields src st items panics -> length items < fuel ->
  let out := sset_from_iter e os (mkUserIter lo hi items panics) in
  exists n,
    sset_collect_from e os src fuel st =
      (out.1, (out.2, ((asked src n st).2, repeat AskedNext n))) /\
    asked_until (fun l => sset_from_iter e os (mkUserIter lo hi l false))
      (fun j x m => rmap (fun _ => tt) (sset_insert e (os j x) x m).1)
      items panics out.1 n.
Proof. intros *. apply (sset_from_yields e os src st lo hi items panics fuel []). Qed.
Print Assumptions C94_sset_collect.

(** A panic of [size_hint()] leaves the map and the iterator as they were. *)
Theorem C94_hint_panics {S K V : Type} (e : env) (os : nat -> K -> oracle K) : forall (src : source S (K * V)) st fuel (m : bstmap K V),
  src_hint src st = None ->
  map_extend_from e os src fuel (m, (st, [])) = (Panic PIter, (m, (st, [AskedHint]))) /\
  map_collect_from (V:=V) e os src fuel st = (Panic PIter, (map_new, (st, [AskedHint]))).
Proof. exact (hint_panics e os). Qed.
Print Assumptions C94_hint_panics.
Theorem C94_set_hint_panics {S T : Type} (e : env) (os : nat -> T -> oracle T) : forall (src : source S T) st fuel (m : bstset T),
  src_hint src st = None ->
  set_extend_from e os src fuel (m, (st, [])) = (Panic PIter, (m, (st, [AskedHint]))) /\
  set_collect_from e os src fuel st = (Panic PIter, (set_new, (st, [AskedHint]))).
Proof. intros src. exact (hint_panics e os (units_source src)). Qed.
Print Assumptions C94_set_hint_panics.

(** With an iterator that never ends no call returns, however long it runs. *)
Theorem C94_endless {S K V : Type} : forall (src : source S (K * V)) st, endless src st -> forall fuel,
  (forall e os (m : bstmap K V), (map_extend_from e os src fuel (m, (st, []))).1 <> Ret tt) /\
  (forall e os, (map_collect_from e os src fuel st).1 <> Ret tt) /\
  (forall e os (m : simple K V), (simple_extend_from e os src fuel (m, (st, []))).1 <> Ret tt) /\
  (forall e os, (simple_collect_from e os src fuel st).1 <> Ret tt).
Proof. exact endless_never_returns. Qed.
Print Assumptions C94_endless.
Theorem C94_set_endless {S T : Type} : forall (src : source S T) st, endless src st -> forall fuel,
  (forall e os (m : bstset T), (set_extend_from e os src fuel (m, (st, []))).1 <> Ret tt) /\
  (forall e os, (set_collect_from e os src fuel st).1 <> Ret tt) /\
  (forall e os (m : sset T), (sset_extend_from e os src fuel (m, (st, []))).1 <> Ret tt) /\
  (forall e os, (sset_collect_from e os src fuel st).1 <> Ret tt).
Proof. exact set_endless_never_returns. Qed.
Print Assumptions C94_set_endless.

(** After any number of rounds the map holds what it would after so many items. *)
Theorem C94_rounds {S K V : Type} (e : env) (os : nat -> K -> oracle K) : forall (src : source S (K * V)) st lo hi items (m : bstmap K V),
  src_hint src st = Some (lo, hi) ->
  (asked src (length items) st).1 = Gives <$> items ->
  let out := map_extend e os (mkUserIter lo hi items false) m in
  exists n,
    map_extend_from e os src (length items) (m, (st, [])) =
      (match out.1 with Ret _ => Diverge | r => r end,
       (out.2, ((asked src n st).2, AskedHint :: repeat AskedNext n))) /\
    n <= length items /\ (out.1 = Ret tt -> n = length items).
Proof. exact (map_extend_from_endless e os). Qed.
Print Assumptions C94_rounds.
Theorem C94_simple_rounds {S K V : Type} (e : benv) (os : nat -> K -> oracle K) : forall (src : source S (K * V)) st lo hi items (m : simple K V),
  (asked src (length items) st).1 = Gives <$> items ->
  let out := simple_extend e os (mkUserIter lo hi items false) m in
  exists n,
    simple_extend_from e os src (length items) (m, (st, [])) =
      (match out.1 with Ret _ => Diverge | r => r end,
       (out.2, ((asked src n st).2, repeat AskedNext n))) /\
    n <= length items /\ (out.1 = Ret tt -> n = length items).
Proof. intros src st lo hi items m H. exact (simple_from_endless e os src st lo hi items [] m H). Qed.
Print Assumptions C94_simple_rounds.

(** ** A case

    An iterator over numbers that yields 3, 1, 2, returns [None] and then yields again;
    a state past 20 panics. Its hint is wrong. *)
Definition src1 : source nat (SK * N) :=
  mkSource (fun st => if (st <? 20) then Some (1%N, None) else None)
    (fun st => (match st with
                | 0 => Gives ((3, 0), 30)%N | 1 => Gives ((1, 0), 10)%N | 2 => Gives ((2, 0), 20)%N
                | 3 => Ends
                | _ => if (st <? 20) then Gives ((N.of_nat st, 0), 7)%N else NextPanics
                end, Datatypes.S st)).
Definition src_forever : source nat (SK * N) :=
  mkSource (fun _ => Some (0%N, None)) (fun st => (Gives ((N.of_nat st, 0), 7)%N, Datatypes.S st)).
Definition src_keys : source nat SK :=
  mkSource (src_hint src1) (fun st => let '(x, st') := src_next src1 st in
    (match x with Gives kv => Gives kv.1 | Ends => Ends | NextPanics => NextPanics end, st')).

Example src1_yields : yields src1 0 [((3, 0), 30); ((1, 0), 10); ((2, 0), 20)]%N false.
Proof. done. Qed.
Example src1_panics : yields src1 18 [((18, 0), 7); ((19, 0), 7)]%N true.
Proof. done. Qed.
Example src_keys_yields : yields src_keys 0 [(3, 0); (1, 0); (2, 0)]%N false.
Proof. done. Qed.
Lemma src_forever_endless st : endless src_forever st.
Proof.
  intros n. revert st. induction n as [|n IH]; intros st; [by exists []|].
  destruct (IH (Datatypes.S st)) as [l Hl]. exists (((N.of_nat st, 0), 7)%N :: l).
  rewrite asked_S. change (src_next src_forever st) with (Gives ((N.of_nat st, 0), 7)%N, Datatypes.S st).
  cbn [fst snd]. by rewrite Hl.
Qed.

(** Comparisons that panic when the item number 2 is inserted. *)
Definition sos_late : nat -> SK -> oracle SK := fun j k => if (j =? 2) then so_panic 1 (scmp k) else so (scmp k).

Definition seen {C} (x : res unit * pulling nat C) : res unit * (nat * list src_call) := (x.1, x.2.2).

Example C94_case :
  seen (map_extend_from senv sos src1 9 (map_new, (0, []))) = (Ret tt, (4, [AskedHint; AskedNext; AskedNext; AskedNext; AskedNext]))
  /\ seen (map_extend_from senv sos src1 9 (map_new, (18, []))) = (Panic PIter, (21, [AskedHint; AskedNext; AskedNext; AskedNext]))
  /\ seen (map_extend_from senv sos_late src1 9 (map_new, (0, []))) = (Panic PCmp, (3, [AskedHint; AskedNext; AskedNext; AskedNext]))
  /\ seen (map_extend_from senv sos src1 9 (map_new, (20, []))) = (Panic PIter, (20, [AskedHint]))
  /\ seen (map_collect_from senv sos_late src1 9 0) = (Panic PCmp, (3, [AskedHint; AskedNext; AskedNext; AskedNext]))
  /\ seen (set_collect_from senv sos src_keys 9 0) = (Ret tt, (4, [AskedHint; AskedNext; AskedNext; AskedNext; AskedNext]))
  /\ seen (simple_extend_from benv0 sos src1 9 (simple_new, (0, []))) = (Ret tt, (4, [AskedNext; AskedNext; AskedNext; AskedNext]))
  /\ seen (sset_collect_from sset_env sos_late src_keys 9 0) = (Panic PCmp, (3, [AskedNext; AskedNext; AskedNext]))
  /\ (map_extend_from senv sos src_forever 12 (map_new, (0, []))).1 = Diverge
  /\ asked_until (fun l => map_extend senv sos_late (mkUserIter 1%N None l false) map_new)
       (fun j x m => rmap (fun _ => tt) (bstmap_insert senv (sos_late j x.1) x.1 x.2 m).1)
       [((3, 0), 30); ((1, 0), 10); ((2, 0), 20)]%N false (Panic PCmp) 3.
Proof.
  do 9 (split; [by vm_compute|]).
  destruct (C94_map_extend senv sos_late src1 0 1%N None _ false 9 map_new eq_refl src1_yields ltac:(vm_compute; lia)) as (n & Hn & Hu).
  assert (Hl : (map_extend_from senv sos_late src1 9 (map_new, (0, []))).2.2.2 = [AskedHint; AskedNext; AskedNext; AskedNext]) by by vm_compute.
  rewrite Hn in Hl. cbn [fst snd] in Hl. injection Hl as Hl.
  apply (f_equal length) in Hl. rewrite repeat_length in Hl. cbn in Hl. subst n.
  match type of Hu with asked_until _ _ _ _ ?r _ => assert (Hr : r = Panic PCmp) by by vm_compute end.
  rewrite Hr in Hu. exact Hu.
Qed.
Example C94_endless_case : forall fuel, (map_extend_from senv sos src_forever fuel (map_new, (0, []))).1 <> Ret tt.
Proof. intros fuel. apply (C94_endless src_forever 0 (src_forever_endless 0) fuel). Qed.
