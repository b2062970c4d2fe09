(** * Vocabulary: how much memory a history needs (C99) *)

From Verif Require Export SpecMem SpecSafety SpecSetSafety.
Local Open Scope N_scope.

(** A chunk that the allocator grants has the length asked for, and entries are
    not zero-sized (an entry of the slab never is). *)
Definition exact (e : env) : Prop := e_size e <> 0 /\ forall i n c, e_alloc e i n = Some c -> c = n.

(** The smallest capacity that is chunk-aligned and covers [n] entries is an upper
    bound of [c]. *)
Definition at_most_least_room (n c : N) : Prop := forall j, n <= chunks_room j -> c <= chunks_room j.

Section map.
Context {K V : Type}.
Implicit Types m : bstmap K V.

(** The room a call needs, from the map before and after it: what a reservation
    names on top of the slots in use, otherwise the entries there are. *)
Definition wants (e : env) (c : op K V) m m' : N :=
  match c with
  | OReserve n => slots m + n
  | OExtend _ it => N.max (slots m + hinted it) (entry_count e m')
  | _ => entry_count e m'
  end.

(** The most that a call of the history needs. *)
Fixpoint most_wanted (e : env) (cs : list (op K V)) m : N :=
  match cs with
  | [] => 0
  | c :: cs =>
    let '(r, m') := exec e c m in
    N.max (wants e c m m') (match r with Ret _ | Panic _ => most_wanted e cs m' | _ => 0 end)
  end.

Definition start_wants (e : env) (s : start K V) m : N :=
  match s with
  | SNew => 0
  | SWithCapacity n => n
  | SFromIter _ it => N.max (hinted it) (entry_count e m)
  end.

(** The calls that only look at entries, insert and remove. *)
Definition plain_call (c : op K V) : Prop := match c with OReserve _ | OExtend _ _ => False | _ => True end.

(** The largest number of entries that the history ever has. *)
Fixpoint most_held (e : env) (cs : list (op K V)) m : N :=
  match cs with
  | [] => 0
  | c :: cs =>
    let '(r, m') := exec e c m in
    N.max (entry_count e m') (match r with Ret _ | Panic _ => most_held e cs m' | _ => 0 end)
  end.

Definition gives_back (c : op K V) : Prop := c = OShrink.

End map.

Section set.
Context {T : Type}.
Implicit Types m : bstset T.

Definition set_wants (e : env) (c : set_op T) m m' : N :=
  match c with
  | SetReserve n => slots m + n
  | SetExtend _ it => N.max (slots m + hinted it) (set_count e m')
  | _ => set_count e m'
  end.

Fixpoint set_most_wanted (e : env) (cs : list (set_op T)) m : N :=
  match cs with
  | [] => 0
  | c :: cs =>
    let '(r, m') := set_exec e c m in
    N.max (set_wants e c m m') (match r with Ret _ | Panic _ => set_most_wanted e cs m' | _ => 0 end)
  end.

Definition set_start_wants (e : env) (s : set_start T) m : N :=
  match s with
  | SetNew => 0
  | SetWithCapacity n => n
  | SetFromIter _ it => N.max (hinted it) (set_count e m)
  end.
End set.
