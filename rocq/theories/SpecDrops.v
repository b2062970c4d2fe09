(** * Vocabulary for destructors that panic *)

From Verif Require Export SpecSafety ModelDrops.

Section drops.
Context {K V : Type}.
Implicit Types m : bstmap K V.

(** The same memory and the same root: every method returns the same. Only the
    records of what was destroyed may differ. *)
Definition alike m m' : Prop := m_nodes m = m_nodes m' /\ m_root m = m_root m'.

(** [c'] is what the call [c] had done when a destructor panicked: the first items of
    an [extend], the first events of a program with a mutable iterator, all or nothing
    of a clone (nothing: a call that only reads), and everything for the other calls. *)
Definition part_of (c c' : op K V) : Prop :=
  match c with
  | OExtend os it => exists n, c' = OExtend os (mkUserIter (ui_lo it) (ui_hi it) (take n (ui_items it)) false)
  | OIterMut d evs => exists n, c' = OIterMut d (take n evs)
  | OClone _ _ _ => c' = c \/ c' = OCapacity
  | _ => c' = c
  end.

(** The call [c] with result [r] did what the call [c'] with result [r'] does, which
    meets no destructor that panics. *)
Definition as_if (c : op K V) (r : res (out K V)) (c' : op K V) (r' : res (out K V)) : Prop :=
  (c' = c /\ r' = r) \/ (r = Panic PDrop /\ part_of c c' /\ exists x, r' = Ret x).

Fixpoint all_as_if (cs : list (dcall K V)) (rs : list (res (out K V))) (cs' : list (op K V)) (rs' : list (res (out K V))) : Prop :=
  match cs, rs, cs', rs' with
  | [], [], [], [] => True
  | c :: cs, r :: rs, c' :: cs', r' :: rs' => as_if c.2 r c' r' /\ all_as_if cs rs cs' rs'
  | _, _, _, _ => False
  end.

(** No destructor panics during [clear] (what happens otherwise is C29). *)
Definition quiet_clear (x : dcall K V) : Prop := x.2 = OClear -> forall y, x.1 y = false.

(** The destructors that panicked among those that ran for [l]: exactly one if this is
    how the call ended, else none. *)
Definition stops_at_first (bad : K + V -> bool) (r : res (out K V)) (l : list (K + V)) : Prop :=
  match r with
  | Panic PDrop => exists l1 x l2, l = l1 ++ x :: l2 /\ bad x = true /\ Forall (fun y => bad y = false) (l1 ++ l2)
  | _ => Forall (fun y => bad y = false) l
  end.

(** What a history gave back to its callers. *)
Fixpoint all_handed (cs : list (dcall K V)) (rs : list (res (out K V))) : list (K + V) :=
  match cs, rs with
  | c :: cs, r :: rs => handed c.2 r ++ all_handed cs rs
  | _, _ => []
  end.

(** How many destructors panicked in a call with result [r], and in a history. *)
Definition drop_panics {A} (r : res A) : nat := match r with Panic PDrop => 1 | _ => 0 end.
Fixpoint all_panics {A} (rs : list (res A)) : nat :=
  match rs with [] => 0 | r :: rs => drop_panics r + all_panics rs end.

(** What some compilers leak: at most one value for each of [n] panics, never a key. *)
Definition leaked (leaky : bool) (n : nat) (L : list (K + V)) : Prop :=
  length L <= (if leaky then n else 0) /\ Forall (fun x => exists v, x = inr v) L.

(** The result [r'] and the map [m'] of a call which, if no destructor panicked, would
    return [r] and leave [m0], having destroyed [y] last of all when its result, which
    owns [x], was ready. *)
Definition ends_past (leaky : bool) (bad : K + V -> bool) (x y : K + V) (r : res (out K V)) m0 (r' : res (out K V)) m' : Prop :=
  if bad y then
    if negb leaky && bad x then r' = Abort
    else r' = Panic PDrop /\ alike m' m0 /\ dropped m' ≡ₚ dropped m0 ++ (if leaky then [] else [x])
  else r' = r /\ m' = m0.

(** The value that a call replaces by the one it is given. *)
Definition overwritten (c : op K V) (r : res (out K V)) : option V :=
  match c, r with
  | OGetMut _ (Some _), Ret (OutValue (Some v)) => Some v
  | OGetEntryMut _ (Some _), Ret (OutEntry (Some (_, v))) => Some v
  | OWalkMut _ (Some _), Ret (OutNode (Some (_, v, _, _))) => Some v
  | _, _ => None
  end.

End drops.
