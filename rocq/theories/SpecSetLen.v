(** * What an arena should do when [set_len] is used

    The arena is now a list of slots known to hold a value, and the number of them
    that count as elements. The slots behind those still hold a value: the next
    [alloc] writes over the first of them, and [set_len] can make them elements again.
    Only types are taken from the model. *)

From Verif Require Export SpecArena ModelSetLen.
Local Open Scope N_scope.

Section set_len_spec.
Context {T : Type}.

(** The slots that hold a value, in order, and the number of elements. *)
Definition filled : Type := list (Ptr * T) * nat.
Implicit Types s : filled.
Definition live_elements s : list (Ptr * T) := take s.2 s.1.

(** The contract of the unsafe methods. For [set_len] it is the documented one: all
    elements up to the new length hold a value (and so lie within the capacity). *)
Definition len_legal s (c : len_op T) : Prop :=
  match c with
  | LSetLen n => n <= N.of_nat (length s.1)
  | LCall (AGet p) | LCall (ASet p _) => p ∈ s.1.*1
  | LCall c => arena_legal (live_elements s) c
  end.

(** The results allowed. [alloc] needs no memory when there is a slot to write over,
    and uses the first one. *)
Definition len_answers s (c : len_op T) (r : res (arena_out T)) : Prop :=
  match c with
  | LSetLen _ => r = Ret AUnit
  | LCall (AAlloc x) =>
    match s.1 !! s.2 with
    | Some (p, _) => r = Ret (APtr p)
    | None => (exists p, r = Ret (APtr p) /\ p ∉ s.1.*1) \/ no_room r
    end
  | LCall (AGet p) => exists x, r = Ret (AValue x) /\ (p, x) ∈ s.1
  | LCall (ASet _ _) => r = Ret AUnit
  | LCall ACapacity => exists n, r = Ret (ANum n) /\ N.of_nat (length s.1) <= n
  | LCall c => arena_answers (live_elements s) c r
  end.

(** The slots and the length after a call. [clear] and [shrink_to_fit] leave only the
    elements known to hold a value ([shrink_to_fit] may free the others). *)
Definition len_after s (c : len_op T) (r : res (arena_out T)) : filled :=
  match c, r with
  | LSetLen n, Ret _ => (s.1, N.to_nat n)
  | LCall (AAlloc x), Ret (APtr p) => (take s.2 s.1 ++ (p, x) :: drop (S s.2) s.1, S s.2)
  | LCall (ASet p w), Ret _ => (store s.1 p w, s.2)
  | LCall AShrink, Ret _ => (live_elements s, s.2)
  | LCall (AClear _), Ret _ => ([], 0%nat)
  | LCall (AIterMut ds), Ret (AItems ys) => (store_yielded s.1 ys ds.*2, s.2)
  | _, _ => s
  end.

Fixpoint len_contract s (cs : list (len_op T)) (rs : list (res (arena_out T))) : Prop :=
  match cs, rs with
  | c :: cs, r :: rs => len_legal s c /\ len_contract (len_after s c r) cs rs
  | c :: _, [] => len_legal s c
  | [], _ => True
  end.

Fixpoint len_results s (cs : list (len_op T)) (rs : list (res (arena_out T))) : Prop :=
  match cs, rs with
  | [], [] => True
  | c :: cs, r :: rs =>
    len_answers s c r /\
    ((process_on r /\ len_results (len_after s c r) cs rs) \/ (~ process_on r /\ rs = []))
  | _, _ => False
  end.

Fixpoint len_filled s (cs : list (len_op T)) (rs : list (res (arena_out T))) : filled :=
  match cs, rs with
  | c :: cs, r :: rs => len_filled (len_after s c r) cs rs
  | _, _ => s
  end.

(** The values whose destructor has run: those that were elements at a [clear]. *)
Fixpoint len_dropped (nd : bool) s (cs : list (len_op T)) (rs : list (res (arena_out T))) : list T :=
  match cs, rs with
  | c :: cs, r :: rs =>
    (match c, r with
     | LCall (AClear _), Ret _ => if nd then (live_elements s).*2 else []
     | _, _ => []
     end) ++ len_dropped nd (len_after s c r) cs rs
  | _, _ => []
  end.

End set_len_spec.
Arguments filled : clear implicits.
