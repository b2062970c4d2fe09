(** * What the two private containers should do

    An arena is the list of the addresses it handed out since the last [clear], in
    order, with the value last stored at each. A slab is a finite map from the
    addresses in use to their values. Only types are taken from the model. *)

From Verif Require Export ModelArenaRun.
Local Open Scope N_scope.

(** What an allocation that does not succeed does: capacity overflow, an allocator
    that hands out more than was asked for (arena.rs:404), or no memory at all. *)
Definition no_room {A} (r : res A) : Prop :=
  r = Panic PCapacity \/ r = Panic PAssert \/ r = Abort.

(** What [reserve(n)] may do: nothing visible, fail for want of memory, or report
    that the sum does not fit a usize. *)
Definition reserve_answers {A} (len n : N) (unit_ : A) (r : res A) : Prop :=
  r = Ret unit_ \/ no_room r \/ (r = Panic POverflow /\ 2 ^ 64 <= len + n).

Section arena_spec.
Context {T : Type}.
Implicit Types l : list (Ptr * T).

(** The value at an address, and a store there. *)
Fixpoint held l (p : Ptr) : option T :=
  match l with
  | [] => None
  | (q, x) :: l => if decide (q = p) then Some x else held l p
  end.
Fixpoint store l (p : Ptr) (w : T) : list (Ptr * T) :=
  match l with
  | [] => []
  | (q, x) :: l => if decide (q = p) then (q, w) :: l else (q, x) :: store l p w
  end.

(** Taking elements from the two ends of a list: the remaining length before each
    call and the element, if any is left. *)
Fixpoint from_ends {A} (l : list A) (ds : list iter_end) : list (N * option A) :=
  match ds with
  | [] => []
  | AtFront :: ds => (N.of_nat (length l), head l) :: from_ends (tail l) ds
  | AtBack :: ds => (N.of_nat (length l), last l) :: from_ends (removelast l) ds
  end.

(** The elements that came out at one of the ends. *)
Definition end_is (d d' : iter_end) : bool :=
  match d, d' with AtFront, AtFront | AtBack, AtBack => true | _, _ => false end.
Fixpoint came_out {A} (d : iter_end) (ds : list iter_end) (ys : list (N * option A)) : list A :=
  match ds, ys with
  | d' :: ds, (_, Some x) :: ys => if end_is d d' then x :: came_out d ds ys else came_out d ds ys
  | _ :: ds, _ :: ys => came_out d ds ys
  | _, _ => []
  end.

(** The stores made while iterating. *)
Fixpoint store_yielded l (ys : list (N * option (Ptr * T))) (ws : list (option T)) : list (Ptr * T) :=
  match ys, ws with
  | (_, Some (p, _)) :: ys, Some w :: ws => store_yielded (store l p w) ys ws
  | _ :: ys, _ :: ws => store_yielded l ys ws
  | _, _ => l
  end.

(** The contract of the unsafe methods: only addresses in use. And no destructor
    run by [clear] panics. *)
Definition arena_legal l (c : arena_op T) : Prop :=
  match c with
  | AGet p | ASet p _ => p ∈ l.*1
  | AClear pn => Forall (fun x => pn x = false) l.*2
  | _ => True
  end.

(** The results allowed. *)
Definition arena_answers l (c : arena_op T) (r : res (arena_out T)) : Prop :=
  match c with
  | AAlloc x => (exists p, r = Ret (APtr p) /\ p ∉ l.*1) \/ no_room r
  | AGet p => exists x, r = Ret (AValue x) /\ (p, x) ∈ l
  | AReserve n => reserve_answers (N.of_nat (length l)) n AUnit r
  | ASet _ _ | AShrink | AClear _ => r = Ret AUnit
  | ALen => r = Ret (ANum (N.of_nat (length l)))
  | AIsEmpty => r = Ret (ABool (match l with [] => true | _ => false end))
  | ACapacity => exists n, r = Ret (ANum n) /\ N.of_nat (length l) <= n
  | AIter ds => r = Ret (AItems (from_ends l ds))
  | AIterMut ds => r = Ret (AItems (from_ends l ds.*1))
  end.

(** The contents after a call with a given result. *)
Definition arena_after l (c : arena_op T) (r : res (arena_out T)) : list (Ptr * T) :=
  match c, r with
  | AAlloc x, Ret (APtr p) => l ++ [(p, x)]
  | ASet p w, Ret _ => store l p w
  | AClear _, Ret _ => []
  | AIterMut ds, Ret (AItems ys) => store_yielded l ys ds.*2
  | _, _ => l
  end.

(** Does the process go on after this result? *)
Definition process_on {A} (r : res A) : Prop :=
  match r with Ret _ | Panic _ => True | _ => False end.

(** The whole history respects the contract. *)
Fixpoint arena_contract l (cs : list (arena_op T)) (rs : list (res (arena_out T))) : Prop :=
  match cs, rs with
  | c :: cs, r :: rs => arena_legal l c /\ arena_contract (arena_after l c r) cs rs
  | c :: _, [] => arena_legal l c
  | [], _ => True
  end.

(** All results are as they should be. *)
Fixpoint arena_results l (cs : list (arena_op T)) (rs : list (res (arena_out T))) : Prop :=
  match cs, rs with
  | [], [] => True
  | c :: cs, r :: rs =>
    arena_answers l c r /\
    ((process_on r /\ arena_results (arena_after l c r) cs rs) \/ (~ process_on r /\ rs = []))
  | _, _ => False
  end.

(** The contents at the end, and the values whose destructor has run. *)
Fixpoint arena_contents l (cs : list (arena_op T)) (rs : list (res (arena_out T))) : list (Ptr * T) :=
  match cs, rs with
  | c :: cs, r :: rs => arena_contents (arena_after l c r) cs rs
  | _, _ => l
  end.
Fixpoint arena_dropped (nd : bool) l (cs : list (arena_op T)) (rs : list (res (arena_out T))) : list T :=
  match cs, rs with
  | c :: cs, r :: rs =>
    (match c, r with
     | AClear _, Ret _ => if nd then l.*2 else []
     | _, _ => []
     end) ++ arena_dropped nd (arena_after l c r) cs rs
  | _, _ => []
  end.

End arena_spec.

Section slab_spec.
Context {T : Type}.
Implicit Types L : gmap Ptr T.

Definition slab_legal L (c : slab_op T) : Prop :=
  match c with
  | SRemove p | SGet p | SUpdate p _ => is_Some (L !! p)
  | SClear pn => forall x, pn x = false
  | _ => True
  end.

Definition slab_answers L (c : slab_op T) (r : res (slab_out T)) : Prop :=
  match c with
  | SPush x => (exists p, r = Ret (SlabPtr p) /\ L !! p = None) \/ no_room r
  | SRemove p | SGet p | SUpdate p _ => exists x, r = Ret (SlabValue x) /\ L !! p = Some x
  | SReserve n => r = Ret SlabUnit \/ no_room r \/ (r = Panic POverflow /\ 2 ^ 63 <= n)
  | SShrink | SClear _ => r = Ret SlabUnit
  | SLen => r = Ret (SlabNum (N.of_nat (size L)))
  | SIsEmpty => r = Ret (SlabBool (N.of_nat (size L) =? 0))
  | SCapacity => exists n, r = Ret (SlabNum n) /\ N.of_nat (size L) <= n
  end.

Definition slab_after L (c : slab_op T) (r : res (slab_out T)) : gmap Ptr T :=
  match c, r with
  | SPush x, Ret (SlabPtr p) => <[p := x]> L
  | SRemove p, Ret _ => delete p L
  | SUpdate p f, Ret _ => alter f p L
  | SClear _, Ret _ => ∅
  | _, _ => L
  end.

Fixpoint slab_contract L (cs : list (slab_op T)) (rs : list (res (slab_out T))) : Prop :=
  match cs, rs with
  | c :: cs, r :: rs => slab_legal L c /\ slab_contract (slab_after L c r) cs rs
  | c :: _, [] => slab_legal L c
  | [], _ => True
  end.

Fixpoint slab_results L (cs : list (slab_op T)) (rs : list (res (slab_out T))) : Prop :=
  match cs, rs with
  | [], [] => True
  | c :: cs, r :: rs =>
    slab_answers L c r /\
    ((process_on r /\ slab_results (slab_after L c r) cs rs) \/ (~ process_on r /\ rs = []))
  | _, _ => False
  end.

Fixpoint slab_contents L (cs : list (slab_op T)) (rs : list (res (slab_out T))) : gmap Ptr T :=
  match cs, rs with
  | c :: cs, r :: rs => slab_contents (slab_after L c r) cs rs
  | _, _ => L
  end.

(** The values whose destructor has run (in some order for each [clear]). *)
Fixpoint slab_dropped (nd : bool) L (cs : list (slab_op T)) (rs : list (res (slab_out T))) : list T :=
  match cs, rs with
  | c :: cs, r :: rs =>
    (match c, r with
     | SClear _, Ret _ => if nd then (map_to_list L).*2 else []
     | _, _ => []
     end) ++ slab_dropped nd (slab_after L c r) cs rs
  | _, _ => []
  end.

End slab_spec.
