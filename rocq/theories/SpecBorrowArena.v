(** * What programs that hold references into an arena should see

    The arena is the list [l] of SpecArena.v. An iterator is the list of the addresses that
    it has not yielded yet, a reference is an address. Only types are taken from the model. *)

From Verif Require Export SpecArena ModelBorrowArena.
Local Open Scope N_scope.

Section spec.
Context {T : Type}.
Implicit Types l : list (Ptr * T).

(** What the compiler lets a program do: with the mutable iterator it can use nothing else;
    references from shared iterators cannot be written through. And the contract of
    [get_unchecked]. *)
Definition event_legal (mut : bool) l (ev : ref_event T) : Prop :=
  match ev with
  | RIter => mut = false
  | RGet p => mut = false /\ p ∈ l.*1
  | RWrite _ _ => mut = true
  | RNext _ _ | RRead _ => True
  end.

Definition from_end {A} (d : iter_end) (q : list A) : option A :=
  match d with AtFront => head q | AtBack => last q end.
Definition rest_of {A} (d : iter_end) (q : list A) : list A :=
  match d with AtFront => tail q | AtBack => removelast q end.

(** What one event does to the contents, the iterators and the references; what is seen. *)
Definition abstract : Type := list (Ptr * T) * list (list Ptr) * list Ptr.
Definition event_after (ev : ref_event T) (s : abstract) : abstract :=
  let '(l, its, refs) := s in
  match ev with
  | RIter => (l, its ++ [l.*1], refs)
  | RNext k d =>
    match its !! k with
    | None => s
    | Some q => (l, <[k := rest_of d q]> its, refs ++ option_list (from_end d q))
    end
  | RGet p => (l, its, refs ++ [p])
  | RRead _ => s
  | RWrite j w =>
    match refs !! j with
    | None => s
    | Some p => (store l p w, its, refs)
    end
  end.
Definition event_out (ev : ref_event T) (s : abstract) : ref_out T :=
  let '(l, its, refs) := s in
  match ev with
  | RIter | RWrite _ _ => OMade
  | RNext k d => OItem (its !! k ≫= from_end d)
  | RGet p => OItem (Some p)
  | RRead j => OValue (refs !! j ≫= held l)
  end.

Fixpoint events_out (evs : list (ref_event T)) (s : abstract) : list (ref_out T) :=
  match evs with
  | [] => []
  | ev :: evs => event_out ev s :: events_out evs (event_after ev s)
  end.
Fixpoint events_after (evs : list (ref_event T)) (s : abstract) : abstract :=
  match evs with
  | [] => s
  | ev :: evs => events_after evs (event_after ev s)
  end.
(** An iterator begins with all addresses; there are no references yet. *)
Definition at_start l : abstract := (l, [l.*1], []).

(** ** Programs *)

(** [nd]: does the element type have a destructor? *)
Definition prog_legal (nd : bool) l (c : ref_op T) : Prop :=
  match c with
  | BGet p | BSet p _ => p ∈ l.*1
  | BClear => nd = false
  | BIterMut evs => Forall (event_legal true l) evs
  | BIters evs => Forall (event_legal false l) evs
  | BAlloc _ | BReserve _ | BLen => True
  end.

(** What a call or a session may answer, and the contents afterwards. *)
Definition prog_answers l (c : ref_op T) (r : res (prog_out T)) : Prop :=
  match c with
  | BAlloc x => (exists p, r = Ret (OCall (APtr p)) /\ p ∉ l.*1) \/ no_room r
  | BGet p => exists x, r = Ret (OCall (AValue x)) /\ (p, x) ∈ l
  | BSet _ _ | BClear => r = Ret (OCall AUnit)
  | BReserve n => reserve_answers (N.of_nat (length l)) n (OCall AUnit) r
  | BLen => r = Ret (OCall (ANum (N.of_nat (length l))))
  | BIterMut evs | BIters evs => r = Ret (OSession (events_out evs (at_start l)))
  end.
Definition prog_after l (c : ref_op T) (r : res (prog_out T)) : list (Ptr * T) :=
  match c, r with
  | BAlloc x, Ret (OCall (APtr p)) => l ++ [(p, x)]
  | BSet p w, Ret _ => store l p w
  | BClear, Ret _ => []
  | BIterMut evs, Ret _ => (events_after evs (at_start l)).1.1
  | _, _ => l
  end.

Fixpoint prog_contract (nd : bool) l (cs : list (ref_op T)) (rs : list (res (prog_out T))) : Prop :=
  match cs, rs with
  | c :: cs, r :: rs => prog_legal nd l c /\ prog_contract nd (prog_after l c r) cs rs
  | c :: _, [] => prog_legal nd l c
  | [], _ => True
  end.
Fixpoint prog_results l (cs : list (ref_op T)) (rs : list (res (prog_out T))) : Prop :=
  match cs, rs with
  | [], [] => True
  | c :: cs, r :: rs =>
    prog_answers l c r /\
    ((process_on r /\ prog_results (prog_after l c r) cs rs) \/ (~ process_on r /\ rs = []))
  | _, _ => False
  end.

(** The contents at the end. *)
Fixpoint prog_contents l (cs : list (ref_op T)) (rs : list (res (prog_out T))) : list (Ptr * T) :=
  match cs, rs with
  | c :: cs, r :: rs => prog_contents (prog_after l c r) cs rs
  | _, _ => l
  end.

End spec.
