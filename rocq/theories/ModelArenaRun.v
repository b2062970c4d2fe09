(** * Histories of calls to the two private containers

    src/arena.rs (StableArena) and src/slab.rs (UnsafeSlab), used directly rather
    than through the tree. *)

From Verif Require Export ModelSlab.
Local Open Scope N_scope.

(** Which end of an iterator is asked: [next()] or [next_back()]. *)
Inductive iter_end := AtFront | AtBack.

(** ** StableArena *)

(** One call. [AGet] and [ASet] are [get_unchecked] and a store through
    [get_unchecked_mut]. [AIter] is [iter().pointers()] (arena.rs:272-274, 467-475,
    654-656) followed by the given sequence of [next()] and [next_back()];
    [AIterMut] the same on [iter_mut()] (arena.rs:277-279, 477-485), where each call may be followed by a store through the reference it returned.
    The argument of [AClear] says which destructors panic. *)
Inductive arena_op (T : Type) :=
| AAlloc (x : T)
| AGet (p : Ptr)
| ASet (p : Ptr) (x : T)
| AReserve (n : N)
| AShrink
| AClear (panics : T -> bool)
| ALen
| AIsEmpty
| ACapacity
| AIter (ends : list iter_end)
| AIterMut (calls : list (iter_end * option T)).
Arguments AAlloc {T}.
Arguments AGet {T}.
Arguments ASet {T}.
Arguments AReserve {T}.
Arguments AShrink {T}.
Arguments AClear {T}.
Arguments ALen {T}.
Arguments AIsEmpty {T}.
Arguments ACapacity {T}.
Arguments AIter {T}.
Arguments AIterMut {T}.

(** What a call returns. [AItems] lists, for each call of an iterator method, the
    [size_hint] before it and its result. *)
Inductive arena_out (T : Type) :=
| AUnit
| APtr (p : Ptr)
| AValue (x : T)
| ANum (n : N)
| ABool (b : bool)
| AItems (l : list (N * option (Ptr * T))).
Arguments AUnit {T}.
Arguments APtr {T}.
Arguments AValue {T}.
Arguments ANum {T}.
Arguments ABool {T}.
Arguments AItems {T}.

Section arena_run.
Context {T : Type}.
Implicit Types a : arena T.

(** arena.rs:546-571 and 575-584 through [Pointers] (arena.rs:664-680) *)
Definition end_ptr (e : env) a (d : iter_end) : M range (option (Ptr * T)) :=
  match d with AtFront => next_ptr e a | AtBack => next_back_ptr e a end.

Fixpoint arena_iter_calls (e : env) a (ds : list iter_end) (r : range) : res (list (N * option (Ptr * T))) :=
  match ds with
  | [] => Ret []
  | d :: ds =>
    let '(x, r') := end_ptr e a d r in
    let* x := x in
    let* l := arena_iter_calls e a ds r' in
    Ret ((iter_size r, x) :: l)
  end.

(** arena.rs:586-646: the iterator owns the exclusive reference to the arena. *)
Fixpoint arena_iter_mut_calls (e : env) (ds : list (iter_end * option T)) (r : range)
  : M (arena T) (list (N * option (Ptr * T))) :=
  match ds with
  | [] => sret []
  | (d, w) :: ds =>
    let! a := sget in
    let '(x, r') := end_ptr e a d r in
    let! x := slift x in
    let! _ := match x, w with
              | Some (p, _), Some w => arena_set p w
              | _, _ => sret tt
              end in
    let! l := arena_iter_mut_calls e ds r' in
    sret ((iter_size r, x) :: l)
  end.

Definition arena_exec (e : env) (c : arena_op T) : M (arena T) (arena_out T) :=
  match c with
  | AAlloc x => let! p := arena_alloc e x in sret (APtr p)
  | AGet p => let! a := sget in let! x := slift (arena_get a p) in sret (AValue x)
  | ASet p x => let! _ := arena_set p x in sret AUnit
  | AReserve n => let! _ := arena_reserve e n in sret AUnit
  | AShrink => let! _ := arena_shrink_to_fit e in sret AUnit
  | AClear pn => let! _ := arena_clear e (e_nd e) pn in sret AUnit
  | ALen => let! a := sget in sret (ANum (arena_len a))
  | AIsEmpty => let! a := sget in sret (ABool (arena_is_empty a))
  | ACapacity => let! a := sget in sret (ANum (arena_capacity a))
  | AIter ds => let! a := sget in
                let! l := slift (arena_iter_calls e a ds (iter_new a)) in sret (AItems l)
  | AIterMut ds => let! a := sget in
                   let! l := arena_iter_mut_calls e ds (iter_new a) in sret (AItems l)
  end.

(** arena.rs:456-464 [IntoIterator for StableArena]: not written yet ([todo!()]);
    unwinding drops the arena, which was passed by value. *)
Definition arena_into_iter (e : env) (panics : T -> bool) : M (arena T) unit :=
  let! _ := arena_drop e (e_nd e) panics in
  sfail PTodo.

(** arena.rs:158-162 [Debug::fmt]: the entries given to [debug_list]. *)
Fixpoint arena_debug_loop (e : env) (fuel : nat) a (r : range) : res (list T) :=
  match fuel with
  | O => Diverge
  | S fuel =>
    let '(x, r') := next_ptr e a r in
    let* x := x in
    match x with
    | None => Ret []
    | Some (_, x) => let* l := arena_debug_loop e fuel a r' in Ret (x :: l)
    end
  end.
Definition arena_debug (e : env) a : res (list T) :=
  arena_debug_loop e (S (N.to_nat (arena_len a))) a (iter_new a).

(** The process goes on after a panic (caught by the caller), not after an abort. *)
Fixpoint arena_run (e : env) (cs : list (arena_op T)) a : list (res (arena_out T)) * arena T :=
  match cs with
  | [] => ([], a)
  | c :: cs =>
    match arena_exec e c a with
    | (Ret x, a') => let '(rs, a'') := arena_run e cs a' in (Ret x :: rs, a'')
    | (Panic p, a') => let '(rs, a'') := arena_run e cs a' in (Panic p :: rs, a'')
    | (r, a') => ([r], a')
    end
  end.

(** [new()] (= [default()]) or [with_capacity(n)] *)
Definition arena_begin (e : env) (n : option N) : res unit * arena T :=
  match n with
  | None => (Ret tt, arena_new)
  | Some n => arena_with_capacity e n
  end.

Definition arena_reached (e : env) (n : option N) (cs : list (arena_op T)) (rs : list (res (arena_out T))) a : Prop :=
  exists a0, arena_begin e n = (Ret tt, a0) /\ arena_run e cs a0 = (rs, a).

End arena_run.

(** ** UnsafeSlab *)

(** One call. [SUpdate p f] stores through [get_unchecked_mut] a value computed
    from the old one. *)
Inductive slab_op (T : Type) :=
| SPush (x : T)
| SRemove (p : Ptr)
| SGet (p : Ptr)
| SUpdate (p : Ptr) (f : T -> T)
| SReserve (n : N)
| SShrink
| SClear (panics : T -> bool)
| SLen
| SIsEmpty
| SCapacity.
Arguments SPush {T}.
Arguments SRemove {T}.
Arguments SGet {T}.
Arguments SUpdate {T}.
Arguments SReserve {T}.
Arguments SShrink {T}.
Arguments SClear {T}.
Arguments SLen {T}.
Arguments SIsEmpty {T}.
Arguments SCapacity {T}.

Inductive slab_out (T : Type) :=
| SlabUnit
| SlabPtr (p : Ptr)
| SlabValue (x : T)
| SlabNum (n : N)
| SlabBool (b : bool).
Arguments SlabUnit {T}.
Arguments SlabPtr {T}.
Arguments SlabValue {T}.
Arguments SlabNum {T}.
Arguments SlabBool {T}.

Section slab_run.
Context {T : Type}.
Implicit Types s : slab T.

Definition slab_exec (e : env) (c : slab_op T) : M (slab T) (slab_out T) :=
  match c with
  | SPush x => let! p := slab_push e x in sret (SlabPtr p)
  | SRemove p => let! x := slab_remove e p in sret (SlabValue x)
  | SGet p => let! s := sget in let! x := slift (slab_get s p) in sret (SlabValue x)
  | SUpdate p f => let! x := slab_update p f in sret (SlabValue x)
  | SReserve n => let! _ := slab_reserve e n in sret SlabUnit
  | SShrink => let! _ := slab_shrink_to_fit e in sret SlabUnit
  | SClear pn => let! _ := slab_clear e pn in sret SlabUnit
  | SLen => let! s := sget in let! n := slift (slab_len e s) in sret (SlabNum n)
  | SIsEmpty => let! s := sget in let! b := slift (slab_is_empty e s) in sret (SlabBool b)
  | SCapacity => let! s := sget in sret (SlabNum (slab_capacity s))
  end.

Fixpoint slab_run (e : env) (cs : list (slab_op T)) s : list (res (slab_out T)) * slab T :=
  match cs with
  | [] => ([], s)
  | c :: cs =>
    match slab_exec e c s with
    | (Ret x, s') => let '(rs, s'') := slab_run e cs s' in (Ret x :: rs, s'')
    | (Panic p, s') => let '(rs, s'') := slab_run e cs s' in (Panic p :: rs, s'')
    | (r, s') => ([r], s')
    end
  end.

Definition slab_begin (e : env) (n : option N) : res unit * slab T :=
  match n with
  | None => (Ret tt, slab_new)
  | Some n => slab_with_capacity e n
  end.

Definition slab_reached (e : env) (n : option N) (cs : list (slab_op T)) (rs : list (res (slab_out T))) s : Prop :=
  exists s0, slab_begin e n = (Ret tt, s0) /\ slab_run e cs s0 = (rs, s).

End slab_run.
