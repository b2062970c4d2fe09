(** * The arena and its iterators, under Stacked and Tree Borrows

    src/arena.rs used directly: [alloc], [get_unchecked], [get_unchecked_mut], [reserve],
    [clear], [len] and the iterators [Iter] and [IterMut], with the references of the source
    (see ModelBorrow.v). An element of the arena is one location; the struct [StableArena] is
    one location, [LSlab].

    Left out: [shrink_to_fit] and [drop] (see ModelBorrowFree.v, which has the same lines),
    the reading of [self.len] in [clear] while [self.chunks] is borrowed (another field). *)

From Verif Require Export ModelBorrowFree ModelArenaRun.
Local Open Scope N_scope.

(** The element in slot [p]. *)
Definition litem (p : Ptr) : loc := LNode p FValue.

(** What a program does while it has an iterator, or several shared ones:
    - [RIter]: it makes another iterator;
    - [RNext k d]: it calls [next()] or [next_back()] of the iterator number [k];
    - [RGet p]: it calls [get_unchecked(p)] of the arena;
    - [RRead j], [RWrite j w]: it uses the reference number [j] of those it got so far. *)
Inductive ref_event (T : Type) :=
| RIter
| RNext (k : nat) (d : iter_end)
| RGet (p : Ptr)
| RRead (j : nat)
| RWrite (j : nat) (w : T).
Arguments RIter {T}.
Arguments RNext {T}.
Arguments RGet {T}.
Arguments RRead {T}.
Arguments RWrite {T}.

(** What it sees: where the reference it got points to, if it got one; the value read. *)
Inductive ref_out (T : Type) :=
| OMade
| OItem (p : option Ptr)
| OValue (x : option T).
Arguments OMade {T}.
Arguments OItem {T}.
Arguments OValue {T}.

(** One step of a program: a call, or the life of [iter_mut()] or of some [iter()]s. *)
Inductive ref_op (T : Type) :=
| BAlloc (x : T)
| BGet (p : Ptr)
| BSet (p : Ptr) (x : T)
| BReserve (n : N)
| BLen
| BClear
| BIterMut (evs : list (ref_event T))
| BIters (evs : list (ref_event T)).
Arguments BAlloc {T}.
Arguments BGet {T}.
Arguments BSet {T}.
Arguments BReserve {T}.
Arguments BLen {T}.
Arguments BClear {T}.
Arguments BIterMut {T}.
Arguments BIters {T}.
Inductive prog_out (T : Type) :=
| OCall (x : arena_out T)
| OSession (l : list (ref_out T)).
Arguments OCall {T}.
Arguments OSession {T}.

Section borrow_arena.
Context {T : Type}.
Notation barena := (arena T * borrows)%type.

Definition on_br {A} (f : M borrows A) : M barena A := zoom snd (fun b s => (s.1, b)) f.
Definition on_ar {A} (f : M (arena T) A) : M barena A := zoom fst (fun a s => (a, s.2)) f.

(** arena.rs:223-238 [get_unchecked], [get_unchecked_mut] *)
Definition ba_get (mut : bool) (h : nat) (p : Ptr) : M barena nat :=
  let! _ := on_br (retag mut h [LSlab]) in
  on_br (retag mut base [litem p]).

(** arena.rs:272-279 and 530-536, 592-598: the reference to the arena in the iterator, and
    [arena.len()] *)
Definition ba_iter (mut : bool) (self : nat) : M barena (nat * range) :=
  let! it := on_br (retag mut self [LSlab]) in
  let! len_self := on_br (retag_shr it [LSlab]) in
  let! _ := on_br (access false len_self LSlab) in
  let! s := sget in
  sret (it, iter_new s.1).

(** arena.rs:562-584 and 624-646, with [ptr_at] (arena.rs:424-434) *)
Definition ba_next (e : env) (mut : bool) (it : nat) (r : range) (d : iter_end) : M barena (option (Ptr * nat) * range) :=
  let! s := sget in
  let '(x, r') := end_ptr e s.1 d r in
  let! x := slift x in
  match x with
  | None => sret (None, r')
  | Some (p, _) =>
    let! h := on_br (retag_shr it [LSlab]) in
    let! _ := on_br (access false h LSlab) in
    let! n := (if mut then on_br (retag_mut base [litem p]) else ba_get false it p) in
    sret (Some (p, n), r')
  end.

Definition session : Type := list (nat * range) * list (Ptr * nat).
Definition ba_event (e : env) (mut : bool) (self : nat) (ev : ref_event T) (s : session) : M barena (ref_out T * session) :=
  let '(its, refs) := s in
  match ev with
  | RIter =>
    let! it := ba_iter mut self in
    sret (OMade, (its ++ [it], refs))
  | RNext k d =>
    match its !! k with
    | None => sret (OItem None, s)
    | Some (it, r) =>
      let! xr := ba_next e mut it r d in
      let '(x, r') := xr in
      sret (OItem (fst <$> x), (<[k := (it, r')]> its, refs ++ option_list x))
    end
  | RGet p =>
    let! n := ba_get false self p in
    sret (OItem (Some p), (its, refs ++ [(p, n)]))
  | RRead j =>
    match refs !! j with
    | None => sret (OValue None, s)
    | Some (p, n) =>
      let! _ := on_br (access false n (litem p)) in
      let! st := sget in
      let! x := slift (arena_get st.1 p) in
      sret (OValue (Some x), s)
    end
  | RWrite j w =>
    match refs !! j with
    | None => sret (OMade, s)
    | Some (p, n) =>
      let! _ := on_br (access true n (litem p)) in
      let! _ := on_ar (arena_set p w) in
      sret (OMade, s)
    end
  end.
Fixpoint ba_events (e : env) (mut : bool) (self : nat) (evs : list (ref_event T)) (s : session) : M barena (list (ref_out T)) :=
  match evs with
  | [] => sret []
  | ev :: evs =>
    let! os := ba_event e mut self ev s in
    let '(o, s') := os in
    let! l := ba_events e mut self evs s' in
    sret (o :: l)
  end.
Definition ba_session (e : env) (mut : bool) (evs : list (ref_event T)) : M barena (list (ref_out T)) :=
  let! self := on_br (retag mut base [LSlab]) in
  let! it := ba_iter mut self in
  ba_events e mut self evs ([it], []).

(** The call without the references. *)
Definition plain_op (c : ref_op T) : option (arena_op T) :=
  match c with
  | BAlloc x => Some (AAlloc x)
  | BGet p => Some (AGet p)
  | BSet p x => Some (ASet p x)
  | BReserve n => Some (AReserve n)
  | BLen => Some ALen
  | BClear => Some (AClear (fun _ => false))
  | BIterMut _ | BIters _ => None
  end.

(** [chunk.as_mut()] of [clear] (arena.rs:298-302) is a [&mut] of the first element of the
    chunk, made into a raw pointer and then into a slice of all elements. *)
Fixpoint ba_clear_items (slice : nat) (c : N) (n : nat) (i : N) : M barena unit :=
  match n with
  | O => sret tt
  | S n =>
    let! item := on_br (retag_mut slice [litem (c, i)]) in
    let! _ := on_br (access true item (litem (c, i))) in
    ba_clear_items slice c n (i + 1)
  end.
Fixpoint ba_clear_chunks (tagged : bool) (e : env) (it : nat) (chunk_i : N) (chunks : list N) (left_ : N) : M barena unit :=
  match chunks with
  | [] => sret tt
  | c :: chunks =>
    let! cl := slift (chunk_len e chunk_i) in
    let! _ := on_br (access false it LSlab) in
    let! first := on_br (retag_mut base [litem (c, 0)]) in
    let! ptr := on_br (as_raw tagged first [litem (c, 0)]) in
    let! slice := on_br (retag_mut ptr ((fun i => litem (c, N.of_nat i)) <$> seq 0 (N.to_nat cl))) in
    let! _ := ba_clear_items slice c (N.to_nat (N.min cl left_)) 0 in
    if left_ <? cl then sret tt else ba_clear_chunks tagged e it (chunk_i + 1) chunks (left_ - cl)
  end.

(** arena.rs:286-329 [clear]: the references first, then the destructors. *)
Definition ba_clear (tagged : bool) (e : env) (self : nat) : M barena (arena_out T) :=
  let! s := sget in
  let! _ := (if negb (e_nd e) || arena_is_empty s.1 then sret tt
             else
               let! it := on_br (retag_mut self [LSlab]) in
               ba_clear_chunks tagged e it 0 (a_chunks s.1) (arena_len s.1)) in
  let! _ := on_br (access true self LSlab) in
  on_ar (arena_exec e (AClear (fun _ => false))).

Definition ba_exec (tagged : bool) (e : env) (c : ref_op T) : M barena (prog_out T) :=
  match c with
  | BAlloc x =>
    (* arena.rs:245-269; the item is written when its address is known *)
    let! self := on_br (retag_mut base [LSlab]) in
    let! _ := on_br (access true self LSlab) in
    let! o := on_ar (arena_exec e (AAlloc x)) in
    match o with
    | APtr p =>
      let! item := on_br (retag_mut base [litem p]) in
      let! _ := on_br (access true item (litem p)) in
      sret (OCall o)
    | _ => sret (OCall o)
    end
  | BGet p =>
    let! self := on_br (retag_shr base [LSlab]) in
    let! n := ba_get false self p in
    let! _ := on_br (access false n (litem p)) in
    let! o := on_ar (arena_exec e (AGet p)) in
    sret (OCall o)
  | BSet p x =>
    let! self := on_br (retag_mut base [LSlab]) in
    let! n := ba_get true self p in
    let! _ := on_br (access true n (litem p)) in
    let! o := on_ar (arena_exec e (ASet p x)) in
    sret (OCall o)
  | BReserve n =>
    let! self := on_br (retag_mut base [LSlab]) in
    let! _ := on_br (access true self LSlab) in
    let! o := on_ar (arena_exec e (AReserve n)) in
    sret (OCall o)
  | BLen =>
    let! self := on_br (retag_shr base [LSlab]) in
    let! _ := on_br (access false self LSlab) in
    let! o := on_ar (arena_exec e ALen) in
    sret (OCall o)
  | BClear =>
    let! self := on_br (retag_mut base [LSlab]) in
    let! o := ba_clear tagged e self in
    sret (OCall o)
  | BIterMut evs => let! l := ba_session e true evs in sret (OSession l)
  | BIters evs => let! l := ba_session e false evs in sret (OSession l)
  end.

(** The process goes on after a panic, as in [arena_run]. *)
Fixpoint ba_run (tagged : bool) (e : env) (cs : list (ref_op T)) (s : barena) : list (res (prog_out T)) * barena :=
  match cs with
  | [] => ([], s)
  | c :: cs =>
    match ba_exec tagged e c s with
    | (Ret x, s') => let '(rs, s'') := ba_run tagged e cs s' in (Ret x :: rs, s'')
    | (Panic p, s') => let '(rs, s'') := ba_run tagged e cs s' in (Panic p :: rs, s'')
    | (r, s') => ([r], s')
    end
  end.

End borrow_arena.
