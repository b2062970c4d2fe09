(** * Model of src/arena.rs (StableArena) *)

From Verif Require Export ModelBase.
Local Open Scope N_scope.

(** arena.rs:92-94 [Ptr(NonNull<()>)]: an address, as (block, offset in
    elements). Equality of [Ptr] is equality of addresses; distinct live blocks
    do not overlap, so it is equality of the pair. *)
Definition Ptr : Type := (N * N)%type.

(** arena.rs:9-19 [ChunkPos] *)
Record ChunkPos := mkChunkPos { chunk_index : N; item_index : N }.

(** arena.rs:43-47 *)
Definition MULTIPLIER : N := 8.

(** arena.rs:49-55 [ExponentialAlloc::chunk_len] *)
Definition chunk_len (e : env) (chunk_i : N) : res N :=
  let* p := ushl (e_chk e) 1 chunk_i in
  umul (e_chk e) MULTIPLIER p.

(** arena.rs:57-82 [ExponentialAlloc::position_for] *)
Definition position_for (e : env) (index : N) : res ChunkPos :=
  let BITS := 64 in
  let divided_index := index / MULTIPLIER in
  let* d1 := uadd (e_chk e) divided_index 1 in
  let* b := u32sub (e_chk e) BITS (leading_zeros d1) in
  let* ci := u32sub (e_chk e) b 1 in
  let* cl := chunk_len e ci in
  let* chunk_first_index := usub (e_chk e) cl MULTIPLIER in
  let* ii := usub (e_chk e) index chunk_first_index in
  Ret (mkChunkPos ci ii).

(** One heap allocation: its size in elements and its initialised cells. *)
Record block (T : Type) := mkBlock { b_size : N; b_cells : gmap N T }.
Arguments mkBlock {T}.
Arguments b_size {T}.
Arguments b_cells {T}.

(** arena.rs:105-139 [StableArena]. [a_heap] and [a_next] are the part of the
    process heap owned by this arena and the serial number of its next
    allocation; [a_drops] is a ghost log of the values whose destructor the
    arena has run. The [strategy] field is a unit struct and is left out. *)
Record arena (T : Type) := mkArena {
  a_heap : gmap N (block T);
  a_next : N;
  a_chunks : list N;
  a_len : N;
  a_cap : N;
  a_drops : list T;
}.
Arguments mkArena {T}.
Arguments a_heap {T}.
Arguments a_next {T}.
Arguments a_chunks {T}.
Arguments a_len {T}.
Arguments a_cap {T}.
Arguments a_drops {T}.

Section arena.
Context {T : Type}.
Implicit Types a : arena T.

Definition set_heap (h : gmap N (block T)) a : arena T :=
  mkArena h (a_next a) (a_chunks a) (a_len a) (a_cap a) (a_drops a).
Definition set_next (n : N) a : arena T :=
  mkArena (a_heap a) n (a_chunks a) (a_len a) (a_cap a) (a_drops a).
Definition set_chunks (c : list N) a : arena T :=
  mkArena (a_heap a) (a_next a) c (a_len a) (a_cap a) (a_drops a).
Definition set_alen (n : N) a : arena T :=
  mkArena (a_heap a) (a_next a) (a_chunks a) n (a_cap a) (a_drops a).
Definition set_acap (n : N) a : arena T :=
  mkArena (a_heap a) (a_next a) (a_chunks a) (a_len a) n (a_drops a).
Definition add_adrop (x : T) a : arena T :=
  mkArena (a_heap a) (a_next a) (a_chunks a) (a_len a) (a_cap a) (a_drops a ++ [x]).

(** arena.rs:146-156, 181-183 [Default::default], [new] *)
Definition arena_new : arena T := mkArena ∅ 0 [] 0 0 [].

(** arena.rs:200-215 [len], [is_empty], [capacity] *)
Definition arena_len a : N := a_len a.
Definition arena_is_empty a : bool := arena_len a =? 0.
Definition arena_capacity a : N := a_cap a.

(** arena.rs:223-227 [get_unchecked]: a shared reference to the value; the
    model returns the value itself. Invalid pointers are UB. *)
Definition arena_get a (p : Ptr) : res T :=
  match a_heap a !! p.1 with
  | None => UB UDangling
  | Some b =>
    if p.2 <? b_size b then
      match b_cells b !! p.2 with
      | None => UB UUninit
      | Some x => Ret x
      end
    else UB UOutOfBounds
  end.

(** Storing a value into a cell that is in bounds (raw write). *)
Definition arena_poke (p : Ptr) (x : T) : M (arena T) unit :=
  fun a =>
    match a_heap a !! p.1 with
    | None => (UB UDangling, a)
    | Some b =>
      if p.2 <? b_size b then
        (Ret tt, set_heap (<[p.1 := mkBlock (b_size b) (<[p.2 := x]> (b_cells b))]> (a_heap a)) a)
      else (UB UOutOfBounds, a)
    end.

(** arena.rs:235-239 [get_unchecked_mut] followed by a store through the
    returned [&mut T]. Making the reference already requires a valid value. *)
Definition arena_set (p : Ptr) (x : T) : M (arena T) unit :=
  fun a =>
    match arena_get a p with
    | Ret _ => arena_poke p x a
    | UB u => (UB u, a)
    | _ => (Diverge, a)
    end.

(** [Vec::<MaybeUninit<T>>::with_capacity(n)] as used in arena.rs:401, returning
    the capacity of the vector: panics when the size in bytes exceeds
    [isize::MAX]; a vector of zero-sized elements has capacity [usize::MAX];
    otherwise the allocator decides. *)
Definition vec_with_capacity (e : env) (serial n : N) : res N :=
  if e_size e =? 0 then Ret (USIZE - 1)
  else if ISIZE_MAX <? n * e_size e then Panic PCapacity
  else match e_alloc e serial n with
       | None => Abort
       | Some c => Ret c
       end.

(** arena.rs:392-417 [push_chunk]. When the assertion fails, unwinding frees
    the new vector, so no block remains. [self.chunks.push] is assumed not to
    fail. *)
Definition push_chunk (e : env) : M (arena T) unit :=
  let! a := sget in
  let chunk_i := N.of_nat (length (a_chunks a)) mod U32 in
  let! cl := slift (chunk_len e chunk_i) in
  let! c := slift (vec_with_capacity e (a_next a) cl) in
  let! _ := smod (fun a => set_next (a_next a + 1) a) in
  if negb (c =? cl) then sfail PAssert else
  let chunk_ptr := a_next a in
  let! _ := smod (fun a => set_heap (<[chunk_ptr := mkBlock cl ∅]> (a_heap a)) a) in
  let! _ := smod (fun a => set_chunks (a_chunks a ++ [chunk_ptr]) a) in
  let! cap := slift (uadd (e_chk e) (a_cap a) cl) in
  smod (set_acap cap).

(** The loop [while self.capacity() < capacity { self.push_chunk() }] of
    arena.rs:192-194 and 340-342. *)
Fixpoint grow_loop (e : env) (fuel : nat) (capacity : N) : M (arena T) unit :=
  match fuel with
  | O => slift Diverge
  | S fuel =>
    let! a := sget in
    if arena_capacity a <? capacity then
      let! _ := push_chunk e in grow_loop e fuel capacity
    else sret tt
  end.

(** Chunk sizes double and are limited to 2^63 - 1 bytes, so 64 iterations are
    always enough (proved: the model never runs out). *)
Definition GROW_FUEL : nat := 64.

(** [chunks.get_unchecked(chunk_index)] and pointer arithmetic, arena.rs:260-262
    and 429-431. Computing an address past the end of the allocation is UB. *)
Definition chunk_item_ptr a (pos : ChunkPos) : res Ptr :=
  match a_chunks a !! N.to_nat (chunk_index pos) with
  | None => UB UOutOfBounds
  | Some c =>
    match a_heap a !! c with
    | None => UB UDangling
    | Some b => if item_index pos <? b_size b then Ret (c, item_index pos)
                else UB UOutOfBounds
    end
  end.

(** arena.rs:245-269 [alloc] *)
Definition arena_alloc (e : env) (value : T) : M (arena T) Ptr :=
  let! a := sget in
  let! _ := slift (dassert (e_chk e) (a_len a <=? a_cap a)) in
  let! _ := (if a_len a =? a_cap a then push_chunk e else sret tt) in
  let! a := sget in
  let! _ := slift (dassert (e_chk e) (a_len a <? a_cap a)) in
  let index := arena_len a in
  let! pos := slift (position_for e index) in
  let! _ := slift (dassert (e_chk e) (chunk_index pos <? N.of_nat (length (a_chunks a)))) in
  let! item_ptr := slift (chunk_item_ptr a pos) in
  let! _ := arena_poke item_ptr value in
  let! l := slift (uadd (e_chk e) (a_len a) 1) in
  let! _ := smod (set_alen l) in
  sret item_ptr.

(** arena.rs:424-434 [ptr_at] *)
Definition ptr_at (e : env) a (index : N) : res Ptr :=
  let* pos := position_for e index in
  let* _ := dassert (e_chk e) (chunk_index pos <? N.of_nat (length (a_chunks a))) in
  chunk_item_ptr a pos.

(** All cells forgotten. Used when the length is reset: in Rust the bytes stay,
    but no address handed out before may be used any more, so the model
    invalidates them. This is stricter than Rust. *)
Definition forget_cells a : arena T :=
  set_heap ((fun b => mkBlock (b_size b) ∅) <$> a_heap a) a.

Definition reset_len a : arena T := set_alen 0 (forget_cells a).

(** [ptr::drop_in_place] on a cell, arena.rs:320: the destructor runs (logged),
    the value is gone; [panics] says whether the destructor panics. *)
Definition drop_cell (panics : T -> bool) (p : Ptr) : M (arena T) unit :=
  fun a =>
    match arena_get a p with
    | Ret x =>
      match a_heap a !! p.1 with
      | None => (UB UDangling, a)
      | Some b =>
        let a' := add_adrop x
          (set_heap (<[p.1 := mkBlock (b_size b) (delete p.2 (b_cells b))]> (a_heap a)) a) in
        if panics x then (Panic PDrop, a') else (Ret tt, a')
      end
    | UB u => (UB u, a)
    | _ => (Diverge, a)
    end.

(** Inner loop of arena.rs:305-323 over the items of one chunk, from item [i]
    of [cl]. Returns the new [dropped] counter and whether the outer loop goes
    on. *)
Fixpoint clear_items (e : env) (panics : T -> bool) (fuel : nat) (chunk cl i dropped : N)
  : M (arena T) (N * bool) :=
  match fuel with
  | O => slift Diverge
  | S fuel =>
    if i <? cl then
      let! a := sget in
      if dropped =? a_len a then sret (dropped, false)
      else
        let! _ := drop_cell panics (chunk, i) in
        let! d := slift (uadd (e_chk e) dropped 1) in
        clear_items e panics fuel chunk cl (i + 1) d
    else sret (dropped, true)
  end.

(** Outer loop of arena.rs:297-324. [slice::from_raw_parts_mut] requires the
    whole chunk to be allocated. *)
Fixpoint clear_chunks (e : env) (panics : T -> bool) (chunk_i : N) (chunks : list N) (dropped : N)
  : M (arena T) N :=
  match chunks with
  | [] => sret dropped
  | c :: chunks' =>
    let! cl := slift (chunk_len e chunk_i) in
    let! a := sget in
    match a_heap a !! c with
    | None => slift (UB UDangling)
    | Some b =>
      if b_size b <? cl then slift (UB UOutOfBounds) else
      let! '(dropped, go_on) :=
        clear_items e panics (S (S (N.to_nat (a_len a - dropped)))) c cl 0 dropped in
      if go_on then clear_chunks e panics (chunk_i + 1) chunks' dropped else sret dropped
    end
  end.

(** arena.rs:286-330 [clear]; [nd] is [mem::needs_drop::<T>()]. *)
Definition arena_clear (e : env) (nd : bool) (panics : T -> bool) : M (arena T) unit :=
  let! a := sget in
  if negb nd || arena_is_empty a then smod reset_len
  else
    let! dropped := clear_chunks e panics 0 (a_chunks a) 0 in
    let! a := sget in
    let! _ := slift (dassert (e_chk e) (dropped =? a_len a)) in
    smod reset_len.

(** Freeing a chunk: arena.rs:363 and 451, [Vec::from_raw_parts(ptr, len, len)]
    dropped at once. The elements are [MaybeUninit], so no destructor runs. *)
Definition free_chunk (c cl : N) : M (arena T) unit :=
  fun a =>
    match a_heap a !! c with
    | None => (UB UBadFree, a)
    | Some b =>
      if b_size b =? cl then (Ret tt, set_heap (delete c (a_heap a)) a)
      else (UB UBadFree, a)
    end.

(** Loop of arena.rs:444-452 *)
Fixpoint free_chunks (e : env) (chunk_i : N) (chunks : list N) : M (arena T) unit :=
  match chunks with
  | [] => sret tt
  | c :: chunks' =>
    let! cl := slift (chunk_len e chunk_i) in
    let! _ := free_chunk c cl in
    free_chunks e (chunk_i + 1) chunks'
  end.

(** arena.rs:439-454 [Drop::drop]; afterwards the [chunks] vector itself goes
    away. *)
Definition arena_drop (e : env) (nd : bool) (panics : T -> bool) : M (arena T) unit :=
  let! _ := arena_clear e nd panics in
  let! a := sget in
  let! _ := free_chunks e 0 (a_chunks a) in
  smod (set_chunks []).

(** arena.rs:189-197 [with_capacity]. On a panic the local arena is dropped by
    unwinding; the final state then has no chunks. *)
Definition arena_with_capacity (e : env) (capacity : N) : res unit * arena T :=
  match grow_loop e GROW_FUEL capacity arena_new with
  | (Panic p, a) =>
      match arena_drop e false (fun _ => false) a with
      | (Ret _, a') => (Panic p, a')
      | (r, a') => (r, a')
      end
  | x => x
  end.

(** arena.rs:337-343 [reserve] *)
Definition arena_reserve (e : env) (additional : N) : M (arena T) unit :=
  let! a := sget in
  let! capacity := slift (uadd (e_chk e) (arena_len a) additional) in
  grow_loop e GROW_FUEL capacity.

(** Loop of arena.rs:350-374. [chunks_len] is the local variable of line 349. *)
Fixpoint shrink_loop (e : env) (fuel : nat) (chunks_len : N) : M (arena T) unit :=
  match fuel with
  | O => slift Diverge
  | S fuel =>
    let! a := sget in
    match list.last (a_chunks a) with
    | None => sret tt
    | Some chunk =>
      let! cl1 := slift (usub (e_chk e) chunks_len 1) in
      let chunk_i := cl1 mod U32 in
      let! cl := slift (chunk_len e chunk_i) in
      let! room := slift (usub (e_chk e) (a_cap a) cl) in
      if a_len a <=? room then
        let! _ := free_chunk chunk cl in
        let! _ := smod (fun a => set_chunks (removelast (a_chunks a)) a) in
        let! chunks_len' := slift (usub (e_chk e) chunks_len 1) in
        let! cap := slift (usub (e_chk e) (a_cap a) cl) in
        let! _ := smod (set_acap cap) in
        shrink_loop e fuel chunks_len'
      else sret tt
    end
  end.

(** arena.rs:348-378 [shrink_to_fit]. [self.chunks.shrink_to_fit()] only
    concerns the vector of chunk pointers and is left out. *)
Definition arena_shrink_to_fit (e : env) : M (arena T) unit :=
  let! a := sget in
  shrink_loop e (S (length (a_chunks a))) (N.of_nat (length (a_chunks a))).

(** arena.rs:525-598 [Iter], [IterMut]: the part that changes is the range.
    [Iter] and [IterMut] have the same control flow; the references they return
    are modelled by address and value. *)
Record range := mkRange { r_start : N; r_end : N }.

(** arena.rs:531-536, 593-598 *)
Definition iter_new a : range := mkRange 0 (arena_len a).

(** arena.rs:542-544, 604-606 [size_hint] (both bounds are this number) *)
Definition iter_size (r : range) : N := r_end r - r_start r.

(** arena.rs:562-571 and 624-633 [next_ptr] *)
Definition next_ptr (e : env) a : M range (option (Ptr * T)) :=
  fun r =>
    if r_start r <? r_end r then
      let r' := mkRange (r_start r + 1) (r_end r) in
      (let* p := ptr_at e a (r_start r) in
       let* x := arena_get a p in
       Ret (Some (p, x)), r')
    else (Ret None, r).

(** arena.rs:575-584 and 637-646 [next_back_ptr] *)
Definition next_back_ptr (e : env) a : M range (option (Ptr * T)) :=
  fun r =>
    if r_start r <? r_end r then
      let r' := mkRange (r_start r) (r_end r - 1) in
      (let* p := ptr_at e a (r_end r - 1) in
       let* x := arena_get a p in
       Ret (Some (p, x)), r')
    else (Ret None, r).

End arena.

(** arena.rs:164-172 [PartialEq::eq]: the [zip(..).all(..)] loop. *)
Fixpoint arena_eq_loop {T} (eqT : T -> T -> bool) (e : env) (fuel : nat)
    (a1 a2 : arena T) (r1 r2 : range) : res bool :=
  match fuel with
  | O => Diverge
  | S fuel =>
    let '(x1, r1') := next_ptr e a1 r1 in
    let* x1 := x1 in
    match x1 with
    | None => Ret true
    | Some (_, v1) =>
      let '(x2, r2') := next_ptr e a2 r2 in
      let* x2 := x2 in
      match x2 with
      | None => Ret true
      | Some (_, v2) =>
        if eqT v1 v2 then arena_eq_loop eqT e fuel a1 a2 r1' r2' else Ret false
      end
    end
  end.

Definition arena_eq {T} (eqT : T -> T -> bool) (e : env) (a1 a2 : arena T) : res bool :=
  if negb (arena_len a1 =? arena_len a2) then Ret false
  else arena_eq_loop eqT e (S (N.to_nat (arena_len a1))) a1 a2 (iter_new a1) (iter_new a2).
