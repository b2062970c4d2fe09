(** * Model of src/slab.rs (UnsafeSlab) *)

From Verif Require Export ModelArena.
Local Open Scope N_scope.

(** slab.rs:11-23 [union Entry<T>], as a tagged cell. The tag is ghost: the Rust
    union has none, and reading a field that was not the last one written is
    reported as UB by the accessors below. [EDropped] is a value slot whose
    destructor has run ([ManuallyDrop::drop], slab.rs:244). *)
Inductive entry (T : Type) :=
| EVal (x : T)
| EFree (next : option Ptr)
| EDropped (x : T).
Arguments EVal {T} x.
Arguments EFree {T} next.
Arguments EDropped {T} x.

(** Reading [entry.value]. *)
Definition entry_value {T} (en : entry T) : res T :=
  match en with
  | EVal x => Ret x
  | EFree _ => UB UWrongVariant
  | EDropped _ => UB UDropped
  end.

(** Reading [entry.free.next]. *)
Definition entry_next {T} (en : entry T) : res (option Ptr) :=
  match en with
  | EFree n => Ret n
  | _ => UB UWrongVariant
  end.

(** slab.rs:53-71 [UnsafeSlab]; [s_drops] is a ghost log of the values whose
    destructor was run by the slab. *)
Record slab (T : Type) := mkSlab {
  s_items : arena (entry T);
  s_head : option Ptr;
  s_free : N;
  s_drops : list T;
}.
Arguments mkSlab {T}.
Arguments s_items {T}.
Arguments s_head {T}.
Arguments s_free {T}.
Arguments s_drops {T}.

Section slab.
Context {T : Type}.
Implicit Types s : slab T.

Definition set_items (a : arena (entry T)) s : slab T := mkSlab a (s_head s) (s_free s) (s_drops s).
Definition set_head (h : option Ptr) s : slab T := mkSlab (s_items s) h (s_free s) (s_drops s).
Definition set_free (n : N) s : slab T := mkSlab (s_items s) (s_head s) n (s_drops s).
Definition add_sdrop (x : T) s : slab T :=
  mkSlab (s_items s) (s_head s) (s_free s) (s_drops s ++ [x]).

(** Running an arena method on [self.items]. *)
Definition on_items {A} (m : M (arena (entry T)) A) : M (slab T) A := zoom s_items set_items m.

(** slab.rs:73-91 [default], [new] *)
Definition slab_new : slab T := mkSlab arena_new None 0 [].

(** slab.rs:97-102 [with_capacity] *)
Definition slab_with_capacity (e : env) (capacity : N) : res unit * slab T :=
  let '(r, a) := arena_with_capacity e capacity in
  (r, mkSlab a None 0 []).

(** slab.rs:107-122 [len], [is_empty], [capacity] *)
Definition slab_len (e : env) s : res N := usub (e_chk e) (arena_len (s_items s)) (s_free s).
Definition slab_is_empty (e : env) s : res bool := let* n := slab_len e s in Ret (n =? 0).
Definition slab_capacity s : N := arena_capacity (s_items s).

(** slab.rs:130-132 [get_unchecked] *)
Definition slab_get s (p : Ptr) : res T :=
  let* en := arena_get (s_items s) p in
  entry_value en.

(** slab.rs:140-142 [get_unchecked_mut], then a store of a new value computed
    from the old one through the returned reference. Returns the old value. *)
Definition slab_update (p : Ptr) (f : T -> T) : M (slab T) T :=
  let! s := sget in
  let! x := slift (slab_get s p) in
  let! _ := on_items (arena_set p (EVal (f x))) in
  sret x.

(** slab.rs:149-168 [push] *)
Definition slab_push (e : env) (value : T) : M (slab T) Ptr :=
  let! s := sget in
  match s_head s with
  | Some free_list_head =>
    let! en := slift (arena_get (s_items s) free_list_head) in
    let! next_free := slift (entry_next en) in
    let! _ := smod (set_head next_free) in
    let! fl := slift (usub (e_chk e) (s_free s) 1) in
    let! _ := smod (set_free fl) in
    let! _ := on_items (arena_set free_list_head (EVal value)) in
    sret free_list_head
  | None =>
    on_items (arena_alloc e (EVal value))
  end.

(** slab.rs:183-198 [remove] *)
Definition slab_remove (e : env) (p : Ptr) : M (slab T) T :=
  let! s := sget in
  let! prev := slift (arena_get (s_items s) p) in
  let! _ := on_items (arena_set p (EFree (s_head s))) in
  let! _ := smod (set_head (Some p)) in
  let! fl := slift (uadd (e_chk e) (s_free s) 1) in
  let! _ := smod (set_free fl) in
  slift (entry_value prev).

(** slab.rs:257-266 [reset_internal_state]. [Entry<T>] itself never needs to be
    dropped (slab.rs:30-31), so [items.clear()] runs no destructor. *)
Definition reset_internal_state (e : env) : M (slab T) unit :=
  let! _ := on_items (arena_clear e false (fun _ => false)) in
  let! _ := smod (set_head None) in
  smod (set_free 0).

(** Loop of slab.rs:224-233 collecting the free list. The [HashSet] is a finite
    set of addresses. *)
Fixpoint collect_free (fuel : nat) s (current : option Ptr) (acc : gset Ptr) : res (gset Ptr) :=
  match fuel with
  | O => Diverge
  | S fuel =>
    match current with
    | None => Ret acc
    | Some ptr =>
      let acc := {[ ptr ]} ∪ acc in
      let* en := arena_get (s_items s) ptr in
      let* next_free := entry_next en in
      collect_free fuel s next_free acc
    end
  end.

(** [ManuallyDrop::drop(&mut entry.value)], slab.rs:241-244. *)
Definition drop_value (panics : T -> bool) (p : Ptr) : M (slab T) unit :=
  let! s := sget in
  let! x := slift (slab_get s p) in
  let! _ := on_items (arena_set p (EDropped x)) in
  let! _ := smod (add_sdrop x) in
  if panics x then sfail PDrop else sret tt.

(** Loop of slab.rs:235-245 over [items.iter_mut().pointers()]. *)
Fixpoint drop_loop (e : env) (panics : T -> bool) (fuel : nat) (free : gset Ptr) (r : range)
  : M (slab T) unit :=
  match fuel with
  | O => slift Diverge
  | S fuel =>
    let! s := sget in
    let '(x, r') := next_ptr e (s_items s) r in
    let! x := slift x in
    match x with
    | None => sret tt
    | Some (ptr, _) =>
      if decide (ptr ∈ free) then drop_loop e panics fuel free r'
      else
        let! _ := drop_value panics ptr in
        drop_loop e panics fuel free r'
    end
  end.

(** slab.rs:205-249 [clear] *)
Definition slab_clear (e : env) (panics : T -> bool) : M (slab T) unit :=
  let! s := sget in
  if negb (e_nd e) || (arena_len (s_items s) =? s_free s) then reset_internal_state e
  else
    let! free_pointers :=
      slift (collect_free (S (N.to_nat (arena_len (s_items s)))) s (s_head s) ∅) in
    let! _ := drop_loop e panics (S (N.to_nat (arena_len (s_items s)))) free_pointers
                        (iter_new (s_items s)) in
    reset_internal_state e.

(** slab.rs:273-275, 280-282 [reserve], [shrink_to_fit] *)
Definition slab_reserve (e : env) (additional : N) : M (slab T) unit :=
  on_items (arena_reserve e additional).
Definition slab_shrink_to_fit (e : env) : M (slab T) unit :=
  on_items (arena_shrink_to_fit e).

(** slab.rs:289-298 [Drop::drop], followed by the drop of the field [items]
    (arena.rs:439-454). If the destructor of a value panics, Rust still drops
    the field [items] while unwinding. *)
Definition slab_drop (e : env) (panics : T -> bool) : M (slab T) unit :=
  fun s =>
    let '(r, s1) := (if negb (e_nd e) then sret tt else slab_clear e panics) s in
    match r with
    | Ret _ => on_items (arena_drop e false (fun _ => false)) s1
    | Panic p =>
      match on_items (arena_drop e false (fun _ => false)) s1 with
      | (Ret _, s2) => (Panic p, s2)
      | x => x
      end
    | _ => (r, s1)
    end.

End slab.
