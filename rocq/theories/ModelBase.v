(** * Results, state, and machine integers.

    Nothing here corresponds to one place in /repo: these are the semantic
    foundations on which the other Model*.v files transcribe the Rust code. *)

From stdpp Require Export base numbers gmap list.

(** Why a call panicked. *)
Inductive panic_reason :=
| POverflow          (* arithmetic overflow, only in builds with overflow checks *)
| PDebugAssert       (* a [debug_assert!], only in builds with debug assertions *)
| PAssert            (* the [assert_eq!] of arena.rs:405 *)
| PCapacity          (* "capacity overflow" raised by [Vec::with_capacity] *)
| PCmp               (* the user's [Ord::cmp] panicked *)
| PDrop              (* a user destructor panicked *)
| PIter              (* a user iterator passed to [extend]/[collect] panicked *)
| PClone             (* the user's [Clone::clone] panicked *)
| PUnwrap            (* [Option::unwrap]/[expect] on [None] *)
| PTodo.             (* [todo!()] *)

(** Undefined behaviour that the model detects. *)
Inductive ub_reason :=
| UDangling          (* access to a block that is not allocated *)
| UOutOfBounds       (* access past the end of a block, or [get_unchecked] past the end *)
| UUninit            (* access to a cell that was never initialised, or invalidated *)
| UWrongVariant      (* reading the wrong field of [union Entry] *)
| UDropped           (* using or dropping a value that was already dropped *)
| UBadFree           (* freeing a block that is not allocated, or with a wrong size *)
| UNullDeref         (* dereferencing a raw pointer that does not point to a node *)
| UAlias.            (* using a reference that another access has invalidated, only in ModelBorrow.v *)

(** Outcome of a computation. [Diverge] is "a loop ran out of fuel". *)
Inductive res (A : Type) : Type :=
| Ret (a : A)
| Panic (p : panic_reason)
| Abort
| UB (u : ub_reason)
| Diverge.
Arguments Ret {A} a.
Arguments Panic {A} p.
Arguments Abort {A}.
Arguments UB {A} u.
Arguments Diverge {A}.

Definition rbind {A B : Type} (m : res A) (f : A -> res B) : res B :=
  match m with
  | Ret a => f a
  | Panic p => Panic p
  | Abort => Abort
  | UB u => UB u
  | Diverge => Diverge
  end.

Definition rmap {A B : Type} (f : A -> B) (m : res A) : res B :=
  rbind m (fun a => Ret (f a)).

(** Computations over a mutable state [S]. The state survives a panic: what a
    caller that catches the panic, or a destructor run by unwinding, sees. *)
Definition M (S A : Type) : Type := S -> res A * S.

Definition sret {S A : Type} (a : A) : M S A := fun s => (Ret a, s).

Definition sbind {S A B : Type} (m : M S A) (f : A -> M S B) : M S B :=
  fun s =>
    match m s with
    | (Ret a, s') => f a s'
    | (Panic p, s') => (Panic p, s')
    | (Abort, s') => (Abort, s')
    | (UB u, s') => (UB u, s')
    | (Diverge, s') => (Diverge, s')
    end.

Definition sget {S : Type} : M S S := fun s => (Ret s, s).
Definition smod {S : Type} (f : S -> S) : M S unit := fun s => (Ret tt, f s).
Definition slift {S A : Type} (r : res A) : M S A := fun s => (r, s).
Definition sfail {S A : Type} (p : panic_reason) : M S A := fun s => (Panic p, s).

(** Run a computation on a component of the state. *)
Definition zoom {S T A : Type} (proj : S -> T) (inj : T -> S -> S) (m : M T A) : M S A :=
  fun s => let '(r, t') := m (proj s) in (r, inj t' s).

(** Unwinding: if [m] panics, run the clean-up [h] on the state. *)
Definition on_panic {S A : Type} (h : S -> S) (m : M S A) : M S A :=
  fun s => match m s with
           | (Panic p, s') => (Panic p, h s')
           | x => x
           end.

Declare Scope res_scope.
Delimit Scope res_scope with res.
Notation "'let*' x := m 'in' k" := (rbind m (fun x => k))
  (at level 200, x name, m at level 100, k at level 200, right associativity).
Notation "'let*' ' p := m 'in' k" := (rbind m (fun p => k))
  (at level 200, p strict pattern, m at level 100, k at level 200, right associativity).
Notation "'let!' x := m 'in' k" := (sbind m (fun x => k))
  (at level 200, x name, m at level 100, k at level 200, right associativity).
Notation "'let!' ' p := m 'in' k" := (sbind m (fun p => k))
  (at level 200, p strict pattern, m at level 100, k at level 200, right associativity).

(** ** 64-bit machine integers

    [usize] is 64 bits wide (arena.rs:65-66 only supports
    [target_pointer_width = "64"]). [chk = true] is a build with overflow checks
    and debug assertions (the dev profile), [chk = false] one without (release). *)

Definition USIZE : N := 2 ^ 64.          (* number of usize values *)
Definition ISIZE_MAX : N := 2 ^ 63 - 1.  (* largest allocation in bytes *)
Definition U32 : N := 2 ^ 32.

Definition uadd (chk : bool) (a b : N) : res N :=
  if (a + b <? USIZE)%N then Ret (a + b)%N
  else if chk then Panic POverflow else Ret ((a + b) mod USIZE)%N.

Definition usub (chk : bool) (a b : N) : res N :=
  if (b <=? a)%N then Ret (a - b)%N
  else if chk then Panic POverflow else Ret ((USIZE + a - b) mod USIZE)%N.

Definition umul (chk : bool) (a b : N) : res N :=
  if (a * b <? USIZE)%N then Ret (a * b)%N
  else if chk then Panic POverflow else Ret ((a * b) mod USIZE)%N.

(** [1usize << i]: the shift amount is checked (or masked to 6 bits); bits
    shifted out are lost. *)
Definition ushl (chk : bool) (a i : N) : res N :=
  if (i <? 64)%N then Ret ((a * 2 ^ i) mod USIZE)%N
  else if chk then Panic POverflow else Ret ((a * 2 ^ (i mod 64)) mod USIZE)%N.

Definition u32sub (chk : bool) (a b : N) : res N :=
  if (b <=? a)%N then Ret (a - b)%N
  else if chk then Panic POverflow else Ret ((U32 + a - b) mod U32)%N.

(** [usize::leading_zeros]. *)
Definition leading_zeros (x : N) : N :=
  if (x =? 0)%N then 64%N else (63 - N.log2 x)%N.

(** [debug_assert!(b)] *)
Definition dassert (chk b : bool) : res unit :=
  if chk && negb b then Panic PDebugAssert else Ret tt.

(** ** The environment of a program run

    [e_chk]: build profile. [e_size]: [size_of] of the arena's element type.
    [e_nd]: [mem::needs_drop] of the stored type. [e_alloc serial n]: what the
    allocator does when asked for the [serial]-th chunk, with room for [n]
    elements: [Some c] grants a vector whose capacity is [c], [None] is an
    allocation failure, on which Rust aborts the process. *)
Record env := Env {
  e_chk : bool;
  e_size : N;
  e_nd : bool;
  e_alloc : N -> N -> option N;
}.
