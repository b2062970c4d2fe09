(** * Vocabulary for the two build profiles *)

From Verif Require Export SpecSafety.
Local Open Scope N_scope.

(** The same program and the same allocator in a build without overflow checks
    and debug assertions. *)
Definition release (e : env) : env := Env false (e_size e) (e_nd e) (e_alloc e).

(** Neither a failed debug assertion or overflow check, nor undefined behaviour,
    nor a loop without end. *)
Definition quiet {A} (r : res A) : Prop :=
  match r with
  | Panic POverflow | Panic PDebugAssert | UB _ | Diverge => False
  | _ => True
  end.

(** An allocator that grants exactly the capacity asked for, and elements that
    take room: every node of a map does. *)
Definition exact_allocator (e : env) : Prop :=
  e_size e <> 0 /\ forall i n c, e_alloc e i n = Some c -> c = n.

Section requests.
Context {K V : Type}.

(** How many entries the call asks the map to make room for. *)
Definition requested (c : op K V) : option N :=
  match c with
  | OReserve n => Some n
  | OExtend _ it => Some (hinted it)
  | _ => None
  end.

Definition modest (c : op K V) : Prop :=
  match requested c with Some n => n <= 2 ^ 63 | None => True end.

(** The panics that are left: those of the caller's own code, those of memory
    requests, and the overflow check of a request that is too large. *)
Definition excused (e : env) (c : op K V) (m : bstmap K V) (p : panic_reason) : Prop :=
  match p with
  | PCmp | PIter | PClone => True
  | PCapacity | PAssert => match c with OInsert _ _ _ | OReserve _ | OExtend _ _ | OClone _ _ _ => True | _ => False end
  | POverflow => e_chk e = true /\ exists n, requested c = Some n /\ USIZE <= slots m + n
  | PDebugAssert | PDrop | PUnwrap | PTodo => False
  end.
End requests.
