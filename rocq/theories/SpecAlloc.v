(** * Vocabulary for refused memory *)

From Verif Require Export SpecMem SpecSet SpecArena SpecSimpleSet.
Local Open Scope N_scope.

(** The [i]-th request of a container, for [n] elements, is granted ... *)
Definition granted (e : env) (i n : N) : Prop :=
  e_size e <> 0 /\ n * e_size e <= ISIZE_MAX /\ e_alloc e i n = Some n.

(** ... or ends the call with [r]: too many bytes for any allocator; no memory; or
    a capacity other than the one asked for. *)
Definition refuses {A} (e : env) (i n : N) (r : res A) : Prop :=
  match r with
  | Panic PCapacity => e_size e <> 0 /\ ISIZE_MAX < n * e_size e
  | Abort => e_size e <> 0 /\ n * e_size e <= ISIZE_MAX /\ e_alloc e i n = None
  | Panic PAssert => e_size e = 0 \/ (n * e_size e <= ISIZE_MAX /\ exists c, e_alloc e i n = Some c /\ c <> n)
  | _ => False
  end.

(** Chunks have 8, 16, 32, ... slots. The call ended with [r] because a request for
    a chunk was refused: not one of the first [lo] requests, and for a chunk that is
    needed to have room for [n] elements. *)
Definition refused_request {A} (e : env) (lo n : N) (r : res A) : Prop :=
  exists i j, lo <= i /\ chunks_room j < n /\ refuses e i (8 * 2 ^ j) r.

(** How many entries a call may have to make room for. *)
Definition most_entries {K V} (e : env) (c : op K V) (m : bstmap K V) : N :=
  match c with
  | OInsert _ _ _ => slots m + 1
  | OReserve n => slots m + n
  | OExtend _ it => slots m + N.max (hinted it) (N.of_nat (length (ui_items it)))
  | OClone _ _ _ => entry_count e m
  | _ => 0
  end.
Definition most_entries_at_start {K V} (s : start K V) : N :=
  match s with
  | SNew => 0
  | SWithCapacity n => n
  | SFromIter _ it => N.max (hinted it) (N.of_nat (length (ui_items it)))
  end.
(** The number of requests made before by the container that has to grow. *)
Definition first_request {K V} (c : op K V) (m : bstmap K V) : N :=
  match c with OClone _ _ _ => 0 | _ => requests m end.

(** The same for sets, arenas and slabs. *)
Definition most_values {T} (e : env) (c : set_op T) (m : bstset T) : N :=
  match c with
  | SetInsert _ _ => slots m + 1
  | SetReserve n => slots m + n
  | SetExtend _ it => slots m + N.max (hinted it) (N.of_nat (length (ui_items it)))
  | SetClone _ _ => entry_count e m
  | _ => 0
  end.
Definition most_values_at_start {T} (s : set_start T) : N :=
  match s with
  | SetNew => 0
  | SetWithCapacity n => n
  | SetFromIter _ it => N.max (hinted it) (N.of_nat (length (ui_items it)))
  end.
Definition set_first_request {T} (c : set_op T) (m : bstset T) : N :=
  match c with SetClone _ _ => 0 | _ => requests m end.
Definition most_items {T} (c : arena_op T) (a : arena T) : N :=
  match c with
  | AAlloc _ => arena_len a + 1
  | AReserve n => arena_len a + n
  | _ => 0
  end.
Definition most_slots {T} (c : slab_op T) (s : slab T) : N :=
  match c with
  | SPush _ => arena_len (s_items s) + 1
  | SReserve n => arena_len (s_items s) + n
  | _ => 0
  end.

(** SimpleBSTMap and SimpleBSTSet allocate a box per node. The boxes a call may ask
    for; the number of boxes asked for before by the map that is built. *)
Definition most_boxes {K V} (c : op K V) (m : simple K V) : N :=
  match c with
  | OInsert _ _ _ => 1
  | ORemove _ | ORemoveEntry _ => 4
  | OExtend _ it => N.of_nat (length (ui_items it))
  | OClone _ _ _ => simple_len m
  | _ => 0
  end.
Definition most_boxes_at_start {K V} (s : start K V) : N :=
  match s with SFromIter _ it => N.of_nat (length (ui_items it)) | _ => 0 end.
Definition first_box {K V} (c : op K V) (m : simple K V) : N :=
  match c with OClone _ _ _ => 0 | _ => s_boxes m end.
Definition sset_most_boxes {T} (c : set_op T) (m : simple T unit) : N :=
  match c with
  | SetInsert _ _ => 1
  | SetRemove _ | SetTake _ => 4
  | SetExtend _ it => N.of_nat (length (ui_items it))
  | SetClone _ _ => sset_len m
  | _ => 0
  end.
Definition sset_most_boxes_at_start {T} (s : set_start T) : N :=
  match s with SetFromIter _ it => N.of_nat (length (ui_items it)) | _ => 0 end.
Definition sset_first_box {T} (c : set_op T) (m : simple T unit) : N :=
  match c with SetClone _ _ => 0 | _ => s_boxes m end.

(** One of the [n] boxes from number [lo] on is refused; or a map of [len] nodes, to
    which [n] are added, fills the address space. *)
Definition box_refused (e : benv) (lo n len : N) : Prop :=
  (exists i, lo <= i < lo + n /\ b_addr e i = None) \/ 2 ^ 60 <= len + n + 1.
