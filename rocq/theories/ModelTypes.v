(** * The data types of both crates: subtyping, drop check, unwind safety

    Their declarations, and the rules by which the compiler decides about them (Rust
    reference, "Subtyping and variance", "Destructors"; Rustonomicon, "Drop check";
    documentation of [std::panic::UnwindSafe]). ModelAutoTraits.v does the same for Send
    and Sync. *)

From Coq Require Import Bool List Arith.
Import ListNotations.

(** Types. [VParam i] is a type about which nothing is known, [VPlain] one without parts
    ([usize], [()]). [VOwn] stands for [Vec], [Option] and [Box], [VManual] for
    [ManuallyDrop] and [MaybeUninit]. Lifetimes are numbers. [VSelf] is a recursive
    occurrence of the surrounding type. [VData drops fields] is a struct or union;
    [drops]: there is an [impl Drop] (none uses [may_dangle]). *)
Inductive vty :=
| VParam (i : nat)
| VPlain
| VOwn (t : vty)
| VManual (t : vty)
| VPhantom (t : vty)
| VNonNull (t : vty)
| VMutPtr (t : vty)
| VRef (a : nat) (t : vty)
| VRefMut (a : nat) (t : vty)
| VSelf
| VData (drops : bool) (fields : list vty).

Definition VStruct (fields : list vty) : vty := VData false fields.

(** ** Subtyping

    [out a b]: lifetime [a] outlives [b]. [le i j]: parameter type [i] is a subtype of [j].
    The variance of a struct in its parameters is inferred from its fields, so two
    instances are related when their fields are. [*mut T] and [&mut T] are invariant in
    [T]; [NonNull<T>], [PhantomData<T>] and the owning types are covariant. *)
Inductive direction := Up | Down | Both.
Definition on (d : direction) (r : nat -> nat -> Prop) (i j : nat) : Prop :=
  match d with Up => r i j | Down => r j i | Both => r i j /\ r j i end.

Section subtyping.
Variable out le : nat -> nat -> Prop.
Fixpoint related (d : direction) (t t' : vty) : Prop :=
  match t, t' with
  | VParam i, VParam j => on d le i j
  | VPlain, VPlain | VSelf, VSelf => True
  | VOwn t, VOwn t' | VManual t, VManual t' | VPhantom t, VPhantom t' | VNonNull t, VNonNull t' => related d t t'
  | VMutPtr t, VMutPtr t' => related Both t t'
  | VRef a t, VRef b t' => on d out a b /\ related d t t'
  | VRefMut a t, VRefMut b t' => on d out a b /\ related Both t t'
  | VData x l, VData y l' =>
    x = y /\
    (fix go l l' := match l, l' with
                    | [], [] => True
                    | t :: l, t' :: l' => related d t t' /\ go l l'
                    | _, _ => False
                    end) l l'
  | _, _ => False
  end.
(** [t] may be used where [t'] is expected. *)
Definition subtype (t t' : vty) : Prop := related Up t t'.
End subtyping.

(** ** Drop check

    What a type is made of: parameters and lifetimes. [needs x t]: [x] must still be
    alive when a value of type [t] is dropped. *)
Inductive part := PType (i : nat) | PLife (a : nat).
Definition part_eqb (x y : part) : bool :=
  match x, y with
  | PType i, PType j | PLife i, PLife j => i =? j
  | _, _ => false
  end.
Fixpoint occurs (x : part) (t : vty) : bool :=
  match t with
  | VParam i => part_eqb x (PType i)
  | VPlain | VSelf => false
  | VOwn t | VManual t | VPhantom t | VNonNull t | VMutPtr t => occurs x t
  | VRef a t | VRefMut a t => part_eqb x (PLife a) || occurs x t
  | VData _ l => existsb (occurs x) l
  end.
Fixpoint needs (x : part) (t : vty) : bool :=
  match t with
  | VParam i => part_eqb x (PType i)
  | VOwn t | VPhantom t => needs x t
  | VPlain | VSelf | VManual _ | VNonNull _ | VMutPtr _ | VRef _ _ | VRefMut _ _ => false
  | VData true l => existsb (occurs x) l
  | VData false l => existsb (needs x) l
  end.

(** ** Unwind safety

    [UnwindSafe] and [RefUnwindSafe]. Neither crate has an impl for them. *)
Inductive safety := Unwind | RefUnwind.
Fixpoint safe (flags : nat -> safety -> bool) (a : safety) (t : vty) : bool :=
  match t with
  | VParam i => flags i a
  | VPlain | VSelf => true
  | VOwn t | VManual t | VPhantom t => safe flags a t
  | VNonNull t | VMutPtr t | VRef _ t => safe flags RefUnwind t
  | VRefMut _ t => match a with Unwind => false | RefUnwind => safe flags a t end
  | VData _ l => forallb (safe flags a) l
  end.

(** ** The types *)

(** arena.rs:92-94 [Ptr(NonNull<()>)] *)
Definition VPtr : vty := VStruct [VNonNull VPlain].
(** arena.rs:37-41 [ExponentialAlloc] *)
Definition VExponentialAlloc : vty := VStruct [VPlain].
(** arena.rs:110-139 [StableArena<T>]: chunks, len, capacity, strategy, _marker;
    [Drop] at 437-454 *)
Definition VStableArena (t : vty) : vty :=
  VData true [VOwn (VNonNull (VManual t)); VPlain; VPlain; VExponentialAlloc; VPhantom t].
(** arena.rs:486-488 [IntoIter], 525-528 [Iter], 587-590 [IterMut], 664-666 [Pointers] *)
Definition VArenaIntoIter (t : vty) : vty := VStruct [VPhantom t].
Definition VArenaIter (a : nat) (t : vty) : vty := VStruct [VRef a (VStableArena t); VPlain].
Definition VArenaIterMut (a : nat) (t : vty) : vty := VStruct [VRefMut a (VStableArena t); VPlain].
Definition VPointers (t : vty) : vty := VStruct [t].

(** slab.rs:12-23 [union Entry<T>], [FreeEntry]; 53-71 [UnsafeSlab<T>], [Drop] at 287-296 *)
Definition VFreeEntry : vty := VStruct [VOwn VPtr].
Definition VEntry (t : vty) : vty := VStruct [VManual t; VFreeEntry].
Definition VUnsafeSlab (t : vty) : vty := VData true [VStableArena (VEntry t); VOwn VPtr; VPlain; VPhantom t].

(** map.rs:21-26 [InnerNode<K, V>], 54-57 [BSTMap<K, V>] *)
Definition VInnerNode (k v : vty) : vty := VStruct [k; v; VOwn VPtr; VOwn VPtr].
Definition VBSTMap (k v : vty) : vty := VStruct [VUnsafeSlab (VInnerNode k v); VOwn VPtr].
(** map/node.rs:10-13 [Node], 101-104 [NodeMut] *)
Definition VNode (a : nat) (k v : vty) : vty := VStruct [VRef a (VUnsafeSlab (VInnerNode k v)); VRef a (VInnerNode k v)].
Definition VNodeMut (a : nat) (k v : vty) : vty :=
  VStruct [VMutPtr (VUnsafeSlab (VInnerNode k v)); VRefMut a (VInnerNode k v)].
(** map/preorder.rs:8-11, 38-42, map/inorder.rs:8-11, 52-56, map/postorder.rs:8-11,
    80-84: the three orders have the same fields *)
Definition VIter (a : nat) (k v : vty) : vty := VStruct [VRef a (VUnsafeSlab (VInnerNode k v)); VOwn VPtr].
Definition VIterMut (a : nat) (k v : vty) : vty :=
  VStruct [VMutPtr (VUnsafeSlab (VInnerNode k v)); VOwn VPtr; VPhantom (VRefMut a (VUnsafeSlab (VInnerNode k v)))].

(** set.rs:26-28, set/node.rs:5-7, set/preorder.rs:3-5, set/inorder.rs:3-5,
    set/postorder.rs:3-5 *)
Definition VBSTSet (t : vty) : vty := VStruct [VBSTMap t VPlain].
Definition VSetNode (a : nat) (t : vty) : vty := VStruct [VNode a t VPlain].
Definition VSetIter (a : nat) (t : vty) : vty := VStruct [VIter a t VPlain].

(** simple_bst/src/map/node.rs:4-9, map.rs:20-23, map/preorder.rs:5-7 (and the other
    orders), set.rs:19-21, set/node.rs:5-7, set/preorder.rs:3-5 *)
Definition VSimpleNode (k v : vty) : vty := VStruct [k; v; VOwn (VOwn VSelf); VOwn (VOwn VSelf)].
Definition VSimpleBSTMap (k v : vty) : vty := VStruct [VOwn (VSimpleNode k v); VPlain].
Definition VSimpleIter (a : nat) (k v : vty) : vty := VStruct [VOwn (VRef a (VSimpleNode k v))].
Definition VSimpleBSTSet (t : vty) : vty := VStruct [VSimpleBSTMap t VPlain].
Definition VSimpleSetNode (a : nat) (t : vty) : vty := VStruct [VRef a (VSimpleNode t VPlain)].
Definition VSimpleSetIter (a : nat) (t : vty) : vty := VStruct [VSimpleIter a t VPlain].
