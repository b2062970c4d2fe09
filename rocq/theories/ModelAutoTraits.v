(** * Model of the auto traits Send and Sync

    The declarations of the data types of both crates, and the compiler's rules for
    auto traits (Rust reference, "Auto traits"): a type has the trait if all its
    fields have it, unless there is an explicit impl, which then decides alone. *)

From Coq Require Import Bool List.
Import ListNotations.

Inductive auto := Send | Sync.

(** Types. [TParam i] is a type about which only the two flags are known. [TPlain] is
    any type without interior state that is both Send and Sync ([usize], [()]).
    [TOwned t] stands for the library types that have each trait exactly when their
    contents do: [Vec], [Option], [Box], [ManuallyDrop], [MaybeUninit],
    [PhantomData]. [TRaw t] is [*mut T] or [NonNull<T>], which have neither. [TSelf]
    is a recursive occurrence of the surrounding type: auto traits are coinductive,
    so it counts as having the trait. [TData send sync fields] is a struct or a
    union; [send] is [Some bounds] if there is an
    [unsafe impl<..> Send for ..] with [B: Send] for the given bounds, likewise [sync]. *)
Inductive ty :=
| TParam (i : nat)
| TPlain
| TOwned (t : ty)
| TRef (t : ty)
| TRefMut (t : ty)
| TRaw (t : ty)
| TSelf
| TData (send sync : option (list ty)) (fields : list ty).

(** [flags i a]: does the [i]-th type parameter have the trait [a]? *)
Fixpoint has (flags : nat -> auto -> bool) (a : auto) (t : ty) : bool :=
  match t with
  | TParam i => flags i a
  | TPlain | TSelf => true
  | TOwned t => has flags a t
  | TRef t => has flags Sync t          (* &T: Send and Sync iff T: Sync *)
  | TRefMut t => has flags a t          (* &mut T: as T *)
  | TRaw _ => false
  | TData send sync fields =>
    match a, send, sync with
    | Send, Some bounds, _ => forallb (has flags a) bounds
    | Sync, _, Some bounds => forallb (has flags a) bounds
    | _, _, _ => forallb (has flags a) fields
    end
  end.

Definition TStruct (fields : list ty) : ty := TData None None fields.

(** arena.rs:94-103 [Ptr(NonNull<()>)] with two unconditional impls *)
Definition TPtr : ty := TData (Some []) (Some []) [TRaw TPlain].
(** arena.rs:37-41 [ExponentialAlloc] (one field of type [()]) *)
Definition TExponentialAlloc : ty := TStruct [TPlain].
(** arena.rs:110-144 [StableArena<T>] *)
Definition TStableArena (t : ty) : ty :=
  TData (Some [t]) (Some [t]) [TOwned (TRaw (TOwned t)); TPlain; TPlain; TExponentialAlloc; TOwned t].
(** arena.rs:486-488 [IntoIter<T>], 525-528 [Iter], 587-590 [IterMut], 664-666 [Pointers] *)
Definition TArenaIntoIter (t : ty) : ty := TStruct [TOwned t].
Definition TArenaIter (t : ty) : ty := TStruct [TRef (TStableArena t); TPlain].
Definition TArenaIterMut (t : ty) : ty := TStruct [TRefMut (TStableArena t); TPlain].
Definition TPointers (t : ty) : ty := TStruct [t].

(** slab.rs:12-23 [FreeEntry], [union Entry<T>]; 53-71 [UnsafeSlab<T>] *)
Definition TFreeEntry : ty := TStruct [TOwned TPtr].
Definition TEntry (t : ty) : ty := TStruct [TOwned t; TFreeEntry].
Definition TUnsafeSlab (t : ty) : ty := TStruct [TStableArena (TEntry t); TOwned TPtr; TPlain; TOwned t].

(** map.rs:21-26 [InnerNode<K, V>], 54-57 [BSTMap<K, V>] *)
Definition TInnerNode (k v : ty) : ty := TStruct [k; v; TOwned TPtr; TOwned TPtr].
Definition TBSTMap (k v : ty) : ty := TStruct [TUnsafeSlab (TInnerNode k v); TOwned TPtr].
(** map/node.rs:10-13 [Node], 101-107 [NodeMut] with two impls *)
Definition TNode (k v : ty) : ty := TStruct [TRef (TUnsafeSlab (TInnerNode k v)); TRef (TInnerNode k v)].
Definition TNodeMut (k v : ty) : ty :=
  TData (Some [k; v]) (Some [k; v]) [TRaw (TUnsafeSlab (TInnerNode k v)); TRefMut (TInnerNode k v)].
(** map/preorder.rs:8-11, 38-42, map/inorder.rs:8-11, 52-56, map/postorder.rs:8-11,
    80-84: the three orders have the same fields *)
Definition TIter (k v : ty) : ty := TStruct [TRef (TUnsafeSlab (TInnerNode k v)); TOwned TPtr].
Definition TIterMut (k v : ty) : ty :=
  TStruct [TRaw (TUnsafeSlab (TInnerNode k v)); TOwned TPtr; TOwned (TRefMut (TUnsafeSlab (TInnerNode k v)))].

(** set.rs:26-28, set/node.rs:5-7, set/preorder.rs:3-5, set/inorder.rs:3-5,
    set/postorder.rs:3-5 *)
Definition TBSTSet (t : ty) : ty := TStruct [TBSTMap t TPlain].
Definition TSetNode (t : ty) : ty := TStruct [TNode t TPlain].
Definition TSetIter (t : ty) : ty := TStruct [TIter t TPlain].

(** simple_bst/src/map/node.rs:4-9, map.rs:20-23, map/preorder.rs:5-7 (and the other
    orders), set.rs:19-21, set/node.rs:5-7, set/preorder.rs:3-5 *)
Definition TSimpleNode (k v : ty) : ty := TStruct [k; v; TOwned (TOwned TSelf); TOwned (TOwned TSelf)].
Definition TSimpleBSTMap (k v : ty) : ty := TStruct [TOwned (TSimpleNode k v); TPlain].
Definition TSimpleIter (k v : ty) : ty := TStruct [TOwned (TRef (TSimpleNode k v))].
Definition TSimpleBSTSet (t : ty) : ty := TStruct [TSimpleBSTMap t TPlain].
Definition TSimpleSetNode (t : ty) : ty := TStruct [TRef (TSimpleNode t TPlain)].
Definition TSimpleSetIter (t : ty) : ty := TStruct [TSimpleIter t TPlain].
