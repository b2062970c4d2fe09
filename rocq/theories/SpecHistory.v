(** * What histories of calls should do

    The specification of the calls of [ModelHistory.v], in terms of the naive
    finite maps and trees of [Spec.v]. From the model only the types of calls
    and results are used ([op], [out], [mut_event], [dbg], ...), not the
    functions that execute them. *)

From Coq Require Import String.
From Verif Require Export Spec ModelHistory.

(** The comparisons of a call all answer the query [f], or panic. *)
Definition answers {K} (o : oracle K) (f : K -> comparison) : Prop :=
  forall i k, o i k = Some (f k) \/ o i k = None.

(** The allocator may refuse an allocation: "capacity overflow" or the assertion
    on the granted capacity are panics, running out of memory is an abort
    ([None]). *)
Definition alloc_refused {A} (r : res A) : Prop :=
  r = Panic PCapacity \/ r = Panic PAssert \/ r = Abort.

(** How many items the [size_hint] of an iterator announces: its upper bound, or the
    lower one if it has none. *)
Definition hinted {A} (it : user_iter A) : N := match ui_hi it with Some n => n | None => ui_lo it end.

Section spec.
Context {K V : Type}.
Implicit Types l : list (K * V).

(** ** Traversals and what they yield *)

Definition tree_order (d : order) (t : tree K V) : list (K * V) :=
  match d with Pre => tree_preorder t | In => tree_inorder t | Post => tree_postorder t end.

(** Calling [next] [n] times: the elements, then [None] for ever. *)
Fixpoint first_calls {A} (n : nat) (l : list A) : list (option A) :=
  match n, l with
  | O, _ => []
  | S n, [] => None :: first_calls n []
  | S n, x :: l => Some x :: first_calls n l
  end.

(** A program that goes through the entries [l] with mutable references: [n] is
    the number of entries yielded so far, [x] how often [None] was returned.
    Result: the entries at the end, the number yielded, the number of [None]. *)
Fixpoint mut_walk l (n x : nat) (evs : list (mut_event V)) : list (K * V) * nat * nat :=
  match evs with
  | [] => (l, n, x)
  | EvNext :: evs => if Nat.ltb n (length l) then mut_walk l (S n) x evs else mut_walk l n (S x) evs
  | EvWrite j v :: evs =>
    if Nat.ltb j n then mut_walk (alter (fun kv => (kv.1, v)) j l) n x evs else mut_walk l n x evs
  end.

(** The values the program writes. *)
Fixpoint mut_written (len n : nat) (evs : list (mut_event V)) : list V :=
  match evs with
  | [] => []
  | EvNext :: evs => mut_written len (if Nat.ltb n len then S n else n) evs
  | EvWrite j v :: evs => if Nat.ltb j n then v :: mut_written len n evs else mut_written len n evs
  end.

(** ** Walks and printed forms of trees *)

Fixpoint tree_at (path : list dir) (t : tree K V) : tree K V :=
  match path, t with
  | [], _ => t
  | _, tleaf => tleaf
  | GoLeft :: path, tnode l _ _ _ => tree_at path l
  | GoRight :: path, tnode _ _ _ r => tree_at path r
  end.

Definition tree_show (t : tree K V) : option (shown K V) :=
  match t with tleaf => None | tnode l k v r => Some (k, v, nonleaf l, nonleaf r) end.

(** Write [w] at the end of a path. *)
Fixpoint tree_write_at (path : list dir) (w : V) (t : tree K V) : tree K V :=
  match path, t with
  | _, tleaf => tleaf
  | [], tnode l k v r => tnode l k w r
  | GoLeft :: path, tnode l k v r => tnode (tree_write_at path w l) k v r
  | GoRight :: path, tnode l k v r => tnode l k v (tree_write_at path w r)
  end.

(** The same tree without its values: its shape and keys. *)
Fixpoint tree_keys (t : tree K V) : tree K unit :=
  match t with
  | tleaf => tleaf
  | tnode l k v r => tnode (tree_keys l) k tt (tree_keys r)
  end.

Fixpoint tree_debug (t : tree K V) : dbg K V :=
  match t with
  | tleaf => DNone
  | tnode l k v r =>
    DSome (DStruct "Node" [("key", DKey k); ("value", DValue v);
                           ("left", tree_debug l); ("right", tree_debug r)])
  end%string.

(** ** Equality of two lists of entries *)
Fixpoint list_eqb (eqK : K -> K -> bool) (eqV : V -> V -> bool) (l1 l2 : list (K * V)) : bool :=
  match l1, l2 with
  | [], [] => true
  | (k1, v1) :: l1, (k2, v2) :: l2 => eqK k1 k2 && eqV v1 v2 && list_eqb eqK eqV l1 l2
  | _, _ => false
  end.

(** The clones of a list of entries, the [j]-th first; [false] if a clone panics. *)
Fixpoint clones (ck : nat -> K -> option K) (cv : nat -> V -> option V) (j : nat) (l : list (K * V))
  : list (K * V) * bool :=
  match l with
  | [] => ([], true)
  | (k0, v0) :: l =>
    match ck j k0, cv j v0 with
    | Some k, Some v => let '(l', b) := clones ck cv (S j) l in ((k, v) :: l', b)
    | _, _ => ([], false)
    end
  end.

(** ** Ownership

    The keys and values a list of entries consists of, those that a call takes
    from the caller, and those that it gives back. [len] is the number of entries
    before the call. A [w] that is not written (nothing was found) stays with the
    caller. *)
Definition owned (l : list (K * V)) : list (K + V) := l ≫= (fun kv => [inl kv.1; inr kv.2]).

(** [g] are the clones that were made when cloning the entries [l] (the first being
    the [j]-th) stopped with the panic [p]. If a clone panicked: all entries before
    it, and the key if it was the clone of a value. If a comparison panicked: the
    entries up to the one that was being inserted. If the allocator refused: none,
    for the room is reserved before anything is cloned. *)
Definition clones_made (os : nat -> K -> oracle K) (ck : nat -> K -> option K) (cv : nat -> V -> option V)
    (j : nat) (l : list (K * V)) (p : panic_reason) (g : list (K + V)) : Prop :=
  let made := (clones ck cv j l).1 in
  match p with
  | PClone => (clones ck cv j l).2 = false /\
      g = owned made ++ match l !! length made with
                        | Some (k0, _) => match ck (j + length made) k0 with Some k => [inl k] | None => [] end
                        | None => []
                        end
  | PCmp => exists n k v i k0, made !! n = Some (k, v) /\ os (j + n) k i k0 = None /\ g = owned (take (S n) made)
  | PCapacity | PAssert => g = []
  | _ => False
  end.

(** [n] items had been pulled from the iterator when inserting its items one after
    the other stopped with the panic [p]. If the iterator panicked: all it yields
    before. If a comparison panicked: those up to the one being inserted. An
    overflow can only happen before the first is pulled. *)
Definition pulled (os : nat -> K -> oracle K) (it : user_iter (K * V)) (p : panic_reason) (n : nat) : Prop :=
  match p with
  | PIter => ui_panics it = true /\ n = length (ui_items it)
  | PCmp => exists j k v i k0, ui_items it !! j = Some (k, v) /\ os j k i k0 = None /\ n = S j
  | PCapacity | PAssert => n <= length (ui_items it)
  | POverflow => n = 0
  | _ => False
  end.

Definition given (len : nat) (c : op K V) (x : out K V) : list (K + V) :=
  match c, x with
  | OInsert _ k v, _ => [inl k; inr v]
  | OGetMut _ (Some w), OutValue (Some _) => [inr w]
  | OGetEntryMut _ (Some w), OutEntry (Some _) => [inr w]
  | OWalkMut _ (Some w), OutNode (Some _) => [inr w]
  | OIterMut _ evs, _ => inr <$> mut_written len 0 evs
  | OExtend _ it, _ => owned (ui_items it)
  | _, _ => []
  end.

Definition returned (c : op K V) (x : out K V) : list (K + V) :=
  match c, x with
  | OInsert _ _ _, OutValue (Some v) => [inr v]
  | ORemove _, OutValue (Some v) => [inr v]
  | ORemoveEntry _, OutEntry (Some kv) => [inl kv.1; inr kv.2]
  | _, _ => []
  end.

End spec.

(** ** Calls of a program whose order is lawful

    All comparisons of the program follow the order [cmp] (or panic), and the
    clone of a key is equal to the key. *)
Section lawful_calls.
Context {K V : Type}.
Variable cmp : K -> K -> comparison.

Definition legal_search (o : oracle K) : Prop := exists f, is_query cmp f /\ answers o f.
Definition legal_inserts (os : nat -> K -> oracle K) : Prop := forall j k, answers (os j k) (cmp k).

Definition legal (c : op K V) : Prop :=
  match c with
  | OInsert o k v => answers o (cmp k)
  | ORemove o | ORemoveEntry o | OGet o | OGetEntry o | OContains o
  | OGetMut o _ | OGetEntryMut o _ => legal_search o
  | OExtend os it => legal_inserts os
  | OClone os ck cv => legal_inserts os /\ forall j k k', ck j k = Some k' -> cmp k' k = Eq
  | _ => True
  end.

Definition legal_start (s : start K V) : Prop :=
  match s with SFromIter os it => legal_inserts os | _ => True end.

(** A comparison with a stored key panicked. *)
Definition cmp_panicked (o : oracle K) (l : list (K * V)) (r : res (out K V)) : Prop :=
  r = Panic PCmp /\ exists i kv, kv ∈ l /\ o i kv.1 = None.

(** A comparison or the clone of an entry panicked. *)
Definition clone_panicked {A} (os : nat -> K -> oracle K) (ck : nat -> K -> option K) (cv : nat -> V -> option V)
    (l : list (K * V)) (r : res A) : Prop :=
  (r = Panic PCmp /\ exists j k i k0, os j k i k0 = None) \/
  (r = Panic PClone /\ exists j kv, kv ∈ l /\ (ck j kv.1 = None \/ cv j kv.2 = None)).

(** *** The contents as a finite map

    [map_step l c r l']: the call [c] on a map with the contents [l] (in any
    order) may have the result [r] and leave the contents [l']. *)
Definition map_step (l : list (K * V)) (c : op K V) (r : res (out K V)) (l' : list (K * V)) : Prop :=
  match c, r with
  | OInsert o k v, Ret x => x = OutValue (snd <$> assoc_find (cmp k) l) /\ l' ≡ₚ assoc_insert cmp k v l
  | OInsert o k v, _ => l' ≡ₚ l /\ (cmp_panicked o l r \/ alloc_refused r)
  | ORemove o, Ret x => forall f, is_query cmp f -> answers o f ->
      x = OutValue (snd <$> assoc_find f l) /\ l' ≡ₚ assoc_remove f l
  | ORemoveEntry o, Ret x => forall f, is_query cmp f -> answers o f ->
      x = OutEntry (assoc_find f l) /\ l' ≡ₚ assoc_remove f l
  | OGet o, Ret x => l' ≡ₚ l /\ forall f, is_query cmp f -> answers o f -> x = OutValue (snd <$> assoc_find f l)
  | OGetEntry o, Ret x => l' ≡ₚ l /\ forall f, is_query cmp f -> answers o f -> x = OutEntry (assoc_find f l)
  | OContains o, Ret x => l' ≡ₚ l /\ forall f, is_query cmp f -> answers o f ->
      x = OutBool (match assoc_find f l with Some _ => true | None => false end)
  | OGetMut o w, Ret x => forall f, is_query cmp f -> answers o f ->
      x = OutValue (snd <$> assoc_find f l) /\ l' ≡ₚ match w with Some w => assoc_set f w l | None => l end
  | OGetEntryMut o w, Ret x => forall f, is_query cmp f -> answers o f ->
      x = OutEntry (assoc_find f l) /\ l' ≡ₚ match w with Some w => assoc_set f w l | None => l end
  | (ORemove o | ORemoveEntry o | OGet o | OGetEntry o | OContains o | OGetMut o _ | OGetEntryMut o _), _ =>
      l' ≡ₚ l /\ cmp_panicked o l r
  | OLen, Ret x => l' ≡ₚ l /\ x = OutNum (N.of_nat (length l))
  | OIsEmpty, Ret x => l' ≡ₚ l /\ x = OutBool (Nat.eqb (length l) 0)
  | OCapacity, Ret x => l' ≡ₚ l /\ exists n, x = OutNum n
  | OClear, Ret x => l' = [] /\ x = OutUnit
  | (OReserve _ | OShrink), Ret x => l' ≡ₚ l /\ x = OutUnit
  | OReserve _, _ => l' ≡ₚ l /\ (alloc_refused r \/ r = Panic POverflow)
  | OExtend os it, Ret x => x = OutUnit /\ ui_panics it = false /\ l' ≡ₚ assoc_insert_all cmp (ui_items it) l
  | OExtend os it, _ => exists n, l' ≡ₚ assoc_insert_all cmp (take n (ui_items it)) l /\
      ((n = 0 /\ (alloc_refused r \/ r = Panic POverflow)) \/
       (n = length (ui_items it) /\ r = Panic PIter /\ ui_panics it = true) \/
       (exists k v, ui_items it !! n = Some (k, v) /\ (cmp_panicked (os n k) l' r \/ alloc_refused r)))
  | OIter d n, Ret x => l' ≡ₚ l /\ exists l1, l1 ≡ₚ l /\ (d = In -> sorted cmp l1) /\ x = OutSeq (first_calls n l1)
  | OIterMut d evs, Ret x => exists l1, l1 ≡ₚ l /\ (d = In -> sorted cmp l1) /\
      let '(l2, n, z) := mut_walk l1 0 0 evs in l' ≡ₚ l2 /\ x = OutMut (take n l1) z
  | OWalk path, Ret x => l' ≡ₚ l /\
      (x = OutNode None \/ exists k v a b, x = OutNode (Some (k, v, a, b)) /\ (k, v) ∈ l)
  | OWalkMut path w, Ret x =>
      (x = OutNode None /\ l' ≡ₚ l) \/
      (exists k v a b l0, x = OutNode (Some (k, v, a, b)) /\ l ≡ₚ (k, v) :: l0 /\
         l' ≡ₚ (k, match w with Some w => w | None => v end) :: l0)
  | ODebug, Ret x => l' ≡ₚ l /\ exists d, x = OutDebug d
  | OClone os ck cv, Ret x => x = OutUnit /\ exists l1 l2, l1 ≡ₚ l /\ clones ck cv 0 l1 = (l2, true) /\ l' ≡ₚ l2
  | OClone os ck cv, _ => l' ≡ₚ l /\ (alloc_refused r \/ clone_panicked os ck cv l r)
  | _, _ => False
  end.

(** *** The shape as a textbook search tree *)
Definition tree_step (t : tree K V) (c : op K V) (r : res (out K V)) (t' : tree K V) : Prop :=
  match c, r with
  | OInsert o k v, Ret x => x = OutValue (snd <$> tree_find (cmp k) t) /\ t' = tree_insert cmp k v t
  | OInsert o k v, _ => t' = t /\ (cmp_panicked o (tree_inorder t) r \/ alloc_refused r)
  | ORemove o, Ret x => forall f, answers o f -> x = OutValue (snd <$> tree_find f t) /\ t' = tree_remove f t
  | ORemoveEntry o, Ret x => forall f, answers o f -> x = OutEntry (tree_find f t) /\ t' = tree_remove f t
  | OGet o, Ret x => t' = t /\ forall f, answers o f -> x = OutValue (snd <$> tree_find f t)
  | OGetEntry o, Ret x => t' = t /\ forall f, answers o f -> x = OutEntry (tree_find f t)
  | OContains o, Ret x => t' = t /\ forall f, answers o f ->
      x = OutBool (match tree_find f t with Some _ => true | None => false end)
  | OGetMut o w, Ret x => forall f, answers o f ->
      x = OutValue (snd <$> tree_find f t) /\ t' = match w with Some w => tree_set f w t | None => t end
  | OGetEntryMut o w, Ret x => forall f, answers o f ->
      x = OutEntry (tree_find f t) /\ t' = match w with Some w => tree_set f w t | None => t end
  | (ORemove o | ORemoveEntry o | OGet o | OGetEntry o | OContains o | OGetMut o _ | OGetEntryMut o _), _ =>
      t' = t /\ cmp_panicked o (tree_inorder t) r
  | OLen, Ret x => t' = t /\ x = OutNum (N.of_nat (length (tree_inorder t)))
  | OIsEmpty, Ret x => t' = t /\ x = OutBool (negb (nonleaf t))
  | OCapacity, Ret x => t' = t /\ exists n, x = OutNum n
  | OClear, Ret x => t' = tleaf /\ x = OutUnit
  | (OReserve _ | OShrink), Ret x => t' = t /\ x = OutUnit
  | OReserve _, _ => t' = t /\ (alloc_refused r \/ r = Panic POverflow)
  | OExtend os it, Ret x => x = OutUnit /\ ui_panics it = false /\ t' = tree_insert_all cmp (ui_items it) t
  | OExtend os it, _ => exists n, t' = tree_insert_all cmp (take n (ui_items it)) t /\
      ((n = 0 /\ (alloc_refused r \/ r = Panic POverflow)) \/
       (n = length (ui_items it) /\ r = Panic PIter /\ ui_panics it = true) \/
       (exists k v, ui_items it !! n = Some (k, v) /\ (cmp_panicked (os n k) (tree_inorder t') r \/ alloc_refused r)))
  | OIter d n, Ret x => t' = t /\ x = OutSeq (first_calls n (tree_order d t))
  | OIterMut d evs, Ret x => tree_keys t' = tree_keys t /\
      let '(l, n, z) := mut_walk (tree_order d t) 0 0 evs in
      tree_order d t' = l /\ x = OutMut (take n (tree_order d t)) z
  | OWalk path, Ret x => t' = t /\ x = OutNode (tree_show (tree_at path t))
  | OWalkMut path w, Ret x => x = OutNode (tree_show (tree_at path t)) /\
      t' = match w with Some w => tree_write_at path w t | None => t end
  | ODebug, Ret x => t' = t /\ x = OutDebug (DStruct "BSTMap" [("root", tree_debug t)])%string
  | OClone os ck cv, Ret x => x = OutUnit /\
      exists l, clones ck cv 0 (tree_preorder t) = (l, true) /\ t' = tree_insert_all cmp l tleaf
  | OClone os ck cv, _ => t' = t /\ (alloc_refused r \/ clone_panicked os ck cv (tree_inorder t) r)
  | _, _ => False
  end.

(** *** Histories

    A history goes on after a panic; an abort ends it. *)
Fixpoint steps {S C X : Type} (step : S -> C -> res X -> S -> Prop) (s : S)
    (cs : list C) (rs : list (res X)) (s' : S) : Prop :=
  match cs, rs with
  | [], [] => s' = s
  | c :: cs, r :: rs => exists s1, step s c r s1 /\
      match r with
      | Ret _ | Panic _ => steps step s1 cs rs s'
      | Abort => rs = [] /\ s' = s1
      | _ => False
      end
  | _, _ => False
  end.

(** The contents a new map starts with. *)
Definition start_tree (s : start K V) : tree K V :=
  match s with SFromIter os it => tree_insert_all cmp (ui_items it) tleaf | _ => tleaf end.
Definition start_map (s : start K V) : list (K * V) :=
  match s with SFromIter os it => assoc_insert_all cmp (ui_items it) [] | _ => [] end.

End lawful_calls.
