(** * Search trees with an arbitrary comparator

    The textbook search tree once more, now with comparisons that may answer
    anything. An [oracle] gives the answers of one call: [o i k] is the answer of
    its [i]-th comparison, made with the stored key [k]; [None] is a panic of the
    comparator. From the model only types are used. *)

From Coq Require Import String.
From Verif Require Export SpecObs.

Section oracle.
Context {K V : Type}.
Implicit Types t l r : tree K V.

(** The entry found; [None]: a comparison panicked. *)
Fixpoint otree_find (o : oracle K) (i : nat) t : option (option (K * V)) :=
  match t with
  | tleaf => Some None
  | tnode l k v r =>
    match o i k with
    | None => None
    | Some Lt => otree_find o (S i) l
    | Some Gt => otree_find o (S i) r
    | Some Eq => Some (Some (k, v))
    end
  end.

(** The new tree and the old value. *)
Fixpoint otree_insert (o : oracle K) (i : nat) (k : K) (v : V) t : option (tree K V * option V) :=
  match t with
  | tleaf => Some (tnode tleaf k v tleaf, None)
  | tnode l k' v' r =>
    match o i k' with
    | None => None
    | Some Lt => (fun x => (tnode x.1 k' v' r, x.2)) <$> otree_insert o (S i) k v l
    | Some Gt => (fun x => (tnode l k' v' x.1, x.2)) <$> otree_insert o (S i) k v r
    | Some Eq => Some (tnode l k' v r, Some v')
    end
  end.

(** The new tree and the removed entry. *)
Fixpoint otree_remove (o : oracle K) (i : nat) t : option (tree K V * option (K * V)) :=
  match t with
  | tleaf => Some (tleaf, None)
  | tnode l k v r =>
    match o i k with
    | None => None
    | Some Lt => (fun x => (tnode x.1 k v r, x.2)) <$> otree_remove o (S i) l
    | Some Gt => (fun x => (tnode l k v x.1, x.2)) <$> otree_remove o (S i) r
    | Some Eq => Some (tree_join l r, Some (k, v))
    end
  end.

(** The tree after an assignment to the value of the entry that is found. *)
Fixpoint otree_set (o : oracle K) (i : nat) (w : V) t : tree K V :=
  match t with
  | tleaf => tleaf
  | tnode l k v r =>
    match o i k with
    | None => t
    | Some Lt => tnode (otree_set o (S i) w l) k v r
    | Some Gt => tnode l k v (otree_set o (S i) w r)
    | Some Eq => tnode l k w r
    end
  end.

(** Insertion of a list, the first item being number [j], up to the first
    comparison that panics; [true] if none does. *)
Fixpoint otree_insert_all (os : nat -> K -> oracle K) (j : nat) (items : list (K * V)) t : tree K V * bool :=
  match items with
  | [] => (t, true)
  | (k, v) :: items =>
    match otree_insert (os j k) 0 k v t with
    | None => (t, false)
    | Some (t', _) => otree_insert_all os (S j) items t'
    end
  end.

(** [Panic PCmp] if a comparison panicked. *)
Definition or_panic {A} (x : option A) (f : A -> out K V) : res (out K V) :=
  match x with Some a => Ret (f a) | None => Panic PCmp end.

(** Calls whose outcome is a function of the tree: the result and the new tree.
    Cloning inserts the clones in pre-order, up to the first that panics. *)
Definition otree_call (c : op K V) t : option (res (out K V) * tree K V) :=
  match c with
  | OInsert o k v =>
      let x := otree_insert o 0 k v t in
      Some (or_panic x (fun x => OutValue x.2), default t (fst <$> x))
  | ORemove o =>
      let x := otree_remove o 0 t in
      Some (or_panic x (fun x => OutValue (snd <$> x.2)), default t (fst <$> x))
  | ORemoveEntry o =>
      let x := otree_remove o 0 t in
      Some (or_panic x (fun x => OutEntry x.2), default t (fst <$> x))
  | OGet o => Some (or_panic (otree_find o 0 t) (fun x => OutValue (snd <$> x)), t)
  | OGetEntry o => Some (or_panic (otree_find o 0 t) OutEntry, t)
  | OContains o => Some (or_panic (otree_find o 0 t) (fun x => OutBool (match x with Some _ => true | None => false end)), t)
  | OGetMut o w =>
      Some (or_panic (otree_find o 0 t) (fun x => OutValue (snd <$> x)),
            match w with Some w => otree_set o 0 w t | None => t end)
  | OGetEntryMut o w =>
      Some (or_panic (otree_find o 0 t) OutEntry,
            match w with Some w => otree_set o 0 w t | None => t end)
  | OLen => Some (Ret (OutNum (N.of_nat (length (tree_inorder t)))), t)
  | OIsEmpty => Some (Ret (OutBool (negb (nonleaf t))), t)
  | OClear => Some (Ret OutUnit, tleaf)
  | OReserve _ | OShrink => Some (Ret OutUnit, t)
  | OExtend os it =>
      let x := otree_insert_all os 0 (ui_items it) t in
      Some (if x.2 then if ui_panics it then Panic PIter else Ret OutUnit else Panic PCmp, x.1)
  | OIter d n => Some (Ret (OutSeq (first_calls n (tree_order d t))), t)
  | OWalk path => Some (Ret (OutNode (tree_show (tree_at path t))), t)
  | OWalkMut path w => Some (Ret (OutNode (tree_show (tree_at path t))),
                             match w with Some w => tree_write_at path w t | None => t end)
  | ODebug => Some (Ret (OutDebug (DStruct "BSTMap" [("root", tree_debug t)])), t)%string
  | OClone os ck cv =>
      let new := clones ck cv 0 (tree_preorder t) in
      let x := otree_insert_all os 0 new.1 tleaf in
      Some (if x.2 then if new.2 then (Ret OutUnit, x.1) else (Panic PClone, t) else (Panic PCmp, t))
  | OCapacity | OIterMut _ _ => None
  end.

(** The outcomes of the other calls. *)
Definition otree_other (c : op K V) t (x : res (out K V)) (t' : tree K V) : Prop :=
  match c with
  | OCapacity => t' = t /\ exists n, x = Ret (OutNum n)
  | OIterMut d evs => tree_keys t' = tree_keys t /\
      let '(now, n, z) := mut_walk (tree_order d t) 0 0 evs in
      tree_order d t' = now /\ x = Ret (OutMut (take n (tree_order d t)) z)
  | _ => False
  end.

(** A call that needs memory may be refused it. Then [extend] stops somewhere;
    the others change nothing. *)
Definition otree_refused (c : op K V) t (x : res (out K V)) (t' : tree K V) : Prop :=
  match c with
  | OInsert _ _ _ | OClone _ _ _ => alloc_refused x /\ t' = t
  | OReserve _ => (alloc_refused x \/ x = Panic POverflow) /\ t' = t
  | OExtend os it => (alloc_refused x \/ x = Panic POverflow) /\
      exists n, otree_insert_all os 0 (take n (ui_items it)) t = (t', true)
  | _ => False
  end.

Definition otree_step t (c : op K V) (x : res (out K V)) (t' : tree K V) : Prop :=
  otree_call c t = Some (x, t') \/ otree_other c t x t' \/ otree_refused c t x t'.

(** The trees that a new map may have. *)
Definition otree_start (s : start K V) t : Prop :=
  match s with
  | SNew | SWithCapacity _ => t = tleaf
  | SFromIter os it => otree_insert_all os 0 (ui_items it) tleaf = (t, true) /\ ui_panics it = false
  end.

End oracle.

(** ** Calls with one search *)

(** The calls that search for a (borrowed form of a) key, with their oracle left
    open. *)
Inductive search_call {K V : Type} : (oracle K -> op K V) -> Prop :=
| sc_get : search_call OGet
| sc_get_entry : search_call OGetEntry
| sc_contains : search_call OContains
| sc_get_mut w : search_call (fun o => OGetMut o w)
| sc_get_entry_mut w : search_call (fun o => OGetEntryMut o w)
| sc_remove : search_call ORemove
| sc_remove_entry : search_call ORemoveEntry.

(** The comparator that answers like [o] [n] times and then panics. *)
Definition first_answers {K} (n : nat) (o : oracle K) : oracle K :=
  fun i k => if Nat.ltb i n then o i k else None.

(** ** Histories that only insert *)
Definition inserts {K V} (os : nat -> K -> oracle K) (items : list (K * V)) : list (op K V) :=
  imap (fun j kv => OInsert (os j kv.1) kv.1 kv.2) items.

Definition returned_all {A} (rs : list (res A)) : Prop := Forall (fun r => exists x, r = Ret x) rs.

(** The tree without left children. *)
Definition right_spine {K V} (items : list (K * V)) : tree K V := foldr (fun kv t => tnode tleaf kv.1 kv.2 t) tleaf items.

(** ** Borrowed forms

    Two calls that differ at most in that one searches for [q : Q] and the other
    for a key [k] whose borrowed form equals [q]. The comparisons of both panic in
    the same cases ([p]). *)
Inductive borrowed_alike {K V Q : Type} (cmp : K -> K -> comparison) (cmpQ : Q -> Q -> comparison) (borrow : K -> Q) :
  op K V -> op K V -> Prop :=
| alike_same c : borrowed_alike cmp cmpQ borrow c c
| alike_search call (p : nat -> K -> bool) q k :
    search_call call -> cmpQ q (borrow k) = Eq ->
    borrowed_alike cmp cmpQ borrow
      (call (fun i x => if p i x then None else Some (cmpQ q (borrow x))))
      (call (fun i x => if p i x then None else Some (cmp k x))).
