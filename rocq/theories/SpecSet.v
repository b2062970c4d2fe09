(** * What sets should do

    The specification of [BSTSet] and [SimpleBSTSet] in terms of plain lists of
    values. From the model only types are used. *)

From Coq Require Import String.
From Verif Require Export SpecObs ModelSet.

Section lists.
Context {T : Type}.

(** The value that the query [f] matches. *)
Fixpoint set_find (f : T -> comparison) (l : list T) : option T :=
  match l with
  | [] => None
  | x :: l => match f x with Eq => Some x | _ => set_find f l end
  end.

(** An equal value that is present stays. *)
Definition set_add (cmp : T -> T -> comparison) (x : T) (l : list T) : list T :=
  match set_find (cmp x) l with Some _ => l | None => l ++ [x] end.

Fixpoint set_del (f : T -> comparison) (l : list T) : list T :=
  match l with
  | [] => []
  | x :: l => match f x with Eq => l | _ => x :: set_del f l end
  end.

Definition set_add_all (cmp : T -> T -> comparison) (new l : list T) : list T :=
  fold_left (fun l x => set_add cmp x l) new l.

Definition set_sorted (cmp : T -> T -> comparison) (l : list T) : Prop :=
  StronglySorted (fun a b => cmp a b = Lt) l.

(** The clones of a list of values, the [j]-th first; [false] if one panics. *)
Fixpoint value_clones (ck : nat -> T -> option T) (j : nat) (l : list T) : list T * bool :=
  match l with
  | [] => ([], true)
  | x0 :: l =>
    match ck j x0 with
    | Some x => let '(l', b) := value_clones ck (S j) l in (x :: l', b)
    | None => ([], false)
    end
  end.

End lists.

(** ** Trees of values *)

Inductive stree (T : Type) :=
| sleaf
| snode (l : stree T) (x : T) (r : stree T).
Arguments sleaf {T}.
Arguments snode {T} l x r.

Section trees.
Context {T : Type}.

Fixpoint stree_order (d : order) (t : stree T) : list T :=
  match t with
  | sleaf => []
  | snode l x r =>
    match d with
    | Pre => x :: stree_order d l ++ stree_order d r
    | In => stree_order d l ++ x :: stree_order d r
    | Post => stree_order d l ++ stree_order d r ++ [x]
    end
  end.

Fixpoint stree_shape (t : stree T) : stree unit :=
  match t with sleaf => sleaf | snode l x r => snode (stree_shape l) tt (stree_shape r) end.

Definition snonleaf (t : stree T) : bool := match t with sleaf => false | _ => true end.

Fixpoint stree_at (path : list dir) (t : stree T) : stree T :=
  match path, t with
  | [], _ => t
  | _, sleaf => sleaf
  | GoLeft :: path, snode l _ _ => stree_at path l
  | GoRight :: path, snode _ _ r => stree_at path r
  end.

Definition stree_show (t : stree T) : option (set_shown T) :=
  match t with sleaf => None | snode l x r => Some (x, snonleaf l, snonleaf r) end.

Fixpoint stree_debug (t : stree T) : dbg T unit :=
  match t with
  | sleaf => DNone
  | snode l x r =>
    DSome (DStruct "Node" [("value", DKey x); ("left", stree_debug l); ("right", stree_debug r)])
  end%string.

(** What a program sees of a set. *)
Inductive set_exposes (m : bstset T) : option (SetNode T) -> stree T -> Prop :=
| set_exposes_none : set_exposes m None sleaf
| set_exposes_some n nl nr l r :
    setnode_left m n = Ret nl -> set_exposes m nl l ->
    setnode_right m n = Ret nr -> set_exposes m nr r ->
    set_exposes m (Some n) (snode l (setnode_value n) r).

Definition set_shows (m : bstset T) (t : stree T) : Prop := exists r, bstset_root m = Ret r /\ set_exposes m r t.

(** The iterator yields the values [l], and [None] whenever it is asked again. *)
Definition set_yields (m : bstset T) (d : order) (l : list T) : Prop :=
  exists it, set_iter_start m d = Ret it /\
  forall n, fst (set_nexts (set_iter_next m d) n it) = Ret (first_calls n l).

Definition set_reachable (e : env) (m : bstset T) : Prop := exists s cs rs, set_reached e s cs rs m /\ alive rs.

End trees.

(** ** Programs whose order is lawful *)
Section lawful_sets.
Context {T : Type}.
Variable cmp : T -> T -> comparison.
Implicit Types l : list T.

Definition set_legal (c : set_op T) : Prop :=
  match c with
  | SetInsert o x => answers o (cmp x)
  | SetRemove o | SetTake o | SetGet o | SetContains o => legal_search cmp o
  | SetExtend os it => legal_inserts cmp os
  | SetClone os ck => legal_inserts cmp os /\ forall j x x', ck j x = Some x' -> cmp x' x = Eq
  | _ => True
  end.

Definition set_legal_start (s : set_start T) : Prop :=
  match s with SetFromIter os it => legal_inserts cmp os | _ => True end.

Definition set_ordered_reachable (e : env) (m : bstset T) : Prop :=
  exists s cs rs, set_legal_start s /\ Forall set_legal cs /\ set_reached e s cs rs m /\ alive rs.

Definition set_cmp_panicked (o : oracle T) l (r : res (set_out T)) : Prop :=
  r = Panic PCmp /\ exists i x, x ∈ l /\ o i x = None.

(** A comparison or the clone of a value panicked. *)
Definition set_clone_panicked {A} (os : nat -> T -> oracle T) (ck : nat -> T -> option T) l (r : res A) : Prop :=
  (r = Panic PCmp /\ exists j k i k0, os j k i k0 = None) \/
  (r = Panic PClone /\ exists j x, x ∈ l /\ ck j x = None).

Definition found (x : option T) : bool := match x with Some _ => true | None => false end.

(** [set_step l c r l']: the call [c] on a set with the values [l] (in any order)
    may have the result [r] and leave the values [l']. *)
Definition set_step l (c : set_op T) (r : res (set_out T)) l' : Prop :=
  match c, r with
  | SetInsert o x, Ret y => y = SetBool (negb (found (set_find (cmp x) l))) /\ l' ≡ₚ set_add cmp x l
  | SetInsert o x, _ => l' ≡ₚ l /\ (set_cmp_panicked o l r \/ alloc_refused r)
  | SetRemove o, Ret y => forall f, is_query cmp f -> answers o f ->
      y = SetBool (found (set_find f l)) /\ l' ≡ₚ set_del f l
  | SetTake o, Ret y => forall f, is_query cmp f -> answers o f ->
      y = SetValue (set_find f l) /\ l' ≡ₚ set_del f l
  | SetGet o, Ret y => l' ≡ₚ l /\ forall f, is_query cmp f -> answers o f -> y = SetValue (set_find f l)
  | SetContains o, Ret y => l' ≡ₚ l /\ forall f, is_query cmp f -> answers o f -> y = SetBool (found (set_find f l))
  | (SetRemove o | SetTake o | SetGet o | SetContains o), _ => l' ≡ₚ l /\ set_cmp_panicked o l r
  | SetLen, Ret y => l' ≡ₚ l /\ y = SetNum (N.of_nat (length l))
  | SetIsEmpty, Ret y => l' ≡ₚ l /\ y = SetBool (Nat.eqb (length l) 0)
  | SetCapacity, Ret y => l' ≡ₚ l /\ exists n, y = SetNum n
  | SetClear, Ret y => l' = [] /\ y = SetUnit
  | (SetReserve _ | SetShrink), Ret y => l' ≡ₚ l /\ y = SetUnit
  | SetReserve _, _ => l' ≡ₚ l /\ (alloc_refused r \/ r = Panic POverflow)
  | SetExtend os it, Ret y => y = SetUnit /\ ui_panics it = false /\ l' ≡ₚ set_add_all cmp (ui_items it) l
  | SetExtend os it, _ => exists n, l' ≡ₚ set_add_all cmp (take n (ui_items it)) l /\
      ((n = 0 /\ (alloc_refused r \/ r = Panic POverflow)) \/
       (n = length (ui_items it) /\ r = Panic PIter /\ ui_panics it = true) \/
       (exists x, ui_items it !! n = Some x /\ (set_cmp_panicked (os n x) l' r \/ alloc_refused r)))
  | SetIter d n, Ret y => l' ≡ₚ l /\ exists l1, l1 ≡ₚ l /\ (d = In -> set_sorted cmp l1) /\ y = SetSeq (first_calls n l1)
  | SetWalk path, Ret y => l' ≡ₚ l /\ (y = SetNodeShown None \/ exists x a b, y = SetNodeShown (Some (x, a, b)) /\ x ∈ l)
  | SetDebug, Ret y => l' ≡ₚ l /\ exists d, y = SetDebugged d
  | SetClone os ck, Ret y => y = SetUnit /\ exists l1 l2, l1 ≡ₚ l /\ value_clones ck 0 l1 = (l2, true) /\ l' ≡ₚ l2
  | SetClone os ck, _ => l' ≡ₚ l /\ (alloc_refused r \/ set_clone_panicked os ck l r)
  | _, _ => False
  end.

Definition set_start_list (s : set_start T) : list T :=
  match s with SetFromIter os it => set_add_all cmp (ui_items it) [] | _ => [] end.

End lawful_sets.

(** Histories that only insert. *)
Definition set_inserts {T} (os : nat -> T -> oracle T) (items : list T) : list (set_op T) :=
  imap (fun j x => SetInsert (os j x) x) items.

(** The calls that search for a borrowed form of a value. *)
Inductive set_search_call {T : Type} : (oracle T -> set_op T) -> Prop :=
| ssc_contains : set_search_call SetContains
| ssc_get : set_search_call SetGet
| ssc_remove : set_search_call SetRemove
| ssc_take : set_search_call SetTake.
