(** * The specification, independent of the model

    Nothing in this file depends on the model of the Rust code. *)

From stdpp Require Export base numbers list.
From Coq Require Export Sorting.Sorted.

(** ** Orders

    [cmp a b] is the answer of [Ord::cmp]. A lawful order is total and
    transitive; keys that compare equal need not be the same key, but they
    compare alike with all others. *)
Record lawful {A : Type} (cmp : A -> A -> comparison) : Prop := {
  lw_refl : forall a, cmp a a = Eq;
  lw_sym : forall a b, cmp b a = CompOpp (cmp a b);
  lw_trans : forall a b c, cmp a b = Lt -> cmp b c = Lt -> cmp a c = Lt;
  lw_cong : forall a b c, cmp a b = Eq -> cmp a c = cmp b c;
}.

(** What a search for a borrowed form of a key sees: the answers of comparing
    one fixed [q : Q] with the borrowed forms of the stored keys, where the order
    of the borrowed forms is lawful and agrees with the order of the keys. *)
Definition is_query {K : Type} (cmp : K -> K -> comparison) (f : K -> comparison) : Prop :=
  exists (Q : Type) (cmpQ : Q -> Q -> comparison) (borrow : K -> Q) (q : Q),
    lawful cmpQ /\ (forall a b, cmpQ (borrow a) (borrow b) = cmp a b) /\
    (forall k, f k = cmpQ q (borrow k)).

(** ** Finite maps as association lists *)

Section assoc.
Context {K V : Type}.

(** The entry whose key the query [f] matches. *)
Fixpoint assoc_find (f : K -> comparison) (l : list (K * V)) : option (K * V) :=
  match l with
  | [] => None
  | (k, v) :: l => match f k with Eq => Some (k, v) | _ => assoc_find f l end
  end.

(** Insert: an entry with an equal key keeps its key and gets the new value;
    otherwise a new entry is added. *)
Fixpoint assoc_insert (cmp : K -> K -> comparison) (k : K) (v : V) (l : list (K * V)) : list (K * V) :=
  match l with
  | [] => [(k, v)]
  | (k', v') :: l =>
    match cmp k k' with
    | Eq => (k', v) :: l
    | _ => (k', v') :: assoc_insert cmp k v l
    end
  end.

Fixpoint assoc_remove (f : K -> comparison) (l : list (K * V)) : list (K * V) :=
  match l with
  | [] => []
  | (k, v) :: l => match f k with Eq => l | _ => (k, v) :: assoc_remove f l end
  end.

(** Assign a new value to the entry matched by [f], if there is one. *)
Fixpoint assoc_set (f : K -> comparison) (v : V) (l : list (K * V)) : list (K * V) :=
  match l with
  | [] => []
  | (k, v') :: l => match f k with Eq => (k, v) :: l | _ => (k, v') :: assoc_set f v l end
  end.

(** Insert all entries of a list, one after the other. *)
Definition assoc_insert_all (cmp : K -> K -> comparison) (new l : list (K * V)) : list (K * V) :=
  fold_left (fun l kv => assoc_insert cmp kv.1 kv.2 l) new l.

(** Strictly increasing keys. *)
Definition sorted (cmp : K -> K -> comparison) (l : list (K * V)) : Prop :=
  StronglySorted (fun a b => cmp a.1 b.1 = Lt) l.

End assoc.

(** ** Binary trees and their traversals *)

Inductive tree (K V : Type) :=
| tleaf
| tnode (l : tree K V) (k : K) (v : V) (r : tree K V).
Arguments tleaf {K V}.
Arguments tnode {K V} l k v r.

Section tree.
Context {K V : Type}.

Fixpoint tree_preorder (t : tree K V) : list (K * V) :=
  match t with
  | tleaf => []
  | tnode l k v r => (k, v) :: tree_preorder l ++ tree_preorder r
  end.

Fixpoint tree_inorder (t : tree K V) : list (K * V) :=
  match t with
  | tleaf => []
  | tnode l k v r => tree_inorder l ++ (k, v) :: tree_inorder r
  end.

Fixpoint tree_postorder (t : tree K V) : list (K * V) :=
  match t with
  | tleaf => []
  | tnode l k v r => tree_postorder l ++ tree_postorder r ++ [(k, v)]
  end.

Fixpoint height (t : tree K V) : nat :=
  match t with
  | tleaf => 0
  | tnode l _ _ r => S (Nat.max (height l) (height r))
  end.

Definition nonleaf (t : tree K V) : bool :=
  match t with tleaf => false | tnode _ _ _ _ => true end.

(** Search tree: at every node, smaller keys to the left, larger to the right. *)
Fixpoint bst (cmp : K -> K -> comparison) (t : tree K V) : Prop :=
  match t with
  | tleaf => True
  | tnode l k v r =>
    bst cmp l /\ bst cmp r /\
    Forall (fun kv => cmp kv.1 k = Lt) (tree_inorder l) /\
    Forall (fun kv => cmp k kv.1 = Lt) (tree_inorder r)
  end.

(** The textbook functional operations (Hibbard deletion). *)
Fixpoint tree_find (f : K -> comparison) (t : tree K V) : option (K * V) :=
  match t with
  | tleaf => None
  | tnode l k v r =>
    match f k with
    | Lt => tree_find f l
    | Gt => tree_find f r
    | Eq => Some (k, v)
    end
  end.

Fixpoint tree_insert (cmp : K -> K -> comparison) (k : K) (v : V) (t : tree K V) : tree K V :=
  match t with
  | tleaf => tnode tleaf k v tleaf
  | tnode l k' v' r =>
    match cmp k k' with
    | Lt => tnode (tree_insert cmp k v l) k' v' r
    | Gt => tnode l k' v' (tree_insert cmp k v r)
    | Eq => tnode l k' v r
    end
  end.

(** Assign a new value to the entry found by [f], if there is one. *)
Fixpoint tree_set (f : K -> comparison) (w : V) (t : tree K V) : tree K V :=
  match t with
  | tleaf => tleaf
  | tnode l k v r =>
    match f k with
    | Lt => tnode (tree_set f w l) k v r
    | Gt => tnode l k v (tree_set f w r)
    | Eq => tnode l k w r
    end
  end.

Definition tree_insert_all (cmp : K -> K -> comparison) (new : list (K * V)) (t : tree K V) : tree K V :=
  fold_left (fun t kv => tree_insert cmp kv.1 kv.2 t) new t.

(** Smallest entry of a non-empty tree and the rest. *)
Fixpoint tree_min (l : tree K V) (k : K) (v : V) (r : tree K V) : (K * V) * tree K V :=
  match l with
  | tleaf => ((k, v), r)
  | tnode ll lk lv lr => let '(x, l') := tree_min ll lk lv lr in (x, tnode l' k v r)
  end.

Definition tree_join (l r : tree K V) : tree K V :=
  match l, r with
  | tleaf, _ => r
  | _, tleaf => l
  | _, tnode rl rk rv rr =>
    let '((k, v), r') := tree_min rl rk rv rr in tnode l k v r'
  end.

Fixpoint tree_remove (f : K -> comparison) (t : tree K V) : tree K V :=
  match t with
  | tleaf => tleaf
  | tnode l k v r =>
    match f k with
    | Lt => tnode (tree_remove f l) k v r
    | Gt => tnode l k v (tree_remove f r)
    | Eq => tree_join l r
    end
  end.

End tree.
