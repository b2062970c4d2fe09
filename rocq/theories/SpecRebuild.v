(** * The search tree of a sequence of insertions

    The search tree that insertions of distinct keys build is the one in which
    every entry was inserted after its ancestors. *)

From Verif Require Export SpecSimpleSet.

(** [merges a b l]: [l] is an interleaving of [a] and [b]. *)
Inductive merges {A : Type} : list A -> list A -> list A -> Prop :=
| merges_nil : merges [] [] []
| merges_left x a b l : merges a b l -> merges (x :: a) b (x :: l)
| merges_right x a b l : merges a b l -> merges a (x :: b) (x :: l).

(** [l] lists every entry of the tree once, after its ancestors. *)
Inductive ancestors_first {K V : Type} : tree K V -> list (K * V) -> Prop :=
| af_leaf : ancestors_first tleaf []
| af_node l k v r ll lr lm : ancestors_first l ll -> ancestors_first r lr -> merges ll lr lm ->
    ancestors_first (tnode l k v r) ((k, v) :: lm).

Inductive set_ancestors_first {T : Type} : stree T -> list T -> Prop :=
| saf_leaf : set_ancestors_first sleaf []
| saf_node l x r ll lr lm : set_ancestors_first l ll -> set_ancestors_first r lr -> merges ll lr lm ->
    set_ancestors_first (snode l x r) (x :: lm).

(** No two keys of the list are equal. *)
Definition distinct {K : Type} (cmp : K -> K -> comparison) (l : list K) : Prop :=
  forall i j a b, l !! i = Some a -> l !! j = Some b -> cmp a b = Eq -> i = j.

(** The orders of a traversal in which ancestors come first. *)
Inductive copy_order : Type := CopyPre | CopyPostReversed.
Definition copy_items {K V} (m : bstmap K V) (c : copy_order) (l : list (K * V)) : Prop :=
  match c with
  | CopyPre => yields m Pre l
  | CopyPostReversed => yields m Post (rev l)
  end.
