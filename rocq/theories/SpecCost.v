(** * Costs of the other collections

    Trees of values: their height, and those without left children. *)

From Verif Require Export SpecSimpleSet SpecSetSafety.

Section spec.
Context {T : Type}.

Fixpoint sheight (t : stree T) : nat :=
  match t with
  | sleaf => 0
  | snode l _ r => S (Nat.max (sheight l) (sheight r))
  end.

Definition set_inserts (os : nat -> T -> oracle T) (items : list T) : list (set_op T) :=
  imap (fun j x => SetInsert (os j x) x) items.

(** The tree without left children. *)
Definition set_right_spine (items : list T) : stree T := foldr (fun x t => snode sleaf x t) sleaf items.

End spec.
