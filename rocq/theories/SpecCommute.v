(** * Two updates, in either order

    An update inserts a key or removes the entry that a query matches. Only the
    types of calls are taken from the model. *)

From Verif Require Export SpecSimpleSet.

Section commute.
Context {K V : Type}.
Variable cmp : K -> K -> comparison.

Inductive update : Type :=
| UInsert (k : K) (v : V)
| URemove (f : K -> comparison)
| URemoveEntry (f : K -> comparison).

(** The keys that an update is about. *)
Definition target (u : update) : K -> comparison :=
  match u with UInsert k _ => cmp k | URemove f | URemoveEntry f => f end.
Definition apart (u u' : update) : Prop := forall x, target u x = Eq -> target u' x = Eq -> False.

(** The call [c] makes the update [u], with comparisons that follow the order. *)
Definition makes (c : op K V) (u : update) : Prop :=
  match c, u with
  | OInsert o k v, UInsert k' v' => k = k' /\ v = v' /\ answers o (cmp k)
  | ORemove o, URemove f | ORemoveEntry o, URemoveEntry f => is_query cmp f /\ answers o f
  | _, _ => False
  end.

(** One of the keys lies strictly between [k] and [k']. *)
Definition separated (k k' : K) (keys : list K) : Prop :=
  exists x, x ∈ keys /\ ((cmp k x = Lt /\ cmp x k' = Lt) \/ (cmp k' x = Lt /\ cmp x k = Lt)).
End commute.
Arguments update : clear implicits.

Definition set_makes {T} (cmp : T -> T -> comparison) (c : set_op T) (u : update T unit) : Prop :=
  match c, u with
  | SetInsert o x, UInsert x' _ => x = x' /\ answers o (cmp x)
  | SetRemove o, URemove f | SetTake o, URemoveEntry f => is_query cmp f /\ answers o f
  | _, _ => False
  end.
