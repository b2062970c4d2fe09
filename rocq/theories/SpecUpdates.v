(** * What updates do to the cost of lookups

    The cost of a lookup is observed from outside: the fewest answers of the
    comparator after which the call does not panic. From the model only the calls
    are used. *)

From Verif Require Export SpecCost.

(** ** Maps *)
Section maps.
Context {K V : Type}.

(** The comparator that always answers like [f], and the one that panics after
    [n] answers. *)
Definition always (f : K -> comparison) : oracle K := fun _ k => Some (f k).
Definition at_most (n : nat) (f : K -> comparison) : oracle K := first_answers n (always f).

(** [n] comparisons are enough for [get]. *)
Definition answered (e : env) (m : bstmap K V) (f : K -> comparison) (n : nat) : Prop :=
  (exec e (OGet (at_most n f)) m).1 <> Panic PCmp.
Definition has_key (e : env) (m : bstmap K V) (f : K -> comparison) : Prop :=
  exists v, (exec e (OGet (always f)) m).1 = Ret (OutValue (Some v)).

Definition simple_answered (e : benv) (m : simple K V) (f : K -> comparison) (n : nat) : Prop :=
  (simple_exec e (OGet (at_most n f)) m).1 <> Panic PCmp.
Definition simple_has_key (e : benv) (m : simple K V) (f : K -> comparison) : Prop :=
  exists v, (simple_exec e (OGet (always f)) m).1 = Ret (OutValue (Some v)).

(** Calls that only add, with the number of entries that they are given. *)
Definition adding (c : op K V) : option nat :=
  match c with
  | OInsert _ _ _ => Some 1
  | OExtend _ it => Some (length (ui_items it))
  | _ => None
  end.

Definition removing (c : op K V) : bool :=
  match c with ORemove _ | ORemoveEntry _ => true | _ => false end.

(** Calls that neither add nor remove. *)
Definition keeps_keys (c : op K V) : bool :=
  match c with
  | OInsert _ _ _ | OExtend _ _ | ORemove _ | ORemoveEntry _ | OClear | OClone _ _ _ => false
  | _ => true
  end.

End maps.

(** ** Sets *)
Section sets.
Context {T : Type}.

Definition set_answered (e : env) (m : bstset T) (f : T -> comparison) (n : nat) : Prop :=
  (set_exec e (SetContains (at_most n f)) m).1 <> Panic PCmp.
Definition set_contains_it (e : env) (m : bstset T) (f : T -> comparison) : Prop :=
  (set_exec e (SetContains (always f)) m).1 = Ret (SetBool true).

Definition sset_answered (e : benv) (m : sset T) (f : T -> comparison) (n : nat) : Prop :=
  (sset_exec e (SetContains (at_most n f)) m).1 <> Panic PCmp.
Definition sset_contains_it (e : benv) (m : sset T) (f : T -> comparison) : Prop :=
  (sset_exec e (SetContains (always f)) m).1 = Ret (SetBool true).

Definition set_adding (c : set_op T) : option nat :=
  match c with
  | SetInsert _ _ => Some 1
  | SetExtend _ it => Some (length (ui_items it))
  | _ => None
  end.

Definition set_removing (c : set_op T) : bool :=
  match c with SetRemove _ | SetTake _ => true | _ => false end.

Definition set_keeps (c : set_op T) : bool :=
  match c with
  | SetInsert _ _ | SetExtend _ _ | SetRemove _ | SetTake _ | SetClear | SetClone _ _ => false
  | _ => true
  end.

End sets.
