(** * How much stack a program needs *)

From Verif Require Export SpecCost SpecNodes SpecSetDrops ModelStack.

(** The number of entries that a call may add. *)
Definition adds {K V : Type} (c : op K V) : nat :=
  match c with
  | OInsert _ _ _ => 1
  | OExtend _ it => length (ui_items it)
  | _ => 0
  end.
Definition added {K V : Type} (cs : list (op K V)) : nat := sum_list (adds <$> cs).

(** The calls that use the stack. *)
Definition recurses {K V : Type} (c : op K V) : Prop :=
  match c with OClear | ODebug | OClone _ _ _ => True | _ => False end.
Definition set_recurses {T : Type} (c : set_op T) : Prop :=
  match c with SetClear | SetDebug | SetClone _ _ => True | _ => False end.
