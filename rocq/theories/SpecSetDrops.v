(** * Vocabulary for SimpleBSTSet with any comparator, and for sets whose destructors panic *)

From Coq Require Import String.
From Verif Require Export SpecSetSafety SpecSimpleSet SpecSimpleDrops ModelSetDrops.

(** ** SimpleBSTSet with any comparator *)
Section trees.
Context {T : Type}.
Implicit Types t : stree T.

(** A clone of the same shape. The [j]-th value in pre-order is cloned by [ck j];
    [None]: it panicked. *)
Fixpoint stree_clone (ck : nat -> T -> option T) (j : nat) t : option (stree T) :=
  match t with
  | sleaf => Some sleaf
  | snode l x r =>
    match ck j x with
    | Some x' =>
      match stree_clone ck (S j) l with
      | Some l' =>
        match stree_clone ck (S j + length (stree_order In l)) r with
        | Some r' => Some (snode l' x' r')
        | None => None
        end
      | None => None
      end
    | None => None
    end
  end.

(** The result and the new tree; [None] for the calls that SimpleBSTSet lacks. *)
Definition sstree_call (c : set_op T) t : option (res (set_out T) * stree T) :=
  match c with
  | SetCapacity | SetReserve _ | SetShrink => None
  | SetDebug => Some (Ret (SetDebugged (DStruct "SimpleBSTSet" [("root", stree_debug t)])), t)%string
  | SetClone _ ck => Some match stree_clone ck 0 t with Some t' => (Ret SetUnit, t') | None => (Panic PClone, t) end
  | _ => ostree_call c t
  end.

Definition sstree_step t (c : set_op T) (x : res (set_out T)) t' : Prop :=
  sstree_call c t = Some (x, t') \/ (x = Abort /\ set_allocates c = true).

End trees.

(** ** Destructors that panic *)
Section drops.
Context {T : Type}.

(** How many of the destructors of [l] panic. *)
Fixpoint set_bads (bad : T -> bool) (l : list T) : nat :=
  match l with [] => 0 | x :: l => (if bad x then 1 else 0) + set_bads bad l end.

(** [c'] is what the call [c] of a SimpleBSTSet had done when a destructor panicked:
    the first items of an [extend], and everything for the other calls. *)
Definition set_cut_of (c c' : set_op T) : Prop :=
  match c with
  | SetExtend os it => exists n, c' = SetExtend os (mkUserIter (ui_lo it) (ui_hi it) (take n (ui_items it)) false)
  | _ => c' = c
  end.

(** The same for BSTSet, where a clone does all or nothing (nothing: a call that only
    reads). *)
Definition set_part_of (c c' : set_op T) : Prop :=
  match c with
  | SetExtend os it => exists n, c' = SetExtend os (mkUserIter (ui_lo it) (ui_hi it) (take n (ui_items it)) false)
  | SetClone _ _ => c' = c \/ c' = SetCapacity
  | _ => c' = c
  end.

(** The call [c] with result [x] did what the call [c'] with result [x'] does, which
    meets no destructor that panics. *)
Definition set_as_if (part : set_op T -> set_op T -> Prop)
    (c : set_op T) (x : res (set_out T)) (c' : set_op T) (x' : res (set_out T)) : Prop :=
  (c' = c /\ x' = x) \/ (x = Panic PDrop /\ part c c' /\ exists y, x' = Ret y).

Fixpoint set_all_as_if (part : set_op T -> set_op T -> Prop) (cs : list (set_dcall T)) (xs : list (res (set_out T)))
    (cs' : list (set_op T)) (xs' : list (res (set_out T))) : Prop :=
  match cs, xs, cs', xs' with
  | [], [], [], [] => True
  | c :: cs, x :: xs, c' :: cs', x' :: xs' => set_as_if part c.2 x c' x' /\ set_all_as_if part cs xs cs' xs'
  | _, _, _, _ => False
  end.

(** The history consists of calls that SimpleBSTSet has. *)
Definition sset_calls (s : set_start T) (cs : list (set_dcall T)) : Prop :=
  sset_has_start s = true /\ Forall (fun c => sset_has c.2 = true) cs.

(** No destructor panics during [clear] of a BSTSet. *)
Definition set_quiet_clear (x : set_dcall T) : Prop := x.2 = SetClear -> forall y, x.1 y = false.

(** [g] is what the call [c] with the result [x] took from its caller, or made by
    cloning; [l] are the values in pre-order. *)
Definition set_took (l : list T) (c : set_op T) (x : res (set_out T)) (g : list T) : Prop :=
  match c with SetClone _ ck => g = (value_clones ck 0 l).1 | _ => set_taken c x g end.

(** What a history gave back to its callers. *)
Fixpoint set_all_back (cs : list (set_dcall T)) (xs : list (res (set_out T))) : list T :=
  match cs, xs with
  | c :: cs, x :: xs => set_handed c.2 x ++ set_all_back cs xs
  | _, _ => []
  end.

(** The destructors that panicked among those that ran for [l]: exactly one if this is
    how the call ended, else none. *)
Definition set_stops_at_first (bad : T -> bool) (x : res (set_out T)) (l : list T) : Prop :=
  match x with
  | Panic PDrop => exists l1 y l2, l = l1 ++ y :: l2 /\ bad y = true /\ Forall (fun y => bad y = false) (l1 ++ l2)
  | _ => Forall (fun y => bad y = false) l
  end.

End drops.
