(** * What SimpleBSTSet should do

    In terms of plain lists and trees of values ([SpecSet.v]). From the model only
    types and the observers of the second section are used. *)

From Coq Require Import String.
From Verif Require Export SpecSet SpecSimple ModelSimpleSet.

Section spec.
Context {T : Type}.

(** Calls that allocate, so that the process may end for want of memory. *)
Definition set_allocates (c : set_op T) : bool :=
  match c with
  | SetInsert _ _ | SetRemove _ | SetTake _ | SetExtend _ _ | SetClone _ _ => true
  | _ => false
  end.

(** What may make a call panic: user code only. *)
Definition sset_stop (c : set_op T) (p : panic_reason) : Prop :=
  match c with
  | SetInsert _ _ | SetRemove _ | SetTake _ | SetGet _ | SetContains _ => p = PCmp
  | SetExtend _ it => p = PCmp \/ (p = PIter /\ ui_panics it = true)
  | SetClone _ _ => p = PClone
  | _ => False
  end.

(** With a lawful order: the finite set. *)
Definition sset_step (cmp : T -> T -> comparison) (l : list T) (c : set_op T) (x : res (set_out T)) (l' : list T) : Prop :=
  match c, x with
  | _, Abort => set_allocates c = true
  | SetClone _ ck, Panic p => l' ≡ₚ l /\ p = PClone /\ exists j x, x ∈ l /\ ck j x = None
  | _, Panic p => set_step cmp l c x l' /\ (p = PCmp \/ p = PIter)
  | _, _ => set_step cmp l c x l'
  end.

(** ** Observations *)
Implicit Types m : sset T.

Inductive sset_exposes m : option Ptr -> stree T -> Prop :=
| sset_exposes_none : sset_exposes m None sleaf
| sset_exposes_some p x nl nr l r :
    ssetnode_value m p = Ret x -> ssetnode_left m p = Ret nl -> sset_exposes m nl l ->
    ssetnode_right m p = Ret nr -> sset_exposes m nr r ->
    sset_exposes m (Some p) (snode l x r).
Definition sset_shows m (t : stree T) : Prop := sset_exposes m (sset_root m) t.

Definition sset_yields m (d : order) (l : list T) : Prop :=
  forall n, exists it, sset_iter_start m d = Ret it /\
    fst (simple_nexts (sset_iter_next m d) n it) = Ret (first_calls n l).

Definition sset_reachable (e : benv) m : Prop :=
  exists s cs rs, sset_has_start s = true /\ Forall (fun c => sset_has c = true) cs /\
    sset_reached e s cs rs m /\ alive rs.

(** ** Comparison with BSTSet *)

Definition set_same_result (r1 r2 : res (set_out T)) : Prop :=
  r1 = r2 \/
  exists root, r1 = Ret (SetDebugged (DStruct "BSTSet" [("root", root)]))%string /\
    r2 = Ret (SetDebugged (DStruct "SimpleBSTSet" [("root", root)]))%string.

Definition set_shared (c : set_op T) : bool :=
  match c with
  | SetCapacity | SetReserve _ | SetShrink | SetClone _ _ => false
  | _ => true
  end.
Definition set_calm_clone (c : set_op T) : Prop :=
  match c with SetClone os _ => forall j k i k0, os j k i k0 <> None | _ => False end.

End spec.
