(** * What SimpleBSTMap should do

    The calls of SimpleBSTMap as functions on the search tree with an arbitrary
    comparator ([SpecOracle.v]). From the model only types and the observers of
    the last section are used. *)

From Coq Require Import String.
From Verif Require Export SpecOracle ModelSimple.

Section spec.
Context {K V : Type}.
Implicit Types t l r : tree K V.

(** A clone of the same shape. The [j]-th node in pre-order is cloned by [ck j]
    and [cv j]; [None]: one of them panicked. *)
Fixpoint tree_clone (ck : nat -> K -> option K) (cv : nat -> V -> option V) (j : nat) t : option (tree K V) :=
  match t with
  | tleaf => Some tleaf
  | tnode l k v r =>
    match ck j k, cv j v with
    | Some k', Some v' =>
      match tree_clone ck cv (S j) l with
      | Some l' =>
        match tree_clone ck cv (S j + length (tree_inorder l)) r with
        | Some r' => Some (tnode l' k' v' r')
        | None => None
        end
      | None => None
      end
    | _, _ => None
    end
  end.

Definition calls_next (evs : list (mut_event V)) : bool :=
  existsb (fun ev => match ev with EvNext => true | EvWrite _ _ => false end) evs.

(** The result and the new tree; [None] for the calls that SimpleBSTMap lacks.
    The mutable iterators are unimplemented: they panic. *)
Definition stree_call (c : op K V) t : option (res (out K V) * tree K V) :=
  match c with
  | OGetEntryMut _ _ | OCapacity | OReserve _ | OShrink => None
  | OIterMut d evs => Some (if calls_next evs then Panic PTodo else Ret (OutMut [] 0), t)
  | ODebug => Some (Ret (OutDebug (DStruct "SimpleBSTMap"
      [("root", tree_debug t); ("len", DNum (N.of_nat (length (tree_inorder t))))])), t)%string
  | OClone _ ck cv =>
    Some match tree_clone ck cv 0 t with Some t' => (Ret OutUnit, t') | None => (Panic PClone, t) end
  | _ => otree_call c t
  end.

(** Calls that allocate, so that the process may end for want of memory. *)
Definition allocates (c : op K V) : bool :=
  match c with
  | OInsert _ _ _ | ORemove _ | ORemoveEntry _ | OExtend _ _ | OClone _ _ _ => true
  | _ => false
  end.

(** Every entry needs one allocation or is the root, so that an abort leaves no
    tree to speak of. *)
Definition stree_step t (c : op K V) (x : res (out K V)) t' : Prop :=
  stree_call c t = Some (x, t') \/ (x = Abort /\ allocates c = true).

(** What may make a call panic: user code, or a mutable iterator. *)
Definition simple_stop (c : op K V) (p : panic_reason) : Prop :=
  match c with
  | OInsert _ _ _ | ORemove _ | ORemoveEntry _ | OGet _ | OGetEntry _ | OContains _ | OGetMut _ _ => p = PCmp
  | OExtend _ it => p = PCmp \/ (p = PIter /\ ui_panics it = true)
  | OClone _ _ _ => p = PClone
  | OIterMut _ _ => p = PTodo
  | _ => False
  end.

(** *** With a lawful order: the finite map *)
Definition simple_step (cmp : K -> K -> comparison) (l : list (K * V)) (c : op K V) (x : res (out K V)) (l' : list (K * V)) : Prop :=
  match c, x with
  | _, Abort => allocates c = true
  | OIterMut d evs, _ => l' ≡ₚ l /\ x = if calls_next evs then Panic PTodo else Ret (OutMut [] 0)
  | OClone _ ck cv, Panic p => l' ≡ₚ l /\ p = PClone /\ exists j kv, kv ∈ l /\ (ck j kv.1 = None \/ cv j kv.2 = None)
  | _, Panic p => map_step cmp l c x l' /\ (p = PCmp \/ p = PIter)
  | _, _ => map_step cmp l c x l'
  end.

(** ** Observations *)
Implicit Types m : simple K V.

Inductive simple_exposes m : option Ptr -> tree K V -> Prop :=
| simple_exposes_none : simple_exposes m None tleaf
| simple_exposes_some p n l r :
    peek m p = Ret n -> simple_exposes m (n_left n) l -> simple_exposes m (n_right n) r ->
    simple_exposes m (Some p) (tnode l (n_key n) (n_value n) r).
(** The tree seen from [root] with [left] and [right]. *)
Definition simple_shows m t : Prop := simple_exposes m (simple_root m) t.

(** What an iterator yields: for every number of calls of [next]. *)
Definition simple_yields m (d : order) (l : list (K * V)) : Prop :=
  forall n, exists it, simple_iter_start m d = Ret it /\
    fst (simple_nexts (simple_iter_next m d) n it) = Ret (first_calls n l).

Definition simple_reachable (e : benv) m : Prop :=
  exists s cs rs, simple_has_start s = true /\ Forall (fun c => simple_has c = true) cs /\
    simple_reached e s cs rs m /\ alive rs.
Definition simple_ordered_reachable (cmp : K -> K -> comparison) (e : benv) m : Prop :=
  exists s cs rs, simple_has_start s = true /\ Forall (fun c => simple_has c = true) cs /\
    legal_start cmp s /\ Forall (legal cmp) cs /\ simple_reached e s cs rs m /\ alive rs.

(** ** Comparison with BSTMap *)

(** The implementation was never refused memory. *)
Definition unrefused {A} (r : res A) : Prop :=
  r <> Abort /\ r <> Panic PCapacity /\ r <> Panic PAssert /\ r <> Panic POverflow.

(** The same results, except that the printed forms have another name and
    SimpleBSTMap also prints its length. *)
Definition same_result (r1 r2 : res (out K V)) : Prop :=
  r1 = r2 \/
  exists root n, r1 = Ret (OutDebug (DStruct "BSTMap" [("root", root)]))%string /\
    r2 = Ret (OutDebug (DStruct "SimpleBSTMap" [("root", root); ("len", DNum n)]))%string.

(** Calls that both have, other than the unimplemented [iter_mut_*]. *)
Definition shared (c : op K V) : bool :=
  match c with
  | OGetEntryMut _ _ | OCapacity | OReserve _ | OShrink | OIterMut _ _ | OClone _ _ _ => false
  | _ => true
  end.
(** A clone whose comparisons do not panic. (Only BSTMap compares keys in [clone].) *)
Definition calm_clone (c : op K V) : Prop :=
  match c with OClone os _ _ => forall j k i k0, os j k i k0 <> None | _ => False end.

End spec.
