(** * Vocabulary for BSTSet with any comparator: safety, ownership and space

    [SpecSafety.v], [SpecOracle.v] and [SpecProfiles.v] once more, for sets of
    plain values. *)

From Coq Require Import String.
From Verif Require Export SpecSet SpecMem.

Section trees.
Context {T : Type}.
Implicit Types t l r : stree T.

(** ** Search trees with an arbitrary comparator *)

(** The value found; [None]: a comparison panicked. *)
Fixpoint ostree_find (o : oracle T) (i : nat) t : option (option T) :=
  match t with
  | sleaf => Some None
  | snode l x r =>
    match o i x with
    | None => None
    | Some Lt => ostree_find o (S i) l
    | Some Gt => ostree_find o (S i) r
    | Some Eq => Some (Some x)
    end
  end.

(** The new tree, and whether the value was added. *)
Fixpoint ostree_insert (o : oracle T) (i : nat) (x : T) t : option (stree T * bool) :=
  match t with
  | sleaf => Some (snode sleaf x sleaf, true)
  | snode l y r =>
    match o i y with
    | None => None
    | Some Lt => (fun z => (snode z.1 y r, z.2)) <$> ostree_insert o (S i) x l
    | Some Gt => (fun z => (snode l y z.1, z.2)) <$> ostree_insert o (S i) x r
    | Some Eq => Some (t, false)
    end
  end.

(** The leftmost value of a tree with the parts [l], [x], [r], and the rest. *)
Fixpoint stree_min l (x : T) r : T * stree T :=
  match l with
  | sleaf => (x, r)
  | snode ll y lr => let '(z, l') := stree_min ll y lr in (z, snode l' x r)
  end.

Definition stree_join l r : stree T :=
  match l, r with
  | sleaf, _ => r
  | _, sleaf => l
  | _, snode rl x rr => let '(y, r') := stree_min rl x rr in snode l y r'
  end.

(** The new tree and the removed value. *)
Fixpoint ostree_remove (o : oracle T) (i : nat) t : option (stree T * option T) :=
  match t with
  | sleaf => Some (sleaf, None)
  | snode l x r =>
    match o i x with
    | None => None
    | Some Lt => (fun z => (snode z.1 x r, z.2)) <$> ostree_remove o (S i) l
    | Some Gt => (fun z => (snode l x z.1, z.2)) <$> ostree_remove o (S i) r
    | Some Eq => Some (stree_join l r, Some x)
    end
  end.

(** Insertion of a list, the first value being number [j], up to the first
    comparison that panics; [true] if none does. *)
Fixpoint ostree_insert_all (os : nat -> T -> oracle T) (j : nat) (items : list T) t : stree T * bool :=
  match items with
  | [] => (t, true)
  | x :: items =>
    match ostree_insert (os j x) 0 x t with
    | None => (t, false)
    | Some (t', _) => ostree_insert_all os (S j) items t'
    end
  end.

Definition set_or_panic {A} (x : option A) (f : A -> set_out T) : res (set_out T) :=
  match x with Some a => Ret (f a) | None => Panic PCmp end.

(** Calls whose outcome is a function of the tree. *)
Definition ostree_call (c : set_op T) t : option (res (set_out T) * stree T) :=
  match c with
  | SetInsert o x =>
      let z := ostree_insert o 0 x t in
      Some (set_or_panic z (fun z => SetBool z.2), default t (fst <$> z))
  | SetRemove o =>
      let z := ostree_remove o 0 t in
      Some (set_or_panic z (fun z => SetBool (found z.2)), default t (fst <$> z))
  | SetTake o =>
      let z := ostree_remove o 0 t in
      Some (set_or_panic z (fun z => SetValue z.2), default t (fst <$> z))
  | SetGet o => Some (set_or_panic (ostree_find o 0 t) SetValue, t)
  | SetContains o => Some (set_or_panic (ostree_find o 0 t) (fun x => SetBool (found x)), t)
  | SetLen => Some (Ret (SetNum (N.of_nat (length (stree_order In t)))), t)
  | SetIsEmpty => Some (Ret (SetBool (negb (snonleaf t))), t)
  | SetCapacity => None
  | SetClear => Some (Ret SetUnit, sleaf)
  | SetReserve _ | SetShrink => Some (Ret SetUnit, t)
  | SetExtend os it =>
      let z := ostree_insert_all os 0 (ui_items it) t in
      Some (if z.2 then if ui_panics it then Panic PIter else Ret SetUnit else Panic PCmp, z.1)
  | SetIter d n => Some (Ret (SetSeq (first_calls n (stree_order d t))), t)
  | SetWalk path => Some (Ret (SetNodeShown (stree_show (stree_at path t))), t)
  | SetDebug => Some (Ret (SetDebugged (DStruct "BSTSet" [("root", stree_debug t)])), t)%string
  | SetClone os ck =>
      let new := value_clones ck 0 (stree_order Pre t) in
      let z := ostree_insert_all os 0 new.1 sleaf in
      Some (if z.2 then if new.2 then (Ret SetUnit, z.1) else (Panic PClone, t) else (Panic PCmp, t))
  end.

(** A call that needs memory may be refused it. Then [extend] stops somewhere;
    the others change nothing. *)
Definition ostree_refused (c : set_op T) t (x : res (set_out T)) (t' : stree T) : Prop :=
  match c with
  | SetInsert _ _ | SetClone _ _ => alloc_refused x /\ t' = t
  | SetReserve _ => (alloc_refused x \/ x = Panic POverflow) /\ t' = t
  | SetExtend os it => (alloc_refused x \/ x = Panic POverflow) /\
      exists n, ostree_insert_all os 0 (take n (ui_items it)) t = (t', true)
  | _ => False
  end.

Definition ostree_step t (c : set_op T) (x : res (set_out T)) (t' : stree T) : Prop :=
  ostree_call c t = Some (x, t') \/
  (c = SetCapacity /\ t' = t /\ exists n, x = Ret (SetNum n)) \/
  ostree_refused c t x t'.

Definition ostree_start (s : set_start T) t : Prop :=
  match s with
  | SetNew | SetWithCapacity _ => t = sleaf
  | SetFromIter os it => ostree_insert_all os 0 (ui_items it) sleaf = (t, true) /\ ui_panics it = false
  end.

End trees.

(** ** Ownership *)
Section ownership.
Context {T : Type}.
Implicit Types m : bstset T.

(** The values among a list of keys and values of the map under the set. *)
Definition just_values (l : list (T + unit)) : list T :=
  omap (fun x => match x with inl x => Some x | inr _ => None end) l.

(** The values whose destructor was run. *)
Definition set_dropped m : list T := just_values (dropped m).

(** [n] items had been pulled from the iterator when inserting its items stopped
    with the panic [p]. *)
Definition set_pulled (os : nat -> T -> oracle T) (it : user_iter T) (p : panic_reason) (n : nat) : Prop :=
  match p with
  | PIter => ui_panics it = true /\ n = length (ui_items it)
  | PCmp => exists j x i y, ui_items it !! j = Some x /\ os j x i y = None /\ n = S j
  | PCapacity | PAssert => n <= length (ui_items it)
  | POverflow => n = 0
  | _ => False
  end.

(** [g] is what the call [c] with the result [r] took from its caller. *)
Definition set_taken (c : set_op T) (r : res (set_out T)) (g : list T) : Prop :=
  match c, r with
  | SetInsert _ x, _ => g = [x]
  | SetExtend os it, Panic p => exists n, set_pulled os it p n /\ g = take n (ui_items it)
  | SetExtend os it, Ret _ => g = ui_items it
  | _, _ => g = []
  end.

Definition set_handed (c : set_op T) (r : res (set_out T)) : list T :=
  match c, r with SetTake _, Ret (SetValue (Some x)) => [x] | _, _ => [] end.

(** [G] is what a history took from its callers, [B] what it gave back. *)
Fixpoint set_ledger (cs : list (set_op T)) (rs : list (res (set_out T))) (G B : list T) : Prop :=
  match cs, rs with
  | [], [] => G = [] /\ B = []
  | c :: cs, r :: rs =>
    exists g G' B', set_taken c r g /\ set_ledger cs rs G' B' /\ G = g ++ G' /\ B = set_handed c r ++ B'
  | _, _ => False
  end.

Definition set_start_taken (s : set_start T) : list T :=
  match s with SetFromIter _ it => ui_items it | _ => [] end.

Definition set_no_clone (c : set_op T) : Prop := match c with SetClone _ _ => False | _ => True end.

(** [g] are the clones that were made when cloning the values [l] stopped with the
    panic [p]. *)
Definition value_clones_made (os : nat -> T -> oracle T) (ck : nat -> T -> option T) (l : list T)
    (p : panic_reason) (g : list T) : Prop :=
  let made := (value_clones ck 0 l).1 in
  match p with
  | PClone => (value_clones ck 0 l).2 = false /\ g = made
  | PCmp => exists n x i y, made !! n = Some x /\ os n x i y = None /\ g = take (S n) made
  | PCapacity | PAssert => g = []
  | _ => False
  end.

(** Destructors run for [l1], in this order, but not for [l2]. *)
Definition values_destroyed (bad : T -> bool) (l1 l2 : list T) : Prop :=
  l2 = [] /\ Forall (fun x => bad x = false) l1.
Definition values_stopped (bad : T -> bool) (l1 l2 : list T) : Prop :=
  exists l0 x, l1 = l0 ++ [x] /\ bad x = true /\ Forall (fun x => bad x = false) l0.

(** ** Space *)

Definition set_count (e : env) m : N := match set_len e m with Ret n => n | _ => 0%N end.

(** The largest number of values since the last [clear] (or since the set became a
    clone), [h] being the one before the history [cs]. *)
Fixpoint set_peak (e : env) (cs : list (set_op T)) m (h : N) : N :=
  match cs with
  | [] => h
  | c :: cs =>
    let '(r, m') := set_exec e c m in
    let h' := match c, r with
              | SetClear, _ => 0%N
              | SetClone _ _, Ret _ => set_count e m'
              | _, _ => N.max h (set_count e m')
              end in
    match r with Ret _ | Panic _ => set_peak e cs m' h' | _ => h' end
  end.

(** ** What panics leave *)

(** Nothing of the tree changed; the capacity may have. *)
Definition same_values m m' : Prop :=
  bstset_root m' = bstset_root m /\ (forall t, set_shows m t -> set_shows m' t) /\
  forall d l, set_yields m d l -> set_yields m' d l.

(** ** Builds *)

Definition set_requested (c : set_op T) : option N :=
  match c with
  | SetReserve n => Some n
  | SetExtend _ it => Some (hinted it)
  | _ => None
  end.

Definition set_modest (c : set_op T) : Prop :=
  match set_requested c with Some n => (n <= 2 ^ 63)%N | None => True end.

(** The panics that are possible: those of the caller's own code, those of memory
    requests, and the overflow check of a request that is too large. *)
Definition set_excused (e : env) (c : set_op T) m (p : panic_reason) : Prop :=
  match p with
  | PCmp | PIter | PClone => True
  | PCapacity | PAssert =>
    match c with SetInsert _ _ | SetReserve _ | SetExtend _ _ | SetClone _ _ => True | _ => False end
  | POverflow => e_chk e = true /\ exists n, set_requested c = Some n /\ (USIZE <= slots m + n)%N
  | PDebugAssert | PDrop | PUnwrap | PTodo => False
  end.

End ownership.
