(** * Vocabulary for memory safety, ownership and space *)

From Verif Require Export SpecObs.
Local Open Scope N_scope.

Section safety.
Context {K V : Type}.
Implicit Types m : bstmap K V.

Definition no_ub {A} (r : res A) : Prop := forall u, r <> UB u.

(** Nothing of the tree or of the addresses changed; the capacity may have. *)
Definition same_tree m m' : Prop :=
  map_root m' = map_root m /\
  (forall n, handle m n -> node_left m' n = node_left m n /\ node_right m' n = node_right m n) /\
  (forall d, iter_collect m' d = iter_collect m d).

(** The call can neither remove nor copy away an entry whose key is [k]: no
    comparison of a removal answers that the searched key equals [k]. *)
Definition spares (k : K) (c : op K V) : Prop :=
  match c with
  | OClear | OClone _ _ _ => False
  | ORemove o | ORemoveEntry o => forall i, o i k <> Some Eq
  | _ => True
  end.

(** ** Space *)

(** Slots in use (live or free), chunks requested from the allocator so far, and
    blocks currently allocated. *)
Definition slots m : N := arena_len (s_items (m_nodes m)).
Definition requests m : N := a_next (s_items (m_nodes m)).
Definition blocks m : gmap N (block (entry (inner K V))) := a_heap (s_items (m_nodes m)).

Definition entry_count (e : env) m : N := match map_len e m with Ret n => n | _ => 0 end.

(** The largest number of entries since the last [clear] (or since the map became
    a clone), [h] being the one before the history [cs]. *)
Fixpoint peak (e : env) (cs : list (op K V)) m (h : N) : N :=
  match cs with
  | [] => h
  | c :: cs =>
    let '(r, m') := exec e c m in
    let h' := match c, r with
              | OClear, _ => 0
              | OClone _ _ _, Ret _ => entry_count e m'
              | _, _ => N.max h (entry_count e m')
              end in
    match r with Ret _ | Panic _ => peak e cs m' h' | _ => h' end
  end.

(** ** Ownership *)

(** What the destructor of an entry of the arena would destroy. *)
Definition entry_owned (en : entry (inner K V)) : list (K + V) :=
  match en with EVal n | EDropped n => [inl (n_key n); inr (n_value n)] | EFree _ => [] end.

(** The keys and values whose destructor was run: by the map, by its slab, and by
    the arena under the slab. *)
Definition dropped m : list (K + V) :=
  m_drops m ++ owned ((fun n => (n_key n, n_value n)) <$> s_drops (m_nodes m)) ++
  mjoin (entry_owned <$> a_drops (s_items (m_nodes m))).

(** How many entries [clear] and the drop of the map have visited to run their
    destructors. *)
Definition visited m : nat := (length (s_drops (m_nodes m)) + length (a_drops (s_items (m_nodes m))))%nat.

(** Destructors run for [l1], in this order, but not for [l2]; [bad] says whose
    destructor panics. *)
Definition all_destroyed (bad : K -> V -> bool) (l1 l2 : list (K * V)) : Prop :=
  l2 = [] /\ Forall (fun kv => bad kv.1 kv.2 = false) l1.
Definition stopped_at_panic (bad : K -> V -> bool) (l1 l2 : list (K * V)) : Prop :=
  exists l0 k v, l1 = l0 ++ [(k, v)] /\ bad k v = true /\ Forall (fun kv => bad kv.1 kv.2 = false) l0.

(** [g] is what the call [c] with the result [r] took from its caller. *)
Definition taken (c : op K V) (r : res (out K V)) (g : list (K + V)) : Prop :=
  match c, r with
  | OInsert _ k v, _ => g = [inl k; inr v]
  | OIterMut _ evs, Ret (OutMut l _) => g = inr <$> mut_written (length l) 0 evs
  | OExtend os it, Panic p => exists n, pulled os it p n /\ g = owned (take n (ui_items it))
  | _, Ret x => g = given 0 c x
  | _, _ => g = []
  end.

Definition handed (c : op K V) (r : res (out K V)) : list (K + V) :=
  match r with Ret x => returned c x | _ => [] end.

(** [G] is what a history took from its callers, [B] what it gave back. *)
Fixpoint ledger (cs : list (op K V)) (rs : list (res (out K V))) (G B : list (K + V)) : Prop :=
  match cs, rs with
  | [], [] => G = [] /\ B = []
  | c :: cs, r :: rs => exists g G' B', taken c r g /\ ledger cs rs G' B' /\ G = g ++ G' /\ B = handed c r ++ B'
  | _, _ => False
  end.

Definition start_taken (s : start K V) : list (K + V) :=
  match s with SFromIter _ it => owned (ui_items it) | _ => [] end.

Definition no_clone (c : op K V) : Prop := match c with OClone _ _ _ => False | _ => True end.

(** ** Any comparator

    What a map can do when the comparisons answer anything: an insertion adds its
    entry or replaces the value of some entry, a removal removes nothing or some
    entry, and so on. *)
Definition loose_insert (k : K) (v : V) (l : list (K * V)) (r : option V) (l' : list (K * V)) : Prop :=
  match r with
  | None => l' ≡ₚ (k, v) :: l
  | Some old => exists k0 l0, l ≡ₚ (k0, old) :: l0 /\ l' ≡ₚ (k0, v) :: l0
  end.

Fixpoint loose_inserts (items : list (K * V)) (l l' : list (K * V)) : Prop :=
  match items with
  | [] => l' ≡ₚ l
  | (k, v) :: items => exists r l1, loose_insert k v l r l1 /\ loose_inserts items l1 l'
  end.

Definition loose_write (kv : option (K * V)) (w : option V) (l l' : list (K * V)) : Prop :=
  match kv with
  | None => l' ≡ₚ l
  | Some (k, v) => exists l0, l ≡ₚ (k, v) :: l0 /\ l' ≡ₚ (k, match w with Some w => w | None => v end) :: l0
  end.

Definition loose_step (l : list (K * V)) (c : op K V) (r : res (out K V)) (l' : list (K * V)) : Prop :=
  match c, r with
  | OInsert o k v, Ret x => exists r, x = OutValue r /\ loose_insert k v l r l'
  | ORemove o, Ret x =>
      (x = OutValue None /\ l' ≡ₚ l) \/ (exists k v, x = OutValue (Some v) /\ l ≡ₚ (k, v) :: l')
  | ORemoveEntry o, Ret x =>
      (x = OutEntry None /\ l' ≡ₚ l) \/ (exists kv, x = OutEntry (Some kv) /\ l ≡ₚ kv :: l')
  | OGet o, Ret x => l' ≡ₚ l /\ exists y, x = OutValue (snd <$> y) /\ forall kv, y = Some kv -> kv ∈ l
  | OGetEntry o, Ret x => l' ≡ₚ l /\ exists y, x = OutEntry y /\ forall kv, y = Some kv -> kv ∈ l
  | OContains o, Ret x => l' ≡ₚ l /\ exists b, x = OutBool b
  | OGetMut o w, Ret x => exists y, x = OutValue (snd <$> y) /\ loose_write y w l l'
  | OGetEntryMut o w, Ret x => exists y, x = OutEntry y /\ loose_write y w l l'
  | OLen, Ret x => l' ≡ₚ l /\ x = OutNum (N.of_nat (length l))
  | OIsEmpty, Ret x => l' ≡ₚ l /\ x = OutBool (Nat.eqb (length l) 0)
  | OCapacity, Ret x => l' ≡ₚ l /\ exists n, x = OutNum n
  | OClear, Ret x => l' = [] /\ x = OutUnit
  | (OReserve _ | OShrink), Ret x => l' ≡ₚ l /\ x = OutUnit
  | OExtend os it, Ret x => x = OutUnit /\ ui_panics it = false /\ loose_inserts (ui_items it) l l'
  | OExtend os it, _ => exists n, loose_inserts (take n (ui_items it)) l l'
  | OIter d n, Ret x => l' ≡ₚ l /\ exists l1, l1 ≡ₚ l /\ x = OutSeq (first_calls n l1)
  | OIterMut d evs, Ret x => exists l1, l1 ≡ₚ l /\
      let '(l2, n, z) := mut_walk l1 0 0 evs in l' ≡ₚ l2 /\ x = OutMut (take n l1) z
  | OWalk path, Ret x => l' ≡ₚ l /\
      (x = OutNode None \/ exists k v a b, x = OutNode (Some (k, v, a, b)) /\ (k, v) ∈ l)
  | OWalkMut path w, Ret x => exists y, x = OutNode y /\ loose_write (fst ∘ fst <$> y) w l l'
  | ODebug, Ret x => l' ≡ₚ l /\ exists d, x = OutDebug d
  | OClone os ck cv, Ret x => x = OutUnit /\
      exists l1 l2, l1 ≡ₚ l /\ clones ck cv 0 l1 = (l2, true) /\ loose_inserts l2 [] l'
  | (OInsert _ _ _ | ORemove _ | ORemoveEntry _ | OGet _ | OGetEntry _ | OContains _ | OGetMut _ _
     | OGetEntryMut _ _ | OReserve _ | OClone _ _ _), _ => l' ≡ₚ l
  | _, _ => False
  end.

Definition loose_start (s : start K V) (l : list (K * V)) : Prop :=
  match s with SFromIter os it => loose_inserts (ui_items it) [] l | _ => l = [] end.

End safety.
