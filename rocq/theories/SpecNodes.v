(** * What comparing and assigning nodes should do *)

From Verif Require Export SpecSimpleSet ModelNodes.

Section spec.
Context {K V : Type}.
Implicit Types t l r : tree K V.

(** Two trees of the same shape with equal keys and values. *)
Inductive tree_same (eqK : K -> K -> bool) (eqV : V -> V -> bool) : tree K V -> tree K V -> Prop :=
| tree_same_leaf : tree_same eqK eqV tleaf tleaf
| tree_same_node l1 k1 v1 r1 l2 k2 v2 r2 :
    eqK k1 k2 = true -> eqV v1 v2 = true -> tree_same eqK eqV l1 l2 -> tree_same eqK eqV r1 r2 ->
    tree_same eqK eqV (tnode l1 k1 v1 r1) (tnode l2 k2 v2 r2).

(** The tree [t] with its subtree at [path] replaced by [u]. *)
Fixpoint tree_put (path : list dir) (u t : tree K V) : tree K V :=
  match path, t with
  | [], _ => u
  | GoLeft :: path, tnode l k v r => tnode (tree_put path u l) k v r
  | GoRight :: path, tnode l k v r => tnode l k v (tree_put path u r)
  | _, tleaf => tleaf
  end.

(** A node of SimpleBSTMap that a program gets by walking from the root. *)
Definition simple_handle (m : simple K V) (p : Ptr) : Prop :=
  exists path, simple_walk m path (simple_root m) = Ret (Some p).

(** The maps a program can make that also assigns to nodes through [root_mut],
    [left_mut] and [right_mut]. *)
Inductive tampered (e : benv) : simple K V -> Prop :=
| tampered_start s m : simple_has_start s = true -> simple_begin e s = (Ret tt, m) -> tampered e m
| tampered_call m c x m' : tampered e m -> simple_has c = true -> simple_exec e c m = (x, m') -> x <> Abort -> tampered e m'
| tampered_assign m src ck cv p q x m' : tampered e m -> tampered e src -> simple_handle m p -> simple_handle src q ->
    simple_assign e ck cv src q p m = (x, m') -> x <> Abort -> tampered e m'.

(** The panics of [self.len += 1], [self.len -= 1] and of the assertions about
    [len], and the calls that run them. *)
Definition length_panic (p : panic_reason) : Prop := p = POverflow \/ p = PDebugAssert.
Definition counts (c : op K V) : bool :=
  match c with
  | OInsert _ _ _ | ORemove _ | ORemoveEntry _ | OExtend _ _ | OIsEmpty => true
  | _ => false
  end.
(** The calls that tell the length. *)
Definition tells_length (c : op K V) : bool :=
  match c with OLen | OIsEmpty | ODebug => true | _ => false end.

(** The tree after such a panic: the entry is in, or nothing has changed. *)
Definition after_length_panic t (c : op K V) t' : Prop :=
  match c with
  | OInsert _ _ _ => exists y, stree_call c t = Some (Ret y, t')
  | OExtend os it => exists n, otree_insert_all os 0 (take n (ui_items it)) t = (t', true)
  | _ => t' = t
  end.

(** A call on a map that shows [t] whose length field is arbitrary: as on the
    tree, but for the length. *)
Definition tampered_step t (c : op K V) (x : res (out K V)) t' : Prop :=
  stree_call c t = Some (x, t') \/ (x = Abort /\ allocates c = true) \/
  (counts c = true /\ (exists p, x = Panic p /\ length_panic p) /\ after_length_panic t c t') \/
  (tells_length c = true /\ t' = t /\ exists y, x = Ret y).

End spec.

(** Trees of values. *)
Inductive stree_same {T : Type} (eqT : T -> T -> bool) : stree T -> stree T -> Prop :=
| stree_same_leaf : stree_same eqT sleaf sleaf
| stree_same_node l1 x1 r1 l2 x2 r2 :
    eqT x1 x2 = true -> stree_same eqT l1 l2 -> stree_same eqT r1 r2 ->
    stree_same eqT (snode l1 x1 r1) (snode l2 x2 r2).
Definition sset_handle {T : Type} (m : sset T) (p : Ptr) : Prop :=
  exists path, sset_walk m path (sset_root m) = Ret (Some p).
Definition set_handle {T : Type} (m : bstset T) (n : SetNode T) : Prop :=
  exists path r, bstset_root m = Ret r /\ set_walk m path r = Ret (Some n).
