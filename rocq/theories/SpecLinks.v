(** * The links between nodes

    The nodes of a BSTMap are seen by address: [linked m p k a b] says that a
    program finds a node at address [p] that holds the key [k] and whose children,
    as [left] and [right] give them, are at [a] and [b]. *)

From Verif Require Export SpecSet SpecObs.

Section links.
Context {K V : Type}.
Implicit Types m : bstmap K V.

Definition linked m (p : Ptr) (k : K) (a b : option Ptr) : Prop :=
  exists n nl nr, handle m n /\ nd_ptr n = p /\ node_key n = k /\
    node_left m n = Ret nl /\ node_right m n = Ret nr /\
    option_map nd_ptr nl = a /\ option_map nd_ptr nr = b.

Definition root_at m (a : option Ptr) : Prop := exists r, map_root m = Ret r /\ option_map nd_ptr r = a.

(** The nodes outside [ps] hold their keys and are linked as before. *)
Definition relinked (ps : list Ptr) m m' : Prop :=
  forall p k a b, p ∉ ps -> linked m p k a b <-> linked m' p k a b.

(** One more node: at [q], without children, below a node that lacked a child
    on that side, or as the root. No other link changed. *)
Definition hung (q : Ptr) (k : K) m m' : Prop :=
  (forall k' a b, ~ linked m q k' a b) /\ linked m' q k None None /\
  ((root_at m None /\ root_at m' (Some q) /\ relinked [q] m m') \/
   exists p k' a b a' b', linked m p k' a b /\ linked m' p k' a' b' /\
     ((a = None /\ a' = Some q /\ b' = b) \/ (b = None /\ b' = Some q /\ a' = a)) /\
     (forall r, root_at m r <-> root_at m' r) /\ relinked [q; p] m m').

(** One node less, that at [q]. Every other node holds its key as before, and at
    most [n] of them were given new children. *)
Definition cut (q : Ptr) (n : nat) m m' : Prop :=
  (forall k a b, ~ linked m' q k a b) /\
  (forall p k, p <> q -> (exists a b, linked m p k a b) <-> (exists a b, linked m' p k a b)) /\
  exists ps, (length ps <= n)%nat /\ relinked (q :: ps) m m'.

(** No link changed, that to the root included. *)
Definition same_links m m' : Prop := relinked [] m m' /\ forall a, root_at m a <-> root_at m' a.

(** Calls that inserted or removed nodes, as far as the answer tells. *)
Definition may_relink (c : op K V) (r : res (out K V)) : bool :=
  match c, r with
  | OInsert _ _ _, Ret (OutValue None) => true
  | ORemove _, Ret (OutValue (Some _)) | ORemoveEntry _, Ret (OutEntry (Some _)) => true
  | OExtend _ _, _ | OClear, Ret _ | OClone _ _ _, Ret _ => true
  | _, _ => false
  end.
End links.

Definition set_may_relink {T} (c : set_op T) (r : res (set_out T)) : bool :=
  match c, r with
  | SetInsert _ _, Ret (SetBool true) | SetRemove _, Ret (SetBool true) | SetTake _, Ret (SetValue (Some _)) => true
  | SetExtend _ _, _ | SetClear, Ret _ | SetClone _ _, Ret _ => true
  | _, _ => false
  end.
