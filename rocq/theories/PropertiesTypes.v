(** * Subtyping (C85), drop check (C86) and unwind safety (C87) of the data types

    For all type parameters, themselves arbitrary types, and all lifetimes. *)

From Coq Require Import Bool List Arith Lia.
Import ListNotations.
From Verif Require Export ModelTypes.
From Verif Require Import ProofTypes.

Section C85.
(** [out a b]: lifetime [a] outlives [b]; [le i j]: unknown type [i] is a subtype of [j]. *)
Variable out le : nat -> nat -> Prop.
Notation "t '<:' t'" := (subtype out le t t') (at level 70).
Notation "t '==' t'" := (subtype out le t t' /\ subtype out le t' t) (at level 70).

(** The collections are covariant in their contents, like [std::collections]. *)
Theorem C85_map : forall k v k' v', VBSTMap k v <: VBSTMap k' v' <-> k <: k' /\ v <: v'.
Proof. exact (sub_map out le). Qed.

Theorem C85_set : forall t t', VBSTSet t <: VBSTSet t' <-> t <: t'.
Proof. exact (sub_set out le). Qed.

Theorem C85_simple : forall k v k' v' t t',
  (VSimpleBSTMap k v <: VSimpleBSTMap k' v' <-> k <: k' /\ v <: v') /\
  (VSimpleNode k v <: VSimpleNode k' v' <-> k <: k' /\ v <: v') /\
  (VSimpleBSTSet t <: VSimpleBSTSet t' <-> t <: t').
Proof.
  exact (fun k v k' v' t t' =>
    conj (sub_simple out le k v k' v') (conj (sub_simple_node out le k v k' v') (sub_sset out le t t'))).
Qed.

Theorem C85_arena_and_slab : forall t t',
  (VStableArena t <: VStableArena t' <-> t <: t') /\ (VUnsafeSlab t <: VUnsafeSlab t' <-> t <: t') /\
  (VArenaIntoIter t <: VArenaIntoIter t' <-> t <: t') /\ (VPointers t <: VPointers t' <-> t <: t').
Proof.
  exact (fun t t' => conj (sub_arena out le t t') (conj (sub_slab out le t t')
    (conj (sub_arena_into_iter out le t t') (sub_pointers out le t t')))).
Qed.

(** The shared views are covariant in the lifetime of the borrow and in the contents. *)
Theorem C85_shared_views : forall a b k v k' v',
  (VNode a k v <: VNode b k' v' <-> out a b /\ k <: k' /\ v <: v') /\
  (VIter a k v <: VIter b k' v' <-> out a b /\ k <: k' /\ v <: v') /\
  (VSimpleIter a k v <: VSimpleIter b k' v' <-> out a b /\ k <: k' /\ v <: v').
Proof.
  exact (fun a b k v k' v' => conj (sub_node out le a b k v k' v')
    (conj (sub_iter out le a b k v k' v') (sub_simple_iter out le a b k v k' v'))).
Qed.

Theorem C85_shared_set_views : forall a b t t',
  (VSetNode a t <: VSetNode b t' <-> out a b /\ t <: t') /\
  (VSetIter a t <: VSetIter b t' <-> out a b /\ t <: t') /\
  (VSimpleSetNode a t <: VSimpleSetNode b t' <-> out a b /\ t <: t') /\
  (VSimpleSetIter a t <: VSimpleSetIter b t' <-> out a b /\ t <: t') /\
  (VArenaIter a t <: VArenaIter b t' <-> out a b /\ t <: t').
Proof.
  exact (fun a b t t' => conj (sub_set_node out le a b t t') (conj (sub_set_iter out le a b t t')
    (conj (sub_sset_node out le a b t t') (conj (sub_sset_iter out le a b t t') (sub_arena_iter out le a b t t'))))).
Qed.

(** The exclusive views are covariant in the lifetime of the borrow only: the contents
    must be the same type, since they can be overwritten through the view. *)
Theorem C85_exclusive_views : forall a b k v k' v',
  (VNodeMut a k v <: VNodeMut b k' v' <-> out a b /\ k == k' /\ v == v') /\
  (VIterMut a k v <: VIterMut b k' v' <-> out a b /\ k == k' /\ v == v') /\
  (VArenaIterMut a k <: VArenaIterMut b k' <-> out a b /\ k == k').
Proof.
  exact (fun a b k v k' v' => conj (sub_node_mut out le a b k v k' v')
    (conj (sub_iter_mut out le a b k v k' v') (sub_arena_iter_mut out le a b k k'))).
Qed.

(** Subtyping is a preorder if it is one on the unknown types and on lifetimes. *)
Theorem C85_preorder :
  (forall a, out a a) -> (forall a b c, out a b -> out b c -> out a c) ->
  (forall i, le i i) -> (forall i j k, le i j -> le j k -> le i k) ->
  (forall t, t <: t) /\ (forall t1 t2 t3, t1 <: t2 -> t2 <: t3 -> t1 <: t3).
Proof.
  exact (fun Hr Ht Hr' Ht' => conj (subtype_refl out le Hr Hr') (subtype_trans out le Ht Ht')).
Qed.
End C85.
Print Assumptions C85_map.
Print Assumptions C85_set.
Print Assumptions C85_simple.
Print Assumptions C85_arena_and_slab.
Print Assumptions C85_shared_views.
Print Assumptions C85_shared_set_views.
Print Assumptions C85_exclusive_views.
Print Assumptions C85_preorder.

(** Lifetimes 0 ('static), 1 (longer) and 2 (shorter): a map from ['static] strings may be
    used where one from shorter-lived strings is expected, not the other way round, and not
    at all behind an exclusive view. *)
Definition longer (a b : nat) : Prop := a <= b.
Example C85_case :
  let sub := subtype longer eq in
  let str := fun a => VRef a VPlain in
  sub (VBSTMap (str 0) (VParam 7)) (VBSTMap (str 2) (VParam 7)) /\
  ~ sub (VBSTMap (str 2) (VParam 7)) (VBSTMap (str 0) (VParam 7)) /\
  ~ sub (VBSTMap (str 0) (VParam 7)) (VBSTMap (str 2) (VParam 8)) /\
  sub (VNode 1 (str 0) VPlain) (VNode 2 (str 1) VPlain) /\
  sub (VNodeMut 1 (str 0) (str 0)) (VNodeMut 2 (str 0) (str 0)) /\
  ~ sub (VNodeMut 1 (str 0) (str 0)) (VNodeMut 1 (str 0) (str 1)) /\
  ~ sub (VNodeMut 1 (str 0) (str 1)) (VNodeMut 1 (str 0) (str 0)) /\
  ~ sub (VNodeMut 2 (str 0) (str 0)) (VNodeMut 1 (str 0) (str 0)) /\
  ~ sub (VIterMut 1 (str 0) (str 0)) (VIterMut 1 (str 1) (str 0)).
Proof. unfold subtype, longer; simpl. repeat split; try lia; try (intros H; lia). Qed.

(** ** C86: drop check

    [needs x t]: [x] (a type parameter or a lifetime) must still be alive when a value of
    type [t] is dropped; [occurs x t]: [t] mentions it. *)

(** The destructors of the arena and the slab are not marked [may_dangle], so everything
    the contents mention must outlive the map, even if dropping the contents never looks
    at it. *)
Theorem C86_map : forall x k v, needs x (VBSTMap k v) = occurs x k || occurs x v.
Proof. exact needs_map. Qed.
Print Assumptions C86_map.

Theorem C86_set : forall x t, needs x (VBSTSet t) = occurs x t.
Proof. exact needs_set. Qed.
Print Assumptions C86_set.

Theorem C86_arena_and_slab : forall x t,
  needs x (VStableArena t) = occurs x t /\ needs x (VUnsafeSlab t) = occurs x t.
Proof. exact (fun x t => conj (needs_arena x t) (needs_slab x t)). Qed.
Print Assumptions C86_arena_and_slab.

(** simple_bst has no destructor of its own: exactly what the contents need. *)
Theorem C86_simple : forall x k v t,
  needs x (VSimpleBSTMap k v) = needs x k || needs x v /\
  needs x (VSimpleNode k v) = needs x k || needs x v /\
  needs x (VSimpleBSTSet t) = needs x t.
Proof. exact (fun x k v t => conj (needs_simple x k v) (conj (needs_simple_node x k v) (needs_sset x t))). Qed.
Print Assumptions C86_simple.

(** So whatever the contents need when they are dropped is alive when either map drops
    them, and bst always demands at least as much as simple_bst. *)
Theorem C86_contents_are_alive : forall x k v,
  needs x k = true \/ needs x v = true ->
  needs x (VSimpleBSTMap k v) = true /\ needs x (VBSTMap k v) = true.
Proof.
  exact (fun x k v H =>
    conj (eq_trans (needs_simple x k v) (proj2 (orb_true_iff _ _) H))
         (eq_trans (needs_map x k v)
            (proj2 (orb_true_iff _ _)
               (match H with
                | or_introl h => or_introl (needs_occurs x k h)
                | or_intror h => or_intror (needs_occurs x v h)
                end)))).
Qed.
Print Assumptions C86_contents_are_alive.

(** A view may dangle when it goes out of scope: its drop needs nothing. *)
Theorem C86_views : forall x a k v,
  needs x (VNode a k v) = false /\ needs x (VNodeMut a k v) = false /\
  needs x (VIter a k v) = false /\ needs x (VIterMut a k v) = false /\
  needs x (VSetNode a k) = false /\ needs x (VSetIter a k) = false /\
  needs x (VSimpleIter a k v) = false /\ needs x (VSimpleSetNode a k) = false /\
  needs x (VSimpleSetIter a k) = false /\
  needs x (VArenaIter a k) = false /\ needs x (VArenaIterMut a k) = false.
Proof. exact needs_views. Qed.
Print Assumptions C86_views.

(** A map of references: simple_bst lets the referents die first, bst does not. With owned
    contents of unknown type (parameter 3) both need that type. *)
Example C86_case :
  needs (PLife 1) (VBSTMap (VRef 1 VPlain) VPlain) = true /\
  needs (PLife 1) (VSimpleBSTMap (VRef 1 VPlain) VPlain) = false /\
  needs (PType 3) (VBSTMap VPlain (VOwn (VParam 3))) = true /\
  needs (PType 3) (VSimpleBSTMap VPlain (VOwn (VParam 3))) = true /\
  needs (PType 3) (VSimpleBSTMap VPlain (VRef 1 (VParam 3))) = false /\
  needs (PLife 2) (VBSTMap (VRef 1 VPlain) VPlain) = false /\
  needs (PLife 1) (VNode 1 VPlain (VParam 3)) = false.
Proof. repeat split. Qed.

(** ** C87: unwind safety *)
Section C87.
(** [flags i a]: does the unknown type [i] have the trait [a]? *)
Variable flags : nat -> safety -> bool.
Notation "t ':?' a" := (safe flags a t) (at level 70).

(** The map and the set hold raw pointers to their contents, so they are [UnwindSafe] only
    if the contents are both [UnwindSafe] and [RefUnwindSafe]. *)
Theorem C87_map : forall k v,
  (VBSTMap k v :? Unwind) = ((k :? Unwind) && (k :? RefUnwind)) && ((v :? Unwind) && (v :? RefUnwind)) /\
  (VBSTMap k v :? RefUnwind) = (k :? RefUnwind) && (v :? RefUnwind).
Proof. exact (unwind_map flags). Qed.

Theorem C87_set : forall t,
  (VBSTSet t :? Unwind) = (t :? Unwind) && (t :? RefUnwind) /\
  (VBSTSet t :? RefUnwind) = (t :? RefUnwind).
Proof. exact (unwind_set flags). Qed.

Theorem C87_arena_and_slab : forall t,
  ((VStableArena t :? Unwind) = (t :? Unwind) && (t :? RefUnwind) /\ (VStableArena t :? RefUnwind) = (t :? RefUnwind)) /\
  ((VUnsafeSlab t :? Unwind) = (t :? Unwind) && (t :? RefUnwind) /\ (VUnsafeSlab t :? RefUnwind) = (t :? RefUnwind)).
Proof. exact (fun t => conj (unwind_arena flags t) (unwind_slab flags t)). Qed.

(** simple_bst: exactly as the contents. *)
Theorem C87_simple : forall a k v,
  (VSimpleBSTMap k v :? a) = (k :? a) && (v :? a) /\
  (VSimpleNode k v :? a) = (k :? a) && (v :? a) /\
  (VSimpleBSTSet k :? a) = (k :? a).
Proof. exact (unwind_simple flags). Qed.

(** Shared views: as shared references to the contents. *)
Theorem C87_shared_views : forall a l k v,
  (VNode l k v :? a) = (k :? RefUnwind) && (v :? RefUnwind) /\
  (VIter l k v :? a) = (k :? RefUnwind) && (v :? RefUnwind) /\
  (VSimpleIter l k v :? a) = (k :? RefUnwind) && (v :? RefUnwind) /\
  (VSetNode l k :? a) = (k :? RefUnwind) /\
  (VSetIter l k :? a) = (k :? RefUnwind) /\
  (VSimpleSetNode l k :? a) = (k :? RefUnwind) /\
  (VSimpleSetIter l k :? a) = (k :? RefUnwind) /\
  (VArenaIter l k :? a) = (k :? RefUnwind).
Proof. exact (unwind_shared flags). Qed.

(** Exclusive views: never [UnwindSafe], like [&mut]. *)
Theorem C87_exclusive_views : forall l k v,
  ((VNodeMut l k v :? Unwind) = false /\ (VIterMut l k v :? Unwind) = false /\ (VArenaIterMut l k :? Unwind) = false) /\
  ((VNodeMut l k v :? RefUnwind) = (k :? RefUnwind) && (v :? RefUnwind) /\
   (VIterMut l k v :? RefUnwind) = (k :? RefUnwind) && (v :? RefUnwind) /\
   (VArenaIterMut l k :? RefUnwind) = (k :? RefUnwind)).
Proof. exact (unwind_mutable flags). Qed.
End C87.
Print Assumptions C87_map.
Print Assumptions C87_set.
Print Assumptions C87_arena_and_slab.
Print Assumptions C87_simple.
Print Assumptions C87_shared_views.
Print Assumptions C87_exclusive_views.

(** Contents [Cell<i32>] (parameter 0, [UnwindSafe] but not [RefUnwindSafe]) and plain ones:
    a [SimpleBSTMap] of cells may cross [catch_unwind], a [BSTMap] of cells may not. *)
Definition cell_flags (i : nat) (a : safety) : bool :=
  match i, a with 0, RefUnwind => false | _, _ => true end.
Example C87_case :
  safe cell_flags Unwind (VSimpleBSTMap VPlain (VParam 0)) = true /\
  safe cell_flags Unwind (VBSTMap VPlain (VParam 0)) = false /\
  safe cell_flags Unwind (VBSTMap VPlain VPlain) = true /\
  safe cell_flags Unwind (VNode 1 VPlain (VParam 0)) = false /\
  safe cell_flags Unwind (VNode 1 VPlain VPlain) = true /\
  safe cell_flags Unwind (VNodeMut 1 VPlain VPlain) = false.
Proof. repeat split. Qed.
