(** * Sending and sharing between threads: C45

    For all type parameters, themselves arbitrary types. *)

From Coq Require Import Bool List.
From Verif Require Export ModelAutoTraits.
Import ListNotations.

Section C45.
Variable flags : nat -> auto -> bool.
Notation "t ':?' a" := (has flags a t) (at level 70).

Ltac traits := intros; repeat match goal with a : auto |- _ => destruct a end; cbn; try reflexivity;
  repeat match goal with |- context [has flags ?a ?t] => destruct (has flags a t) end; reflexivity.

(** The collections: exactly as their contents. *)
Theorem C45_map : forall k v a, (TBSTMap k v :? a) = (k :? a) && (v :? a).
Proof. traits. Qed.

Theorem C45_set : forall t a, (TBSTSet t :? a) = (t :? a).
Proof. traits. Qed.

(** Shared views: exactly when the contents may be shared. *)
Theorem C45_node : forall k v a, (TNode k v :? a) = (k :? Sync) && (v :? Sync).
Proof. traits. Qed.

Theorem C45_iter : forall k v a, (TIter k v :? a) = (k :? Sync) && (v :? Sync).
Proof. traits. Qed.

Theorem C45_set_views : forall t a, (TSetNode t :? a) = (t :? Sync) /\ (TSetIter t :? a) = (t :? Sync).
Proof. split; traits. Qed.

(** The exclusive view of a node: exactly as an exclusive reference. *)
Theorem C45_node_mut : forall k v a,
  (TNodeMut k v :? a) = (k :? a) && (v :? a) /\ (TNodeMut k v :? a) = (TRefMut (TInnerNode k v) :? a).
Proof. split; traits. Qed.

(** The exclusive iterators hold a raw pointer and have no impl: they are never Send nor
    Sync, whatever the contents. *)
Theorem C45_iter_mut_never : forall k v a, (TIterMut k v :? a) = false.
Proof. traits. Qed.

(** The private containers. *)
Theorem C45_arena_and_slab : forall t a,
  (TStableArena t :? a) = (t :? a) /\ (TUnsafeSlab t :? a) = (t :? a) /\
  (TPointers (TArenaIter t) :? a) = (t :? Sync) /\ (TPointers (TArenaIterMut t) :? a) = (t :? a).
Proof. repeat split; traits. Qed.

(** The same for simple_bst. *)
Theorem C45_simple : forall k v t a,
  (TSimpleBSTMap k v :? a) = (k :? a) && (v :? a) /\ (TSimpleBSTSet t :? a) = (t :? a) /\
  (TSimpleIter k v :? a) = (k :? Sync) && (v :? Sync) /\
  (TSimpleSetIter t :? a) = (t :? Sync) /\ (TSimpleSetNode t :? a) = (t :? Sync).
Proof. repeat split; traits. Qed.

End C45.
Print Assumptions C45_map.
Print Assumptions C45_set.
Print Assumptions C45_node.
Print Assumptions C45_iter.
Print Assumptions C45_set_views.
Print Assumptions C45_node_mut.
Print Assumptions C45_iter_mut_never.
Print Assumptions C45_arena_and_slab.
Print Assumptions C45_simple.

(** The four kinds of contents of tests/send_sync.rs: parameter 0 is [Rc<i32>] (neither),
    1 is [Cell<i32>] (Send only), 2 is the test's [NotSend] (Sync only). *)
Definition test_flags (i : nat) (a : auto) : bool :=
  match i, a with
  | 1, Send => true
  | 2, Sync => true
  | _, _ => false
  end.
Definition both (t : ty) : bool * bool := (has test_flags Send t, has test_flags Sync t).

Example C45_case :
  (both (TBSTMap TPlain TPlain) = (true, true) /\ both (TBSTMap (TParam 0) TPlain) = (false, false) /\
   both (TBSTMap (TParam 1) TPlain) = (true, false) /\ both (TBSTMap TPlain (TParam 2)) = (false, true)) /\
  (both (TNode TPlain TPlain) = (true, true) /\ both (TNode (TParam 0) TPlain) = (false, false) /\
   both (TNode (TParam 1) TPlain) = (false, false) /\ both (TNode TPlain (TParam 2)) = (true, true)) /\
  (both (TNodeMut (TParam 1) TPlain) = (true, false) /\ both (TNodeMut TPlain (TParam 2)) = (false, true)) /\
  (both (TIter (TParam 1) TPlain) = (false, false) /\ both (TIterMut TPlain TPlain) = (false, false)) /\
  (both (TBSTSet (TParam 1)) = (true, false) /\ both (TBSTSet (TBSTMap (TParam 2) TPlain)) = (false, true) /\
   both (TSetIter (TParam 2)) = (true, true)) /\
  (has test_flags Send (TBSTMap (TParam 1) (TParam 2)) = has test_flags Send (TParam 1) && has test_flags Send (TParam 2)).
Proof. repeat split. Qed.
