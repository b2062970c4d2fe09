(** * Properties of BSTSet: C34, C35 *)

From Coq Require Import String.
From Verif Require Export ProofSet Samples.
Local Open Scope N_scope.

(** A program over a set: equal values, a value with two children removed, a
    panicking comparison, a clone. *)
Definition sins (n tag : N) : set_op SK := SetInsert (so (scmp (n, tag))) (n, tag).
Definition set_sample_ops : list (set_op SK) :=
  [sins 50 0; sins 30 0; sins 80 0; sins 70 0; sins 30 9; SetTake (so (sq 50)); SetRemove (so (sq 99));
   SetRemove (so_panic 1 (sq 80)); SetGet (so (sq 30)); SetExtend sos (mkUserIter 0 None [(75, 0); (70, 5); (10, 0)] false);
   SetContains (so (sq 50)); SetClone sos (fun _ k => Some k); SetLen; SetIter Pre 3; SetWalk [GoLeft]].
Definition set_sample_run := set_run senv set_sample_ops set_new.
Definition set_sample : bstset SK := set_sample_run.2.

Lemma set_sample_reached : set_reached senv SetNew set_sample_ops set_sample_run.1 set_sample.
Proof. exists set_new. split; [done|]. apply surjective_pairing. Qed.

Lemma set_sample_legal : Forall (set_legal scmp) set_sample_ops.
Proof.
  assert (Hs : forall n, legal_search scmp (so (sq n))) by (intros n; exists (sq n); split; [apply sq_query|apply so_answers]).
  repeat constructor; try apply so_answers; try apply Hs; try apply sos_legal.
  - exists (sq 80). split; [apply sq_query|apply so_panic_answers].
  - intros j k k' [= ->]. apply scmp_lawful.
Qed.

Lemma set_sample_ordered : set_ordered_reachable scmp senv set_sample.
Proof.
  exists SetNew, set_sample_ops, set_sample_run.1. split; [done|]. split; [apply set_sample_legal|].
  split; [apply set_sample_reached|]. vm_compute. repeat constructor; discriminate.
Qed.

Lemma set_sample_reachable : set_reachable senv set_sample.
Proof. destruct set_sample_ordered as (s & cs & rs & _ & _ & H). by exists s, cs, rs. Qed.

Definition set_sample_tree : stree SK :=
  snode (snode (snode sleaf (10, 0) sleaf) (30, 0) sleaf) (70, 0) (snode (snode sleaf (75, 0) sleaf) (80, 0) sleaf).
Lemma set_sample_shows : set_shows set_sample set_sample_tree.
Proof.
  eexists. split; [vm_compute; reflexivity|].
  repeat first [apply set_exposes_none | eapply set_exposes_some; [vm_compute; reflexivity| |vm_compute; reflexivity|]].
Qed.

(** C34. *)
Theorem C34_set_refines_list {T : Type} (cmp : T -> T -> comparison) : lawful cmp ->
  forall e (s : set_start T) cs rs m, set_legal_start cmp s -> Forall (set_legal cmp) cs -> set_reached e s cs rs m ->
  exists l : list T,
    steps (set_step cmp) (set_start_list cmp s) cs rs l /\
    (exists l', l' ≡ₚ l /\ set_sorted cmp l' /\ set_yields m In l') /\
    set_len e m = Ret (N.of_nat (length l)) /\
    set_is_empty e m = Ret (N.of_nat (length l) =? 0) /\
    forall f o, is_query cmp f -> surely o f ->
      set_get m o = Ret (set_find f l) /\ set_contains m o = Ret (found (set_find f l)).
Proof. exact (set_refines cmp). Qed.
Print Assumptions C34_set_refines_list.

Example C34_case : set_legal_start scmp SetNew /\ Forall (set_legal scmp) set_sample_ops /\
  set_reached senv SetNew set_sample_ops set_sample_run.1 set_sample /\
  firstn 11 set_sample_run.1 = [Ret (SetBool true); Ret (SetBool true); Ret (SetBool true); Ret (SetBool true);
    Ret (SetBool false); Ret (SetValue (Some (50, 0))); Ret (SetBool false); Panic PCmp; Ret (SetValue (Some (30, 0)));
    Ret SetUnit; Ret (SetBool false)] /\
  set_len senv set_sample = Ret 5.
Proof.
  split; [done|]. split; [exact set_sample_legal|]. split; [exact set_sample_reached|]. by vm_compute.
Qed.

(** C35. In order, strictly increasing. *)
Theorem C35_inorder_increasing {T : Type} (cmp : T -> T -> comparison) : lawful cmp ->
  forall e (m : bstset T) l, set_ordered_reachable cmp e m -> set_yields m In l -> set_sorted cmp l.
Proof. exact (set_inorder_sorted cmp). Qed.
Print Assumptions C35_inorder_increasing.

(** The three traversals, the walks and the printed form are those of the one tree
    that [root], [left] and [right] show, for every comparator. *)
Theorem C35_traversals {T : Type} : forall e (m : bstset T), set_reachable e m ->
  exists t : stree T,
    set_shows m t /\ (forall t', set_shows m t' -> t' = t) /\
    (forall d, set_yields m d (stree_order d t)) /\
    set_debug m = Ret (DStruct "BSTSet" [("root"%string, stree_debug t)]) /\
    forall path, exists r n, bstset_root m = Ret r /\ set_walk m path r = Ret n /\
      option_map set_show n = stree_show (stree_at path t).
Proof. exact set_traversals. Qed.
Print Assumptions C35_traversals.

Theorem C48_debug_set {T : Type} : forall e (m : bstset T) (t : stree T), set_reachable e m -> set_shows m t ->
  set_debug m = Ret (DStruct "BSTSet" [("root"%string, stree_debug t)]).
Proof. exact debug_set. Qed.
Print Assumptions C48_debug_set.

Example C48_set_case :
  set_debug (set_run senv [sins 2 0; sins 1 0] set_new).2 =
    Ret (DStruct "BSTSet" [("root", DSome (DStruct "Node" [("value", DKey (2, 0));
      ("left", DSome (DStruct "Node" [("value", DKey (1, 0)); ("left", DNone); ("right", DNone)])); ("right", DNone)]))])%string%N.
Proof. by vm_compute. Qed.

Theorem C35_equality {T : Type} (cmp : T -> T -> comparison) : lawful cmp ->
  forall eqT : T -> T -> bool, (forall a b, eqT a b = true <-> cmp a b = Eq) ->
  forall e e1 e2 (m1 m2 : bstset T) l1 l2,
  set_ordered_reachable cmp e1 m1 -> set_ordered_reachable cmp e2 m2 -> set_yields m1 In l1 -> set_yields m2 In l2 ->
  exists b, bstset_eq e eqT m1 m2 = Ret b /\
    (b = true <-> (forall x, x ∈ l1 -> exists y, y ∈ l2 /\ eqT x y = true) /\
                  (forall y, y ∈ l2 -> exists x, x ∈ l1 /\ eqT x y = true)).
Proof. exact (set_eq_values cmp). Qed.
Print Assumptions C35_equality.

Theorem C35_clone {T : Type} (cmp : T -> T -> comparison) : lawful cmp ->
  forall e os ck (m : bstset T) t r m2, set_ordered_reachable cmp e m -> legal_inserts cmp os ->
  (forall j x x', ck j x = Some x' -> cmp x' x = Eq) -> set_shows m t -> set_clone e os ck m = (r, m2) ->
  match r with
  | Ret _ => exists t2 : stree T, set_shows m2 t2 /\
      value_clones ck 0 (stree_order Pre t) = (stree_order Pre t2, true) /\ stree_shape t2 = stree_shape t /\
      N.of_nat (length (stree_order Pre t)) <= set_capacity m2 /\ set_ordered_reachable cmp e m2 /\
      forall eqT : T -> T -> bool, (forall j x x', ck j x = Some x' -> eqT x' x = true) -> bstset_eq e eqT m2 m = Ret true
  | _ => alloc_refused r \/ set_clone_panicked os ck (stree_order In t) r
  end.
Proof. exact (set_clone_spec cmp). Qed.
Print Assumptions C35_clone.

(** What the hypotheses say survives every call that obeys the order. *)
Theorem C35_order_is_kept {T : Type} (cmp : T -> T -> comparison) : forall e c (m : bstset T) r m',
  set_ordered_reachable cmp e m -> set_legal cmp c -> set_exec e c m = (r, m') -> r <> Abort ->
  set_ordered_reachable cmp e m'.
Proof. exact (set_ordered_step cmp). Qed.
Print Assumptions C35_order_is_kept.

Definition same_number (a b : SK) : bool := a.1 =? b.1.
Example C35_case : set_ordered_reachable scmp senv set_sample /\ set_reachable senv set_sample /\
  set_shows set_sample set_sample_tree /\
  set_yields set_sample In [(10, 0); (30, 0); (70, 0); (75, 0); (80, 0)] /\
  (forall a b, same_number a b = true <-> scmp a b = Eq) /\
  bstset_eq senv same_number set_sample set_sample = Ret true /\
  bstset_eq senv same_number set_sample (set_exec senv (SetTake (so (sq 10))) set_sample).2 = Ret false /\
  set_legal scmp (SetTake (so (sq 10))) /\
  (set_clone senv sos (fun _ k => Some (k.1, 77)) set_sample).1 = Ret tt /\
  (set_clone senv sos (fun j k => if Nat.eqb j 3 then None else Some k) set_sample).1 = Panic PClone.
Proof.
  split; [exact set_sample_ordered|]. split; [exact set_sample_reachable|]. split; [exact set_sample_shows|].
  split.
  { destruct (C35_traversals senv set_sample set_sample_reachable) as (t & _ & Hu & Hy & _).
    pose proof (Hy In) as H. by rewrite <- (Hu _ set_sample_shows) in H. }
  split. { intros a b. unfold same_number, scmp. by rewrite N.eqb_eq, N.compare_eq_iff. }
  split; [by vm_compute|]. split; [by vm_compute|].
  split; [exists (sq 10); split; [apply sq_query|apply so_answers]|].
  split; by vm_compute.
Qed.
