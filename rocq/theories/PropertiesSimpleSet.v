(** * Properties of SimpleBSTSet: C52

    Vocabulary: [SpecSet.v] (lists and trees of values), [SpecSimpleSet.v]. *)

From Coq Require Import String.
From Verif Require Export ProofSimpleSet Samples.
Local Open Scope N_scope.

Definition sset_env : benv := BEnv true (fun n => Some (n mod 5)).
Definition sset_env_tight : benv := BEnv false (fun n => if n <? 3 then Some n else None).

Definition sset_ins (n tag : N) : set_op SK := SetInsert (so (scmp (n, tag))) (n, tag).
Definition sset_ops : list (set_op SK) :=
  [sset_ins 50 0; sset_ins 30 0; sset_ins 80 0; sset_ins 70 0; sset_ins 30 9; SetTake (so (sq 50)); SetRemove (so (sq 99));
   SetRemove (so_panic 1 (sq 80)); SetGet (so (sq 30)); SetExtend sos (mkUserIter 0 None [(75, 0); (70, 5); (10, 0)] false);
   SetContains (so (sq 50)); SetClone sos (fun _ k => Some k); SetLen; SetIter Pre 3; SetWalk [GoLeft]; SetDebug].
Definition sset_sample_run := sset_run sset_env sset_ops sset_new.
Definition sset_sample : sset SK := sset_sample_run.2.

Lemma sset_sample_reached : sset_reached sset_env SetNew sset_ops sset_sample_run.1 sset_sample.
Proof. exists sset_new. split; [done|]. unfold sset_sample, sset_sample_run. apply surjective_pairing. Qed.
Lemma sset_ops_has : Forall (fun c => sset_has c = true) sset_ops.
Proof. repeat constructor. Qed.
Lemma sset_ops_legal : Forall (set_legal scmp) sset_ops.
Proof.
  assert (Hs : forall n, legal_search scmp (so (sq n))) by (intros n; exists (sq n); split; [apply sq_query|apply so_answers]).
  repeat constructor; try apply so_answers; try apply Hs; try apply sos_legal.
  - exists (sq 80). split; [apply sq_query|apply so_panic_answers].
  - intros j k k' [= ->]. apply scmp_lawful.
Qed.
Lemma sset_sample_alive : alive sset_sample_run.1.
Proof. vm_compute. repeat constructor; discriminate. Qed.
Lemma sset_sample_reachable : sset_reachable sset_env sset_sample.
Proof.
  exists SetNew, sset_ops, sset_sample_run.1. split; [done|]. split; [exact sset_ops_has|].
  split; [exact sset_sample_reached|exact sset_sample_alive].
Qed.

(** The results and the contents are those of a finite set kept in a list. *)
Theorem C52_set_refines_list {T : Type} (cmp : T -> T -> comparison) :
  lawful cmp -> forall e (s : set_start T) cs rs (m : sset T),
  sset_has_start s = true -> Forall (fun c => sset_has c = true) cs ->
  set_legal_start cmp s -> Forall (set_legal cmp) cs -> sset_reached e s cs rs m ->
  exists l : list T, steps (sset_step cmp) (set_start_list cmp s) cs rs l /\
    (alive rs -> (exists l', l' ≡ₚ l /\ set_sorted cmp l' /\ sset_yields m In l') /\
      sset_len m = N.of_nat (length l) /\ (forall b, sset_is_empty b m = Ret (N.of_nat (length l) =? 0)) /\
      forall f o, is_query cmp f -> surely o f ->
        sset_get m o = Ret (set_find f l) /\ sset_contains m o = Ret (found (set_find f l))).
Proof. exact (sset_refines cmp). Qed.
Print Assumptions C52_set_refines_list.

(** A call returns, or ends because user code panics, or for want of memory. *)
Theorem C52_never_fails {T : Type} : forall e c (m : sset T) r m',
  sset_reachable e m -> sset_has c = true -> sset_exec e c m = (r, m') ->
  ((exists x, r = Ret x) \/ (exists p, r = Panic p /\ sset_stop c p) \/ (r = Abort /\ set_allocates c = true)) /\
  (r <> Abort -> sset_reachable e m').
Proof. exact sset_never_fails. Qed.
Print Assumptions C52_never_fails.

Theorem C52_creation_never_fails {T : Type} : forall e (s : set_start T), sset_has_start s = true ->
  match sset_begin e s with
  | (Ret _, m) => sset_reachable e m
  | (Panic p, _) => exists os it, s = SetFromIter os it /\ (p = PCmp \/ (p = PIter /\ ui_panics it = true))
  | (Abort, _) => True
  | _ => False
  end.
Proof. exact sset_begin_never_fails. Qed.
Print Assumptions C52_creation_never_fails.

(** The traversals, the walks, the printed form and the length are those of the
    one tree that [root], [left] and [right] show, for every comparator. *)
Theorem C52_traversals {T : Type} : forall e (m : sset T), sset_reachable e m ->
  exists t : stree T, sset_shows m t /\ (forall t', sset_shows m t' -> t' = t) /\
    (forall d, sset_yields m d (stree_order d t)) /\
    sset_debug m = Ret (DStruct "SimpleBSTSet" [("root"%string, stree_debug t)]) /\
    sset_len m = N.of_nat (length (stree_order In t)) /\
    forall path, exists n, sset_walk m path (sset_root m) = Ret n /\
      match n with None => Ret None | Some p => rmap Some (sset_show m p) end = Ret (stree_show (stree_at path t)).
Proof. exact sset_traversals. Qed.
Print Assumptions C52_traversals.

(** [==] compares the in-order listings. *)
Theorem C52_eq {T : Type} : forall e1 e2 (m1 m2 : sset T) eqT l1 l2,
  sset_reachable e1 m1 -> sset_reachable e2 m2 -> sset_yields m1 In l1 -> sset_yields m2 In l2 ->
  exists b, sset_eq eqT m1 m2 = Ret b /\ (b = true <-> Forall2 (fun x y => eqT x y = true) l1 l2).
Proof. exact sset_eq_lists. Qed.
Print Assumptions C52_eq.

(** The same results as BSTSet, with any comparator ... *)
Theorem C52_same_as_BSTSet {T : Type} : forall e b (s : set_start T) cs rs1 (m1 : bstset T) rs2 (m2 : sset T),
  sset_has_start s = true -> Forall (fun c => set_shared c = true) cs ->
  set_reached e s cs rs1 m1 -> sset_reached b s cs rs2 m2 -> Forall unrefused rs1 -> alive rs2 ->
  Forall2 set_same_result rs1 rs2 /\
  exists t, set_shows m1 t /\ sset_shows m2 t /\ forall d, exists l, set_yields m1 d l /\ sset_yields m2 d l.
Proof. exact set_differential. Qed.
Print Assumptions C52_same_as_BSTSet.

(** ... also with clones, if the comparisons follow an order. *)
Theorem C52_same_as_BSTSet_with_clones {T : Type} (cmp : T -> T -> comparison) :
  lawful cmp -> forall e b (s : set_start T) cs rs1 (m1 : bstset T) rs2 (m2 : sset T),
  sset_has_start s = true -> set_legal_start cmp s -> Forall (set_legal cmp) cs ->
  Forall (fun c => set_shared c = true \/ set_calm_clone c) cs ->
  set_reached e s cs rs1 m1 -> sset_reached b s cs rs2 m2 -> Forall unrefused rs1 -> alive rs2 ->
  Forall2 set_same_result rs1 rs2 /\
  exists t, set_shows m1 t /\ sset_shows m2 t /\ forall d, exists l, set_yields m1 d l /\ sset_yields m2 d l.
Proof. exact (set_differential_lawful cmp). Qed.
Print Assumptions C52_same_as_BSTSet_with_clones.

Theorem C52_same_creation {T : Type} : forall e b (s : set_start T) r1 (m1 : bstset T) r2 (m2 : sset T),
  sset_has_start s = true -> set_begin e s = (r1, m1) -> sset_begin b s = (r2, m2) ->
  unrefused r1 -> r2 <> Abort -> r1 = r2.
Proof. exact set_differential_start. Qed.
Print Assumptions C52_same_creation.

(** The nodes in memory are exactly the values; dropping the set frees them. *)
Theorem C52_nodes_are_owned_once {T : Type} : forall e (m : sset T), sset_reachable e m ->
  sset_len m = N.of_nat (size (s_mem m)) /\ exists m', simple_drop m = (Ret tt, m') /\ s_mem m' = ∅.
Proof. exact sset_no_leak. Qed.
Print Assumptions C52_nodes_are_owned_once.

Example C52_case : lawful scmp /\ Forall (fun c => sset_has c = true) sset_ops /\ Forall (set_legal scmp) sset_ops /\
  sset_reached sset_env SetNew sset_ops sset_sample_run.1 sset_sample /\ alive sset_sample_run.1 /\
  sset_reachable sset_env sset_sample /\
  firstn 11 sset_sample_run.1 = [Ret (SetBool true); Ret (SetBool true); Ret (SetBool true); Ret (SetBool true);
    Ret (SetBool false); Ret (SetValue (Some (50, 0))); Ret (SetBool false); Panic PCmp; Ret (SetValue (Some (30, 0)));
    Ret SetUnit; Ret (SetBool false)] /\
  sset_len sset_sample = 5 /\
  (sset_run sset_env_tight sset_ops sset_new).1 =
    [Ret (SetBool true); Ret (SetBool true); Ret (SetBool true); Ret (SetBool true);
     Ret (SetBool false); Abort] /\
  sset_eq (fun a b => bool_decide (a = b)) sset_sample sset_sample = Ret true.
Proof.
  split; [exact scmp_lawful|]. split; [exact sset_ops_has|]. split; [exact sset_ops_legal|].
  split; [exact sset_sample_reached|]. split; [exact sset_sample_alive|]. split; [exact sset_sample_reachable|].
  by vm_compute.
Qed.

Definition wild_set_ops : list (set_op SK) :=
  [sset_ins 50 0; SetInsert so_mad (30, 0); SetInsert so_mad (20, 0); SetInsert (so_panic 1 (fun _ => Lt)) (10, 0);
   SetInsert so_mad (30, 0); SetTake (fun i k => Some (if Nat.eqb i 1 then Eq else Gt)); SetInsert so_mad (60, 0); SetDebug].
Example C52_same_case : Forall (fun c => set_shared c = true) wild_set_ops /\
  set_reached senv SetNew wild_set_ops (set_run senv wild_set_ops set_new).1 (set_run senv wild_set_ops set_new).2 /\
  sset_reached sset_env SetNew wild_set_ops (sset_run sset_env wild_set_ops sset_new).1 (sset_run sset_env wild_set_ops sset_new).2 /\
  Forall unrefused (set_run senv wild_set_ops set_new).1 /\ alive (sset_run sset_env wild_set_ops sset_new).1 /\
  take 7 (set_run senv wild_set_ops set_new).1 = take 7 (sset_run sset_env wild_set_ops sset_new).1 /\
  Forall (fun c => set_shared c = true \/ set_calm_clone c) sset_ops /\
  set_reached senv SetNew sset_ops (set_run senv sset_ops set_new).1 (set_run senv sset_ops set_new).2 /\
  Forall unrefused (set_run senv sset_ops set_new).1.
Proof.
  split; [repeat constructor|]. split; [exists set_new; split; [done|apply surjective_pairing]|].
  split; [exists sset_new; split; [done|apply surjective_pairing]|].
  split; [vm_compute; repeat constructor; discriminate|]. split; [vm_compute; repeat constructor; discriminate|].
  split; [by vm_compute|].
  split; [repeat (apply Forall_cons; split; [first [by left|by right]|]); constructor|].
  split; [exists set_new; split; [done|apply surjective_pairing]|]. vm_compute; repeat constructor; discriminate.
Qed.
