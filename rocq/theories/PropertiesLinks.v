(** * C103: updates relink only a few nodes

    With any comparator, an insertion of a new key adds one node without children
    and changes one link; a removal takes one node away and gives new children to at
    most three others, which keep their keys; every other call, and a call that
    panics, leaves all links as they were. *)

From Verif Require Import SpecLinks ProofLinks.
From Verif Require Import Samples PropertiesSet.

(** ** BSTMap *)

Theorem C103_map_insert {K V : Type} : forall e (m : bstmap K V) o k v m',
  reachable e m -> exec e (OInsert o k v) m = (Ret (OutValue None), m') -> exists q, hung q k m m'.
Proof. exact map_insert_hangs. Qed.
Print Assumptions C103_map_insert.

Theorem C103_map_remove_entry {K V : Type} : forall e (m : bstmap K V) o k v m',
  reachable e m -> exec e (ORemoveEntry o) m = (Ret (OutEntry (Some (k, v))), m') ->
  exists q, (exists a b, linked m q k a b) /\ cut q 3 m m'.
Proof. exact map_remove_entry_cuts. Qed.
Print Assumptions C103_map_remove_entry.

Theorem C103_map_remove {K V : Type} : forall e (m : bstmap K V) o v m',
  reachable e m -> exec e (ORemove o) m = (Ret (OutValue (Some v)), m') ->
  exists q k, (exists a b, linked m q k a b) /\ cut q 3 m m'.
Proof. exact map_remove_cuts. Qed.
Print Assumptions C103_map_remove.

Theorem C103_map_others {K V : Type} : forall e (c : op K V) (m : bstmap K V) r m',
  reachable e m -> exec e c m = (r, m') -> may_relink c r = false -> same_links m m'.
Proof. exact map_call_links. Qed.
Print Assumptions C103_map_others.

(** ** BSTSet *)

Theorem C103_set_insert {T : Type} : forall e (m : bstset T) o x m',
  set_reachable e m -> set_exec e (SetInsert o x) m = (Ret (SetBool true), m') -> exists q, hung q x m m'.
Proof. exact set_insert_hangs. Qed.
Print Assumptions C103_set_insert.

Theorem C103_set_take {T : Type} : forall e (m : bstset T) o x m',
  set_reachable e m -> set_exec e (SetTake o) m = (Ret (SetValue (Some x)), m') ->
  exists q, (exists a b, linked m q x a b) /\ cut q 3 m m'.
Proof. exact set_take_cuts. Qed.
Print Assumptions C103_set_take.

Theorem C103_set_remove {T : Type} : forall e (m : bstset T) o m',
  set_reachable e m -> set_exec e (SetRemove o) m = (Ret (SetBool true), m') ->
  exists q x, (exists a b, linked m q x a b) /\ cut q 3 m m'.
Proof. exact set_remove_cuts. Qed.
Print Assumptions C103_set_remove.

Theorem C103_set_others {T : Type} : forall e (c : set_op T) (m : bstset T) r m',
  set_reachable e m -> set_exec e c m = (r, m') -> set_may_relink c r = false -> same_links m m'.
Proof. exact set_call_links. Qed.
Print Assumptions C103_set_others.

(** ** Three nodes, no fewer

    10 has the right child 50, with the children 30 and 70; 60 is left of 70. The
    removal of 50 gives new children to 10, 60 and 70. *)
Local Open Scope N_scope.
Definition c103_run := run senv [ins 10 0 1; ins 50 0 2; ins 30 0 3; ins 70 0 4; ins 60 0 5] map_new.
Definition c103_map : bstmap SK N := c103_run.2.
Definition c103_removal := exec senv (ORemoveEntry (so (sq 50))) c103_map.
Definition c103_after : bstmap SK N := c103_removal.2.

Lemma c103_reachable : reachable senv c103_map.
Proof. eexists SNew, _, c103_run.1. split; [exists map_new; split; [done|]; apply surjective_pairing|].
  vm_compute. repeat constructor; discriminate. Qed.
Lemma c103_removed : c103_removal = (Ret (OutEntry (Some ((50, 0), 2))), c103_after).
Proof. pose proof (surjective_pairing c103_removal) as H. replace c103_removal.1 with (Ret (OutEntry (Some ((50%N, 0%N), 2%N)))) in H by (by vm_compute). exact H. Qed.

Ltac find_link path :=
  eexists _, _, _; split; [exists path; eexists; split; [vm_compute; reflexivity|vm_compute; reflexivity]|];
  split; [reflexivity|]; split; [reflexivity|]; split; [vm_compute; reflexivity|]; split; [vm_compute; reflexivity|]; split; reflexivity.

Lemma c103_links :
  linked c103_map (0, 0) (10, 0) None (Some (0, 1)) /\ linked c103_map (0, 1) (50, 0) (Some (0, 2)) (Some (0, 3)) /\
  linked c103_map (0, 3) (70, 0) (Some (0, 4)) None /\ linked c103_map (0, 4) (60, 0) None None.
Proof.
  split; [find_link (@nil dir)|]. split; [find_link [GoRight]|]. split; [find_link [GoRight; GoRight]|]. find_link [GoRight; GoRight; GoLeft].
Qed.
Lemma c103_links_after :
  linked c103_after (0, 0) (10, 0) None (Some (0, 4)) /\ linked c103_after (0, 4) (60, 0) (Some (0, 2)) (Some (0, 3)) /\
  linked c103_after (0, 3) (70, 0) None None.
Proof. split; [find_link (@nil dir)|]. split; [find_link [GoRight]|]. find_link [GoRight; GoRight]. Qed.

Theorem C103_two_refuted : exists (m : bstmap SK N) o k v m', reachable senv m /\
  exec senv (ORemoveEntry o) m = (Ret (OutEntry (Some (k, v))), m') /\ forall q, ~ cut q 2 m m'.
Proof.
  exists c103_map, (so (sq 50)), (50, 0), 2, c103_after. split; [exact c103_reachable|]. split; [exact c103_removed|].
  intros q (Hq & _ & ps & Hn & Hps). destruct c103_links as (A0 & _ & A3 & A4). destruct c103_links_after as (B0 & B4 & B3).
  assert (H : forall p k a b a' b', linked c103_map p k a b -> linked c103_after p k a' b' -> (a, b) <> (a', b') -> p ∈ ps).
  { intros p k a b a' b' HA HB Hne. destruct (decide (p ∈ ps)) as [Hin|Hin]; [done|]. exfalso.
    assert (Hpq : p ∉ q :: ps). { intros [->|?]%elem_of_cons; [|done]. by eapply Hq. }
    pose proof (proj2 (Hps p k a' b' Hpq) HB) as HB'. destruct (linked_fun _ _ _ _ _ _ _ _ _ c103_reachable HA HB') as (_ & -> & ->). done. }
  pose proof (H _ _ _ _ _ _ A0 B0 ltac:(discriminate)) as H0. pose proof (H _ _ _ _ _ _ A3 B3 ltac:(discriminate)) as H3.
  pose proof (H _ _ _ _ _ _ A4 B4 ltac:(discriminate)) as H4.
  assert (Hsub : [(0, 0); (0, 3); (0, 4)] ⊆+ ps).
  { apply NoDup_submseteq; [repeat constructor; rewrite ?elem_of_cons, ?elem_of_nil; naive_solver|].
    intros x. rewrite !elem_of_cons, elem_of_nil. naive_solver. }
  apply submseteq_length in Hsub. change (3 <= length ps)%nat in Hsub. lia.
Qed.
Print Assumptions C103_two_refuted.

(** An insertion into that map, one over an equal key, one that panics; a removal
    that finds nothing; the same map as a set. *)
Definition c103_set_run := set_run senv [SetInsert (so (scmp (10, 0))) (10, 0); SetInsert (so (scmp (50, 0))) (50, 0);
  SetInsert (so (scmp (30, 0))) (30, 0)] set_new.

Example C103_case :
  reachable senv c103_map /\ c103_removal.1 = Ret (OutEntry (Some ((50, 0), 2))) /\
  (exec senv (ins 65 0 6) c103_map).1 = Ret (OutValue None) /\
  linked (exec senv (ins 65 0 6) c103_map).2 (0, 5) (65, 0) None None /\
  linked (exec senv (ins 65 0 6) c103_map).2 (0, 4) (60, 0) None (Some (0, 5)) /\
  (exec senv (ORemove (so (sq 60))) c103_map).1 = Ret (OutValue (Some 5)) /\
  (may_relink (ins 50 1 6) (exec senv (ins 50 1 6) c103_map).1 = false /\
   (exec senv (ins 50 1 6) c103_map).1 = Ret (OutValue (Some 2)) /\
   linked (exec senv (ins 50 1 6) c103_map).2 (0, 1) (50, 0) (Some (0, 2)) (Some (0, 3))) /\
  (exec senv (ORemove (so_panic 1 (sq 50))) c103_map).1 = Panic PCmp /\
  (exec senv (ORemove (so (sq 51))) c103_map).1 = Ret (OutValue None) /\
  set_reachable senv c103_set_run.2 /\
  (set_exec senv (SetInsert (so (scmp (40, 0))) (40, 0)) c103_set_run.2).1 = Ret (SetBool true) /\
  (set_exec senv (SetTake (so (sq 50))) c103_set_run.2).1 = Ret (SetValue (Some (50, 0))) /\
  (set_exec senv (SetRemove (so (sq 10))) c103_set_run.2).1 = Ret (SetBool true) /\
  linked (set_exec senv (SetTake (so (sq 50))) c103_set_run.2).2 (0, 0) (10, 0) None (Some (0, 2)).
Proof.
  split; [exact c103_reachable|]. split; [by vm_compute|]. split; [by vm_compute|].
  split; [find_link [GoRight; GoRight; GoLeft; GoRight]|]. split; [find_link [GoRight; GoRight; GoLeft]|].
  split; [by vm_compute|]. split. { split; [by vm_compute|]. split; [by vm_compute|]. find_link [GoRight]. }
  split; [by vm_compute|]. split; [by vm_compute|].
  split. { eexists SetNew, _, c103_set_run.1. split; [exists set_new; split; [done|]; apply surjective_pairing|].
    vm_compute. repeat constructor; discriminate. }
  split; [by vm_compute|]. split; [by vm_compute|]. split; [by vm_compute|]. find_link (@nil dir).
Qed.
