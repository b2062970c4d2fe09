(** * Properties of SimpleBSTMap: C38-C40, C57

    Vocabulary: [Spec.v], [SpecHistory.v], [SpecOracle.v] (search trees with any
    comparator) and [SpecSimple.v] (what the calls of SimpleBSTMap should do). *)

From Verif Require Export ProofSimpleProps Samples.
Local Open Scope N_scope.

(** ** Examples *)

(** A debug build whose allocator reuses addresses; an allocator with room for
    three boxes. *)
Definition benv0 : benv := BEnv true (fun n => Some (n mod 5)).
Definition benv_tight : benv := BEnv false (fun n => if n <? 3 then Some n else None).

Definition simple_ops : list (op SK N) :=
  [ins 50 0 1; ins 30 0 2; ins 80 0 3; ins 10 0 4; ins 40 0 5; ins 70 0 6; ins 90 0 7;
   ins 30 9 20; ORemoveEntry (so (sq 50)); ORemove (so_panic 1 (sq 10));
   OGetMut (so (sq 40)) (Some 55);
   OExtend sos (mkUserIter 3 (Some 3) [((60, 0), 8); ((65, 0), 9); ((60, 1), 10)] false);
   OClone sos (fun _ k => Some k) (fun _ v => Some v);
   ORemove (so (sq 10)); ORemove (so (sq 80)); OLen; ODebug; OWalk [GoRight]; OIter Post 3].
Definition simple_sample_run := simple_run benv0 simple_ops simple_new.
Definition simple_sample : simple SK N := simple_sample_run.2.

Lemma simple_ops_legal : Forall (legal scmp) simple_ops.
Proof.
  assert (Hs : forall n, legal_search scmp (so (sq n))) by (intros n; exists (sq n); split; [apply sq_query|apply so_answers]).
  repeat constructor; try apply so_answers; try apply Hs; try apply sos_legal.
  - exists (sq 10). split; [apply sq_query|apply so_panic_answers].
  - intros j k k' [= ->]. apply scmp_lawful.
Qed.
Lemma simple_sample_reached : simple_reached benv0 SNew simple_ops simple_sample_run.1 simple_sample.
Proof. exists simple_new. split; [done|]. unfold simple_sample, simple_sample_run. apply surjective_pairing. Qed.
Lemma simple_sample_alive : alive simple_sample_run.1.
Proof. vm_compute. repeat constructor; discriminate. Qed.
Lemma simple_ops_has : Forall (fun c => simple_has c = true) simple_ops.
Proof. repeat constructor. Qed.
Lemma simple_sample_reachable : simple_reachable benv0 simple_sample.
Proof.
  exists SNew, simple_ops, simple_sample_run.1. split; [done|]. split; [exact simple_ops_has|].
  split; [exact simple_sample_reached|exact simple_sample_alive].
Qed.

(** ** C38. The results and the contents are those of a finite map. *)
Theorem C38_agrees_with_abstract_map {K V : Type} (cmp : K -> K -> comparison) :
  lawful cmp -> forall e (s : start K V) cs rs (m : simple K V),
  simple_has_start s = true -> Forall (fun c => simple_has c = true) cs ->
  legal_start cmp s -> Forall (legal cmp) cs -> simple_reached e s cs rs m ->
  exists l, steps (simple_step cmp) (start_map cmp s) cs rs l /\
    (alive rs -> (exists l', l' ≡ₚ l /\ sorted cmp l' /\ simple_yields m In l') /\
      simple_len m = N.of_nat (length l) /\ (forall b, simple_is_empty b m = Ret (N.of_nat (length l) =? 0)) /\
      forall f o, is_query cmp f -> surely o f ->
        simple_get m o = Ret (snd <$> assoc_find f l) /\
        simple_get_entry m o = Ret (assoc_find f l) /\
        simple_contains_key m o = Ret (match assoc_find f l with Some _ => true | None => false end)).
Proof. exact (simple_lookups_refine cmp). Qed.
Print Assumptions C38_agrees_with_abstract_map.

(** With any comparator the results and the shape are those of the textbook
    search tree that asks the same questions. *)
Theorem C38_any_comparator {K V : Type} : forall e (s : start K V) cs rs (m : simple K V),
  simple_has_start s = true -> Forall (fun c => simple_has c = true) cs -> simple_reached e s cs rs m ->
  exists t0 t, otree_start s t0 /\ steps stree_step t0 cs rs t /\
    (alive rs -> simple_shows m t /\ forall d, simple_yields m d (tree_order d t)).
Proof. exact simple_any_comparator_shows. Qed.
Print Assumptions C38_any_comparator.

(** No undefined behaviour, endless loop, failed [unwrap] or failed assertion:
    a call returns, or ends because user code panics, or for want of memory. *)
Theorem C38_never_fails {K V : Type} : forall e c (m : simple K V) r m',
  simple_reachable e m -> simple_has c = true -> simple_exec e c m = (r, m') ->
  ((exists x, r = Ret x) \/ (exists p, r = Panic p /\ simple_stop c p) \/ (r = Abort /\ allocates c = true)) /\
  (r <> Abort -> simple_reachable e m').
Proof. exact simple_never_fails. Qed.
Print Assumptions C38_never_fails.

Theorem C38_creation_never_fails {K V : Type} : forall e (s : start K V), simple_has_start s = true ->
  match simple_begin e s with
  | (Ret _, m) => simple_reachable e m
  | (Panic p, _) => exists os it, s = SFromIter os it /\ (p = PCmp \/ (p = PIter /\ ui_panics it = true))
  | (Abort, _) => True
  | _ => False
  end.
Proof. exact simple_begin_never_fails. Qed.
Print Assumptions C38_creation_never_fails.

(** [==] compares the in-order listings. *)
Theorem C38_eq {K V : Type} : forall e1 e2 (m1 m2 : simple K V) eqK eqV l1 l2,
  simple_reachable e1 m1 -> simple_reachable e2 m2 -> simple_yields m1 In l1 -> simple_yields m2 In l2 ->
  exists b, simple_eq eqK eqV m1 m2 = Ret b /\
    (b = true <-> Forall2 (fun a b => eqK a.1 b.1 = true /\ eqV a.2 b.2 = true) l1 l2).
Proof. exact simple_eq_lists. Qed.
Print Assumptions C38_eq.

Example C38_case : lawful scmp /\ Forall (fun c => simple_has c = true) simple_ops /\ Forall (legal scmp) simple_ops /\
  simple_reached benv0 SNew simple_ops simple_sample_run.1 simple_sample /\ alive simple_sample_run.1 /\
  simple_reachable benv0 simple_sample /\
  simple_get_entry simple_sample (so (sq 30)) = Ret (Some ((30, 0), 20)) /\
  simple_get simple_sample (so (sq 80)) = Ret None /\ simple_len simple_sample = 6 /\
  (simple_exec benv0 (ORemove (so_panic 1 (sq 10))) simple_sample).1 = Panic PCmp /\
  (simple_run benv_tight simple_ops simple_new).1 =
    [Ret (OutValue None); Ret (OutValue None); Ret (OutValue None); Ret (OutValue None); Abort] /\
  simple_eq (fun a b => bool_decide (a = b)) N.eqb simple_sample simple_sample = Ret true.
Proof.
  split; [exact scmp_lawful|]. split; [exact simple_ops_has|]. split; [exact simple_ops_legal|].
  split; [exact simple_sample_reached|]. split; [exact simple_sample_alive|]. split; [exact simple_sample_reachable|].
  by vm_compute.
Qed.

(** ** C39. BSTMap and SimpleBSTMap give the same results (any comparator) ... *)
Theorem C39_same_results {K V : Type} : forall e b (s : start K V) cs rs1 (m1 : bstmap K V) rs2 (m2 : simple K V),
  simple_has_start s = true -> Forall (fun c => shared c = true) cs ->
  reached e s cs rs1 m1 -> simple_reached b s cs rs2 m2 -> Forall unrefused rs1 -> alive rs2 ->
  Forall2 same_result rs1 rs2 /\
  (exists t, shows m1 t /\ simple_shows m2 t) /\ forall d, exists l, yields m1 d l /\ simple_yields m2 d l.
Proof. exact differential. Qed.
Print Assumptions C39_same_results.

(** ... also with clones, if the comparisons follow an order. *)
Theorem C39_same_results_with_clones {K V : Type} (cmp : K -> K -> comparison) :
  lawful cmp -> forall e b (s : start K V) cs rs1 (m1 : bstmap K V) rs2 (m2 : simple K V),
  simple_has_start s = true -> legal_start cmp s -> Forall (legal cmp) cs ->
  Forall (fun c => shared c = true \/ calm_clone c) cs ->
  reached e s cs rs1 m1 -> simple_reached b s cs rs2 m2 -> Forall unrefused rs1 -> alive rs2 ->
  Forall2 same_result rs1 rs2 /\
  (exists t, shows m1 t /\ simple_shows m2 t) /\ forall d, exists l, yields m1 d l /\ simple_yields m2 d l.
Proof. exact (differential_lawful cmp). Qed.
Print Assumptions C39_same_results_with_clones.

(** Their creation succeeds or panics alike. *)
Theorem C39_same_creation {K V : Type} : forall e b (s : start K V) r1 (m1 : bstmap K V) r2 (m2 : simple K V),
  simple_has_start s = true -> begin e s = (r1, m1) -> simple_begin b s = (r2, m2) ->
  unrefused r1 -> r2 <> Abort -> r1 = r2.
Proof. exact differential_start. Qed.
Print Assumptions C39_same_creation.

(** With a comparator that follows no order, a clone of BSTMap may have another
    shape than its original; one of SimpleBSTMap never has. *)
Definition odd_ops : list (op SK N) :=
  [ins 50 0 1; ins 30 0 2; OClone (fun _ _ => so (fun _ => Eq)) (fun _ k => Some k) (fun _ v => Some v); OLen].
Theorem C39_clone_any_comparator_refuted : exists (s : start SK N) cs rs1 m1 rs2 m2,
  reached senv s cs rs1 m1 /\ simple_reached benv0 s cs rs2 m2 /\ Forall unrefused rs1 /\ alive rs2 /\
  rs1 !! 3%nat = Some (Ret (OutNum 1)) /\ rs2 !! 3%nat = Some (Ret (OutNum 2)).
Proof.
  exists SNew, odd_ops, (run senv odd_ops map_new).1, (run senv odd_ops map_new).2,
    (simple_run benv0 odd_ops simple_new).1, (simple_run benv0 odd_ops simple_new).2.
  split; [exists map_new; split; [done|apply surjective_pairing]|].
  split; [exists simple_new; split; [done|apply surjective_pairing]|].
  split; [vm_compute; repeat constructor; discriminate|]. split; [vm_compute; repeat constructor; discriminate|].
  by vm_compute.
Qed.
Print Assumptions C39_clone_any_comparator_refuted.

Definition wild_ops : list (op SK N) :=
  [ins 50 0 1; OInsert so_mad (30, 0) 2; OInsert so_mad (20, 0) 3; OInsert (so_panic 1 (fun _ => Lt)) (10, 0) 4;
   OInsert so_mad (30, 0) 5; ORemove (fun i k => Some (if Nat.eqb i 1 then Eq else Gt)); OInsert so_mad (60, 0) 6; ODebug].
Example C39_case : Forall (fun c => shared c = true) wild_ops /\
  reached senv SNew wild_ops (run senv wild_ops map_new).1 (run senv wild_ops map_new).2 /\
  simple_reached benv0 SNew wild_ops (simple_run benv0 wild_ops simple_new).1 (simple_run benv0 wild_ops simple_new).2 /\
  Forall unrefused (run senv wild_ops map_new).1 /\ alive (simple_run benv0 wild_ops simple_new).1 /\
  take 7 (run senv wild_ops map_new).1 = take 7 (simple_run benv0 wild_ops simple_new).1 /\
  Forall (legal scmp) simple_ops /\ Forall (fun c => shared c = true \/ calm_clone c) simple_ops /\
  reached senv SNew simple_ops (run senv simple_ops map_new).1 (run senv simple_ops map_new).2 /\
  Forall unrefused (run senv simple_ops map_new).1.
Proof.
  split; [repeat constructor|]. split; [exists map_new; split; [done|apply surjective_pairing]|].
  split; [exists simple_new; split; [done|apply surjective_pairing]|].
  split; [vm_compute; repeat constructor; discriminate|]. split; [vm_compute; repeat constructor; discriminate|].
  split; [by vm_compute|]. split; [exact simple_ops_legal|].
  split; [repeat (apply Forall_cons; split; [first [by left|by right]|]); constructor|].
  split; [exists map_new; split; [done|apply surjective_pairing]|]. vm_compute; repeat constructor; discriminate.
Qed.

(** ** C40 is false: the mutable iterators are [todo!()]. *)
Theorem C40_iter_mut_panics {K V : Type} : forall e (m : simple K V) d evs,
  calls_next evs = true -> simple_exec e (OIterMut d evs) m = (Panic PTodo, m).
Proof. exact simple_iter_mut_panics. Qed.
Print Assumptions C40_iter_mut_panics.

Theorem C40_refuted : exists e (m : simple SK N) l, simple_reachable e m /\ simple_yields m In l /\ length l = 6%nat /\
  (simple_exec e (OIterMut In [EvNext]) m).1 <> Ret (OutMut (take 1 l) 0).
Proof.
  destruct (simple_listing benv0 simple_sample simple_sample_reachable) as (l & Hl & Hn).
  exists benv0, simple_sample, l. split; [exact simple_sample_reachable|]. split; [done|].
  split; [rewrite Hn; by vm_compute|]. by vm_compute.
Qed.
Print Assumptions C40_refuted.

Example C40_case : simple_reachable benv0 simple_sample /\ calls_next [EvNext (V := N)] = true /\
  (simple_exec benv0 (OIterMut Pre [EvNext]) simple_sample).1 = Panic PTodo.
Proof. split; [exact simple_sample_reachable|]. by vm_compute. Qed.

(** ** C57. No node is leaked or freed twice: the nodes in memory are exactly the
    entries, and dropping the map frees them all. *)
Theorem C57_nodes_are_owned_once {K V : Type} : forall e (m : simple K V), simple_reachable e m ->
  simple_len m = N.of_nat (size (s_mem m)) /\
  (exists l, simple_yields m In l /\ length l = size (s_mem m)) /\
  exists m', simple_drop m = (Ret tt, m') /\ s_mem m' = ∅.
Proof. exact simple_no_leak. Qed.
Print Assumptions C57_nodes_are_owned_once.

Example C57_case : simple_reachable benv0 simple_sample /\ size (s_mem simple_sample) = 6%nat /\
  size (s_mem (simple_drop simple_sample).2) = 0%nat /\ s_boxes simple_sample = 8.
Proof. split; [exact simple_sample_reachable|]. by vm_compute. Qed.
