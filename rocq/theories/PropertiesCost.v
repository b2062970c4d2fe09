(** * Costs of SimpleBSTMap, BSTSet and SimpleBSTSet: C80

    C36 and C49 for the other collections. Vocabulary: [first_answers], [inserts],
    [right_spine] (SpecOracle.v), [stack_bound], [read_bound] (SpecObs.v), and
    SpecCost.v. *)

From Verif Require Import ProofSimpleCost PropertiesSet PropertiesSimple PropertiesSimpleSet.
From Verif Require Import ModelIter.
Local Open Scope nat_scope.

(** ** SimpleBSTMap *)

(** A comparator that answers at most as often as the tree is high, and then
    panics, changes nothing. *)
Theorem C80_simple_comparisons {K V : Type} : forall e call (m : simple K V) (t : tree K V) o,
  simple_reachable e m -> simple_shows m t -> search_call call \/ (exists k v, call = fun o => OInsert o k v) ->
  simple_exec e (call (first_answers (height t) o)) m = simple_exec e (call o) m.
Proof. exact simple_cost. Qed.
Print Assumptions C80_simple_comparisons.

Theorem C80_simple_height {K V : Type} : forall e (m : simple K V) (t : tree K V),
  simple_reachable e m -> simple_shows m t -> (N.of_nat (height t) <= simple_len m)%N.
Proof. exact simple_height. Qed.
Print Assumptions C80_simple_height.

(** After sorted insertion a search for the last key compares with every key. *)
Theorem C80_simple_sorted_insertion {K V : Type} (cmp : K -> K -> comparison) :
  lawful cmp -> forall e items k v os rs (m : simple K V),
  sorted cmp (items ++ [(k, v)]) -> legal_inserts cmp os ->
  simple_reached e SNew (inserts os (items ++ [(k, v)])) rs m -> returned_all rs ->
  simple_shows m (right_spine (items ++ [(k, v)])) /\ simple_len m = N.of_nat (S (length items)) /\
  forall n, n <= length items ->
    (simple_exec e (OGet (first_answers n (fun _ k' => Some (cmp k k')))) m).1 = Panic PCmp.
Proof. exact (simple_sorted cmp). Qed.
Print Assumptions C80_simple_sorted_insertion.

(** Between any two calls of [next] the stack of an iterator is short. *)
Theorem C80_simple_iteration_space {K V : Type} : forall e (m : simple K V) (t : tree K V) d n,
  simple_reachable e m -> simple_shows m t ->
  exists it xs it', simple_iter_start m d = Ret it /\ simple_nexts (simple_iter_next m d) n it = (Ret xs, it') /\
    length it' <= stack_bound d (height t).
Proof. exact simple_space. Qed.
Print Assumptions C80_simple_iteration_space.

(** ** BSTSet *)

Theorem C80_set_comparisons {T : Type} : forall e call (m : bstset T) (t : stree T) o,
  set_reachable e m -> set_shows m t -> set_search_call call \/ (exists x, call = fun o => SetInsert o x) ->
  set_exec e (call (first_answers (sheight t) o)) m = set_exec e (call o) m.
Proof. exact set_cost. Qed.
Print Assumptions C80_set_comparisons.

Theorem C80_set_height {T : Type} : forall e (m : bstset T) (t : stree T),
  set_reachable e m -> set_shows m t -> (N.of_nat (sheight t) <= set_count e m)%N.
Proof. exact set_height_count. Qed.
Print Assumptions C80_set_height.

Theorem C80_set_sorted_insertion {T : Type} (cmp : T -> T -> comparison) :
  lawful cmp -> forall e s items x os rs (m : bstset T), (s = SetNew \/ exists c, s = SetWithCapacity c) ->
  set_sorted cmp (items ++ [x]) -> legal_inserts cmp os ->
  set_reached e s (set_inserts os (items ++ [x])) rs m -> returned_all rs ->
  set_shows m (set_right_spine (items ++ [x])) /\ set_count e m = N.of_nat (S (length items)) /\
  forall n, n <= length items ->
    (set_exec e (SetContains (first_answers n (fun _ y => Some (cmp x y)))) m).1 = Panic PCmp.
Proof. exact (set_sorted_insertion cmp). Qed.
Print Assumptions C80_set_sorted_insertion.

Theorem C80_set_iteration_space {T : Type} : forall e (m : bstset T) (t : stree T) d n,
  set_reachable e m -> set_shows m t ->
  exists it xs it', set_iter_start m d = Ret it /\ set_nexts (set_iter_next m d) n it = (Ret xs, it') /\
    length (it_stack it') <= stack_bound d (sheight t) /\ forall p, times p (it_reads it') <= read_bound d false.
Proof. exact set_space. Qed.
Print Assumptions C80_set_iteration_space.

(** ** SimpleBSTSet *)

Theorem C80_sset_comparisons {T : Type} : forall e call (m : sset T) (t : stree T) o,
  sset_reachable e m -> sset_shows m t -> set_search_call call \/ (exists x, call = fun o => SetInsert o x) ->
  sset_exec e (call (first_answers (sheight t) o)) m = sset_exec e (call o) m.
Proof. exact sset_cost. Qed.
Print Assumptions C80_sset_comparisons.

Theorem C80_sset_height {T : Type} : forall e (m : sset T) (t : stree T),
  sset_reachable e m -> sset_shows m t -> (N.of_nat (sheight t) <= sset_len m)%N.
Proof. exact sset_height_len. Qed.
Print Assumptions C80_sset_height.

Theorem C80_sset_sorted_insertion {T : Type} (cmp : T -> T -> comparison) :
  lawful cmp -> forall e items x os rs (m : sset T),
  set_sorted cmp (items ++ [x]) -> legal_inserts cmp os ->
  sset_reached e SetNew (set_inserts os (items ++ [x])) rs m -> returned_all rs ->
  sset_shows m (set_right_spine (items ++ [x])) /\ sset_len m = N.of_nat (S (length items)) /\
  forall n, n <= length items ->
    (sset_exec e (SetContains (first_answers n (fun _ y => Some (cmp x y)))) m).1 = Panic PCmp.
Proof. exact (sset_sorted_insertion cmp). Qed.
Print Assumptions C80_sset_sorted_insertion.

Theorem C80_sset_iteration_space {T : Type} : forall e (m : sset T) (t : stree T) d n,
  sset_reachable e m -> sset_shows m t ->
  exists it xs it', sset_iter_start m d = Ret it /\ simple_nexts (sset_iter_next m d) n it = (Ret xs, it') /\
    length it' <= stack_bound d (sheight t).
Proof. exact sset_space. Qed.
Print Assumptions C80_sset_iteration_space.

(** ** Examples *)
Local Open Scope N_scope.

Definition simple_sample_tree : tree SK N :=
  tnode (tnode tleaf (30, 0) 20 (tnode tleaf (40, 0) 55 (tnode tleaf (60, 0) 10 (tnode tleaf (65, 0) 9 tleaf))))
    (70, 0) 6 (tnode tleaf (90, 0) 7 tleaf).
Definition sset_sample_tree : stree SK :=
  snode (snode (snode sleaf (10, 0) sleaf) (30, 0) sleaf) (70, 0) (snode (snode sleaf (75, 0) sleaf) (80, 0) sleaf).
Lemma simple_exposes_at (m : simple SK N) p n l k v r : peek m p = Ret n -> n_key n = k -> n_value n = v ->
  simple_exposes m (n_left n) l -> simple_exposes m (n_right n) r -> simple_exposes m (Some p) (tnode l k v r).
Proof. intros H <- <- Hl Hr. by apply simple_exposes_some. Qed.
Lemma simple_sample_shows : simple_shows simple_sample simple_sample_tree.
Proof.
  unfold simple_shows. let r := eval vm_compute in (simple_root simple_sample) in change (simple_root simple_sample) with r.
  repeat first [apply simple_exposes_none | eapply simple_exposes_at; [vm_compute; reflexivity|reflexivity|reflexivity|cbn [n_left]|cbn [n_right]]].
Qed.
Lemma sset_sample_shows : sset_shows sset_sample sset_sample_tree.
Proof.
  unfold sset_shows. let r := eval vm_compute in (sset_root sset_sample) in change (sset_root sset_sample) with r.
  repeat first [apply sset_exposes_none | eapply sset_exposes_some; [vm_compute; reflexivity|vm_compute; reflexivity| |vm_compute; reflexivity|]].
Qed.

Definition c80_items : list (SK * N) := [((1, 0), 10); ((2, 0), 20); ((3, 0), 30)].
Definition c80_last : SK * N := ((4, 0), 40).
Definition c80_run := simple_run benv0 (inserts sos (c80_items ++ [c80_last])) simple_new.
Definition c80_values : list SK := [(1, 0); (2, 0); (3, 0)].
Definition c80_set_run := set_run senv (set_inserts sos (c80_values ++ [(4, 0)])) set_new.
Definition c80_sset_run := sset_run sset_env (set_inserts sos (c80_values ++ [(4, 0)])) sset_new.

Example C80_case :
  simple_reachable benv0 simple_sample /\ simple_shows simple_sample simple_sample_tree /\ height simple_sample_tree = 5%nat /\
  (simple_exec benv0 (OGet (first_answers 5 (so (sq 65)))) simple_sample).1 = Ret (OutValue (Some 9)) /\
  (simple_exec benv0 (OGet (first_answers 4 (so (sq 65)))) simple_sample).1 = Panic PCmp /\
  sorted scmp (c80_items ++ [c80_last]) /\
  simple_reached benv0 SNew (inserts sos (c80_items ++ [c80_last])) c80_run.1 c80_run.2 /\ returned_all c80_run.1 /\
  (exists it, simple_iter_start simple_sample Post = Ret it /\ length it = 4%nat).
Proof.
  split; [exact simple_sample_reachable|]. split; [exact simple_sample_shows|]. split; [done|].
  split; [by vm_compute|]. split; [by vm_compute|]. split; [repeat constructor|].
  split; [exists simple_new; split; [done|apply surjective_pairing]|].
  split; [vm_compute; repeat constructor; by eexists|]. eexists. split; [by vm_compute|done].
Qed.

Example C80_set_case :
  set_reachable senv set_sample /\ set_shows set_sample set_sample_tree /\ sheight set_sample_tree = 3%nat /\
  (set_exec senv (SetContains (first_answers 3 (so (sq 75)))) set_sample).1 = Ret (SetBool true) /\
  (set_exec senv (SetContains (first_answers 2 (so (sq 75)))) set_sample).1 = Panic PCmp /\
  set_sorted scmp (c80_values ++ [(4, 0)]) /\
  set_reached senv SetNew (set_inserts sos (c80_values ++ [(4, 0)])) c80_set_run.1 c80_set_run.2 /\ returned_all c80_set_run.1 /\
  (exists it, set_iter_start set_sample Post = Ret it /\ length (it_stack it) = 4%nat) /\
  sset_reachable sset_env sset_sample /\ sset_shows sset_sample sset_sample_tree /\ sheight sset_sample_tree = 3%nat /\
  (sset_exec sset_env (SetTake (first_answers 3 (so (sq 75)))) sset_sample).1 = Ret (SetValue (Some (75, 0))) /\
  (sset_exec sset_env (SetTake (first_answers 2 (so (sq 75)))) sset_sample).1 = Panic PCmp /\
  sset_reached sset_env SetNew (set_inserts sos (c80_values ++ [(4, 0)])) c80_sset_run.1 c80_sset_run.2 /\ returned_all c80_sset_run.1.
Proof.
  split; [exact set_sample_reachable|]. split; [exact set_sample_shows|]. split; [done|].
  split; [by vm_compute|]. split; [by vm_compute|]. split; [repeat constructor|].
  split; [exists set_new; split; [done|apply surjective_pairing]|].
  split; [vm_compute; repeat constructor; by eexists|]. split; [eexists; split; [by vm_compute|by vm_compute]|].
  split; [exact sset_sample_reachable|]. split; [exact sset_sample_shows|]. split; [done|].
  split; [by vm_compute|]. split; [by vm_compute|].
  split; [exists sset_new; split; [done|apply surjective_pairing]|]. vm_compute; repeat constructor; by eexists.
Qed.
