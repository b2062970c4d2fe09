(** * Properties of iterators, walks, printing: C07-C13, C47-C50

    All but the last theorem of C47 hold for every map a program can reach, with
    any comparator. *)

From Coq Require Import String.
From Verif Require Export ProofSpace Samples.
Local Open Scope nat_scope.

(** C07-C09. The iterators yield the textbook traversals of the tree that root,
    left and right show. *)
Theorem C07_preorder {K V : Type} : forall e (m : bstmap K V), reachable e m ->
  exists t : tree K V, shows m t /\ (forall t', shows m t' -> t' = t) /\ yields m Pre (tree_preorder t).
Proof. exact (fun e m => traversal_eq e m Pre). Qed.
Print Assumptions C07_preorder.

Theorem C08_inorder {K V : Type} : forall e (m : bstmap K V), reachable e m ->
  exists t : tree K V, shows m t /\ (forall t', shows m t' -> t' = t) /\ yields m In (tree_inorder t).
Proof. exact (fun e m => traversal_eq e m In). Qed.
Print Assumptions C08_inorder.

Theorem C09_postorder {K V : Type} : forall e (m : bstmap K V), reachable e m ->
  exists t : tree K V, shows m t /\ (forall t', shows m t' -> t' = t) /\ yields m Post (tree_postorder t).
Proof. exact (fun e m => traversal_eq e m Post). Qed.
Print Assumptions C09_postorder.

(** A map with seven entries, and one built with an inconsistent comparator. *)
Example C07_C08_C09_case : reachable senv sample /\ reachable senv_release mad /\
  (exists l, iter_collect sample Pre = Ret l /\ l.*2.*1.*1 = [70; 30; 40; 60; 65; 80; 90]%N) /\
  (exists l, iter_collect sample In = Ret l /\ l.*2.*1.*1 = [30; 40; 60; 65; 70; 80; 90]%N) /\
  (exists l, iter_collect sample Post = Ret l /\ l.*2.*1.*1 = [65; 60; 40; 30; 90; 80; 70]%N).
Proof.
  split; [exact sample_reachable|]. split; [exact mad_reachable|].
  split; [|split]; eexists; (split; [by vm_compute|reflexivity]).
Qed.

(** C10. The traversals list the same entries; none twice, none missing. *)
Theorem C10_each_entry_once {K V : Type} : forall e (m : bstmap K V), reachable e m ->
  exists lpre lin lpost, iter_collect m Pre = Ret lpre /\ iter_collect m In = Ret lin /\ iter_collect m Post = Ret lpost /\
    lpre ≡ₚ lin /\ lpost ≡ₚ lin /\ NoDup lin.*1 /\ map_len e m = Ret (N.of_nat (length lin)) /\
    (forall n, handle m n -> (nd_ptr n, (node_key n, node_value n)) ∈ lin).
Proof. exact traversals_agree. Qed.
Print Assumptions C10_each_entry_once.

Example C10_case : reachable senv sample /\ reachable senv_release mad /\
  exists n, handle sample n /\ node_key n = (40, 0)%N.
Proof.
  split; [exact sample_reachable|]. split; [exact mad_reachable|].
  eexists. split; [|shelve]. exists [GoLeft; GoRight]. eexists. split; [by vm_compute|by vm_compute].
  Unshelve. done.
Qed.

(** C11. The n-th call of next returns the n-th element, then None for ever. *)
Theorem C11_lazy_and_fused {K V : Type} : forall e (m : bstmap K V) d, reachable e m ->
  exists it l, iter_start m d = Ret it /\ iter_collect m d = Ret l /\
  forall n, fst (nexts (iter_next m d) n it) = Ret (first_calls n l).
Proof. exact lazy_fused. Qed.
Print Assumptions C11_lazy_and_fused.

Example C11_case : reachable senv sample /\ exists it, iter_start sample Post = Ret it /\
  exists l, fst (nexts (iter_next sample Post) 9 it) = Ret l /\ length l = 9 /\ l !! 7 = Some None /\ l !! 8 = Some None.
Proof.
  split; [exact sample_reachable|]. eexists. split; [by vm_compute|]. eexists. split; [by vm_compute|done].
Qed.

(** C12. A program that calls next on a mutable iterator and writes through the
    references it got, in any interleaving: it sees the entries of the shared
    iterator, and [mut_walk] says what the map holds in the end. *)
Theorem C12_mutable_iteration {K V : Type} : forall e (m : bstmap K V) d evs l, reachable e m -> iter_collect m d = Ret l ->
  exists st, iter_mut_program d evs m = Ret st /\
    let '(l', n, x) := mut_walk l.*2 0 0 evs in
    mu_yielded st = take n l /\ mu_ended st = x /\
    (exists lp, iter_collect (mu_map st) d = Ret lp /\ lp.*1 = l.*1 /\ lp.*2 = l') /\
    (forall t, shows m t -> exists t', shows (mu_map st) t' /\ tree_keys t' = tree_keys t) /\
    map_len e (mu_map st) = map_len e m /\ map_capacity (mu_map st) = map_capacity m /\
    reachable e (mu_map st).
Proof. exact mut_iteration. Qed.
Print Assumptions C12_mutable_iteration.

Example C12_case : reachable senv sample /\
  (mut_walk sample_entries 0 0 [EvNext; EvNext; EvWrite 0 5%N; EvWrite 3 6%N; EvNext; EvWrite 1 8%N; EvWrite 0 9%N]).1.1.*2 =
    [9; 8; 10; 9; 6; 3; 7]%N.
Proof. split; [exact sample_reachable|by vm_compute]. Qed.

(** C13. However the program goes on ([evs2]) after a first part ([evs1]): no
    entry is yielded twice, and no entry yielded in the first part is read again
    by the iterator ([it_reads] logs every access of the iterator to a node). *)
Theorem C13_no_aliasing {K V : Type} : forall e (m : bstmap K V) d evs1 evs2 it, reachable e m -> iter_start m d = Ret it ->
  exists st1 st2, mut_run d evs1 (mkMut m it [] 0) = (Ret tt, st1) /\ mut_run d evs2 st1 = (Ret tt, st2) /\
    NoDup (mu_yielded st2).*1 /\ (exists ys, mu_yielded st2 = mu_yielded st1 ++ ys) /\
    exists rs, it_reads (mu_iter st2) = it_reads (mu_iter st1) ++ rs /\ forall q, q ∈ rs -> q ∉ (mu_yielded st1).*1.
Proof. exact no_alias. Qed.
Print Assumptions C13_no_aliasing.

Example C13_case : reachable senv sample /\ exists it, iter_start sample In = Ret it /\
  exists st, mut_run In [EvNext; EvNext; EvNext; EvNext] (mkMut sample it [] 0) = (Ret tt, st) /\
    length (mu_yielded st) = 4 /\ length (it_reads (mu_iter st)) = 13.
Proof.
  split; [exact sample_reachable|]. eexists. split; [by vm_compute|].
  apply (runs_to_with (fun st => length (mu_yielded st) = 4 /\ length (it_reads (mu_iter st)) = 13)); by vm_compute.
Qed.

(** C47. Node handles are equal exactly when key and value are ... *)
Theorem C47_node_equality {K V : Type} : forall e (m1 m2 : bstmap K V) (eqK : K -> K -> bool) (eqV : V -> V -> bool) same n1 n2,
  reachable e m1 -> reachable e m2 -> (same = true -> m1 = m2) -> handle m1 n1 -> handle m2 n2 ->
  (forall a, eqK a a = true) -> (forall a, eqV a a = true) ->
  node_eq eqK eqV same n1 n2 = eqK (node_key n1) (node_key n2) && eqV (node_value n1) (node_value n2) /\
  nodemut_eq eqK eqV same m1 m2 (nd_ptr n1) (nd_ptr n2) =
    Ret (eqK (node_key n1) (node_key n2) && eqV (node_value n1) (node_value n2)).
Proof. exact node_eq_iff. Qed.
Print Assumptions C47_node_equality.

(** ... so in one map with a lawful order only a node equals itself. *)
Theorem C47_same_node {K V : Type} (cmp : K -> K -> comparison) : lawful cmp ->
  forall e (m : bstmap K V) (eqK : K -> K -> bool) (eqV : V -> V -> bool) n1 n2,
  ordered_reachable cmp e m -> (forall a b, eqK a b = true <-> cmp a b = Eq) ->
  handle m n1 -> handle m n2 -> node_eq eqK eqV true n1 n2 = true -> n1 = n2.
Proof. exact (node_eq_same cmp). Qed.
Print Assumptions C47_same_node.

(** Node equality is an equivalence when the element equalities are (here for
    nodes of arbitrary maps, compared as different maps). *)
Theorem C47_equivalence {K V : Type} : forall (eqK : K -> K -> bool) (eqV : V -> V -> bool),
  (forall a, eqK a a = true) -> (forall a, eqV a a = true) ->
  (forall a b, eqK a b = eqK b a) -> (forall a b, eqV a b = eqV b a) ->
  (forall a b c, eqK a b = true -> eqK b c = true -> eqK a c = true) ->
  (forall a b c, eqV a b = true -> eqV b c = true -> eqV a c = true) ->
  forall (n1 n2 n3 : Node K V),
  node_eq eqK eqV false n1 n1 = true /\
  (node_eq eqK eqV false n1 n2 = true -> node_eq eqK eqV false n2 n1 = true) /\
  (node_eq eqK eqV false n1 n2 = true -> node_eq eqK eqV false n2 n3 = true -> node_eq eqK eqV false n1 n3 = true).
Proof. exact node_eq_equiv. Qed.
Print Assumptions C47_equivalence.

Example C47_case : ordered_reachable scmp senv sample /\
  exists n1 n2, handle sample n1 /\ handle sample n2 /\ n1 <> n2 /\
    node_eq (fun a b => N.eqb a.1 b.1) N.eqb true n1 n2 = false.
Proof.
  split; [exact sample_ordered|]. eexists _, _. split; [|split].
  - exists [GoLeft; GoRight]. eexists. split; by vm_compute.
  - exists [GoLeft]. eexists. split; by vm_compute.
  - by vm_compute.
Qed.

(** C48. Printing shows exactly the tree. (A [NodeMut] prints dots for its
    subtrees.) *)
Theorem C48_debug_map {K V : Type} : forall e (m : bstmap K V) (t : tree K V), reachable e m -> shows m t ->
  map_debug m = Ret (DStruct "BSTMap" [("root", tree_debug t)])%string.
Proof. exact debug_map. Qed.
Print Assumptions C48_debug_map.

Theorem C48_debug_node {K V : Type} : forall e (m : bstmap K V) n (t : tree K V), reachable e m -> handle m n ->
  exposes m (Some n) t ->
  rmap DSome (node_debug m (map_fuel m) n) = Ret (tree_debug t) /\
  nodemut_debug m (nd_ptr n) = Ret (DStruct "NodeMut" [("key", DKey (node_key n)); ("value", DValue (node_value n));
                                     ("left", DStr "..."); ("right", DStr "...")])%string.
Proof. exact debug_node. Qed.
Print Assumptions C48_debug_node.

Example C48_case : reachable senv sample /\ (exists t, shows sample t) /\
  map_debug (run senv [ins 2 0 20; ins 1 0 10] map_new).2 =
    Ret (DStruct "BSTMap" [("root",
      DSome (DStruct "Node" [("key", DKey (2, 0)); ("value", DValue 20);
        ("left", DSome (DStruct "Node" [("key", DKey (1, 0)); ("value", DValue 10); ("left", DNone); ("right", DNone)]));
        ("right", DNone)]))])%string%N.
Proof. split; [exact sample_reachable|]. split; [apply (shown_exists senv), sample_reachable|by vm_compute]. Qed.

(** C49. Space and time of iteration: between any two calls of next the stack
    holds at most [height] (post-order: [2 * height]) addresses, and up to any
    point of the iteration each node was read at most 1, 2, 3 times (mutable: 1,
    3, 4 times). *)
Theorem C49_iteration_space {K V : Type} : forall e (m : bstmap K V) (t : tree K V) d b n, reachable e m -> shows m t ->
  exists it xs it', iter_start m d = Ret it /\
    nexts (if b : bool then iter_mut_next m d else iter_next m d) n it = (Ret xs, it') /\
    length (it_stack it') <= stack_bound d (height t) /\ forall p, times p (it_reads it') <= read_bound d b.
Proof. exact space_bound. Qed.
Print Assumptions C49_iteration_space.

Example C49_case : reachable senv sample /\ exists it, iter_start sample Post = Ret it /\ length (it_stack it) = 4 /\
  times (0, 4)%N (it_reads (snd (nexts (iter_next sample Post) 7 it))) = 3.
Proof. split; [exact sample_reachable|]. eexists. split; [by vm_compute|by vm_compute]. Qed.

(** C50. Walking from root_mut. *)
Theorem C50_root_mut_walks {K V : Type} : forall e (m : bstmap K V) (t : tree K V) path, reachable e m -> shows m t ->
  exists r n, map_root m = Ret r /\ walk m path r = Ret n /\ option_map show_node n = tree_show (tree_at path t) /\
  exists r', map_root_mut m = Ret r' /\ walk_mut m path r' = Ret (option_map nd_ptr n) /\
  match n with
  | None => True
  | Some n =>
    show_nodemut m (nd_ptr n) = Ret (show_node n) /\ stored m (nd_ptr n) (node_key n) (node_value n) /\
    (exists c, nodemut_left m (nd_ptr n) = Ret c /\ nodemut_has_left m (nd_ptr n) = Ret (if c then true else false)) /\
    (exists c, nodemut_right m (nd_ptr n) = Ret c /\ nodemut_has_right m (nd_ptr n) = Ret (if c then true else false)) /\
    forall w, exists m', write_value (nd_ptr n) w m = (Ret tt, m') /\ shows m' (tree_write_at path w t) /\
      (forall d lp, iter_collect m d = Ret lp -> iter_collect m' d = Ret (assign (nd_ptr n) w lp)) /\
      map_len e m' = map_len e m /\ map_capacity m' = map_capacity m
  end.
Proof. exact walk_mut_agrees. Qed.
Print Assumptions C50_root_mut_walks.

Example C50_case : reachable senv sample /\ (exists t, shows sample t) /\
  exists r p, map_root_mut sample = Ret r /\ walk_mut sample [GoLeft; GoRight] r = Ret (Some p) /\
    show_nodemut sample p = Ret ((40, 0), 55, false, true)%N.
Proof.
  split; [exact sample_reachable|]. split; [apply (shown_exists senv), sample_reachable|].
  eexists _, _. split; [by vm_compute|]. split; [by vm_compute|by vm_compute].
Qed.
