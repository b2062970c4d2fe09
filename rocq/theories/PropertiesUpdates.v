(** * C95: what updates do to the cost of lookups

    The cost of a lookup is the number of its comparisons. Additions leave it
    alone for the keys that are there and raise it by at most one per new entry
    for the others; removals never raise it for a key that stays; no other call
    changes it. *)

From Verif Require Import SpecUpdates ProofUpdates.
From Verif Require Import Samples PropertiesCalls PropertiesCost PropertiesSimple PropertiesSet PropertiesSimpleSet.

(** ** BSTMap *)

Theorem C95_map_additions {K V : Type} : forall e c n (m : bstmap K V) (t : tree K V) r m' (t' : tree K V),
  reachable e m -> shows m t -> adding c = Some n -> exec e c m = (r, m') -> r <> Abort -> shows m' t' ->
  (forall f i, answered e m' f i -> answered e m f i) /\
  (forall f i, answered e m f i -> answered e m' f (n + i)) /\
  (forall f, has_key e m f -> has_key e m' f /\ forall i, answered e m f i <-> answered e m' f i) /\
  height t <= height t' <= n + height t.
Proof. exact update_adds. Qed.
Print Assumptions C95_map_additions.

Theorem C95_map_removals {K V : Type} (cmp : K -> K -> comparison) : lawful cmp ->
  forall e c (m : bstmap K V) (t : tree K V) r m' (t' : tree K V),
  reachable e m -> shows m t -> sorted cmp (tree_inorder t) -> removing c = true -> exec e c m = (r, m') -> shows m' t' ->
  r <> Abort /\ (forall f i, is_query cmp f -> has_key e m' f -> answered e m f i -> answered e m' f i) /\
  height t' <= height t.
Proof. exact (update_removes cmp). Qed.
Print Assumptions C95_map_removals.

Theorem C95_map_others {K V : Type} : forall e c (m : bstmap K V) (t : tree K V) r m' (t' : tree K V),
  reachable e m -> shows m t -> keeps_keys c = true -> exec e c m = (r, m') -> r <> Abort -> shows m' t' ->
  (forall f i, answered e m' f i <-> answered e m f i) /\ height t' = height t.
Proof. exact update_keeps. Qed.
Print Assumptions C95_map_others.

(** ** SimpleBSTMap *)

Theorem C95_simple_additions {K V : Type} : forall e c n (m : simple K V) (t : tree K V) r m' (t' : tree K V),
  simple_reachable e m -> simple_shows m t -> adding c = Some n ->
  simple_exec e c m = (r, m') -> r <> Abort -> simple_shows m' t' ->
  (forall f i, simple_answered e m' f i -> simple_answered e m f i) /\
  (forall f i, simple_answered e m f i -> simple_answered e m' f (n + i)) /\
  (forall f, simple_has_key e m f -> simple_has_key e m' f /\ forall i, simple_answered e m f i <-> simple_answered e m' f i) /\
  height t <= height t' <= n + height t.
Proof. exact simple_update_adds. Qed.
Print Assumptions C95_simple_additions.

Theorem C95_simple_removals {K V : Type} (cmp : K -> K -> comparison) : lawful cmp ->
  forall e c (m : simple K V) (t : tree K V) r m' (t' : tree K V),
  simple_reachable e m -> simple_shows m t -> sorted cmp (tree_inorder t) -> removing c = true ->
  simple_exec e c m = (r, m') -> r <> Abort -> simple_shows m' t' ->
  (forall f i, is_query cmp f -> simple_has_key e m' f -> simple_answered e m f i -> simple_answered e m' f i) /\
  height t' <= height t.
Proof. exact (simple_update_removes cmp). Qed.
Print Assumptions C95_simple_removals.

Theorem C95_simple_others {K V : Type} : forall e c (m : simple K V) (t : tree K V) r m' (t' : tree K V),
  simple_reachable e m -> simple_shows m t -> simple_has c = true -> keeps_keys c = true ->
  simple_exec e c m = (r, m') -> simple_shows m' t' ->
  (forall f i, simple_answered e m' f i <-> simple_answered e m f i) /\ height t' = height t.
Proof. exact simple_update_keeps. Qed.
Print Assumptions C95_simple_others.

(** ** BSTSet *)

Theorem C95_set_additions {T : Type} : forall e c n (m : bstset T) (t : stree T) r m' (t' : stree T),
  set_reachable e m -> set_shows m t -> set_adding c = Some n ->
  set_exec e c m = (r, m') -> r <> Abort -> set_shows m' t' ->
  (forall f i, set_answered e m' f i -> set_answered e m f i) /\
  (forall f i, set_answered e m f i -> set_answered e m' f (n + i)) /\
  (forall f, set_contains_it e m f -> set_contains_it e m' f /\ forall i, set_answered e m f i <-> set_answered e m' f i) /\
  sheight t <= sheight t' <= n + sheight t.
Proof. exact set_update_adds. Qed.
Print Assumptions C95_set_additions.

Theorem C95_set_removals {T : Type} (cmp : T -> T -> comparison) : lawful cmp ->
  forall e c (m : bstset T) (t : stree T) r m' (t' : stree T),
  set_reachable e m -> set_shows m t -> set_sorted cmp (stree_order In t) -> set_removing c = true ->
  set_exec e c m = (r, m') -> set_shows m' t' ->
  r <> Abort /\ (forall f i, is_query cmp f -> set_contains_it e m' f -> set_answered e m f i -> set_answered e m' f i) /\
  sheight t' <= sheight t.
Proof. exact (set_update_removes cmp). Qed.
Print Assumptions C95_set_removals.

Theorem C95_set_others {T : Type} : forall e c (m : bstset T) (t : stree T) r m' (t' : stree T),
  set_reachable e m -> set_shows m t -> set_keeps c = true -> set_exec e c m = (r, m') -> r <> Abort ->
  set_shows m' t' -> (forall f i, set_answered e m' f i <-> set_answered e m f i) /\ sheight t' = sheight t.
Proof. exact set_update_keeps. Qed.
Print Assumptions C95_set_others.

(** ** SimpleBSTSet *)

Theorem C95_sset_additions {T : Type} : forall e c n (m : sset T) (t : stree T) r m' (t' : stree T),
  sset_reachable e m -> sset_shows m t -> set_adding c = Some n ->
  sset_exec e c m = (r, m') -> r <> Abort -> sset_shows m' t' ->
  (forall f i, sset_answered e m' f i -> sset_answered e m f i) /\
  (forall f i, sset_answered e m f i -> sset_answered e m' f (n + i)) /\
  (forall f, sset_contains_it e m f -> sset_contains_it e m' f /\ forall i, sset_answered e m f i <-> sset_answered e m' f i) /\
  sheight t <= sheight t' <= n + sheight t.
Proof. exact sset_update_adds. Qed.
Print Assumptions C95_sset_additions.

Theorem C95_sset_removals {T : Type} (cmp : T -> T -> comparison) : lawful cmp ->
  forall e c (m : sset T) (t : stree T) r m' (t' : stree T),
  sset_reachable e m -> sset_shows m t -> set_sorted cmp (stree_order In t) -> set_removing c = true ->
  sset_exec e c m = (r, m') -> r <> Abort -> sset_shows m' t' ->
  (forall f i, is_query cmp f -> sset_contains_it e m' f -> sset_answered e m f i -> sset_answered e m' f i) /\
  sheight t' <= sheight t.
Proof. exact (sset_update_removes cmp). Qed.
Print Assumptions C95_sset_removals.

Theorem C95_sset_others {T : Type} : forall e c (m : sset T) (t : stree T) r m' (t' : stree T),
  sset_reachable e m -> sset_shows m t -> sset_has c = true -> set_keeps c = true ->
  sset_exec e c m = (r, m') -> sset_shows m' t' ->
  (forall f i, sset_answered e m' f i <-> sset_answered e m f i) /\ sheight t' = sheight t.
Proof. exact sset_update_keeps. Qed.
Print Assumptions C95_sset_others.

(** ** Keys that are not there

    For them a removal can raise the cost: the successor of the removed key moves
    up, and a key between the two is then searched for on the other side. *)
Local Open Scope N_scope.

Definition c95_ops : list (op SK N) := [ins 50 0 1; ins 10 0 2; ins 20 0 3; ins 30 0 4; ins 60 0 5].
Definition c95_run := run senv c95_ops map_new.
Definition c95 : bstmap SK N := c95_run.2.
Lemma c95_reachable : reachable senv c95.
Proof.
  exists SNew, c95_ops, c95_run.1. split.
  - exists map_new. split; [done|]. apply surjective_pairing.
  - vm_compute. repeat constructor; discriminate.
Qed.
Definition c95_tree : tree SK N :=
  tnode (tnode tleaf (10, 0) 2 (tnode tleaf (20, 0) 3 (tnode tleaf (30, 0) 4 tleaf))) (50, 0) 1 (tnode tleaf (60, 0) 5 tleaf).
Lemma c95_shows : shows c95 c95_tree.
Proof.
  eexists. split; [vm_compute; reflexivity|].
  repeat first [apply exposes_none | eapply exposes_some; [vm_compute; reflexivity| |vm_compute; reflexivity|]].
Qed.

Theorem C95_absent_keys_refuted : exists (m : bstmap SK N) (t : tree SK N) c r m' f i,
  reachable senv m /\ shows m t /\ sorted scmp (tree_inorder t) /\ removing c = true /\ exec senv c m = (r, m') /\
  r <> Abort /\ is_query scmp f /\ answered senv m f i /\ ~ answered senv m' f i /\ ~ answered senv m' f (S i) /\
  answered senv m' f (2 + i).
Proof.
  exists c95, c95_tree, (ORemove (so (sq 50))), (exec senv (ORemove (so (sq 50))) c95).1,
    (exec senv (ORemove (so (sq 50))) c95).2, (sq 55), 2%nat.
  split; [exact c95_reachable|]. split; [exact c95_shows|].
  split; [repeat constructor|]. split; [done|]. split; [apply surjective_pairing|]. split; [by vm_compute|].
  split; [apply sq_query|]. unfold answered. split; [by vm_compute|].
  split; [intros H; apply H; by vm_compute|]. split; [intros H; apply H; by vm_compute|]. by vm_compute.
Qed.
Print Assumptions C95_absent_keys_refuted.

(** ** Examples *)

(** Adding 75 below 80: the search for 65 costs five comparisons as before, the
    one for 77 now three. Removing the root 70: 90 is found with two comparisons
    instead of three. *)
Definition c95_add := exec senv (ins 75 0 1) sample.
Definition c95_remove := exec senv (ORemoveEntry (so (sq 70))) sample.
Definition c95_added : tree SK N :=
  tnode (tnode tleaf (30, 0) 20 (tnode tleaf (40, 0) 55 (tnode tleaf (60, 0) 10 (tnode tleaf (65, 0) 9 tleaf))))
    (70, 0) 6 (tnode (tnode tleaf (75, 0) 1 tleaf) (80, 0) 3 (tnode tleaf (90, 0) 7 tleaf)).
Definition c95_removed : tree SK N :=
  tnode (tnode tleaf (30, 0) 20 (tnode tleaf (40, 0) 55 (tnode tleaf (60, 0) 10 (tnode tleaf (65, 0) 9 tleaf))))
    (80, 0) 3 (tnode tleaf (90, 0) 7 tleaf).

Example C95_case :
  reachable senv sample /\ shows sample sample_tree /\ sorted scmp (tree_inorder sample_tree) /\
  shows c95_add.2 c95_added /\ shows c95_remove.2 c95_removed /\
  c95_add.1 = Ret (OutValue None) /\ c95_remove.1 = Ret (OutEntry (Some ((70, 0), 6))) /\
  (has_key senv sample (sq 65) /\ answered senv sample (sq 65) 5 /\ ~ answered senv sample (sq 65) 4 /\
   answered senv c95_add.2 (sq 65) 5 /\ ~ answered senv c95_add.2 (sq 65) 4) /\
  (answered senv sample (sq 77) 2 /\ ~ answered senv c95_add.2 (sq 77) 2 /\ answered senv c95_add.2 (sq 77) 3) /\
  (has_key senv c95_remove.2 (sq 90) /\ ~ answered senv sample (sq 90) 2 /\ answered senv sample (sq 90) 3 /\
   answered senv c95_remove.2 (sq 90) 2) /\
  simple_reachable benv0 simple_sample /\ simple_shows simple_sample simple_sample_tree /\
  sorted scmp (tree_inorder simple_sample_tree) /\
  set_reachable senv set_sample /\ set_shows set_sample set_sample_tree /\ set_sorted scmp (stree_order In set_sample_tree) /\
  sset_reachable sset_env sset_sample /\ sset_shows sset_sample sset_sample_tree /\
  set_sorted scmp (stree_order In sset_sample_tree).
Proof.
  split; [exact sample_reachable|]. split; [exact sample_shows|]. split; [repeat constructor|].
  split. { eexists. split; [vm_compute; reflexivity|].
    repeat first [apply exposes_none | eapply exposes_some; [vm_compute; reflexivity| |vm_compute; reflexivity|]]. }
  split. { eexists. split; [vm_compute; reflexivity|].
    repeat first [apply exposes_none | eapply exposes_some; [vm_compute; reflexivity| |vm_compute; reflexivity|]]. }
  split; [by vm_compute|]. split; [by vm_compute|]. unfold has_key, answered.
  split. { split; [eexists; by vm_compute|]. split; [by vm_compute|]. split; [intros H; apply H; by vm_compute|].
    split; [by vm_compute|]. intros H; apply H; by vm_compute. }
  split. { split; [by vm_compute|]. split; [intros H; apply H; by vm_compute|]. by vm_compute. }
  split. { split; [eexists; by vm_compute|]. split; [intros H; apply H; by vm_compute|]. split; by vm_compute. }
  split; [exact simple_sample_reachable|]. split; [exact simple_sample_shows|]. split; [repeat constructor|].
  split; [exact set_sample_reachable|]. split; [exact set_sample_shows|]. split; [repeat constructor|].
  split; [exact sset_sample_reachable|]. split; [exact sset_sample_shows|]. repeat constructor.
Qed.
