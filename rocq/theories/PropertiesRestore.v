(** * C101: updates that undo one another

    Inserting a new key and removing it again restores the collection exactly: the
    same tree, and for BSTMap the same entries at the same addresses. So does
    putting back the value that an insertion replaced. Removing an entry and
    inserting it again restores the tree if and only if the entry was a leaf. *)

From Verif Require Import SpecUpdates ProofRestore.
From Verif Require Import Samples PropertiesCalls PropertiesCost PropertiesSimple PropertiesSet PropertiesSimpleSet.

(** ** BSTMap *)

Theorem C101_map_insert_remove {K V : Type} (cmp : K -> K -> comparison) : lawful cmp ->
  forall e (m : bstmap K V) (t : tree K V) o k v m1 o' f r m2,
  reachable e m -> shows m t -> answers o (cmp k) -> exec e (OInsert o k v) m = (Ret (OutValue None), m1) ->
  is_query cmp f -> f k = Eq -> surely o' f -> exec e (ORemoveEntry o') m1 = (r, m2) ->
  r = Ret (OutEntry (Some (k, v))) /\ shows m2 t /\ forall d, iter_collect m2 d = iter_collect m d.
Proof. intros _. exact (map_insert_remove cmp). Qed.
Print Assumptions C101_map_insert_remove.

Theorem C101_map_put_back {K V : Type} (cmp : K -> K -> comparison) : lawful cmp ->
  forall e (m : bstmap K V) (t : tree K V) o k v v0 m1 o' k' x m2,
  reachable e m -> shows m t -> answers o (cmp k) -> exec e (OInsert o k v) m = (Ret (OutValue (Some v0)), m1) ->
  cmp k' k = Eq -> answers o' (cmp k') -> exec e (OInsert o' k' v0) m1 = (Ret x, m2) ->
  x = OutValue (Some v) /\ shows m2 t /\ forall d, iter_collect m2 d = iter_collect m d.
Proof. exact (map_put_back cmp). Qed.
Print Assumptions C101_map_put_back.

Theorem C101_map_remove_insert {K V : Type} (cmp : K -> K -> comparison) : lawful cmp ->
  forall e (m : bstmap K V) (t : tree K V) o f k v m1 o' x m2,
  reachable e m -> shows m t -> sorted cmp (tree_inorder t) -> is_query cmp f -> surely o f ->
  exec e (ORemoveEntry o) m = (Ret (OutEntry (Some (k, v))), m1) ->
  answers o' (cmp k) -> exec e (OInsert o' k v) m1 = (Ret x, m2) ->
  x = OutValue None /\ (shows m2 t <-> exists path, tree_at path t = tnode tleaf k v tleaf).
Proof. exact (map_remove_insert cmp). Qed.
Print Assumptions C101_map_remove_insert.

(** ** SimpleBSTMap *)

Theorem C101_simple_insert_remove {K V : Type} (cmp : K -> K -> comparison) : lawful cmp ->
  forall e (m : simple K V) (t : tree K V) o k v m1 o' f r m2,
  simple_reachable e m -> simple_shows m t -> answers o (cmp k) ->
  simple_exec e (OInsert o k v) m = (Ret (OutValue None), m1) ->
  is_query cmp f -> f k = Eq -> surely o' f -> simple_exec e (ORemoveEntry o') m1 = (r, m2) -> r <> Abort ->
  r = Ret (OutEntry (Some (k, v))) /\ simple_shows m2 t.
Proof. exact (simple_insert_remove cmp). Qed.
Print Assumptions C101_simple_insert_remove.

Theorem C101_simple_put_back {K V : Type} (cmp : K -> K -> comparison) : lawful cmp ->
  forall e (m : simple K V) (t : tree K V) o k v v0 m1 o' k' x m2,
  simple_reachable e m -> simple_shows m t -> answers o (cmp k) ->
  simple_exec e (OInsert o k v) m = (Ret (OutValue (Some v0)), m1) ->
  cmp k' k = Eq -> answers o' (cmp k') -> simple_exec e (OInsert o' k' v0) m1 = (Ret x, m2) ->
  x = OutValue (Some v) /\ simple_shows m2 t.
Proof. exact (simple_put_back cmp). Qed.
Print Assumptions C101_simple_put_back.

Theorem C101_simple_remove_insert {K V : Type} (cmp : K -> K -> comparison) : lawful cmp ->
  forall e (m : simple K V) (t : tree K V) o f k v m1 o' x m2,
  simple_reachable e m -> simple_shows m t -> sorted cmp (tree_inorder t) -> is_query cmp f -> surely o f ->
  simple_exec e (ORemoveEntry o) m = (Ret (OutEntry (Some (k, v))), m1) ->
  answers o' (cmp k) -> simple_exec e (OInsert o' k v) m1 = (Ret x, m2) ->
  x = OutValue None /\ (simple_shows m2 t <-> exists path, tree_at path t = tnode tleaf k v tleaf).
Proof. exact (simple_remove_insert cmp). Qed.
Print Assumptions C101_simple_remove_insert.

(** ** BSTSet *)

Theorem C101_set_insert_take {T : Type} (cmp : T -> T -> comparison) : lawful cmp ->
  forall e (m : bstset T) (t : stree T) o x m1 o' f r m2,
  set_reachable e m -> set_shows m t -> answers o (cmp x) -> set_exec e (SetInsert o x) m = (Ret (SetBool true), m1) ->
  is_query cmp f -> f x = Eq -> surely o' f -> set_exec e (SetTake o') m1 = (r, m2) ->
  r = Ret (SetValue (Some x)) /\ set_shows m2 t.
Proof. exact (set_insert_remove cmp). Qed.
Print Assumptions C101_set_insert_take.

Theorem C101_set_take_insert {T : Type} (cmp : T -> T -> comparison) : lawful cmp ->
  forall e (m : bstset T) (t : stree T) o f x m1 o' b m2,
  set_reachable e m -> set_shows m t -> set_sorted cmp (stree_order In t) -> is_query cmp f -> surely o f ->
  set_exec e (SetTake o) m = (Ret (SetValue (Some x)), m1) ->
  answers o' (cmp x) -> set_exec e (SetInsert o' x) m1 = (Ret b, m2) ->
  b = SetBool true /\ (set_shows m2 t <-> exists path, stree_at path t = snode sleaf x sleaf).
Proof. exact (set_remove_insert cmp). Qed.
Print Assumptions C101_set_take_insert.

(** ** SimpleBSTSet *)

Theorem C101_sset_insert_take {T : Type} (cmp : T -> T -> comparison) : lawful cmp ->
  forall e (m : sset T) (t : stree T) o x m1 o' f r m2,
  sset_reachable e m -> sset_shows m t -> answers o (cmp x) -> sset_exec e (SetInsert o x) m = (Ret (SetBool true), m1) ->
  is_query cmp f -> f x = Eq -> surely o' f -> sset_exec e (SetTake o') m1 = (r, m2) -> r <> Abort ->
  r = Ret (SetValue (Some x)) /\ sset_shows m2 t.
Proof. exact (sset_insert_remove cmp). Qed.
Print Assumptions C101_sset_insert_take.

Theorem C101_sset_take_insert {T : Type} (cmp : T -> T -> comparison) : lawful cmp ->
  forall e (m : sset T) (t : stree T) o f x m1 o' b m2,
  sset_reachable e m -> sset_shows m t -> set_sorted cmp (stree_order In t) -> is_query cmp f -> surely o f ->
  sset_exec e (SetTake o) m = (Ret (SetValue (Some x)), m1) ->
  answers o' (cmp x) -> sset_exec e (SetInsert o' x) m1 = (Ret b, m2) ->
  b = SetBool true /\ (sset_shows m2 t <-> exists path, stree_at path t = snode sleaf x sleaf).
Proof. exact (sset_remove_insert cmp). Qed.
Print Assumptions C101_sset_take_insert.

(** ** Examples *)
Local Open Scope N_scope.

(** In the sample map, 75 is new, 70 is the root and 65 a leaf. *)
Definition c101_new := exec senv (ins 75 0 1) sample.
Definition c101_back := exec senv (ORemoveEntry (so (sq 75))) c101_new.2.
Definition c101_replace := exec senv (ins 70 9 111) sample.
Definition c101_undo := exec senv (ins 70 8 6) c101_replace.2.
Definition c101_take (n : N) := exec senv (ORemoveEntry (so (sq n))) sample.
Definition c101_again (n v : N) := exec senv (ins n 0 v) (c101_take n).2.
Definition c101_moved : tree SK N :=
  tnode (tnode tleaf (30, 0) 20 (tnode tleaf (40, 0) 55 (tnode tleaf (60, 0) 10 (tnode tleaf (65, 0) 9 (tnode tleaf (70, 0) 6 tleaf)))))
    (80, 0) 3 (tnode tleaf (90, 0) 7 tleaf).

Example C101_case :
  reachable senv sample /\ shows sample sample_tree /\ sorted scmp (tree_inorder sample_tree) /\
  (c101_new.1 = Ret (OutValue None) /\ c101_back.1 = Ret (OutEntry (Some ((75, 0), 1))) /\
   (forall d, iter_collect c101_back.2 d = iter_collect sample d) /\ map_len senv c101_new.2 = Ret 8) /\
  (c101_replace.1 = Ret (OutValue (Some 6)) /\ c101_undo.1 = Ret (OutValue (Some 111)) /\
   forall d, iter_collect c101_undo.2 d = iter_collect sample d) /\
  ((c101_take 65).1 = Ret (OutEntry (Some ((65, 0), 9))) /\ (c101_again 65 9).1 = Ret (OutValue None) /\
   shows (c101_again 65 9).2 sample_tree /\
   tree_at [GoLeft; GoRight; GoRight; GoRight] sample_tree = tnode tleaf (65, 0) 9 tleaf) /\
  ((c101_take 70).1 = Ret (OutEntry (Some ((70, 0), 6))) /\ (c101_again 70 6).1 = Ret (OutValue None) /\
   shows (c101_again 70 6).2 c101_moved) /\
  simple_reachable benv0 simple_sample /\ simple_shows simple_sample simple_sample_tree /\
  sorted scmp (tree_inorder simple_sample_tree) /\
  set_reachable senv set_sample /\ set_shows set_sample set_sample_tree /\ set_sorted scmp (stree_order In set_sample_tree) /\
  sset_reachable sset_env sset_sample /\ sset_shows sset_sample sset_sample_tree /\
  set_sorted scmp (stree_order In sset_sample_tree).
Proof.
  split; [exact sample_reachable|]. split; [exact sample_shows|]. split; [repeat constructor|].
  split. { split; [by vm_compute|]. split; [by vm_compute|]. split; [|by vm_compute]. intros []; by vm_compute. }
  split. { split; [by vm_compute|]. split; [by vm_compute|]. intros []; by vm_compute. }
  split. { split; [by vm_compute|]. split; [by vm_compute|]. split; [|done]. eexists. split; [vm_compute; reflexivity|].
    repeat first [apply exposes_none | eapply exposes_some; [vm_compute; reflexivity| |vm_compute; reflexivity|]]. }
  split. { split; [by vm_compute|]. split; [by vm_compute|]. eexists. split; [vm_compute; reflexivity|].
    repeat first [apply exposes_none | eapply exposes_some; [vm_compute; reflexivity| |vm_compute; reflexivity|]]. }
  split; [exact simple_sample_reachable|]. split; [exact simple_sample_shows|]. split; [repeat constructor|].
  split; [exact set_sample_reachable|]. split; [exact set_sample_shows|]. split; [repeat constructor|].
  split; [exact sset_sample_reachable|]. split; [exact sset_sample_shows|]. repeat constructor.
Qed.

(** The other collections: insert a new key and remove it; insert over a value and put
    it back (maps); remove the root and insert it (sets). *)
Definition c101_sins (n : N) : set_op SK := SetInsert (so (scmp (n, 0))) (n, 0).
Definition c101_simple := simple_run benv0 [ins 75 0 1; ORemoveEntry (so (sq 75)); ins 75 0 1; ins 75 1 2; ins 75 0 1] simple_sample.
Definition c101_set := set_run senv [c101_sins 77; SetTake (so (sq 77)); SetTake (so (sq 70)); c101_sins 70] set_sample.
Definition c101_sset := sset_run sset_env [c101_sins 77; SetTake (so (sq 77)); SetTake (so (sq 70)); c101_sins 70] sset_sample.
Example C101_others_case :
  c101_simple.1 = [Ret (OutValue None); Ret (OutEntry (Some ((75, 0), 1))); Ret (OutValue None);
                   Ret (OutValue (Some 1)); Ret (OutValue (Some 2))] /\
  c101_set.1 = [Ret (SetBool true); Ret (SetValue (Some (77, 0))); Ret (SetValue (Some (70, 0))); Ret (SetBool true)] /\
  c101_sset.1 = [Ret (SetBool true); Ret (SetValue (Some (77, 0))); Ret (SetValue (Some (70, 0))); Ret (SetBool true)].
Proof. split; [by vm_compute|]. split; by vm_compute. Qed.
