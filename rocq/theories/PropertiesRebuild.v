(** * C102: the tree is the search tree in which ancestors were inserted first

    Collecting items with distinct keys gives the one search tree in which every
    entry comes after its ancestors in the sequence of items. So collecting the
    pre-order of a map, or its reversed post-order, copies the map exactly; its
    sorted order gives a chain. *)

From Verif Require Import SpecRebuild ProofRebuild.
From Verif Require Import Samples PropertiesCalls PropertiesCost PropertiesSimple PropertiesSet PropertiesSimpleSet.

Theorem C102_map_collect {K V : Type} (cmp : K -> K -> comparison) : lawful cmp ->
  forall e os it (m : bstmap K V) (t : tree K V), legal_inserts cmp os -> distinct cmp (ui_items it).*1 ->
  map_from_iter e os it = (Ret tt, m) ->
  shows m t <-> sorted cmp (tree_inorder t) /\ ancestors_first t (ui_items it).
Proof. exact (map_collect cmp). Qed.
Print Assumptions C102_map_collect.

Theorem C102_map_inserts {K V : Type} (cmp : K -> K -> comparison) : lawful cmp ->
  forall e os items rs (m : bstmap K V) (t : tree K V), legal_inserts cmp os -> distinct cmp items.*1 ->
  run e (inserts os items) map_new = (rs, m) -> returned_all rs ->
  shows m t <-> sorted cmp (tree_inorder t) /\ ancestors_first t items.
Proof. exact (map_inserts cmp). Qed.
Print Assumptions C102_map_inserts.

Theorem C102_map_copy {K V : Type} (cmp : K -> K -> comparison) : lawful cmp ->
  forall e e' os it (m m1 : bstmap K V) (t : tree K V) c,
  reachable e m -> shows m t -> sorted cmp (tree_inorder t) -> legal_inserts cmp os ->
  copy_items m c (ui_items it) -> map_from_iter e' os it = (Ret tt, m1) -> shows m1 t.
Proof. exact (map_copy cmp). Qed.
Print Assumptions C102_map_copy.

Theorem C102_map_copy_sorted {K V : Type} (cmp : K -> K -> comparison) : lawful cmp ->
  forall e e' os it (m m1 : bstmap K V) (t : tree K V),
  reachable e m -> shows m t -> sorted cmp (tree_inorder t) -> legal_inserts cmp os ->
  yields m In (ui_items it) -> map_from_iter e' os it = (Ret tt, m1) -> shows m1 (right_spine (ui_items it)).
Proof. exact (map_copy_sorted cmp). Qed.
Print Assumptions C102_map_copy_sorted.

Theorem C102_simple_collect {K V : Type} (cmp : K -> K -> comparison) : lawful cmp ->
  forall e os it (m : simple K V) (t : tree K V), legal_inserts cmp os -> distinct cmp (ui_items it).*1 ->
  simple_from_iter e os it = (Ret tt, m) ->
  simple_shows m t <-> sorted cmp (tree_inorder t) /\ ancestors_first t (ui_items it).
Proof. exact (simple_collect cmp). Qed.
Print Assumptions C102_simple_collect.

Theorem C102_set_collect {T : Type} (cmp : T -> T -> comparison) : lawful cmp ->
  forall e os it (m : bstset T) (t : stree T), legal_inserts cmp os -> distinct cmp (ui_items it) ->
  set_from_iter e os it = (Ret tt, m) ->
  set_shows m t <-> set_sorted cmp (stree_order In t) /\ set_ancestors_first t (ui_items it).
Proof. exact (set_collect cmp). Qed.
Print Assumptions C102_set_collect.

Theorem C102_sset_collect {T : Type} (cmp : T -> T -> comparison) : lawful cmp ->
  forall e os it (m : sset T) (t : stree T), legal_inserts cmp os -> distinct cmp (ui_items it) ->
  sset_from_iter e os it = (Ret tt, m) ->
  sset_shows m t <-> set_sorted cmp (stree_order In t) /\ set_ancestors_first t (ui_items it).
Proof. exact (sset_collect cmp). Qed.
Print Assumptions C102_sset_collect.

(** ** Other orders do not copy the map *)
Local Open Scope N_scope.

Definition c102_pre : list (SK * N) :=
  [((70, 0), 6); ((30, 0), 20); ((40, 0), 55); ((60, 0), 10); ((65, 0), 9); ((80, 0), 3); ((90, 0), 7)].
Definition c102_post : list (SK * N) :=
  [((65, 0), 9); ((60, 0), 10); ((40, 0), 55); ((30, 0), 20); ((90, 0), 7); ((80, 0), 3); ((70, 0), 6)].
(** Another order in which ancestors come first. *)
Definition c102_mixed : list (SK * N) :=
  [((70, 0), 6); ((80, 0), 3); ((30, 0), 20); ((40, 0), 55); ((90, 0), 7); ((60, 0), 10); ((65, 0), 9)].
Definition c102_it (l : list (SK * N)) : user_iter (SK * N) := mkUserIter 0 None l false.
Definition c102_map (l : list (SK * N)) : bstmap SK N := (map_from_iter senv sos (c102_it l)).2.

Definition c102_post_tree : tree SK N :=
  tnode (tnode (tnode (tnode tleaf (30, 0) 20 tleaf) (40, 0) 55 tleaf) (60, 0) 10 tleaf) (65, 0) 9
    (tnode (tnode (tnode tleaf (70, 0) 6 tleaf) (80, 0) 3 tleaf) (90, 0) 7 tleaf).

Theorem C102_postorder_refuted : exists (m : bstmap SK N) (t : tree SK N) it m1 t1,
  reachable senv m /\ shows m t /\ sorted scmp (tree_inorder t) /\ legal_inserts scmp sos /\
  yields m Post (ui_items it) /\ map_from_iter senv sos it = (Ret tt, m1) /\ shows m1 t1 /\ t1 <> t.
Proof.
  exists sample, sample_tree, (c102_it c102_post), (c102_map c102_post), c102_post_tree.
  split; [exact sample_reachable|]. split; [exact sample_shows|]. split; [repeat constructor|]. split; [exact sos_legal|].
  split; [eexists; split; [vm_compute; reflexivity|]; by vm_compute|].
  split. { assert ((map_from_iter senv sos (c102_it c102_post)).1 = Ret tt) as <- by (by vm_compute). apply surjective_pairing. }
  split; [|discriminate].
  eexists. split; [vm_compute; reflexivity|].
  repeat first [apply exposes_none | eapply exposes_some; [vm_compute; reflexivity| |vm_compute; reflexivity|]].
Qed.
Print Assumptions C102_postorder_refuted.

(** ** Examples *)

Lemma c102_distinct (l : list N) : NoDup l -> distinct scmp ((fun n => (n, 0)) <$> l).
Proof.
  intros Hnd i j a b Ha Hb He. rewrite list_lookup_fmap in Ha, Hb.
  destruct (l !! i) as [x|] eqn:Hx; [|done]. destruct (l !! j) as [y|] eqn:Hy; [|done].
  injection Ha as <-. injection Hb as <-. unfold scmp in He. cbn in He. apply N.compare_eq in He as ->.
  by eapply NoDup_lookup.
Qed.

Lemma c102_ran l : map_from_iter senv sos (c102_it l) = ((map_from_iter senv sos (c102_it l)).1, c102_map l).
Proof. apply surjective_pairing. Qed.

(** Collecting either order gives the sample's tree; the sorted order a chain. *)
Example C102_case :
  reachable senv sample /\ shows sample sample_tree /\ sorted scmp (tree_inorder sample_tree) /\ legal_inserts scmp sos /\
  copy_items sample CopyPre c102_pre /\ copy_items sample CopyPostReversed (rev c102_post) /\
  distinct scmp c102_mixed.*1 /\ ancestors_first sample_tree c102_mixed /\
  (map_from_iter senv sos (c102_it c102_pre)).1 = Ret tt /\
  (map_from_iter senv sos (c102_it (rev c102_post))).1 = Ret tt /\
  (map_from_iter senv sos (c102_it c102_mixed)).1 = Ret tt /\
  shows (c102_map c102_mixed) sample_tree /\
  (map_from_iter senv sos (c102_it sample_entries)).1 = Ret tt /\ yields sample In sample_entries /\
  shows (c102_map sample_entries) (right_spine sample_entries) /\ height (right_spine sample_entries) = 7%nat /\
  (simple_from_iter benv0 sos (c102_it c102_mixed)).1 = Ret tt /\
  (set_from_iter senv sos (mkUserIter 0 None c102_mixed.*1 false)).1 = Ret tt /\
  (sset_from_iter sset_env sos (mkUserIter 0 None c102_mixed.*1 false)).1 = Ret tt.
Proof.
  assert (Hd : distinct scmp c102_mixed.*1).
  { apply (c102_distinct [70; 80; 30; 40; 90; 60; 65]). apply (bool_decide_unpack _). by vm_compute. }
  assert (Ha : ancestors_first sample_tree c102_mixed).
  { apply (proj2 (proj1 (insert_all_iff scmp scmp_lawful c102_mixed sample_tree Hd) ltac:(by vm_compute))). }
  assert (Hs : sorted scmp (tree_inorder sample_tree)) by repeat constructor.
  split; [exact sample_reachable|]. split; [exact sample_shows|]. split; [exact Hs|]. split; [exact sos_legal|].
  split; [eexists; split; [vm_compute; reflexivity|]; by vm_compute|].
  split; [eexists; split; [vm_compute; reflexivity|]; by vm_compute|].
  split; [exact Hd|]. split; [exact Ha|].
  split; [by vm_compute|]. split; [by vm_compute|].
  assert (Hm : (map_from_iter senv sos (c102_it c102_mixed)).1 = Ret tt) by (by vm_compute).
  split; [exact Hm|].
  split. { pose proof (c102_ran c102_mixed) as Hr. rewrite Hm in Hr.
    apply (proj2 (C102_map_collect scmp scmp_lawful senv sos (c102_it c102_mixed) (c102_map c102_mixed) sample_tree sos_legal Hd Hr)). exact (conj Hs Ha). }
  assert (Hm2 : (map_from_iter senv sos (c102_it sample_entries)).1 = Ret tt) by (by vm_compute).
  split; [exact Hm2|].
  assert (Hy : yields sample In sample_entries) by (eexists; split; [vm_compute; reflexivity|]; by vm_compute).
  split; [exact Hy|].
  split. { pose proof (c102_ran sample_entries) as Hr. rewrite Hm2 in Hr.
    apply (C102_map_copy_sorted scmp scmp_lawful senv senv sos (c102_it sample_entries) sample (c102_map sample_entries) sample_tree
             sample_reachable sample_shows Hs sos_legal Hy Hr). }
  split; [done|]. split; [by vm_compute|]. split; by vm_compute.
Qed.
