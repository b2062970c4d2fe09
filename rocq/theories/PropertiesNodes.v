(** * Properties of nodes as values: C64, C65

    Vocabulary: [SpecNodes.v]. *)

From Verif Require Export ProofTamper.
From Verif Require Import PropertiesSet PropertiesSimple PropertiesSimpleSet.
Local Open Scope N_scope.

(** ** C64. Equality of nodes

    Nodes of BSTSet are equal exactly when their values are ([C47] is the same for
    BSTMap) ... *)
Theorem C64_set_nodes {T : Type} : forall e1 e2 (m1 m2 : bstset T) (eqT : T -> T -> bool) same n1 n2,
  set_reachable e1 m1 -> set_reachable e2 m2 -> (same = true -> m1 = m2) -> set_handle m1 n1 -> set_handle m2 n2 ->
  (forall a, eqT a a = true) -> setnode_eq eqT same n1 n2 = eqT (setnode_value n1) (setnode_value n2).
Proof. exact setnode_eq_iff. Qed.
Print Assumptions C64_set_nodes.

(** ... nodes of SimpleBSTMap and SimpleBSTSet exactly when the subtrees below them
    have the same shape and equal entries. The comparison always ends. *)
Theorem C64_simple_nodes {K V : Type} : forall e1 e2 (m1 m2 : simple K V) (eqK : K -> K -> bool) (eqV : V -> V -> bool)
    p1 p2 (t1 t2 : tree K V),
  simple_reachable e1 m1 -> simple_reachable e2 m2 -> simple_handle m1 p1 -> simple_handle m2 p2 ->
  simple_exposes m1 (Some p1) t1 -> simple_exposes m2 (Some p2) t2 ->
  exists b, simple_node_eq eqK eqV m1 m2 p1 p2 = Ret b /\ (b = true <-> tree_same eqK eqV t1 t2).
Proof. exact simple_node_eq_iff. Qed.
Print Assumptions C64_simple_nodes.

Theorem C64_simple_set_nodes {T : Type} : forall e1 e2 (m1 m2 : sset T) (eqT : T -> T -> bool) p1 p2 (t1 t2 : stree T),
  sset_reachable e1 m1 -> sset_reachable e2 m2 -> sset_handle m1 p1 -> sset_handle m2 p2 ->
  sset_exposes m1 (Some p1) t1 -> sset_exposes m2 (Some p2) t2 ->
  exists b, ssetnode_eq eqT m1 m2 p1 p2 = Ret b /\ (b = true <-> stree_same eqT t1 t2).
Proof. exact ssetnode_eq_iff. Qed.
Print Assumptions C64_simple_set_nodes.

(** With a lawful order a node of a SimpleBSTMap equals only itself within the map. *)
Theorem C64_simple_same_node {K V : Type} (cmp : K -> K -> comparison) : lawful cmp ->
  forall e (m : simple K V) (eqK : K -> K -> bool) (eqV : V -> V -> bool) p1 p2,
  simple_ordered_reachable cmp e m -> (forall a b, eqK a b = true <-> cmp a b = Eq) ->
  simple_handle m p1 -> simple_handle m p2 -> simple_node_eq eqK eqV m m p1 p2 = Ret true -> p1 = p2.
Proof. exact (simple_node_eq_same cmp). Qed.
Print Assumptions C64_simple_same_node.

(** Nodes that SimpleBSTMap finds equal BSTMap finds equal too, after the same
    calls ... *)
Theorem C64_simple_equal_then_equal {K V : Type} : forall e b (s : start K V) cs rs1 (m1 : bstmap K V) rs2 (m2 : simple K V),
  simple_has_start s = true -> Forall (fun c => shared c = true) cs ->
  reached e s cs rs1 m1 -> simple_reached b s cs rs2 m2 -> Forall unrefused rs1 -> alive rs2 ->
  forall (eqK : K -> K -> bool) (eqV : V -> V -> bool) path path' r n n' p p',
  map_root m1 = Ret r -> walk m1 path r = Ret (Some n) -> walk m1 path' r = Ret (Some n') ->
  simple_walk m2 path (simple_root m2) = Ret (Some p) -> simple_walk m2 path' (simple_root m2) = Ret (Some p') ->
  simple_node_eq eqK eqV m2 m2 p p' = Ret true -> node_eq eqK eqV true n n' = true.
Proof. exact simple_equal_nodes. Qed.
Print Assumptions C64_simple_equal_then_equal.

(** ... but not the other way round: the roots of two maps that hold the same
    entry, one of them above a second entry. *)
Definition one_op : list (op SK N) := [ins 50 0 1].
Definition two_ops : list (op SK N) := [ins 50 0 1; ins 30 0 2].
Definition eqSK (a b : SK) : bool := N.eqb a.1 b.1.
Theorem C64_equalities_differ :
  exists rs1 (m1 : bstmap SK N) rs2 (m2 : bstmap SK N) rs1' (m1' : simple SK N) rs2' (m2' : simple SK N) n1 n2 p1 p2,
  reached senv SNew one_op rs1 m1 /\ reached senv SNew two_ops rs2 m2 /\
  simple_reached benv0 SNew one_op rs1' m1' /\ simple_reached benv0 SNew two_ops rs2' m2' /\
  map_root m1 = Ret (Some n1) /\ map_root m2 = Ret (Some n2) /\
  simple_root m1' = Some p1 /\ simple_root m2' = Some p2 /\
  node_eq eqSK N.eqb false n1 n2 = true /\ simple_node_eq eqSK N.eqb m1' m2' p1 p2 = Ret false.
Proof.
  exists (run senv one_op map_new).1, (run senv one_op map_new).2, (run senv two_ops map_new).1, (run senv two_ops map_new).2,
    (simple_run benv0 one_op simple_new).1, (simple_run benv0 one_op simple_new).2,
    (simple_run benv0 two_ops simple_new).1, (simple_run benv0 two_ops simple_new).2.
  eexists _, _, _, _.
  split; [exists map_new; split; [done|apply surjective_pairing]|].
  split; [exists map_new; split; [done|apply surjective_pairing]|].
  split; [exists simple_new; split; [done|apply surjective_pairing]|].
  split; [exists simple_new; split; [done|apply surjective_pairing]|].
  by vm_compute.
Qed.
Print Assumptions C64_equalities_differ.

(** The subtrees at two paths of sample maps and sets. *)
Example C64_case :
  set_reachable senv set_sample /\ (exists n1 n2, set_handle set_sample n1 /\ set_handle set_sample n2 /\
    setnode_eq eqSK true n1 n2 = false /\ setnode_eq eqSK true n1 n1 = true) /\
  simple_reachable benv0 simple_sample /\
  (exists p1 p2, simple_handle simple_sample p1 /\ simple_handle simple_sample p2 /\ p1 <> p2 /\
    simple_node_eq (fun _ _ => true) (fun _ _ => true) simple_sample simple_sample p1 p2 = Ret false /\
    simple_node_eq eqSK N.eqb simple_sample simple_sample p1 p1 = Ret true) /\
  simple_ordered_reachable scmp benv0 simple_sample /\
  sset_reachable sset_env sset_sample /\ exists p, sset_handle sset_sample p /\ ssetnode_eq eqSK sset_sample sset_sample p p = Ret true.
Proof.
  split; [exact set_sample_reachable|]. split.
  { eexists _, _. split; [exists []; eexists; split; by vm_compute|]. split; [exists [GoLeft]; eexists; split; by vm_compute|]. by vm_compute. }
  split; [exact simple_sample_reachable|]. split.
  { eexists _, _. split; [exists []; by vm_compute|]. split; [exists [GoRight]; by vm_compute|]. split; [by vm_compute|]. by vm_compute. }
  split.
  { exists SNew, simple_ops, simple_sample_run.1. split; [done|]. split; [exact simple_ops_has|]. split; [done|]. split; [exact simple_ops_legal|].
    split; [exact simple_sample_reached|exact simple_sample_alive]. }
  split; [exact sset_sample_reachable|]. eexists. split; [exists [GoLeft]; by vm_compute|]. by vm_compute.
Qed.

(** ** C65. Assigning whole nodes of a SimpleBSTMap

    Through [root_mut], [left_mut] and [right_mut] a program may overwrite a node
    with a clone of another one. The subtree is replaced and the length is not
    updated. *)
Theorem C65_assignment {K V : Type} : forall e (ck : nat -> K -> option K) (cv : nat -> V -> option V) (src : simple K V)
    (u : tree K V) q pathq m (t : tree K V) p path x m',
  tampered e m -> tampered e src -> simple_shows m t -> simple_shows src u ->
  simple_walk m path (simple_root m) = Ret (Some p) -> simple_walk src pathq (simple_root src) = Ret (Some q) ->
  simple_assign e ck cv src q p m = (x, m') ->
  x = Abort \/
  (tampered e m' /\ simple_len m' = simple_len m /\
   ((x = Panic PClone /\ m' = m /\ tree_clone ck cv 0 (tree_at pathq u) = None) \/
    (x = Ret tt /\ exists c, tree_clone ck cv 0 (tree_at pathq u) = Some c /\ simple_shows m' (tree_put path c t)))).
Proof. exact tampered_assigns. Qed.
Print Assumptions C65_assignment.

(** The map stays a tree in memory of its own: the traversals agree with it, the
    nodes in memory are exactly its nodes, and dropping the map frees them. *)
Theorem C65_still_a_tree {K V : Type} : forall e (m : simple K V), tampered e m ->
  exists t : tree K V, simple_shows m t /\ (forall d, simple_yields m d (tree_order d t)) /\
    length (tree_inorder t) = size (s_mem m) /\
    exists m', simple_drop m = (Ret tt, m') /\ s_mem m' = ∅.
Proof. exact tampered_views. Qed.
Print Assumptions C65_still_a_tree.

(** Every call still ends without undefined behaviour and does to the tree what it
    should. Only the calls that tell the length may be wrong, and the arithmetic
    and assertions on the length may panic. *)
Theorem C65_calls {K V : Type} : forall e (m : simple K V) (t : tree K V) c x m',
  tampered e m -> simple_has c = true -> simple_shows m t -> simple_exec e c m = (x, m') ->
  (x = Abort /\ allocates c = true) \/
  (((exists y, x = Ret y) \/ exists p, x = Panic p) /\ tampered e m' /\
   exists t' : tree K V, simple_shows m' t' /\ tampered_step t c x t').
Proof. exact tampered_calls. Qed.
Print Assumptions C65_calls.

(** All that happens in a debug and in a release build: a map of one entry whose
    root is overwritten with a tree of six. *)
Definition benv1 : benv := BEnv false (fun n => Some (n mod 5)).
Definition single (e : benv) : simple SK N := (simple_run e one_op simple_new).2.
Definition simple_other (e : benv) : simple SK N := (simple_run e simple_ops simple_new).2.
Definition grown (e : benv) : simple SK N :=
  (simple_assign e (fun _ k => Some k) (fun _ v => Some v) (simple_other e) root_place root_place (single e)).2.
Definition shrunk (e : benv) : simple SK N := (simple_exec e (ORemove (so (sq 40))) (grown e)).2.

Lemma tampered_reached (e : benv) cs : forall m : simple SK N, tampered e m -> Forall (fun c => simple_has c = true) cs ->
  forallb (fun x => match x with Abort => false | _ => true end) (simple_run e cs m).1 = true -> tampered e (simple_run e cs m).2.
Proof.
  induction cs as [|c cs IH]; intros m H Hcs; [done|]. apply Forall_cons in Hcs as [Hc Hcs]. cbn [simple_run].
  destruct (simple_exec e c m) as [x m1] eqn:He. intros Hr.
  assert (Hx : x <> Abort) by (intros ->; done).
  assert (H1 : tampered e m1) by (by eapply tampered_call).
  specialize (IH m1 H1 Hcs). destruct (simple_run e cs m1) as [rs m2]. destruct x; try done; cbn [fst snd forallb] in Hr |- *; by apply IH.
Qed.
Lemma tampered_new (e : benv) : tampered e (@simple_new SK N).
Proof. by eapply (tampered_start e SNew). Qed.
Lemma grown_tampered e : e = benv0 \/ e = benv1 -> tampered e (grown e).
Proof.
  intros He. eapply (tampered_assign e (single e) (simple_other e) (fun _ k => Some k) (fun _ v => Some v) root_place root_place (Ret tt)).
  - apply tampered_reached; [apply tampered_new|repeat constructor|]. destruct He as [-> | ->]; by vm_compute.
  - apply tampered_reached; [apply tampered_new|exact simple_ops_has|]. destruct He as [-> | ->]; by vm_compute.
  - exists []. destruct He as [-> | ->]; by vm_compute.
  - exists []. destruct He as [-> | ->]; by vm_compute.
  - assert (H : (simple_assign e (fun _ k => Some k) (fun _ v => Some v) (simple_other e) root_place root_place (single e)).1 = Ret tt)
      by (destruct He as [-> | ->]; by vm_compute).
    unfold grown. destruct (simple_assign e _ _ _ _ _ _) as [x m]. cbn [fst snd] in *. by rewrite H.
  - done.
Qed.
Lemma shrunk_tampered e : e = benv0 \/ e = benv1 -> tampered e (shrunk e).
Proof.
  intros He. eapply (tampered_call e (grown e) (ORemove (so (sq 40)))); [by apply grown_tampered|done|apply surjective_pairing|].
  destruct He as [-> | ->]; by vm_compute.
Qed.

Theorem C65_length_is_lost : exists e1 e2 (m1 m2 : simple SK N), tampered e1 m1 /\ tampered e2 m2 /\ b_chk e1 = true /\ b_chk e2 = false /\
  (exists l, simple_yields m1 In l /\ length l = 5%nat /\ simple_len m1 = 0) /\
  (exists l, simple_yields m2 In l /\ length l = 5%nat /\ simple_len m2 = 0) /\
  simple_is_empty e1 m1 = Panic PDebugAssert /\ simple_is_empty e2 m2 = Ret true /\
  (simple_exec e1 (ORemove (so (sq 70))) m1).1 = Panic POverflow /\
  (simple_exec e2 (ORemove (so (sq 70))) m2).1 = Ret (OutValue (Some 6)).
Proof.
  exists benv0, benv1, (shrunk benv0), (shrunk benv1).
  split; [apply shrunk_tampered; by left|]. split; [apply shrunk_tampered; by right|].
  split; [done|]. split; [done|].
  assert (Hl : forall e, e = benv0 \/ e = benv1 -> exists l, simple_yields (shrunk e) In l /\ length l = 5%nat /\ simple_len (shrunk e) = 0).
  { intros e He. destruct (C65_still_a_tree e _ (shrunk_tampered e He)) as (t & _ & Hy & Hn & _). exists (tree_inorder t).
    split; [apply (Hy In)|]. rewrite Hn. clear Hy Hn t. destruct He as [-> | ->]; by vm_compute. }
  split; [apply Hl; by left|]. split; [apply Hl; by right|]. by vm_compute.
Qed.
Print Assumptions C65_length_is_lost.

Example C65_case : tampered benv0 (grown benv0) /\ size (s_mem (grown benv0)) = 6%nat /\ simple_len (grown benv0) = 1 /\
  (simple_exec benv0 (OGet (so (sq 70))) (grown benv0)).1 = Ret (OutValue (Some 6)) /\
  (simple_exec benv0 (ORemove (so (sq 70))) (shrunk benv0)).1 = Panic POverflow /\
  size (s_mem (simple_drop (grown benv0)).2) = 0%nat.
Proof. split; [apply grown_tampered; by left|]. by vm_compute. Qed.
