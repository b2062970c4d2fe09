(** * Proofs: the search tree of a sequence of insertions *)

From Coq Require Import String.
From Verif Require Import SpecRebuild ProofRestore ProofUpdates SpecUpdates ProofSimpleCost ProofCost ProofSetSafety ProofSetDrops ProofSimpleProps ProofMapProps ProofExtend ProofLog ProofObs ProofOracle SpecFacts SpecSteps.

Section lists.
Context {A B : Type}.

Lemma merges_app (a b : list A) : merges a b (a ++ b).
Proof. induction a as [|x a IH]; cbn; [|by constructor]. induction b; by constructor. Qed.
Lemma merges_app_right (a b : list A) : merges a b (b ++ a).
Proof. induction b as [|x b IH]; cbn; [|by constructor]. induction a; by constructor. Qed.
Lemma merges_in a b l (x : A) : merges a b l -> x ∈ l <-> x ∈ a \/ x ∈ b.
Proof. induction 1; rewrite ?elem_of_cons; [set_solver|naive_solver..]. Qed.
Lemma merges_fmap (f : A -> B) a b l : merges a b l -> merges (f <$> a) (f <$> b) (f <$> l).
Proof. induction 1; cbn; by constructor. Qed.
End lists.

Section trees.
Context {K V : Type}.
Implicit Types t l r : tree K V.
Variable cmp : K -> K -> comparison.
Hypothesis Hlaw : lawful cmp.

Lemma af_in t items x : ancestors_first t items -> x ∈ items <-> x ∈ tree_inorder t.
Proof.
  induction 1 as [|l k v r ll lr lm Hl IHl Hr IHr Hm]; [done|]. cbn [tree_inorder].
  rewrite elem_of_cons, elem_of_app, elem_of_cons, (merges_in _ _ _ _ Hm), IHl, IHr. tauto.
Qed.

Lemma insert_all_merges k v ll lr lm : merges ll lr lm -> Forall (fun kv => cmp kv.1 k = Lt) ll -> Forall (fun kv => cmp kv.1 k = Gt) lr ->
  forall l r, tree_insert_all cmp lm (tnode l k v r) = tnode (tree_insert_all cmp ll l) k v (tree_insert_all cmp lr r).
Proof.
  induction 1 as [|[k' v'] a b m Hm IH|[k' v'] a b m Hm IH]; intros Ha Hb l r; [done| |].
  - apply Forall_cons in Ha as [Hk Ha]. cbn in Hk. unfold tree_insert_all. cbn [fold_left fst snd tree_insert]. rewrite Hk. by apply IH.
  - apply Forall_cons in Hb as [Hk Hb]. cbn in Hk. unfold tree_insert_all. cbn [fold_left fst snd tree_insert]. rewrite Hk. by apply IH.
Qed.

Lemma af_insert_all t items : ancestors_first t items -> bst cmp t -> tree_insert_all cmp items tleaf = t.
Proof using Hlaw.
  induction 1 as [|l k v r ll lr lm Hl IHl Hr IHr Hm]; [done|]. intros (Hbl & Hbr & Hlt & Hgt).
  rewrite Forall_forall in Hlt, Hgt.
  change (tree_insert_all cmp lm (tnode tleaf k v tleaf) = tnode l k v r).
  rewrite (insert_all_merges k v _ _ _ Hm), IHl, IHr; [done..| |].
  - apply Forall_forall. intros x Hx. apply Hlt. by apply (af_in _ _ _ Hl).
  - apply Forall_forall. intros x Hx. rewrite (lw_sym _ Hlaw), (Hgt x); [done|]. by apply (af_in _ _ _ Hr).
Qed.

Definition below (k : K) (x : K * V) : bool := match cmp x.1 k with Lt => true | _ => false end.
Definition above (k : K) (x : K * V) : bool := match cmp x.1 k with Gt => true | _ => false end.

Lemma split_merges k (items : list (K * V)) : Forall (fun kv => cmp kv.1 k <> Eq) items ->
  merges (List.filter (below k) items) (List.filter (above k) items) items.
Proof.
  induction items as [|x items IH]; [constructor|]. intros [Hx H]%Forall_cons. cbn [List.filter]. unfold below at 1, above at 1.
  destruct (cmp x.1 k); [done| |]; constructor; by apply IH.
Qed.

Lemma distinct_cons x (items : list K) : distinct cmp (x :: items) -> distinct cmp items /\ Forall (fun y => cmp y x <> Eq) items.
Proof.
  intros H. split.
  - intros i j a b Ha Hb He. specialize (H (S i) (S j) a b Ha Hb He). lia.
  - apply Forall_forall. intros y [i Hi]%elem_of_list_lookup He. specialize (H (S i) 0 y x Hi eq_refl He). lia.
Qed.

Lemma distinct_intro x (items : list K) : distinct cmp items -> Forall (fun y => cmp y x <> Eq) items -> distinct cmp (x :: items).
Proof using Hlaw.
  intros H Hf. rewrite Forall_forall in Hf. intros [|i] [|j] a b Ha Hb He; cbn in Ha, Hb; [done| | |].
  - injection Ha as ->. exfalso. apply (Hf b); [by eapply elem_of_list_lookup_2|]. by rewrite (lw_sym _ Hlaw), He.
  - injection Hb as ->. exfalso. by apply (Hf a); [eapply elem_of_list_lookup_2|].
  - f_equal. by eapply H.
Qed.

Lemma distinct_filter (p : K * V -> bool) (items : list (K * V)) : distinct cmp items.*1 -> distinct cmp (List.filter p items).*1.
Proof using Hlaw.
  induction items as [|x items IH]; cbn [fmap list_fmap List.filter]; [done|]. intros [Hd Hf]%distinct_cons.
  destruct (p x); [|by apply IH]. cbn [fmap list_fmap]. apply distinct_intro; [by apply IH|].
  rewrite Forall_forall in Hf |- *. intros y (z & -> & Hz)%elem_of_list_fmap. apply Hf. apply elem_of_list_fmap. exists z. split; [done|].
  apply elem_of_list_In, filter_In in Hz as [Hz _]. by apply elem_of_list_In.
Qed.

Lemma filter_shorter (p : K * V -> bool) (items : list (K * V)) : length (List.filter p items) <= length items.
Proof. induction items as [|x items IH]; cbn; [done|]. destruct (p x); cbn; lia. Qed.

Lemma insert_all_af n : forall items : list (K * V), length items <= n -> distinct cmp items.*1 -> ancestors_first (tree_insert_all cmp items tleaf) items.
Proof using Hlaw.
  induction n as [|n IH]; intros [|[k v] items] Hn Hd; cbn in Hn; [constructor|lia|constructor|].
  cbn [fmap list_fmap fst] in Hd. apply distinct_cons in Hd as [Hd Hf]. rewrite Forall_fmap in Hf.
  change (tree_insert_all cmp ((k, v) :: items) tleaf) with (tree_insert_all cmp items (tnode tleaf k v tleaf)).
  pose proof (split_merges k items Hf) as Hm. rewrite (insert_all_merges k v _ _ _ Hm).
  - econstructor; [| |exact Hm]; apply IH; try by apply distinct_filter.
    + pose proof (filter_shorter (below k) items). lia.
    + pose proof (filter_shorter (above k) items). lia.
  - apply Forall_forall. intros x Hx. apply elem_of_list_In, filter_In in Hx as [_ Hx]. unfold below in Hx. by destruct (cmp x.1 k).
  - apply Forall_forall. intros x Hx. apply elem_of_list_In, filter_In in Hx as [_ Hx]. unfold above in Hx. by destruct (cmp x.1 k).
Qed.

(** The characterization. *)
Lemma insert_all_iff items t : distinct cmp items.*1 ->
  tree_insert_all cmp items tleaf = t <-> sorted cmp (tree_inorder t) /\ ancestors_first t items.
Proof using Hlaw.
  intros Hd. split.
  - intros <-. split; [|by eapply insert_all_af]. apply (bst_sorted _ Hlaw). by apply (insert_all_bst cmp Hlaw).
  - intros [Hb Ha]. apply af_insert_all; [done|]. by apply (bst_sorted _ Hlaw).
Qed.

Lemma preorder_first t : ancestors_first t (tree_preorder t).
Proof. induction t as [|l IHl k v r IHr]; cbn; [constructor|]. econstructor; [exact IHl|exact IHr|]. apply merges_app. Qed.

Lemma postorder_first t : ancestors_first t (rev (tree_postorder t)).
Proof.
  induction t as [|l IHl k v r IHr]; cbn; [constructor|]. rewrite !rev_app_distr. cbn. econstructor; [exact IHl|exact IHr|]. apply merges_app_right.
Qed.

Lemma sorted_distinct (l : list (K * V)) : sorted cmp l -> distinct cmp l.*1.
Proof using Hlaw.
  induction l as [|x l IH]; [by intros _ [] |]. rewrite sorted_cons. intros [Hs Hf]. cbn [fmap list_fmap]. apply distinct_intro; [by apply IH|].
  rewrite Forall_forall in Hf. apply Forall_forall. intros y (z & -> & Hz)%elem_of_list_fmap. specialize (Hf z Hz). cbn in Hf. rewrite (lw_sym _ Hlaw), Hf. done.
Qed.
End trees.

(** ** Maps *)
Section maps.
Context {K V : Type}.
Variable cmp : K -> K -> comparison.
Hypothesis Hlaw : lawful cmp.

Lemma map_collect_tree e os it (m : bstmap K V) : legal_inserts cmp os -> map_from_iter e os it = (Ret tt, m) ->
  shows m (tree_insert_all cmp (ui_items it) tleaf).
Proof using Hlaw.
  intros Hos Hb. destruct (reached_rep e (SFromIter os it) [] [] m) as (_ & t & fl & Hrep); [by exists m|].
  pose proof (begin_otree e (SFromIter os it) m t fl Hb Hrep) as Hst.
  apply (otree_start_tree cmp Hlaw (SFromIter os it) (erase t) Hos) in Hst. cbn [start_tree] in Hst. rewrite <- Hst. by eapply rep_shows.
Qed.

Lemma map_collect e os it (m : bstmap K V) t : legal_inserts cmp os -> distinct cmp (ui_items it).*1 ->
  map_from_iter e os it = (Ret tt, m) ->
  shows m t <-> sorted cmp (tree_inorder t) /\ ancestors_first t (ui_items it).
Proof using Hlaw.
  intros Hos Hd Hb. pose proof (map_collect_tree _ _ _ _ Hos Hb) as Hs. rewrite <- (insert_all_iff cmp Hlaw _ _ Hd). split.
  - intros H. exact (eq_sym (shows_fun _ _ _ H Hs)) || exact (shows_fun _ _ _ H Hs).
  - by intros <-.
Qed.

Lemma map_inserts e os items rs (m : bstmap K V) t : legal_inserts cmp os -> distinct cmp items.*1 ->
  run e (inserts os items) map_new = (rs, m) -> returned_all rs ->
  shows m t <-> sorted cmp (tree_inorder t) /\ ancestors_first t items.
Proof using Hlaw.
  intros Hos Hd Hrun Hall. destruct (inserts_shows _ _ _ _ _ _ _ (new_reachable e) new_shows Hrun Hall) as (u & H3 & H4).
  pose proof (otree_insert_all_answers cmp Hlaw os items Hos 0 tleaf) as Hi. rewrite H3 in Hi. subst u.
  rewrite <- (insert_all_iff cmp Hlaw _ _ Hd). split.
  - intros H. exact (eq_sym (shows_fun _ _ _ H H4)) || exact (shows_fun _ _ _ H H4).
  - by intros <-.
Qed.

Lemma map_copy e e' os it (m m1 : bstmap K V) t c : reachable e m -> shows m t -> sorted cmp (tree_inorder t) -> legal_inserts cmp os ->
  copy_items m c (ui_items it) -> map_from_iter e' os it = (Ret tt, m1) -> shows m1 t.
Proof using Hlaw.
  intros Hr Hs Hb Hos Hc Hm1. destruct (reachable_rep e m Hr) as (pt & fl & Hrep).
  pose proof (rep_shows_eq _ _ _ _ Hrep Hs) as ->.
  assert (Haf : ancestors_first (erase pt) (ui_items it)).
  { destruct c; cbn [copy_items] in Hc; apply (rep_yields_eq _ _ _ _ _ Hrep) in Hc; cbn [tree_order] in Hc.
    - rewrite Hc. apply preorder_first.
    - rewrite <- (rev_involutive (ui_items it)), Hc. apply postorder_first. }
  rewrite <- (af_insert_all cmp Hlaw _ _ Haf); [|by apply (bst_sorted _ Hlaw)]. by eapply map_collect_tree.
Qed.

Lemma map_copy_sorted e e' os it (m m1 : bstmap K V) t : reachable e m -> shows m t -> sorted cmp (tree_inorder t) -> legal_inserts cmp os ->
  yields m In (ui_items it) -> map_from_iter e' os it = (Ret tt, m1) -> shows m1 (right_spine (ui_items it)).
Proof using Hlaw.
  intros Hr Hs Hb Hos Hc Hm1. destruct (reachable_rep e m Hr) as (pt & fl & Hrep).
  pose proof (rep_shows_eq _ _ _ _ Hrep Hs) as ->. apply (rep_yields_eq _ _ _ _ _ Hrep) in Hc. cbn [tree_order] in Hc.
  rewrite <- (sorted_spine cmp Hlaw) by (by rewrite Hc). by eapply map_collect_tree.
Qed.

Lemma simple_collect e os it (m : simple K V) t : legal_inserts cmp os -> distinct cmp (ui_items it).*1 ->
  simple_from_iter e os it = (Ret tt, m) ->
  simple_shows m t <-> sorted cmp (tree_inorder t) /\ ancestors_first t (ui_items it).
Proof using Hlaw.
  intros Hos Hd Hb. pose proof (simple_begin_spec e (SFromIter os it) eq_refl) as H. cbn [simple_begin] in H. rewrite Hb in H.
  destruct H as (pt & Hrep & Hst). apply (otree_start_tree cmp Hlaw (SFromIter os it) _ Hos) in Hst. cbn [start_tree] in Hst.
  rewrite <- (insert_all_iff cmp Hlaw _ _ Hd), <- Hst. pose proof (simple_rep_shows _ _ Hrep) as Hs. split.
  - intros H. exact (eq_sym (simple_shows_fun _ _ _ H Hs)) || exact (simple_shows_fun _ _ _ H Hs).
  - by intros <-.
Qed.
End maps.

(** ** Sets *)
Section sets.
Context {T : Type}.
Variable cmp : T -> T -> comparison.
Hypothesis Hlaw : lawful cmp.

Lemma af_values (t : tree T unit) l : ancestors_first t l -> set_ancestors_first (values_tree t) l.*1.
Proof. induction 1 as [|u k v r ll lr lm Hl IHl Hr IHr Hm]; cbn; [constructor|]. econstructor; [exact IHl|exact IHr|]. by apply merges_fmap. Qed.

Lemma values_af (st : stree T) l : set_ancestors_first st l -> forall t, values_tree t = st -> ancestors_first t (units l).
Proof.
  induction 1 as [|u x r ll lr lm Hl IHl Hr IHr Hm]; intros [|tl y [] tr]; cbn; try done; [constructor|]. intros [= Hu -> Hv].
  econstructor; [by apply IHl|by apply IHr|]. by apply merges_fmap.
Qed.

Lemma sorted_values (t : tree T unit) : sorted cmp (tree_inorder t) <-> set_sorted cmp (stree_order In (values_tree t)).
Proof.
  split; [|apply values_sorted]. rewrite stree_order_values. change (tree_order In t) with (tree_inorder t). generalize (tree_inorder t). intros l.
  induction l as [|x l IH]; [constructor|]. intros H. inversion H as [|? ? Hs Hf]; subst. rewrite fmap_cons. constructor; [by apply IH|].
  by rewrite Forall_fmap.
Qed.

Lemma units_keys (l : list T) : (units l).*1 = l.
Proof. induction l as [|x l IH]; cbn; [done|]. by rewrite IH. Qed.

Lemma collect_values it (u : tree T unit) (st : stree T) : distinct cmp (ui_items it) ->
  tree_insert_all cmp (ui_items (with_units it)) tleaf = u ->
  values_tree u = st <-> set_sorted cmp (stree_order In st) /\ set_ancestors_first st (ui_items it).
Proof using Hlaw.
  rewrite with_units_items. intros Hd Hu. rewrite <- (units_keys (ui_items it)) in Hd.
  split.
  - intros <-. apply (insert_all_iff cmp Hlaw _ _ Hd) in Hu as [Hs Ha]. rewrite <- sorted_values. split; [done|].
    apply af_values in Ha. by rewrite units_keys in Ha.
  - intros [Hs Ha]. assert (exists w, values_tree w = st) as [w <-].
    { clear. induction st as [|l [wl <-] x r [wr <-]]; [by exists tleaf|]. by exists (tnode wl x tt wr). }
    rewrite <- sorted_values in Hs. apply (fun H => values_af _ _ H w eq_refl) in Ha. f_equal. rewrite <- Hu.
    by apply (insert_all_iff cmp Hlaw _ _ Hd).
Qed.

Lemma set_collect e os it (m : bstset T) t : legal_inserts cmp os -> distinct cmp (ui_items it) ->
  set_from_iter e os it = (Ret tt, m) ->
  set_shows m t <-> set_sorted cmp (stree_order In t) /\ set_ancestors_first t (ui_items it).
Proof using Hlaw.
  intros Hos Hd Hb. destruct (reached_rep e (SFromIter os (with_units it)) [] [] m) as (_ & pt & fl & Hrep); [by exists m|].
  pose proof (begin_otree e (SFromIter os (with_units it)) m pt fl Hb Hrep) as Hst.
  apply (otree_start_tree cmp Hlaw (SFromIter os (with_units it)) (erase pt) Hos) in Hst. cbn [start_tree] in Hst.
  rewrite <- (collect_values it _ t Hd (eq_sym Hst)). pose proof (set_shows_rep _ _ _ Hrep) as Hs. split.
  - intros H. exact (eq_sym (set_shows_fun _ _ _ H Hs)) || exact (set_shows_fun _ _ _ H Hs).
  - by intros <-.
Qed.

Lemma sset_collect e os it (m : sset T) t : legal_inserts cmp os -> distinct cmp (ui_items it) ->
  sset_from_iter e os it = (Ret tt, m) ->
  sset_shows m t <-> set_sorted cmp (stree_order In t) /\ set_ancestors_first t (ui_items it).
Proof using Hlaw.
  intros Hos Hd Hb. pose proof (simple_begin_spec e (SFromIter os (with_units it)) eq_refl) as H. cbn [simple_begin] in H.
  change (sset_from_iter e os it) with (simple_from_iter e os (with_units it)) in Hb. rewrite Hb in H.
  destruct H as (pt & Hrep & Hst). apply (otree_start_tree cmp Hlaw (SFromIter os (with_units it)) _ Hos) in Hst. cbn [start_tree] in Hst.
  rewrite <- (collect_values it _ t Hd (eq_sym Hst)). pose proof (sset_rep_shows _ _ Hrep) as Hs. split.
  - intros H. exact (sset_exposes_fun _ _ _ H _ Hs) || exact (eq_sym (sset_exposes_fun _ _ _ H _ Hs)).
  - by intros <-.
Qed.
End sets.
