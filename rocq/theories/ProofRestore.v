(** * Proofs: updates that undo one another *)

From Coq Require Import String.
From Verif Require Import ProofUpdates SpecUpdates ProofSimpleCost ProofCost ProofSetSafety ProofSetDrops ProofSimpleProps ProofMapProps ProofObs ProofOracle SpecFacts SpecSteps.

(** ** Trees *)
Section trees.
Context {K V : Type}.
Implicit Types t l r : tree K V.
Variable cmp : K -> K -> comparison.

Lemma query_like f k x : is_query cmp f -> f k = Eq -> f x = cmp k x.
Proof. intros (Q & cmpQ & b & q & Hq & Hb & Hf) Hk. rewrite Hf in *. rewrite (lw_cong _ Hq _ _ _ Hk). apply Hb. Qed.

Lemma insert_remove f k v t : (forall x, f x = cmp k x) -> f k = Eq -> tree_find f t = None ->
  tree_remove f (tree_insert cmp k v t) = t /\ tree_find f (tree_insert cmp k v t) = Some (k, v).
Proof.
  intros Hf Hk. induction t as [|l IHl k' v' r IHr]; cbn [tree_find tree_insert].
  { intros _. cbn [tree_remove tree_find]. by rewrite Hk. }
  rewrite <- Hf. destruct (f k') eqn:E; [done| |].
  - intros H. cbn [tree_remove tree_find]. rewrite E. destruct (IHl H) as [-> ->]. done.
  - intros H. cbn [tree_remove tree_find]. rewrite E. destruct (IHr H) as [-> ->]. done.
Qed.

Lemma insert_insert k k' v k0 v0 t : (forall x, cmp k' x = cmp k x) -> tree_find (cmp k) t = Some (k0, v0) ->
  tree_insert cmp k' v0 (tree_insert cmp k v t) = t /\ tree_find (cmp k') (tree_insert cmp k v t) = Some (k0, v).
Proof.
  intros Hk. induction t as [|l IHl k1 v1 r IHr]; cbn [tree_find tree_insert]; [done|].
  destruct (cmp k k1) eqn:E.
  - intros [= -> ->]. cbn [tree_find tree_insert]. by rewrite Hk, E.
  - intros H. cbn [tree_find tree_insert]. rewrite Hk, E. destruct (IHl H) as [-> ->]. done.
  - intros H. cbn [tree_find tree_insert]. rewrite Hk, E. destruct (IHr H) as [-> ->]. done.
Qed.

Lemma insert_leaf k v t : tree_find (cmp k) t = None ->
  exists path, tree_at path (tree_insert cmp k v t) = tnode tleaf k v tleaf.
Proof.
  induction t as [|l IHl k1 v1 r IHr]; cbn [tree_find tree_insert]; [by exists []|].
  destruct (cmp k k1); [done| |].
  - intros [path H]%IHl. by exists (GoLeft :: path).
  - intros [path H]%IHr. by exists (GoRight :: path).
Qed.

Hypothesis Hlaw : lawful cmp.

Lemma at_in path t l k v r : tree_at path t = tnode l k v r -> (k, v) ∈ tree_inorder t.
Proof.
  revert t. induction path as [|[] path IH]; intros [|l' k' v' r']; cbn [tree_at tree_inorder]; try done.
  - intros [= -> -> -> ->]. set_solver.
  - intros H%IH. set_solver.
  - intros H%IH. set_solver.
Qed.

Lemma query_cmp k : is_query cmp (cmp k).
Proof using Hlaw. exists K, cmp, id, k. done. Qed.

Lemma find_gone f t : is_query cmp f -> bst cmp t -> tree_find f t <> None -> tree_find f (tree_remove f t) = None.
Proof using Hlaw.
  intros Hf Hb Hn. destruct (tree_find f (tree_remove f t)) as [x|] eqn:E; [exfalso|done].
  apply tree_find_in in E as [Hin Hx].
  pose proof (tree_remove_assoc cmp Hlaw f t (tree_inorder t) Hf Hb ltac:(done)) as Hp.
  rewrite Hp in Hin. destruct x as [k v].
  apply (proj1 (assoc_remove_pointwise cmp Hlaw f _ Hf (proj1 (bst_sorted cmp Hlaw _) Hb))) in Hin as [_ ?]. done.
Qed.

Lemma remove_insert_leaf f k v t path : is_query cmp f -> f k = Eq -> bst cmp t -> tree_at path t = tnode tleaf k v tleaf ->
  tree_insert cmp k v (tree_remove f t) = t.
Proof using Hlaw.
  intros Hf Hk. revert path. induction t as [|l IHl k' v' r IHr]; intros path Hb Hat.
  { by destruct path as [|[]]. }
  destruct Hb as (Hbl & Hbr & Hl & Hr).
  rewrite Forall_forall in Hl, Hr. cbn [tree_remove].
  destruct path as [|[] path]; cbn [tree_at] in Hat.
  - injection Hat as -> -> -> ->. rewrite Hk. done.
  - pose proof (Hl _ (at_in _ _ _ _ _ _ Hat)) as Hlt. cbn [fst] in Hlt.
    rewrite (query_below _ Hlaw f k' k Hf Hk Hlt). cbn [tree_insert]. rewrite Hlt. by rewrite (IHl path).
  - pose proof (Hr _ (at_in _ _ _ _ _ _ Hat)) as Hlt. cbn [fst] in Hlt.
    rewrite (query_above _ Hlaw f k' k Hf Hk Hlt). cbn [tree_insert].
    rewrite (lw_sym _ Hlaw), Hlt. cbn [CompOpp]. by rewrite (IHr path).
Qed.

(** Removing an entry and inserting it again restores the tree exactly if the
    entry was a leaf. *)
Lemma remove_insert f k v t : is_query cmp f -> bst cmp t -> tree_find f t = Some (k, v) ->
  tree_find (cmp k) (tree_remove f t) = None /\
  (tree_insert cmp k v (tree_remove f t) = t <-> exists path, tree_at path t = tnode tleaf k v tleaf).
Proof using Hlaw.
  intros Hf Hb E. destruct (tree_find_in _ _ _ E) as [Hin Hk]. cbn [fst] in Hk.
  assert (Hn : tree_find (cmp k) (tree_remove f t) = None).
  { pose proof (find_gone f t Hf Hb) as Hg. rewrite E in Hg. specialize (Hg ltac:(done)).
    rewrite <- Hg. generalize (tree_remove f t). intros u. induction u as [|l IHl k' v' r IHr]; cbn [tree_find]; [done|].
    rewrite (query_like f k k' Hf Hk). by rewrite IHl, IHr. }
  split; [done|]. split.
  - intros <-. destruct (insert_leaf k v _ Hn) as [path H]. by exists path.
  - intros [path H]. by eapply remove_insert_leaf.
Qed.
End trees.

(** ** Calls with comparisons that follow an order *)
Section calls.
Context {K V : Type}.
Implicit Types t : tree K V.
Variable cmp : K -> K -> comparison.
Hypothesis Hlaw : lawful cmp.

Lemma insert_call_tree o k v t x t' : answers o (cmp k) -> otree_step t (OInsert o k v) (Ret x) t' ->
  t' = tree_insert cmp k v t /\ x = OutValue (snd <$> tree_find (cmp k) t).
Proof using Hlaw.
  intros Ho [H|[[]|[[?|[?|?]] _]]]; [|done..]. cbn [otree_call] in H.
  pose proof (otree_insert_answers cmp Hlaw o k v t Ho 0) as Hi. destruct (otree_insert o 0 k v t) as [y|]; [|done].
  subst y. cbn in H. by injection H as <- <-.
Qed.

Lemma remove_call_tree o f t r t' : surely o f -> otree_step t (ORemoveEntry o) r t' ->
  t' = tree_remove f t /\ r = Ret (OutEntry (tree_find f t)).
Proof using Hlaw.
  intros Ho [H|[[]|[]]]. cbn [otree_call] in H.
  pose proof (otree_remove_answers cmp Hlaw o f t (fun i k => or_introl (Ho i k)) 0) as Hi. destruct (otree_remove o 0 t) as [y|].
  - subst y. cbn in H. by injection H as <- <-.
  - destruct Hi as (j & kv & _ & Hp). by rewrite (Ho j kv.1) in Hp.
Qed.
End calls.

(** ** BSTMap *)
Section bstmaps.
Context {K V : Type}.
Implicit Types m : bstmap K V.
Variable cmp : K -> K -> comparison.
Hypothesis Hlaw : lawful cmp.

Lemma tins_trem o o' f k v q (t : ptree K V) t' : answers o (cmp k) -> surely o' f -> (forall x, f x = cmp k x) -> f k = Eq ->
  forall i j, tins o i k v q t = Ret (t', None) -> trem o' j t' = Ret (t, Some (q, (k, v))).
Proof.
  intros Ho Ho' Hf Hk. revert t'. induction t as [|l IHl p k' v' r IHr]; intros t' i j; cbn [tins].
  { intros [= <-]. cbn [trem]. unfold ask. by rewrite Ho', Hk. }
  unfold ask. destruct (Ho i k') as [->| ->]; cbn [rbind]; [|done]. rewrite <- Hf. destruct (f k') eqn:E; [done| |].
  - destruct (tins o (S i) k v q l) as [[l' y]| | | |] eqn:Hl; cbn; try done. intros [= <- ->].
    cbn [trem]. unfold ask. rewrite Ho', E. cbn. by rewrite (IHl _ _ (S j) Hl).
  - destruct (tins o (S i) k v q r) as [[r' y]| | | |] eqn:Hr; cbn; try done. intros [= <- ->].
    cbn [trem]. unfold ask. rewrite Ho', E. cbn. by rewrite (IHr _ _ (S j) Hr).
Qed.

Lemma tins_tins o o' k k' v v0 q q' (t : ptree K V) t' : answers o (cmp k) -> answers o' (cmp k') -> (forall x, cmp k' x = cmp k x) ->
  forall i j u y, tins o i k v q t = Ret (t', Some v0) -> tins o' j k' v0 q' t' = Ret (u, y) -> u = t /\ y = Some v.
Proof.
  intros Ho Ho' Hk. revert t'. induction t as [|l IHl p k1 v1 r IHr]; intros t' i j u y; cbn [tins]; [done|].
  unfold ask. destruct (Ho i k1) as [->| ->]; cbn [rbind]; [|done]. destruct (cmp k k1) eqn:E.
  - intros [= <- ->]. cbn [tins]. unfold ask. destruct (Ho' j k1) as [->| ->]; [|done]. rewrite Hk, E. by intros [= <- <-].
  - destruct (tins o (S i) k v q l) as [[l' z]| | | |] eqn:Hl; cbn; try done. intros [= <- ->].
    cbn [tins]. unfold ask. destruct (Ho' j k1) as [->| ->]; [|done]. rewrite Hk, E. cbn.
    destruct (tins o' (S j) k' v0 q' l') as [[l2 z2]| | | |] eqn:Hl2; cbn; try done. intros [= <- <-].
    destruct (IHl _ _ _ _ _ Hl Hl2) as [-> ->]. done.
  - destruct (tins o (S i) k v q r) as [[r' z]| | | |] eqn:Hr; cbn; try done. intros [= <- ->].
    cbn [tins]. unfold ask. destruct (Ho' j k1) as [->| ->]; [|done]. rewrite Hk, E. cbn.
    destruct (tins o' (S j) k' v0 q' r') as [[r2 z2]| | | |] eqn:Hr2; cbn; try done. intros [= <- <-].
    destruct (IHr _ _ _ _ _ Hr Hr2) as [-> ->]. done.
Qed.

Lemma map_insert_tree e m (t : tree K V) o k v x m' : reachable e m -> shows m t -> answers o (cmp k) -> exec e (OInsert o k v) m = (Ret x, m') ->
  reachable e m' /\ shows m' (tree_insert cmp k v t) /\ x = OutValue (snd <$> tree_find (cmp k) t).
Proof using Hlaw.
  intros Hr Hs Ho He. destruct (any_comparator_call _ _ _ _ _ _ Hr Hs He) as (t1 & Ht1 & Hst).
  destruct (insert_call_tree cmp Hlaw _ _ _ _ _ _ Ho Hst) as [-> ->]. split_and!; try done. by eapply reachable_step.
Qed.

Lemma map_remove_tree e m (t : tree K V) o f r m' : reachable e m -> shows m t -> surely o f -> exec e (ORemoveEntry o) m = (r, m') ->
  reachable e m' /\ shows m' (tree_remove f t) /\ r = Ret (OutEntry (tree_find f t)).
Proof using Hlaw.
  intros Hr Hs Ho He. destruct (any_comparator_call _ _ _ _ _ _ Hr Hs He) as (t1 & Ht1 & Hst).
  destruct (remove_call_tree cmp Hlaw _ _ _ _ _ Ho Hst) as [-> ->]. split_and!; try done. by eapply reachable_step.
Qed.

Lemma map_insert_remove e m (t : tree K V) o k v m1 o' f r m2 :
  reachable e m -> shows m t -> answers o (cmp k) -> exec e (OInsert o k v) m = (Ret (OutValue None), m1) ->
  is_query cmp f -> f k = Eq -> surely o' f -> exec e (ORemoveEntry o') m1 = (r, m2) ->
  r = Ret (OutEntry (Some (k, v))) /\ shows m2 t /\ forall d, iter_collect m2 d = iter_collect m d.
Proof.
  intros Hr Hs Ho He Hf Hk Ho' He'. destruct (reachable_rep e m Hr) as (pt & fl & Hrep).
  rewrite (rep_shows_eq _ _ _ _ Hrep Hs). pose proof (exec_cases e (OInsert o k v) _ _ _ Hrep) as H. rewrite He in H.
  destruct H as (pt1 & fl1 & Hrep1 & (q & y & Ht & _ & [= <-]) & _).
  pose proof (exec_cases e (ORemoveEntry o') _ _ _ Hrep1) as H. rewrite He' in H.
  pose proof (tins_trem o o' f k v q pt pt1 Ho Ho' (fun x => query_like cmp f k x Hf Hk) Hk 0 0 Ht) as Hrem.
  destruct r as [x|p| |u|]; try done.
  - destruct H as (pt2 & fl2 & Hrep2 & (y & Ht2 & ->) & _). rewrite Hrem in Ht2. injection Ht2 as <- <-.
    split_and!; [done|by eapply rep_shows|]. intros d. by rewrite (iter_collect_spec _ _ _ d Hrep), (iter_collect_spec _ _ _ d Hrep2).
  - destruct H as (pt2 & fl2 & _ & (_ & _ & Hp) & _). by rewrite Hrem in Hp.
  - destruct H as (pt2 & fl2 & _ & (_ & ? & _) & _). done.
Qed.

Lemma map_put_back e m (t : tree K V) o k v v0 m1 o' k' x m2 :
  reachable e m -> shows m t -> answers o (cmp k) -> exec e (OInsert o k v) m = (Ret (OutValue (Some v0)), m1) ->
  cmp k' k = Eq -> answers o' (cmp k') -> exec e (OInsert o' k' v0) m1 = (Ret x, m2) ->
  x = OutValue (Some v) /\ shows m2 t /\ forall d, iter_collect m2 d = iter_collect m d.
Proof using Hlaw.
  intros Hr Hs Ho He Hk Ho' He'. destruct (reachable_rep e m Hr) as (pt & fl & Hrep).
  rewrite (rep_shows_eq _ _ _ _ Hrep Hs). pose proof (exec_cases e (OInsert o k v) _ _ _ Hrep) as H. rewrite He in H.
  destruct H as (pt1 & fl1 & Hrep1 & (q & y & Ht & _ & [= <-]) & _).
  pose proof (exec_cases e (OInsert o' k' v0) _ _ _ Hrep1) as H. rewrite He' in H.
  destruct H as (pt2 & fl2 & Hrep2 & (q' & y & Ht2 & _ & ->) & _).
  destruct (tins_tins o o' k k' v v0 q q' pt pt1 Ho Ho' (fun x => lw_cong _ Hlaw k' k x Hk) 0 0 pt2 y Ht Ht2) as [-> ->].
  split_and!; [done|by eapply rep_shows|]. intros d. by rewrite (iter_collect_spec _ _ _ d Hrep), (iter_collect_spec _ _ _ d Hrep2).
Qed.

Lemma map_remove_insert e m (t : tree K V) o f k v m1 o' x m2 :
  reachable e m -> shows m t -> sorted cmp (tree_inorder t) -> is_query cmp f -> surely o f ->
  exec e (ORemoveEntry o) m = (Ret (OutEntry (Some (k, v))), m1) ->
  answers o' (cmp k) -> exec e (OInsert o' k v) m1 = (Ret x, m2) ->
  x = OutValue None /\ (shows m2 t <-> exists path, tree_at path t = tnode tleaf k v tleaf).
Proof using Hlaw.
  intros Hr Hs Hb Hf Ho He Ho' He'. apply (bst_sorted _ Hlaw) in Hb.
  destruct (map_remove_tree _ _ _ _ _ _ _ Hr Hs Ho He) as (Hr1 & Hs1 & [= E]).
  destruct (map_insert_tree _ _ _ _ _ _ _ _ Hr1 Hs1 Ho' He') as (_ & Hs2 & ->).
  destruct (remove_insert cmp Hlaw f k v t Hf Hb (eq_sym E)) as [Hn Hi]. rewrite Hn. split; [done|]. rewrite <- Hi. split.
  - intros H. by rewrite (shows_fun _ _ _ H Hs2).
  - intros <-. done.
Qed.
End bstmaps.

(** ** SimpleBSTMap *)
Section simplemaps.
Context {K V : Type}.
Implicit Types (m : simple K V) (t : tree K V).
Variable cmp : K -> K -> comparison.
Hypothesis Hlaw : lawful cmp.

Lemma simple_insert_tree e m t o k v x m' : simple_reachable e m -> simple_shows m t -> answers o (cmp k) ->
  simple_exec e (OInsert o k v) m = (Ret x, m') ->
  simple_reachable e m' /\ simple_shows m' (tree_insert cmp k v t) /\ x = OutValue (snd <$> tree_find (cmp k) t).
Proof using Hlaw.
  intros Hr Hs Ho He. destruct (simple_call_tree _ (OInsert o k v) _ _ _ _ Hr Hs eq_refl He ltac:(done)) as (t1 & Ht1 & Hst).
  apply stree_otree in Hst; [|by left]. destruct (insert_call_tree cmp Hlaw _ _ _ _ _ _ Ho Hst) as [-> ->]. split_and!; try done.
  exact (proj2 (simple_never_fails _ (OInsert o k v) _ _ _ Hr eq_refl He) ltac:(done)).
Qed.

Lemma simple_remove_tree e m t o f r m' : simple_reachable e m -> simple_shows m t -> surely o f ->
  simple_exec e (ORemoveEntry o) m = (r, m') -> r <> Abort ->
  simple_reachable e m' /\ simple_shows m' (tree_remove f t) /\ r = Ret (OutEntry (tree_find f t)).
Proof using Hlaw.
  intros Hr Hs Ho He Ha. destruct (simple_call_tree _ (ORemoveEntry o) _ _ _ _ Hr Hs eq_refl He Ha) as (t1 & Ht1 & Hst).
  apply stree_otree in Hst; [|auto]. destruct (remove_call_tree cmp Hlaw _ _ _ _ _ Ho Hst) as [-> ->]. split_and!; try done.
  exact (proj2 (simple_never_fails _ (ORemoveEntry o) _ _ _ Hr eq_refl He) Ha).
Qed.

Lemma simple_insert_remove e m t o k v m1 o' f r m2 :
  simple_reachable e m -> simple_shows m t -> answers o (cmp k) -> simple_exec e (OInsert o k v) m = (Ret (OutValue None), m1) ->
  is_query cmp f -> f k = Eq -> surely o' f -> simple_exec e (ORemoveEntry o') m1 = (r, m2) -> r <> Abort ->
  r = Ret (OutEntry (Some (k, v))) /\ simple_shows m2 t.
Proof using Hlaw.
  intros Hr Hs Ho He Hf Hk Ho' He' Ha. destruct (simple_insert_tree _ _ _ _ _ _ _ _ Hr Hs Ho He) as (Hr1 & Hs1 & [= E]).
  destruct (simple_remove_tree _ _ _ _ _ _ _ Hr1 Hs1 Ho' He' Ha) as (_ & Hs2 & ->).
  assert (Hn : tree_find f t = None).
  { destruct (tree_find (cmp k) t) eqn:E2; [done|]. rewrite <- E2. clear -Hf Hk.
    induction t as [|l IHl k' v' r IHr]; cbn [tree_find]; [done|]. rewrite (query_like cmp f k k' Hf Hk). by rewrite IHl, IHr. }
  destruct (insert_remove cmp f k v t (fun x => query_like cmp f k x Hf Hk) Hk Hn) as [E1 E2]. rewrite E1 in Hs2. by rewrite E2.
Qed.

Lemma simple_put_back e m t o k v v0 m1 o' k' x m2 :
  simple_reachable e m -> simple_shows m t -> answers o (cmp k) -> simple_exec e (OInsert o k v) m = (Ret (OutValue (Some v0)), m1) ->
  cmp k' k = Eq -> answers o' (cmp k') -> simple_exec e (OInsert o' k' v0) m1 = (Ret x, m2) ->
  x = OutValue (Some v) /\ simple_shows m2 t.
Proof using Hlaw.
  intros Hr Hs Ho He Hk Ho' He'. destruct (simple_insert_tree _ _ _ _ _ _ _ _ Hr Hs Ho He) as (Hr1 & Hs1 & [= E]).
  destruct (simple_insert_tree _ _ _ _ _ _ _ _ Hr1 Hs1 Ho' He') as (_ & Hs2 & ->).
  destruct (tree_find (cmp k) t) as [[k0 v1]|] eqn:E2; [|done]. injection E as ->.
  destruct (insert_insert cmp k k' v k0 v1 t (fun x => lw_cong _ Hlaw k' k x Hk) E2) as [E3 E4]. rewrite E3 in Hs2. by rewrite E4.
Qed.

Lemma simple_remove_insert e m t o f k v m1 o' x m2 :
  simple_reachable e m -> simple_shows m t -> sorted cmp (tree_inorder t) -> is_query cmp f -> surely o f ->
  simple_exec e (ORemoveEntry o) m = (Ret (OutEntry (Some (k, v))), m1) ->
  answers o' (cmp k) -> simple_exec e (OInsert o' k v) m1 = (Ret x, m2) ->
  x = OutValue None /\ (simple_shows m2 t <-> exists path, tree_at path t = tnode tleaf k v tleaf).
Proof using Hlaw.
  intros Hr Hs Hb Hf Ho He Ho' He'. apply (bst_sorted _ Hlaw) in Hb.
  destruct (simple_remove_tree _ _ _ _ _ _ _ Hr Hs Ho He ltac:(done)) as (Hr1 & Hs1 & [= E]).
  destruct (simple_insert_tree _ _ _ _ _ _ _ _ Hr1 Hs1 Ho' He') as (_ & Hs2 & ->).
  destruct (remove_insert cmp Hlaw f k v t Hf Hb (eq_sym E)) as [Hn Hi]. rewrite Hn. split; [done|]. rewrite <- Hi. split.
  - intros H. by rewrite (simple_shows_fun _ _ _ H Hs2).
  - intros <-. done.
Qed.
End simplemaps.

(** ** Sets *)
Section sets.
Context {T : Type}.
Variable cmp : T -> T -> comparison.
Hypothesis Hlaw : lawful cmp.

Lemma values_at path (t : tree T unit) : stree_at path (values_tree t) = values_tree (tree_at path t).
Proof. revert t. induction path as [|[] path IH]; intros [|l x [] r]; cbn; try done; apply IH. Qed.

Lemma values_leaf x (t : tree T unit) :
  (exists path, tree_at path t = tnode tleaf x tt tleaf) <-> exists path, stree_at path (values_tree t) = snode sleaf x sleaf.
Proof.
  split; intros [path H]; exists path.
  - by rewrite values_at, H.
  - rewrite values_at in H. by apply (values_tree_inj _ (tnode tleaf x tt tleaf)) in H.
Qed.

Lemma find_like f x (t : tree T unit) : is_query cmp f -> f x = Eq -> tree_find f t = tree_find (cmp x) t.
Proof.
  intros Hf Hk. induction t as [|l IHl k' v' r IHr]; cbn [tree_find]; [done|]. rewrite (query_like cmp f x k' Hf Hk). by rewrite IHl, IHr.
Qed.

Lemma set_insert_tree e (m : bstset T) (u : tree T unit) o x b m' : set_reachable e m -> set_shows m (values_tree u) -> answers o (cmp x) ->
  set_exec e (SetInsert o x) m = (Ret b, m') ->
  set_reachable e m' /\ set_shows m' (values_tree (tree_insert cmp x tt u)) /\
  b = SetBool (match tree_find (cmp x) u with None => true | Some _ => false end).
Proof using Hlaw.
  intros Hr Hs Ho He. destruct (set_call_tree _ _ _ _ _ _ Hr Hs He) as (u0 & u' & y & <-%values_tree_inj & Hs' & Hst & Hy).
  destruct y as [y| | | |]; try done. destruct (insert_call_tree cmp Hlaw _ _ _ _ _ _ Ho Hst) as [-> ->]. injection Hy as ->. split_and!; [|done|].
  - by eapply set_reachable_step.
  - cbn. by destruct (tree_find (cmp x) u).
Qed.

Lemma set_take_tree e (m : bstset T) (u : tree T unit) o f r m' : set_reachable e m -> set_shows m (values_tree u) -> surely o f ->
  set_exec e (SetTake o) m = (r, m') ->
  set_reachable e m' /\ set_shows m' (values_tree (tree_remove f u)) /\ r = Ret (SetValue (fst <$> tree_find f u)).
Proof using Hlaw.
  intros Hr Hs Ho He. destruct (set_call_tree _ _ _ _ _ _ Hr Hs He) as (u0 & u' & y & <-%values_tree_inj & Hs' & Hst & ->).
  destruct (remove_call_tree cmp Hlaw _ _ _ _ _ Ho Hst) as [-> ->]. split_and!; [|done|done].
  by eapply set_reachable_step.
Qed.

Lemma set_insert_remove e (m : bstset T) t o x m1 o' f r m2 :
  set_reachable e m -> set_shows m t -> answers o (cmp x) -> set_exec e (SetInsert o x) m = (Ret (SetBool true), m1) ->
  is_query cmp f -> f x = Eq -> surely o' f -> set_exec e (SetTake o') m1 = (r, m2) ->
  r = Ret (SetValue (Some x)) /\ set_shows m2 t.
Proof using Hlaw.
  intros Hr Hs Ho He Hf Hk Ho' He'. destruct (set_call_tree _ _ _ _ _ _ Hr Hs He) as (u & _ & _ & -> & _).
  destruct (set_insert_tree _ _ _ _ _ _ _ Hr Hs Ho He) as (Hr1 & Hs1 & [= E]).
  destruct (set_take_tree _ _ _ _ _ _ _ Hr1 Hs1 Ho' He') as (_ & Hs2 & ->).
  assert (Hn : tree_find f u = None) by (rewrite (find_like f x u Hf Hk); by destruct (tree_find (cmp x) u)).
  destruct (insert_remove cmp f x tt u (fun y => query_like cmp f x y Hf Hk) Hk Hn) as [E1 E2]. rewrite E1 in Hs2. by rewrite E2.
Qed.

Lemma set_remove_insert e (m : bstset T) t o f x m1 o' b m2 :
  set_reachable e m -> set_shows m t -> set_sorted cmp (stree_order In t) -> is_query cmp f -> surely o f ->
  set_exec e (SetTake o) m = (Ret (SetValue (Some x)), m1) ->
  answers o' (cmp x) -> set_exec e (SetInsert o' x) m1 = (Ret b, m2) ->
  b = SetBool true /\ (set_shows m2 t <-> exists path, stree_at path t = snode sleaf x sleaf).
Proof using Hlaw.
  intros Hr Hs Hb Hf Ho He Ho' He'. destruct (set_call_tree _ _ _ _ _ _ Hr Hs He) as (u & _ & _ & -> & _).
  apply values_sorted, (bst_sorted _ Hlaw) in Hb.
  destruct (set_take_tree _ _ _ _ _ _ _ Hr Hs Ho He) as (Hr1 & Hs1 & [= E]).
  destruct (set_insert_tree _ _ _ _ _ _ _ Hr1 Hs1 Ho' He') as (_ & Hs2 & ->).
  destruct (tree_find f u) as [[x' []]|] eqn:Ef; [|done]. injection E as <-.
  destruct (remove_insert cmp Hlaw f x tt u Hf Hb Ef) as [Hn Hi]. rewrite Hn. split; [done|]. rewrite <- values_leaf, <- Hi. split.
  - intros H. apply values_tree_inj. by apply (set_shows_fun _ _ _ Hs2 H) || by apply (set_shows_fun _ _ _ H Hs2).
  - intros Hu. by rewrite Hu in Hs2.
Qed.

(** SimpleBSTSet *)
Lemma sset_insert_tree e (m : sset T) (u : tree T unit) o x b m' : sset_reachable e m -> sset_shows m (values_tree u) -> answers o (cmp x) ->
  sset_exec e (SetInsert o x) m = (Ret b, m') ->
  sset_reachable e m' /\ sset_shows m' (values_tree (tree_insert cmp x tt u)) /\
  b = SetBool (match tree_find (cmp x) u with None => true | Some _ => false end).
Proof using Hlaw.
  intros Hr Hs Ho He. destruct (sset_call_tree2 _ (SetInsert o x) _ _ _ _ Hr Hs eq_refl He) as [[? _]|(u0 & u' & y & <-%values_tree_inj & Hs' & Hst & Hy)]; [done|].
  apply stree_otree in Hst; [|by left].
  destruct y as [y| | | |]; try done. destruct (insert_call_tree cmp Hlaw _ _ _ _ _ _ Ho Hst) as [-> ->]. injection Hy as ->. split_and!; [|done|].
  - exact (proj2 (sset_never_fails _ (SetInsert o x) _ _ _ Hr eq_refl He) ltac:(done)).
  - cbn. by destruct (tree_find (cmp x) u).
Qed.

Lemma sset_take_tree e (m : sset T) (u : tree T unit) o f r m' : sset_reachable e m -> sset_shows m (values_tree u) -> surely o f ->
  sset_exec e (SetTake o) m = (r, m') -> r <> Abort ->
  sset_reachable e m' /\ sset_shows m' (values_tree (tree_remove f u)) /\ r = Ret (SetValue (fst <$> tree_find f u)).
Proof using Hlaw.
  intros Hr Hs Ho He Ha. destruct (sset_call_tree2 _ (SetTake o) _ _ _ _ Hr Hs eq_refl He) as [[? _]|(u0 & u' & y & <-%values_tree_inj & Hs' & Hst & ->)]; [done|].
  apply stree_otree in Hst; [|auto].
  destruct (remove_call_tree cmp Hlaw _ _ _ _ _ Ho Hst) as [-> ->]. split_and!; [|done|done].
  exact (proj2 (sset_never_fails _ (SetTake o) _ _ _ Hr eq_refl He) Ha).
Qed.

Lemma sset_insert_remove e (m : sset T) t o x m1 o' f r m2 :
  sset_reachable e m -> sset_shows m t -> answers o (cmp x) -> sset_exec e (SetInsert o x) m = (Ret (SetBool true), m1) ->
  is_query cmp f -> f x = Eq -> surely o' f -> sset_exec e (SetTake o') m1 = (r, m2) -> r <> Abort ->
  r = Ret (SetValue (Some x)) /\ sset_shows m2 t.
Proof using Hlaw.
  intros Hr Hs Ho He Hf Hk Ho' He' Ha. destruct (sset_call_tree2 _ (SetInsert o x) _ _ _ _ Hr Hs eq_refl He) as [[? _]|(u & _ & _ & -> & _)]; [done|].
  destruct (sset_insert_tree _ _ _ _ _ _ _ Hr Hs Ho He) as (Hr1 & Hs1 & [= E]).
  destruct (sset_take_tree _ _ _ _ _ _ _ Hr1 Hs1 Ho' He' Ha) as (_ & Hs2 & ->).
  assert (Hn : tree_find f u = None) by (rewrite (find_like f x u Hf Hk); by destruct (tree_find (cmp x) u)).
  destruct (insert_remove cmp f x tt u (fun y => query_like cmp f x y Hf Hk) Hk Hn) as [E1 E2]. rewrite E1 in Hs2. by rewrite E2.
Qed.

Lemma sset_remove_insert e (m : sset T) t o f x m1 o' b m2 :
  sset_reachable e m -> sset_shows m t -> set_sorted cmp (stree_order In t) -> is_query cmp f -> surely o f ->
  sset_exec e (SetTake o) m = (Ret (SetValue (Some x)), m1) ->
  answers o' (cmp x) -> sset_exec e (SetInsert o' x) m1 = (Ret b, m2) ->
  b = SetBool true /\ (sset_shows m2 t <-> exists path, stree_at path t = snode sleaf x sleaf).
Proof using Hlaw.
  intros Hr Hs Hb Hf Ho He Ho' He'. destruct (sset_call_tree2 _ (SetTake o) _ _ _ _ Hr Hs eq_refl He) as [[? _]|(u & _ & _ & -> & _)]; [done|].
  apply values_sorted, (bst_sorted _ Hlaw) in Hb.
  destruct (sset_take_tree _ _ _ _ _ _ _ Hr Hs Ho He ltac:(done)) as (Hr1 & Hs1 & [= E]).
  destruct (sset_insert_tree _ _ _ _ _ _ _ Hr1 Hs1 Ho' He') as (_ & Hs2 & ->).
  destruct (tree_find f u) as [[x' []]|] eqn:Ef; [|done]. injection E as <-.
  destruct (remove_insert cmp Hlaw f x tt u Hf Hb Ef) as [Hn Hi]. rewrite Hn. split; [done|]. rewrite <- values_leaf, <- Hi. split.
  - intros H. apply values_tree_inj. exact (sset_exposes_fun _ _ _ H _ Hs2).
  - intros Hu. by rewrite Hu in Hs2.
Qed.
End sets.
