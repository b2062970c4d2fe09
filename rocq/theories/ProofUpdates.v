(** * Proofs: what updates do to the cost of lookups *)

From Coq Require Import String.
From Verif Require Import SpecUpdates ProofSimpleCost ProofCost ProofSetSafety ProofSetDrops ProofSimpleProps ProofMapProps ProofObs ProofOracle SpecFacts SpecSteps.

(** ** Trees *)
Section trees.
Context {K V : Type}.
Implicit Types t l r : tree K V.

(** The number of keys on the search path. *)
Fixpoint path_length (f : K -> comparison) t : nat :=
  match t with
  | tleaf => 0
  | tnode l k v r =>
    match f k with
    | Lt => S (path_length f l)
    | Gt => S (path_length f r)
    | Eq => 1
    end
  end.

Lemma find_at_most f n t : forall i, i <= n ->
  otree_find (at_most n f) i t = if path_length f t + i <=? n then Some (tree_find f t) else None.
Proof.
  induction t as [|l IHl k v r IHr]; intros i Hi; cbn [otree_find path_length tree_find].
  - by rewrite (proj2 (Nat.leb_le (0 + i) n)) by lia.
  - unfold at_most, first_answers, always at 1. destruct (Nat.ltb_spec i n) as [Hl|Hl].
    + destruct (f k).
      * by rewrite (proj2 (Nat.leb_le (1 + i) n)) by lia.
      * fold (always f) (first_answers n (always f)). change (first_answers n (always f)) with (at_most n f).
        rewrite IHl by lia. by rewrite Nat.add_succ_comm.
      * change (fun i0 k0 => if i0 <? n then _ else None) with (at_most n f).
        rewrite IHr by lia. by rewrite Nat.add_succ_comm.
    + destruct (f k); by rewrite (proj2 (Nat.leb_gt _ n)) by lia.
Qed.

Lemma find_always f t : forall i, otree_find (always f) i t = Some (tree_find f t).
Proof. induction t as [|l IHl k v r IHr]; intros i; cbn [otree_find tree_find]; [done|]. unfold always at 1. destruct (f k); auto. Qed.

Lemma keys_path f t t' : tree_keys t' = tree_keys t -> path_length f t' = path_length f t.
Proof.
  revert t'. induction t as [|l IHl k v r IHr]; intros [|l' k' v' r']; cbn [tree_keys path_length]; try done.
  intros [= Hl -> Hr]. rewrite (IHl _ Hl), (IHr _ Hr). done.
Qed.

Lemma keys_height t t' : tree_keys t' = tree_keys t -> height t' = height t.
Proof.
  revert t'. induction t as [|l IHl k v r IHr]; intros [|l' k' v' r']; cbn [tree_keys height]; try done.
  intros [= Hl -> Hr]. by rewrite (IHl _ Hl), (IHr _ Hr).
Qed.

(** *** Insertion *)
Definition grown (n : nat) t t' : Prop :=
  (forall f, path_length f t <= path_length f t' <= n + path_length f t) /\
  (forall f, tree_find f t <> None -> tree_find f t' <> None /\ path_length f t' = path_length f t) /\
  height t <= height t' <= n + height t.

Lemma grown_refl n t : grown n t t.
Proof. split_and!; try lia; intros; repeat split; try lia; done. Qed.

Lemma grown_trans n n' t t1 t2 : grown n t t1 -> grown n' t1 t2 -> grown (n + n') t t2.
Proof.
  intros (H1 & H2 & H3) (G1 & G2 & G3). split_and!; [intros f|intros f Hf|lia..].
  - specialize (H1 f). specialize (G1 f). lia.
  - destruct (H2 f Hf) as [Hn E]. destruct (G2 f Hn) as [Hn' E']. split; [done|congruence].
Qed.

Lemma grown_more n n' t t' : n <= n' -> grown n t t' -> grown n' t t'.
Proof. intros Hn (H1 & H2 & H3). split_and!; try done; try lia. intros f. specialize (H1 f). lia. Qed.

Lemma insert_grown o k v t : forall i t' y, otree_insert o i k v t = Some (t', y) -> grown 1 t t'.
Proof.
  induction t as [|l IHl k' v' r IHr]; intros i t' y H; cbn [otree_insert] in H.
  - injection H as <- _. split_and!; cbn [path_length tree_find height]; [|done|lia..].
    intros f. destruct (f k); lia.
  - destruct (o i k') as [[]|]; [| | |done].
    + injection H as <- _. split_and!; cbn [path_length tree_find height]; [| |lia..].
      * intros f. destruct (f k'); lia.
      * intros f. by destruct (f k').
    + destruct (otree_insert o (S i) k v l) as [[l' y']|] eqn:E; [|done]. injection H as <- _.
      destruct (IHl _ _ _ E) as (H1 & H2 & H3). split_and!; cbn [path_length tree_find height]; [| |lia..].
      * intros f. specialize (H1 f). destruct (f k'); lia.
      * intros f. destruct (f k') eqn:Ef; try done. intros (Hn & ->)%H2. done.
    + destruct (otree_insert o (S i) k v r) as [[l' y']|] eqn:E; [|done]. injection H as <- _.
      destruct (IHr _ _ _ E) as (H1 & H2 & H3). split_and!; cbn [path_length tree_find height]; [| |lia..].
      * intros f. specialize (H1 f). destruct (f k'); lia.
      * intros f. destruct (f k') eqn:Ef; try done. intros (Hn & ->)%H2. done.
Qed.

Lemma insert_all_grown os items : forall j t, grown (length items) t (otree_insert_all os j items t).1.
Proof.
  induction items as [|[k v] items IH]; intros j t; cbn [otree_insert_all length]; [apply grown_refl|].
  destruct (otree_insert (os j k) 0 k v t) as [[t' y]|] eqn:E; [|apply grown_refl].
  apply (grown_trans 1 _ _ t'); [by eapply insert_grown|apply IH].
Qed.

(** *** Removal *)
Lemma min_height l : forall k v r, height (tree_min l k v r).2 <= S (Nat.max (height l) (height r)).
Proof.
  induction l as [|ll IHl lk lv lr IHr]; intros k v r; cbn [tree_min]; [cbn; lia|].
  specialize (IHl lk lv lr). destruct (tree_min ll lk lv lr) as [x l']. cbn [fst snd height] in *. lia.
Qed.

Lemma join_height l r : height (tree_join l r) <= S (Nat.max (height l) (height r)).
Proof.
  destruct l as [|ll lk lv lr]; [cbn; lia|]. destruct r as [|rl rk rv rr]; [cbn; lia|]. unfold tree_join.
  pose proof (min_height rl rk rv rr) as H. destruct (tree_min rl rk rv rr) as [[k v] r'].
  cbn [fst snd] in H. cbn [height] in *. lia.
Qed.

Lemma remove_height o t : forall i t' y, otree_remove o i t = Some (t', y) -> height t' <= height t.
Proof.
  induction t as [|l IHl k v r IHr]; intros i t' y H; cbn [otree_remove] in H.
  - by injection H as <- _.
  - destruct (o i k) as [[]|]; [| | |done].
    + injection H as <- _. apply join_height.
    + destruct (otree_remove o (S i) l) as [[l' y']|] eqn:E; [|done]. injection H as <- _.
      pose proof (IHl _ _ _ E). cbn [height fst]. lia.
    + destruct (otree_remove o (S i) r) as [[r' y']|] eqn:E; [|done]. injection H as <- _.
      pose proof (IHr _ _ _ E). cbn [height fst]. lia.
Qed.

Section lawful.
Variable cmp : K -> K -> comparison.
Hypothesis Hlaw : lawful cmp.

Lemma find_some_in f t : tree_find f t <> None -> exists x, x ∈ tree_inorder t /\ f x.1 = Eq.
Proof. destruct (tree_find f t) as [x|] eqn:E; [|done]. intros _. exists x. by apply tree_find_in. Qed.

Lemma query_below f k x : is_query cmp f -> f x = Eq -> cmp x k = Lt -> f k = Lt.
Proof using Hlaw.
  intros (Q & cmpQ & b & q & Hq & Hb & Hf) Hx Hk. rewrite Hf in *. rewrite (lw_cong _ Hq _ _ _ Hx). by rewrite Hb.
Qed.
Lemma query_above f k x : is_query cmp f -> f x = Eq -> cmp k x = Lt -> f k = Gt.
Proof using Hlaw.
  intros (Q & cmpQ & b & q & Hq & Hb & Hf) Hx Hk. rewrite Hf in *. rewrite (lw_cong _ Hq _ _ _ Hx).
  rewrite Hb, (lw_sym _ Hlaw), Hk. done.
Qed.

(** Without the smallest key every other has_key key is found at most as deep. *)
Lemma min_path f l : is_query cmp f -> forall k v r, bst cmp (tnode l k v r) -> tree_find f (tree_min l k v r).2 <> None ->
  path_length f (tree_min l k v r).2 <= path_length f (tnode l k v r).
Proof using Hlaw.
  intros Hf. induction l as [|ll IHl lk lv lr _]; intros k v r Hb Hn.
  - cbn [tree_min snd] in *. destruct Hb as (_ & _ & _ & Hr). destruct (find_some_in _ _ Hn) as (x & Hx & Ex).
    rewrite Forall_forall in Hr. cbn [path_length]. rewrite (query_above f k x.1 Hf Ex (Hr x Hx)). lia.
  - cbn [tree_min] in *. specialize (IHl lk lv lr). destruct (tree_min ll lk lv lr) as [x l'] eqn:E.
    cbn [snd] in *. destruct Hb as (Hb & _). specialize (IHl Hb).
    change (path_length f (tnode (tnode ll lk lv lr) k v r)) with
      (match f k with Lt => S (path_length f (tnode ll lk lv lr)) | Gt => S (path_length f r) | Eq => 1 end).
    cbn [tree_find] in Hn. change (path_length f (tnode l' k v r)) with
      (match f k with Lt => S (path_length f l') | Gt => S (path_length f r) | Eq => 1 end).
    destruct (f k); [lia| |lia]. specialize (IHl Hn). lia.
Qed.

Lemma join_path f l k v r : is_query cmp f -> bst cmp (tnode l k v r) -> tree_find f (tree_join l r) <> None ->
  path_length f (tree_join l r) <= path_length f (tnode l k v r).
Proof using Hlaw.
  intros Hf (Hl & Hr & Fl & Fr) Hn. rewrite Forall_forall in Fl, Fr.
  assert (Bl : forall u, (forall x, x ∈ tree_inorder u -> x ∈ tree_inorder l) -> tree_find f u <> None -> f k = Lt).
  { intros u Hu (x & Hx & Ex)%find_some_in. apply (query_below f k x.1 Hf Ex). by apply Fl, Hu. }
  assert (Br : forall u, (forall x, x ∈ tree_inorder u -> x ∈ tree_inorder r) -> tree_find f u <> None -> f k = Gt).
  { intros u Hu (x & Hx & Ex)%find_some_in. apply (query_above f k x.1 Hf Ex). by apply Fr, Hu. }
  assert (Hnode : path_length f (tnode l k v r) =
    match f k with Lt => S (path_length f l) | Gt => S (path_length f r) | Eq => 1 end) by done.
  destruct l as [|ll lk lv lr].
  { cbn [tree_join] in *. rewrite Hnode, (Br r); [lia|done|done]. }
  destruct r as [|rl rk rv rr].
  { cbn [tree_join] in *. rewrite Hnode, (Bl (tnode ll lk lv lr)); [lia|done|done]. }
  unfold tree_join in *. pose proof (min_path f rl Hf rk rv rr Hr) as Hm.
  destruct (tree_min rl rk rv rr) as [[k0 v0] r'] eqn:E. cbn [snd] in Hm.
  assert (Hnode' : path_length f (tnode (tnode ll lk lv lr) k0 v0 r') =
    match f k0 with Lt => S (path_length f (tnode ll lk lv lr)) | Gt => S (path_length f r') | Eq => 1 end) by done.
  rewrite Hnode, Hnode'. cbn [tree_find] in Hn. destruct (f k0) eqn:E0.
  - destruct (f k); lia.
  - rewrite (Bl (tnode ll lk lv lr)); [lia|done|done].
  - rewrite (Br r'); [specialize (Hm Hn); lia| |done]. intros x Hx. rewrite (tree_min_inorder _ _ _ _ _ _ E). by right.
Qed.

Lemma remove_path o f t : is_query cmp f -> bst cmp t -> forall i t' y, otree_remove o i t = Some (t', y) ->
  tree_find f t' <> None -> path_length f t' <= path_length f t.
Proof using Hlaw.
  intros Hf. induction t as [|l IHl k v r IHr]; intros Hb i t' y H Hn; cbn [otree_remove] in H.
  - by injection H as <- _.
  - destruct (o i k) as [[]|]; [| | |done].
    + injection H as <- _. by apply join_path.
    + destruct (otree_remove o (S i) l) as [[l' y']|] eqn:E; [|done]. injection H as <- _.
      destruct Hb as (Hl & Hr & _). specialize (IHl Hl _ _ _ E). cbn [fst tree_find path_length] in *.
      destruct (f k); [lia| |lia]. specialize (IHl Hn). lia.
    + destruct (otree_remove o (S i) r) as [[l' y']|] eqn:E; [|done]. injection H as <- _.
      destruct Hb as (Hl & Hr & _). specialize (IHr Hr _ _ _ E). cbn [fst tree_find path_length] in *.
      destruct (f k); [lia|lia|]. specialize (IHr Hn). lia.
Qed.
End lawful.

(** *** Assignments *)
Lemma otree_set_keys o w t : forall i, tree_keys (otree_set o i w t) = tree_keys t.
Proof.
  induction t as [|l IHl k v r IHr]; intros i; cbn [otree_set tree_keys]; [done|].
  destruct (o i k) as [[]|]; cbn [tree_keys]; rewrite ?IHl, ?IHr; done.
Qed.

Lemma write_at_keys path w : forall t, tree_keys (tree_write_at path w t) = tree_keys t.
Proof.
  induction path as [|[] path IH]; intros [|l k v r]; cbn [tree_write_at tree_keys]; try done; by rewrite IH.
Qed.

(** *** One call *)
Lemma step_adds c n t x t' : adding c = Some n -> otree_step t c x t' -> grown n t t'.
Proof.
  intros Hc [Hs|[Hs|Hs]]; destruct c; try done; cbn [adding] in Hc; injection Hc as <-; cbn in Hs.
  - injection Hs as _ <-. destruct (otree_insert o 0 k v t) as [[t1 y]|] eqn:E; [by eapply insert_grown|apply grown_refl].
  - injection Hs as _ <-. apply insert_all_grown.
  - destruct Hs as [_ ->]. apply grown_refl.
  - destruct Hs as (_ & n & E). pose proof (insert_all_grown os (take n (ui_items it)) 0 t) as H. rewrite E in H.
    eapply grown_more; [|exact H]. rewrite take_length. lia.
Qed.

Lemma step_keeps c t x t' : keeps_keys c = true -> otree_step t c x t' -> tree_keys t' = tree_keys t.
Proof.
  intros Hc [Hs|[Hs|Hs]]; destruct c; try done; cbn in Hs.
  all: try (injection Hs as _ <-; try destruct w; rewrite ?otree_set_keys, ?write_at_keys; done).
  all: naive_solver.
Qed.

Lemma step_removes c t x t' : removing c = true -> otree_step t c x t' ->
  exists o, t' = t \/ exists y, otree_remove o 0 t = Some (t', y).
Proof.
  intros Hc [Hs|[Hs|Hs]]; destruct c; try done; cbn in Hs; injection Hs as _ <-; exists o;
    destruct (otree_remove o 0 t) as [[t1 y]|]; cbn; eauto.
Qed.

Lemma step_get t f n x t' : otree_step t (OGet (at_most n f)) x t' ->
  x = if path_length f t <=? n then Ret (OutValue (snd <$> tree_find f t)) else Panic PCmp.
Proof.
  intros [Hs|[Hs|Hs]]; [|done..]. cbn [otree_call] in Hs. rewrite find_at_most in Hs by lia. rewrite Nat.add_0_r in Hs.
  injection Hs as <- _. by destruct (path_length f t <=? n).
Qed.

Lemma step_get_always t f x t' : otree_step t (OGet (always f)) x t' -> x = Ret (OutValue (snd <$> tree_find f t)).
Proof. intros [Hs|[Hs|Hs]]; [|done..]. cbn [otree_call] in Hs. rewrite find_always in Hs. by injection Hs as <- _. Qed.

End trees.

(** ** BSTMap *)
Section bstmaps.
Context {K V : Type}.
Implicit Types (m : bstmap K V) (t : tree K V).

Lemma answered_path e m t f n : reachable e m -> shows m t -> answered e m f n <-> path_length f t <= n.
Proof.
  intros Hr Hs. unfold answered. destruct (exec e (OGet (at_most n f)) m) as [x m'] eqn:E.
  destruct (any_comparator_call _ _ _ _ _ _ Hr Hs E) as (t' & _ & Hst). apply step_get in Hst as ->. cbn [fst].
  destruct (Nat.leb_spec (path_length f t) n); split; intros; try done; lia.
Qed.

Lemma has_key_find e m t f : reachable e m -> shows m t -> has_key e m f <-> tree_find f t <> None.
Proof.
  intros Hr Hs. unfold has_key. destruct (exec e (OGet (always f)) m) as [x m'] eqn:E.
  destruct (any_comparator_call _ _ _ _ _ _ Hr Hs E) as (t' & _ & Hst). apply step_get_always in Hst as ->. cbn [fst].
  destruct (tree_find f t) as [[k v]|]; cbn; split; try done; [by exists v|by intros [? ?]].
Qed.

Lemma update_adds e c n m t r m' t' : reachable e m -> shows m t -> adding c = Some n -> exec e c m = (r, m') -> r <> Abort ->
  shows m' t' ->
  (forall f i, answered e m' f i -> answered e m f i) /\
  (forall f i, answered e m f i -> answered e m' f (n + i)) /\
  (forall f, has_key e m f -> has_key e m' f /\ forall i, answered e m f i <-> answered e m' f i) /\
  height t <= height t' <= n + height t.
Proof.
  intros Hr Hs Hc He Ha Hs'. pose proof (reachable_step _ _ _ _ _ Hr He Ha) as Hr'.
  destruct (any_comparator_call _ _ _ _ _ _ Hr Hs He) as (t1 & Ht1 & Hst).
  pose proof (shows_fun _ _ _ Hs' Ht1) as ->. destruct (step_adds _ _ _ _ _ Hc Hst) as (H1 & H2 & H3).
  split_and!; [| | |lia..].
  - intros f i. rewrite (answered_path _ _ _ _ _ Hr Hs), (answered_path _ _ _ _ _ Hr' Hs'). specialize (H1 f). lia.
  - intros f i. rewrite (answered_path _ _ _ _ _ Hr Hs), (answered_path _ _ _ _ _ Hr' Hs'). specialize (H1 f). lia.
  - intros f. rewrite (has_key_find _ _ _ _ Hr Hs), (has_key_find _ _ _ _ Hr' Hs'). intros (Hn & E)%H2. split; [done|].
    intros i. rewrite (answered_path _ _ _ _ _ Hr Hs), (answered_path _ _ _ _ _ Hr' Hs'), E. done.
Qed.

Lemma update_removes (cmp : K -> K -> comparison) : lawful cmp -> forall e c m t r m' t',
  reachable e m -> shows m t -> sorted cmp (tree_inorder t) -> removing c = true -> exec e c m = (r, m') -> shows m' t' ->
  r <> Abort /\ (forall f i, is_query cmp f -> has_key e m' f -> answered e m f i -> answered e m' f i) /\
  height t' <= height t.
Proof.
  intros Hlaw e c m t r m' t' Hr Hs Hb Hc He Hs'. apply (bst_sorted _ Hlaw) in Hb.
  destruct (any_comparator_call _ _ _ _ _ _ Hr Hs He) as (t1 & Ht1 & Hst).
  pose proof (shows_fun _ _ _ Hs' Ht1) as ->.
  assert (Ha : r <> Abort).
  { intros ->. destruct Hst as [Hst|[Hst|Hst]]; destruct c; try done; cbn in Hst;
      destruct (otree_remove o 0 t); done. }
  pose proof (reachable_step _ _ _ _ _ Hr He Ha) as Hr'.
  destruct (step_removes _ _ _ _ Hc Hst) as [o Hrem]. split_and!; [done| |].
  - intros f i Hf. rewrite (has_key_find _ _ _ _ Hr' Hs'), (answered_path _ _ _ _ _ Hr Hs), (answered_path _ _ _ _ _ Hr' Hs').
    intros Hn Hi. destruct Hrem as [->|[y Hrem]]; [done|]. pose proof (remove_path _ Hlaw _ _ _ Hf Hb _ _ _ Hrem Hn). lia.
  - destruct Hrem as [->|[y Hrem]]; [lia|]. by eapply remove_height.
Qed.

Lemma update_keeps e c m t r m' t' : reachable e m -> shows m t -> keeps_keys c = true -> exec e c m = (r, m') -> r <> Abort ->
  shows m' t' -> (forall f i, answered e m' f i <-> answered e m f i) /\ height t' = height t.
Proof.
  intros Hr Hs Hc He Ha Hs'. pose proof (reachable_step _ _ _ _ _ Hr He Ha) as Hr'.
  destruct (any_comparator_call _ _ _ _ _ _ Hr Hs He) as (t1 & Ht1 & Hst).
  pose proof (shows_fun _ _ _ Hs' Ht1) as ->. pose proof (step_keeps _ _ _ _ Hc Hst) as Hk. split; [|by apply keys_height].
  intros f i. rewrite (answered_path _ _ _ _ _ Hr Hs), (answered_path _ _ _ _ _ Hr' Hs'). by rewrite (keys_path f _ _ Hk).
Qed.
End bstmaps.

(** ** SimpleBSTMap *)
Section simplemaps.
Context {K V : Type}.
Implicit Types (m : simple K V) (t : tree K V).

Lemma simple_call_tree e c m t r m' : simple_reachable e m -> simple_shows m t -> simple_has c = true -> simple_exec e c m = (r, m') ->
  r <> Abort -> exists t', simple_shows m' t' /\ stree_call c t = Some (r, t').
Proof.
  intros Hr Hs Hc He Ha. destruct (simple_reachable_rep e m Hr) as (pt & Hrep).
  rewrite (simple_rep_shows_eq _ _ _ Hrep Hs). destruct (simple_exec_cases e c m pt r m' Hrep Hc He) as [[? _]|(pt' & Hrep' & Hst & _)]; [done|].
  exists (erase pt'). split; [by apply simple_rep_shows|done].
Qed.

Lemma simple_shows_fun m t t' : simple_shows m t -> simple_shows m t' -> t' = t.
Proof.
  unfold simple_shows. generalize (simple_root m). intros p H. revert t'.
  induction H as [|p n l r Hp Hl IHl Hr IHr]; intros t' H'; inversion H' as [|p' n' l' r' Hp' Hl' Hr']; subst; [done|].
  rewrite Hp in Hp'. injection Hp' as <-. by rewrite (IHl _ Hl'), (IHr _ Hr').
Qed.

Lemma stree_otree c t r t' : stree_call c t = Some (r, t') -> adding c <> None \/ removing c = true \/ c = OGet (match c with OGet o => o | _ => fun _ _ => None end) ->
  otree_step t c r t'.
Proof. intros H Hc. left. destruct c; naive_solver. Qed.

Lemma simple_get_ok e o m : simple_reachable e m -> (simple_exec e (OGet o) m).1 <> Abort.
Proof.
  intros Hr Ha. destruct (simple_exec e (OGet o) m) as [r m'] eqn:E. cbn [fst] in Ha. subst r.
  destruct (simple_never_fails e (OGet o) m Abort m' Hr eq_refl E) as [[[? ?]|[(? & ? & _)|[_ ?]]] _]; done.
Qed.

Lemma simple_answered_path e m t f n : simple_reachable e m -> simple_shows m t -> simple_answered e m f n <-> path_length f t <= n.
Proof.
  intros Hr Hs. unfold simple_answered. pose proof (simple_get_ok e (at_most n f) m Hr) as Ha.
  destruct (simple_exec e (OGet (at_most n f)) m) as [x m'] eqn:E.
  destruct (simple_call_tree e (OGet (at_most n f)) _ _ _ _ Hr Hs eq_refl E Ha) as (t' & _ & Hst).
  apply stree_otree in Hst; [|auto]. apply step_get in Hst as ->. cbn [fst].
  destruct (Nat.leb_spec (path_length f t) n); split; intros; try done; lia.
Qed.

Lemma simple_has_key_find e m t f : simple_reachable e m -> simple_shows m t -> simple_has_key e m f <-> tree_find f t <> None.
Proof.
  intros Hr Hs. unfold simple_has_key. pose proof (simple_get_ok e (always f) m Hr) as Ha.
  destruct (simple_exec e (OGet (always f)) m) as [x m'] eqn:E.
  destruct (simple_call_tree e (OGet (always f)) _ _ _ _ Hr Hs eq_refl E Ha) as (t' & _ & Hst).
  apply stree_otree in Hst; [|auto]. apply step_get_always in Hst as ->. cbn [fst].
  destruct (tree_find f t) as [[k v]|]; cbn; split; try done; [by exists v|by intros [? ?]].
Qed.

Lemma simple_update_adds e c n m t r m' t' : simple_reachable e m -> simple_shows m t -> adding c = Some n ->
  simple_exec e c m = (r, m') -> r <> Abort -> simple_shows m' t' ->
  (forall f i, simple_answered e m' f i -> simple_answered e m f i) /\
  (forall f i, simple_answered e m f i -> simple_answered e m' f (n + i)) /\
  (forall f, simple_has_key e m f -> simple_has_key e m' f /\ forall i, simple_answered e m f i <-> simple_answered e m' f i) /\
  height t <= height t' <= n + height t.
Proof.
  intros Hr Hs Hc He Ha Hs'. assert (Hh : simple_has c = true) by (by destruct c).
  pose proof (proj2 (simple_never_fails _ _ _ _ _ Hr Hh He) Ha) as Hr'.
  destruct (simple_call_tree _ _ _ _ _ _ Hr Hs Hh He Ha) as (t1 & Ht1 & Hst).
  pose proof (simple_shows_fun _ _ _ Hs' Ht1) as ->. apply stree_otree in Hst; [|left; by rewrite Hc].
  destruct (step_adds _ _ _ _ _ Hc Hst) as (H1 & H2 & H3).
  split_and!; [| | |lia..].
  - intros f i. rewrite (simple_answered_path _ _ _ _ _ Hr Hs), (simple_answered_path _ _ _ _ _ Hr' Hs'). specialize (H1 f). lia.
  - intros f i. rewrite (simple_answered_path _ _ _ _ _ Hr Hs), (simple_answered_path _ _ _ _ _ Hr' Hs'). specialize (H1 f). lia.
  - intros f. rewrite (simple_has_key_find _ _ _ _ Hr Hs), (simple_has_key_find _ _ _ _ Hr' Hs'). intros (Hn & E)%H2. split; [done|].
    intros i. rewrite (simple_answered_path _ _ _ _ _ Hr Hs), (simple_answered_path _ _ _ _ _ Hr' Hs'), E. done.
Qed.

Lemma simple_update_removes (cmp : K -> K -> comparison) : lawful cmp -> forall e c m t r m' t',
  simple_reachable e m -> simple_shows m t -> sorted cmp (tree_inorder t) -> removing c = true ->
  simple_exec e c m = (r, m') -> r <> Abort -> simple_shows m' t' ->
  (forall f i, is_query cmp f -> simple_has_key e m' f -> simple_answered e m f i -> simple_answered e m' f i) /\
  height t' <= height t.
Proof.
  intros Hlaw e c m t r m' t' Hr Hs Hb Hc He Ha Hs'. apply (bst_sorted _ Hlaw) in Hb. assert (Hh : simple_has c = true) by (by destruct c).
  pose proof (proj2 (simple_never_fails _ _ _ _ _ Hr Hh He) Ha) as Hr'.
  destruct (simple_call_tree _ _ _ _ _ _ Hr Hs Hh He Ha) as (t1 & Ht1 & Hst).
  pose proof (simple_shows_fun _ _ _ Hs' Ht1) as ->. apply stree_otree in Hst; [|auto].
  destruct (step_removes _ _ _ _ Hc Hst) as [o Hrem]. split.
  - intros f i Hf. rewrite (simple_has_key_find _ _ _ _ Hr' Hs'), (simple_answered_path _ _ _ _ _ Hr Hs), (simple_answered_path _ _ _ _ _ Hr' Hs').
    intros Hn Hi. destruct Hrem as [->|[y Hrem]]; [done|]. pose proof (remove_path _ Hlaw _ _ _ Hf Hb _ _ _ Hrem Hn). lia.
  - destruct Hrem as [->|[y Hrem]]; [lia|]. by eapply remove_height.
Qed.

Lemma simple_update_keeps e c m t r m' t' : simple_reachable e m -> simple_shows m t -> simple_has c = true -> keeps_keys c = true ->
  simple_exec e c m = (r, m') -> simple_shows m' t' ->
  (forall f i, simple_answered e m' f i <-> simple_answered e m f i) /\ height t' = height t.
Proof.
  intros Hr Hs Hh Hc He Hs'.
  assert (Ha : r <> Abort).
  { intros ->. destruct (simple_never_fails _ _ _ _ _ Hr Hh He) as [[[? ?]|[(? & ? & _)|[_ ?]]] _]; [done..|]. by destruct c. }
  pose proof (proj2 (simple_never_fails _ _ _ _ _ Hr Hh He) Ha) as Hr'.
  destruct (simple_call_tree _ _ _ _ _ _ Hr Hs Hh He Ha) as (t1 & Ht1 & Hst).
  pose proof (simple_shows_fun _ _ _ Hs' Ht1) as ->.
  assert (Hk : tree_keys t' = tree_keys t).
  { destruct c; try done; cbn [stree_call] in Hst; try (apply (step_keeps _ _ r _ Hc); left; exact Hst);
      by injection Hst as _ <-. }
  split; [|by apply keys_height].
  intros f i. rewrite (simple_answered_path _ _ _ _ _ Hr Hs), (simple_answered_path _ _ _ _ _ Hr' Hs'). by rewrite (keys_path f _ _ Hk).
Qed.
End simplemaps.

(** ** BSTSet *)
Section sets.
Context {T : Type}.

Lemma to_map_adding (c : set_op T) : adding (to_map c) = set_adding c.
Proof. destruct c; cbn; try done. by rewrite fmap_length. Qed.
Lemma to_map_removing (c : set_op T) : removing (to_map c) = set_removing c.
Proof. by destruct c. Qed.
Lemma to_map_keeps (c : set_op T) : keeps_keys (to_map c) = set_keeps c.
Proof. by destruct c. Qed.

Lemma values_sorted cmp (t : tree T unit) : set_sorted cmp (stree_order In (values_tree t)) -> sorted cmp (tree_inorder t).
Proof.
  rewrite stree_order_values. change (tree_order In t) with (tree_inorder t). generalize (tree_inorder t). intros l.
  induction l as [|x l IH]; [constructor|]. rewrite fmap_cons. intros H. inversion H as [|? ? Hs Hf]; subst. constructor; [by apply IH|].
  by rewrite Forall_fmap in Hf.
Qed.

Lemma step_contains (t : tree T unit) f n x t' : otree_step t (OContains (at_most n f)) x t' ->
  x = if path_length f t <=? n then Ret (OutBool (match tree_find f t with Some _ => true | None => false end)) else Panic PCmp.
Proof.
  intros [Hs|[Hs|Hs]]; [|done..]. cbn [otree_call] in Hs. rewrite find_at_most in Hs by lia. rewrite Nat.add_0_r in Hs.
  injection Hs as <- _. by destruct (path_length f t <=? n).
Qed.
Lemma step_contains_always (t : tree T unit) f x t' : otree_step t (OContains (always f)) x t' ->
  x = Ret (OutBool (match tree_find f t with Some _ => true | None => false end)).
Proof. intros [Hs|[Hs|Hs]]; [|done..]. cbn [otree_call] in Hs. rewrite find_always in Hs. by injection Hs as <- _. Qed.

Section bstset.
Implicit Types m : bstset T.

Lemma set_call_tree e c m (st : stree T) x m' : set_reachable e m -> set_shows m st -> set_exec e c m = (x, m') ->
  exists t t' r, st = values_tree t /\ set_shows m' (values_tree t') /\ otree_step t (to_map c) r t' /\ x = rmap (from_out t c) r.
Proof.
  intros Hm Hs Hx. destruct (set_reachable_rep _ _ Hm) as (Hr & pt & fl & Hrep).
  pose proof (set_shows_fun _ _ _ (set_shows_rep _ _ _ Hrep) Hs) as ->.
  destruct (set_exec_inv _ _ _ _ _ _ _ Hrep Hx) as (r & He & ->).
  destruct (exec_otree _ _ _ _ _ _ _ Hrep He) as (pt' & fl' & Hrep' & Hst).
  exists (erase pt), (erase pt'), r. split_and!; try done. by eapply set_shows_rep.
Qed.

Lemma set_answered_path e m t f n : set_reachable e m -> set_shows m (values_tree t) -> set_answered e m f n <-> path_length f t <= n.
Proof.
  intros Hr Hs. unfold set_answered. destruct (set_exec e (SetContains (at_most n f)) m) as [x m'] eqn:E.
  destruct (set_call_tree _ _ _ _ _ _ Hr Hs E) as (t0 & t' & r & <-%values_tree_inj & _ & Hst & ->). apply step_contains in Hst as ->. cbn [fst].
  destruct (Nat.leb_spec (path_length f t) n); split; intros; try done; lia.
Qed.

Lemma set_contains_find e m t f : set_reachable e m -> set_shows m (values_tree t) -> set_contains_it e m f <-> tree_find f t <> None.
Proof.
  intros Hr Hs. unfold set_contains_it. destruct (set_exec e (SetContains (always f)) m) as [x m'] eqn:E.
  destruct (set_call_tree _ _ _ _ _ _ Hr Hs E) as (t0 & t' & r & <-%values_tree_inj & _ & Hst & ->). apply step_contains_always in Hst as ->. cbn [fst].
  by destruct (tree_find f t) as [[k v]|].
Qed.

Lemma set_update_adds e c n m t r m' t' : set_reachable e m -> set_shows m t -> set_adding c = Some n ->
  set_exec e c m = (r, m') -> r <> Abort -> set_shows m' t' ->
  (forall f i, set_answered e m' f i -> set_answered e m f i) /\
  (forall f i, set_answered e m f i -> set_answered e m' f (n + i)) /\
  (forall f, set_contains_it e m f -> set_contains_it e m' f /\ forall i, set_answered e m f i <-> set_answered e m' f i) /\
  sheight t <= sheight t' <= n + sheight t.
Proof.
  intros Hr Hs Hc He Ha Hs'. pose proof (set_reachable_step _ _ _ _ _ Hr He Ha) as Hr'.
  destruct (set_call_tree _ _ _ _ _ _ Hr Hs He) as (u & u' & y & -> & Ht1 & Hst & _).
  pose proof (set_shows_fun _ _ _ Hs' Ht1) as <-. rewrite <- to_map_adding in Hc. destruct (step_adds _ _ _ _ _ Hc Hst) as (H1 & H2 & H3).
  rewrite !vt_height. split_and!; [| | |lia..].
  - intros f i. rewrite (set_answered_path _ _ _ _ _ Hr Hs), (set_answered_path _ _ _ _ _ Hr' Hs'). specialize (H1 f). lia.
  - intros f i. rewrite (set_answered_path _ _ _ _ _ Hr Hs), (set_answered_path _ _ _ _ _ Hr' Hs'). specialize (H1 f). lia.
  - intros f. rewrite (set_contains_find _ _ _ _ Hr Hs), (set_contains_find _ _ _ _ Hr' Hs'). intros (Hn & E)%H2. split; [done|].
    intros i. rewrite (set_answered_path _ _ _ _ _ Hr Hs), (set_answered_path _ _ _ _ _ Hr' Hs'), E. done.
Qed.

Lemma set_update_removes (cmp : T -> T -> comparison) : lawful cmp -> forall e c m t r m' t',
  set_reachable e m -> set_shows m t -> set_sorted cmp (stree_order In t) -> set_removing c = true ->
  set_exec e c m = (r, m') -> set_shows m' t' ->
  r <> Abort /\ (forall f i, is_query cmp f -> set_contains_it e m' f -> set_answered e m f i -> set_answered e m' f i) /\
  sheight t' <= sheight t.
Proof.
  intros Hlaw e c m t r m' t' Hr Hs Hb Hc He Hs'.
  destruct (set_call_tree _ _ _ _ _ _ Hr Hs He) as (u & u' & y & -> & Ht1 & Hst & Hy).
  pose proof (set_shows_fun _ _ _ Hs' Ht1) as <-. apply values_sorted, (bst_sorted _ Hlaw) in Hb. rewrite <- to_map_removing in Hc.
  assert (Ha : r <> Abort).
  { intros ->. destruct y; try done. destruct Hst as [Hst|[Hst|Hst]]; destruct c; try done; cbn in Hst;
      destruct (otree_remove o 0 u); done. }
  pose proof (set_reachable_step _ _ _ _ _ Hr He Ha) as Hr'. rewrite !vt_height.
  destruct (step_removes _ _ _ _ Hc Hst) as [o Hrem]. split_and!; [done| |].
  - intros f i Hf. rewrite (set_contains_find _ _ _ _ Hr' Hs'), (set_answered_path _ _ _ _ _ Hr Hs), (set_answered_path _ _ _ _ _ Hr' Hs').
    intros Hn Hi. destruct Hrem as [->|[z Hrem]]; [done|]. pose proof (remove_path _ Hlaw _ _ _ Hf Hb _ _ _ Hrem Hn). lia.
  - destruct Hrem as [->|[z Hrem]]; [lia|]. by eapply remove_height.
Qed.

Lemma set_update_keeps e c m t r m' t' : set_reachable e m -> set_shows m t -> set_keeps c = true -> set_exec e c m = (r, m') -> r <> Abort ->
  set_shows m' t' -> (forall f i, set_answered e m' f i <-> set_answered e m f i) /\ sheight t' = sheight t.
Proof.
  intros Hr Hs Hc He Ha Hs'. pose proof (set_reachable_step _ _ _ _ _ Hr He Ha) as Hr'.
  destruct (set_call_tree _ _ _ _ _ _ Hr Hs He) as (u & u' & y & -> & Ht1 & Hst & _).
  pose proof (set_shows_fun _ _ _ Hs' Ht1) as <-. rewrite <- to_map_keeps in Hc. pose proof (step_keeps _ _ _ _ Hc Hst) as Hk.
  rewrite !vt_height. split; [|by apply keys_height].
  intros f i. rewrite (set_answered_path _ _ _ _ _ Hr Hs), (set_answered_path _ _ _ _ _ Hr' Hs'). by rewrite (keys_path f _ _ Hk).
Qed.
End bstset.

(** ** SimpleBSTSet *)
Section simpleset.
Implicit Types m : sset T.

Lemma sset_call_tree2 e c m (st : stree T) x m' : sset_reachable e m -> sset_shows m st -> sset_has c = true -> sset_exec e c m = (x, m') ->
  (x = Abort /\ set_allocates c = true) \/
  exists t t' r, st = values_tree t /\ sset_shows m' (values_tree t') /\ stree_call (to_map c) t = Some (r, t') /\ x = rmap (sfrom_out t c) r.
Proof.
  intros Hm Hs Hc Hx. destruct (sset_reachable_rep _ _ Hm) as (pt & Hrep).
  pose proof (sset_exposes_fun _ _ _ Hs _ (sset_rep_shows _ _ Hrep)) as <-.
  destruct (sset_exec_cases _ _ _ _ _ _ Hrep Hc Hx) as [?|(r & pt' & -> & Hrep' & Hst & _)]; [by left|right].
  exists (erase pt), (erase pt'), r. split_and!; try done. by apply sset_rep_shows.
Qed.

Lemma sset_answered_path e m t f n : sset_reachable e m -> sset_shows m (values_tree t) -> sset_answered e m f n <-> path_length f t <= n.
Proof.
  intros Hr Hs. unfold sset_answered. destruct (sset_exec e (SetContains (at_most n f)) m) as [x m'] eqn:E.
  destruct (sset_call_tree2 e (SetContains (at_most n f)) _ _ _ _ Hr Hs eq_refl E) as [[_ ?]|(t0 & t' & r & <-%values_tree_inj & _ & Hst & ->)]; [done|].
  assert (Hst' : otree_step t (OContains (at_most n f)) r t') by (by left). apply step_contains in Hst' as ->. cbn [fst].
  destruct (Nat.leb_spec (path_length f t) n); split; intros; try done; lia.
Qed.

Lemma sset_contains_find e m t f : sset_reachable e m -> sset_shows m (values_tree t) -> sset_contains_it e m f <-> tree_find f t <> None.
Proof.
  intros Hr Hs. unfold sset_contains_it. destruct (sset_exec e (SetContains (always f)) m) as [x m'] eqn:E.
  destruct (sset_call_tree2 e (SetContains (always f)) _ _ _ _ Hr Hs eq_refl E) as [[_ ?]|(t0 & t' & r & <-%values_tree_inj & _ & Hst & ->)]; [done|].
  assert (Hst' : otree_step t (OContains (always f)) r t') by (by left). apply step_contains_always in Hst' as ->. cbn [fst].
  by destruct (tree_find f t) as [[k v]|].
Qed.

Lemma sset_update_adds e c n m t r m' t' : sset_reachable e m -> sset_shows m t -> set_adding c = Some n ->
  sset_exec e c m = (r, m') -> r <> Abort -> sset_shows m' t' ->
  (forall f i, sset_answered e m' f i -> sset_answered e m f i) /\
  (forall f i, sset_answered e m f i -> sset_answered e m' f (n + i)) /\
  (forall f, sset_contains_it e m f -> sset_contains_it e m' f /\ forall i, sset_answered e m f i <-> sset_answered e m' f i) /\
  sheight t <= sheight t' <= n + sheight t.
Proof.
  intros Hr Hs Hc He Ha Hs'. assert (Hh : sset_has c = true) by (by destruct c).
  pose proof (proj2 (sset_never_fails _ _ _ _ _ Hr Hh He) Ha) as Hr'.
  destruct (sset_call_tree2 _ _ _ _ _ _ Hr Hs Hh He) as [[? _]|(u & u' & y & -> & Ht1 & Hst & _)]; [done|].
  pose proof (sset_exposes_fun _ _ _ Hs' _ Ht1) as <-. rewrite <- to_map_adding in Hc.
  apply stree_otree in Hst; [|left; by rewrite Hc]. destruct (step_adds _ _ _ _ _ Hc Hst) as (H1 & H2 & H3).
  rewrite !vt_height. split_and!; [| | |lia..].
  - intros f i. rewrite (sset_answered_path _ _ _ _ _ Hr Hs), (sset_answered_path _ _ _ _ _ Hr' Hs'). specialize (H1 f). lia.
  - intros f i. rewrite (sset_answered_path _ _ _ _ _ Hr Hs), (sset_answered_path _ _ _ _ _ Hr' Hs'). specialize (H1 f). lia.
  - intros f. rewrite (sset_contains_find _ _ _ _ Hr Hs), (sset_contains_find _ _ _ _ Hr' Hs'). intros (Hn & E)%H2. split; [done|].
    intros i. rewrite (sset_answered_path _ _ _ _ _ Hr Hs), (sset_answered_path _ _ _ _ _ Hr' Hs'), E. done.
Qed.

Lemma sset_update_removes (cmp : T -> T -> comparison) : lawful cmp -> forall e c m t r m' t',
  sset_reachable e m -> sset_shows m t -> set_sorted cmp (stree_order In t) -> set_removing c = true ->
  sset_exec e c m = (r, m') -> r <> Abort -> sset_shows m' t' ->
  (forall f i, is_query cmp f -> sset_contains_it e m' f -> sset_answered e m f i -> sset_answered e m' f i) /\
  sheight t' <= sheight t.
Proof.
  intros Hlaw e c m t r m' t' Hr Hs Hb Hc He Ha Hs'. assert (Hh : sset_has c = true) by (by destruct c).
  pose proof (proj2 (sset_never_fails _ _ _ _ _ Hr Hh He) Ha) as Hr'.
  destruct (sset_call_tree2 _ _ _ _ _ _ Hr Hs Hh He) as [[? _]|(u & u' & y & -> & Ht1 & Hst & _)]; [done|].
  pose proof (sset_exposes_fun _ _ _ Hs' _ Ht1) as <-. apply values_sorted, (bst_sorted _ Hlaw) in Hb. rewrite <- to_map_removing in Hc.
  apply stree_otree in Hst; [|auto]. rewrite !vt_height.
  destruct (step_removes _ _ _ _ Hc Hst) as [o Hrem]. split.
  - intros f i Hf. rewrite (sset_contains_find _ _ _ _ Hr' Hs'), (sset_answered_path _ _ _ _ _ Hr Hs), (sset_answered_path _ _ _ _ _ Hr' Hs').
    intros Hn Hi. destruct Hrem as [->|[z Hrem]]; [done|]. pose proof (remove_path _ Hlaw _ _ _ Hf Hb _ _ _ Hrem Hn). lia.
  - destruct Hrem as [->|[z Hrem]]; [lia|]. by eapply remove_height.
Qed.

Lemma sset_update_keeps e c m t r m' t' : sset_reachable e m -> sset_shows m t -> sset_has c = true -> set_keeps c = true ->
  sset_exec e c m = (r, m') -> sset_shows m' t' ->
  (forall f i, sset_answered e m' f i <-> sset_answered e m f i) /\ sheight t' = sheight t.
Proof.
  intros Hr Hs Hh Hc He Hs'.
  destruct (sset_call_tree2 _ _ _ _ _ _ Hr Hs Hh He) as [[_ ?]|(u & u' & y & -> & Ht1 & Hst & Hy)]; [by destruct c|].
  pose proof (sset_exposes_fun _ _ _ Hs' _ Ht1) as <-.
  assert (Ha : r <> Abort).
  { intros ->. destruct (sset_never_fails _ _ _ _ _ Hr Hh He) as [[[? ?]|[(? & ? & _)|[_ ?]]] _]; [done..|]. by destruct c. }
  pose proof (proj2 (sset_never_fails _ _ _ _ _ Hr Hh He) Ha) as Hr'.
  assert (Hk : tree_keys u' = tree_keys u).
  { rewrite <- to_map_keeps in Hc. destruct c; try done; cbn [to_map stree_call] in Hst;
      try (apply (step_keeps _ _ y _ Hc); left; exact Hst); by injection Hst as _ <-. }
  rewrite !vt_height. split; [|by apply keys_height].
  intros f i. rewrite (sset_answered_path _ _ _ _ _ Hr Hs), (sset_answered_path _ _ _ _ _ Hr' Hs'). by rewrite (keys_path f _ _ Hk).
Qed.
End simpleset.
End sets.
