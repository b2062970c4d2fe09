(** * Proofs about a finite stack *)

From Coq Require Import String.
From Verif Require Export SpecStack.
From Verif Require Import ProofCost ProofSpace ProofLog ProofNodes ProofSimpleProps ProofSimpleSet ProofSetSafety ProofSimpleCost ProofBox ProofSetDrops.
From Verif Require Import ModelIter.
Local Open Scope nat_scope.

Section stack.
Context {K V : Type}.
Implicit Types (m : simple K V) (t : ptree K V).

(** ** Fuel *)

Lemma drop_box_fuel f : forall b m r m', drop_box f b m = (r, m') -> r <> Diverge ->
  forall f', f <= f' -> drop_box f' b m = (r, m').
Proof.
  induction f as [|f IH]; intros b m r m' H Hr [|f'] Hf; try lia; cbn [drop_box] in *.
  { injection H as <- <-. done. }
  { injection H as <- <-. done. }
  destruct b as [p|]; [|done]. unfold sbind, sget, slift, sret in *.
  destruct (peek m p) as [x| | | |]; try done.
  destruct (drop_box f (n_left x) m) as [r1 m1] eqn:H1.
  rewrite (IH _ _ _ _ H1) with (f' := f'); [|by intros ->; injection H as <- <-|lia].
  destruct r1; try done.
  destruct (drop_box f (n_right x) m1) as [r2 m2] eqn:H2.
  rewrite (IH _ _ _ _ H2) with (f' := f'); [|by intros ->; injection H as <- <-|lia]. done.
Qed.

Lemma drop_box_short s : forall f m ns F, hrep m ns -> ns ≡ₚ nodes s ++ F -> f <= pheight s ->
  (drop_box f (rootp s) m).1 = Diverge.
Proof.
  induction s as [|l IHl p k v r IHr]; intros [|f] m ns F H Hp Hf; simpl in Hf; try done; [lia|]. cbn [drop_box rootp nodes app] in *.
  unfold sbind, sget, slift, sret. rewrite (hrep_peek m ns p (mkInner k v (rootp l) (rootp r))) by (first [done|rewrite Hp; left]).
  cbn [n_left n_right].
  assert (Hpl : ns ≡ₚ nodes l ++ ((p, mkInner k v (rootp l) (rootp r)) :: nodes r ++ F)) by (rewrite Hp; simpl; solve_Permutation).
  destruct (decide (f <= pheight l)) as [Hl|Hl].
  - pose proof (IHl f m ns _ H Hpl Hl) as Hd. destruct (drop_box f (rootp l) m) as [x m1]. cbn [fst] in Hd. by subst x.
  - pose proof (drop_box_spec l f m ns _ H Hpl ltac:(lia)) as Hs. unfold wp in Hs.
    destruct (drop_box f (rootp l) m) as [[[]| | | |] m1]; try done. destruct Hs as [H1 _].
    pose proof (IHr f m1 _ ((p, mkInner k v (rootp l) (rootp r)) :: F) H1 ltac:(solve_Permutation) ltac:(lia)) as Hd.
    destruct (drop_box f (rootp r) m1) as [x m2]. cbn [fst] in Hd. by subst x.
Qed.

Lemma clone_box_fuel e src ck cv f : forall b s r s', clone_box e src ck cv f b s = (r, s') -> r <> Diverge ->
  forall f', f <= f' -> clone_box (K := K) (V := V) e src ck cv f' b s = (r, s').
Proof.
  induction f as [|f IH]; intros b s r s' H Hr [|f'] Hf; try lia; cbn [clone_box] in *.
  { injection H as <- <-. done. }
  { injection H as <- <-. done. }
  destruct b as [p|]; [|done]. unfold sbind, sget, slift, sret, smod in *.
  destruct (peek src p) as [x| | | |]; try done.
  destruct (ck s.1 (n_key x)) as [k'|]; [|done]. destruct (cv s.1 (n_value x)) as [v'|]; [|done].
  destruct (clone_box e src ck cv f (n_left x) (S s.1, s.2)) as [r1 s1] eqn:H1.
  rewrite (IH _ _ _ _ H1) with (f' := f'); [|by intros ->; injection H as <- <-|lia].
  destruct r1; try done.
  destruct (zoom snd (fun m s => (s.1, m)) (box_opt e a) s1) as [[lb| | | |] s2]; try done.
  destruct (clone_box e src ck cv f (n_right x) s2) as [r2 s3] eqn:H2.
  rewrite (IH _ _ _ _ H2) with (f' := f'); [|by intros ->; injection H as <- <-|lia]. done.
Qed.

Lemma clone_box_short e src ck cv s : forall f j m0 ns, sreadable src s -> hrep m0 ns -> f <= pheight s ->
  match (clone_box e src ck cv f (rootp s) (j, m0)).1 with
  | Diverge | Abort => True
  | Panic p => p = PClone /\ tree_clone ck cv j (erase s) = None
  | _ => False
  end.
Proof.
  induction s as [|l IHl p k v r IHr]; intros [|f] j m0 ns Hr H Hf; simpl in Hf; try done; [lia|]. cbn [clone_box rootp erase tree_clone].
  unfold sbind, sget, slift, sret, smod. rewrite (sreadable_root _ _ _ _ _ _ Hr). cbn [n_key n_value n_left n_right fst snd].
  destruct (ck j k) as [k'|]; [destruct (cv j v) as [v'|]|]; [|done..].
  change (S (j, m0).1, (j, m0).2) with (S j, m0).
  destruct (decide (f <= pheight l)) as [Hl|Hl].
  - pose proof (IHl f (S j) m0 ns ltac:(by eapply sreadable_l) H Hl) as Hd.
    destruct (clone_box e src ck cv f (rootp l) (S j, m0)) as [[x| | | |] s1]; cbn [fst] in *; try done.
    destruct Hd as [-> ->]. done.
  - pose proof (clone_box_spec e src ck cv l f (S j) m0 ns ltac:(by eapply sreadable_l) ltac:(lia) H) as Hs. unfold wp in Hs.
    destruct (clone_box e src ck cv f (rootp l) (S j, m0)) as [[x|q| | |] [j1 m1]]; cbn [fst] in *; try done.
    2:{ destruct Hs as [|[[= ->] ->]]; done. }
    destruct Hs as (l' & -> & Hcl & Hj1 & H1 & Hq1). simpl in Hj1, H1. rewrite Hcl, erase_size.
    pose proof (box_opt_spec e m1 _ l' ns H1 ltac:(done)) as Hb. unfold wp in Hb. unfold zoom. cbn [fst snd].
    destruct (box_opt e (val l') m1) as [[lb|q| | |] m2]; cbn [fst]; try done.
    destruct Hb as (q & Hq & -> & H2 & _). subst j1. change (S (j + tsize l)) with (S j + tsize l).
    pose proof (IHr f (S j + tsize l) m2 _ ltac:(by eapply sreadable_r) H2 ltac:(lia)) as Hd.
    destruct (clone_box e src ck cv f (rootp r) (S j + tsize l, m2)) as [[x| | | |] s3]; cbn [fst] in *; try done.
    destruct Hd as [-> Hd]. rewrite Hd. done.
Qed.

Lemma box_debug_short m s : forall f, sreadable m s -> f <= pheight s -> box_debug m f (rootp s) = Diverge.
Proof.
  induction s as [|l IHl p k v r IHr]; intros [|f] Hr Hf; simpl in Hf; try done; [lia|].
  cbn [box_debug rootp]. rewrite (sreadable_root _ _ _ _ _ _ Hr). cbn [rbind n_left n_right].
  destruct (decide (f <= pheight l)) as [Hl|Hl]; [rewrite IHl; [done|by eapply sreadable_l|done]|].
  rewrite box_debug_eq; [cbn [rbind]|by eapply sreadable_l|lia].
  rewrite IHr; [done|by eapply sreadable_r|lia].
Qed.

Lemma box_eq_short eqK eqV m1 m2 s1 : forall s2 f, sreadable m1 s1 -> sreadable m2 s2 -> f <= pheight s1 ->
  tree_eqb eqK eqV (erase s1) (erase s2) = true -> box_eq eqK eqV m1 m2 f (rootp s1) (rootp s2) = Diverge.
Proof.
  induction s1 as [|l1 IHl p1 k1 v1 r1 IHr]; intros [|l2 p2 k2 v2 r2] [|f] H1 H2 Hf He; simpl in Hf; try done; [lia|].
  cbn [box_eq rootp]. rewrite (sreadable_root _ _ _ _ _ _ H1). cbn [rbind].
  rewrite (sreadable_root _ _ _ _ _ _ H2). cbn [rbind n_key n_value n_left n_right].
  cbn [erase tree_eqb] in He. apply andb_true_iff in He as [[[Hk Hv]%andb_true_iff Hel]%andb_true_iff Her].
  rewrite Hk, Hv. cbn [andb].
  destruct (decide (f <= pheight l1)) as [Hl|Hl].
  { rewrite IHl; [done|by eapply sreadable_l|by eapply sreadable_l|done|done]. }
  rewrite box_eq_spec; [|by eapply sreadable_l|by eapply sreadable_l|lia]. cbn [rbind]. rewrite Hel.
  apply IHr; [by eapply sreadable_r|by eapply sreadable_r|lia|done].
Qed.

(** ** Calls *)

Lemma drop_within_enough m t n : simple_rep m t -> pheight t <= n -> drop_within n m = simple_drop m.
Proof.
  intros H Hn. pose proof (simple_drop_spec m t H) as Hs. unfold wp in Hs. unfold drop_within, simple_drop, sbind, sget in *.
  pose proof (drop_box_spec t (S n) m _ [] ltac:(apply H) ltac:(by rewrite app_nil_r) ltac:(lia)) as Hd. unfold wp in Hd.
  rewrite (simple_root_ret _ _ H) in *.
  destruct (drop_box (S n) (rootp t) m) as [r m'] eqn:E. destruct r as [x| | | |]; try done.
  destruct (drop_box (simple_fuel m) (rootp t) m) as [r2 m2] eqn:E2. destruct r2; try done.
  pose proof (drop_box_fuel _ _ _ _ _ E ltac:(done) (Nat.max (S n) (simple_fuel m)) ltac:(lia)) as E3.
  rewrite (drop_box_fuel _ _ _ _ _ E2 ltac:(done) (Nat.max (S n) (simple_fuel m)) ltac:(lia)) in E3. by injection E3 as -> ->.
Qed.
Lemma drop_within_short m t n : simple_rep m t -> n < pheight t -> (drop_within n m).1 = Abort.
Proof.
  intros H Hn. unfold drop_within. rewrite (simple_root_ret _ _ H).
  pose proof (drop_box_short t (S n) m _ [] ltac:(apply H) ltac:(by rewrite app_nil_r) ltac:(lia)) as Hd.
  destruct (drop_box (S n) (rootp t) m) as [r m']. cbn [fst] in *. by subst r.
Qed.

Lemma clone_within_enough m t n e ck cv : simple_rep m t -> pheight t <= n -> clone_within n e ck cv m = simple_clone e ck cv m.
Proof.
  intros H Hn. unfold clone_within, simple_clone. rewrite (simple_root_ret _ _ H).
  pose proof (clone_box_spec e m ck cv t (S n) 0 simple_new [] (simple_readable _ _ H) ltac:(lia) ltac:(split; [constructor|done])) as H1.
  pose proof (clone_box_spec e m ck cv t (simple_fuel m) 0 simple_new [] (simple_readable _ _ H) (simple_fuel_height _ _ H) ltac:(split; [constructor|done])) as H2.
  unfold wp in H1, H2.
  destruct (clone_box e m ck cv (S n) (rootp t) (0, simple_new)) as [r1 s1] eqn:E1.
  destruct (clone_box e m ck cv (simple_fuel m) (rootp t) (0, simple_new)) as [r2 s2] eqn:E2.
  assert (Heq : (r1, s1) = (r2, s2)).
  { rewrite <- (clone_box_fuel _ _ _ _ _ _ _ _ _ E1 ltac:(by intros ->) (Nat.max (S n) (simple_fuel m)) ltac:(lia)).
    by rewrite <- (clone_box_fuel _ _ _ _ _ _ _ _ _ E2 ltac:(by intros ->) (Nat.max (S n) (simple_fuel m)) ltac:(lia)). }
  injection Heq as -> ->. destruct r2 as [[?|]| | | |], s2 as [? ?]; done.
Qed.
Lemma clone_within_short m t n e ck cv : simple_rep m t -> n < pheight t ->
  (clone_within n e ck cv m).1 = Abort \/ (clone_within n e ck cv m).1 = Panic PClone /\ tree_clone ck cv 0 (erase t) = None.
Proof.
  intros H Hn. unfold clone_within. rewrite (simple_root_ret _ _ H).
  pose proof (clone_box_short e m ck cv t (S n) 0 simple_new [] (simple_readable _ _ H) ltac:(split; [constructor|done]) ltac:(lia)) as H1.
  destruct (clone_box e m ck cv (S n) (rootp t) (0, simple_new)) as [[[?|]| | | |] [j m1]]; cbn [fst] in *; try done; try (by left).
  destruct H1 as [-> H1]. by right.
Qed.

Lemma debug_within_enough m t n : simple_rep m t -> pheight t <= n -> debug_within n m = simple_debug m.
Proof.
  intros H Hn. unfold debug_within, simple_debug. rewrite (simple_root_ret _ _ H).
  rewrite (box_debug_eq m t (simple_fuel m) (simple_readable _ _ H) (simple_fuel_height _ _ H)).
  rewrite (box_debug_eq m t (S n) (simple_readable _ _ H)) by lia. done.
Qed.
Lemma debug_within_short m t n : simple_rep m t -> n < pheight t -> debug_within n m = Abort.
Proof.
  intros H Hn. unfold debug_within. rewrite (simple_root_ret _ _ H).
  rewrite (box_debug_short m t (S n) (simple_readable _ _ H)) by lia. done.
Qed.

Lemma exec_within_enough m t n e c : simple_rep m t -> pheight t <= n -> simple_exec_within n e c m = simple_exec e c m.
Proof.
  intros H Hn. destruct c; try done; cbn [simple_exec_within simple_exec].
  - unfold clear_within, simple_clear, sbind. by rewrite (drop_within_enough m t n H Hn).
  - unfold sbind, sget, slift. by rewrite (debug_within_enough m t n H Hn).
  - rewrite (clone_within_enough m t n _ _ _ H Hn), (drop_within_enough m t n H Hn). done.
Qed.

Lemma simple_stack_enough e m (t : tree K V) n c : simple_reachable e m -> simple_shows m t -> height t <= n ->
  simple_exec_within n e c m = simple_exec e c m /\ drop_within n m = simple_drop m.
Proof.
  intros (pt & H)%simple_reachable_rep Hs Hn. rewrite (simple_rep_shows_eq m pt t H Hs), ProofCost.erase_height in Hn.
  split; [by eapply exec_within_enough|by eapply drop_within_enough].
Qed.

Lemma simple_stack_short e m (t : tree K V) n c : simple_reachable e m -> simple_shows m t -> n < height t ->
  (drop_within n m).1 = Abort /\
  (recurses c -> (simple_exec_within n e c m).1 = Abort \/
    exists os ck cv, c = OClone os ck cv /\ tree_clone ck cv 0 t = None /\ (simple_exec_within n e c m).1 = Panic PClone).
Proof.
  intros (pt & H)%simple_reachable_rep Hs Hn. rewrite (simple_rep_shows_eq m pt t H Hs), ProofCost.erase_height in Hn.
  rewrite (simple_rep_shows_eq m pt t H Hs). pose proof (drop_within_short m pt n H Hn) as Hd. split; [done|].
  destruct c; try done; cbn [simple_exec_within]; intros _.
  - left. unfold clear_within, sbind. destruct (drop_within n m) as [x m1]. cbn [fst] in Hd. by subst x.
  - left. unfold sbind, sget, slift. by rewrite (debug_within_short m pt n H Hn).
  - destruct (clone_within_short m pt n e ck cv H Hn) as [Hc|[Hc Hn']]; destruct (clone_within n e ck cv m) as [x m1]; cbn [fst] in Hc; subst x.
    + by left.
    + right. by exists os, ck, cv.
Qed.

Lemma node_eq_stack e1 e2 m1 m2 (eqK : K -> K -> bool) (eqV : V -> V -> bool) p1 p2 (t1 t2 : tree K V) n :
  simple_reachable e1 m1 -> simple_reachable e2 m2 -> simple_handle m1 p1 -> simple_handle m2 p2 ->
  simple_exposes m1 (Some p1) t1 -> simple_exposes m2 (Some p2) t2 ->
  (height t1 <= n -> node_eq_within n eqK eqV m1 m2 p1 p2 = simple_node_eq eqK eqV m1 m2 p1 p2) /\
  (n < height t1 -> tree_same eqK eqV t1 t2 -> node_eq_within n eqK eqV m1 m2 p1 p2 = Abort).
Proof.
  intros (u1 & H1)%simple_reachable_rep (u2 & H2)%simple_reachable_rep Hh1 Hh2 Ht1 Ht2.
  destruct (simple_handle_exposes m1 u1 p1 t1 H1 Hh1 Ht1) as (path1 & Hp1 & -> & Hr1 & Hht).
  destruct (simple_handle_exposes m2 u2 p2 t2 H2 Hh2 Ht2) as (path2 & Hp2 & -> & Hr2 & _).
  rewrite ProofCost.erase_height. unfold node_eq_within, simple_node_eq. rewrite <- Hp1, <- Hp2. split.
  - intros Hn. rewrite !box_eq_spec; try done; [|lia]. pose proof (simple_fuel_height _ _ H1). lia.
  - intros Hn Hs%tree_eqb_same. rewrite box_eq_short; [done|done|done|lia|done].
Qed.

(** ** Programs that insert few entries *)

Lemma tree_min_height (l : tree K V) : forall k v r, height (tree_min l k v r).2 <= height (tnode l k v r).
Proof.
  induction l as [|ll IHl lk lv lr IHr]; intros k v r; [simpl; lia|].
  change (tree_min (tnode ll lk lv lr) k v r) with (let '(e, l') := tree_min ll lk lv lr in (e, tnode l' k v r)).
  specialize (IHl lk lv lr). destruct (tree_min ll lk lv lr) as [x l']. cbn [snd height] in *. lia.
Qed.
Lemma tree_join_height (l r : tree K V) : height (tree_join l r) <= S (Nat.max (height l) (height r)).
Proof.
  destruct l as [|ll lk lv lr]; [simpl; lia|]. destruct r as [|rl rk rv rr]; [cbn [tree_join]; lia|]. cbn [tree_join].
  pose proof (tree_min_height rl rk rv rr) as H. destruct (tree_min rl rk rv rr) as [[k v] r']. cbn [snd height] in *. lia.
Qed.
Lemma otree_insert_height (o : oracle K) k v (t : tree K V) : forall i (t' : tree K V) x, otree_insert o i k v t = Some (t', x) ->
  height t' <= S (height t).
Proof.
  induction t as [|l IHl k' v' r IHr]; intros i t' x; cbn [otree_insert]; [by intros [= <- <-]|].
  destruct (o i k') as [[]|]; [by intros [= <- <-]; simpl; lia| | |done].
  - destruct (otree_insert o (S i) k v l) as [[l' y]|] eqn:E; [|done]. intros [= <- <-]. apply IHl in E. simpl. lia.
  - destruct (otree_insert o (S i) k v r) as [[r' y]|] eqn:E; [|done]. intros [= <- <-]. apply IHr in E. simpl. lia.
Qed.
Lemma otree_insert_size (o : oracle K) k v (t : tree K V) : forall i (t' : tree K V) x, otree_insert o i k v t = Some (t', x) ->
  length (tree_inorder t') <= S (length (tree_inorder t)).
Proof.
  induction t as [|l IHl k' v' r IHr]; intros i t' x; cbn [otree_insert]; [by intros [= <- <-]|].
  destruct (o i k') as [[]|]; [by intros [= <- <-]; simpl; rewrite !app_length; simpl; lia| | |done].
  - destruct (otree_insert o (S i) k v l) as [[l' y]|] eqn:E; [|done]. intros [= <- <-]. apply IHl in E. simpl. rewrite !app_length. simpl. lia.
  - destruct (otree_insert o (S i) k v r) as [[r' y]|] eqn:E; [|done]. intros [= <- <-]. apply IHr in E. simpl. rewrite !app_length. simpl. lia.
Qed.
Lemma otree_remove_height (o : oracle K) (t : tree K V) : forall i (t' : tree K V) x, otree_remove o i t = Some (t', x) -> height t' <= height t.
Proof.
  induction t as [|l IHl k' v' r IHr]; intros i t' x; cbn [otree_remove]; [by intros [= <- <-]|].
  destruct (o i k') as [[]|]; [| | |done].
  - intros [= <- <-]. apply tree_join_height.
  - destruct (otree_remove o (S i) l) as [[l' y]|] eqn:E; [|done]. intros [= <- <-]. apply IHl in E. simpl. lia.
  - destruct (otree_remove o (S i) r) as [[r' y]|] eqn:E; [|done]. intros [= <- <-]. apply IHr in E. simpl. lia.
Qed.
Lemma otree_set_height (o : oracle K) w (t : tree K V) : forall i, height (otree_set o i w t) = height t.
Proof.
  induction t as [|l IHl k' v' r IHr]; intros i; cbn [otree_set]; [done|]. destruct (o i k') as [[]|]; simpl; by rewrite ?IHl, ?IHr.
Qed.
Lemma otree_insert_all_height (os : nat -> K -> oracle K) items : forall j (t : tree K V),
  height (otree_insert_all os j items t).1 <= length items + height t.
Proof.
  induction items as [|[k v] items IH]; intros j t; cbn [otree_insert_all length]; [simpl; lia|].
  destruct (otree_insert (os j k) 0 k v t) as [[t' x]|] eqn:E; [|simpl; lia].
  apply otree_insert_height in E. specialize (IH (S j) t'). lia.
Qed.
Lemma tree_clone_height (ck : nat -> K -> option K) (cv : nat -> V -> option V) (t : tree K V) : forall j (t' : tree K V),
  tree_clone ck cv j t = Some t' -> height t' = height t.
Proof.
  induction t as [|l IHl k v r IHr]; intros j t'; simpl; [by intros [= <-]|].
  destruct (ck j k), (cv j v); try done. destruct (tree_clone ck cv (S j) l) as [l'|] eqn:Hl; [|done].
  destruct (tree_clone ck cv _ r) as [r'|] eqn:Hr; [|done]. intros [= <-]. simpl. by rewrite (IHl _ _ Hl), (IHr _ _ Hr).
Qed.
Lemma tree_write_height path w : forall t : tree K V, height (tree_write_at path w t) = height t.
Proof. induction path as [|[] path IH]; intros [|l k v r]; simpl; try done; by rewrite IH. Qed.

Lemma stree_call_height (c : op K V) (t t' : tree K V) x : stree_call c t = Some (x, t') -> height t' <= adds c + height t.
Proof.
  destruct c; cbn [stree_call otree_call adds]; try done; try (intros [= <- <-]; simpl; lia).
  - destruct (otree_insert o 0 k v t) as [[u y]|] eqn:E; intros [= <- <-]; simpl; [|lia]. by apply otree_insert_height in E.
  - destruct (otree_remove o 0 t) as [[u y]|] eqn:E; intros [= <- <-]; simpl; [|lia]. by apply otree_remove_height in E.
  - destruct (otree_remove o 0 t) as [[u y]|] eqn:E; intros [= <- <-]; simpl; [|lia]. by apply otree_remove_height in E.
  - intros [= <- <-]. destruct w; [rewrite otree_set_height|]; lia.
  - pose proof (otree_insert_all_height os (ui_items it) 0 t) as H.
    destruct (otree_insert_all os 0 (ui_items it) t) as [u b]. by intros [= <- <-].
  - intros [= <- <-]. destruct w; [rewrite tree_write_height|]; lia.
  - destruct (tree_clone ck cv 0 t) as [u|] eqn:E; intros [= <- <-]; [|lia]. by rewrite (tree_clone_height _ _ _ _ _ E).
Qed.

Lemma run_within_rep e n cs : forall m t, simple_rep m t -> Forall (fun c => simple_has c = true) cs -> pheight t + added cs <= n ->
  simple_run_within n e cs m = simple_run e cs m.
Proof.
  induction cs as [|c cs IH]; intros m t H Hhas Hn; cbn [simple_run_within simple_run]; [done|].
  apply Forall_cons in Hhas as [Hc Hhas]. change (added (c :: cs)) with (adds c + added cs) in Hn.
  rewrite (exec_within_enough m t n e c H) by lia.
  destruct (simple_exec e c m) as [r m'] eqn:E.
  destruct (simple_exec_cases e c m t r m' H Hc E) as [[-> _]|(t' & H' & Hcall & _)]; [done|].
  apply stree_call_height in Hcall. rewrite !ProofCost.erase_height in Hcall.
  destruct r; try done; by rewrite (IH m' t') by (first [done|lia]).
Qed.

Lemma simple_small_programs e n cs : Forall (fun c => simple_has c = true) cs -> added cs <= n ->
  simple_run_within n e cs (@simple_new K V) = simple_run e cs simple_new.
Proof. intros Hhas Hn. apply (run_within_rep e n cs simple_new Leaf simple_rep_new Hhas). simpl. lia. Qed.

(** ** Deep trees *)

Lemma simple_reachable_new e : simple_reachable e (@simple_new K V).
Proof. exists SNew, [], []. split_and!; [done|constructor| |constructor]. by exists simple_new. Qed.

Lemma simple_inserts_return e (os : nat -> K -> oracle K) items : (forall i, b_addr e i <> None) -> (forall j k i k', os j k i k' <> None) ->
  forall j m, simple_reachable e m -> (simple_len m + N.of_nat (length items) + 1 < 2 ^ 60)%N ->
  exists rs m', simple_run e (imap (fun i (kv : K * V) => OInsert (os (j + i) kv.1) kv.1 kv.2) items) m = (rs, m') /\ returned_all rs.
Proof.
  intros He Hos. induction items as [|[k v] items IH]; intros j m Hm Hlen; cbn [imap simple_run fst snd].
  - exists [], m. split; [done|constructor].
  - replace (j + 0) with j by lia. destruct (simple_exec e (OInsert (os j k) k v) m) as [r m1] eqn:Ex.
    destruct (simple_reachable_rep e m Hm) as (t & H).
    pose proof (simple_call_generous e (OInsert (os j k) k v) m Hm eq_refl ltac:(intros; apply He) ltac:(cbn [most_boxes]; simpl length in Hlen; lia)) as Hna.
    rewrite Ex in Hna. cbn [fst] in Hna.
    pose proof (fun Hh => simple_exec_cases e _ m t r m1 H Hh Ex) as Hx. destruct (Hx eq_refl) as [[-> _]|(t' & H' & Hcall & _)]; [done|].
    cbn [stree_call otree_call] in Hcall. pose proof (otree_insert_total (os j k) k v ltac:(intros; apply Hos) (erase t) 0) as Ht.
    destruct (otree_insert (os j k) 0 k v (erase t)) as [[u y]|] eqn:Ei; [|done]. injection Hcall as <- Hu. simpl in Hu.
    assert (Hm1 : simple_reachable e m1) by (by eapply (simple_reachable_step e (OInsert (os j k) k v))).
    destruct (IH (S j) m1 Hm1) as (rs & m' & Hrun & Hall).
    { destruct (simple_rep_nodes _ _ H) as [_ Hn1]. destruct (simple_rep_nodes _ _ H') as [_ Hn2].
      unfold simple_len in *. rewrite Hn2. rewrite Hn1 in Hlen. rewrite <- erase_size, <- Hu.
      pose proof (otree_insert_size (os j k) k v (erase t) 0 _ _ Ei) as Hsz. rewrite <- erase_size in Hlen. simpl length in Hlen. lia. }
    exists (Ret (OutValue y) :: rs), m'.
    assert (Heq : imap ((fun i kv => OInsert (os (j + i) kv.1) kv.1 kv.2) ∘ S) items =
      imap (fun i kv => OInsert (os (S j + i) kv.1) kv.1 kv.2) items).
    { apply imap_ext. intros i [k' v'] _. simpl. by rewrite Nat.add_succ_r. }
    rewrite Heq, Hrun. split; [done|]. constructor; [by eexists|done].
Qed.

End stack.

Definition N_oracles (_ : nat) (k : N) (_ : nat) (k' : N) : option comparison := Some (N.compare k k').

Lemma spine_height {K V} (l : list (K * V)) : height (right_spine l) = length l.
Proof. induction l as [|[k v] l IH]; simpl; [done|]. by rewrite IH. Qed.

Lemma simple_deep e n : (forall i, b_addr e i <> None) -> (N.of_nat n + 2 < 2 ^ 60)%N ->
  exists (items : list (N * N)) rs m, sorted N.compare items /\ length items = S n /\
    simple_reached e SNew (inserts (fun _ k _ k' => Some (N.compare k k')) items) rs m /\ returned_all rs /\
    (drop_within n m).1 = Abort /\ (simple_exec_within n e OClear m).1 = Abort /\ (simple_exec_within n e ODebug m).1 = Abort.
Proof.
  intros He Hn. change (fun _ k _ k' => Some (N.compare k k')) with N_oracles.
  exists (numbers (S n)).
  destruct (simple_inserts_return e N_oracles (numbers (S n)) He ltac:(done) 0 simple_new (simple_reachable_new e)) as (rs & m & Hrun & Hall).
  { unfold numbers. rewrite fmap_length, seq_length. change (simple_len simple_new) with 0%N. lia. }
  exists rs, m. assert (Hre : simple_reached e SNew (inserts N_oracles (numbers (S n))) rs m) by (by exists simple_new).
  split; [apply numbers_sorted|]. split; [unfold numbers; by rewrite fmap_length, seq_length|].
  split; [done|]. split; [done|].
  assert (Hrea : simple_reachable e m).
  { exists SNew, (inserts N_oracles (numbers (S n))), rs. split_and!; [done| |done|].
    - apply Forall_forall. intros c Hc. unfold inserts in Hc. apply elem_of_lookup_imap in Hc as (i & y & -> & _). done.
    - eapply Forall_impl; [exact Hall|]. by intros r [x ->]. }
  pose proof (numbers_sorted (S n)) as Hsort. rewrite numbers_last in Hre, Hsort.
  destruct (simple_sorted N.compare N_order e (numbers n) _ _ N_oracles rs m Hsort ltac:(intros j k i k'; by left) Hre Hall) as (Hsh & _).
  assert (Hh : n < height (right_spine (numbers n ++ [(N.of_nat n, 0%N)]))).
  { rewrite spine_height, app_length. unfold numbers. rewrite fmap_length, seq_length. simpl. lia. }
  destruct (simple_stack_short e m _ n OClear Hrea Hsh Hh) as [Hd Hc].
  destruct (simple_stack_short e m _ n ODebug Hrea Hsh Hh) as [_ Hb].
  split; [done|]. destruct (Hc I) as [Hc'|(? & ? & ? & ? & _)]; [|done]. destruct (Hb I) as [Hb'|(? & ? & ? & ? & _)]; [|done]. done.
Qed.

(** ** Debug of the other collections *)
Section debug.
Context {K V : Type}.

Lemma node_debug_tight (m : bstmap K V) t : forall f n, readable m t -> node_of t = Some n ->
  (pheight t <= f -> rmap DSome (node_debug m f n) = Ret (tree_debug (erase t))) /\ (f < pheight t -> node_debug m f n = Diverge).
Proof.
  induction t as [|l IHl p k v r IHr]; intros [|f] n Hr Hn; simpl in Hn; [done|done| |]; [split; [simpl; lia|done]|].
  injection Hn as <-. cbn [node_debug pheight]. unfold node_left, node_right. cbn [nd_inner n_left n_right].
  rewrite (opt_node_ret m l) by (by eapply readable_l). cbn [rbind].
  rewrite (opt_node_ret m r) by (by eapply readable_r).
  assert (Hs : forall s, (forall f n, readable m s -> node_of s = Some n ->
      (pheight s <= f -> rmap DSome (node_debug m f n) = Ret (tree_debug (erase s))) /\ (f < pheight s -> node_debug m f n = Diverge)) ->
    readable m s ->
    (pheight s <= f -> match node_of s with Some c => rmap DSome (node_debug m f c) | None => Ret DNone end = Ret (tree_debug (erase s))) /\
    (f < pheight s -> match node_of s with Some c => rmap DSome (node_debug m f c) | None => Ret DNone end = Diverge)).
  { intros s IH Hs. destruct (node_of s) as [c|] eqn:Ec.
    - destruct (IH f c Hs eq_refl) as [H1 H2]. split; [done|]. intros Hlt. by rewrite (H2 Hlt).
    - destruct s; [|done]. split; [done|]. simpl. lia. }
  destruct (Hs l IHl ltac:(by eapply readable_l)) as [Hl1 Hl2]. destruct (Hs r IHr ltac:(by eapply readable_r)) as [Hr1 Hr2]. split; intros Hf.
  - rewrite Hl1 by lia. cbn [rbind]. rewrite Hr1 by lia. done.
  - destruct (decide (f < pheight l)) as [Hlt|Hlt]; [by rewrite Hl2|]. rewrite Hl1 by lia. cbn [rbind]. by rewrite Hr2 by lia.
Qed.

Lemma map_stack e (m : bstmap K V) (t : tree K V) n c : reachable e m -> shows m t ->
  (height t <= n -> exec_within n e c m = exec e c m) /\
  (n < height t -> (exec_within n e ODebug m).1 = Abort).
Proof.
  intros (pt & fl & H)%reachable_rep Hs. rewrite <- (shows_fun _ _ _ Hs (rep_shows _ _ _ H)), ProofCost.erase_height.
  assert (Hd : (pheight pt <= n -> map_debug_within n m = map_debug m) /\ (n < pheight pt -> map_debug_within n m = Abort)).
  { rewrite (map_debug_eq m pt fl H). unfold map_debug_within. rewrite (map_root_ret _ _ _ H). cbn [rbind].
    destruct (node_of pt) as [x|] eqn:Hx; [|destruct pt; [split; [done|simpl; lia]|done]].
    destruct (node_debug_tight m pt n x ltac:(by eapply rep_readable) Hx) as [H1 H2]. split; intros Hn.
    - specialize (H1 Hn). destruct (node_debug m n x); try done. cbn [or_overflow]. by rewrite H1.
    - by rewrite (H2 Hn). }
  destruct Hd as [Hd1 Hd2]. split.
  - intros Hn. destruct c; try done. cbn [exec_within exec]. unfold sbind, sget, slift. by rewrite Hd1.
  - intros Hn. cbn [exec_within]. unfold sbind, sget, slift. by rewrite Hd2.
Qed.

End debug.

Section setdebug.
Context {T : Type}.

Lemma setnode_debug_tight (m : bstset T) t : forall f n, readable m t -> node_of t = Some n ->
  (pheight t <= f -> rmap DSome (setnode_debug m f n) = Ret (stree_debug (values_tree (erase t)))) /\
  (f < pheight t -> setnode_debug m f n = Diverge).
Proof.
  induction t as [|l IHl p k v r IHr]; intros [|f] n Hr Hn; simpl in Hn; [done|done| |]; [split; [simpl; lia|done]|].
  injection Hn as <-. cbn [setnode_debug pheight]. unfold setnode_left, setnode_right, node_left, node_right. cbn [nd_inner n_left n_right].
  rewrite (opt_node_ret m l) by (by eapply readable_l). cbn [rbind].
  rewrite (opt_node_ret m r) by (by eapply readable_r).
  assert (Hs : forall s, (forall f n, readable m s -> node_of s = Some n ->
      (pheight s <= f -> rmap DSome (setnode_debug m f n) = Ret (stree_debug (values_tree (erase s)))) /\ (f < pheight s -> setnode_debug m f n = Diverge)) ->
    readable m s ->
    (pheight s <= f -> match (node_of s : option (SetNode T)) with Some c => rmap DSome (setnode_debug m f c) | None => Ret DNone end = Ret (stree_debug (values_tree (erase s)))) /\
    (f < pheight s -> match (node_of s : option (SetNode T)) with Some c => rmap DSome (setnode_debug m f c) | None => Ret DNone end = Diverge)).
  { intros s IH Hs. destruct (node_of s) as [c|] eqn:Ec.
    - destruct (IH f c Hs eq_refl) as [H1 H2]. split; [done|]. intros Hlt. by rewrite (H2 Hlt).
    - destruct s; [|done]. split; [done|]. simpl. lia. }
  destruct (Hs l IHl ltac:(by eapply readable_l)) as [Hl1 Hl2]. destruct (Hs r IHr ltac:(by eapply readable_r)) as [Hr1 Hr2].
  change (option (SetNode T)) with (option (Node T unit)) in *. split; intros Hf.
  - rewrite Hl1 by lia. cbn [rbind]. rewrite Hr1 by lia. done.
  - destruct (decide (f < pheight l)) as [Hlt|Hlt]; [by rewrite Hl2|]. rewrite Hl1 by lia. cbn [rbind]. by rewrite Hr2 by lia.
Qed.

Lemma set_stack e (m : bstset T) (t : stree T) n c : set_reachable e m -> set_shows m t ->
  (sheight t <= n -> set_exec_within n e c m = set_exec e c m) /\
  (n < sheight t -> (set_exec_within n e SetDebug m).1 = Abort).
Proof.
  intros Hm Hs. destruct (set_reachable_rep _ _ Hm) as (Hr & pt & fl & H).
  pose proof (set_shows_fun _ _ _ (set_shows_rep _ _ _ H) Hs) as ->. rewrite vt_height, ProofCost.erase_height.
  assert (Hd : (pheight pt <= n -> set_debug_within n m = set_debug m) /\ (n < pheight pt -> set_debug_within n m = Abort)).
  { rewrite (set_debug_eq m pt fl H). unfold set_debug_within, bstset_root. rewrite (map_root_ret _ _ _ H). cbn [rbind].
    destruct (node_of pt) as [x|] eqn:Hx; [|destruct pt; [split; [done|simpl; lia]|done]].
    destruct (setnode_debug_tight m pt n x ltac:(by eapply rep_readable) Hx) as [H1 H2]. split; intros Hn.
    - specialize (H1 Hn). destruct (setnode_debug m n x); try done. cbn [or_overflow]. by rewrite H1.
    - by rewrite (H2 Hn). }
  destruct Hd as [Hd1 Hd2]. split.
  - intros Hn. destruct c; try done. cbn [set_exec_within set_exec]. unfold sbind, sget, slift. by rewrite Hd1.
  - intros Hn. cbn [set_exec_within]. unfold sbind, sget, slift. by rewrite Hd2.
Qed.

Lemma ssetnode_debug_tight (m : sset T) s : forall f p, sreadable m s -> rootp s = Some p ->
  (pheight s <= f -> rmap DSome (ssetnode_debug m f p) = Ret (stree_debug (values_tree (erase s)))) /\
  (f < pheight s -> ssetnode_debug m f p = Diverge).
Proof.
  induction s as [|l IHl q k v r IHr]; intros [|f] p Hr Hn; simpl in Hn; [done|done| |]; [split; [simpl; lia|done]|].
  injection Hn as <-. cbn [ssetnode_debug pheight]. unfold ssetnode_value, ssetnode_left, ssetnode_right.
  rewrite (sreadable_root _ _ _ _ _ _ Hr). cbn [rmap rbind n_key n_left n_right].
  assert (Hs : forall s, (forall f p, sreadable m s -> rootp s = Some p ->
      (pheight s <= f -> rmap DSome (ssetnode_debug m f p) = Ret (stree_debug (values_tree (erase s)))) /\ (f < pheight s -> ssetnode_debug m f p = Diverge)) ->
    sreadable m s ->
    (pheight s <= f -> match rootp s with Some c => rmap DSome (ssetnode_debug m f c) | None => Ret DNone end = Ret (stree_debug (values_tree (erase s)))) /\
    (f < pheight s -> match rootp s with Some c => rmap DSome (ssetnode_debug m f c) | None => Ret DNone end = Diverge)).
  { intros s IH Hs. destruct (rootp s) as [c|] eqn:Ec.
    - destruct (IH f c Hs eq_refl) as [H1 H2]. split; [done|]. intros Hlt. by rewrite (H2 Hlt).
    - destruct s; [|done]. split; [done|]. simpl. lia. }
  destruct (Hs l IHl ltac:(by eapply sreadable_l)) as [Hl1 Hl2]. destruct (Hs r IHr ltac:(by eapply sreadable_r)) as [Hr1 Hr2]. split; intros Hf.
  - rewrite Hl1 by lia. cbn [rbind]. rewrite Hr1 by lia. done.
  - destruct (decide (f < pheight l)) as [Hlt|Hlt]; [by rewrite Hl2|]. rewrite Hl1 by lia. cbn [rbind]. by rewrite Hr2 by lia.
Qed.

Lemma sset_debug_stack (m : sset T) pt n : simple_rep m pt ->
  (pheight pt <= n -> sset_debug_within n m = sset_debug m) /\ (n < pheight pt -> sset_debug_within n m = Abort).
Proof.
  intros H. rewrite (sset_debug_eq m pt H). unfold sset_debug_within, sset_root. rewrite (simple_root_ret _ _ H).
  destruct (rootp pt) as [x|] eqn:Hx; [|destruct pt; [split; [done|simpl; lia]|done]].
  destruct (ssetnode_debug_tight m pt n x (simple_readable _ _ H) Hx) as [H1 H2]. split; intros Hn.
  - specialize (H1 Hn). destruct (ssetnode_debug m n x); try done. cbn [or_overflow]. by rewrite H1.
  - by rewrite (H2 Hn).
Qed.

Lemma sset_stack_enough e (m : sset T) (t : stree T) n c : sset_reachable e m -> sset_shows m t -> sheight t <= n ->
  sset_exec_within n e c m = sset_exec e c m /\ drop_within n m = simple_drop m.
Proof.
  intros Hm Hs. destruct (sset_reachable_rep _ _ Hm) as (pt & H).
  pose proof (sset_exposes_fun _ _ _ Hs _ (sset_rep_shows _ _ H)) as Ht.
  assert (Hh : sheight t = pheight pt) by (by rewrite <- Ht, vt_height, ProofCost.erase_height). rewrite Hh. intros Hn.
  pose proof (drop_within_enough m pt n H Hn) as Hd. split; [|done].
  destruct c; try done; cbn [sset_exec_within sset_exec].
  - unfold clear_within, sset_clear, simple_clear, sbind. by rewrite Hd.
  - unfold sbind, sget, slift. by rewrite (proj1 (sset_debug_stack m pt n H)).
  - unfold sset_clone_and_replace, sset_clone, sbind. by rewrite (clone_within_enough m pt n _ _ _ H Hn), Hd.
Qed.

Lemma sset_stack_short e (m : sset T) (t : stree T) n c : sset_reachable e m -> sset_shows m t -> n < sheight t ->
  (drop_within n m).1 = Abort /\
  (set_recurses c -> (sset_exec_within n e c m).1 = Abort \/
    exists os ck, c = SetClone os ck /\ stree_clone ck 0 t = None /\ (sset_exec_within n e c m).1 = Panic PClone).
Proof.
  intros Hm Hs. destruct (sset_reachable_rep _ _ Hm) as (pt & H).
  pose proof (sset_exposes_fun _ _ _ Hs _ (sset_rep_shows _ _ H)) as <-. rewrite vt_height, ProofCost.erase_height. intros Hn.
  pose proof (drop_within_short m pt n H Hn) as Hd. split; [done|].
  destruct c; try done; cbn [sset_exec_within]; intros _.
  - left. unfold clear_within, sbind. destruct (drop_within n m) as [x m1]. cbn [fst] in Hd. by subst x.
  - left. unfold sbind, sget, slift. by rewrite (proj2 (sset_debug_stack m pt n H) Hn).
  - unfold sbind. destruct (clone_within_short m pt n e ck (fun _ _ => Some tt) H Hn) as [Hc|[Hc Hn']];
      destruct (clone_within n e ck _ m) as [x m1]; cbn [fst] in Hc; subst x.
    + by left.
    + right. exists os, ck. split_and!; [done| |done]. rewrite vt_clone, Hn'. done.
Qed.
End setdebug.
