(** * BSTSet with any comparator: safety, ownership and space *)

From Coq Require Import String.
From Verif Require Export SpecSetSafety ProofSet ProofDrop ProofLedger ProofOracle ProofMem ProofProfiles.
Local Open Scope nat_scope.

Section any.
Context {T : Type}.
Implicit Types m : bstset T.

(** ** One call *)

Lemma set_exec_inv e c m t fl x m' : map_rep m t fl -> set_exec e c m = (x, m') ->
  exists r, exec e (to_map c) m = (r, m') /\ x = rmap (from_out (erase t) c) r.
Proof.
  intros Hrep Hx. destruct (exec e (to_map c) m) as [r m1] eqn:He.
  rewrite (set_exec_eq _ _ _ _ _ _ _ Hrep He) in Hx. injection Hx as <- <-. by exists r.
Qed.

(** ** The tree of values *)

Lemma vt_find o (t : tree T unit) : forall i, ostree_find o i (values_tree t) = option_map (option_map fst) (otree_find o i t).
Proof. induction t as [|l IHl x [] r IHr]; intros i; simpl; [done|]. by destruct (o i x) as [[]|]. Qed.

Lemma vt_insert o x (t : tree T unit) : forall i, ostree_insert o i x (values_tree t) =
  (fun z => (values_tree z.1, negb (found z.2))) <$> otree_insert o i x tt t.
Proof.
  induction t as [|l IHl y [] r IHr]; intros i; simpl; [done|]. destruct (o i y) as [[]|]; [done|..|done].
  - rewrite IHl. by destruct (otree_insert o (S i) x tt l).
  - rewrite IHr. by destruct (otree_insert o (S i) x tt r).
Qed.

Lemma vt_min (l : tree T unit) : forall x u (r : tree T unit), stree_min (values_tree l) x (values_tree r) =
  let z := tree_min l x u r in (z.1.1, values_tree z.2).
Proof.
  induction l as [|ll IH y v lr _]; intros x u r; simpl; [done|].
  rewrite (IH y v lr). by destruct (tree_min ll y v lr) as [[? ?] ?].
Qed.

Lemma vt_join (l r : tree T unit) : stree_join (values_tree l) (values_tree r) = values_tree (tree_join l r).
Proof.
  destruct l as [|ll x u lr], r as [|rl y v rr]; try done. unfold stree_join, tree_join. cbn [values_tree].
  rewrite (vt_min rl y v rr). by destruct (tree_min rl y v rr) as [[? ?] ?].
Qed.

Lemma vt_remove o (t : tree T unit) : forall i, ostree_remove o i (values_tree t) =
  (fun z => (values_tree z.1, option_map fst z.2)) <$> otree_remove o i t.
Proof.
  induction t as [|l IHl y [] r IHr]; intros i; cbn [values_tree ostree_remove otree_remove]; [done|].
  destruct (o i y) as [[]|]; [|..|done].
  - cbn. by rewrite vt_join.
  - rewrite IHl. by destruct (otree_remove o (S i) l).
  - rewrite IHr. by destruct (otree_remove o (S i) r).
Qed.

Lemma vt_insert_all os items : forall j (t : tree T unit), ostree_insert_all os j items (values_tree t) =
  let z := otree_insert_all os j (units items) t in (values_tree z.1, z.2).
Proof.
  induction items as [|x items IH]; intros j t; simpl; [done|]. rewrite vt_insert.
  destruct (otree_insert (os j x) 0 x tt t) as [[t' y]|]; simpl; [apply IH|done].
Qed.

Lemma vt_step (t : tree T unit) c r t' : otree_step t (to_map c) r t' ->
  ostree_step (values_tree t) c (rmap (from_out t c) r) (values_tree t').
Proof.
  intros [H|[H|H]].
  - left. destruct c; cbn [to_map otree_call ostree_call] in *; try (injection H as <- <-).
    + rewrite vt_insert. destruct (otree_insert o 0 x tt t) as [[t0 y]|]; cbn; [|done]. by destruct y.
    + rewrite vt_remove. destruct (otree_remove o 0 t) as [[t0 [[y []]|]]|]; done.
    + rewrite vt_remove. destruct (otree_remove o 0 t) as [[t0 [[y []]|]]|]; done.
    + rewrite vt_find. by destruct (otree_find o 0 t).
    + rewrite vt_find. by destruct (otree_find o 0 t) as [[]|].
    + rewrite stree_order_values, fmap_length. done.
    + by destruct t as [|? ? []].
    + done.
    + done.
    + done.
    + done.
    + rewrite vt_insert_all, <- with_units_items. cbn.
      destruct (otree_insert_all os 0 _ t) as [t0 []]; cbn; [|done]. by destruct (ui_panics it).
    + cbn. rewrite first_calls_fmap. by rewrite stree_order_values.
    + cbn. by rewrite stree_at_values, stree_show_values.
    + done.
    + rewrite stree_order_values. cbn [tree_order].
      pose proof (units_clones ck (tree_preorder t).*1 0) as Hc. rewrite units_fst in Hc.
      destruct (value_clones ck 0 (tree_preorder t).*1) as [new b]. rewrite Hc in H. cbn [fst snd] in *.
      pose proof (vt_insert_all os new 0 tleaf) as Hi. cbn [values_tree] in Hi. rewrite Hi. cbn [fst snd].
      destruct (otree_insert_all os 0 (units new) tleaf) as [t0 []]; cbn [fst snd] in *; [destruct b|]; injection H as <- <-; done.
  - right; left. destruct c; try done. destruct H as [-> [n ->]]. split_and!; [done..|]. by exists n.
  - right; right. destruct c; try done; cbn [to_map otree_refused ostree_refused] in *.
    + destruct H as [H ->]. split; [by apply alloc_refused_rmap|done].
    + destruct H as [[H| ->] ->]; (split; [|done]); [left; by apply alloc_refused_rmap|by right].
    + destruct H as [Hr (n & H)]. split; [destruct Hr as [Hr| ->]; [left; by apply alloc_refused_rmap|by right]|].
      exists n. rewrite vt_insert_all, <- units_take, <- with_units_items, H. done.
    + destruct H as [H ->]. split; [by apply alloc_refused_rmap|done].
Qed.

Lemma vt_start (s : set_start T) (t : tree T unit) : otree_start (start_to_map s) t -> ostree_start s (values_tree t).
Proof.
  destruct s; cbn [start_to_map otree_start ostree_start]; [by intros ->..|]. intros [H1 H2]. split; [|done].
  pose proof (vt_insert_all os (ui_items it) 0 tleaf) as Hi. cbn [values_tree] in Hi. by rewrite Hi, <- with_units_items, H1.
Qed.

(** C69 *)
Lemma set_any_call e c m (t : stree T) x m' : set_reachable e m -> set_shows m t -> set_exec e c m = (x, m') ->
  exists t' : stree T, set_shows m' t' /\ ostree_step t c x t'.
Proof.
  intros Hr Hs Hx. apply set_reachable_map, reachable_rep in Hr as (pt & fl & Hrep).
  destruct (set_exec_inv _ _ _ _ _ _ _ Hrep Hx) as (r & He & ->).
  destruct (exec_otree _ _ _ _ _ _ _ Hrep He) as (pt' & fl' & Hrep' & Hst).
  pose proof (set_shows_fun _ _ _ (set_shows_rep _ _ _ Hrep) Hs) as ->.
  exists (values_tree (erase pt')). split; [by eapply set_shows_rep|by apply vt_step].
Qed.

Lemma set_run_ostree e cs : forall m t fl xs m', map_rep m t fl -> set_run e cs m = (xs, m') ->
  exists t' fl', map_rep m' t' fl' /\ steps ostree_step (values_tree (erase t)) cs xs (values_tree (erase t')).
Proof.
  induction cs as [|c cs IH]; intros m t fl xs m' Hrep Hrun; cbn [set_run] in Hrun.
  - injection Hrun as <- <-. by exists t, fl.
  - destruct (set_exec e c m) as [x m1] eqn:Hx. destruct (set_exec_inv _ _ _ _ _ _ _ Hrep Hx) as (r & He & ->).
    pose proof (exec_rep _ _ _ _ _ _ _ Hrep He) as [Hd _].
    destruct (exec_otree _ _ _ _ _ _ _ Hrep He) as (t1 & fl1 & Hrep1 & Hs%vt_step).
    destruct r as [y|p| |u|]; try done; cbn [rmap] in *.
    + destruct (set_run e cs m1) as [xs1 m2] eqn:Hr. injection Hrun as <- <-.
      destruct (IH _ _ _ _ _ Hrep1 Hr) as (t' & fl' & Hrep' & Hst). exists t', fl'. split; [done|].
      exists (values_tree (erase t1)). done.
    + destruct (set_run e cs m1) as [xs1 m2] eqn:Hr. injection Hrun as <- <-.
      destruct (IH _ _ _ _ _ Hrep1 Hr) as (t' & fl' & Hrep' & Hst). exists t', fl'. split; [done|].
      exists (values_tree (erase t1)). done.
    + injection Hrun as <- <-. exists t1, fl1. split; [done|]. exists (values_tree (erase t1)). done.
Qed.

Lemma set_any e (s : set_start T) cs xs m : set_reached e s cs xs m ->
  exists t0 t : stree T, ostree_start s t0 /\ steps ostree_step t0 cs xs t /\ set_shows m t /\
    forall d, set_yields m d (stree_order d t).
Proof.
  intros (m0 & Hb & Hr). rewrite set_begin_eq in Hb. pose proof (begin_rep e (start_to_map s)) as H. rewrite Hb in H.
  destruct H as (t & fl & Hrep & _ & _). destruct (set_run_ostree _ _ _ _ _ _ _ Hrep Hr) as (t' & fl' & Hrep' & Hst).
  exists (values_tree (erase t)), (values_tree (erase t')). split_and!; [|done|by eapply set_shows_rep|].
  - apply vt_start. by eapply begin_otree.
  - intros d. rewrite stree_order_values. by eapply set_yields_rep.
Qed.
End any.

Section lifted.
Context {T : Type}.
Implicit Types m : bstset T.

(** ** Reachable sets *)

Lemma set_reachable_rep e m : set_reachable e m -> reachable e m /\ exists t fl, map_rep m t fl.
Proof. intros Hm%set_reachable_map. split; [done|]. by eapply reachable_rep. Qed.

Lemma set_call e c m x m' : set_reachable e m -> set_exec e c m = (x, m') ->
  reachable e m /\ exists t r, exec e (to_map c) m = (r, m') /\ x = rmap (from_out t c) r /\ defined r.
Proof.
  intros [Hm (t & fl & Hrep)]%set_reachable_rep Hx. split; [done|].
  destruct (set_exec_inv _ _ _ _ _ _ _ Hrep Hx) as (r & He & ->). exists (erase t), r.
  pose proof (exec_rep _ _ _ _ _ _ _ Hrep He) as [Hd _]. done.
Qed.

Lemma set_reachable_step e c m x m' : set_reachable e m -> set_exec e c m = (x, m') -> x <> Abort -> set_reachable e m'.
Proof.
  intros (s & cs & xs & Hreach & Ha) Hx Hn. pose proof (set_reached_defined _ _ _ _ _ Hreach) as Hd.
  assert (Hm : set_reachable e m) by (by exists s, cs, xs).
  destruct (set_call _ _ _ _ _ Hm Hx) as (_ & t & r & He & -> & Hdr).
  destruct Hreach as (m1 & Hm1 & Hrun).
  exists s, (cs ++ [c]), (xs ++ [rmap (from_out t c) r]). split.
  - exists m1. split; [done|]. eapply set_run_step; try done. by apply defined_rmap.
  - apply Forall_app. split; [done|]. by apply Forall_singleton.
Qed.

Lemma set_start_reachable e s m : set_begin e s = (Ret tt, m) -> set_reachable e m.
Proof. intros H. exists s, [], []. split; [by exists m|constructor]. Qed.

Lemma set_yields_map m t fl d l : map_rep m t fl -> set_yields m d l -> l = (tree_order d (erase t)).*1 /\ yields m d (tree_order d (erase t)).
Proof.
  intros Hrep Hy. split; [|by eapply rep_yields]. eapply set_yields_fun; [done|]. by apply set_yields_rep with fl.
Qed.

Lemma yields_set m t fl d l : map_rep m t fl -> yields m d l -> set_yields m d l.*1.
Proof. intros Hrep Hy. rewrite (rep_yields_eq _ _ _ _ _ Hrep Hy). by apply set_yields_rep with fl. Qed.

(** ** C66 *)

Lemma no_ub_defined {A} (r : res A) : defined r -> no_ub r /\ r <> Diverge.
Proof. by destruct r. Qed.

Lemma set_no_ub e (s : set_start T) cs :
  no_ub (set_begin e s).1 /\ (set_begin e s).1 <> Diverge /\
  forall xs m, set_reached e s cs xs m ->
    Forall no_ub xs /\ Forall (fun x => x <> Diverge) xs /\
    no_ub (map_drop e (fun _ => false) m).1 /\ (map_drop e (fun _ => false) m).1 <> Diverge.
Proof.
  rewrite set_begin_eq. destruct (no_ub_history e (start_to_map s) (to_map <$> cs)) as [H1 H2].
  destruct (always_settles e (start_to_map s) (to_map <$> cs)) as [H3 H4]. split; [done|]. split; [done|].
  intros xs m Hreach. pose proof (set_reached_defined _ _ _ _ _ Hreach) as Hd.
  destruct (set_reached_map _ _ _ _ _ Hreach) as (rs & Hr & _). destruct (H2 _ _ Hr) as [_ H5]. destruct (H4 _ _ Hr) as [_ H6].
  split; [|split; [|done]]; (eapply Forall_impl; [exact Hd|]); intros x Hx; by apply no_ub_defined.
Qed.

Lemma set_panic_same e c m p m' : set_reachable e m -> set_exec e c m = (Panic p, m') ->
  match c with SetReserve _ | SetExtend _ _ => False | _ => True end ->
  same_map m m' /\ same_values m m' /\ set_reachable e m'.
Proof.
  intros Hm Hx Hc. assert (Hm' : set_reachable e m') by (by eapply set_reachable_step).
  destruct (set_call _ _ _ _ _ Hm Hx) as (Hr & t & r & He & Hp & _). destruct r as [|q| | |]; try done. injection Hp as <-.
  destruct (panic_same _ _ _ _ _ Hr He) as [Hs _]; [by destruct c|]. split; [done|]. split; [|done].
  destruct Hs as (H1 & H2 & H3 & H4 & H5). split; [done|]. split.
  - assert (Hex : forall n (t : stree T), set_exposes m n t -> set_exposes m' n t).
    { induction 1; econstructor; eauto; unfold setnode_left, setnode_right; by rewrite ?H2, ?H3. }
    intros t0 (r & Hrt & Ht). exists r. split; [by unfold bstset_root; rewrite H1|]. by apply Hex.
  - intros d l Hy. destruct (set_reachable_rep _ _ Hm) as [_ (t0 & fl & Hrep)].
    destruct (set_reachable_rep _ _ Hm') as [_ (t1 & fl1 & Hrep1)].
    destruct (set_yields_map _ _ _ _ _ Hrep Hy) as [-> Hy']. eapply yields_set; [done|].
    destruct Hy' as (lp & E & <-). exists lp. by rewrite H4.
Qed.

Lemma set_reserve_fails e n m p m' : set_reachable e m -> set_exec e (SetReserve n) m = (Panic p, m') ->
  same_values m m' /\ (set_capacity m <= set_capacity m')%N /\ set_reachable e m'.
Proof.
  intros Hm Hx. assert (Hm' : set_reachable e m') by (by eapply set_reachable_step).
  destruct (set_call _ _ _ _ _ Hm Hx) as (Hr & t & r & He & Hp & _). destruct r as [|q| | |]; try done. injection Hp as <-.
  destruct (reserve_fails _ _ _ _ _ Hr He) as ((H1 & H2 & H3) & H4 & _). split; [|done]. split; [done|]. split.
  - intros t0 Ht0. destruct (set_any_call _ _ _ _ _ _ Hm Ht0 Hx) as (t1 & Ht1 & [Hs|[Hs|Hs]]); [done|by destruct Hs|].
    by destruct Hs as [_ ->].
  - intros d l Hy. destruct (set_reachable_rep _ _ Hm) as [_ (t0 & fl & Hrep)].
    destruct (set_reachable_rep _ _ Hm') as [_ (t1 & fl1 & Hrep1)].
    destruct (set_yields_map _ _ _ _ _ Hrep Hy) as [-> Hy']. eapply yields_set; [done|].
    destruct Hy' as (lp & E & <-). exists lp. by rewrite H3.
Qed.

Lemma set_extend_fails e os it m p m' : set_reachable e m -> set_exec e (SetExtend os it) m = (Panic p, m') ->
  (forall d l l', set_yields m d l -> set_yields m' d l' -> exists new, l' ≡ₚ l ++ new /\ new ⊆+ ui_items it) /\
  (set_capacity m <= set_capacity m')%N /\ set_reachable e m'.
Proof.
  intros Hm Hx. assert (Hm' : set_reachable e m') by (by eapply set_reachable_step).
  destruct (set_call _ _ _ _ _ Hm Hx) as (Hr & t & r & He & Hp & _). destruct r as [|q| | |]; try done. injection Hp as <-.
  destruct (extend_fails _ _ _ _ _ _ Hr He) as (_ & H1 & _). split; [|done].
  destruct (set_traversals _ _ Hm) as (t0 & Ht0 & _ & Hy0 & _). destruct (set_any_call _ _ _ _ _ _ Hm Ht0 Hx) as (t1 & Ht1 & Hs).
  destruct (set_traversals _ _ Hm') as (t2 & Ht2 & _ & Hy2 & _). pose proof (set_shows_fun _ _ _ Ht1 Ht2) as ->.
  assert (Ho : forall d (t : stree T), stree_order d t ≡ₚ stree_order In t).
  { intros d0 t3. induction t3 as [|l0 IHl x r0 IHr]; [by destruct d0|]. destruct d0; cbn [stree_order]; rewrite ?IHl, ?IHr; solve_Permutation. }
  assert (Hi : forall x o i (t : stree T) z, ostree_insert o i x t = Some z ->
    stree_order In z.1 ≡ₚ stree_order In t \/ stree_order In z.1 ≡ₚ x :: stree_order In t).
  { intros x o i t3. revert i. induction t3 as [|l0 IHl y r0 IHr]; intros i z; cbn [ostree_insert]; [intros [= <-]; by right|].
    destruct (o i y) as [[]|]; [intros [= <-]; by left| | |done].
    - destruct (ostree_insert o (S i) x l0) as [z0|] eqn:E; [|done]. intros [= <-]. cbn [fst stree_order].
      destruct (IHl _ _ E) as [-> | ->]; [by left|right; solve_Permutation].
    - destruct (ostree_insert o (S i) x r0) as [z0|] eqn:E; [|done]. intros [= <-]. cbn [fst stree_order].
      destruct (IHr _ _ E) as [-> | ->]; [by left|right; solve_Permutation]. }
  assert (Ha : forall items j (t : stree T), exists new, stree_order In (ostree_insert_all os j items t).1 ≡ₚ stree_order In t ++ new /\
    new ⊆+ items).
  { induction items as [|x items IH]; intros j t3; cbn [ostree_insert_all]; [exists []; by rewrite app_nil_r|].
    destruct (ostree_insert (os j x) 0 x t3) as [[t4 b]|] eqn:E; [|exists []; rewrite app_nil_r; split; [done|apply submseteq_nil_l]].
    destruct (IH (S j) t4) as (new & E1 & E2). destruct (Hi _ _ _ _ _ E) as [E3|E3]; cbn [fst] in E3.
    - exists new. rewrite E1, E3. split; [done|]. by apply submseteq_cons.
    - exists (x :: new). rewrite E1, E3. split; [solve_Permutation|]. by constructor. }
  assert (Hn : exists new, stree_order In t1 ≡ₚ stree_order In t0 ++ new /\ new ⊆+ ui_items it).
  { destruct Hs as [Hs|[Hs|[_ (n & Hs)]]]; [|by destruct Hs|].
    - cbn [ostree_call] in Hs. injection Hs as _ <-. apply Ha.
    - destruct (Ha (take n (ui_items it)) 0 t0) as (new & E1 & E2). rewrite Hs in E1. exists new. split; [done|].
      etrans; [exact E2|]. apply sublist_submseteq. by apply sublist_take. }
  destruct Hn as (new & E1 & E2). intros d l l' Hl Hl'. exists new. split; [|done].
  rewrite (set_yields_fun _ _ _ _ Hl (Hy0 d)), (set_yields_fun _ _ _ _ Hl' (Hy2 d)). by rewrite (Ho d t1), (Ho d t0).
Qed.

(** ** C67 *)

Lemma just_owned (l : list (T * unit)) : just_values (owned l) = l.*1.
Proof. induction l as [|[x []] l IH]; [done|]. cbn. f_equal. exact IH. Qed.

Lemma just_owned_units (l : list T) : just_values (owned (units l)) = l.
Proof. by rewrite just_owned, fst_units. Qed.

Lemma just_app (l l' : list (T + unit)) : just_values (l ++ l') = just_values l ++ just_values l'.
Proof. apply omap_app. Qed.

Lemma just_perm (l l' : list (T + unit)) : l ≡ₚ l' -> just_values l ≡ₚ just_values l'.
Proof. apply omap_Permutation. Qed.

Lemma set_pulled_map os (it : user_iter T) p n : pulled os (with_units it) p n -> set_pulled os it p n.
Proof.
  unfold pulled, set_pulled. destruct p; rewrite ?with_units_items, ?units_length; try done.
  intros (j & x & u & i & y & H1 & H2 & H3). rewrite units_lookup in H1. destruct (ui_items it !! j) as [z|] eqn:Hz; [|done].
  injection H1 as -> _. exists j, x, i, y. done.
Qed.

Lemma set_taken_map (t : tree T unit) (c : set_op T) r g : taken (to_map c) r g -> set_taken c (rmap (from_out t c) r) (just_values g).
Proof.
  destruct c; destruct r as [y|p| |u|]; cbn [to_map taken set_taken rmap given]; try (by intros ->).
  - intros ->. by rewrite with_units_items, just_owned_units.
  - intros (n & Hn & ->). exists n. split; [by apply set_pulled_map|].
    by rewrite with_units_items, units_take, just_owned_units.
Qed.

Lemma set_handed_map (t : tree T unit) (c : set_op T) r : just_values (handed (to_map c) r) = set_handed c (rmap (from_out t c) r).
Proof.
  destruct r as [y|p| |u|]; [|by destruct c..].
  destruct c; cbn [to_map handed returned rmap set_handed]; try done; try (by destruct y as [|[]| | | | | | |]).
  by destruct y as [| |[[? []]|]| | | | | |].
Qed.

(** The results of the set's calls, and of the map's. *)
Fixpoint aligned (cs : list (set_op T)) (xs : list (res (set_out T))) (rs : list (res (out T unit))) : Prop :=
  match cs, xs, rs with
  | _, [], [] => True
  | c :: cs, x :: xs, r :: rs => (exists t, x = rmap (from_out t c) r) /\ aligned cs xs rs
  | _, _, _ => False
  end.

Lemma set_run_aligned e cs : forall m t fl xs m', map_rep m t fl -> set_run e cs m = (xs, m') ->
  exists rs, run e (to_map <$> cs) m = (rs, m') /\ aligned cs xs rs.
Proof.
  induction cs as [|c cs IH]; intros m t fl xs m' Hrep Hrun; cbn [set_run] in Hrun.
  - injection Hrun as <- <-. by exists [].
  - rewrite fmap_cons. cbn [run]. destruct (exec e (to_map c) m) as [r m1] eqn:He.
    rewrite (set_exec_eq _ _ _ _ _ _ _ Hrep He) in Hrun.
    destruct (exec_rep _ _ _ _ _ _ _ Hrep He) as [Hd (t1 & fl1 & Hrep1)].
    destruct r as [y|p| | |]; simpl in Hrun;
      try (injection Hrun as <- <-; eexists; split; [done|]; split; [by exists (erase t)|]; by destruct cs).
    + destruct (set_run e cs m1) as [xs1 m2] eqn:H1. injection Hrun as <- <-.
      destruct (IH _ _ _ _ _ Hrep1 H1) as (rs & -> & H2). eexists. split; [done|]. split; [by exists (erase t)|done].
    + destruct (set_run e cs m1) as [xs1 m2] eqn:H1. injection Hrun as <- <-.
      destruct (IH _ _ _ _ _ Hrep1 H1) as (rs & -> & H2). eexists. split; [done|]. split; [by exists (erase t)|done].
Qed.

Lemma aligned_alive cs : forall xs rs, aligned cs xs rs -> alive xs -> alive rs.
Proof.
  induction cs as [|c cs IH]; intros [|x xs] [|r rs]; try done; try (intros; constructor).
  - destruct H as [[t ->] _]. apply Forall_cons in H0 as [H1 _]. by destruct r.
  - destruct H as [_ H]. apply Forall_cons in H0 as [_ H1]. by eapply IH.
Qed.

Lemma set_reached_aligned e s cs xs m : set_reached e s cs xs m -> exists rs, reached e (start_to_map s) (to_map <$> cs) rs m /\
  aligned cs xs rs.
Proof.
  intros (m0 & Hb & Hr). rewrite set_begin_eq in Hb. pose proof (begin_rep e (start_to_map s)) as H. rewrite Hb in H.
  destruct H as (t & fl & Hrep & _). destruct (set_run_aligned _ _ _ _ _ _ _ Hrep Hr) as (rs & H1 & H2).
  exists rs. split; [by exists m0|done].
Qed.


Lemma set_ledger_map cs : forall xs rs G B, aligned cs xs rs -> ledger (to_map <$> cs) rs G B ->
  set_ledger cs xs (just_values G) (just_values B).
Proof.
  induction cs as [|c cs IH]; intros [|x xs] [|r rs] G B; rewrite ?fmap_cons; try done; cbn [ledger aligned set_ledger].
  - by intros _ [-> ->].
  - intros [[t ->] Ha] (g & G' & B' & H1 & H2 & -> & ->). exists (just_values g), (just_values G'), (just_values B').
    split; [by apply set_taken_map|]. split; [by eapply IH|]. rewrite !just_app. split; [done|]. by rewrite (set_handed_map t).
Qed.

Lemma no_clone_map cs : Forall set_no_clone cs -> Forall no_clone (to_map (T := T) <$> cs).
Proof. intros H. apply Forall_fmap. eapply Forall_impl; [done|]. by intros []. Qed.

Lemma start_taken_map (s : set_start T) : just_values (start_taken (start_to_map s)) = set_start_taken s.
Proof. destruct s; [done..|]. cbn [start_to_map start_taken set_start_taken]. by rewrite with_units_items, just_owned_units. Qed.

Lemma set_conserved e (s : set_start T) cs xs m : e_nd e = true -> Forall set_no_clone cs ->
  set_reached e s cs xs m -> alive xs ->
  exists G B, set_ledger cs xs G B /\ forall d l, set_yields m d l -> l ++ set_dropped m ++ B ≡ₚ set_start_taken s ++ G.
Proof.
  intros Hnd Hcs Hreach Hal. destruct (set_reached_aligned _ _ _ _ _ Hreach) as (rs & Hr & Ha).
  pose proof (aligned_alive _ _ _ Ha Hal) as Hal'.
  destruct (conserved _ _ _ _ _ Hnd (no_clone_map _ Hcs) Hr Hal') as (G & B & Hl & H).
  exists (just_values G), (just_values B). split; [by eapply set_ledger_map|].
  destruct (reached_rep _ _ _ _ _ Hr) as [_ (t & fl & Hrep)]. intros d l Hy.
  destruct (set_yields_map _ _ _ _ _ Hrep Hy) as [-> Hy']. pose proof (just_perm _ _ (H d _ Hy')) as Hp.
  by rewrite !just_app, just_owned, start_taken_map in Hp.
Qed.

Lemma set_whole_life e (s : set_start T) cs xs m : e_nd e = true -> Forall set_no_clone cs ->
  set_reached e s cs xs m -> alive xs ->
  exists G B m', set_ledger cs xs G B /\ map_drop e (fun _ => false) m = (Ret tt, m') /\ blocks m' = ∅ /\
    set_dropped m' ++ B ≡ₚ set_start_taken s ++ G.
Proof.
  intros Hnd Hcs Hreach Hal. destruct (set_reached_aligned _ _ _ _ _ Hreach) as (rs & Hr & Ha).
  pose proof (aligned_alive _ _ _ Ha Hal) as Hal'.
  destruct (whole_life _ _ _ _ _ Hnd (no_clone_map _ Hcs) Hr Hal') as (G & B & m' & Hl & Hd & Hb & H).
  exists (just_values G), (just_values B), m'. split; [by eapply set_ledger_map|]. split; [done|]. split; [done|].
  apply just_perm in H. by rewrite !just_app, start_taken_map in H.
Qed.

Lemma value_clones_stop ck (l : list T) : forall j, (value_clones ck j l).2 = false ->
  exists x, l !! length (value_clones ck j l).1 = Some x /\ ck (j + length (value_clones ck j l).1) x = None.
Proof.
  induction l as [|x l IH]; intros j; cbn [value_clones]; [done|]. destruct (ck j x) as [y|] eqn:E.
  - specialize (IH (S j)). destruct (value_clones ck (S j) l) as [l' b]. cbn [fst snd length] in *. intros H.
    destruct (IH H) as (z & H1 & H2). exists z. split; [done|]. by rewrite <- Nat.add_succ_comm.
  - intros _. exists x. split; [done|]. cbn. by rewrite Nat.add_0_r.
Qed.

Lemma set_clones_made os ck (l : list T) p g : clones_made os ck (fun _ _ => Some tt) 0 (units l) p g ->
  value_clones_made os ck l p (just_values g).
Proof.
  unfold clones_made, value_clones_made. rewrite units_clones. pose proof (value_clones_stop ck l 0) as Hst.
  destruct (value_clones ck 0 l) as [made b]. cbn [fst snd] in *. destruct p; try done; try (by intros ->).
  - intros (n & x & u & i & y & H1 & H2 & ->). rewrite units_lookup in H1. destruct (made !! n) as [z|] eqn:Hz; [|done].
    injection H1 as -> _. exists n, x, i, y. split; [done|]. split; [done|]. by rewrite units_take, just_owned_units.
  - intros [-> ->]. split; [done|]. destruct (Hst eq_refl) as (x & H1 & H2). rewrite units_lookup, units_length, H1. cbn.
    cbn in H2. by rewrite H2, app_nil_r, just_owned_units.
Qed.

Lemma set_clone_ledger e os ck m l : set_reachable e m -> e_nd e = true -> set_yields m Pre l ->
  match set_clone e os ck m with
  | (Ret _, m') => forall d l', set_yields m' d l' -> l' ++ set_dropped m' ≡ₚ (value_clones ck 0 l).1
  | (Panic p, m') => blocks m' = ∅ /\ exists g, value_clones_made os ck l p g /\ set_dropped m' ≡ₚ g
  | _ => True
  end.
Proof.
  intros Hm Hnd Hy. destruct (set_reachable_rep _ _ Hm) as [Hr (t & fl & Hrep)].
  destruct (set_yields_map _ _ _ _ _ Hrep Hy) as [-> Hy'].
  pose proof (clone_ledger e os ck (fun _ _ => Some tt) m _ Hr Hnd Hy') as H. unfold set_clone.
  pose proof (map_clone_spec e os ck (fun _ _ => Some tt) m t fl Hrep) as Hc.
  destruct (map_clone e os ck (fun _ _ => Some tt) m) as [[x|p| |u|] m']; try done.
  - intros d l' Hl'. destruct Hc as (_ & t2 & fl2 & Hrep2 & _). destruct (set_yields_map _ _ _ _ _ Hrep2 Hl') as [-> Hy2].
    pose proof (just_perm _ _ (H d _ Hy2)) as Hp. rewrite just_app, just_owned in Hp. rewrite Hp.
    rewrite <- (units_fst (tree_order Pre (erase t))), units_clones at 1.
    destruct (value_clones ck 0 (tree_order Pre (erase t)).*1) as [made b]. cbn [fst]. by rewrite just_owned_units.
  - destruct H as [Hb (g & Hg & Hd)]. split; [done|]. exists (just_values g).
    rewrite <- (units_fst (tree_order Pre (erase t))) in Hg. split; [by apply set_clones_made|]. by apply just_perm.
Qed.

Lemma set_collect_fails e os (it : user_iter T) p m : e_nd e = true -> set_begin e (SetFromIter os it) = (Panic p, m) ->
  blocks m = ∅ /\ exists n, set_pulled os it p n /\ set_dropped m ≡ₚ take n (ui_items it).
Proof.
  intros Hnd Hb. rewrite set_begin_eq in Hb. destruct (collect_fails _ _ _ _ _ Hnd Hb) as [H1 (n & H2 & H3)].
  split; [done|]. exists n. split; [by apply set_pulled_map|]. apply just_perm in H3.
  by rewrite with_units_items, units_take, just_owned_units in H3.
Qed.

Lemma destroyed_map bad (l1 l2 : list (T * unit)) :
  all_destroyed (fun x _ => bad x) l1 l2 -> values_destroyed bad l1.*1 l2.*1.
Proof. intros [-> H]. split; [done|]. apply Forall_fmap. exact H. Qed.

Lemma stopped_map bad (l1 l2 : list (T * unit)) :
  stopped_at_panic (fun x _ => bad x) l1 l2 -> values_stopped bad l1.*1 l2.*1.
Proof.
  intros (l0 & x & [] & -> & H1 & H2). exists l0.*1, x. rewrite fmap_app. split; [done|]. split; [done|]. by apply Forall_fmap.
Qed.

Lemma set_drop_stops e (bad : T -> bool) m d l : set_reachable e m -> e_nd e = true -> set_yields m d l ->
  exists l1 l2 m', l ≡ₚ l1 ++ l2 /\ set_dropped m' ≡ₚ set_dropped m ++ l1 /\ blocks m' = ∅ /\
    let r := map_drop e (fun n => bad (n_key n)) m in
    ((r = (Ret tt, m') /\ values_destroyed bad l1 l2) \/ (r = (Panic PDrop, m') /\ values_stopped bad l1 l2)).
Proof.
  intros Hm Hnd Hy. destruct (set_reachable_rep _ _ Hm) as [Hr (t & fl & Hrep)].
  destruct (set_yields_map _ _ _ _ _ Hrep Hy) as [-> Hy'].
  destruct (drop_stops e (fun x _ => bad x) m d _ Hr Hnd Hy') as (l1 & l2 & m' & H1 & H2 & H3 & H4).
  exists l1.*1, l2.*1, m'. split; [by rewrite H1, fmap_app|].
  split; [apply just_perm in H2; by rewrite just_app, just_owned in H2|]. split; [done|].
  destruct H4 as [[H4 H5]|[H4 H5]]; [left|right]; (split; [done|]); [by apply destroyed_map|by apply stopped_map].
Qed.

Lemma set_clear_stops e (bad : T -> bool) m d l : set_reachable e m -> e_nd e = true -> set_yields m d l ->
  exists l1 l2 m', l ≡ₚ l1 ++ l2 /\ set_dropped m' ≡ₚ set_dropped m ++ l1 /\
    let r := set_clear e (fun n => bad (n_key n)) m in
    ((r = (Ret tt, m') /\ values_destroyed bad l1 l2) \/
     (r = (Panic PDrop, m') /\ values_stopped bad l1 l2 /\
      (forall pn, (map_drop e pn m').1 = UB UDropped) /\ (forall pn, (set_clear e pn m').1 = UB UDropped))).
Proof.
  intros Hm Hnd Hy. destruct (set_reachable_rep _ _ Hm) as [Hr (t & fl & Hrep)].
  destruct (set_yields_map _ _ _ _ _ Hrep Hy) as [-> Hy'].
  destruct (clear_stops e (fun x _ => bad x) m d _ Hr Hnd Hy') as (l1 & l2 & m' & H1 & H2 & H3).
  exists l1.*1, l2.*1, m'. split; [by rewrite H1, fmap_app|].
  split; [apply just_perm in H2; by rewrite just_app, just_owned in H2|].
  destruct H3 as [(H4 & H5 & _)|[H4 H5]]; [left|right]; (split; [done|]); [by apply destroyed_map|].
  split; [by apply stopped_map|]. destruct H5 as (l0 & x & [] & -> & Hb & _).
  destruct (clear_drops_twice e (fun x _ => bad x) m (tree_order In (erase t)) x tt Hr Hnd) as (m2 & E1 & E2 & E3); try done.
  - by eapply rep_yields.
  - assert ((x, tt) ∈ tree_order d (erase t)) as Hin by (rewrite H1; set_solver).
    assert (tree_order d (erase t) ≡ₚ tree_order In (erase t)) as <-; [|done].
    destruct d; [apply tree_pre_in|done|apply tree_post_in].
  - unfold set_clear in *. rewrite H4 in E1. injection E1 as <-. done.
Qed.
End lifted.

Section space.
Context {T : Type}.
Implicit Types m : bstset T.
Local Open Scope N_scope.

(** ** C68 *)

Lemma set_count_map e m : set_count e m = entry_count e m.
Proof. done. Qed.

Lemma set_with_capacity_room e n m : set_begin e (SetWithCapacity n) = (Ret tt, m) ->
  set_len e m = Ret 0 /\ (forall d, set_yields m d []) /\ least_room n (set_capacity m) /\ (n = 0 -> m = set_new).
Proof.
  intros Hb. destruct (set_reachable_rep _ _ (set_start_reachable _ _ _ Hb)) as [_ (t & fl & Hrep)].
  rewrite set_begin_eq in Hb. destruct (with_capacity_room e n m Hb) as (H1 & H2 & H3 & H4). split; [done|].
  split; [|done]. intros d. apply (yields_set m t fl d [] Hrep (H2 d)).
Qed.

Lemma set_with_capacity_stops e n p m : set_begin (T := T) e (SetWithCapacity n) = (Panic p, m) ->
  (p = PCapacity \/ p = PAssert) /\ blocks m = ∅.
Proof. rewrite set_begin_eq. apply with_capacity_fails. Qed.

Lemma set_new_allocates_nothing e : set_with_capacity (T := T) e 0 = (Ret tt, set_new) /\
  set_capacity (@set_new T) = 0 /\ requests (@set_new T) = 0 /\ blocks (@set_new T) = ∅.
Proof. apply new_allocates_nothing. Qed.

Lemma same_tree_values e m m' : set_reachable e m -> set_reachable e m' -> same_tree m m' ->
  (forall t, set_shows m t -> set_shows m' t) -> same_values m m'.
Proof.
  intros Hm Hm' (H1 & H2 & H3) Hs. split; [done|]. split; [done|]. intros d l Hy.
  destruct (set_reachable_rep _ _ Hm) as [_ (t0 & fl & Hrep)]. destruct (set_reachable_rep _ _ Hm') as [_ (t1 & fl1 & Hrep1)].
  destruct (set_yields_map _ _ _ _ _ Hrep Hy) as [-> Hy']. eapply yields_set; [done|].
  destruct Hy' as (lp & E & <-). exists lp. by rewrite H3.
Qed.

Lemma set_reserve_room e n m x m' : set_reachable e m -> set_exec e (SetReserve n) m = (Ret x, m') ->
  (e_chk e = true \/ slots m + n < USIZE) ->
  set_count e m + n <= set_capacity m' /\ set_capacity m <= set_capacity m' /\ same_values m m' /\
  (set_capacity m < slots m + n -> least_room (slots m + n) (set_capacity m')).
Proof.
  intros Hm Hx Hn. assert (Hm' : set_reachable e m') by (by eapply set_reachable_step).
  destruct (set_call _ _ _ _ _ Hm Hx) as (Hr & t & r & He & Hp & _). destruct r as [y| | | |]; try done.
  destruct (reserve_room _ _ _ _ _ Hr He Hn) as (H1 & H2 & H3 & H4). split; [done|]. split; [done|]. split; [|done].
  apply (same_tree_values e); try done. intros t0 Ht0. destruct (set_any_call _ _ _ _ _ _ Hm Ht0 Hx) as (t1 & Ht1 & [Hs|[Hs|Hs]]).
  - injection Hs as _ ->. done.
  - by destruct Hs.
  - destruct Hs as [[[?|[?|?]]|?] _]; done.
Qed.

Lemma set_shrink_tight e m r m' : set_reachable e m -> set_exec e SetShrink m = (r, m') ->
  r = Ret SetUnit /\ same_values m m' /\ set_capacity m' <= set_capacity m /\ set_count e m <= set_capacity m' /\
  least_room (slots m) (set_capacity m') /\ requests m' = requests m.
Proof.
  intros Hm Hx. destruct (set_call _ _ _ _ _ Hm Hx) as (Hr & t & r0 & He & -> & _).
  destruct (shrink_tight _ _ _ _ Hr He) as (-> & H1 & H2 & H3 & H4 & H5). split; [done|]. split; [|done].
  assert (Hm' : set_reachable e m') by (by eapply set_reachable_step).
  apply (same_tree_values e); try done. intros t0 Ht0. destruct (set_any_call _ _ _ _ _ _ Hm Ht0 Hx) as (t1 & Ht1 & [Hs|[Hs|Hs]]).
  - injection Hs as ->. done.
  - by destruct Hs.
  - done.
Qed.

Lemma set_insert_room e o x m r m' : set_reachable e m -> set_count e m < set_capacity m ->
  set_exec e (SetInsert o x) m = (r, m') ->
  (r = Panic PCmp \/ exists b, r = Ret (SetBool b)) /\ requests m' = requests m /\ set_capacity m' = set_capacity m /\
  set_count e m' <= set_count e m + 1.
Proof.
  intros Hm Hc Hx. destruct (set_call _ _ _ _ _ Hm Hx) as (Hr & t & r0 & He & -> & _).
  destruct (insert_room e o x tt m r0 m' Hr Hc He) as (H1 & H2 & H3 & H4). split; [|done].
  destruct (set_traversals _ _ Hm) as (t0 & Ht0 & _). destruct (set_any_call _ _ _ _ _ _ Hm Ht0 Hx) as (t1 & _ & Hs).
  destruct H1 as [->|[y ->]]; [by left|right]. cbn [rmap] in *. destruct Hs as [Hs|[Hs|Hs]].
  - cbn [ostree_call] in Hs. destruct (ostree_insert o 0 x t0) as [z|]; cbn [set_or_panic] in Hs; [|done].
    injection Hs as Hs _. exists z.2. cbn. by f_equal.
  - by destruct Hs.
  - destruct Hs as [[?|[?|?]] _]; done.
Qed.

Lemma set_inserts_room e cs : forall m xs m', set_reachable e m -> Forall (fun c => exists o x, c = SetInsert o x) cs ->
  set_count e m + N.of_nat (length cs) <= set_capacity m -> set_run e cs m = (xs, m') ->
  length xs = length cs /\ Forall (fun r => r = Panic PCmp \/ exists b, r = Ret (SetBool b)) xs /\
  requests m' = requests m /\ set_capacity m' = set_capacity m.
Proof.
  induction cs as [|c cs IH]; intros m xs m' Hm Hcs Hn Hrun; cbn [set_run] in Hrun; [by injection Hrun as <- <-|].
  apply Forall_cons in Hcs as [(o & x & ->) Hcs]. cbn [length] in Hn. rewrite Nat2N.inj_succ in Hn.
  destruct (set_exec e (SetInsert o x) m) as [r m1] eqn:Hx.
  destruct (set_insert_room _ _ _ _ _ _ Hm ltac:(lia) Hx) as (H1 & H2 & H3 & H4).
  assert (Hm1 : set_reachable e m1).
  { eapply set_reachable_step; [done..|]. by destruct H1 as [->|[? ->]]. }
  destruct H1 as [->|[b ->]].
  - destruct (set_run e cs m1) as [xs1 m2] eqn:Hr. injection Hrun as <- <-.
    destruct (IH _ _ _ Hm1 Hcs ltac:(rewrite H3; lia) Hr) as (H5 & H6 & H7 & H8).
    split; [by f_equal/=|]. split; [constructor; [by left|done]|]. by rewrite H7, H8, H2, H3.
  - destruct (set_run e cs m1) as [xs1 m2] eqn:Hr. injection Hrun as <- <-.
    destruct (IH _ _ _ Hm1 Hcs ltac:(rewrite H3; lia) Hr) as (H5 & H6 & H7 & H8).
    split; [by f_equal/=|]. split; [constructor; [right; eauto|done]|]. by rewrite H7, H8, H2, H3.
Qed.

Lemma set_removing_keeps e c m r m' : set_reachable e m -> set_exec e c m = (r, m') ->
  match c with SetRemove _ | SetTake _ | SetClear => True | _ => False end ->
  set_capacity m' = set_capacity m /\ requests m' = requests m.
Proof.
  intros Hm Hx Hc. destruct (set_call _ _ _ _ _ Hm Hx) as (Hr & t & r0 & He & -> & _).
  apply (removing_keeps_room _ _ _ _ _ Hr He). by destruct c.
Qed.

Lemma set_reuse e o x m r m' : set_reachable e m -> set_count e m < slots m -> set_exec e (SetInsert o x) m = (r, m') ->
  slots m' = slots m /\ requests m' = requests m.
Proof.
  intros Hm Hc Hx. destruct (set_call _ _ _ _ _ Hm Hx) as (Hr & t & r0 & He & -> & _).
  by apply (reuse e o x tt m r0 m' Hr Hc).
Qed.

Lemma set_growth e o x m r m' : set_reachable e m -> set_exec e (SetInsert o x) m = (r, m') ->
  set_capacity m' = set_capacity m \/
  (set_capacity m' = 2 * set_capacity m + 8 /\ set_count e m = set_capacity m /\ r = Ret (SetBool true)).
Proof.
  intros Hm Hx. destruct (set_call _ _ _ _ _ Hm Hx) as (Hr & t & r0 & He & -> & _).
  destruct (insert_growth e o x tt m r0 m' Hr He) as [?|(H1 & H2 & ->)]; [by left|right]. done.
Qed.

Lemma set_peak_map e cs : forall m t fl h, map_rep m t fl -> set_peak e cs m h = peak e (to_map <$> cs) m h.
Proof.
  induction cs as [|c cs IH]; intros m t fl h Hrep; [done|]. rewrite fmap_cons. cbn [set_peak peak].
  destruct (exec e (to_map c) m) as [r m1] eqn:He. rewrite (set_exec_eq _ _ _ _ _ _ _ Hrep He).
  destruct (exec_rep _ _ _ _ _ _ _ Hrep He) as [Hd (t1 & fl1 & Hrep1)].
  destruct r as [y|p| |u|]; cbn [rmap]; try (by destruct c).
  - destruct c; cbn [to_map]; by eapply IH.
  - destruct c; cbn [to_map]; by eapply IH.
Qed.

Lemma set_high_water e (s : set_start T) cs xs m m0 : set_begin e s = (Ret tt, m0) -> set_run e cs m0 = (xs, m) ->
  slots m = set_peak e cs m0 (set_count e m0).
Proof.
  intros Hb Hr. destruct (set_reachable_rep _ _ (set_start_reachable _ _ _ Hb)) as [_ (t & fl & Hrep)].
  destruct (set_run_aligned _ _ _ _ _ _ _ Hrep Hr) as (rs & Hrs & _).
  rewrite set_begin_eq in Hb. rewrite (set_peak_map _ _ _ _ _ _ Hrep). by eapply high_water.
Qed.

(** ** C70 *)

Lemma set_panics_excused e c m p m' : set_reachable e m -> set_exec e c m = (Panic p, m') -> set_excused e c m p.
Proof.
  intros Hm Hx. destruct (set_call _ _ _ _ _ Hm Hx) as (Hr & t & r & He & Hp & _). destruct r as [|q| | |]; try done. injection Hp as <-.
  pose proof (panics_excused _ _ _ _ _ Hr He) as H. destruct p; try done; by destruct c.
Qed.

Lemma set_begin_excused e (s : set_start T) p m : set_begin e s = (Panic p, m) ->
  match p with PCapacity | PAssert | PCmp | PIter => True | _ => False end.
Proof. rewrite set_begin_eq. apply begin_excused. Qed.

Lemma set_exec_profiles e c m : set_reachable e m ->
  (match set_requested c with Some n => slots m + n < USIZE | None => True end) -> set_exec (release e) c m = set_exec e c m.
Proof.
  intros Hm Hn. destruct (set_reachable_rep _ _ Hm) as [Hr (t & fl & Hrep)].
  pose proof (exec_profiles e (to_map c) m Hr) as H. assert (exec (release e) (to_map c) m = exec e (to_map c) m) as E; [apply H; by destruct c|].
  destruct (exec e (to_map c) m) as [r m'] eqn:He.
  by rewrite (set_exec_eq _ _ _ _ _ _ _ Hrep He), (set_exec_eq _ _ _ _ _ _ _ Hrep E).
Qed.

Lemma set_exec_quiet e c m r m' : set_reachable e m -> set_exec e c m = (r, m') -> r <> Panic POverflow ->
  set_exec (release e) c m = (r, m').
Proof.
  intros Hm Hx Ho. destruct (set_reachable_rep _ _ Hm) as [Hr (t & fl & Hrep)].
  destruct (set_exec_inv _ _ _ _ _ _ _ Hrep Hx) as (r0 & He & ->).
  assert (exec (release e) (to_map c) m = (r0, m')) as E.
  { rewrite <- He. apply exec_agree. rewrite He. apply (exec_quiet _ _ _ _ _ Hr He). by intros ->. }
  by rewrite (set_exec_eq _ _ _ _ _ _ _ Hrep E).
Qed.

Lemma set_begin_profiles e (s : set_start T) : set_begin (release e) s = set_begin e s.
Proof. rewrite !set_begin_eq. apply begin_profiles. Qed.

Lemma set_profiles e (s : set_start T) cs xs m : set_reached e s cs xs m -> Forall (fun r => r <> Panic POverflow) xs ->
  set_reached (release e) s cs xs m.
Proof.
  intros (m0 & Hb & Hr) Ho. exists m0. split; [by rewrite set_begin_profiles|].
  assert (Hm : set_reachable e m0) by (by eapply set_start_reachable). clear Hb. revert m0 xs Hm Hr Ho.
  induction cs as [|c cs IH]; intros m0 xs Hm Hr Ho; cbn [set_run] in *; [done|].
  destruct (set_exec e c m0) as [x m1] eqn:Hx.
  assert (x <> Panic POverflow) as Hx'.
  { destruct x; try done; destruct (set_run e cs m1); injection Hr as <- <-; by apply Forall_cons in Ho as [? _]. }
  rewrite (set_exec_quiet _ _ _ _ _ Hm Hx Hx'). destruct x as [y|p| |u|]; try done.
  - destruct (set_run e cs m1) as [xs1 m2] eqn:Hr1. injection Hr as <- <-. apply Forall_cons in Ho as [_ Ho].
    rewrite (IH m1 xs1); [done| |done|done]. by eapply set_reachable_step.
  - destruct (set_run e cs m1) as [xs1 m2] eqn:Hr1. injection Hr as <- <-. apply Forall_cons in Ho as [_ Ho].
    rewrite (IH m1 xs1); [done| |done|done]. by eapply set_reachable_step.
Qed.

Lemma set_modest_history e (s : set_start T) cs xs m : Forall set_modest cs -> set_reached e s cs xs m ->
  Forall (fun r => r <> Panic POverflow) xs /\ set_reached (release e) s cs xs m.
Proof.
  intros Hcs Hreach. assert (Forall (fun r => r <> Panic POverflow) xs) as Ho; [|split; [done|by eapply set_profiles]].
  destruct Hreach as (m0 & Hb & Hr). assert (Hm : set_reachable e m0) by (by eapply set_start_reachable).
  clear Hb. revert m0 xs Hm Hr. induction Hcs as [|c cs Hc _ IH]; intros m0 xs Hm Hr; cbn [set_run] in Hr; [by injection Hr as <- <-|].
  destruct (set_exec e c m0) as [x m1] eqn:Hx.
  assert (x <> Panic POverflow) as Hn.
  { intros ->. pose proof (set_panics_excused e c m0 _ m1 Hm Hx) as (_ & n & H1 & H2). unfold set_modest in Hc. rewrite H1 in Hc.
    destruct (set_reachable_rep _ _ Hm) as [Hm2 _].
    pose proof (slots_bound e m0 Hm2) as [H3 H4]. change (2 ^ 63)%N with 9223372036854775808%N in *.
    change USIZE with 18446744073709551616%N in *. lia. }
  destruct x as [y|p| |u|]; try (injection Hr as <- <-; by repeat constructor).
  - destruct (set_run e cs m1) as [xs1 m2] eqn:Hr1. injection Hr as <- <-. constructor; [done|].
    eapply IH; [|exact Hr1]. by eapply set_reachable_step.
  - destruct (set_run e cs m1) as [xs1 m2] eqn:Hr1. injection Hr as <- <-. constructor; [done|].
    eapply IH; [|exact Hr1]. by eapply set_reachable_step.
Qed.
End space.
