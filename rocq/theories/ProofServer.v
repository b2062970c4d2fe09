(** * Proofs: the web server *)

From Coq Require Import String.
From Verif Require Import ModelServer SpecServer SpecCommute ProofCommute ProofBenches ProofExtend ProofStack ProofSimpleProps ProofMapProps ProofObs ProofOracle ProofLog SpecFacts SpecSteps.
Local Open Scope N_scope.

(** ** Trees *)
Section trees.
Context {K V : Type}.
Implicit Types t : tree K V.
Variable cmp : K -> K -> comparison.
Hypothesis Hlaw : lawful cmp.

Lemma tree_set_all (P : K -> Prop) f w t : Forall (fun kv => P kv.1) (tree_inorder t) -> Forall (fun kv => P kv.1) (tree_inorder (tree_set f w t)).
Proof.
  induction t as [|l IHl k v r IHr]; cbn [tree_set tree_inorder]; [done|]. rewrite Forall_app, Forall_cons. intros (H1 & H2 & H3).
  destruct (f k); cbn [tree_inorder]; rewrite Forall_app, Forall_cons; auto.
Qed.

Lemma tree_set_bst f w t : bst cmp t -> bst cmp (tree_set f w t).
Proof.
  induction t as [|l IHl k v r IHr]; cbn [tree_set bst]; [done|]. intros (H1 & H2 & H3 & H4).
  destruct (f k); cbn [bst]; split_and!; auto.
  - by apply (tree_set_all (fun x => cmp x k = Lt)).
  - by apply (tree_set_all (fun x => cmp k x = Lt)).
Qed.

Lemma removed_not_found k (l : list (K * V)) : sorted cmp l -> assoc_find (cmp k) (assoc_remove (cmp k) l) = None.
Proof using Hlaw.
  induction l as [|[x v] l IH]; cbn [assoc_remove]; [done|]. rewrite (sorted_cons cmp). cbn [fst]. intros [Hl Hx].
  destruct (cmp k x) eqn:E; cbn [assoc_find]; rewrite ?E; auto.
  clear IH Hl. induction Hx as [|[y w] l Hy _ IH]; cbn [assoc_find]; [done|]. cbn [fst] in Hy.
  by rewrite (lw_cong _ Hlaw _ _ y E), Hy.
Qed.

Lemma find_remove k k' t : bst cmp t ->
  snd <$> tree_find (cmp k) (tree_remove (cmp k') t) = match cmp k k' with Eq => None | _ => snd <$> tree_find (cmp k) t end.
Proof using Hlaw.
  intros Hb. assert (Hne : cmp k k' <> Eq -> tree_find (cmp k) (tree_remove (cmp k') t) = tree_find (cmp k) t).
  { intros E. apply (upd_find cmp Hlaw (URemove (cmp k'))); [by apply (cmp_is_query cmp Hlaw)|by apply (cmp_is_query cmp Hlaw)| |done].
    cbn [target]. intros x H1 H2. apply E. rewrite (lw_cong _ Hlaw _ _ k' H2), (lw_sym _ Hlaw), H1. done. }
  destruct (cmp k k') eqn:E; [|by rewrite Hne..].
  rewrite (tree_find_assoc cmp Hlaw (cmp k) _ (assoc_remove (cmp k') (tree_inorder t))).
  - replace (assoc_find (cmp k) (assoc_remove (cmp k') (tree_inorder t))) with (assoc_find (cmp k') (assoc_remove (cmp k') (tree_inorder t))).
    + rewrite removed_not_found; [done|]. by apply (bst_sorted cmp Hlaw).
    + generalize (assoc_remove (cmp k') (tree_inorder t)). intros l. induction l as [|[x w] l IH]; cbn [assoc_find]; [done|].
      rewrite (lw_cong _ Hlaw _ _ x E). by destruct (cmp k' x).
  - by apply (cmp_is_query cmp Hlaw).
  - by apply (tree_remove_bst cmp Hlaw).
  - symmetry. apply (tree_remove_assoc cmp Hlaw); [by apply (cmp_is_query cmp Hlaw)|done..].
Qed.

Lemma otree_remove_surely (o : oracle K) f t : surely o f -> otree_remove o 0 t = Some (tree_remove f t, tree_find f t).
Proof using Hlaw.
  intros Ho. pose proof (otree_remove_answers cmp Hlaw o f t (ProofBenches.surely_answers o f Ho) 0) as H.
  destruct (otree_remove o 0 t); [by subst|]. destruct H as (j & kv & _ & Hn). by rewrite Ho in Hn.
Qed.

Lemma map_contains_tree e (m : bstmap K V) t o f : reachable e m -> shows m t -> surely o f ->
  (let! m := sget in slift (map_contains_key m o)) m = (Ret (match tree_find f t with Some _ => true | None => false end), m).
Proof.
  intros Hr Hs Ho. destruct (exec e (OContains o) m) as [r m'] eqn:He.
  destruct (any_comparator_call _ _ _ _ _ _ Hr Hs He) as (t' & _ & [H|[[]|[]]]).
  cbn [otree_call] in H. rewrite (otree_find_surely o f t 0 Ho) in H. cbn in H. injection H as <- _.
  revert He. cbn [exec]. unfold sbind, sget, slift, sret. destruct (map_contains_key m o); by intros [= -> _].
Qed.

Lemma map_remove_step e (m : bstmap K V) t o k r m' : reachable e m -> shows m t -> surely o (cmp k) ->
  map_remove e o m = (r, m') ->
  match r with Ret x => x = snd <$> tree_find (cmp k) t /\ reachable e m' /\ shows m' (tree_remove (cmp k) t) | _ => alloc_refused r end.
Proof using Hlaw.
  intros Hr Hs Ho Hi. assert (He : exec e (ORemove o) m = (rmap OutValue r, m')).
  { cbn [exec]. unfold sbind, sret. rewrite Hi. by destruct r. }
  destruct (any_comparator_call _ _ _ _ _ _ Hr Hs He) as (t' & Ht' & [H|[[]|[]]]).
  cbn [otree_call] in H. rewrite (otree_remove_surely o (cmp k) t Ho) in H. cbn in H. destruct r as [x| | | |]; try done.
  cbn in H. injection H as -> <-. split_and!; try done. by eapply reachable_step.
Qed.

Lemma simple_contains_tree e (m : simple K V) t o f : simple_reachable e m -> simple_shows m t -> surely o f ->
  (let! m := sget in slift (simple_contains_key m o)) m = (Ret (match tree_find f t with Some _ => true | None => false end), m).
Proof.
  intros Hr Hs Ho. destruct (simple_exec e (OContains o) m) as [r m'] eqn:He.
  destruct (ProofBenches.simple_step e (OContains o) m t r m' Hr Hs eq_refl He) as [[_ H]|(_ & t' & _ & H)]; [done|].
  cbn [stree_call otree_call] in H. rewrite (otree_find_surely o f t 0 Ho) in H. cbn in H. injection H as <- _.
  revert He. cbn [simple_exec]. unfold sbind, sget, slift, sret. destruct (simple_contains_key m o); by intros [= -> _].
Qed.

Lemma simple_remove_step e (m : simple K V) t o k r m' : simple_reachable e m -> simple_shows m t -> surely o (cmp k) ->
  simple_remove e o m = (r, m') ->
  match r with Ret x => x = snd <$> tree_find (cmp k) t /\ simple_reachable e m' /\ simple_shows m' (tree_remove (cmp k) t) | _ => alloc_refused r end.
Proof using Hlaw.
  intros Hr Hs Ho Hi. assert (He : simple_exec e (ORemove o) m = (rmap OutValue r, m')).
  { cbn [simple_exec]. unfold sbind, sret. rewrite Hi. by destruct r. }
  destruct (ProofBenches.simple_step e (ORemove o) m t _ m' Hr Hs eq_refl He) as [[H _]|(R & t' & Ht' & H)].
  - destruct r; try done. by right; right.
  - cbn [stree_call otree_call] in H. rewrite (otree_remove_surely o (cmp k) t Ho) in H. cbn in H. destruct r; try done.
    cbn in H. injection H as -> <-. done.
Qed.
End trees.

(** ** The server *)
Section server.
Context {S T : Type}.
Variable chk : bool.
Variable contains : oracle N -> M S bool.
Variable get : oracle N -> M S (option (sentry T)).
Variable get_mut : oracle N -> M S (option Ptr).
Variable read : Ptr -> M S (sentry T).
Variable write : Ptr -> sentry T -> M S unit.
Variable insert : oracle N -> N -> sentry T -> M S (option (sentry T)).
Variable remove : oracle N -> M S (option (sentry T)).
Variable R : S -> tree N (sentry T) -> Prop.
Hypothesis Hcon : forall s t o f, R s t -> surely o f -> contains o s = (Ret (match tree_find f t with Some _ => true | None => false end), s).
Hypothesis Hget : forall s t o f, R s t -> surely o f -> get o s = (Ret (snd <$> tree_find f t), s).
Hypothesis Hgm : forall s t o f, R s t -> surely o f ->
  match tree_find f t with
  | None => get_mut o s = (Ret None, s)
  | Some (_, v) => exists p, get_mut o s = (Ret (Some p), s) /\ read p s = (Ret v, s) /\
      forall w, exists s', write p w s = (Ret tt, s') /\ R s' (tree_set f w t)
  end.
Hypothesis Hins : forall s t o k v r s', R s t -> surely o (N.compare k) -> insert o k v s = (r, s') ->
  match r with Ret _ => R s' (tree_insert N.compare k v t) | _ => alloc_refused r end.
Hypothesis Hrem : forall s t o k r s', R s t -> surely o (N.compare k) -> remove o s = (r, s') ->
  match r with Ret x => x = snd <$> tree_find (N.compare k) t /\ R s' (tree_remove (N.compare k) t) | _ => alloc_refused r end.

Definition holds (s : S) (d : table) : Prop :=
  exists t, R s t /\ bst N.compare t /\ forall i, snd <$> tree_find (N.compare i) t = d i.

Lemma compare_if {A} i id (x y : A) : match i ?= id with Eq => x | _ => y end = if i =? id then x else y.
Proof. destruct (N.compare_spec i id) as [->|H|H]; [by rewrite N.eqb_refl|by rewrite (proj2 (N.eqb_neq _ _)) by lia..]. Qed.

Lemma handle_ok req s d : holds s d ->
  match server_handle contains get get_mut read write insert remove req s with
  | (Ret a, s') => a = (answer req d).1 /\ holds s' (answer req d).2
  | (r, _) => alloc_refused r
  end.
Proof using Hcon Hget Hgm Hins Hrem.
  intros (t & Ht & Hb & Hd). destruct req as [id x|id f|id f|id]; cbn [server_handle answer]; unfold sbind, sret; pose proof (Hd id) as Hid.
  - rewrite (Hcon s t (usize_oracle id) (N.compare id) Ht (fun _ _ => eq_refl)). destruct (tree_find (N.compare id) t) as [[? y]|]; cbn in Hid; rewrite <- Hid.
    { split; [done|]. by exists t. }
    destruct (insert (usize_oracle id) id x s) as [r s'] eqn:Hi. pose proof (Hins _ _ _ _ _ _ _ Ht (fun _ _ => eq_refl) Hi) as Hr.
    destruct r as [y|p| | |]; [|unfold alloc_refused in *; naive_solver..]. split; [done|]. eexists. split_and!; [exact Hr|by apply (tree_insert_bst _ N_order)|].
    intros i. rewrite (ProofBenches.find_insert _ N_order), Hd. apply compare_if.
  - rewrite (Hget s t (usize_oracle id) (N.compare id) Ht (fun _ _ => eq_refl)), Hid. destruct (d id); (split; [|by exists t]); by try destruct f.
  - pose proof (Hgm s t (usize_oracle id) (N.compare id) Ht (fun _ _ => eq_refl)) as Hg.
    destruct (tree_find (N.compare id) t) as [[? y]|] eqn:Hf; cbn in Hid; rewrite <- Hid.
    + destruct Hg as (p & -> & -> & Hw).
      assert (Hy : match f with VName name => SEntry name (se_phone y) (se_email y) | VPhone phone => SEntry (se_name y) phone (se_email y)
        | VEmail email => SEntry (se_name y) (se_phone y) email end = entry_with f y) by (by destruct f, y).
      rewrite Hy. destruct (Hw (entry_with f y)) as (s' & -> & Hs'). split; [done|]. eexists. split_and!; [exact Hs'|by apply tree_set_bst|].
      intros i. rewrite (find_set _ N_order) by congruence. rewrite Hd. apply compare_if.
    + rewrite Hg. split; [done|]. by exists t.
  - destruct (remove (usize_oracle id) s) as [r s'] eqn:Hi. pose proof (Hrem _ _ _ _ _ _ Ht (fun _ _ => eq_refl) Hi) as Hr.
    destruct r as [y|p| | |]; [|unfold alloc_refused in *; naive_solver..]. destruct Hr as [-> Hr]. rewrite Hid.
    assert (Hs' : holds s' (table_with id None d)).
    { eexists. split_and!; [exact Hr|by apply (tree_remove_bst _ N_order)|]. intros i. rewrite (find_remove _ N_order) by done. rewrite Hd. apply compare_if. }
    destruct (d id) eqn:E; [done|]. split; [done|]. destruct Hs' as (t' & H1 & H2 & H3). exists t'. split_and!; try done.
    intros i. rewrite H3. cbn. unfold table_with. destruct (N.eqb_spec i id); [by subst|done].
Qed.

Lemma how_many_snoc f (l : list (response T)) a : how_many f (l ++ [a]) = how_many f l + if f a then 1 else 0.
Proof. unfold how_many. rewrite List.filter_app, app_length. cbn [List.filter]. destruct (f a); cbn [length]; lia. Qed.

Lemma how_many_le f (l : list (response T)) : how_many f l <= N.of_nat (length l).
Proof. unfold how_many. induction l as [|x l IH]; cbn [List.filter length]; [lia|]. destruct (f x); cbn [length]; lia. Qed.

Lemma run_loop_ok reqs : forall s d out, holds s d -> N.of_nat (length out + length reqs) < USIZE ->
  match run_loop chk contains get get_mut read write insert remove reqs out (counted out) s with
  | (Ret x, s') => x = (out ++ (answers_to reqs d).1, counted (out ++ (answers_to reqs d).1)) /\ holds s' (answers_to reqs d).2
  | (r, _) => alloc_refused r
  end.
Proof using Hcon Hget Hgm Hins Hrem.
  induction reqs as [|req reqs IH]; intros s d out Hs Hl; cbn [run_loop answers_to]; unfold sbind, sret, slift.
  { cbn [fst snd]. by rewrite app_nil_r. }
  pose proof (handle_ok req s d Hs) as H. destruct (answer req d) as [a d'] eqn:Ha. cbn [fst snd] in H.
  destruct (server_handle contains get get_mut read write insert remove req s) as [[a'|p| | |] s'];
    [|unfold alloc_refused in *; naive_solver..]. destruct H as [-> Hs'].
  specialize (IH s' d' (out ++ [a]) Hs'). rewrite app_length in IH. cbn [length] in IH, Hl. specialize (IH ltac:(lia)).
  pose proof (how_many_le is_not_found out). pose proof (how_many_le is_bad_request out).
  pose proof (how_many_le (fun a => negb (is_not_found a || is_bad_request a)) out).
  match goal with |- context [match ?x with Ret a => _ | _ => _ end] =>
    assert (Hc : x = Ret (counted (out ++ [a]))) end.
  { unfold counted, uadd. rewrite !how_many_snoc. destruct a; cbn [fst snd is_not_found is_bad_request orb negb];
      (rewrite (proj2 (N.ltb_lt _ _)) by lia); cbn [rmap rbind]; by rewrite !N.add_0_r. }
  rewrite Hc. destruct (answers_to reqs d') as [l d2]. cbn [fst snd] in *. rewrite <- app_assoc in IH. exact IH.
Qed.
End server.

Lemma map_serve_ok {T} e (reqs : list (request T)) : N.of_nat (length reqs) < USIZE ->
  match map_serve e reqs with
  | (Ret x, m) => x = ((answers_to reqs (fun _ => None)).1, counted (answers_to reqs (fun _ => None)).1) /\ reachable e m /\
      forall i o, surely o (N.compare i) -> exec e (OGet o) m = (Ret (OutValue ((answers_to reqs (fun _ => None)).2 i)), m)
  | (r, _) => alloc_refused r
  end.
Proof.
  intros Hl. unfold map_serve.
  pose proof (run_loop_ok (T:=T) (e_chk e) (fun o => let! m := sget in slift (map_contains_key m o)) (fun o => let! m := sget in slift (map_get m o))
    (fun o => let! m := sget in slift (map_get_mut m o)) (fun p => let! m := sget in slift (nodemut_value m p))
    write_value (bstmap_insert e) (map_remove e) (fun m t => reachable e m /\ shows m t)) as H.
  specialize (H ltac:(intros s t o f [Hr Hs] Ho; by apply (map_contains_tree e))).
  specialize (H ltac:(intros s t o f [Hr Hs] Ho; by apply (map_get_tree e))).
  specialize (H ltac:(intros s t o f [Hr Hs] Ho; by apply (map_get_mut_tree e))).
  specialize (H ltac:(intros s t o k v r s' [Hr Hs] Ho Hi; by apply (map_insert_step _ N_order e s t o k v r s'))).
  specialize (H ltac:(intros s t o k r s' [Hr Hs] Ho Hi; by apply (map_remove_step _ N_order e s t o k r s'))).
  specialize (H reqs map_new (fun _ => None) []).
  specialize (H ltac:(exists tleaf; split_and!; [apply new_reachable|apply new_shows|done|done]) Hl).
  change (counted []) with (0, 0, 0) in H.
  destruct (run_loop _ _ _ _ _ _ _ _ reqs [] _ _) as [[x|p| | |] m]; [|done..]. destruct H as [-> (t & [R1 S1] & _ & Ht)].
  split; [done|]. split; [done|]. intros i o Ho. rewrite <- Ht. pose proof (map_get_tree e m t o (N.compare i) R1 S1 Ho) as G.
  revert G. cbn [exec]. unfold sbind, sget, slift, sret. by intros [= ->].
Qed.

Lemma simple_serve_ok {T} e (reqs : list (request T)) : N.of_nat (length reqs) < USIZE ->
  match simple_serve e reqs with
  | (Ret x, m) => x = ((answers_to reqs (fun _ => None)).1, counted (answers_to reqs (fun _ => None)).1) /\ simple_reachable e m /\
      forall i o, surely o (N.compare i) -> simple_exec e (OGet o) m = (Ret (OutValue ((answers_to reqs (fun _ => None)).2 i)), m)
  | (r, _) => alloc_refused r
  end.
Proof.
  intros Hl. unfold simple_serve.
  pose proof (run_loop_ok (T:=T) (b_chk e) (fun o => let! m := sget in slift (simple_contains_key m o)) (fun o => let! m := sget in slift (simple_get m o))
    (fun o => let! m := sget in slift (simple_get_mut m o)) (fun p => let! m := sget in let! n := slift (peek m p) in sret (n_value n))
    (fun p v => poke p (with_value v)) (simple_insert e) (simple_remove e) (fun m t => simple_reachable e m /\ simple_shows m t)) as H.
  specialize (H ltac:(intros s t o f [Hr Hs] Ho; by apply (simple_contains_tree e))).
  specialize (H ltac:(intros s t o f [Hr Hs] Ho; by apply (simple_get_tree e))).
  specialize (H ltac:(intros s t o f [Hr Hs] Ho; by apply (simple_get_mut_tree e))).
  specialize (H ltac:(intros s t o k v r s' [Hr Hs] Ho Hi; by apply (simple_insert_step _ e s t o k v r s'))).
  specialize (H ltac:(intros s t o k r s' [Hr Hs] Ho Hi; by apply (simple_remove_step _ N_order e s t o k r s'))).
  specialize (H reqs simple_new (fun _ => None) []).
  specialize (H ltac:(exists tleaf; split_and!; [apply simple_reachable_new|apply simple_new_shows|done|done]) Hl).
  change (counted []) with (0, 0, 0) in H.
  destruct (run_loop _ _ _ _ _ _ _ _ reqs [] _ _) as [[x|p| | |] m]; [|done..]. destruct H as [-> (t & [R1 S1] & _ & Ht)].
  split; [done|]. split; [done|]. intros i o Ho. rewrite <- Ht. pose proof (simple_get_tree e m t o (N.compare i) R1 S1 Ho) as G.
  revert G. cbn [simple_exec]. unfold sbind, sget, slift, sret. by intros [= ->].
Qed.
