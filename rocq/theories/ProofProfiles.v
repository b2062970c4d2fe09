(** * Debug and release builds give the same results *)

From Verif Require Export ProofSafety SpecProfiles.
Local Open Scope nat_scope.

Definition ragree {A} (r r' : res A) : Prop := quiet r -> r' = r.
Definition agree {S A} (f g : M S A) : Prop := forall s, quiet (f s).1 -> g s = f s.

(** Ends well or loudly. *)
Definition rtame {A} (r : res A) : Prop := match r with Ret _ => True | _ => ~ quiet r end.
Definition tame {S A} (f : M S A) : Prop := forall s, rtame (f s).1.

Lemma ragree_refl {A} (r : res A) : ragree r r.
Proof. done. Qed.
Lemma ragree_bind {A B} (r r' : res A) (f f' : A -> res B) :
  ragree r r' -> (forall x, ragree (f x) (f' x)) -> ragree (rbind r f) (rbind r' f').
Proof. unfold ragree. intros H Hf Hq. destruct r; cbn [rbind] in *; (rewrite H; [|first [exact I|exact Hq]]); cbn [rbind]; auto. Qed.
Lemma agree_refl {S A} (f : M S A) : agree f f.
Proof. done. Qed.
Lemma agree_bind {S A B} (f f' : M S A) (g g' : A -> M S B) :
  agree f f' -> (forall x, agree (g x) (g' x)) -> agree (sbind f g) (sbind f' g').
Proof.
  unfold agree, sbind. intros H Hg s Hq. specialize (H s). destruct (f s) as [r s1].
  destruct r; simpl in *; (rewrite H; [|first [exact I|exact Hq]]); simpl; auto.
Qed.
Lemma agree_lift {S A} (r r' : res A) : ragree r r' -> agree (S := S) (slift r) (slift r').
Proof. intros H s Hq. unfold slift in *. simpl in *. by rewrite H. Qed.
Lemma agree_zoom {S T A} (pr : S -> T) inj (f f' : M T A) : agree f f' -> agree (zoom pr inj f) (zoom pr inj f').
Proof.
  unfold agree, zoom. intros H s Hq. specialize (H (pr s)). destruct (f (pr s)) as [r t]. simpl in *. by rewrite H.
Qed.
Lemma agree_on_panic {S A} (h : S -> S) (f f' : M S A) : agree f f' -> agree (on_panic h f) (on_panic h f').
Proof.
  unfold agree, on_panic. intros H s Hq. specialize (H s). destruct (f s) as [r s1].
  destruct r; simpl in *; (rewrite H; [|first [exact I|exact Hq]]); auto.
Qed.

Lemma rtame_ret {A} (x : A) : rtame (Ret x).
Proof. done. Qed.
Lemma rtame_ub {A} u : rtame (@UB A u).
Proof. simpl. tauto. Qed.
Lemma rtame_diverge {A} : rtame (@Diverge A).
Proof. simpl. tauto. Qed.
Lemma rtame_bind {A B} (r : res A) (f : A -> res B) : rtame r -> (forall x, rtame (f x)) -> rtame (rbind r f).
Proof. destruct r; simpl; auto. Qed.
Lemma tame_bind {S A B} (f : M S A) (g : A -> M S B) : tame f -> (forall x, tame (g x)) -> tame (sbind f g).
Proof. unfold tame, sbind. intros H Hg s. specialize (H s). destruct (f s) as [r s1]. destruct r; simpl in *; auto. Qed.
Lemma tame_lift {S A} (r : res A) : rtame r -> tame (S := S) (slift r).
Proof. intros H s. exact H. Qed.
Lemma tame_zoom {S T A} (pr : S -> T) inj (f : M T A) : tame f -> tame (zoom pr inj f).
Proof. unfold tame, zoom. intros H s. specialize (H (pr s)). by destruct (f (pr s)). Qed.
Lemma tame_get {S} : tame (@sget S).
Proof. done. Qed.
Lemma tame_ret {S A} (x : A) : tame (S := S) (sret x).
Proof. done. Qed.
Lemma tame_mod {S} (f : S -> S) : tame (smod f).
Proof. done. Qed.

Section profiles.
Context (e : env).
Notation e' := (release e).

Lemma uadd_agree a b : ragree (uadd (e_chk e) a b) (uadd (e_chk e') a b).
Proof. unfold uadd, ragree. simpl. case_match; [done|]. destruct (e_chk e); simpl; [tauto|done]. Qed.
Lemma usub_agree a b : ragree (usub (e_chk e) a b) (usub (e_chk e') a b).
Proof. unfold usub, ragree. simpl. case_match; [done|]. destruct (e_chk e); simpl; [tauto|done]. Qed.
Lemma umul_agree a b : ragree (umul (e_chk e) a b) (umul (e_chk e') a b).
Proof. unfold umul, ragree. simpl. case_match; [done|]. destruct (e_chk e); simpl; [tauto|done]. Qed.
Lemma ushl_agree a b : ragree (ushl (e_chk e) a b) (ushl (e_chk e') a b).
Proof. unfold ushl, ragree. simpl. case_match; [done|]. destruct (e_chk e); simpl; [tauto|done]. Qed.
Lemma u32sub_agree a b : ragree (u32sub (e_chk e) a b) (u32sub (e_chk e') a b).
Proof. unfold u32sub, ragree. simpl. case_match; [done|]. destruct (e_chk e); simpl; [tauto|done]. Qed.
Lemma dassert_agree b : ragree (dassert (e_chk e) b) (dassert (e_chk e') b).
Proof. unfold dassert, ragree. simpl. destruct (e_chk e), b; simpl; tauto. Qed.
Lemma uadd_tame chk a b : rtame (uadd chk a b).
Proof. unfold uadd. destruct chk; case_match; simpl; tauto. Qed.
Lemma usub_tame chk a b : rtame (usub chk a b).
Proof. unfold usub. destruct chk; case_match; simpl; tauto. Qed.
Lemma umul_tame chk a b : rtame (umul chk a b).
Proof. unfold umul. destruct chk; case_match; simpl; tauto. Qed.
Lemma ushl_tame chk a b : rtame (ushl chk a b).
Proof. unfold ushl. destruct chk; case_match; simpl; tauto. Qed.
Lemma u32sub_tame chk a b : rtame (u32sub chk a b).
Proof. unfold u32sub. destruct chk; case_match; simpl; tauto. Qed.
Lemma dassert_tame chk b : rtame (dassert chk b).
Proof. unfold dassert. destruct chk, b; simpl; tauto. Qed.
End profiles.

Global Hint Resolve uadd_agree usub_agree umul_agree ushl_agree u32sub_agree dassert_agree : agree.
Global Hint Resolve uadd_tame usub_tame umul_tame ushl_tame u32sub_tame dassert_tame rtame_ret rtame_ub rtame_diverge
  tame_get tame_ret tame_mod : agree.

Ltac ag1 :=
  match goal with
  | |- ragree ?a ?a => apply ragree_refl
  | |- agree ?a ?a => apply agree_refl
  | |- _ => solve [auto 2 with agree]
  | |- ragree (rbind _ _) (rbind _ _) => apply ragree_bind; [|intros]
  | |- agree (sbind _ _) (sbind _ _) => apply agree_bind; [|intros]
  | |- agree (slift _) (slift _) => apply agree_lift
  | |- agree (zoom _ _ _) (zoom _ _ _) => apply agree_zoom
  | |- agree (on_panic _ _) (on_panic _ _) => apply agree_on_panic
  | |- ragree (if ?b then _ else _) (if ?b then _ else _) => destruct b
  | |- agree (if ?b then _ else _) (if ?b then _ else _) => destruct b
  | |- ragree (match ?b with _ => _ end) (match ?b with _ => _ end) => destruct b
  | |- agree (match ?b with _ => _ end) (match ?b with _ => _ end) => destruct b
  | |- rtame (rbind _ _) => apply rtame_bind; [|intros]
  | |- tame (sbind _ _) => apply tame_bind; [|intros]
  | |- tame (slift _) => apply tame_lift
  | |- tame (zoom _ _ _) => apply tame_zoom
  | |- rtame (match ?b with _ => _ end) => destruct b
  | |- tame (match ?b with _ => _ end) => destruct b
  end.
Ltac ag := repeat (cbv beta zeta; ag1).

Section arena.
Context {T : Type} (e : env).
Notation e' := (release e).

Lemma chunk_len_agree i : ragree (chunk_len e i) (chunk_len e' i).
Proof. unfold chunk_len. ag. Qed.
Lemma chunk_len_tame i : rtame (chunk_len e i).
Proof. unfold chunk_len. ag. Qed.
Hint Resolve chunk_len_agree chunk_len_tame : agree.
Lemma position_for_agree i : ragree (position_for e i) (position_for e' i).
Proof. unfold position_for. ag. Qed.
Lemma position_for_tame i : rtame (position_for e i).
Proof. unfold position_for. ag. Qed.
Hint Resolve position_for_agree position_for_tame : agree.
Lemma vec_agree s n : ragree (vec_with_capacity e s n) (vec_with_capacity e' s n).
Proof. done. Qed.
Hint Resolve vec_agree : agree.
Lemma push_chunk_agree : agree (push_chunk (T := T) e) (push_chunk e').
Proof. unfold push_chunk. ag. Qed.
Hint Resolve push_chunk_agree : agree.
Lemma grow_loop_agree fuel cap : agree (grow_loop (T := T) e fuel cap) (grow_loop e' fuel cap).
Proof. induction fuel; cbn [grow_loop]; ag. Qed.
Hint Resolve grow_loop_agree : agree.
Lemma arena_alloc_agree (x : T) : agree (arena_alloc e x) (arena_alloc e' x).
Proof. unfold arena_alloc. ag. Qed.
Lemma ptr_at_agree (a : arena T) i : ragree (ptr_at e a i) (ptr_at e' a i).
Proof. unfold ptr_at. ag. Qed.
Lemma chunk_item_tame (a : arena T) p : rtame (chunk_item_ptr a p).
Proof. unfold chunk_item_ptr. ag. Qed.
Hint Resolve chunk_item_tame : agree.
Lemma ptr_at_tame (a : arena T) i : rtame (ptr_at e a i).
Proof. unfold ptr_at. ag. Qed.
Lemma arena_get_tame (a : arena T) p : rtame (arena_get a p).
Proof. unfold arena_get. ag. Qed.
Lemma arena_poke_tame p (x : T) : tame (arena_poke p x).
Proof. intros a. unfold arena_poke. repeat case_match; simpl; tauto. Qed.
Lemma arena_set_tame p (x : T) : tame (arena_set p x).
Proof. intros a. unfold arena_set. case_match; simpl; try tauto. apply arena_poke_tame. Qed.
Hint Resolve ptr_at_agree ptr_at_tame arena_get_tame arena_poke_tame arena_set_tame arena_alloc_agree : agree.
Lemma drop_cell_tame p : tame (drop_cell (T := T) (fun _ => false) p).
Proof. intros a. unfold drop_cell. repeat case_match; simpl; tauto. Qed.
Hint Resolve drop_cell_tame : agree.
Lemma clear_items_agree pn fuel : forall c cl i d, agree (clear_items (T := T) e pn fuel c cl i d) (clear_items e' pn fuel c cl i d).
Proof. induction fuel; intros; cbn [clear_items]; ag. Qed.
Lemma clear_items_tame fuel : forall c cl i d, tame (clear_items (T := T) e (fun _ => false) fuel c cl i d).
Proof. induction fuel; intros; cbn [clear_items]; ag. Qed.
Hint Resolve clear_items_agree clear_items_tame : agree.
Lemma clear_chunks_agree pn cs : forall i d, agree (clear_chunks (T := T) e pn i cs d) (clear_chunks e' pn i cs d).
Proof. induction cs; intros; cbn [clear_chunks]; ag. Qed.
Lemma clear_chunks_tame cs : forall i d, tame (clear_chunks (T := T) e (fun _ => false) i cs d).
Proof. induction cs; intros; cbn [clear_chunks]; ag. Qed.
Hint Resolve clear_chunks_agree clear_chunks_tame : agree.
Lemma arena_clear_agree nd pn : agree (arena_clear (T := T) e nd pn) (arena_clear e' nd pn).
Proof. unfold arena_clear. ag. Qed.
Lemma arena_clear_tame nd : tame (arena_clear (T := T) e nd (fun _ => false)).
Proof. unfold arena_clear. ag. Qed.
Lemma free_chunk_tame c cl : tame (free_chunk (T := T) c cl).
Proof. intros a. unfold free_chunk. repeat case_match; simpl; tauto. Qed.
Hint Resolve arena_clear_agree arena_clear_tame free_chunk_tame : agree.
Lemma free_chunks_agree cs : forall i, agree (free_chunks (T := T) e i cs) (free_chunks e' i cs).
Proof. induction cs; intros; cbn [free_chunks]; ag. Qed.
Lemma free_chunks_tame cs : forall i, tame (free_chunks (T := T) e i cs).
Proof. induction cs; intros; cbn [free_chunks]; ag. Qed.
Hint Resolve free_chunks_agree free_chunks_tame : agree.
Lemma arena_drop_agree nd pn : agree (arena_drop (T := T) e nd pn) (arena_drop e' nd pn).
Proof. unfold arena_drop. ag. Qed.
Lemma arena_drop_tame nd : tame (arena_drop (T := T) e nd (fun _ => false)).
Proof. unfold arena_drop. ag. Qed.
Hint Resolve arena_drop_agree arena_drop_tame : agree.

Lemma arena_with_capacity_agree n :
  quiet (arena_with_capacity (T := T) e n).1 -> arena_with_capacity (T := T) e' n = arena_with_capacity e n.
Proof.
  unfold arena_with_capacity. pose proof (grow_loop_agree GROW_FUEL n (@arena_new T)) as H.
  destruct (grow_loop e GROW_FUEL n (@arena_new T)) as [r a]. simpl in H.
  destruct r; simpl; intros Hq; try (rewrite H; done).
  pose proof (arena_drop_agree false (fun _ => false) a) as Hd. pose proof (arena_drop_tame false a) as Ht.
  destruct (arena_drop e false (fun _ => false) a) as [rd a']. simpl in *.
  destruct rd; simpl in *; try tauto; rewrite H; try done; by rewrite Hd.
Qed.
Lemma arena_reserve_agree n : agree (arena_reserve (T := T) e n) (arena_reserve e' n).
Proof. unfold arena_reserve. ag. Qed.
Lemma shrink_loop_agree fuel : forall n, agree (shrink_loop (T := T) e fuel n) (shrink_loop e' fuel n).
Proof. induction fuel; intros; cbn [shrink_loop]; ag. Qed.
Hint Resolve shrink_loop_agree : agree.
Lemma arena_shrink_agree : agree (arena_shrink_to_fit (T := T) e) (arena_shrink_to_fit e').
Proof. unfold arena_shrink_to_fit. ag. Qed.

Lemma next_ptr_agree (a : arena T) r : ragree (next_ptr e a r).1 (next_ptr e' a r).1.
Proof. unfold next_ptr. case_match; simpl; ag. Qed.
Lemma next_ptr_range (a : arena T) r : (next_ptr e' a r).2 = (next_ptr e a r).2.
Proof. unfold next_ptr. by case_match. Qed.
Lemma next_ptr_tame (a : arena T) r : rtame (next_ptr e a r).1.
Proof. unfold next_ptr. case_match; simpl; ag. Qed.
End arena.
Global Hint Resolve chunk_len_agree chunk_len_tame position_for_agree position_for_tame push_chunk_agree grow_loop_agree
  ptr_at_agree ptr_at_tame arena_get_tame arena_poke_tame arena_set_tame arena_alloc_agree
  arena_clear_agree arena_clear_tame arena_drop_agree arena_drop_tame arena_reserve_agree arena_shrink_agree
  next_ptr_agree next_ptr_tame : agree.

Section slab.
Context {T : Type} (e : env).
Notation e' := (release e).
Implicit Types s : slab T.

Lemma entry_value_tame (en : entry T) : rtame (entry_value en).
Proof. unfold entry_value. ag. Qed.
Lemma entry_next_tame (en : entry T) : rtame (entry_next en).
Proof. unfold entry_next. ag. Qed.
Hint Resolve entry_value_tame entry_next_tame : agree.
Lemma slab_len_agree s : ragree (slab_len e s) (slab_len e' s).
Proof. unfold slab_len. ag. Qed.
Hint Resolve slab_len_agree : agree.
Lemma slab_is_empty_agree s : ragree (slab_is_empty e s) (slab_is_empty e' s).
Proof. unfold slab_is_empty. ag. Qed.
Lemma slab_get_tame s p : rtame (slab_get s p).
Proof. unfold slab_get. ag. Qed.
Hint Resolve slab_get_tame : agree.
Lemma slab_push_agree (x : T) : agree (slab_push e x) (slab_push e' x).
Proof. unfold slab_push, on_items. ag. Qed.
Lemma slab_remove_agree p : agree (slab_remove (T := T) e p) (slab_remove e' p).
Proof. unfold slab_remove, on_items. ag. Qed.
Lemma reset_agree : agree (reset_internal_state (T := T) e) (reset_internal_state e').
Proof. unfold reset_internal_state, on_items. ag. Qed.
Lemma reset_tame : tame (reset_internal_state (T := T) e).
Proof. unfold reset_internal_state, on_items. ag. Qed.
Hint Resolve reset_agree reset_tame : agree.
Lemma collect_free_tame fuel s : forall c acc, rtame (collect_free fuel s c acc).
Proof. induction fuel; intros; cbn [collect_free]; ag. Qed.
Lemma drop_value_tame p : tame (drop_value (T := T) (fun _ => false) p).
Proof. unfold drop_value, on_items. ag. Qed.
Hint Resolve collect_free_tame drop_value_tame : agree.
Lemma drop_loop_agree pn fuel fr : forall r, agree (drop_loop (T := T) e pn fuel fr r) (drop_loop e' pn fuel fr r).
Proof.
  induction fuel as [|fuel IH]; intros r; cbn [drop_loop]; [ag|].
  apply agree_bind; [ag|intros s].
  pose proof (next_ptr_agree e (s_items s) r) as H1. pose proof (next_ptr_range e (s_items s) r) as H2.
  destruct (next_ptr e (s_items s) r) as [x r1], (next_ptr e' (s_items s) r) as [x' r1']. simpl in *. subst r1'. ag.
Qed.
Lemma drop_loop_tame fuel fr : forall r, tame (drop_loop (T := T) e (fun _ => false) fuel fr r).
Proof.
  induction fuel as [|fuel IH]; intros r; cbn [drop_loop]; [ag|].
  apply tame_bind; [ag|intros s]. pose proof (next_ptr_tame e (s_items s) r) as H1.
  destruct (next_ptr e (s_items s) r) as [x r1]. simpl in *. ag.
Qed.
Hint Resolve drop_loop_agree drop_loop_tame : agree.
Lemma slab_clear_agree pn : agree (slab_clear (T := T) e pn) (slab_clear e' pn).
Proof. unfold slab_clear. change (e_nd e') with (e_nd e). ag. Qed.
Lemma slab_clear_tame : tame (slab_clear (T := T) e (fun _ => false)).
Proof. unfold slab_clear. ag. Qed.
Lemma slab_reserve_agree n : agree (slab_reserve (T := T) e n) (slab_reserve e' n).
Proof. unfold slab_reserve, on_items. ag. Qed.
Lemma slab_shrink_agree : agree (slab_shrink_to_fit (T := T) e) (slab_shrink_to_fit e').
Proof. unfold slab_shrink_to_fit, on_items. ag. Qed.
Hint Resolve slab_clear_agree slab_clear_tame : agree.
Lemma slab_with_capacity_agree n :
  quiet (slab_with_capacity (T := T) e n).1 -> slab_with_capacity (T := T) e' n = slab_with_capacity e n.
Proof.
  unfold slab_with_capacity. pose proof (arena_with_capacity_agree (T := entry T) e n) as H.
  destruct (arena_with_capacity e n) as [r a]. simpl in *. intros Hq. by rewrite H.
Qed.
Lemma slab_drop_pre : tame ((if negb (e_nd e) then sret tt else slab_clear (T := T) e (fun _ => false))).
Proof. ag. Qed.
Lemma slab_drop_tame : tame (slab_drop (T := T) e (fun _ => false)).
Proof.
  intros s. unfold slab_drop. pose proof (slab_drop_pre s) as H.
  destruct ((if negb (e_nd e) then sret tt else slab_clear e (fun _ => false)) s) as [r s1]. simpl in H.
  assert (Ht : tame (on_items (T := T) (arena_drop e false (fun _ => false)))) by (unfold on_items; ag).
  specialize (Ht s1). destruct (on_items (arena_drop e false (fun _ => false)) s1) as [r2 s2].
  destruct r; simpl in *; try done. destruct r2; simpl in *; try tauto.
Qed.
Lemma slab_drop_agree : agree (slab_drop (T := T) e (fun _ => false)) (slab_drop e' (fun _ => false)).
Proof.
  intros s. unfold slab_drop. change (e_nd e') with (e_nd e).
  pose proof (slab_drop_pre s) as H.
  assert (H' : agree (if negb (e_nd e) then sret tt else slab_clear (T := T) e (fun _ => false))
                     (if negb (e_nd e) then sret tt else slab_clear e' (fun _ => false))) by ag.
  specialize (H' s).
  destruct ((if negb (e_nd e) then sret tt else slab_clear e (fun _ => false)) s) as [r s1]. simpl in H, H'.
  assert (Ha : agree (on_items (T := T) (arena_drop e false (fun _ => false))) (on_items (arena_drop e' false (fun _ => false))))
    by (unfold on_items; ag).
  assert (Ht : tame (on_items (T := T) (arena_drop e false (fun _ => false)))) by (unfold on_items; ag).
  specialize (Ha s1). specialize (Ht s1).
  destruct (on_items (arena_drop e false (fun _ => false)) s1) as [r2 s2] eqn:E2.
  destruct r; simpl in *; try tauto; intros Hq.
  - rewrite H' by done. simpl. by apply Ha.
  - destruct r2; simpl in *; tauto.
Qed.
End slab.
Global Hint Resolve slab_len_agree slab_is_empty_agree slab_get_tame slab_push_agree slab_remove_agree slab_clear_agree slab_clear_tame
  slab_reserve_agree slab_shrink_agree slab_drop_agree slab_drop_tame : agree.

Section map.
Context {K V : Type} (e : env).
Notation e' := (release e).
Implicit Types m : bstmap K V.

Lemma map_len_agree m : ragree (map_len e m) (map_len e' m).
Proof. unfold map_len. ag. Qed.
Hint Resolve map_len_agree : agree.
Lemma map_is_empty_agree m : ragree (map_is_empty e m) (map_is_empty e' m).
Proof.
  unfold map_is_empty. change (e_chk e') with false. cbv iota. destruct (e_chk e) eqn:He; [|ag].
  apply ragree_bind; [|intros; ag]. intros Hq.
  assert (Ht : rtame (slab_is_empty e (m_nodes m))) by (unfold slab_is_empty, slab_len; ag).
  destruct (slab_is_empty e (m_nodes m)); simpl in *; try tauto.
  revert Hq. unfold dassert. case_match; simpl; tauto.
Qed.
Lemma push_left_agree n (k : K) (v : V) : agree (nodemut_push_left e n k v) (nodemut_push_left e' n k v).
Proof. unfold nodemut_push_left, on_nodes. ag. Qed.
Lemma push_right_agree n (k : K) (v : V) : agree (nodemut_push_right e n k v) (nodemut_push_right e' n k v).
Proof. unfold nodemut_push_right, on_nodes. ag. Qed.
Hint Resolve push_left_agree push_right_agree : agree.
Lemma insert_loop_agree o fuel : forall i (k : K) (v : V) cur, agree (insert_loop e o fuel i k v cur) (insert_loop e' o fuel i k v cur).
Proof. induction fuel; intros; cbn [insert_loop]; ag. Qed.
Hint Resolve insert_loop_agree : agree.
Lemma insert_agree o (k : K) (v : V) : agree (bstmap_insert e o k v) (bstmap_insert e' o k v).
Proof. unfold bstmap_insert, on_nodes. ag. Qed.
Hint Resolve insert_agree : agree.
Lemma remove_entry_agree o : agree (map_remove_entry (K := K) (V := V) e o) (map_remove_entry e' o).
Proof. unfold map_remove_entry, on_nodes. ag. Qed.
Hint Resolve remove_entry_agree : agree.
Lemma remove_agree o : agree (map_remove (K := K) (V := V) e o) (map_remove e' o).
Proof. unfold map_remove. ag. Qed.
Lemma clear_agree pn : agree (map_clear (K := K) (V := V) e pn) (map_clear e' pn).
Proof. unfold map_clear, on_nodes. ag. Qed.
Lemma reserve_agree n : agree (map_reserve (K := K) (V := V) e n) (map_reserve e' n).
Proof. unfold map_reserve, on_nodes. ag. Qed.
Lemma shrink_agree : agree (map_shrink_to_fit (K := K) (V := V) e) (map_shrink_to_fit e').
Proof. unfold map_shrink_to_fit, on_nodes. ag. Qed.
Hint Resolve remove_agree clear_agree reserve_agree shrink_agree map_is_empty_agree : agree.
Lemma insert_all_agree os items pn : forall j, agree (insert_all (K := K) (V := V) e os j items pn) (insert_all e' os j items pn).
Proof. induction items; intros; cbn [insert_all]; ag. Qed.
Hint Resolve insert_all_agree : agree.
Lemma extend_agree os it : agree (map_extend (K := K) (V := V) e os it) (map_extend e' os it).
Proof. unfold map_extend. ag. Qed.
Lemma map_drop_agree : agree (map_drop (K := K) (V := V) e (fun _ => false)) (map_drop e' (fun _ => false)).
Proof. unfold map_drop, on_nodes. ag. Qed.
Lemma map_drop_tame : tame (map_drop (K := K) (V := V) e (fun _ => false)).
Proof. unfold map_drop, on_nodes. ag. Qed.
Lemma with_capacity_agree n :
  quiet (map_with_capacity (K := K) (V := V) e n).1 -> map_with_capacity (K := K) (V := V) e' n = map_with_capacity e n.
Proof.
  unfold map_with_capacity. pose proof (slab_with_capacity_agree (T := inner K V) e n) as H.
  destruct (slab_with_capacity e n) as [r a]. simpl in *. intros Hq. by rewrite H.
Qed.
Lemma build_agree n (f f' : M (bstmap K V) unit) : agree f f' ->
  quiet (build e (map_with_capacity e n) f).1 -> build e' (map_with_capacity e' n) f' = build e (map_with_capacity e n) f.
Proof.
  intros Hf Hq. pose proof (with_capacity_agree n) as H. unfold build in *.
  destruct (map_with_capacity e n) as [r m]. simpl in H.
  destruct r; simpl in *; try (rewrite H; done).
  specialize (Hf m). destruct (f m) as [r1 m1]. simpl in Hf.
  destruct r1; simpl in *; rewrite H by done; try (rewrite Hf; done).
  pose proof (map_drop_agree m1) as Hd. pose proof (map_drop_tame m1) as Ht.
  destruct (map_drop e (fun _ => false) m1) as [r2 m2]. simpl in *.
  destruct r2; simpl in *; try tauto. rewrite Hf by done. by rewrite Hd.
Qed.
Lemma clone_loop_agree os ck cv src fuel : forall j st,
  agree (clone_loop (K := K) (V := V) e os ck cv src fuel j st) (clone_loop e' os ck cv src fuel j st).
Proof. induction fuel; intros; cbn [clone_loop]; ag. Qed.
Lemma clone_agree os ck cv m : quiet (map_clone e os ck cv m).1 -> map_clone e' os ck cv m = map_clone e os ck cv m.
Proof.
  unfold map_clone. pose proof (map_len_agree m) as H.
  destruct (map_len e m) as [n|p| |u|]; intros Hq; rewrite H; try done.
  apply build_agree; [|done]. apply agree_bind; [apply agree_refl|]. intros. apply clone_loop_agree.
Qed.
Lemma clone_replace_agree os ck cv : agree (clone_and_replace (K := K) (V := V) e os ck cv) (clone_and_replace e' os ck cv).
Proof.
  intros m. unfold clone_and_replace. pose proof (clone_agree os ck cv m) as H.
  destruct (map_clone e os ck cv m) as [r m2]. simpl in H.
  pose proof (map_drop_agree m) as Hd. destruct (map_drop e (fun _ => false) m) as [r1 m1]. simpl in Hd.
  destruct r; simpl; intros Hq; rewrite H by done; try done.
  destruct r1; simpl in *; rewrite Hd; done.
Qed.
Hint Resolve extend_agree clone_replace_agree : agree.

Lemma exec_agree c : agree (exec (K := K) (V := V) e c) (exec e' c).
Proof. destruct c; unfold exec; ag. Qed.

Lemma begin_agree (s : start K V) : quiet (begin e s).1 -> begin e' s = begin e s.
Proof.
  destruct s; simpl; [done|apply with_capacity_agree|]. unfold map_from_iter. apply build_agree. apply insert_all_agree.
Qed.

Lemma run_agree cs : forall m, Forall quiet (run e cs m).1 -> run e' cs m = run e cs m.
Proof.
  induction cs as [|c cs IH]; intros m; cbn [run]; [done|].
  pose proof (exec_agree c m) as H. destruct (exec e c m) as [r m1]. simpl in H.
  destruct r as [x|p| |u|]; cbn [fst]; intros Hq.
  - rewrite H by done. specialize (IH m1). destruct (run e cs m1) as [rs m2]. simpl in *.
    apply Forall_cons in Hq as [_ Hq]. by rewrite IH.
  - specialize (IH m1). destruct (run e cs m1) as [rs m2]. simpl in *.
    apply Forall_cons in Hq as [Hq1 Hq]. rewrite H by done. by rewrite IH.
  - by rewrite H.
  - apply Forall_cons in Hq as [Hq1 Hq]. done.
  - apply Forall_cons in Hq as [Hq1 Hq]. done.
Qed.
End map.

(** ** No failed assertion of the allocation size when the allocator is exact *)

Definition rnf {A} (r : res A) : Prop := r <> Panic PAssert.
Definition nf {S A} (f : M S A) : Prop := forall s, rnf (f s).1.

Lemma rtame_rnf {A} (r : res A) : rtame r -> rnf r.
Proof. unfold rnf. intros H ->. simpl in H. tauto. Qed.
Lemma tame_nf {S A} (f : M S A) : tame f -> nf f.
Proof. intros H s. apply rtame_rnf, H. Qed.
Lemma rnf_bind {A B} (r : res A) (f : A -> res B) : rnf r -> (forall x, rnf (f x)) -> rnf (rbind r f).
Proof. unfold rnf. destruct r; simpl; auto. intros H _ [= ->]. done. Qed.
Lemma nf_bind {S A B} (f : M S A) (g : A -> M S B) : nf f -> (forall x, nf (g x)) -> nf (sbind f g).
Proof.
  unfold nf, sbind, rnf. intros H Hg s. specialize (H s). destruct (f s) as [r s1]. destruct r; simpl in *; auto.
  intros [= ->]. done.
Qed.
Lemma nf_lift {S A} (r : res A) : rnf r -> nf (S := S) (slift r).
Proof. intros H s. exact H. Qed.
Lemma nf_zoom {S T A} (pr : S -> T) inj (f : M T A) : nf f -> nf (zoom pr inj f).
Proof. unfold nf, zoom. intros H s. specialize (H (pr s)). by destruct (f (pr s)). Qed.
Lemma nf_on_panic {S A} (h : S -> S) (f : M S A) : nf f -> nf (on_panic h f).
Proof. unfold nf, on_panic. intros H s. specialize (H s). destruct (f s) as [r s1]. by destruct r. Qed.
Lemma nf_get {S} : nf (@sget S).
Proof. done. Qed.
Lemma nf_ret {S A} (x : A) : nf (S := S) (sret x).
Proof. done. Qed.
Lemma nf_mod {S} (f : S -> S) : nf (smod f).
Proof. done. Qed.
Lemma nf_fail {S A} p : p <> PAssert -> nf (S := S) (A := A) (sfail p).
Proof. intros H s [= ->]. done. Qed.
Lemma rnf_ret {A} (x : A) : rnf (Ret x).
Proof. done. Qed.
Lemma ask_rnf {K} (o : oracle K) i k : rnf (ask o i k).
Proof. unfold ask, rnf. by destruct (o i k). Qed.
Global Hint Resolve rtame_rnf tame_nf nf_get nf_ret nf_mod rnf_ret ask_rnf : agree.

Ltac nf1 :=
  match goal with
  | |- _ => solve [auto 3 with agree]
  | |- rnf (rbind _ _) => apply rnf_bind; [|intros]
  | |- rnf (rmap _ _) => apply rnf_bind; [|intros]
  | |- nf (sbind _ _) => apply nf_bind; [|intros]
  | |- nf (slift _) => apply nf_lift
  | |- nf (zoom _ _ _) => apply nf_zoom
  | |- nf (on_panic _ _) => apply nf_on_panic
  | |- nf (sfail _) => apply nf_fail; discriminate
  | |- rnf (match ?b with _ => _ end) => destruct b
  | |- nf (match ?b with _ => _ end) => destruct b
  end.
Ltac nf := repeat (cbv beta zeta; nf1).

Section exact.
Context {K V : Type} (e : env) (Hex : exact_allocator e).

Lemma vec_exact s n : rnf (vec_with_capacity e s n) /\ forall c, vec_with_capacity e s n = Ret c -> c = n.
Proof.
  destruct Hex as [H1 H2]. unfold vec_with_capacity, rnf. destruct (N.eqb_spec (e_size e) 0); [done|].
  case_match; [done|]. destruct (e_alloc e s n) as [c|] eqn:E; [|done]. split; [done|]. intros c' [= <-]. by eapply H2.
Qed.
Lemma push_chunk_nf {T} : nf (push_chunk (T := T) e).
Proof.
  unfold push_chunk. apply nf_bind; [nf|intros a]. cbv zeta. apply nf_bind; [nf|intros cl].
  intros a'. unfold sbind at 1. simpl. destruct (vec_exact (a_next a) cl) as [H1 H2].
  destruct (vec_with_capacity e (a_next a) cl) as [c|p| |u|] eqn:E; try (intros [= ->]; by apply H1).
  rewrite (H2 c) by done. rewrite N.eqb_refl. simpl.
  match goal with |- rnf (?f a').1 => assert (Hf : nf f) by nf; apply Hf end.
Qed.
Hint Resolve push_chunk_nf : agree.
Lemma grow_loop_nf {T} fuel cap : nf (grow_loop (T := T) e fuel cap).
Proof. induction fuel; cbn [grow_loop]; nf. Qed.
Hint Resolve grow_loop_nf : agree.
Lemma arena_alloc_nf {T} (x : T) : nf (arena_alloc e x).
Proof. unfold arena_alloc. nf. unfold chunk_item_ptr. nf. Qed.
Hint Resolve arena_alloc_nf : agree.
Lemma slab_update_nf {T} p f : nf (slab_update (T := T) p f).
Proof. unfold slab_update, on_items. nf. Qed.
Lemma slab_push_nf {T} (x : T) : nf (slab_push e x).
Proof. unfold slab_push, on_items. nf. unfold entry_next. nf. Qed.
Hint Resolve slab_update_nf slab_push_nf : agree.
Lemma opt_nodemut_nf (m : bstmap K V) p : rnf (opt_nodemut m p).
Proof. unfold opt_nodemut, nodemut_new. nf. Qed.
Lemma opt_node_nf (m : bstmap K V) p : rnf (opt_node m p).
Proof. unfold opt_node, node_new. nf. Qed.
Hint Resolve opt_nodemut_nf opt_node_nf : agree.
Lemma insert_loop_nf o fuel : forall i (k : K) (v : V) cur, nf (insert_loop e o fuel i k v cur).
Proof.
  induction fuel; intros; cbn [insert_loop]; unfold nodemut_key, nodemut_has_left, nodemut_has_right, nodemut_left, nodemut_right,
    nodemut_push_left, nodemut_push_right, nodemut_set_left, nodemut_set_right, nodemut_replace_value, on_nodes; nf.
Qed.
Hint Resolve insert_loop_nf : agree.
Lemma insert_nf o (k : K) (v : V) : nf (bstmap_insert e o k v).
Proof. unfold bstmap_insert, on_nodes, map_root_mut. nf. Qed.
Hint Resolve insert_nf : agree.
Lemma reserve_nf n : nf (map_reserve (K := K) (V := V) e n).
Proof. unfold map_reserve, on_nodes, slab_reserve, on_items, arena_reserve. nf. Qed.
Hint Resolve reserve_nf : agree.
Lemma insert_all_nf os items pn : forall j, nf (insert_all (K := K) (V := V) e os j items pn).
Proof. induction items; intros; cbn [insert_all]; nf. Qed.
Hint Resolve insert_all_nf : agree.
Lemma with_capacity_nf n : rnf (map_with_capacity (K := K) (V := V) e n).1.
Proof.
  unfold map_with_capacity, slab_with_capacity, arena_with_capacity.
  pose proof (grow_loop_nf (T := entry (inner K V)) GROW_FUEL n arena_new) as H.
  destruct (grow_loop e GROW_FUEL n (@arena_new (entry (inner K V)))) as [r a]. destruct r as [x|p| |u|]; try done.
  pose proof (arena_drop_tame (T := entry (inner K V)) e false a) as Hd.
  destruct (arena_drop e false (fun _ => false) a) as [r a']. destruct r; simpl in *; try done. by apply rtame_rnf.
Qed.
Lemma build_nf n (f : M (bstmap K V) unit) : nf f -> rnf (build e (map_with_capacity e n) f).1.
Proof.
  intros Hf. pose proof (with_capacity_nf n) as H. unfold build.
  destruct (map_with_capacity e n) as [r m]. destruct r; try done.
  specialize (Hf m). destruct (f m) as [r1 m1]. destruct r1; try done.
  pose proof (map_drop_tame (K := K) (V := V) e m1) as Hd.
  destruct (map_drop e (fun _ => false) m1) as [r2 m2]. destruct r2; simpl in *; try done. by apply rtame_rnf.
Qed.
Lemma clone_loop_nf os ck cv src fuel : forall j st, nf (clone_loop (K := K) (V := V) e os ck cv src fuel j st).
Proof. induction fuel; intros; cbn [clone_loop]; unfold node_left, node_right; nf. Qed.
Lemma clone_nf os ck cv (m : bstmap K V) : rnf (map_clone e os ck cv m).1.
Proof.
  unfold map_clone. assert (H : rnf (map_len e m)) by (unfold map_len, slab_len; nf).
  destruct (map_len e m) as [n|p| |u|]; try (intros [= ->]; by apply H). apply build_nf.
  apply nf_bind; [unfold map_root; nf|]. intros. apply clone_loop_nf.
Qed.
Lemma clone_replace_nf os ck cv : nf (clone_and_replace (K := K) (V := V) e os ck cv).
Proof.
  intros m. unfold clone_and_replace. pose proof (clone_nf os ck cv m) as H.
  destruct (map_clone e os ck cv m) as [r m2]. destruct r; try done.
  pose proof (map_drop_tame (K := K) (V := V) e m) as Hd.
  destruct (map_drop e (fun _ => false) m) as [r2 m3]. destruct r2; simpl in *; try done. by apply rtame_rnf.
Qed.

Lemma begin_exact (s : start K V) : (begin e s).1 <> Panic PAssert.
Proof. destruct s; simpl; [done|apply with_capacity_nf|]. unfold map_from_iter. apply build_nf, insert_all_nf. Qed.

Lemma exec_exact c (m : bstmap K V) : reachable e m -> (exec e c m).1 <> Panic PAssert.
Proof.
  intros Hm. destruct (reachable_rep _ _ Hm) as (t & fl & Hrep).
  pose proof (exec_cases e c m t fl Hrep) as H.
  assert (Hc : match c with OInsert _ _ _ | OReserve _ | OExtend _ _ | OClone _ _ _ => nf (exec e c) | _ => True end).
  { destruct c; try done; unfold exec, map_extend; nf. apply clone_replace_nf. }
  destruct (exec e c m) as [r m'] eqn:He. destruct r as [x|p| |u|]; try done. simpl. intros [= ->].
  destruct c; try (specialize (Hc m); rewrite He in Hc; by apply Hc);
    destruct H as (t' & fl' & _ & Hs & _); simpl in Hs; naive_solver.
Qed.
End exact.

(** ** The results *)

Section results.
Context {K V : Type}.
Implicit Types m : bstmap K V.

Lemma panics_excused e c m p m' : reachable e m -> exec e c m = (Panic p, m') -> excused e c m p.
Proof.
  intros Hm He. destruct (reachable_rep _ _ Hm) as (t & fl & Hrep).
  pose proof (exec_cases e c m t fl Hrep) as H. rewrite He in H. destruct H as (t' & fl' & _ & Hs & _).
  assert (Hb : forall p, build_stop p -> match c with OClone _ _ _ | OExtend _ _ => excused e c m p | _ => True end).
  { intros q [[[= ->]|[[= ->]|?]]|[->|[->| ->]]]; by destruct c. }
  destruct c; simpl in Hs; try done; try (destruct Hs as (_ & [= ->] & _); done).
  - destruct Hs as (_ & [[[= ->] _]|[[[= ->]|[[= ->]|?]] _]]); done.
  - destruct Hs as (_ & [[[= ->]|[[= ->]|?]]|([= ->] & H1 & H2)]); try done. split; [done|]. by exists n.
  - destruct Hs as [(_ & [[[= ->]|[[= ->]|?]]|([= ->] & H1 & H2)])|(n & cap & _ & Hst)]; try done.
    + split; [done|]. by exists (hint_len it).
    + apply (Hb p). by eapply stopped_why.
  - destruct Hs as (_ & Hs & _). by apply (Hb p).
Qed.

Lemma begin_excused e (s : start K V) p m : begin e s = (Panic p, m) ->
  match p with PCapacity | PAssert | PCmp | PIter => True | _ => False end.
Proof.
  intros Hb. pose proof (begin_rep e s) as H. rewrite Hb in H.
  destruct H as [[[= ->]|[[= ->]|?]]|[->|[->| ->]]]; try done.
  destruct s; simpl in Hb; try done.
  - pose proof (map_with_capacity_spec (K:=K) (V:=V) e n) as H. rewrite Hb in H. destruct H as [H _]. destruct H as [?|[?|?]]; done.
  - pose proof (map_from_iter_spec e os it) as H. rewrite Hb in H.
    destruct H as (_ & [[H _]|(n & t & cap & _ & H & _)]).
    + destruct H as [?|[?|?]]; done.
    + destruct H as [(? & _)|(k & v & _ & [[? _]|[[?|[?|?]] _]])]; done.
Qed.

Lemma slots_bound e m : reachable e m -> (slots m <= map_capacity m)%N /\ (map_capacity m < 2 ^ 63)%N.
Proof.
  intros Hm. destruct (reachable_rep _ _ Hm) as (t & fl & Hrep).
  assert (Hi : arena_inv (mem m)) by apply Hrep.
  destruct Hi as [_ _ _ _ Hn Hc Hl]. split; [exact Hl|].
  change (map_capacity m) with (a_cap (mem m)). rewrite Hc. pose proof (cfirst_mono (nchunks (mem m)) 60 Hn).
  rewrite cfirst_60 in H. change (2 ^ 63)%N with 9223372036854775808%N in *. lia.
Qed.

Lemma exec_quiet e c m r m' : reachable e m -> exec e c m = (r, m') -> r <> Panic POverflow -> quiet r.
Proof.
  intros Hm He Hr. destruct (reachable_rep _ _ Hm) as (t & fl & Hrep).
  destruct (exec_rep e c m t fl r m' Hrep He) as [Hd _]. destruct r as [x|p| |u|]; try done.
  pose proof (panics_excused e c m p m' Hm He) as H. by destruct p.
Qed.

Lemma exec_profiles e c m : reachable e m ->
  (match requested c with Some n => (slots m + n < USIZE)%N | None => True end) -> exec (release e) c m = exec e c m.
Proof.
  intros Hm Hn. apply exec_agree. destruct (exec e c m) as [r m'] eqn:He. simpl. eapply exec_quiet; [done..|].
  intros ->. pose proof (panics_excused e c m _ m' Hm He) as (_ & n & H1 & H2). rewrite H1 in Hn. lia.
Qed.

Lemma begin_profiles e (s : start K V) : begin (release e) s = begin e s.
Proof.
  apply begin_agree. destruct (begin e s) as [r m] eqn:Hb. pose proof (begin_defined e s r m Hb) as Hd.
  destruct r as [x|p| |u|]; try done. pose proof (begin_excused e s p m Hb). by destruct p.
Qed.

Lemma run_quiet e (s : start K V) cs rs m : reached e s cs rs m -> Forall (fun r => r <> Panic POverflow) rs -> Forall quiet rs.
Proof.
  intros (m0 & Hb & Hr). assert (Hm : reachable e m0) by (exists s, [], []; split; [by exists m0|constructor]).
  clear Hb. revert m0 rs Hm Hr. induction cs as [|c cs IH]; intros m0 rs Hm Hr Ho; cbn [run] in Hr; [by injection Hr as <- <-|].
  destruct (exec e c m0) as [r m1] eqn:He. pose proof (exec_quiet e c m0 r m1 Hm He) as Hq.
  destruct r as [x|p| |u|].
  - destruct (run e cs m1) as [rs1 m2] eqn:Hr1. injection Hr as <- <-. apply Forall_cons in Ho as [Ho1 Ho].
    constructor; [done|]. eapply IH; [|exact Hr1|done]. by eapply reachable_step.
  - destruct (run e cs m1) as [rs1 m2] eqn:Hr1. injection Hr as <- <-. apply Forall_cons in Ho as [Ho1 Ho].
    constructor; [by apply Hq|]. eapply IH; [|exact Hr1|done]. by eapply reachable_step.
  - injection Hr as <- <-. repeat constructor.
  - injection Hr as <- <-. constructor; [by apply Hq|constructor].
  - injection Hr as <- <-. constructor; [by apply Hq|constructor].
Qed.

Lemma profiles e (s : start K V) cs rs m : reached e s cs rs m -> Forall (fun r => r <> Panic POverflow) rs ->
  reached (release e) s cs rs m.
Proof.
  intros Hreach Ho. pose proof (run_quiet _ _ _ _ _ Hreach Ho) as Hq. destruct Hreach as (m0 & Hb & Hr).
  exists m0. split; [by rewrite begin_profiles|]. rewrite run_agree; [done|]. by rewrite Hr.
Qed.

Lemma modest_history e (s : start K V) cs rs m : Forall modest cs -> reached e s cs rs m ->
  Forall (fun r => r <> Panic POverflow) rs /\ reached (release e) s cs rs m.
Proof.
  intros Hcs Hreach. assert (Forall (fun r => r <> Panic POverflow) rs) as Ho; [|split; [done|by eapply profiles]].
  destruct Hreach as (m0 & Hb & Hr). assert (Hm : reachable e m0) by (exists s, [], []; split; [by exists m0|constructor]).
  clear Hb. revert m0 rs Hm Hr. induction Hcs as [|c cs Hc _ IH]; intros m0 rs Hm Hr; cbn [run] in Hr; [by injection Hr as <- <-|].
  destruct (exec e c m0) as [r m1] eqn:He.
  assert (r <> Panic POverflow) as Hn.
  { intros ->. pose proof (panics_excused e c m0 _ m1 Hm He) as (_ & n & H1 & H2). unfold modest in Hc. rewrite H1 in Hc.
    pose proof (slots_bound e m0 Hm) as [H3 H4]. change (2 ^ 63)%N with 9223372036854775808%N in *.
    change USIZE with 18446744073709551616%N in *. lia. }
  destruct r as [x|p| |u|].
  - destruct (run e cs m1) as [rs1 m2] eqn:Hr1. injection Hr as <- <-. constructor; [done|].
    eapply IH; [|exact Hr1]. by eapply reachable_step.
  - destruct (run e cs m1) as [rs1 m2] eqn:Hr1. injection Hr as <- <-. constructor; [done|].
    eapply IH; [|exact Hr1]. by eapply reachable_step.
  - injection Hr as <- <-. by repeat constructor.
  - injection Hr as <- <-. by repeat constructor.
  - injection Hr as <- <-. by repeat constructor.
Qed.
End results.
