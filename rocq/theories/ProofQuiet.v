(** * The arena under a map runs no destructor

    The entries of the slab are a union, so their drop is a no-op
    (slab.rs:30-31): every destructor that runs is run by the slab itself, which
    records it, or by the map. Here: the arena's own record stays empty. *)

From Verif Require Import ModelHistory SpecHistory SpecSafety.
From Verif Require Import ModelIter.
Local Open Scope N_scope.

(** [log]: the record looked at. *)
Section quiet.
Context {S X : Type} (log : S -> list X).
Definition quiet {A} (f : M S A) : Prop := forall s, log s = [] -> log (f s).2 = [].
Lemma quiet_bind {A B} (f : M S A) (g : A -> M S B) : quiet f -> (forall x, quiet (g x)) -> quiet (sbind f g).
Proof.
  intros Hf Hg s Hs. unfold sbind. specialize (Hf s Hs). destruct (f s) as [r s1]. destruct r; simpl in *; try done. by apply Hg.
Qed.
Lemma quiet_on_panic {A} h (f : M S A) : (forall s, log (h s) = log s) -> quiet f -> quiet (on_panic h f).
Proof. intros Hh Hf s Hs. unfold on_panic. specialize (Hf s Hs). destruct (f s) as [r s1]. destruct r; simpl in *; try done. by rewrite Hh. Qed.
End quiet.

Lemma quiet_zoom {S S' X A} (log : S -> list X) (log' : S' -> list X) pr inj (f : M S' A) :
  (forall s, log s = log' (pr s)) -> (forall t s, log (inj t s) = log' t) -> quiet log' f -> quiet log (zoom pr inj f).
Proof. intros H1 H2 Hf s. unfold zoom. rewrite (H1 s). intros Hs. specialize (Hf (pr s) Hs). destruct (f (pr s)) as [r t]. simpl in *. by rewrite H2. Qed.

Ltac qb := repeat first [lazymatch goal with |- quiet _ (sbind _ _) => apply quiet_bind; [|intros] end|by intros ?|case_match; try by intros ?].

(** ** Arena *)

Section arena.
Context {T : Type}.
Let log (a : arena T) := a_drops a.
Lemma push_chunk_quiet e : quiet log (push_chunk e).
Proof. intros a Ha. unfold push_chunk. repeat (unfold sbind, sget, slift, smod, sret, dassert, uadd; simpl; case_match; simpl; try done). Qed.
Lemma poke_quiet p (x : T) : quiet log (arena_poke p x).
Proof. intros a Ha. unfold arena_poke. by repeat case_match. Qed.
Lemma set_quiet p (x : T) : quiet log (arena_set p x).
Proof. intros a Ha. unfold arena_set. case_match; try done. by apply poke_quiet. Qed.
Lemma alloc_quiet e (x : T) : quiet log (arena_alloc e x).
Proof. unfold arena_alloc. qb; auto using push_chunk_quiet, poke_quiet. Qed.
Lemma grow_quiet e fuel c : quiet log (grow_loop e fuel c).
Proof. induction fuel as [|fuel IH]; cbn [grow_loop]; qb; auto using push_chunk_quiet. Qed.
Lemma clear_quiet e panics : quiet log (arena_clear e false panics).
Proof. unfold arena_clear. qb. Qed.
Lemma free_chunk_quiet c cl : quiet log (free_chunk c cl).
Proof. intros a Ha. unfold free_chunk. by repeat case_match. Qed.
Lemma free_chunks_quiet e chunks : forall i, quiet log (free_chunks e i chunks).
Proof. induction chunks as [|c l IH]; intros i; cbn [free_chunks]; qb; auto using free_chunk_quiet. Qed.
Lemma drop_quiet e panics : quiet log (arena_drop e false panics).
Proof. unfold arena_drop. qb; auto using clear_quiet, free_chunks_quiet. Qed.
Lemma with_capacity_quiet e n : a_drops (arena_with_capacity (T := T) e n).2 = [].
Proof.
  unfold arena_with_capacity. pose proof (grow_quiet e GROW_FUEL n arena_new eq_refl) as H. destruct (grow_loop e GROW_FUEL n arena_new) as [r a].
  simpl in H. destruct r; try done. pose proof (drop_quiet e (fun _ => false) a H) as H2. destruct (arena_drop _ _ _ a) as [r a2]. by destruct r.
Qed.
Lemma reserve_quiet e n : quiet log (arena_reserve e n).
Proof. unfold arena_reserve. qb; auto using grow_quiet. Qed.
Lemma shrink_loop_quiet e fuel : forall n, quiet log (shrink_loop e fuel n).
Proof. induction fuel as [|fuel IH]; intros n; cbn [shrink_loop]; qb; auto using free_chunk_quiet. Qed.
Lemma shrink_quiet e : quiet log (arena_shrink_to_fit e).
Proof. unfold arena_shrink_to_fit. apply quiet_bind; [by intros ?|]. intros a. apply shrink_loop_quiet. Qed.
End arena.

(** ** Slab *)

Section slab.
Context {T : Type}.
Let slog (s : slab T) := a_drops (s_items s).
Lemma on_items_quiet {A} (f : M (arena (entry T)) A) : quiet a_drops f -> quiet slog (on_items f).
Proof. by apply (quiet_zoom slog a_drops). Qed.
Ltac qs := qb; auto using on_items_quiet, set_quiet, alloc_quiet, clear_quiet, drop_quiet, reserve_quiet, shrink_quiet.
Lemma slab_update_quiet p (f : T -> T) : quiet slog (slab_update p f).
Proof. unfold slab_update. qs. Qed.
Lemma slab_push_quiet e (x : T) : quiet slog (slab_push e x).
Proof. unfold slab_push. qs. Qed.
Lemma slab_remove_quiet e p : quiet slog (slab_remove e p).
Proof. unfold slab_remove. qs. Qed.
Lemma reset_quiet e : quiet slog (reset_internal_state e).
Proof. unfold reset_internal_state. qs. Qed.
Lemma drop_value_quiet panics p : quiet slog (drop_value panics p).
Proof. unfold drop_value. qs. Qed.
Lemma drop_loop_quiet e panics fuel free : forall r, quiet slog (drop_loop e panics fuel free r).
Proof. induction fuel as [|fuel IH]; intros r; cbn [drop_loop]; qb; auto using drop_value_quiet. Qed.
Lemma slab_clear_quiet e panics : quiet slog (slab_clear e panics).
Proof. unfold slab_clear. qb; auto using reset_quiet, drop_loop_quiet. Qed.
Lemma slab_reserve_quiet e n : quiet slog (slab_reserve e n).
Proof. unfold slab_reserve. qs. Qed.
Lemma slab_shrink_quiet e : quiet slog (slab_shrink_to_fit e).
Proof. unfold slab_shrink_to_fit. qs. Qed.
Lemma slab_drop_quiet e panics : quiet slog (slab_drop e panics).
Proof.
  intros s Hs. unfold slab_drop.
  assert (H : quiet slog (if negb (e_nd e) then sret tt else slab_clear e panics)) by (qb; auto using slab_clear_quiet).
  specialize (H s Hs). destruct ((if negb (e_nd e) then sret tt else slab_clear e panics) s) as [r s1]. simpl in H.
  assert (H2 := on_items_quiet _ (drop_quiet e (fun _ => false)) s1 H). destruct (on_items _ s1) as [r2 s2]. destruct r; try done. by destruct r2.
Qed.
Lemma slab_with_capacity_quiet e n : slog (slab_with_capacity e n).2 = [].
Proof.
  unfold slab_with_capacity. pose proof (with_capacity_quiet (T := entry T) e n) as H. by destruct (arena_with_capacity e n).
Qed.
End slab.

(** For plain data the slab runs no destructor either. *)
Section plain.
Context {T : Type} (e : env) (Hnd : e_nd e = false).
Let slog (s : slab T) := s_drops s.
Lemma on_items_plain {A} (f : M (arena (entry T)) A) : quiet slog (on_items f).
Proof. intros s Hs. unfold on_items, zoom. by destruct (f (s_items s)). Qed.
Lemma slab_update_plain p (f : T -> T) : quiet slog (slab_update p f).
Proof. unfold slab_update. qb; auto using on_items_plain. Qed.
Lemma slab_push_plain (x : T) : quiet slog (slab_push e x).
Proof. unfold slab_push. qb; auto using on_items_plain. Qed.
Lemma slab_remove_plain p : quiet slog (slab_remove e p).
Proof. unfold slab_remove. qb; auto using on_items_plain. Qed.
Lemma slab_clear_plain panics : quiet slog (slab_clear e panics).
Proof. unfold slab_clear, reset_internal_state. rewrite Hnd. simpl. qb; auto using on_items_plain. Qed.
Lemma slab_drop_plain panics : quiet slog (slab_drop e panics).
Proof. unfold slab_drop. rewrite Hnd. simpl. apply on_items_plain. Qed.
Lemma slab_with_capacity_plain n : slog (slab_with_capacity e n).2 = [].
Proof. unfold slab_with_capacity. by destruct (arena_with_capacity e n). Qed.
End plain.

(** ** Map *)

Section map.
Context {K V X : Type} (slog : slab (inner K V) -> list X) (e : env).
Hypothesis slab_update_q : forall p f, quiet slog (slab_update p f).
Hypothesis slab_push_q : forall x, quiet slog (slab_push e x).
Hypothesis slab_remove_q : forall p, quiet slog (slab_remove e p).
Hypothesis slab_clear_q : forall panics, quiet slog (slab_clear e panics).
Hypothesis slab_reserve_q : forall n, quiet slog (slab_reserve e n).
Hypothesis slab_shrink_q : quiet slog (slab_shrink_to_fit e).
Hypothesis slab_drop_q : forall panics, quiet slog (slab_drop e panics).
Hypothesis slab_with_capacity_q : forall n, slog (slab_with_capacity e n).2 = [].
Hypothesis slab_new_q : slog slab_new = [].
Let log (m : bstmap K V) := slog (m_nodes m).
Lemma on_nodes_quiet {A} (f : M (slab (inner K V)) A) : quiet slog f -> quiet log (on_nodes f).
Proof. by apply (quiet_zoom log slog). Qed.
Ltac qm := qb; auto using on_nodes_quiet, slab_update_q, slab_push_q, slab_remove_q, slab_clear_q, slab_reserve_q, slab_shrink_q.
Lemma insert_loop_quiet o fuel : forall i (k : K) (v : V) cur, quiet log (insert_loop e o fuel i k v cur).
Proof.
  induction fuel as [|fuel IH]; intros i k v cur; cbn [insert_loop]; qb;
    unfold nodemut_push_left, nodemut_push_right, nodemut_set_left, nodemut_set_right, nodemut_replace_value; qm.
Qed.
Lemma insert_quiet o (k : K) (v : V) : quiet log (bstmap_insert e o k v).
Proof.
  unfold bstmap_insert. apply quiet_on_panic; [done|]. qm; auto using insert_loop_quiet.
Qed.
Lemma remove_entry_quiet (o : oracle K) : quiet log (map_remove_entry e o).
Proof. unfold map_remove_entry, remove_replacement, store_left, store_right, nodemut_set_left, nodemut_set_right. qm. Qed.
Lemma remove_quiet (o : oracle K) : quiet log (map_remove e o).
Proof. unfold map_remove. qb; auto using remove_entry_quiet. Qed.
Lemma map_clear_quiet panics : quiet log (map_clear e panics).
Proof. unfold map_clear. qm. Qed.
Lemma map_drop_quiet panics : quiet log (map_drop e panics).
Proof. unfold map_drop. auto using on_nodes_quiet, slab_drop_q. Qed.
Lemma insert_all_quiet os l p : forall j, quiet log (insert_all e os j l p).
Proof. induction l as [|[k v] l IH]; intros j; cbn [insert_all]; qb; auto using insert_quiet. Qed.
Lemma extend_quiet os it : quiet log (map_extend e os it).
Proof. unfold map_extend. qb; unfold map_reserve; qm; auto using insert_all_quiet. Qed.
Lemma map_capacity_quiet n : log ((map_with_capacity e n).2) = [].
Proof.
  unfold map_with_capacity. pose proof (slab_with_capacity_q n) as H. by destruct (slab_with_capacity e n).
Qed.
Lemma build_quiet x body : log (x.2) = [] -> quiet log body -> log ((build e x body).2) = [].
Proof.
  intros Hx Hb. unfold build. destruct x as [r m0]. simpl in Hx. destruct r; try done. specialize (Hb m0 Hx).
  destruct (body m0) as [r m1]. destruct r; try done. pose proof (map_drop_quiet (fun _ => false) m1 Hb) as H.
  destruct (map_drop e _ m1) as [r m2]. by destruct r.
Qed.
Lemma clone_loop_quiet os ck cv src fuel : forall j st, quiet log (clone_loop e os ck cv src fuel j st).
Proof. induction fuel as [|fuel IH]; intros j st; cbn [clone_loop]; qb; auto using insert_quiet. Qed.
Lemma clone_quiet os ck cv src : log ((map_clone e os ck cv src).2) = [].
Proof.
  unfold map_clone. destruct (map_len e src); try done. apply build_quiet; [apply map_capacity_quiet|].
  qb. apply clone_loop_quiet.
Qed.
Lemma write_quiet p (v : V) : quiet log (write_value p v).
Proof. unfold write_value. qm. Qed.
Lemma mut_run_quiet d evs : quiet (fun st : mut_state K V => log (mu_map st)) (mut_run d evs).
Proof.
  induction evs as [|ev evs IH]; cbn [mut_run]; [by intros ?|]. apply quiet_bind; [|done].
  intros st Hs. unfold mut_step. destruct ev as [|j v].
  - destruct (iter_mut_next (mu_map st) d (mu_iter st)) as [r it]. by destruct r as [[x|]| | | |].
  - destruct (mu_yielded st !! j) as [[p x]|]; [|done]. pose proof (write_quiet p v _ Hs) as H. by destruct (write_value p v (mu_map st)).
Qed.
Lemma clone_and_replace_quiet os ck cv : quiet log (clone_and_replace e os ck cv).
Proof.
  intros m Hm. unfold clone_and_replace. pose proof (clone_quiet os ck cv m) as H. destruct (map_clone e os ck cv m) as [r m2].
  destruct r; try done. pose proof (map_drop_quiet (fun _ => false) m Hm) as H2. destruct (map_drop e _ m) as [r m1]. by destruct r.
Qed.
Lemma exec_quiet (c : op K V) : quiet log (exec e c).
Proof.
  destruct c; cbn [exec]; unfold opt_write, map_reserve, map_shrink_to_fit;
    try solve [qm; auto using insert_quiet, remove_quiet, remove_entry_quiet, map_clear_quiet, extend_quiet, write_quiet, clone_and_replace_quiet].
  intros m Hm. unfold sbind, sget, slift. unfold iter_mut_program.
  destruct (iter_start m d) as [it| | | |]; try done. cbn [rbind].
  pose proof (mut_run_quiet d evs (mkMut m it [] 0) Hm) as H. destruct (mut_run d evs _) as [r st]. by destruct r.
Qed.
Lemma begin_quiet (s : start K V) : log ((begin e s).2) = [].
Proof.
  destruct s; [done|apply map_capacity_quiet|]. cbn [begin]. unfold map_from_iter. apply build_quiet; [apply map_capacity_quiet|apply insert_all_quiet].
Qed.
Lemma run_quiet cs : forall m rs m', run e cs m = (rs, m') -> log m = [] -> log m' = [].
Proof.
  induction cs as [|c cs IH]; intros m rs m' Hr Hm; cbn [run] in Hr; [by injection Hr as <- <-|].
  pose proof (exec_quiet c m Hm) as H. destruct (exec e c m) as [r m1]. simpl in H.
  destruct r as [x|p| |u|]; try (by injection Hr as <- <-); destruct (run e cs m1) as [rs1 m2] eqn:Hr1; injection Hr as <- <-; by eapply IH.
Qed.
Lemma reached_quiet s cs rs m : reached e s cs rs m -> log m = [].
Proof. intros (m0 & Hb & Hr). apply (run_quiet _ _ _ _ Hr). pose proof (begin_quiet s) as H. by rewrite Hb in H. Qed.

Definition silent : Prop :=
  (forall s, log (begin e s).2 = []) /\ (forall c, quiet log (exec e c)) /\
  (forall panics, quiet log (map_drop e panics)) /\ (forall panics, quiet log (map_clear e panics)) /\
  (forall os ck cv src, log (map_clone e os ck cv src).2 = []) /\
  (forall s cs rs m, reached e s cs rs m -> log m = []).
Lemma all_silent : silent.
Proof. split_and!; eauto using begin_quiet, exec_quiet, map_drop_quiet, map_clear_quiet, clone_quiet, reached_quiet. Qed.
End map.

Lemma arena_silent {K V} e : silent (K := K) (V := V) (fun s => a_drops (s_items s)) e.
Proof.
  apply all_silent; intros; eauto using slab_update_quiet, slab_push_quiet, slab_remove_quiet, slab_clear_quiet, slab_reserve_quiet,
    slab_shrink_quiet, slab_drop_quiet, slab_with_capacity_quiet.
Qed.
Lemma plain_silent {K V} e : e_nd e = false -> silent (K := K) (V := V) s_drops e.
Proof.
  intros Hnd. apply all_silent; intros; eauto using slab_update_plain, slab_push_plain, slab_remove_plain, slab_clear_plain,
    slab_drop_plain, slab_with_capacity_plain, on_items_plain.
Qed.
