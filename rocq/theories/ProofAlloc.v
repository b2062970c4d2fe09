(** * Memory is refused by the allocator only *)

From Verif Require Export SpecAlloc ProofMem ProofSet ProofArenaRun.
From Verif Require Import SpecSafety.
Local Open Scope N_scope.

Lemma clen_cap {T} (a : arena T) : arena_inv a -> clen (nchunks a) = a_cap a + 8.
Proof. intros H. rewrite (ai_cap a H). unfold clen, cfirst. pose proof (N.pow_nonzero 2 (nchunks a)). lia. Qed.

Lemma refuses_granted {A} e i n (r : res A) : refuses e i n r -> granted e i n -> False.
Proof.
  intros H (H1 & H2 & H3). destruct r as [x|[]| |u|]; simpl in H; try done.
  all: naive_solver lia.
Qed.

Lemma refuses_refused {A} e i n (r : res A) : refuses e i n r -> alloc_refused r.
Proof. unfold alloc_refused. destruct r as [x|[]| |u|]; simpl; try done; eauto. Qed.

Lemma refuses_det {A} e i n (r r' : res A) : refuses e i n r -> refuses e i n r' -> r = r'.
Proof.
  destruct r as [x|[]| |u|], r' as [x'|[]| |u'|]; simpl; try done; naive_solver lia.
Qed.

(** The outcome of [push_chunk]. *)
Lemma push_chunk_asked {T} e (a : arena T) r a' : arena_inv a -> push_chunk e a = (r, a') ->
  (alloc_refused r -> refuses e (a_next a) (a_cap a + 8) r) /\
  (r = Ret tt -> granted e (a_next a) (a_cap a + 8)).
Proof.
  intros Hinv Heq. rewrite <- (clen_cap a Hinv). pose proof (ai_n a Hinv) as Hn.
  unfold push_chunk in Heq. unfold sbind at 1, sget in Heq. unfold sbind at 1, slift in Heq.
  change (N.of_nat (length (a_chunks a))) with (nchunks a) in Heq.
  rewrite N.mod_small in Heq by (change U32 with 4294967296; lia). rewrite chunk_len_ret in Heq by lia.
  unfold sbind at 1 in Heq. unfold vec_with_capacity in Heq. unfold granted.
  destruct (N.eqb_spec (e_size e) 0) as [He|He].
  { unfold sbind, smod in Heq. destruct (N.eqb_spec (USIZE - 1) (clen (nchunks a))) as [H|H].
    - exfalso. unfold clen in H. pose proof (pow2_mono _ _ Hn). change (USIZE - 1) with (2 ^ 64 - 1) in H. nl.
    - simpl in Heq. injection Heq as <- <-. split; [by left|done]. }
  destruct (N.ltb_spec ISIZE_MAX (clen (nchunks a) * e_size e)) as [Hb|Hb].
  { injection Heq as <- <-. split; [done|done]. }
  destruct (e_alloc e (a_next a) (clen (nchunks a))) as [c|] eqn:Ha.
  2:{ injection Heq as <- <-. split; [done|done]. }
  unfold sbind, smod in Heq. destruct (N.eqb_spec c (clen (nchunks a))) as [->|Hc].
  - simpl in Heq. assert (Hu : ~ alloc_refused r); [|split; [done|intros _; split_and!; auto]].
    unfold slift, uadd in Heq. intros Hr. unfold alloc_refused in Hr.
    repeat case_match; simpl in Heq; injection Heq as <- <-; naive_solver.
  - simpl in Heq. injection Heq as <- <-. split; [|done]. intros _. right. eauto.
Qed.

Lemma room_request {T} (a : arena T) : arena_inv a -> exists j, chunks_room j = a_cap a /\ 8 * 2 ^ j = a_cap a + 8.
Proof. intros H. exists (nchunks a). split; [by rewrite (ai_cap a H)|]. by apply clen_cap. Qed.

(** The loop of [reserve] and [with_capacity]. *)
Lemma grow_loop_asked {T} e capacity fuel : forall (a : arena T), arena_inv a ->
  alloc_refused (grow_loop e fuel capacity a).1 -> refused_request e (a_next a) capacity (grow_loop e fuel capacity a).1.
Proof.
  induction fuel as [|fuel IH]; intros a Hinv; cbn [grow_loop]; [by intros [?|[?|?]]|].
  match goal with |- alloc_refused (?g a).1 -> _ => remember (g a).1 as r0 eqn:Hr0 end.
  unfold sbind at 1, sget in Hr0. unfold arena_capacity in Hr0.
  destruct (N.ltb_spec (a_cap a) capacity) as [Hlt|Hge]; [|subst r0; by intros [?|[?|?]]].
  unfold sbind in Hr0. destruct (push_chunk e a) as [r a1] eqn:Hp.
  destruct (push_chunk_asked e a r a1 Hinv Hp) as [Hr _].
  pose proof (push_chunk_spec e a Hinv) as Hwp. unfold wp in Hwp. rewrite Hp in Hwp.
  destruct (room_request a Hinv) as (j0 & Hj0 & Hj1).
  destruct r as [[]|p| |u|]; cbn [fst] in Hr0; subst r0; try done.
  - destruct Hwp as [-> Hn]. intros Href. destruct (IH (pushed_chunk a)) as (i & j & H1 & H2 & H3); [by apply pushed_chunk_inv|done|].
    cbn [pushed_chunk a_next] in H1. exists i, j. split_and!; try done; lia.
  - intros Href. exists (a_next a), j0. rewrite Hj0, Hj1. split_and!; try done. destruct Href as [[= ->]|[[= ->]|[=]]].
    + apply Hr. by left.
    + apply Hr. by right; left.
  - intros Href. exists (a_next a), j0. rewrite Hj0, Hj1. split_and!; try done. apply Hr. by right; right.
Qed.

(** ** Programs that make one request at most *)

Section one.
Context {S T : Type} (e : env) (ar : S -> arena T).

Definition calm {A} (f : M S A) : Prop := forall s, ~ alloc_refused (f s).1.
Definition asks {A} (f : M S A) : Prop := forall s, arena_inv (ar s) ->
  (alloc_refused (f s).1 -> a_len (ar s) = a_cap (ar s) /\ refuses e (a_next (ar s)) (a_cap (ar s) + 8) (f s).1) /\
  (nchunks (ar s) < nchunks (ar (f s).2) -> (exists x, (f s).1 = Ret x) -> granted e (a_next (ar s)) (a_cap (ar s) + 8)).
Definition looks {A} (f : M S A) : Prop := forall s, (f s).2 = s.
Definition keeps {A} (f : M S A) : Prop := forall s, nchunks (ar (f s).2) = nchunks (ar s).

Lemma asks_look {A B} (f : M S A) (g : A -> M S B) : looks f -> calm f -> (forall x, asks (g x)) -> asks (sbind f g).
Proof.
  intros Hl Hc Hg s Hinv. unfold sbind. specialize (Hl s). specialize (Hc s). destruct (f s) as [r s1]. simpl in Hl. subst s1.
  destruct r as [x|p| |u|]; [by apply Hg|simpl; split; [|lia]..]; intros H; exfalso; apply Hc.
  - destruct H as [[= ->]|[[= ->]|[=]]]; [by left|by right; left].
  - by right; right.
  - by destruct H as [?|[?|?]].
  - by destruct H as [?|[?|?]].
Qed.

Lemma asks_last {A B} (f : M S A) (g : A -> M S B) : asks f -> (forall x, calm (g x)) -> (forall x, keeps (g x)) -> asks (sbind f g).
Proof.
  intros Hf Hc Hk s Hinv. unfold sbind. destruct (Hf s Hinv) as [H1 H2]. destruct (f s) as [r s1]. simpl in H1, H2.
  destruct r as [x|p| |u|]; simpl.
  - split; [intros H; by apply Hc in H|]. intros Hlt _. apply H2; [|eauto]. by rewrite (Hk x s1) in Hlt.
  - split; [|naive_solver]. intros H. destruct H1 as [H3 H4]; [destruct H as [[= ->]|[[= ->]|[=]]]; [by left|by right; left]|].
    split; [done|]. exact H4.
  - split; [|naive_solver]. intros H. destruct H1 as [H3 H4]; [by right; right|]. split; [done|]. exact H4.
  - split; [|naive_solver]. by intros [?|[?|?]].
  - split; [|naive_solver]. by intros [?|[?|?]].
Qed.

Lemma asks_calm {A} (f : M S A) : calm f -> keeps f -> asks f.
Proof. intros H Hk s _. split; [intros Hr; by apply H in Hr|]. rewrite Hk. lia. Qed.
Lemma asks_on_panic {A} h (f : M S A) : (forall s, ar (h s) = ar s) -> asks f -> asks (on_panic h f).
Proof.
  intros Hh Hf s Hinv. unfold on_panic. specialize (Hf s Hinv). destruct (f s) as [r s1]. destruct r; simpl in *; try done.
  rewrite Hh. done.
Qed.

Lemma calm_bind {A B} (f : M S A) (g : A -> M S B) : calm f -> (forall x, calm (g x)) -> calm (sbind f g).
Proof.
  intros Hf Hg s. unfold sbind. specialize (Hf s). destruct (f s) as [r s1]. destruct r; simpl in *; [apply Hg|..]; intros H; apply Hf.
  - destruct H as [[= ->]|[[= ->]|[=]]]; [by left|by right; left].
  - by right; right.
  - by destruct H as [?|[?|?]].
  - by destruct H as [?|[?|?]].
Qed.
Lemma keeps_bind {A B} (f : M S A) (g : A -> M S B) : keeps f -> (forall x, keeps (g x)) -> keeps (sbind f g).
Proof. intros Hf Hg s. unfold sbind. specialize (Hf s). destruct (f s) as [r s1]. destruct r; simpl in *; [|done..]. by rewrite (Hg _ s1). Qed.
Lemma keeps_mod f : (forall s, nchunks (ar (f s)) = nchunks (ar s)) -> keeps (smod f).
Proof. intros H s. apply H. Qed.
Lemma looks_keeps {A} (f : M S A) : looks f -> keeps f.
Proof. intros H s. by rewrite (H s). Qed.
End one.

Lemma rtame_calm {A} (r : res A) : rtame r -> ~ alloc_refused r.
Proof. intros H. destruct r as [x|[]| |u|]; simpl in H; intros [?|[?|?]]; try done; by apply H. Qed.
Lemma tame_calm {S A} (f : M S A) : tame f -> calm f.
Proof. intros H s. apply rtame_calm, H. Qed.
Lemma calm_lift {S A} (r : res A) : ~ alloc_refused r -> calm (S := S) (slift r).
Proof. intros H s. exact H. Qed.
Lemma ask_calm {K} (o : oracle K) i k : ~ alloc_refused (ask o i k).
Proof. unfold ask. destruct (o i k); by intros [?|[?|?]]. Qed.
Lemma calm_get {S} : calm (@sget S). Proof. intros s. by intros [?|[?|?]]. Qed.
Lemma calm_ret {S A} (x : A) : calm (S := S) (sret x). Proof. intros s. by intros [?|[?|?]]. Qed.
Lemma calm_mod {S} (f : S -> S) : calm (smod f). Proof. intros s. by intros [?|[?|?]]. Qed.
Lemma calm_diverge {S A} : calm (S := S) (slift (@Diverge A)). Proof. intros s. by intros [?|[?|?]]. Qed.
Lemma looks_lift {S A} (r : res A) : looks (S := S) (slift r). Proof. done. Qed.
Lemma looks_get {S} : looks (@sget S). Proof. done. Qed.
Lemma looks_ret {S A} (x : A) : looks (S := S) (sret x). Proof. done. Qed.

Lemma asks_zoom {S S' T A} e (ar : S -> arena T) (ar' : S' -> arena T) pr inj (f : M S' A) :
  (forall s, ar s = ar' (pr s)) -> (forall t s, ar (inj t s) = ar' t) -> asks e ar' f -> asks e ar (zoom pr inj f).
Proof. intros H1 H2 Hf s Hinv. unfold zoom. rewrite (H1 s) in *. specialize (Hf (pr s) Hinv). destruct (f (pr s)) as [r t]. simpl in *. by rewrite H2. Qed.
Lemma keeps_zoom {S S' T A} (ar : S -> arena T) (ar' : S' -> arena T) pr inj (f : M S' A) :
  (forall s, ar s = ar' (pr s)) -> (forall t s, ar (inj t s) = ar' t) -> keeps ar' f -> keeps ar (zoom pr inj f).
Proof. intros H1 H2 Hf s. unfold zoom. rewrite (H1 s). specialize (Hf (pr s)). destruct (f (pr s)) as [r t]. simpl in *. by rewrite H2. Qed.
Lemma calm_zoom {S S' A} (pr : S -> S') inj (f : M S' A) : calm f -> calm (zoom pr inj f).
Proof. intros Hf s. unfold zoom. specialize (Hf (pr s)). by destruct (f (pr s)). Qed.

Ltac kp := repeat first [apply keeps_bind; [|intros]|by intros ?].

Lemma poke_keeps {T} p (x : T) : keeps (fun a => a) (arena_poke p x).
Proof. intros a. unfold arena_poke. repeat case_match; done. Qed.
Lemma set_keeps {T} p (x : T) : keeps (fun a => a) (arena_set p x).
Proof. intros a. unfold arena_set. case_match; try done. apply poke_keeps. Qed.

Lemma alloc_asks {T} e (x : T) : asks e (fun a => a) (arena_alloc e x).
Proof.
  intros a Hinv. pose proof (ai_len a Hinv) as Hle.
  set (k := fun _ : unit =>
    let! a := sget in
    let! _ := slift (dassert (e_chk e) (a_len a <? a_cap a)) in
    let! pos := slift (position_for e (arena_len a)) in
    let! _ := slift (dassert (e_chk e) (chunk_index pos <? N.of_nat (length (a_chunks a)))) in
    let! item_ptr := slift (chunk_item_ptr a pos) in
    let! _ := arena_poke item_ptr x in
    let! l := slift (uadd (e_chk e) (a_len a) 1) in
    let! _ := smod (set_alen l) in
    sret item_ptr).
  assert (Heq : arena_alloc e x a = sbind (if a_len a =? a_cap a then push_chunk e else sret tt) k a).
  { unfold arena_alloc. unfold sbind at 1, sget. unfold sbind at 1, slift, dassert.
    destruct (N.leb_spec (a_len a) (a_cap a)) as [_|?]; [|lia]. by destruct (e_chk e). }
  rewrite Heq. clear Heq.
  assert (Hc : calm (k tt)) by (apply tame_calm; unfold k; ag; try apply position_for_tame; unfold arena_poke, chunk_item_ptr; ag).
  assert (Hk : keeps (fun a => a) (k tt)).
  { unfold k. kp. apply poke_keeps. }
  clearbody k. destruct (N.eqb_spec (a_len a) (a_cap a)) as [Heq|Hne].
  - unfold sbind. destruct (push_chunk e a) as [r a1] eqn:Hp. destruct (push_chunk_asked e a r a1 Hinv Hp) as [H1 H2].
    destruct r as [[]|p| |u|]; cbn [fst snd].
    + split; [intros H; by apply Hc in H|]. intros _ _. by apply H2.
    + split; [|naive_solver]. intros H. split; [done|]. apply H1. destruct H as [[= ->]|[[= ->]|[=]]]; [by left|by right; left].
    + split; [|naive_solver]. intros H. split; [done|]. apply H1. by right; right.
    + split; [|naive_solver]. by intros [?|[?|?]].
    + split; [|naive_solver]. by intros [?|[?|?]].
  - unfold sbind, sret. split; [intros H; by apply Hc in H|]. rewrite (Hk a). lia.
Qed.

Definition sar {T} (s : slab T) : arena (entry T) := s_items s.

Lemma slab_push_asks {T} e (x : T) : asks e sar (slab_push e x).
Proof.
  unfold slab_push. apply asks_look; [done|apply calm_get|]. intros s. destruct (s_head s) as [h|].
  - apply asks_calm.
    + apply tame_calm. unfold on_items. ag; auto using arena_get_tame, arena_set_tame, entry_next_tame.
    + kp. apply (keeps_zoom _ (fun a => a)); [done|done|apply set_keeps].
  - apply (asks_zoom e sar (fun a => a)); [done|done|]. apply alloc_asks.
Qed.

Section map.
Context {K V : Type}.
Implicit Types m : bstmap K V.

Lemma update_keeps (p : Ptr) f : keeps mem (on_nodes (K := K) (V := V) (slab_update p f)).
Proof.
  apply (keeps_zoom _ sar); [done|done|]. unfold slab_update.
  kp. apply (keeps_zoom _ (fun a => a)); [done|done|apply set_keeps].
Qed.

Lemma push_asks e (x : inner K V) : asks e mem (on_nodes (slab_push e x)).
Proof. apply (asks_zoom e mem sar); [done|done|apply slab_push_asks]. Qed.

Ltac tm := repeat first
  [progress (unfold nodemut_key, nodemut_has_left, nodemut_has_right, nodemut_left, nodemut_right, map_root_mut, opt_nodemut,
     nodemut_new, nodemut_replace_value, nodemut_set_left, nodemut_set_right, slab_update, rmap, on_nodes, on_items)
  |progress ag|apply slab_get_tame|apply arena_get_tame|apply arena_set_tame|apply entry_value_tame].

Lemma insert_loop_asks e o fuel : forall i (k : K) (v : V) cur, asks e mem (insert_loop e o fuel i k v cur).
Proof.
  induction fuel as [|fuel IH]; intros i k v cur; cbn [insert_loop]; [by apply asks_calm; [apply calm_diverge|]|].
  destruct cur as [node|]; [|by apply asks_calm; [apply calm_ret|]].
  apply asks_look; [done|apply calm_get|]. intros m.
  apply asks_look; [done|apply calm_lift, rtame_calm; tm|]. intros nk.
  apply asks_look; [done|apply calm_lift, ask_calm|]. intros [].
  - apply asks_calm; [apply tame_calm; tm|].
    unfold nodemut_replace_value. kp. apply update_keeps.
  - apply asks_look; [done|apply calm_lift, rtame_calm; tm|]. intros []; simpl.
    + apply asks_look; [done|apply calm_lift, rtame_calm; tm|]. intros. apply IH.
    + apply asks_last; [|intros; apply calm_ret|done]. unfold nodemut_push_left. apply asks_last; [apply push_asks|intros..].
      * apply tame_calm. tm.
      * unfold nodemut_set_left. kp; apply update_keeps.
  - apply asks_look; [done|apply calm_lift, rtame_calm; tm|]. intros []; simpl.
    + apply asks_look; [done|apply calm_lift, rtame_calm; tm|]. intros. apply IH.
    + apply asks_last; [|intros; apply calm_ret|done]. unfold nodemut_push_right. apply asks_last; [apply push_asks|intros..].
      * apply tame_calm. tm.
      * unfold nodemut_set_right. kp; apply update_keeps.
Qed.

Lemma insert_asks e o (k : K) (v : V) : asks e mem (bstmap_insert e o k v).
Proof.
  unfold bstmap_insert. apply asks_on_panic; [done|]. apply asks_look; [done|apply calm_get|]. intros m.
  apply asks_look; [done|apply calm_lift, rtame_calm; tm|]. intros [root|].
  - apply insert_loop_asks.
  - apply asks_last; [apply push_asks|intros..].
    + apply calm_bind; [apply calm_mod|intros; apply calm_ret].
    + kp.
Qed.

End map.

(** ** The number of requests never falls *)

Section more.
Context {S T : Type} (ar : S -> arena T).
Definition more {A} (f : M S A) : Prop := forall s, a_next (ar s) <= a_next (ar (f s).2).
Lemma more_bind {A B} (f : M S A) (g : A -> M S B) : more f -> (forall x, more (g x)) -> more (sbind f g).
Proof.
  intros Hf Hg s. unfold sbind. specialize (Hf s). destruct (f s) as [r s1]. destruct r; simpl in *; try lia.
  etrans; [exact Hf|apply Hg].
Qed.
Lemma more_on_panic {A} h (f : M S A) : (forall s, ar (h s) = ar s) -> more f -> more (on_panic h f).
Proof. intros Hh Hf s. unfold on_panic. specialize (Hf s). destruct (f s) as [r s1]. destruct r; simpl in *; try done. by rewrite Hh. Qed.
End more.

Lemma more_zoom {S S' T A} (ar : S -> arena T) (ar' : S' -> arena T) pr inj (f : M S' A) :
  (forall s, ar s = ar' (pr s)) -> (forall t s, ar (inj t s) = ar' t) -> more ar' f -> more ar (zoom pr inj f).
Proof. intros H1 H2 Hf s. unfold zoom. rewrite (H1 s). specialize (Hf (pr s)). destruct (f (pr s)) as [r t]. simpl in *. by rewrite H2. Qed.
Lemma push_chunk_more {T} e : more (fun a : arena T => a) (push_chunk e).
Proof.
  intros a. unfold push_chunk. repeat (unfold sbind, sget, slift, smod, sret, dassert, uadd; simpl; case_match; simpl; try lia).
Qed.
Lemma poke_more {T} p (x : T) : more (fun a => a) (arena_poke p x).
Proof. intros a. unfold arena_poke. repeat case_match; simpl; lia. Qed.
Lemma set_more {T} p (x : T) : more (fun a => a) (arena_set p x).
Proof. intros a. unfold arena_set. case_match; simpl; try lia. apply poke_more. Qed.
Ltac mr := repeat first [apply push_chunk_more|apply poke_more|apply more_bind; [|intros]|by intros ?; apply N.le_refl|case_match; try by intros ?; apply N.le_refl].
Lemma alloc_more {T} e (x : T) : more (fun a => a) (arena_alloc e x).
Proof. unfold arena_alloc. mr. Qed.
Lemma push_more {T} e (x : T) : more sar (slab_push e x).
Proof.
  unfold slab_push. mr; apply (more_zoom _ (fun a => a)); try done; [apply set_more|apply alloc_more].
Qed.

Section map.
Context {K V : Type}.
Lemma slab_push_more e (x : inner K V) : more mem (on_nodes (slab_push e x)).
Proof. apply (more_zoom _ sar); [done|done|apply push_more]. Qed.
Lemma slab_update_more p f : more mem (on_nodes (K := K) (V := V) (slab_update p f)).
Proof. apply (more_zoom _ sar); [done|done|]. unfold slab_update. mr. apply (more_zoom _ (fun a => a)); [done|done|apply set_more]. Qed.
Lemma insert_loop_more e o fuel : forall i (k : K) (v : V) cur, more mem (insert_loop e o fuel i k v cur).
Proof.
  induction fuel as [|fuel IH]; intros i k v cur; cbn [insert_loop]; mr;
    unfold nodemut_push_left, nodemut_push_right, nodemut_set_left, nodemut_set_right, nodemut_replace_value; mr;
    auto using slab_push_more, slab_update_more.
Qed.
Lemma insert_more e o (k : K) (v : V) m : requests m <= requests (bstmap_insert e o k v m).2.
Proof.
  revert m. change (more mem (bstmap_insert e o k v)). unfold bstmap_insert. apply more_on_panic; [done|].
  apply more_bind; [by intros ?|]. intros m. apply more_bind; [by intros ?|]. intros [n|]; [apply insert_loop_more|]. mr; auto using insert_loop_more, slab_push_more, slab_update_more.
Qed.

(** ** The calls *)

Lemma refused_as {A B} (r : res A) (r' : res B) : alloc_refused r -> match r with
  | Panic p => r' = Panic p | Abort => r' = Abort | _ => True end -> alloc_refused r'.
Proof. by intros [-> |[-> | ->]] ->; unfold alloc_refused; eauto. Qed.
Lemma refuses_as {A B} e i n (r : res A) (r' : res B) : refuses e i n r -> match r with
  | Panic p => r' = Panic p | Abort => r' = Abort | _ => True end -> refuses e i n r'.
Proof. intros H Hr. destruct r as [x|p| |u|]; simpl in H; try done; subst r'; done. Qed.
Lemma request_as {A B} e lo n (r : res A) (r' : res B) : refused_request e lo n r -> match r with
  | Panic p => r' = Panic p | Abort => r' = Abort | _ => True end -> refused_request e lo n r'.
Proof. intros (i & j & H1 & H2 & H3) Hr. exists i, j. split_and!; try done. by eapply refuses_as. Qed.
Lemma request_weaken {A} e lo lo' n n' (r : res A) : refused_request e lo n r -> lo' <= lo -> n <= n' -> refused_request e lo' n' r.
Proof. intros (i & j & H1 & H2 & H3) Hl Hn. exists i, j. split_and!; try done; lia. Qed.

(** The failure of a sequence is that of its first or its second part. *)
Lemma bind_refused {S A B} (f : M S A) (g : A -> M S B) s : alloc_refused (sbind f g s).1 ->
  (alloc_refused (f s).1 /\ match (f s).1 with Panic p => (sbind f g s).1 = Panic p | Abort => (sbind f g s).1 = Abort | _ => True end) \/
  exists x s', f s = (Ret x, s') /\ sbind f g s = g x s'.
Proof.
  unfold sbind. destruct (f s) as [r s1]. destruct r as [x|p| |u|]; simpl; intros H.
  - right. eauto.
  - left. split; [|done]. destruct H as [[= ->]|[[= ->]|[=]]]; unfold alloc_refused; eauto.
  - left. split; [|done]. unfold alloc_refused; eauto.
  - by destruct H as [?|[?|?]].
  - by destruct H as [?|[?|?]].
Qed.

Lemma insert_refused_rep e o (k : K) (v : V) m t fl : map_rep m t fl -> alloc_refused (bstmap_insert e o k v m).1 ->
  N.of_nat (tsize t) = map_capacity m /\ refuses e (requests m) (map_capacity m + 8) (bstmap_insert e o k v m).1.
Proof.
  intros Hrep Hr. destruct (insert_asks e o k v m (rep_inv _ _ _ Hrep)) as [H _]. destruct (H Hr) as [_ H2]. split; [|exact H2].
  pose proof (insert_call e o k v m t fl Hrep) as Hw. unfold wp in Hw. destruct (bstmap_insert e o k v m) as [r m'].
  destruct r as [x|p| |u|]; simpl in Hr.
  - by destruct Hr as [?|[?|?]].
  - destruct Hw as (_ & _ & _ & [[[= ->] _]|(_ & _ & Hs & _)] & _); [by destruct Hr as [?|[?|?]]|done].
  - destruct Hw as (_ & _ & _ & [[[=] _]|(_ & _ & Hs & _)] & _); done.
  - done.
  - done.
Qed.

Lemma insert_request e o (k : K) (v : V) m t fl n : map_rep m t fl -> slots m < n -> alloc_refused (bstmap_insert e o k v m).1 ->
  refused_request e (requests m) n (bstmap_insert e o k v m).1.
Proof.
  intros Hrep Hn Hr. destruct (insert_refused_rep e o k v m t fl Hrep Hr) as [H1 H2].
  pose proof (rep_slots _ _ _ Hrep). destruct (room_request _ (rep_inv _ _ _ Hrep)) as (j & Hj0 & Hj1).
  change (a_cap (mem m)) with (map_capacity m) in *. exists (requests m), j. rewrite Hj0, Hj1. split_and!; [done|lia|done].
Qed.

Lemma insert_next e o (k : K) (v : V) m t fl x m' : map_rep m t fl -> bstmap_insert e o k v m = (Ret x, m') ->
  exists t' fl', map_rep m' t' fl' /\ slots m' <= slots m + 1 /\ requests m <= requests m'.
Proof.
  intros Hrep Heq. pose proof (insert_more e o k v m) as Hq. pose proof (insert_call e o k v m t fl Hrep) as Hw. unfold wp in Hw. rewrite Heq in *.
  destruct Hw as (q & t' & fl' & Ht & Hrep' & Hg & _). exists t', fl'. split_and!; try done.
  pose proof (gr_slots _ _ _ _ Hg) as Hsl. change (slots m' = N.max (slots m) (N.of_nat (tsize t'))) in Hsl.
  pose proof (rep_slots _ _ _ Hrep). pose proof (tins_size _ _ _ _ _ _ _ _ Ht) as Hz. destruct x; lia.
Qed.

Lemma insert_all_request e os panics : forall (items : list (K * V)) j (m : bstmap K V) t fl n, map_rep m t fl ->
  slots m + N.of_nat (length items) <= n ->
  alloc_refused (insert_all e os j items panics m).1 -> refused_request e (requests m) n (insert_all e os j items panics m).1.
Proof.
  induction items as [|[k v] items IH]; intros j m t fl n Hrep Hn; cbn [insert_all].
  { destruct panics; by intros [?|[?|?]]. }
  cbn [length] in Hn. intros Hr. destruct (bind_refused _ _ _ Hr) as [[Hr1 Hs]|(x & m1 & Heq & Heq2)].
  - eapply request_as; [|exact Hs]. eapply insert_request; [done|lia|done].
  - rewrite Heq2 in Hr |- *. destruct (insert_next _ _ _ _ _ _ _ _ _ Hrep Heq) as (t' & fl' & Hrep' & Hsl & Hq).
    unfold sbind, smod in Hr |- *.
    eapply request_weaken; [eapply (IH (S j) (log_drops _ m1) t' fl' n); [exact Hrep'| |done]|done|done].
    change (slots m1 + N.of_nat (length items) <= n). lia.
Qed.

Lemma clone_list_request e os ck cv : forall (l : list (K * V)) j (m : bstmap K V) t fl n, map_rep m t fl ->
  slots m + N.of_nat (length l) <= n ->
  alloc_refused (clone_list e os ck cv j l m).1 -> refused_request e (requests m) n (clone_list e os ck cv j l m).1.
Proof.
  induction l as [|[k0 v0] l IH]; intros j m t fl n Hrep Hn; cbn [clone_list]; [by intros [?|[?|?]]|].
  destruct (ck j k0) as [k|]; [|by intros [?|[?|?]]]. destruct (cv j v0) as [v|]; [|by intros [?|[?|?]]].
  cbn [length] in Hn. intros Hr. destruct (bind_refused _ _ _ Hr) as [[Hr1 Hs]|(x & m1 & Heq & Heq2)].
  - eapply request_as; [|exact Hs]. eapply insert_request; [done|lia|done].
  - rewrite Heq2 in Hr |- *. destruct (insert_next _ _ _ _ _ _ _ _ _ Hrep Heq) as (t' & fl' & Hrep' & Hsl & Hq).
    unfold sbind, smod in Hr |- *.
    eapply request_weaken; [eapply (IH (S j) (log_drops _ m1) t' fl' n); [exact Hrep'| |done]|done|done].
    change (slots m1 + N.of_nat (length l) <= n). lia.
Qed.

Lemma arena_reserve_request {T} e n (a : arena T) : arena_inv a -> alloc_refused (arena_reserve e n a).1 ->
  refused_request e (a_next a) (a_len a + n) (arena_reserve e n a).1.
Proof.
  intros Hinv. unfold arena_reserve. unfold sbind at 1 3, sget. unfold sbind, slift, uadd, arena_len.
  destruct (N.ltb_spec (a_len a + n) USIZE) as [Hu|Hu]; [apply grow_loop_asked; done|].
  destruct (e_chk e); [by intros [?|[?|?]]|]. intros Hr.
  eapply request_weaken; [by apply grow_loop_asked|done|]. apply N.mod_le. done.
Qed.

Lemma map_reserve_request e n (m : bstmap K V) t fl : map_rep m t fl -> alloc_refused (map_reserve e n m).1 ->
  refused_request e (requests m) (slots m + n) (map_reserve e n m).1.
Proof.
  intros Hrep. pose proof (arena_reserve_request e n (mem m) (rep_inv _ _ _ Hrep)) as H.
  unfold map_reserve, slab_reserve, on_nodes, on_items, zoom. change (s_items (m_nodes m)) with (mem m).
  by destruct (arena_reserve e n (mem m)) as [r a].
Qed.

Lemma arena_with_capacity_request {T} e n : alloc_refused (arena_with_capacity (T := T) e n).1 ->
  refused_request e 0 n (arena_with_capacity (T := T) e n).1.
Proof.
  unfold arena_with_capacity. pose proof (grow_loop_asked (T := T) e n GROW_FUEL arena_new arena_new_inv) as H.
  destruct (grow_loop e GROW_FUEL n arena_new) as [r a]. destruct r as [x|p| |u|]; try exact H.
  pose proof (arena_drop_tame (T := T) e false a) as Ht. destruct (arena_drop e false (fun _ => false) a) as [[x|p'| |u|] a']; try exact H.
  all: cbn [fst] in *; intros Hr; exfalso; by apply (rtame_calm _ Ht).
Qed.

Lemma map_with_capacity_request e n : alloc_refused (map_with_capacity (K := K) (V := V) e n).1 ->
  refused_request e 0 n (map_with_capacity (K := K) (V := V) e n).1.
Proof.
  unfold map_with_capacity, slab_with_capacity. pose proof (arena_with_capacity_request (T := entry (inner K V)) e n) as H.
  by destruct (arena_with_capacity e n) as [r a].
Qed.

Lemma build_request e n c (body : M (bstmap K V) unit) : n <= c ->
  (forall m, map_rep m Leaf [] -> slots m = 0 -> alloc_refused (body m).1 -> refused_request e (requests m) c (body m).1) ->
  alloc_refused (build e (map_with_capacity e n) body).1 -> refused_request e 0 c (build e (map_with_capacity e n) body).1.
Proof.
  intros Hn Hb. pose proof (map_with_capacity_request e n) as Hw. pose proof (map_with_capacity_spec (K:=K) (V:=V) e n) as Hs.
  unfold build. destruct (map_with_capacity e n) as [r m0]. cbn [fst] in Hw.
  destruct r as [[]|p| |u|]; cbn [fst]; try (intros Hr; eapply request_weaken; [by apply Hw|done|done]).
  destruct Hs as (Hrep & _ & Hl & _). specialize (Hb m0 Hrep Hl).
  assert (Hq : 0 <= requests m0) by lia.
  destruct (body m0) as [r m1]. cbn [fst] in Hb.
  destruct r as [[]|p| |u|]; cbn [fst]; try (intros Hr; eapply request_weaken; [by apply Hb|done|done]).
  pose proof (map_drop_tame e m1) as Ht. destruct (map_drop e (fun _ => false) m1) as [[x|p'| |u|] m2]; cbn [fst] in *.
  { intros Hr; eapply request_weaken; [by apply Hb|done|done]. }
  all: intros Hr; exfalso; by apply (rtame_calm _ Ht).
Qed.

Lemma map_from_iter_request e os (it : user_iter (K * V)) : alloc_refused (map_from_iter e os it).1 ->
  refused_request e 0 (N.max (hint_len it) (N.of_nat (length (ui_items it)))) (map_from_iter e os it).1.
Proof.
  apply build_request; [lia|]. intros m Hrep Hl. eapply insert_all_request; [done|]. rewrite Hl. lia.
Qed.

Lemma map_clone_request e os ck cv (m : bstmap K V) t fl : map_rep m t fl -> alloc_refused (map_clone e os ck cv m).1 ->
  refused_request e 0 (N.of_nat (tsize t)) (map_clone e os ck cv m).1.
Proof.
  intros Hrep. unfold map_clone. rewrite (map_len_ret e m t fl Hrep). apply build_request; [done|]. intros m0 Hrep0 Hl0.
  assert (Heq : forall m0, (let! r := slift (map_root m) in clone_loop e os ck cv m (map_fuel m) 0 (opt_list r)) m0 =
    clone_list e os ck cv 0 (ppre t).*2 m0).
  { intros m1. unfold sbind, slift. rewrite (map_root_ret _ _ _ Hrep).
    replace (opt_list (node_of t)) with (node_stack [t]) by (by destruct t).
    rewrite (clone_loop_eq e os ck cv m t fl Hrep).
    - unfold pre_pend. cbn [mbind list_bind]. by rewrite app_nil_r.
    - apply Forall_cons. split; [|constructor]. apply sub_refl. by eapply rep_nodup.
    - unfold pre_pend. cbn [mbind list_bind]. rewrite app_nil_r, ppre_length. by eapply rep_fuel. }
  rewrite Heq. eapply clone_list_request; [done|]. rewrite Hl0, fmap_length, ppre_length. lia.
Qed.

Lemma out_refused {A} (f : M (bstmap K V) A) (g : A -> out K V) m : alloc_refused ((let! x := f in sret (g x)) m).1 ->
  alloc_refused (f m).1 /\ match (f m).1 with Panic p => ((let! x := f in sret (g x)) m).1 = Panic p
    | Abort => ((let! x := f in sret (g x)) m).1 = Abort | _ => True end.
Proof. intros Hr. destruct (bind_refused _ _ _ Hr) as [H|(x & s' & _ & Heq)]; [done|]. rewrite Heq in Hr. by destruct Hr as [?|[?|?]]. Qed.

Theorem call_request e (c : op K V) m : reachable e m -> alloc_refused (exec e c m).1 ->
  refused_request e (first_request c m) (most_entries e c m) (exec e c m).1.
Proof.
  intros Hreach Hr. destruct (reachable_rep e m Hreach) as (t & fl & Hrep). pose proof (exec_spec e c m t fl Hrep) as Hw.
  assert (Hno : match c with OInsert _ _ _ | OReserve _ | OExtend _ _ | OClone _ _ _ => True | _ => False end).
  { unfold wp in Hw. destruct (exec e c m) as [r m'].
    destruct r as [x|p| |u|]; cbn [fst] in Hr; [by destruct Hr as [?|[?|?]]| | |done|done].
    - destruct Hw as (t' & fl' & _ & Hs & _). destruct c; try done; simpl in Hs; destruct Hs as (_ & [= ->] & _); by destruct Hr as [?|[?|?]].
    - destruct Hw as (t' & fl' & _ & Hs & _). destruct c; try done; simpl in Hs; by destruct Hs as (_ & [=] & _). }
  clear Hw. destruct c as [o k v|o|o|o|o|o|o w|o w| | | | |n| |os it|d n|d evs|path|path w| |os ck cv]; try done; clear Hno;
    cbn [exec first_request most_entries] in *; destruct (out_refused _ _ _ Hr) as [Hr1 Hs]; eapply request_as; try exact Hs; clear Hr Hs.
  - eapply insert_request; [done|lia|done].
  - by eapply map_reserve_request.
  - unfold map_extend in *. destruct (bind_refused _ _ _ Hr1) as [[Hr2 Hs]|(x & m1 & Heq & Heq2)].
    + eapply request_as; [|exact Hs]. eapply request_weaken; [by eapply map_reserve_request|done|]. change (hinted it) with (hint_len it). lia.
    + rewrite Heq2 in Hr1 |- *. pose proof (map_reserve_spec e (hint_len it) m t fl Hrep) as Hw. unfold wp in Hw. rewrite Heq in Hw.
      destruct Hw as (Hrep1 & [Hext _] & _).
      eapply request_weaken; [eapply insert_all_request; [done|done|done]| |].
      * apply (ax_next _ _ Hext).
      * change (a_len (mem m1) + N.of_nat (length (ui_items it)) <= a_len (mem m) + N.max (hint_len it) (N.of_nat (length (ui_items it)))).
        rewrite (ax_len _ _ Hext). lia.
  - rewrite (rep_entry_count _ _ _ _ Hrep). unfold clone_and_replace in *.
    pose proof (map_clone_request e os ck cv m t fl Hrep) as Hc. destruct (map_clone e os ck cv m) as [r m2].
    destruct r as [x|p| |u|]; try by apply Hc.
    pose proof (map_drop_tame e m) as Ht. destruct (map_drop e (fun _ => false) m) as [[y|p'| |u|] m3]; cbn [fst] in *;
      first [by destruct Hr1 as [?|[?|?]]|exfalso; by apply (rtame_calm _ Ht)].
Qed.

Theorem begin_request e (s : start K V) : alloc_refused (begin e s).1 ->
  refused_request e 0 (most_entries_at_start s) (begin e s).1.
Proof.
  destruct s as [|n|os it]; simpl.
  - by intros [?|[?|?]].
  - apply map_with_capacity_request.
  - apply map_from_iter_request.
Qed.

(** Insertions: exactly when the map is full. *)
Lemma insert_refused e o (k : K) (v : V) (m : bstmap K V) : reachable e m -> alloc_refused (exec e (OInsert o k v) m).1 ->
  entry_count e m = map_capacity m /\ refuses e (requests m) (map_capacity m + 8) (exec e (OInsert o k v) m).1.
Proof.
  intros Hreach Hr. destruct (reachable_rep e m Hreach) as (t & fl & Hrep). cbn [exec] in *.
  destruct (out_refused _ _ _ Hr) as [Hr1 Hs]. destruct (insert_refused_rep _ _ _ _ _ _ _ Hrep Hr1) as [H1 H2].
  split; [by rewrite (rep_entry_count _ _ _ _ Hrep)|]. by eapply refuses_as.
Qed.

Lemma insert_grants e o (k : K) (v : V) (m : bstmap K V) x m' : reachable e m -> exec e (OInsert o k v) m = (Ret x, m') ->
  map_capacity m < map_capacity m' -> granted e (requests m) (map_capacity m + 8).
Proof.
  intros Hreach Hr Hc. destruct (reachable_rep e m Hreach) as (t & fl & Hrep). cbn [exec] in Hr. unfold sbind in Hr.
  destruct (insert_asks e o k v m (rep_inv _ _ _ Hrep)) as [_ H].
  pose proof (insert_call e o k v m t fl Hrep) as Hw. unfold wp in Hw.
  destruct (bstmap_insert e o k v m) as [r m1]. destruct r as [y|p| |u|]; try done. injection Hr as <- <-. cbn [fst snd] in H.
  destruct Hw as (q & t' & fl' & _ & Hrep' & _). apply H; [|by eauto].
  destruct (N.lt_ge_cases (nchunks (mem m)) (nchunks (mem m1))) as [?|Hle]; [done|exfalso].
  rewrite (rep_cap _ _ _ Hrep), (rep_cap _ _ _ Hrep') in Hc.
  pose proof (cfirst_mono _ _ Hle) as Hm. change (cfirst (mnc m1) <= cfirst (mnc m)) in Hm. lia.
Qed.

Lemma insert_full e o (k : K) (v : V) (m : bstmap K V) r0 : reachable e m -> entry_count e m = map_capacity m ->
  refuses e (requests m) (map_capacity m + 8) r0 ->
  (exec e (OInsert o k v) m).1 = r0 \/ (exec e (OInsert o k v) m).1 = Panic PCmp \/
  exists w, (exec e (OInsert o k v) m).1 = Ret (OutValue (Some w)).
Proof.
  intros Hreach Hfull Hr0. pose proof (insert_refused e o k v m Hreach) as Href.
  destruct (exec e (OInsert o k v) m) as [r m'] eqn:Hex. cbn [fst] in *.
  destruct (reachable_rep e m Hreach) as (t & fl & Hrep). pose proof (exec_spec e (OInsert o k v) m t fl Hrep) as Hw.
  unfold wp in Hw. rewrite Hex in Hw. destruct r as [x|p| |u|].
  - destruct Hw as (t' & fl' & Hrep' & (q & y & Ht & _ & ->) & _). destruct y as [w|]; [by eauto|]. exfalso.
    eapply (refuses_granted e _ _ r0 Hr0). eapply insert_grants; [done|done|].
    pose proof (tins_size _ _ _ _ _ _ _ _ Ht) as Hz. cbn in Hz. rewrite (rep_entry_count _ _ _ _ Hrep) in Hfull.
    pose proof (rep_slots _ _ _ Hrep'). lia.
  - destruct Hw as (t' & fl' & _ & (_ & [[[= ->] _]|[Hf _]]) & _); [by eauto|]. left. eapply refuses_det; [|done]. apply Href.
    unfold alloc_fail, alloc_refused in *. naive_solver.
  - left. eapply refuses_det; [|done]. apply Href. unfold alloc_refused. eauto.
  - done.
  - done.
Qed.

(** If every request that may be made is granted, nothing is refused. *)
Lemma call_granted e (c : op K V) (m : bstmap K V) : reachable e m ->
  (forall i j, first_request c m <= i -> chunks_room j < most_entries e c m -> granted e i (8 * 2 ^ j)) ->
  ~ alloc_refused (exec e c m).1.
Proof.
  intros Hreach Hg Hr. destruct (call_request e c m Hreach Hr) as (i & j & H1 & H2 & H3). by eapply refuses_granted, Hg.
Qed.

Lemma begin_granted e (s : start K V) :
  (forall i j, chunks_room j < most_entries_at_start s -> granted e i (8 * 2 ^ j)) -> ~ alloc_refused (begin e s).1.
Proof. intros Hg Hr. destruct (begin_request e s Hr) as (i & j & H1 & H2 & H3). by eapply refuses_granted, Hg. Qed.

End map.

Section set.
Context {T : Type}.
Implicit Types m : bstset T.

Lemma set_call_request e (c : set_op T) m : set_reachable e m -> alloc_refused (set_exec e c m).1 ->
  refused_request e (set_first_request c m) (most_values e c m) (set_exec e c m).1.
Proof.
  intros Hreach%set_reachable_map Hr. destruct (reachable_rep e m Hreach) as (t & fl & Hrep).
  pose proof (call_request e (to_map c) m Hreach) as H.
  destruct (exec e (to_map c) m) as [r m'] eqn:Hex. rewrite (set_exec_eq e c m t fl r m' Hrep Hex) in Hr |- *. cbn [fst] in *.
  replace (first_request (to_map c) m) with (set_first_request c m) in H by (by destruct c).
  replace (most_entries e (to_map c) m) with (most_values e c m) in H.
  2:{ destruct c; try done. cbn [most_values most_entries to_map]. by rewrite with_units_items, units_length. }
  destruct r as [x|p| |u|]; simpl in *; try by destruct Hr as [?|[?|?]].
  - eapply request_as; [apply H|done]. destruct Hr as [[= ->]|[[= ->]|[=]]]; unfold alloc_refused; eauto.
  - eapply request_as; [apply H|done]. unfold alloc_refused; eauto.
Qed.

Lemma set_begin_request e (s : set_start T) : alloc_refused (set_begin e s).1 ->
  refused_request e 0 (most_values_at_start s) (set_begin e s).1.
Proof.
  rewrite set_begin_eq. pose proof (begin_request e (start_to_map s)) as H.
  replace (most_entries_at_start (start_to_map s)) with (most_values_at_start s) in H; [done|].
  destruct s; try done. cbn [most_values_at_start most_entries_at_start start_to_map]. by rewrite with_units_items, units_length.
Qed.

End set.

(** ** The private containers *)

Section containers.
Context {T : Type}.

Lemma as_refused {S A B} (f : M S A) (g : A -> B) s : alloc_refused ((let! x := f in sret (g x)) s).1 ->
  alloc_refused (f s).1 /\ match (f s).1 with Panic p => ((let! x := f in sret (g x)) s).1 = Panic p
    | Abort => ((let! x := f in sret (g x)) s).1 = Abort | _ => True end.
Proof. intros Hr. destruct (bind_refused _ _ _ Hr) as [H|(x & s' & _ & Heq)]; [done|]. rewrite Heq in Hr. by destruct Hr as [?|[?|?]]. Qed.

Lemma arena_alloc_refused e n cs rs (a : arena T) x : arena_reached e n cs rs a -> arena_contract [] cs rs -> Forall process_on rs ->
  alloc_refused (arena_exec e (AAlloc x) a).1 ->
  arena_len a = arena_capacity a /\ refuses e (a_next a) (arena_capacity a + 8) (arena_exec e (AAlloc x) a).1.
Proof.
  intros H1 H2 H3 Hr. destruct (arena_final _ _ _ _ _ H1 H2 H3) as [Hrep _]. cbn [arena_exec] in *.
  destruct (as_refused _ _ _ Hr) as [Hr1 Hs]. destruct (alloc_asks e x a (rp_inv _ _ Hrep)) as [H _].
  destruct (H Hr1) as [H4 H5]. split; [done|]. by eapply refuses_as.
Qed.

Lemma arena_call_request e n cs rs (a : arena T) c : arena_reached e n cs rs a -> arena_contract [] cs rs -> Forall process_on rs ->
  arena_legal (arena_contents [] cs rs) c -> alloc_refused (arena_exec e c a).1 ->
  refused_request e (a_next a) (most_items c a) (arena_exec e c a).1.
Proof.
  intros H1 H2 H3 Hleg Hr. destruct (arena_final _ _ _ _ _ H1 H2 H3) as [Hrep _].
  pose proof (arena_exec_spec e c a _ Hrep Hleg) as Hspec.
  destruct c as [x|p|p x|k| |pn| | | |ds|ds].
  - destruct (arena_alloc_refused e n cs rs a x H1 H2 H3 Hr) as [H4 H5].
    destruct (room_request a (rp_inv _ _ Hrep)) as (j & Hj0 & Hj1). exists (a_next a), j.
    unfold most_items, arena_capacity, arena_len in *. rewrite Hj0, Hj1. split_and!; [done|lia|done].
  - exfalso. destruct (arena_exec e _ a). destruct Hspec as [(y & -> & _) _]. by destruct Hr as [?|[?|?]].
  - exfalso. destruct (arena_exec e _ a). destruct Hspec as [Heq _]. cbn in Heq. subst. by destruct Hr as [?|[?|?]].
  - clear Hspec. cbn [arena_exec] in *. destruct (as_refused _ _ _ Hr) as [Hr1 Hs]. eapply request_as; [|exact Hs].
    apply arena_reserve_request; [apply Hrep|done].
  - exfalso. destruct (arena_exec e _ a). destruct Hspec as [Heq _]. cbn in Heq. subst. by destruct Hr as [?|[?|?]].
  - exfalso. destruct (arena_exec e _ a). destruct Hspec as [Heq _]. cbn in Heq. subst. by destruct Hr as [?|[?|?]].
  - by destruct Hr as [?|[?|?]].
  - by destruct Hr as [?|[?|?]].
  - by destruct Hr as [?|[?|?]].
  - exfalso. destruct (arena_exec e _ a). destruct Hspec as [Heq _]. cbn in Heq. subst. by destruct Hr as [?|[?|?]].
  - exfalso. destruct (arena_exec e _ a). destruct Hspec as [Heq _]. cbn in Heq. subst. by destruct Hr as [?|[?|?]].
Qed.

Lemma arena_begin_request e n : alloc_refused (arena_begin (T := T) e n).1 -> refused_request e 0 (default 0 n) (arena_begin (T := T) e n).1.
Proof. destruct n as [n|]; simpl; [apply arena_with_capacity_request|by intros [?|[?|?]]]. Qed.

Lemma slab_push_refused e n cs rs (s : slab T) x : slab_reached e n cs rs s -> slab_contract ∅ cs rs -> Forall process_on rs ->
  alloc_refused (slab_exec e (SPush x) s).1 ->
  slab_len e s = Ret (slab_capacity s) /\ refuses e (a_next (s_items s)) (slab_capacity s + 8) (slab_exec e (SPush x) s).1.
Proof.
  intros H1 H2 H3 Hr. destruct (slab_final _ _ _ _ _ H1 H2 H3) as [[fl Hrep] _]. cbn [slab_exec] in *.
  destruct (as_refused _ _ _ Hr) as [Hr1 Hs]. destruct (slab_push_asks e x s (sr_inv _ _ _ Hrep)) as [H _].
  destruct (H Hr1) as [_ H5]. split; [|by eapply refuses_as].
  rewrite (slab_len_ret e s _ fl Hrep). f_equal.
  pose proof (slab_push_spec e s _ fl x Hrep) as Hw. unfold wp in Hw. destruct (slab_push e x s) as [r s'].
  destruct r as [y|p| |u|]; cbn [fst] in Hr1; [by destruct Hr1 as [?|[?|?]]|by apply Hw..|done|done].
Qed.

Lemma slab_call_request e n cs rs (s : slab T) c : slab_reached e n cs rs s -> slab_contract ∅ cs rs -> Forall process_on rs ->
  slab_legal (slab_contents ∅ cs rs) c -> alloc_refused (slab_exec e c s).1 ->
  refused_request e (a_next (s_items s)) (most_slots c s) (slab_exec e c s).1.
Proof.
  intros H1 H2 H3 Hleg Hr. destruct (slab_final _ _ _ _ _ H1 H2 H3) as [Hh _].
  pose proof (slab_exec_spec e c s _ Hh Hleg) as Hspec. destruct Hh as [fl Hrep].
  destruct c as [x|p|p|p f|k| |pn| | |].
  - destruct (slab_push_asks e x s (sr_inv _ _ _ Hrep)) as [H _]. cbn [slab_exec] in *.
    destruct (as_refused _ _ _ Hr) as [Hr1 Hs]. destruct (H Hr1) as [H4 H5].
    destruct (room_request _ (sr_inv _ _ _ Hrep)) as (j & Hj0 & Hj1). exists (a_next (s_items s)), j.
    unfold most_slots, arena_len, sar in *. rewrite Hj0, Hj1. split_and!; [done|lia|]. by eapply refuses_as.
  - exfalso. destruct (slab_exec e _ s). destruct Hspec as [(y & -> & _) _]. by destruct Hr as [?|[?|?]].
  - exfalso. destruct (slab_exec e _ s). destruct Hspec as [(y & -> & _) _]. by destruct Hr as [?|[?|?]].
  - exfalso. destruct (slab_exec e _ s). destruct Hspec as [(y & -> & _) _]. by destruct Hr as [?|[?|?]].
  - clear Hspec. cbn [slab_exec] in *. destruct (as_refused _ _ _ Hr) as [Hr1 Hs]. eapply request_as; [|exact Hs]. clear Hr Hs.
    pose proof (arena_reserve_request e k (s_items s) (sr_inv _ _ _ Hrep)) as H.
    unfold slab_reserve, on_items, zoom in *. destruct (arena_reserve e k (s_items s)). by apply H.
  - exfalso. destruct (slab_exec e _ s). destruct Hspec as [Heq _]. cbn in Heq. subst. by destruct Hr as [?|[?|?]].
  - exfalso. destruct (slab_exec e _ s). destruct Hspec as [Heq _]. cbn in Heq. subst. by destruct Hr as [?|[?|?]].
  - exfalso. destruct (slab_exec e _ s). destruct Hspec as [Heq _]. cbn in Heq. subst. by destruct Hr as [?|[?|?]].
  - exfalso. destruct (slab_exec e _ s). destruct Hspec as [Heq _]. cbn in Heq. subst. by destruct Hr as [?|[?|?]].
  - by destruct Hr as [?|[?|?]].
Qed.

Lemma slab_begin_request e n : alloc_refused (slab_begin (T := T) e n).1 -> refused_request e 0 (default 0 n) (slab_begin (T := T) e n).1.
Proof.
  destruct n as [n|]; simpl; [|by intros [?|[?|?]]]. unfold slab_with_capacity.
  pose proof (arena_with_capacity_request (T := entry T) e n) as H. by destruct (arena_with_capacity e n).
Qed.

End containers.
