(** * Capacities of arenas and slabs *)

From Verif Require Import ProofArenaRun ProofMem ProofAlloc.
From Verif Require Export SpecRoom.
Local Open Scope N_scope.

(** ** Memory held *)

Lemma footprint_insert {T} (h : gmap N (block T)) c b : h !! c = None -> footprint (<[c := b]> h) = b_size b + footprint h.
Proof.
  intros H. unfold footprint. rewrite map_fold_insert_L; [done| |done]. intros. lia.
Qed.

Lemma footprint_chunks {T} (l : list N) : forall h : gmap N (block T), NoDup l ->
  (forall j c, l !! j = Some c -> exists b, h !! c = Some b /\ b_size b = clen (N.of_nat j)) ->
  (forall c b, h !! c = Some b -> c ∈ l) -> footprint h = cfirst (N.of_nat (length l)).
Proof.
  induction l as [|c l IH] using rev_ind; intros h Hnd H1 H2.
  - assert (h = ∅) as ->; [|done]. apply fin_maps.map_eq. intros c. rewrite lookup_empty. apply eq_None_not_Some.
    intros [b Hb]. apply H2 in Hb. by apply elem_of_nil in Hb.
  - apply NoDup_app in Hnd as (Hnd & Hc & _).
    destruct (H1 (length l) c) as (b & Hb & Hs); [by rewrite lookup_app_r, Nat.sub_diag|].
    rewrite <- (insert_id h c b Hb), <- insert_delete_insert, footprint_insert by apply lookup_delete.
    rewrite (IH (delete c h)); [|done| |].
    + rewrite Hs, app_length. cbn [length]. replace (N.of_nat (length l + 1)) with (N.of_nat (length l) + 1) by lia.
      rewrite cfirst_S. lia.
    + intros j d Hd. destruct (H1 j d) as (b' & Hb' & Hs').
      { rewrite lookup_app_l; [done|]. by eapply lookup_lt_Some. }
      exists b'. split; [|done]. rewrite lookup_delete_ne; [done|]. intros <-. apply (Hc c); [by eapply elem_of_list_lookup_2|by left].
    + intros d b' Hd. apply lookup_delete_Some in Hd as [Hne Hd]. apply H2 in Hd. set_solver.
Qed.

Lemma inv_footprint {T} (a : arena T) : arena_inv a -> footprint (a_heap a) = arena_capacity a.
Proof.
  intros H. unfold arena_capacity. rewrite (ai_cap _ H). apply footprint_chunks; [apply H|apply H|].
  intros c b Hb. by eapply ai_heap.
Qed.

Lemma inv_room {T} (a : arena T) n : arena_inv a -> n <= a_cap a -> (forall c, n <= cfirst c -> nchunks a <= c) ->
  least_room n (arena_capacity a).
Proof.
  intros H Hn Hmin. unfold arena_capacity. split_and!; [|done|].
  - exists (nchunks a). by rewrite (ai_cap _ H).
  - intros j Hj. rewrite (ai_cap _ H). apply cfirst_mono, Hmin, Hj.
Qed.

Lemma inv_doubles {T} (a a' : arena T) : arena_inv a -> arena_inv a' -> nchunks a' = nchunks a + 1 ->
  arena_capacity a' = 2 * arena_capacity a + 8.
Proof.
  intros H H' Hn. unfold arena_capacity. by rewrite (ai_cap _ H), (ai_cap _ H'), Hn, cfirst_double.
Qed.

(** ** The arena *)

Section arena.
Context {T : Type}.
Implicit Types a : arena T.
Implicit Types l : list (Ptr * T).

Lemma alloc_room e x a l r a' : arena_rep a l -> arena_exec e (AAlloc x) a = (r, a') ->
  (N.of_nat (length l) < arena_capacity a ->
     (exists p, r = Ret (APtr p)) /\ arena_capacity a' = arena_capacity a /\ a_next a' = a_next a) /\
  (N.of_nat (length l) = arena_capacity a -> forall y, r = Ret y ->
     arena_capacity a' = 2 * arena_capacity a + 8 /\ a_next a' = a_next a + 1) /\
  ((forall y, r <> Ret y) -> arena_capacity a' = arena_capacity a).
Proof.
  intros Hrep Hex. rewrite <- (arena_rep_len _ _ Hrep). cbn [arena_exec] in Hex. unfold sbind in Hex.
  pose proof (arena_alloc_spec e x a (rp_inv _ _ Hrep)) as H. unfold wp in H. unfold arena_capacity.
  destruct (arena_alloc e x a) as [[p|pa| | |] a1]; try done; injection Hex as <- <-.
  - destruct H as (a2 & Ha2 & Hinv & Hlt & -> & ->). destruct (put_cell_fields (slotp (a_chunks a2) (a_len a2)) x a2) as (Hf1 & Hf2 & Hf3 & Hf4 & Hf5).
    cbn [a_cap a_next set_alen]. rewrite Hf4, Hf1. destruct Ha2 as [[-> Hl]|(-> & Hl & Hn)].
    + split_and!; [by eauto|intros; lia|intros Hy; by edestruct Hy].
    + split_and!; [intros; lia| |intros Hy; by edestruct Hy].
      intros _ y _. cbn [pushed_chunk a_cap a_next]. split; [|done].
      rewrite (clen_cap a (rp_inv _ _ Hrep)). lia.
  - destruct H as (_ & [Hs _] & Hl). split_and!; [intros; lia|done|]. intros _. by rewrite Hs.
  - destruct H as (_ & [Hs _] & Hl). split_and!; [intros; lia|done|]. intros _. by rewrite Hs.
Qed.

Lemma arena_reserve_least e n a : arena_inv a -> forall a', arena_reserve e n a = (Ret tt, a') ->
  (e_chk e = true \/ a_len a + n < USIZE) ->
  a_len a + n <= a_cap a' /\ a_cap a <= a_cap a' /\ (a_len a + n <= a_cap a -> a' = a) /\
  (a_cap a < a_len a + n -> least_room (a_len a + n) (a_cap a')).
Proof.
  intros Hinv a' Hex Hno.
  assert (Hu : a_len a + n < USIZE).
  { destruct Hno as [Hc|?]; [|done]. destruct (N.lt_ge_cases (a_len a + n) USIZE) as [?|Hu]; [done|].
    unfold arena_reserve, sbind, sget, slift, uadd, arena_len in Hex. apply N.ltb_ge in Hu. by rewrite Hu, Hc in Hex. }
  pose proof (arena_reserve_spec e n a Hinv Hu) as H. unfold wp in H. rewrite Hex in H.
  destruct H as (Hext & Hle & Hid & Hmin). split_and!; [done|by apply arena_ext_cap|done|].
  intros Hlt. apply inv_room; [apply Hext|done|]. intros c Hc. apply Hmin; [|done].
  destruct (N.le_gt_cases (nchunks a) c) as [?|Hgt]; [done|]. exfalso.
  assert (cfirst c <= cfirst (nchunks a)) by (apply cfirst_mono; lia). rewrite (ai_cap _ Hinv) in Hlt. lia.
Qed.

Lemma reserve_room_rep e n a l x a' : arena_rep a l -> arena_exec e (AReserve n) a = (Ret x, a') ->
  (e_chk e = true \/ N.of_nat (length l) + n < 2 ^ 64) ->
  N.of_nat (length l) + n <= arena_capacity a' /\ arena_capacity a <= arena_capacity a' /\
  (N.of_nat (length l) + n <= arena_capacity a -> a' = a) /\
  (arena_capacity a < N.of_nat (length l) + n -> least_room (N.of_nat (length l) + n) (arena_capacity a')).
Proof.
  intros Hrep Hex Hno. rewrite <- (arena_rep_len _ _ Hrep) in *. cbn [arena_exec] in Hex. unfold sbind in Hex.
  destruct (arena_reserve e n a) as [[[]|pa| | |] a1] eqn:Hr; try done. injection Hex as <- <-.
  exact (arena_reserve_least e n a (rp_inv _ _ Hrep) a1 Hr Hno).
Qed.

Lemma arena_shrink_least e a : arena_inv a -> exists a', arena_shrink_to_fit e a = (Ret tt, a') /\
  least_room (a_len a) (arena_capacity a') /\ arena_capacity a' <= arena_capacity a /\ a_next a' = a_next a.
Proof.
  intros Hinv. pose proof (arena_shrink_spec e a Hinv) as H. unfold wp in H.
  destruct (arena_shrink_to_fit e a) as [[[]|pa| | |] a1]; try done. destruct H as [Hs Hmin]. exists a1.
  assert (Hle : nchunks a1 <= nchunks a).
  { destruct (as_chunks _ _ Hs) as [k Hk]. unfold nchunks. rewrite Hk, app_length. lia. }
  split_and!; [done| | |apply Hs].
  - apply inv_room; [apply Hs| |].
    + rewrite <- (as_len _ _ Hs). apply Hs.
    + intros c Hc. destruct (N.le_gt_cases c (nchunks a)) as [?|?]; [by apply Hmin|lia].
  - unfold arena_capacity. rewrite (ai_cap _ (as_inv _ _ Hs)), (ai_cap _ Hinv). by apply cfirst_mono.
Qed.

Lemma shrink_room_rep e a l r a' : arena_rep a l -> arena_exec e AShrink a = (r, a') ->
  r = Ret AUnit /\ least_room (N.of_nat (length l)) (arena_capacity a') /\ arena_capacity a' <= arena_capacity a /\
  a_next a' = a_next a.
Proof.
  intros Hrep Hex. rewrite <- (arena_rep_len _ _ Hrep). cbn [arena_exec] in Hex. unfold sbind in Hex.
  destruct (arena_shrink_least e a (rp_inv _ _ Hrep)) as (a1 & H1 & H2 & H3 & H4).
  rewrite H1 in Hex. injection Hex as <- <-. done.
Qed.

Lemma iter_mut_calls_room e : forall ds r a y a', arena_iter_mut_calls e ds r a = (y, a') ->
  a_cap a' = a_cap a /\ a_next a' = a_next a.
Proof.
  induction ds as [|[d w] ds IH]; intros r a y a' Hex; cbn [arena_iter_mut_calls] in Hex; [by injection Hex as <- <-|].
  unfold sbind at 1, sget in Hex. destruct (end_ptr e a d r) as [x r'].
  unfold sbind at 1, slift in Hex. destruct x as [x|p| |u|]; [|by injection Hex as <- <-..].
  unfold sbind at 1 in Hex.
  assert (Hset : forall a1 r1, (match x, w with Some (p, _), Some w => arena_set p w | _, _ => sret tt end) a = (r1, a1) ->
     a_cap a1 = a_cap a /\ a_next a1 = a_next a).
  { intros a1 r1. destruct x as [[p z]|], w as [w|]; try (intros [= <- <-]; done).
    unfold arena_set. destruct (arena_get a p); try (intros [= <- <-]; done).
    unfold arena_poke. destruct (a_heap a !! p.1); [destruct (_ <? _)|]; intros [= <- <-]; done. }
  destruct ((match x, w with Some (p, _), Some w => arena_set p w | _, _ => sret tt end) a) as [r1 a1].
  destruct (Hset _ _ eq_refl) as [H2 H3]. destruct r1; [|by injection Hex as <- <-..].
  unfold sbind in Hex. destruct (arena_iter_mut_calls e ds r' a1) as [z a2] eqn:H4.
  destruct (IH _ _ _ _ H4) as [H5 H6]. destruct z; injection Hex as <- <-; split; congruence.
Qed.

Lemma drop_cell_next pn p a : a_next (drop_cell pn p a).2 = a_next a.
Proof.
  unfold drop_cell. destruct (arena_get a p); [|done..]. destruct (a_heap a !! p.1); [|done]. by destruct (pn _).
Qed.
Lemma clear_items_next e pn c cl fuel : forall i d a, a_next (clear_items e pn fuel c cl i d a).2 = a_next a.
Proof.
  induction fuel as [|fuel IH]; intros i d a; cbn [clear_items]; [done|].
  destruct (i <? cl); [|done]. unfold sbind at 1, sget. destruct (d =? a_len a); [done|].
  unfold sbind at 1. pose proof (drop_cell_next pn (c, i) a) as H. destruct (drop_cell pn (c, i) a) as [[[]|p| |u|] a1]; try done.
  unfold sbind at 1, slift. destruct (uadd _ d 1); [|done..]. by rewrite IH.
Qed.
Lemma clear_chunks_next e pn : forall cs j d a, a_next (clear_chunks e pn j cs d a).2 = a_next a.
Proof.
  induction cs as [|c cs IH]; intros j d a; cbn [clear_chunks]; [done|].
  unfold sbind at 1, slift. destruct (chunk_len e j) as [cl|p| |u|]; try done.
  unfold sbind at 1, sget. destruct (a_heap a !! c); [|done]. destruct (_ <? cl); [done|].
  unfold sbind at 1. match goal with |- context [clear_items ?e ?pn ?f ?c ?cl ?i ?d a] => pose proof (clear_items_next e pn c cl f i d a) as H;
    destruct (clear_items e pn f c cl i d a) as [[[d' []]|p| |u|] a1] end; try done.
  by rewrite IH.
Qed.
Lemma arena_clear_next e nd pn a : a_next (arena_clear e nd pn a).2 = a_next a.
Proof.
  unfold arena_clear. unfold sbind at 1, sget. destruct (negb nd || arena_is_empty a); [done|].
  unfold sbind at 1. pose proof (clear_chunks_next e pn (a_chunks a) 0 0 a) as H.
  destruct (clear_chunks e pn 0 (a_chunks a) 0 a) as [[d|p| |u|] a1]; try done.
  unfold sbind, sget, slift. by destruct (dassert _ _).
Qed.

Lemma others_room_rep e c a l r a' : arena_rep a l -> arena_legal l c -> arena_keeps_room c -> arena_exec e c a = (r, a') ->
  arena_capacity a' = arena_capacity a /\ a_next a' = a_next a.
Proof.
  intros Hrep Hleg Hk Hex.
  destruct c as [x|p|p x|n| |pn| | | |ds|ds]; cbn [arena_exec arena_legal arena_keeps_room] in *; try done;
    unfold sbind, sget, slift, sret in Hex; try (injection Hex as <- <-; done).
  - destruct (arena_get a p); injection Hex as <- <-; done.
  - rewrite (arena_set_rep a l p x Hrep Hleg) in Hex. injection Hex as <- <-.
    unfold arena_capacity. by destruct (put_cell_fields p x a) as (-> & _ & _ & -> & _).
  - destruct (arena_clear_rep e (e_nd e) pn a l Hrep Hleg) as (a1 & Hc & _ & H1 & H2 & _). rewrite Hc in Hex. injection Hex as <- <-.
    split; [done|]. pose proof (arena_clear_next e (e_nd e) pn a) as Hn. by rewrite Hc in Hn.
  - destruct (arena_iter_calls _ _ _ _); injection Hex as <- <-; done.
  - destruct (arena_iter_mut_calls e ds (iter_new a) a) as [z a1] eqn:H. apply iter_mut_calls_room in H.
    destruct z; injection Hex as <- <-; done.
Qed.

End arena.

(** ** The slab *)

Section slab.
Context {T : Type}.
Implicit Types s : slab T.
Implicit Types L : gmap Ptr T.

Lemma slab_exec_free e c s L fl r s' : slab_rep s L fl -> slab_legal L c -> slab_exec e c s = (r, s') -> process_on r ->
  slab_rep s' (slab_after L c r) (free_after fl c r).
Proof.
  intros Hrep Hleg Hex Hon.
  destruct c as [x|p|p|p f|n| |pn| | |]; cbn [slab_exec slab_legal] in *.
  - pose proof (slab_push_spec e s L fl x Hrep) as H. unfold wp in H. unfold sbind in Hex.
    destruct (slab_push e x s) as [[p|pa| | |] s1]; try done; injection Hex as <- <-; try done; by destruct H as (_ & Hr & _).
  - destruct Hleg as [x Hx]. pose proof (slab_remove_spec e s L fl p x (fun _ _ => False) Hrep Hx) as H. unfold wp in H. unfold sbind in Hex.
    destruct (slab_remove e p s) as [[y|pa| | |] s1]; try done; injection Hex as <- <-; try done. by destruct H as (_ & Hr & _).
  - unfold sbind, sget, slift, sret in Hex. destruct (slab_get s p); injection Hex as <- <-; done.
  - destruct Hleg as [x Hx]. pose proof (slab_update_spec s L fl p x f (fun _ _ => False) Hrep Hx) as H. unfold wp in H. unfold sbind in Hex.
    destruct (slab_update p f s) as [[y|pa| | |] s1]; try done; injection Hex as <- <-; try done.
    destruct H as (-> & Hr & _). cbn [slab_after free_after]. replace (alter f p L) with (<[p := f x]> L); [done|].
    apply fin_maps.map_eq. intros q. destruct (decide (q = p)) as [->|Hne].
    + by rewrite lookup_insert, lookup_alter, Hx.
    + by rewrite lookup_insert_ne, lookup_alter_ne.
  - unfold sbind in Hex.
    assert (Hall : forall y s1, slab_reserve e n s = (y, s1) -> match y with Ret _ | Panic _ => slab_rep s1 L fl | _ => True end).
    { assert (Hgrow : forall c y s1, (let '(r, t') := grow_loop e GROW_FUEL c (s_items s) in (r, set_items t' s)) = (y, s1) ->
        match y with Ret _ | Panic _ => slab_rep s1 L fl | _ => True end).
      { intros c y s1. pose proof (grow_loop_spec e GROW_FUEL c (s_items s) (sr_inv _ _ _ Hrep) (grow_fuel_enough _)) as H.
        unfold wp in H. destruct (grow_loop e GROW_FUEL c (s_items s)) as [z a1]. intros [= <- <-].
        destruct z; try done; by apply slab_rep_ext, H. }
      intros y s1. unfold slab_reserve, on_items, zoom, arena_reserve, sbind, sget, slift, uadd.
      destruct (arena_len (s_items s) + n <? USIZE); [apply Hgrow|].
      destruct (e_chk e); [|apply Hgrow]. intros [= <- <-]. by destruct s. }
    destruct (slab_reserve e n s) as [y s1]. specialize (Hall _ _ eq_refl). destruct y; injection Hex as <- <-; done.
  - pose proof (slab_shrink_spec e s L fl Hrep) as H. unfold wp in H. unfold sbind in Hex.
    destruct (slab_shrink_to_fit e s) as [[[]|pa| | |] s1]; try done; injection Hex as <- <-; try done. by destruct H as (Hr & _).
  - destruct (slab_clear_spec e pn s L fl Hrep Hleg) as (drops & Hc & Hd). unfold sbind in Hex. rewrite Hc in Hex. injection Hex as <- <-.
    apply slab_cleared_rep, Hrep.
  - unfold sbind, sget, slift, sret in Hex. destruct (slab_len e s); injection Hex as <- <-; done.
  - unfold sbind, sget, slift, sret in Hex. destruct (slab_is_empty e s); injection Hex as <- <-; done.
  - unfold sbind, sget, sret in Hex. by injection Hex as <- <-.
Qed.

Lemma peak_step e c s L fl r s' : slab_rep s L fl -> slab_legal L c -> slab_exec e c s = (r, s') -> process_on r ->
  peak_after (size L + length fl) L c r = (size (slab_after L c r) + length (free_after fl c r))%nat.
Proof.
  intros Hrep Hleg Hex Hon. pose proof (slab_exec_spec e c s L (ex_intro _ fl Hrep) Hleg) as H. rewrite Hex in H. destruct H as [Hans _].
  destruct c as [x|p|p|p f|n| |pn| | |], r as [y|pa| |u|]; try done; cbn [peak_after slab_after free_after slab_answers slab_legal] in *; try lia.
  - destruct Hans as [(p & [= ->] & Hp)|Hn]; [|by destruct Hn as [?|[?|?]]].
    pose proof (slab_push_spec e s L fl x Hrep) as H. rewrite map_size_insert, Hp. cbn [id].
    destruct fl as [|q fl]; cbn [length tail]; lia.
  - destruct Hleg as [z Hz]. rewrite map_size_delete, Hz. cbn [length].
    assert (size L <> 0)%nat; [|unfold id; lia]. intros Hs. apply map_size_empty_inv in Hs. subst L. by rewrite lookup_empty in Hz.
  - assert (size (alter f p L) = size L) as ->; [|lia]. by rewrite <- !size_dom, dom_alter_L.
Qed.

Lemma slab_run_free e : forall cs s L fl rs s', slab_rep s L fl -> slab_run e cs s = (rs, s') ->
  slab_contract L cs rs -> Forall process_on rs ->
  slab_rep s' (slab_contents L cs rs) (slab_free fl cs rs) /\
  slab_peak (size L + length fl) L cs rs = (size (slab_contents L cs rs) + length (slab_free fl cs rs))%nat.
Proof.
  induction cs as [|c cs IH]; intros s L fl rs s' Hrep Hrun Hct Hall; cbn [slab_run] in Hrun.
  { by injection Hrun as <- <-. }
  assert (Hleg : slab_legal L c) by (destruct rs; [exact Hct|apply Hct]).
  destruct (slab_exec e c s) as [r s1] eqn:Hex.
  assert (exists rs1, rs = r :: rs1 /\ process_on r /\ slab_run e cs s1 = (rs1, s')) as (rs1 & -> & Hon & Hrun1).
  { destruct r; try (injection Hrun as <- <-; by apply Forall_cons in Hall as [[] _]);
      destruct (slab_run e cs s1) as [rs1 s2]; injection Hrun as <- <-; by eexists. }
  apply Forall_cons in Hall as [_ Hall]. destruct Hct as [_ Hct].
  pose proof (slab_exec_free e c s L fl r s1 Hrep Hleg Hex Hon) as Hrep1.
  pose proof (peak_step e c s L fl r s1 Hrep Hleg Hex Hon) as Hpk.
  cbn [slab_contents slab_free slab_peak]. rewrite Hpk. by eapply IH.
Qed.

Lemma slab_free_final e n cs rs s : slab_reached e n cs rs s -> slab_contract ∅ cs rs -> Forall process_on rs ->
  slab_rep s (slab_contents ∅ cs rs) (slab_free [] cs rs) /\
  slab_peak 0 ∅ cs rs = (size (slab_contents ∅ cs rs) + length (slab_free [] cs rs))%nat.
Proof.
  intros (s0 & Hb & Hrun) Hct Hall.
  assert (slab_rep s0 ∅ []) as Hrep.
  { destruct n as [n|]; cbn [slab_begin] in Hb.
    - pose proof (slab_with_capacity_spec (T:=T) e n) as H. rewrite Hb in H. apply H.
    - injection Hb as <-. apply slab_new_rep. }
  pose proof (slab_run_free e cs s0 ∅ [] rs s Hrep Hrun Hct Hall) as H. by rewrite map_size_empty in H.
Qed.

Lemma push_room e x s L fl r s' : slab_rep s L fl -> slab_exec e (SPush x) s = (r, s') ->
  match fl with
  | p :: _ => r = Ret (SlabPtr p) /\ slab_capacity s' = slab_capacity s /\ a_next (s_items s') = a_next (s_items s)
  | [] =>
    (N.of_nat (size L) < slab_capacity s ->
       (exists p, r = Ret (SlabPtr p)) /\ slab_capacity s' = slab_capacity s /\ a_next (s_items s') = a_next (s_items s)) /\
    (N.of_nat (size L) = slab_capacity s -> forall y, r = Ret y ->
       slab_capacity s' = 2 * slab_capacity s + 8 /\ a_next (s_items s') = a_next (s_items s) + 1) /\
    ((forall y, r <> Ret y) -> slab_capacity s' = slab_capacity s)
  end.
Proof.
  intros Hrep Hex. pose proof (slab_rep_count _ _ _ Hrep) as Hcount. pose proof (sr_inv _ _ _ Hrep) as Hinv.
  pose proof (ai_len _ Hinv) as Hlen. unfold slab_capacity, arena_capacity.
  destruct fl as [|p fl].
  - cbn [length] in Hcount. assert (N.of_nat (size L) = a_len (s_items s)) as -> by lia.
    cbn [slab_exec] in Hex. unfold sbind at 1, slab_push, sget in Hex. unfold sbind in Hex.
    rewrite (sr_chain _ _ _ Hrep) in Hex. unfold on_items, zoom in Hex.
    pose proof (arena_alloc_spec e (EVal x) (s_items s) Hinv) as H. unfold wp in H.
    destruct (arena_alloc e (EVal x) (s_items s)) as [[p|pa| | |] a1]; try done; injection Hex as <- <-; cbn [set_items s_items].
    + destruct H as (a2 & Ha2 & _ & Hlt & -> & ->). destruct (put_cell_fields (slotp (a_chunks a2) (a_len a2)) (EVal x) a2) as (Hf1 & Hf2 & Hf3 & Hf4 & Hf5).
      cbn [a_cap a_next set_alen]. rewrite Hf4, Hf1. destruct Ha2 as [[-> Hl]|(-> & Hl & Hn)].
      * split_and!; [by eauto|intros; lia|intros Hy; by edestruct Hy].
      * split_and!; [intros; lia| |intros Hy; by edestruct Hy].
        intros _ y _. cbn [pushed_chunk a_cap a_next]. split; [|done]. rewrite (clen_cap _ Hinv). lia.
    + destruct H as (_ & [Hs _] & Hl). split_and!; [intros; lia|done|]. intros _. by rewrite Hs.
    + destruct H as (_ & [Hs _] & Hl). split_and!; [intros; lia|done|]. intros _. by rewrite Hs.
  - pose proof (slab_push_spec e s L (p :: fl) x Hrep) as H. unfold wp in H. cbn [slab_exec] in Hex. unfold sbind in Hex.
    cbn [length] in Hcount.
    destruct (slab_push e x s) as [[q|pa| | |] s1]; try done; injection Hex as <- <-.
    + destruct H as (_ & _ & _ & [?|[= ->]] & Hroom & _); [done|]. destruct Hroom as (_ & ? & ?); [lia|]. done.
    + by destruct H as (_ & _ & _ & ? & _).
    + by destruct H as (_ & _ & _ & ? & _).
Qed.

Lemma slab_reserve_least e n s L fl x s' : slab_rep s L fl -> slab_exec e (SReserve n) s = (Ret x, s') ->
  (e_chk e = true \/ N.of_nat (size L + length fl) + n < 2 ^ 64) ->
  N.of_nat (size L + length fl) + n <= slab_capacity s' /\ slab_capacity s <= slab_capacity s' /\
  (N.of_nat (size L + length fl) + n <= slab_capacity s -> s' = s) /\
  (slab_capacity s < N.of_nat (size L + length fl) + n -> least_room (N.of_nat (size L + length fl) + n) (slab_capacity s')).
Proof.
  intros Hrep Hex Hno. pose proof (slab_rep_count _ _ _ Hrep) as Hcount.
  assert (N.of_nat (size L + length fl) = a_len (s_items s)) as Hl by lia. rewrite Hl in *.
  cbn [slab_exec] in Hex. unfold sbind, slab_reserve, on_items, zoom in Hex.
  destruct (arena_reserve e n (s_items s)) as [[[]|pa| | |] a1] eqn:Hr; try done. injection Hex as <- <-.
  destruct (arena_reserve_least e n (s_items s) (sr_inv _ _ _ Hrep) a1 Hr Hno) as (H1 & H2 & H3 & H4).
  split_and!; try done. intros Hle. rewrite (H3 Hle). by destruct s.
Qed.

Lemma slab_shrink_least e s L fl r s' : slab_rep s L fl -> slab_exec e SShrink s = (r, s') ->
  r = Ret SlabUnit /\ least_room (N.of_nat (size L + length fl)) (slab_capacity s') /\ slab_capacity s' <= slab_capacity s /\
  a_next (s_items s') = a_next (s_items s).
Proof.
  intros Hrep Hex. pose proof (slab_rep_count _ _ _ Hrep) as Hcount.
  assert (N.of_nat (size L + length fl) = a_len (s_items s)) as Hl by lia. rewrite Hl in *.
  cbn [slab_exec] in Hex. unfold sbind, slab_shrink_to_fit, on_items, zoom in Hex.
  destruct (arena_shrink_least e (s_items s) (sr_inv _ _ _ Hrep)) as (a1 & H1 & H2 & H3 & H4).
  rewrite H1 in Hex. injection Hex as <- <-. done.
Qed.

Lemma slab_others_room e c s L fl r s' : slab_rep s L fl -> slab_legal L c -> slab_keeps_room c -> slab_exec e c s = (r, s') ->
  slab_capacity s' = slab_capacity s /\ a_next (s_items s') = a_next (s_items s).
Proof.
  intros Hrep Hleg Hk Hex. unfold slab_capacity, arena_capacity.
  destruct c as [x|p|p|p f|n| |pn| | |]; cbn [slab_exec slab_legal slab_keeps_room] in *; try done.
  - destruct Hleg as [x Hx]. pose proof (slab_remove_spec e s L fl p x (fun _ _ => False) Hrep Hx) as H. unfold wp in H. unfold sbind in Hex.
    destruct (slab_remove e p s) as [[y|pa| | |] s1]; try done; injection Hex as <- <-; try done. by destruct H as (_ & _ & (_ & ? & ?) & _).
  - unfold sbind, sget, slift, sret in Hex. destruct (slab_get s p); injection Hex as <- <-; done.
  - destruct Hleg as [x Hx]. pose proof (slab_update_spec s L fl p x f (fun _ _ => False) Hrep Hx) as H. unfold wp in H. unfold sbind in Hex.
    destruct (slab_update p f s) as [[y|pa| | |] s1]; try done; injection Hex as <- <-; try done. by destruct H as (_ & _ & (_ & ? & ?) & _).
  - destruct (slab_clear_spec e pn s L fl Hrep Hleg) as (drops & Hc & Hd). unfold sbind in Hex. rewrite Hc in Hex. by injection Hex as <- <-.
  - unfold sbind, sget, slift, sret in Hex. destruct (slab_len e s); injection Hex as <- <-; done.
  - unfold sbind, sget, slift, sret in Hex. destruct (slab_is_empty e s); injection Hex as <- <-; done.
  - unfold sbind, sget, sret in Hex. by injection Hex as <- <-.
Qed.

End slab.

(** ** On histories *)

Section histories.
Context {T : Type}.

Lemma arena_begin_room e n (a : arena T) : arena_begin e (Some n) = (Ret tt, a) ->
  least_room n (arena_capacity a) /\ (n = 0 -> a = arena_new).
Proof.
  intros Hb. cbn [arena_begin] in Hb. pose proof (arena_with_capacity_spec (T:=T) e n) as H. rewrite Hb in H.
  destruct H as (Hinv & _ & Hn & _ & Hz & Hmin). split; [by apply inv_room|done].
Qed.

Lemma arena_alloc_room e n cs rs (a : arena T) x r a' :
  arena_reached e n cs rs a -> arena_contract [] cs rs -> Forall process_on rs -> arena_exec e (AAlloc x) a = (r, a') ->
  let len := N.of_nat (length (arena_contents [] cs rs)) in
  len <= arena_capacity a /\
  (len < arena_capacity a -> (exists p, r = Ret (APtr p)) /\ arena_capacity a' = arena_capacity a /\ a_next a' = a_next a) /\
  (len = arena_capacity a -> forall y, r = Ret y -> arena_capacity a' = 2 * arena_capacity a + 8 /\ a_next a' = a_next a + 1) /\
  ((forall y, r <> Ret y) -> arena_capacity a' = arena_capacity a).
Proof.
  intros H1 H2 H3 Hex. destruct (arena_final _ _ _ _ _ H1 H2 H3) as [Hrep _]. split; [|by eapply alloc_room].
  rewrite <- (arena_rep_len _ _ Hrep). apply (ai_len _ (rp_inv _ _ Hrep)).
Qed.

Lemma arena_reserve_room e n cs rs (a : arena T) k x a' :
  arena_reached e n cs rs a -> arena_contract [] cs rs -> Forall process_on rs -> arena_exec e (AReserve k) a = (Ret x, a') ->
  let want := N.of_nat (length (arena_contents [] cs rs)) + k in
  (e_chk e = true \/ want < 2 ^ 64) ->
  want <= arena_capacity a' /\ arena_capacity a <= arena_capacity a' /\ (want <= arena_capacity a -> a' = a) /\
  (arena_capacity a < want -> least_room want (arena_capacity a')).
Proof. intros H1 H2 H3 Hex. destruct (arena_final _ _ _ _ _ H1 H2 H3) as [Hrep _]. by eapply reserve_room_rep. Qed.

Lemma arena_shrink_room e n cs rs (a : arena T) r a' :
  arena_reached e n cs rs a -> arena_contract [] cs rs -> Forall process_on rs -> arena_exec e AShrink a = (r, a') ->
  r = Ret AUnit /\ least_room (N.of_nat (length (arena_contents [] cs rs))) (arena_capacity a') /\
  arena_capacity a' <= arena_capacity a /\ a_next a' = a_next a.
Proof. intros H1 H2 H3 Hex. destruct (arena_final _ _ _ _ _ H1 H2 H3) as [Hrep _]. by eapply shrink_room_rep. Qed.

Lemma arena_others_room e n cs rs (a : arena T) c r a' :
  arena_reached e n cs rs a -> arena_contract [] cs rs -> Forall process_on rs -> arena_legal (arena_contents [] cs rs) c ->
  arena_keeps_room c -> arena_exec e c a = (r, a') ->
  arena_capacity a' = arena_capacity a /\ a_next a' = a_next a.
Proof. intros H1 H2 H3 Hl Hk Hex. destruct (arena_final _ _ _ _ _ H1 H2 H3) as [Hrep _]. by eapply others_room_rep. Qed.

Lemma arena_memory e n cs rs (a : arena T) :
  arena_reached e n cs rs a -> arena_contract [] cs rs -> Forall process_on rs -> footprint (a_heap a) = arena_capacity a.
Proof. intros H1 H2 H3. destruct (arena_final _ _ _ _ _ H1 H2 H3) as [Hrep _]. by apply inv_footprint, rp_inv with (1 := Hrep). Qed.

Lemma slab_begin_room e n (s : slab T) : slab_begin e (Some n) = (Ret tt, s) ->
  least_room n (slab_capacity s) /\ (n = 0 -> s = slab_new).
Proof.
  intros Hb. cbn [slab_begin] in Hb. pose proof (slab_with_capacity_spec (T:=T) e n) as H. rewrite Hb in H.
  destruct H as (Hrep & Hn & _ & _ & Hz & Hmin). split; [by apply inv_room, Hmin; [apply Hrep|]|done].
Qed.

Lemma slab_slots e n cs rs (s : slab T) :
  slab_reached e n cs rs s -> slab_contract ∅ cs rs -> Forall process_on rs ->
  N.of_nat (slab_peak 0 ∅ cs rs) = arena_len (s_items s) /\
  slab_peak 0 ∅ cs rs = (size (slab_contents ∅ cs rs) + length (slab_free [] cs rs))%nat.
Proof.
  intros H1 H2 H3. destruct (slab_free_final _ _ _ _ _ H1 H2 H3) as [Hrep Hpk]. split; [|done].
  pose proof (slab_rep_count _ _ _ Hrep). unfold arena_len. lia.
Qed.

Lemma slab_push_room e n cs rs (s : slab T) x r s' :
  slab_reached e n cs rs s -> slab_contract ∅ cs rs -> Forall process_on rs -> slab_exec e (SPush x) s = (r, s') ->
  match slab_free [] cs rs with
  | p :: _ => r = Ret (SlabPtr p) /\ slab_capacity s' = slab_capacity s /\ a_next (s_items s') = a_next (s_items s)
  | [] =>
    let len := N.of_nat (size (slab_contents ∅ cs rs)) in
    len <= slab_capacity s /\
    (len < slab_capacity s ->
       (exists p, r = Ret (SlabPtr p)) /\ slab_capacity s' = slab_capacity s /\ a_next (s_items s') = a_next (s_items s)) /\
    (len = slab_capacity s -> forall y, r = Ret y ->
       slab_capacity s' = 2 * slab_capacity s + 8 /\ a_next (s_items s') = a_next (s_items s) + 1) /\
    ((forall y, r <> Ret y) -> slab_capacity s' = slab_capacity s)
  end.
Proof.
  intros H1 H2 H3 Hex. destruct (slab_free_final _ _ _ _ _ H1 H2 H3) as [Hrep _].
  pose proof (push_room e x s _ _ r s' Hrep Hex) as H. pose proof (slab_rep_count _ _ _ Hrep). pose proof (ai_len _ (sr_inv _ _ _ Hrep)).
  destruct (slab_free [] cs rs) as [|p fl]; [|done]. split; [|done]. cbn [length] in *. unfold slab_capacity, arena_capacity. lia.
Qed.

Lemma slab_reserve_room e n cs rs (s : slab T) k x s' :
  slab_reached e n cs rs s -> slab_contract ∅ cs rs -> Forall process_on rs -> slab_exec e (SReserve k) s = (Ret x, s') ->
  let want := N.of_nat (slab_peak 0 ∅ cs rs) + k in
  (e_chk e = true \/ want < 2 ^ 64) ->
  want <= slab_capacity s' /\ slab_capacity s <= slab_capacity s' /\ (want <= slab_capacity s -> s' = s) /\
  (slab_capacity s < want -> least_room want (slab_capacity s')).
Proof.
  intros H1 H2 H3 Hex. destruct (slab_free_final _ _ _ _ _ H1 H2 H3) as [Hrep ->]. by eapply slab_reserve_least.
Qed.

Lemma slab_shrink_room e n cs rs (s : slab T) r s' :
  slab_reached e n cs rs s -> slab_contract ∅ cs rs -> Forall process_on rs -> slab_exec e SShrink s = (r, s') ->
  r = Ret SlabUnit /\ least_room (N.of_nat (slab_peak 0 ∅ cs rs)) (slab_capacity s') /\
  slab_capacity s' <= slab_capacity s /\ a_next (s_items s') = a_next (s_items s).
Proof.
  intros H1 H2 H3 Hex. destruct (slab_free_final _ _ _ _ _ H1 H2 H3) as [Hrep ->]. by eapply slab_shrink_least.
Qed.

Lemma slab_others_room_run e n cs rs (s : slab T) c r s' :
  slab_reached e n cs rs s -> slab_contract ∅ cs rs -> Forall process_on rs -> slab_legal (slab_contents ∅ cs rs) c ->
  slab_keeps_room c -> slab_exec e c s = (r, s') ->
  slab_capacity s' = slab_capacity s /\ a_next (s_items s') = a_next (s_items s).
Proof.
  intros H1 H2 H3 Hl Hk Hex. destruct (slab_free_final _ _ _ _ _ H1 H2 H3) as [Hrep _]. by eapply slab_others_room.
Qed.

Lemma slab_memory e n cs rs (s : slab T) :
  slab_reached e n cs rs s -> slab_contract ∅ cs rs -> Forall process_on rs ->
  footprint (a_heap (s_items s)) = slab_capacity s.
Proof.
  intros H1 H2 H3. destruct (slab_free_final _ _ _ _ _ H1 H2 H3) as [Hrep _]. by apply inv_footprint, Hrep.
Qed.

End histories.

Lemma map_memory {K V} e (m : bstmap K V) : reachable e m -> footprint (blocks m) = map_capacity m.
Proof.
  intros Hreach. destruct (reachable_rep e m Hreach) as (t & fl & Hrep). apply (inv_footprint _ (rep_inv _ _ _ Hrep)).
Qed.
