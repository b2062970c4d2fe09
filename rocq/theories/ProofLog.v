(** * Sorted insertion gives a list: searches are not logarithmic *)

From Verif Require Export ProofCost ProofLedger.

Section generous.
Local Open Scope N_scope.

(** The allocator grants every request. *)
Lemma push_chunk_granted {T} e (a : arena T) : arena_inv a -> (forall i n, e_alloc e i n = Some n) -> e_size e <> 0 ->
  clen (nchunks a) * e_size e <= ISIZE_MAX -> push_chunk e a = (Ret tt, pushed_chunk a).
Proof.
  intros Hinv Ha He Hs. pose proof (push_chunk_spec e a Hinv) as Hwp. unfold wp in Hwp.
  destruct (push_chunk e a) as [r a'] eqn:Heq.
  assert (Hr : exists x, r = Ret x); [|destruct Hr as [[] ->]; by destruct Hwp as [-> _]].
  pose proof (ai_n a Hinv) as Hn.
  unfold push_chunk in Heq. unfold sbind at 1, sget in Heq. unfold sbind at 1, slift in Heq.
  change (N.of_nat (length (a_chunks a))) with (nchunks a) in Heq.
  rewrite N.mod_small in Heq by (change U32 with 4294967296; lia). rewrite chunk_len_ret in Heq by lia.
  unfold sbind at 1 in Heq. unfold vec_with_capacity in Heq.
  destruct (N.eqb_spec (e_size e) 0) as [?|_]; [done|].
  destruct (N.ltb_spec ISIZE_MAX (clen (nchunks a) * e_size e)) as [?|_]; [lia|]. rewrite Ha in Heq.
  unfold sbind at 1, smod in Heq. rewrite N.eqb_refl in Heq. cbn [negb] in Heq. unfold sbind in Heq.
  unfold uadd in Heq. destruct (_ <? USIZE); [|destruct (e_chk e)]; injection Heq as <- <-; try by eexists.
  destruct Hwp as [[Hw|[Hw|Hw]] Hb]; done.
Qed.

Lemma grow_loop_granted {T} e capacity fuel : (forall i n, e_alloc e i n = Some n) -> e_size e <> 0 ->
  (capacity + 8) * e_size e <= ISIZE_MAX -> forall a : arena T, arena_inv a -> (N.to_nat (60 - nchunks a) < fuel)%nat ->
  exists a', grow_loop e fuel capacity a = (Ret tt, a').
Proof.
  intros Ha He Hs. induction fuel as [|fuel IH]; intros a Hinv Hf; [lia|]. cbn [grow_loop].
  unfold sbind at 1, sget. unfold arena_capacity. destruct (N.ltb_spec (a_cap a) capacity) as [Hlt|Hge].
  - pose proof (push_chunk_granted e a Hinv Ha He) as Hp. 
    assert (Hcl : clen (nchunks a) <= capacity + 8).
    { pose proof (ai_cap a Hinv) as Hc. unfold cfirst in Hc. unfold clen in *. lia. }
    pose proof (push_chunk_spec e a Hinv) as Hwp. unfold wp in Hwp.
    unfold sbind. rewrite Hp in *; [|nia..]. destruct Hwp as [_ Hn]. apply IH.
    + by apply pushed_chunk_inv.
    + assert (nchunks (pushed_chunk a) = nchunks a + 1) by (unfold nchunks; simpl; rewrite app_length; simpl; lia). lia.
  - by eexists.
Qed.

Lemma with_capacity_granted {K V} e n : (forall i n, e_alloc e i n = Some n) -> e_size e <> 0 ->
  (n + 8) * e_size e <= ISIZE_MAX -> exists m, begin (K := K) (V := V) e (SWithCapacity n) = (Ret tt, m).
Proof.
  intros Ha He Hs. simpl. unfold map_with_capacity, slab_with_capacity, arena_with_capacity.
  destruct (grow_loop_granted (T := entry (inner K V)) e n GROW_FUEL Ha He Hs arena_new) as [a' ->].
  - apply arena_new_inv.
  - vm_compute. lia.
  - by eexists.
Qed.
End generous.

(** ** Inserting in sorted order *)

Section spine.
Context {K V : Type}.
Variable cmp : K -> K -> comparison.

(** A tree without left children. *)
Lemma spine_inorder (items : list (K * V)) : tree_inorder (right_spine items) = items.
Proof. induction items as [|[k v] items IH]; simpl; [done|]. by rewrite IH. Qed.

Lemma spine_height (items : list (K * V)) : height (right_spine items) = length items.
Proof. induction items as [|[k v] items IH]; simpl; [done|]. by rewrite IH. Qed.

Lemma spine_insert k v (items : list (K * V)) : Forall (fun x => cmp k x.1 = Gt) items ->
  tree_insert cmp k v (right_spine items) = right_spine (items ++ [(k, v)]).
Proof. induction 1 as [|[k' v'] items Hk _ IH]; simpl in *; [done|]. by rewrite Hk, IH. Qed.

Hypothesis Hlaw : lawful cmp.

Lemma sorted_spine (items : list (K * V)) : sorted cmp items -> tree_insert_all cmp items tleaf = right_spine items.
Proof.
  intros Hs. unfold tree_insert_all. induction items as [|[k v] items IH] using rev_ind; [done|].
  assert (Hin : sorted cmp items /\ Forall (fun x => cmp k x.1 = Gt) items).
  { clear IH. unfold sorted in *. induction items as [|[k' v'] items IH]; [split; constructor|].
    simpl in Hs. apply StronglySorted_inv in Hs as [Hs Hk]. destruct (IH Hs) as [H1 H2].
    apply Forall_app in Hk as [Hk1 Hk2]. split; [by constructor|]. constructor; [|done].
    apply Forall_cons in Hk2 as [Hk2 _]. simpl in *. rewrite (lw_sym _ Hlaw), Hk2. done. }
  destruct Hin as [H1 H2]. rewrite fold_left_app, (IH H1). simpl. by apply spine_insert.
Qed.

(** Searching for the last entry visits all. *)
Lemma spine_search_cut k (v : V) items (o : oracle K) : Forall (fun x : K * V => forall i, o i x.1 = Some Gt) items -> forall n i,
  n <= length items -> otree_find (first_answers (i + n) o) i (right_spine (items ++ [(k, v)])) = None.
Proof.
  induction 1 as [|[k' v'] items Hk _ IH]; intros n i Hn; simpl in *.
  - assert (n = 0) as -> by lia. unfold first_answers. destruct (Nat.ltb_spec i (i + 0)); [lia|done].
  - destruct n as [|n].
    + unfold first_answers. destruct (Nat.ltb_spec i (i + 0)); [lia|done].
    + assert (Hf : first_answers (i + S n) o i k' = Some Gt).
      { unfold first_answers. destruct (Nat.ltb_spec i (i + S n)); [apply Hk|lia]. }
      rewrite Hf. replace (i + S n) with (S i + n) by lia. apply IH. lia.
Qed.

Lemma sorted_last k (v : V) items : sorted cmp (items ++ [(k, v)]) -> Forall (fun x : K * V => cmp k x.1 = Gt) items.
Proof.
  induction items as [|[k' v'] items IH]; [constructor|]. intros Hs. simpl in Hs. apply StronglySorted_inv in Hs as [Hs Hk].
  apply Forall_app in Hk as [_ Hk]. apply Forall_cons in Hk as [Hk _]. constructor; [|by apply IH].
  simpl in *. by rewrite (lw_sym _ Hlaw), Hk.
Qed.

Lemma sorted_insertion e s items k v os rs (m : bstmap K V) : (s = SNew \/ exists c, s = SWithCapacity c) ->
  sorted cmp (items ++ [(k, v)]) -> legal_inserts cmp os -> reached e s (inserts os (items ++ [(k, v)])) rs m -> returned_all rs ->
  shows m (right_spine (items ++ [(k, v)])) /\ entry_count e m = N.of_nat (S (length items)) /\
  forall n, n <= length items -> (exec e (OGet (first_answers n (fun _ k' => Some (cmp k k')))) m).1 = Panic PCmp.
Proof.
  intros Hst Hs Hos Hre Hall. destruct Hre as (m0 & Hb & Hrun).
  pose proof (begin_rep e s) as H. rewrite Hb in H. destruct H as (t0 & fl0 & Hrep0 & _ & H).
  assert (t0 = Leaf) as ->. { destruct Hst as [->|[c ->]]; by destruct H. }
  destruct (inserts_tree e os (items ++ [(k, v)]) 0 m0 Leaf fl0 rs m Hrep0 Hrun Hall) as (t & fl & Hrep & Ht). simpl in Ht.
  assert (Hsp : erase t = right_spine (items ++ [(k, v)])).
  { rewrite <- (sorted_spine _ Hs). clear -Ht Hos.
    revert Ht. generalize 0, (@tleaf K V), (erase t). generalize (items ++ [(k, v)]) as l.
    induction l as [|[k0 v0] l IH]; intros j a b; simpl; [by intros [= ->]|].
    assert (Hi : forall (u : tree K V) i, match otree_insert (os j k0) i k0 v0 u with
      Some (u', _) => u' = tree_insert cmp k0 v0 u | None => True end).
    { induction u as [|l0 IHl k1 v1 r IHr]; intros i; simpl; [done|]. destruct (Hos j k0 i k1) as [->| ->]; [|done].
      destruct (cmp k0 k1); [done| |].
      - specialize (IHl (S i)). destruct (otree_insert (os j k0) (S i) k0 v0 l0) as [[u' y]|]; simpl; [by rewrite IHl|done].
      - specialize (IHr (S i)). destruct (otree_insert (os j k0) (S i) k0 v0 r) as [[u' y]|]; simpl; [by rewrite IHr|done]. }
    specialize (Hi a 0). destruct (otree_insert (os j k0) 0 k0 v0 a) as [[u' y]|]; [|done]. subst u'. apply IH. }
  pose proof (rep_shows _ _ _ Hrep) as Hsh. rewrite Hsp in Hsh. split_and!; [done| |].
  - rewrite (rep_entry_count _ _ _ _ Hrep), <- erase_size, Hsp, spine_inorder, app_length. simpl. f_equal. lia.
  - intros n Hn. pose proof (spine_search_cut k v items (fun _ k' => Some (cmp k k'))) as Hcut.
    specialize (Hcut ltac:(eapply Forall_impl; [by apply (sorted_last k v)|]; intros x Hx i; simpl; by rewrite Hx) n 0 Hn).
    rewrite <- Hsp in Hcut. simpl in Hcut.
    destruct (exec e (OGet (first_answers n (fun _ k' => Some (cmp k k')))) m) as [r m'] eqn:Hex.
    destruct (exec_otree e _ m t fl r m' Hrep Hex) as (t' & fl' & _ & [Hc|[Hc|Hc]]); try done.
    cbn [otree_call] in Hc. rewrite Hcut in Hc. by injection Hc as <- _.
Qed.

End spine.

(** ** Enough insertions *)

Lemma otree_insert_total {K V} (o : oracle K) (k : K) (v : V) : (forall i k', o i k' <> None) ->
  forall (t : tree K V) i, otree_insert o i k v t <> None.
Proof.
  intros Ho. induction t as [|l IHl k1 v1 r IHr]; intros i; simpl; [done|].
  specialize (Ho i k1). destruct (o i k1) as [[]|]; try done.
  - specialize (IHl (S i)). by destruct (otree_insert o (S i) k v l).
  - specialize (IHr (S i)). by destruct (otree_insert o (S i) k v r).
Qed.

Lemma inserts_return {K V} e os (items : list (K * V)) : (forall j k i k', os j k i k' <> None) -> forall j (m : bstmap K V),
  reachable e m -> (entry_count e m + N.of_nat (length items) <= map_capacity m)%N ->
  exists rs m', run e (imap (fun i kv => OInsert (os (j + i) kv.1) kv.1 kv.2) items) m = (rs, m') /\ returned_all rs.
Proof.
  intros Hos. induction items as [|[k v] items IH]; intros j m Hr Hc.
  - exists [], m. split; [done|constructor].
  - rewrite imap_cons. cbn [run fst snd]. rewrite Nat.add_0_r.
    destruct (exec e (OInsert (os j k) k v) m) as [r m1] eqn:He. simpl in Hc.
    destruct (insert_room e (os j k) k v m r m1 Hr ltac:(lia) He) as ([->|[x ->]] & _ & Hcap & Hn).
    + destruct (reachable_rep e m Hr) as (t & fl & Hrep).
      destruct (exec_otree e _ m t fl _ m1 Hrep He) as (t' & fl' & _ & Hs).
      exfalso. destruct Hs as [Hs|[Hs|[[Hs|[Hs|Hs]] _]]]; try done. simpl in Hs.
      pose proof (otree_insert_total (os j k) k v (Hos j k) (erase t) 0) as Ht.
      by destruct (otree_insert (os j k) 0 k v (erase t)) as [[? ?]|].
    + assert (Hr1 : reachable e m1) by (by eapply reachable_step).
      destruct (IH (S j) m1 Hr1 ltac:(lia)) as (rs & m' & Hrun & Hall). exists (Ret x :: rs), m'.
      assert (Heq : imap ((fun i kv => OInsert (os (j + i) kv.1) kv.1 kv.2) ∘ S) items =
        imap (fun i kv => OInsert (os (S j + i) kv.1) kv.1 kv.2) items).
      { apply imap_ext. intros i [k' v'] _. simpl. by rewrite Nat.add_succ_r. }
      rewrite Heq, Hrun. split; [done|]. constructor; [by eexists|done].
Qed.

(** The numbers below [n], in increasing order. *)
Definition numbers (n : nat) : list (N * N) := (fun i => (N.of_nat i, 0%N)) <$> seq 0 n.

Lemma numbers_sorted n : sorted N.compare (numbers n).
Proof.
  unfold numbers, sorted. generalize 0 as i. induction n as [|n IH]; intros i; simpl; constructor; [apply IH|].
  apply Forall_fmap, Forall_forall. intros j Hj. apply elem_of_seq in Hj. simpl. apply N.compare_lt_iff. lia.
Qed.

Lemma numbers_last n : numbers (S n) = numbers n ++ [(N.of_nat n, 0%N)].
Proof. unfold numbers. rewrite seq_S, fmap_app. done. Qed.

Lemma N_order : lawful N.compare.
Proof.
  split.
  - intros a. apply N.compare_refl.
  - intros a b. apply N.compare_antisym.
  - intros a b c. rewrite !N.compare_lt_iff. apply N.lt_trans.
  - intros a b c. rewrite N.compare_eq_iff. by intros ->.
Qed.

Lemma linear_search e n : (forall i n, e_alloc e i n = Some n) -> e_size e <> 0%N ->
  ((N.of_nat (S n) + 8) * e_size e <= ISIZE_MAX)%N ->
  exists m : bstmap N N, ordered_reachable N.compare e m /\ entry_count e m = N.of_nat (S n) /\
    forall c, c <= n -> (exec e (OGet (first_answers c (fun _ k => Some (N.compare (N.of_nat n) k)))) m).1 = Panic PCmp.
Proof.
  intros Ha He Hs. destruct (with_capacity_granted (K := N) (V := N) e (N.of_nat (S n)) Ha He Hs) as [m0 Hb].
  destruct (with_capacity_room e _ m0 Hb) as (Hlen & _ & (_ & Hroom & _) & _).
  set (os := fun (_ : nat) (k : N) (_ : nat) (k' : N) => Some (N.compare k k')).
  assert (Hr0 : reachable e m0).
  { exists (SWithCapacity (N.of_nat (S n))), [], []. split; [by exists m0|constructor]. }
  destruct (inserts_return e os (numbers (S n)) ltac:(done) 0 m0 Hr0) as (rs & m & Hrun & Hall).
  { unfold entry_count. rewrite Hlen. unfold numbers. rewrite fmap_length, seq_length. lia. }
  assert (Hre : reached e (SWithCapacity (N.of_nat (S n))) (inserts os (numbers (S n))) rs m) by (by exists m0).
  assert (Hleg : legal_inserts N.compare os) by (intros j k i k'; by left).
  exists m. split.
  - exists (SWithCapacity (N.of_nat (S n))), (inserts os (numbers (S n))), rs. split_and!; try done.
    + unfold inserts. apply Forall_lookup. intros i c Hc. apply list_lookup_imap_Some in Hc as (kv & _ & ->). apply Hleg.
    + eapply Forall_impl; [exact Hall|]. by intros r [x ->].
  - pose proof (numbers_sorted (S n)) as Hsort. rewrite numbers_last in Hre, Hsort.
    destruct (sorted_insertion N.compare N_order e _ (numbers n) _ _ os rs m ltac:(right; by eexists) Hsort Hleg Hre Hall)
      as (_ & Hn & Hcut).
    unfold numbers in Hn, Hcut. rewrite fmap_length, seq_length in Hn, Hcut. done.
Qed.

(** For every constant factor there is a map in which a search takes longer than
    logarithmic time. (A 64-bit machine has room for a bounded number of entries
    only, hence the bound on the factor.) *)
Lemma not_logarithmic e c : (forall i n, e_alloc e i n = Some n) -> (0 < e_size e <= 4096)%N -> (c <= 2 ^ 40)%N ->
  exists (m : bstmap N N) q, ordered_reachable N.compare e m /\ (0 < entry_count e m)%N /\
    (exec e (OGet (first_answers (N.to_nat (c * (N.log2 (entry_count e m) + 1))) (fun _ k => Some (N.compare q k)))) m).1
      = Panic PCmp.
Proof.
  intros Ha He Hc. remember (N.to_nat (2 ^ 48 - 1)) as n eqn:Hn.
  assert (Hn' : N.of_nat (S n) = (2 ^ 48)%N).
  { rewrite Nat2N.inj_succ, Hn, N2Nat.id. done. }
  destruct (linear_search e n Ha ltac:(lia)) as (m & Hr & Hcount & Hcut).
  { rewrite Hn'. change ISIZE_MAX with 9223372036854775807%N. change (2 ^ 48)%N with 281474976710656%N. nia. }
  exists m, (N.of_nat n). rewrite Hcount, Hn'. split_and!; [done|done|]. apply Hcut.
  change (N.log2 (2 ^ 48) + 1)%N with 49%N. rewrite Hn.
  change (2 ^ 40)%N with 1099511627776%N in Hc. change (2 ^ 48 - 1)%N with 281474976710655%N. lia.
Qed.
