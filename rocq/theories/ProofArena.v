(** * The arena invariant and the specification of each arena method *)

From Verif Require Export ModelArena ProofBase.
Local Open Scope N_scope.

(** ** Index arithmetic *)

Definition clen (i : N) : N := 8 * 2 ^ i.             (* length of chunk i *)
Definition cfirst (n : N) : N := 8 * (2 ^ n - 1).     (* total length of the first n chunks *)
Definition ci_of (idx : N) : N := N.log2 (idx / 8 + 1).
Definition ii_of (idx : N) : N := idx - cfirst (ci_of idx).

Lemma pow2_pos n : 1 <= 2 ^ n.
Proof. pose proof (N.pow_nonzero 2 n). nl. Qed.

Lemma pow2_mono a b : a <= b -> 2 ^ a <= 2 ^ b.
Proof. intros. apply N.pow_le_mono_r; nl. Qed.

Lemma pow2_S n : 2 ^ (n + 1) = 2 * 2 ^ n.
Proof. rewrite N.add_1_r, N.pow_succ_r'. done. Qed.

Lemma clen_pos i : 8 <= clen i.
Proof. unfold clen. pose proof (pow2_pos i). nl. Qed.

Lemma cfirst_S n : cfirst (n + 1) = cfirst n + clen n.
Proof. unfold cfirst, clen. rewrite pow2_S. pose proof (pow2_pos n). nl. Qed.

Lemma cfirst_0 : cfirst 0 = 0.
Proof. done. Qed.

Lemma cfirst_mono a b : a <= b -> cfirst a <= cfirst b.
Proof. intros. unfold cfirst. pose proof (pow2_mono a b). nl. Qed.

Lemma ci_bounds idx : cfirst (ci_of idx) <= idx < cfirst (ci_of idx + 1).
Proof.
  unfold ci_of, cfirst.
  destruct (N.log2_spec (idx / 8 + 1)) as [H1 H2]; [nl|].
  rewrite <- N.add_1_r in H2. set (c := N.log2 (idx / 8 + 1)) in *.
  pose proof (N.div_mod idx 8 ltac:(done)). pose proof (N.mod_lt idx 8 ltac:(done)). nl.
Qed.

Lemma ci_unique idx n : cfirst n <= idx < cfirst (n + 1) -> ci_of idx = n.
Proof.
  intros [H1 H2]. pose proof (ci_bounds idx) as [H3 H4].
  destruct (N.lt_trichotomy (ci_of idx) n) as [H|[H|H]]; [|done|].
  - pose proof (cfirst_mono (ci_of idx + 1) n). nl.
  - pose proof (cfirst_mono (n + 1) (ci_of idx)). nl.
Qed.

Lemma ii_lt idx : ii_of idx < clen (ci_of idx).
Proof. unfold ii_of. pose proof (ci_bounds idx). rewrite cfirst_S in *. nl. Qed.

Lemma idx_eq idx : idx = cfirst (ci_of idx) + ii_of idx.
Proof. unfold ii_of. pose proof (ci_bounds idx). nl. Qed.

Lemma ci_ii_inj i j : ci_of i = ci_of j -> ii_of i = ii_of j -> i = j.
Proof. intros H1 H2. rewrite (idx_eq i), (idx_eq j). by rewrite H1, H2. Qed.

Lemma ci_of_lt idx n : idx < cfirst n -> ci_of idx < n.
Proof.
  intros H. pose proof (ci_bounds idx). destruct (N.lt_ge_cases (ci_of idx) n) as [|Hge]; [done|].
  pose proof (cfirst_mono n (ci_of idx)). nl.
Qed.

Lemma cfirst_60 : cfirst 60 = 2 ^ 63 - 8.
Proof. done. Qed.

Lemma chunk_len_ret e i : i <= 60 -> chunk_len e i = Ret (clen i).
Proof.
  intros Hi. unfold chunk_len. pose proof (pow2_mono i 60 Hi).
  assert (Hb : 2 ^ 60 * 8 < USIZE) by done. pose proof (pow2_pos i).
  rewrite ushl_ret by nl. cbn [rbind]. unfold MULTIPLIER, clen.
  rewrite umul_ret by nl. f_equal. nl.
Qed.

(** Below the last position, [position_for] overflows nowhere and is the chunk
    arithmetic above. *)
Lemma position_for_ret e idx :
  idx < 2 ^ 64 - 8 -> position_for e idx = Ret (mkChunkPos (ci_of idx) (ii_of idx)).
Proof.
  intros Hidx. unfold position_for, MULTIPLIER.
  assert (Hc : cfirst 61 = 2 ^ 64 - 8) by done.
  assert (Hci : ci_of idx < 61). { apply ci_of_lt. nl. }
  assert (Hd : idx / 8 < 2 ^ 61).
  { apply N.div_lt_upper_bound; [nl|]. change (8 * 2 ^ 61) with (2 ^ 64). nl. }
  rewrite uadd_ret; [|change USIZE with (2 ^ 64); change (2 ^ 61) with 2305843009213693952 in *; nl].
  cbn [rbind]. unfold leading_zeros.
  destruct (N.eqb_spec (idx / 8 + 1) 0) as [|_]; [nl|].
  fold (ci_of idx).
  rewrite u32sub_ret by nl. cbn [rbind].
  rewrite u32sub_ret by nl. cbn [rbind].
  replace (64 - (63 - ci_of idx) - 1) with (ci_of idx) by nl.
  rewrite chunk_len_ret by nl. cbn [rbind].
  pose proof (clen_pos (ci_of idx)).
  rewrite usub_ret by nl. cbn [rbind].
  pose proof (ci_bounds idx) as [Hb _].
  assert (clen (ci_of idx) - 8 = cfirst (ci_of idx)) as Heq.
  { unfold clen, cfirst. pose proof (pow2_pos (ci_of idx)). nl. }
  rewrite Heq. rewrite usub_ret by nl. done.
Qed.

(** ** Slots *)

(** The address of the slot with index [i]. *)
Definition slotp (chunks : list N) (i : N) : Ptr :=
  (default 0 (chunks !! N.to_nat (ci_of i)), ii_of i).

(** The addresses of the first [n] slots. *)
Definition slots (chunks : list N) (n : nat) : list Ptr :=
  slotp chunks <$> (N.of_nat <$> seq 0 n).

Lemma slots_S chunks n : slots chunks (S n) = slots chunks n ++ [slotp chunks (N.of_nat n)].
Proof. unfold slots. by rewrite seq_S, !fmap_app. Qed.

Lemma slots_length chunks n : length (slots chunks n) = n.
Proof. unfold slots. by rewrite !fmap_length, seq_length. Qed.

Lemma slots_lookup chunks n i : (i < n)%nat -> slots chunks n !! i = Some (slotp chunks (N.of_nat i)).
Proof.
  intros. unfold slots. rewrite !list_lookup_fmap. rewrite lookup_seq_lt by done. done.
Qed.

Lemma elem_of_slots chunks n p :
  p ∈ slots chunks n <-> exists i, i < N.of_nat n /\ p = slotp chunks i.
Proof.
  unfold slots. rewrite elem_of_list_fmap. split.
  - intros (i & -> & (j & -> & Hj)%elem_of_list_fmap). apply elem_of_seq in Hj.
    exists (N.of_nat j). split; [nl|done].
  - intros (i & Hi & ->). exists i. split; [done|]. apply elem_of_list_fmap.
    exists (N.to_nat i). split; [nl|]. apply elem_of_seq. nl.
Qed.

(** ** The invariant *)

Definition acell {T} (a : arena T) (p : Ptr) : option T :=
  match a_heap a !! p.1 with
  | None => None
  | Some b => if p.2 <? b_size b then b_cells b !! p.2 else None
  end.

Definition nchunks {T} (a : arena T) : N := N.of_nat (length (a_chunks a)).

Record arena_inv {T} (a : arena T) : Prop := {
  ai_chunk : forall j c, a_chunks a !! j = Some c ->
    exists b, a_heap a !! c = Some b /\ b_size b = clen (N.of_nat j);
  ai_heap : forall c b, a_heap a !! c = Some b -> c ∈ a_chunks a;
  ai_nodup : NoDup (a_chunks a);
  ai_next : forall c, c ∈ a_chunks a -> c < a_next a;
  ai_n : nchunks a <= 60;
  ai_cap : a_cap a = cfirst (nchunks a);
  ai_len : a_len a <= a_cap a;
}.

(** The addresses in use, in allocation order. *)
Definition aslots {T} (a : arena T) : list Ptr := slots (a_chunks a) (N.to_nat (a_len a)).

(** All slots below [len] hold a value. *)
Definition arena_full {T} (a : arena T) : Prop :=
  forall p, p ∈ aslots a -> is_Some (acell a p).

(** States that differ only in the number of attempted allocations. *)
Definition same_but_next {T} (a a' : arena T) : Prop :=
  a' = set_next (a_next a') a /\ a_next a <= a_next a'.

(** How an allocation can fail. *)
Definition alloc_fail (p : option panic_reason) : Prop :=
  p = Some PCapacity \/ p = Some PAssert \/ p = None.

Section arena_proofs.
Context {T : Type}.
Implicit Types a : arena T.

Lemma arena_get_ret a p x : acell a p = Some x <-> arena_get a p = Ret x.
Proof.
  unfold acell, arena_get. destruct (a_heap a !! p.1) as [b|]; [|done].
  destruct (p.2 <? b_size b); [|done]. destruct (b_cells b !! p.2); naive_solver.
Qed.

Lemma same_but_next_refl a : same_but_next a a.
Proof. split; [by destruct a|nl]. Qed.

Lemma same_but_next_inv a a' : same_but_next a a' -> arena_inv a -> arena_inv a'.
Proof.
  intros [-> Hn] [H1 H2 H3 H4 H5 H6 H7]. split; try done.
  simpl in *. intros c Hc. specialize (H4 c Hc). nl.
Qed.

Lemma arena_new_inv : arena_inv (arena_new (T:=T)).
Proof.
  split; simpl.
  - intros j c Hc. by rewrite lookup_nil in Hc.
  - intros c b Hc. by rewrite lookup_empty in Hc.
  - by apply NoDup_nil.
  - intros c Hc. by apply elem_of_nil in Hc.
  - done.
  - done.
  - done.
Qed.

(** A slot below the capacity lies in an allocated chunk. *)
Lemma slot_block a i : arena_inv a -> i < a_cap a ->
  exists c b, a_chunks a !! N.to_nat (ci_of i) = Some c /\ a_heap a !! c = Some b /\
    b_size b = clen (ci_of i) /\ slotp (a_chunks a) i = (c, ii_of i).
Proof.
  intros Hinv Hi. rewrite (ai_cap a Hinv) in Hi. apply ci_of_lt in Hi. unfold nchunks in Hi.
  destruct (lookup_lt_is_Some_2 (a_chunks a) (N.to_nat (ci_of i))) as [c Hc]; [nl|].
  destruct (ai_chunk a Hinv _ _ Hc) as (b & Hb & Hsz).
  exists c, b. split_and!; try done.
  - by rewrite Hsz, N2Nat.id.
  - unfold slotp. by rewrite Hc.
Qed.

Lemma slotp_inj a i j : arena_inv a -> i < a_cap a -> j < a_cap a ->
  slotp (a_chunks a) i = slotp (a_chunks a) j -> i = j.
Proof.
  intros Hinv Hi Hj Heq.
  destruct (slot_block a i Hinv Hi) as (c & b & Hc & _ & _ & Hs).
  destruct (slot_block a j Hinv Hj) as (c' & b' & Hc' & _ & _ & Hs').
  rewrite Hs, Hs' in Heq. injection Heq as -> Hii.
  pose proof (NoDup_lookup _ _ _ _ (ai_nodup a Hinv) Hc Hc').
  apply ci_ii_inj; [nl|done].
Qed.

Lemma NoDup_slots_cap a n : arena_inv a -> N.of_nat n <= a_cap a -> NoDup (slots (a_chunks a) n).
Proof.
  intros Hinv Hn. apply NoDup_alt. intros i j p Hi Hj.
  assert (i < n)%nat by (apply lookup_lt_Some in Hi; by rewrite slots_length in Hi).
  assert (j < n)%nat by (apply lookup_lt_Some in Hj; by rewrite slots_length in Hj).
  rewrite slots_lookup in Hi, Hj by done. injection Hi as Hi. injection Hj as Hj.
  rewrite <- Hj in Hi. apply Nat2N.inj. eapply (slotp_inj a); [done|nl|nl|done].
Qed.

Lemma NoDup_aslots a : arena_inv a -> NoDup (aslots a).
Proof. intros H. apply NoDup_slots_cap; [done|]. pose proof (ai_len a H). nl. Qed.

Lemma slotp_app chunks c i : ci_of i < N.of_nat (length chunks) ->
  slotp (chunks ++ [c]) i = slotp chunks i.
Proof. intros H. unfold slotp. rewrite lookup_app_l by nl. done. Qed.

Lemma slots_app chunks c n : N.of_nat n <= cfirst (N.of_nat (length chunks)) ->
  slots (chunks ++ [c]) n = slots chunks n.
Proof.
  intros H. unfold slots. apply list_fmap_ext. intros ? i Hi.
  apply elem_of_list_lookup_2, elem_of_list_fmap in Hi as (j & -> & Hj).
  apply elem_of_seq in Hj. apply slotp_app. apply ci_of_lt. nl.
Qed.

Lemma inv_idx_bound a i : arena_inv a -> i < a_cap a -> i < 2 ^ 64 - 8.
Proof.
  intros Hinv Hi. rewrite (ai_cap a Hinv) in Hi.
  pose proof (cfirst_mono _ _ (ai_n a Hinv)). rewrite cfirst_60 in *. nl.
Qed.

Lemma chunk_item_ptr_ret a i : arena_inv a -> i < a_cap a ->
  chunk_item_ptr a (mkChunkPos (ci_of i) (ii_of i)) = Ret (slotp (a_chunks a) i).
Proof.
  intros Hinv Hi. destruct (slot_block a i Hinv Hi) as (c & b & Hc & Hb & Hsz & Hs).
  unfold chunk_item_ptr. simpl. rewrite Hc, Hb, Hsz.
  pose proof (ii_lt i) as Hlt. apply N.ltb_lt in Hlt. by rewrite Hlt, Hs.
Qed.

Lemma ci_nchunks a i : arena_inv a -> i < a_cap a -> ci_of i < nchunks a.
Proof. intros Hinv Hi. apply ci_of_lt. by rewrite <- (ai_cap a Hinv). Qed.

Lemma ptr_at_ret e a i : arena_inv a -> i < a_cap a -> ptr_at e a i = Ret (slotp (a_chunks a) i).
Proof.
  intros Hinv Hi. unfold ptr_at. rewrite position_for_ret by (by eapply inv_idx_bound).
  cbn [rbind]. rewrite dassert_ret.
  2:{ apply N.ltb_lt. by apply ci_nchunks. }
  cbn [rbind]. by apply chunk_item_ptr_ret.
Qed.

(** ** Writing cells *)

Lemma acell_in_chunk a p : arena_inv a -> is_Some (acell a p) -> p.1 ∈ a_chunks a.
Proof.
  unfold acell. intros Hinv [x Hx]. destruct (a_heap a !! p.1) as [b|] eqn:Hb; [|done].
  by eapply ai_heap.
Qed.

(** Replace the contents of one cell of an allocated block. *)
Definition put_cell (p : Ptr) (x : T) a : arena T :=
  match a_heap a !! p.1 with
  | None => a
  | Some b => set_heap (<[p.1 := mkBlock (b_size b) (<[p.2 := x]> (b_cells b))]> (a_heap a)) a
  end.

Definition in_block a (p : Ptr) : Prop :=
  exists b, a_heap a !! p.1 = Some b /\ p.2 < b_size b.

Lemma arena_poke_ret p x a : in_block a p -> arena_poke p x a = (Ret tt, put_cell p x a).
Proof.
  intros (b & Hb & Hlt). unfold arena_poke, put_cell. rewrite Hb.
  apply N.ltb_lt in Hlt. by rewrite Hlt.
Qed.

Lemma acell_in_block a p x : acell a p = Some x -> in_block a p.
Proof.
  unfold acell, in_block. destruct (a_heap a !! p.1) as [b|]; [|done].
  destruct (N.ltb_spec p.2 (b_size b)); [|done]. eauto.
Qed.

Lemma arena_set_ret p x y a : acell a p = Some y -> arena_set p x a = (Ret tt, put_cell p x a).
Proof.
  intros H. unfold arena_set. pose proof (proj1 (arena_get_ret _ _ _) H) as ->.
  apply arena_poke_ret. by eapply acell_in_block.
Qed.

Lemma put_cell_inv p x a : arena_inv a -> arena_inv (put_cell p x a).
Proof.
  intros Hinv. unfold put_cell. destruct (a_heap a !! p.1) as [b|] eqn:Hb; [|done].
  destruct Hinv as [H1 H2 H3 H4 H5 H6 H7]. split; simpl; try done.
  - intros j c Hc. destruct (H1 j c Hc) as (b' & Hb' & Hs).
    destruct (decide (c = p.1)) as [->|Hne].
    + rewrite lookup_insert. eexists; split; [done|]. simpl. congruence.
    + rewrite lookup_insert_ne by done. eauto.
  - intros c b' Hc. destruct (decide (c = p.1)) as [->|Hne]; [by eapply H2|].
    rewrite lookup_insert_ne in Hc by done. by eapply H2.
Qed.

Lemma acell_put p q x a : in_block a p ->
  acell (put_cell p x a) q = if decide (q = p) then Some x else acell a q.
Proof.
  intros (b & Hb & Hlt). unfold put_cell, acell. rewrite Hb. simpl.
  destruct p as [p1 p2], q as [q1 q2]; simpl in *.
  destruct (decide (q1 = p1)) as [->|Hne].
  - rewrite lookup_insert. simpl. rewrite Hb.
    destruct (decide (q2 = p2)) as [->|Hne2].
    + rewrite decide_True by done. apply N.ltb_lt in Hlt. rewrite Hlt. by rewrite lookup_insert.
    + rewrite decide_False by congruence. by rewrite lookup_insert_ne.
  - rewrite lookup_insert_ne by done. rewrite decide_False by congruence. done.
Qed.

Lemma put_cell_fields p x a :
  a_next (put_cell p x a) = a_next a /\ a_chunks (put_cell p x a) = a_chunks a /\
  a_len (put_cell p x a) = a_len a /\ a_cap (put_cell p x a) = a_cap a /\
  a_drops (put_cell p x a) = a_drops a.
Proof. unfold put_cell. by destruct (a_heap a !! p.1). Qed.

(** ** push_chunk *)

Definition pushed_chunk a : arena T :=
  mkArena (<[a_next a := mkBlock (clen (nchunks a)) ∅]> (a_heap a)) (a_next a + 1)
    (a_chunks a ++ [a_next a]) (a_len a) (a_cap a + clen (nchunks a)) (a_drops a).

Lemma push_chunk_spec e a : arena_inv a ->
  wp (push_chunk e) (fun _ a' => a' = pushed_chunk a /\ nchunks a < 60)
    (fun p a' => alloc_fail p /\ same_but_next a a') a.
Proof.
  intros Hinv. unfold push_chunk.
  pose proof (ai_n a Hinv) as Hn.
  apply wp_bind, wp_get. apply wp_bind.
  fold (nchunks a).
  assert (Hm : nchunks a mod U32 = nchunks a).
  { apply N.mod_small. change U32 with 4294967296. nl. }
  rewrite Hm. eapply wp_lift_ret; [by apply chunk_len_ret|].
  apply wp_bind, wp_lift. unfold vec_with_capacity.
  destruct (N.eqb_spec (e_size e) 0) as [Hs|Hs].
  - (* zero-sized elements: the assertion fails *)
    simpl. apply wp_bind, wp_mod.
    destruct (N.eqb_spec (USIZE - 1) (clen (nchunks a))) as [Heq|Hne]; simpl.
    + exfalso. unfold clen in Heq. pose proof (pow2_mono _ _ Hn).
      change (USIZE - 1) with (2 ^ 64 - 1) in Heq. nl.
    + apply wp_fail. split; [right; by left|]. split; [by destruct a|simpl; nl].
  - destruct (N.ltb_spec ISIZE_MAX (clen (nchunks a) * e_size e)) as [Hbig|Hsmall]; simpl.
    { split; [by left|apply same_but_next_refl]. }
    assert (Hn' : nchunks a < 60).
    { destruct (N.lt_ge_cases (nchunks a) 60) as [|Hge]; [done|].
      replace (nchunks a) with 60 in Hsmall by nl.
      change (clen 60) with (2 ^ 63) in Hsmall. unfold ISIZE_MAX in Hsmall. nia. }
    destruct (e_alloc e (a_next a) (clen (nchunks a))) as [c|]; simpl.
    2:{ split; [by right; right|apply same_but_next_refl]. }
    apply wp_bind, wp_mod.
    destruct (N.eqb_spec c (clen (nchunks a))) as [->|Hne]; simpl.
    2:{ apply wp_fail. split; [right; by left|]. split; [by destruct a|simpl; nl]. }
    apply wp_bind, wp_mod. apply wp_bind, wp_mod. apply wp_bind.
    eapply wp_lift_ret; [apply uadd_ret|].
    { rewrite (ai_cap a Hinv), <- cfirst_S.
      pose proof (cfirst_mono (nchunks a + 1) 60). rewrite cfirst_60 in *.
      change USIZE with (2 ^ 64). nl. }
    apply wp_mod. split; [|done]. by destruct a.
Qed.

Lemma pushed_chunk_nchunks a : nchunks (pushed_chunk a) = nchunks a + 1.
Proof. unfold nchunks. simpl. rewrite app_length. simpl. nl. Qed.

Lemma pushed_chunk_inv a : arena_inv a -> nchunks a < 60 -> arena_inv (pushed_chunk a).
Proof.
  intros Hinv Hn. pose proof Hinv as [H1 H2 H3 H4 H5 H6 H7].
  assert (Hfresh : a_next a ∉ a_chunks a).
  { intros Hin. specialize (H4 _ Hin). nl. }
  split; simpl.
  - intros j c Hc. apply lookup_app_Some in Hc as [Hc|[Hlen Hc]].
    + destruct (H1 j c Hc) as (b & Hb & Hs). exists b. split; [|done].
      rewrite lookup_insert_ne; [done|]. intros <-. by eapply Hfresh, elem_of_list_lookup_2.
    + apply list_lookup_singleton_Some in Hc as [Hj <-].
      rewrite lookup_insert. eexists; split; [done|]. simpl. unfold nchunks. f_equal. nl.
  - intros c b Hc. apply elem_of_app. destruct (decide (c = a_next a)) as [->|Hne].
    + right. by apply elem_of_list_singleton.
    + rewrite lookup_insert_ne in Hc by done. left. by eapply H2.
  - apply NoDup_app. split_and!; [done| |apply NoDup_singleton].
    intros c Hc ->%elem_of_list_singleton. done.
  - intros c [Hc|Hc]%elem_of_app; [specialize (H4 _ Hc); nl|].
    apply elem_of_list_singleton in Hc as ->. nl.
  - rewrite pushed_chunk_nchunks. nl.
  - rewrite pushed_chunk_nchunks, cfirst_S, H6. done.
  - nl.
Qed.

Lemma pushed_chunk_acell a p : arena_inv a -> acell (pushed_chunk a) p = acell a p.
Proof.
  intros Hinv. unfold acell. simpl. destruct (decide (p.1 = a_next a)) as [Heq|Hne].
  - rewrite Heq, lookup_insert. simpl. rewrite lookup_empty.
    destruct (a_heap a !! a_next a) as [b|] eqn:Hb.
    + apply (ai_heap a Hinv), (ai_next a Hinv) in Hb. nl.
    + by destruct (_ <? _).
  - by rewrite lookup_insert_ne.
Qed.

Lemma pushed_chunk_aslots a : arena_inv a -> aslots (pushed_chunk a) = aslots a.
Proof.
  intros Hinv. unfold aslots. simpl. apply slots_app.
  pose proof (ai_len a Hinv). pose proof (ai_cap a Hinv). unfold nchunks in *. nl.
Qed.

(** ** alloc *)

Lemma arena_alloc_spec e x a : arena_inv a ->
  wp (arena_alloc e x)
    (fun p a' => exists a1,
       ((a1 = a /\ a_len a < a_cap a) \/ (a1 = pushed_chunk a /\ a_len a = a_cap a /\ nchunks a < 60)) /\
       arena_inv a1 /\ a_len a1 < a_cap a1 /\
       p = slotp (a_chunks a1) (a_len a1) /\
       a' = set_alen (a_len a1 + 1) (put_cell p x a1))
    (fun p a' => alloc_fail p /\ same_but_next a a' /\ a_len a = a_cap a) a.
Proof.
  intros Hinv. unfold arena_alloc.
  pose proof (ai_len a Hinv) as Hlen.
  apply wp_bind, wp_get. apply wp_bind.
  eapply wp_lift_ret; [apply dassert_ret; by apply N.leb_le|].
  apply wp_bind.
  eapply (wp_mono _ (fun _ a1 => ((a1 = a /\ a_len a < a_cap a) \/
       (a1 = pushed_chunk a /\ a_len a = a_cap a /\ nchunks a < 60)))
    _ (fun p a' => alloc_fail p /\ same_but_next a a' /\ a_len a = a_cap a)).
  { destruct (N.eqb_spec (a_len a) (a_cap a)) as [Heq|Hne].
    - eapply wp_mono; [by apply push_chunk_spec| |].
      + intros _ a1 [-> Hn]. right. done.
      + intros p a' [? ?]. done.
    - apply wp_ret. left. split; [done|nl]. }
  2:{ done. }
  intros _ a1 Ha1.
  assert (Hinv1 : arena_inv a1).
  { destruct Ha1 as [[-> ?]|(-> & ? & ?)]; [done|by apply pushed_chunk_inv]. }
  assert (Hlt : a_len a1 < a_cap a1).
  { destruct Ha1 as [[-> ?]|(-> & ? & ?)]; [done|]. simpl.
    pose proof (clen_pos (nchunks a)). nl. }
  apply wp_bind, wp_get. apply wp_bind.
  eapply wp_lift_ret; [apply dassert_ret; by apply N.ltb_lt|].
  unfold arena_len.
  apply wp_bind. eapply wp_lift_ret; [apply position_for_ret; by eapply inv_idx_bound|].
  apply wp_bind. eapply wp_lift_ret; [apply dassert_ret; apply N.ltb_lt; by apply ci_nchunks|].
  apply wp_bind. eapply wp_lift_ret; [by apply chunk_item_ptr_ret|].
  apply wp_bind. unfold wp at 1. rewrite arena_poke_ret.
  2:{ destruct (slot_block a1 _ Hinv1 Hlt) as (c & b & _ & Hb & Hsz & ->).
      exists b. split; [done|]. simpl. rewrite Hsz. apply ii_lt. }
  apply wp_bind. eapply wp_lift_ret; [apply uadd_ret|].
  { pose proof (inv_idx_bound a1 _ Hinv1 Hlt). change USIZE with (2 ^ 64). nl. }
  apply wp_bind, wp_mod. apply wp_ret.
  exists a1. split_and!; done.
Qed.

(** ** Growing *)

(** [a'] is [a] with possibly more room: nothing stored has changed. *)
Record arena_ext a a' : Prop := {
  ax_inv : arena_inv a';
  ax_cells : forall p, acell a' p = acell a p;
  ax_len : a_len a' = a_len a;
  ax_chunks : exists l, a_chunks a' = a_chunks a ++ l;
  ax_next : a_next a <= a_next a';
  ax_drops : a_drops a' = a_drops a;
}.

Lemma arena_ext_refl a : arena_inv a -> arena_ext a a.
Proof. split; try done. by exists []; rewrite app_nil_r. Qed.

Lemma arena_ext_trans a1 a2 a3 : arena_ext a1 a2 -> arena_ext a2 a3 -> arena_ext a1 a3.
Proof.
  intros [A1 A2 A3 [l A4] A5 A6] [B1 B2 B3 [l' B4] B5 B6]. split; try done.
  - intros p. by rewrite B2.
  - by rewrite B3.
  - exists (l ++ l'). by rewrite B4, A4, app_assoc.
  - lia.
  - by rewrite B6.
Qed.

Lemma same_but_next_ext a a' : arena_inv a -> same_but_next a a' -> arena_ext a a'.
Proof.
  intros Hinv H. pose proof (same_but_next_inv _ _ H Hinv). destruct H as [Heq Hn].
  split; try done; rewrite Heq; try done.
  exists []. by rewrite app_nil_r.
Qed.

Lemma pushed_chunk_ext a : arena_inv a -> nchunks a < 60 -> arena_ext a (pushed_chunk a).
Proof.
  intros Hinv Hn. split; simpl; try done.
  - by apply pushed_chunk_inv.
  - intros. by apply pushed_chunk_acell.
  - by eexists.
  - lia.
Qed.

Lemma arena_ext_nchunks a a' : arena_ext a a' -> nchunks a <= nchunks a'.
Proof. intros [_ _ _ [l H] _ _]. unfold nchunks. rewrite H, app_length. lia. Qed.

Lemma arena_ext_cap a a' : arena_inv a -> arena_ext a a' -> a_cap a <= a_cap a'.
Proof.
  intros Hinv H. rewrite (ai_cap a Hinv), (ai_cap a' (ax_inv _ _ H)).
  by apply cfirst_mono, arena_ext_nchunks.
Qed.

Lemma slots_app_list chunks l n : N.of_nat n <= cfirst (N.of_nat (length chunks)) ->
  slots (chunks ++ l) n = slots chunks n.
Proof.
  intros H. unfold slots. apply list_fmap_ext. intros ? i Hi.
  apply elem_of_list_lookup_2, elem_of_list_fmap in Hi as (j & -> & Hj).
  apply elem_of_seq in Hj. unfold slotp. rewrite lookup_app_l; [done|].
  pose proof (ci_of_lt (N.of_nat j) (N.of_nat (length chunks))). lia.
Qed.

Lemma arena_ext_aslots a a' : arena_inv a -> arena_ext a a' -> aslots a' = aslots a.
Proof.
  intros Hinv [_ _ Hl [l Hc] _ _]. unfold aslots. rewrite Hl, Hc. apply slots_app_list.
  pose proof (ai_len a Hinv). pose proof (ai_cap a Hinv). unfold nchunks in *. lia.
Qed.

Lemma grow_loop_spec e fuel capacity a : arena_inv a ->
  (N.to_nat (60 - nchunks a) < fuel)%nat ->
  wp (grow_loop e fuel capacity)
    (fun _ a' => arena_ext a a' /\ capacity <= a_cap a' /\
       (capacity <= a_cap a -> a' = a) /\
       (forall n, nchunks a <= n -> capacity <= cfirst n -> nchunks a' <= n))
    (fun p a' => alloc_fail p /\ arena_ext a a' /\ a_cap a' < capacity) a.
Proof.
  revert a. induction fuel as [|fuel IH]; intros a Hinv Hfuel; [lia|].
  cbn [grow_loop]. apply wp_bind, wp_get. unfold arena_capacity.
  destruct (N.ltb_spec (a_cap a) capacity) as [Hlt|Hge].
  - apply wp_bind. eapply wp_mono; [by apply push_chunk_spec| |].
    + intros _ a1 [-> Hn]. eapply wp_mono; [apply IH| |].
      * by apply pushed_chunk_inv.
      * rewrite pushed_chunk_nchunks. lia.
      * intros _ a' (Hext & Hcap & _ & Hmin). split_and!; try done.
        -- eapply arena_ext_trans; [|done]. by apply pushed_chunk_ext.
        -- lia.
        -- intros n Hn1 Hn2. apply Hmin; [|done]. rewrite pushed_chunk_nchunks.
           destruct (N.eq_dec n (nchunks a)) as [->|]; [|lia].
           rewrite <- (ai_cap a Hinv) in Hn2. lia.
      * intros p a' (Hf & Hext & Hlt'). split_and!; try done.
        eapply arena_ext_trans; [|done]. by apply pushed_chunk_ext.
    + intros p a' [Hf Hs]. split_and!; try done.
      * by apply same_but_next_ext.
      * destruct Hs as [-> _]. done.
  - apply wp_ret. split_and!; try done. by apply arena_ext_refl.
Qed.

Lemma grow_fuel_enough a : (N.to_nat (60 - nchunks a) < GROW_FUEL)%nat.
Proof. unfold GROW_FUEL. lia. Qed.

Lemma arena_reserve_spec e n a : arena_inv a -> a_len a + n < USIZE ->
  wp (arena_reserve e n)
    (fun _ a' => arena_ext a a' /\ a_len a + n <= a_cap a' /\
       (a_len a + n <= a_cap a -> a' = a) /\
       (forall c, nchunks a <= c -> a_len a + n <= cfirst c -> nchunks a' <= c))
    (fun p a' => alloc_fail p /\ arena_ext a a' /\ a_cap a' < a_len a + n) a.
Proof.
  intros Hinv Hn. unfold arena_reserve, arena_len. apply wp_bind, wp_get.
  apply wp_bind. eapply wp_lift_ret; [by apply uadd_ret|].
  apply grow_loop_spec; [done|apply grow_fuel_enough].
Qed.

(** ** Shrinking *)

Record arena_shrunk a a' : Prop := {
  as_inv : arena_inv a';
  as_cells : forall p, acell a' p = if decide (p.1 ∈ a_chunks a') then acell a p else None;
  as_len : a_len a' = a_len a;
  as_chunks : exists l, a_chunks a = a_chunks a' ++ l;
  as_next : a_next a' = a_next a;
  as_drops : a_drops a' = a_drops a;
}.

Lemma arena_shrunk_refl a : arena_inv a -> arena_shrunk a a.
Proof.
  intros Hinv. split; try done.
  - intros p. case_decide as Hp; [done|]. apply eq_None_not_Some. intros Hs.
    by apply Hp, acell_in_chunk.
  - by exists []; rewrite app_nil_r.
Qed.

Lemma arena_shrunk_trans a1 a2 a3 : arena_shrunk a1 a2 -> arena_shrunk a2 a3 -> arena_shrunk a1 a3.
Proof.
  intros [A1 A2 A3 [l A4] A5 A6] [B1 B2 B3 [l' B4] B5 B6]. split; try done.
  - intros p. rewrite B2. case_decide as Hp; [|done]. rewrite A2, decide_True; [done|].
    rewrite B4. set_solver.
  - by rewrite B3.
  - exists (l' ++ l). by rewrite A4, B4, app_assoc.
  - by rewrite B5.
  - by rewrite B6.
Qed.

Lemma arena_shrunk_aslots a a' : arena_inv a -> arena_shrunk a a' -> aslots a' = aslots a.
Proof.
  intros Hinv [Hinv' _ Hl [l Hc] _ _]. unfold aslots. rewrite Hl, Hc.
  symmetry. apply slots_app_list.
  pose proof (ai_len a' Hinv'). pose proof (ai_cap a' Hinv'). unfold nchunks in *. lia.
Qed.

Lemma slot_in_chunks a p : arena_inv a -> p ∈ aslots a -> p.1 ∈ a_chunks a.
Proof.
  intros Hinv Hp. apply elem_of_slots in Hp as (i & Hi & ->).
  pose proof (ai_len a Hinv).
  destruct (slot_block a i Hinv) as (c & b & Hc & _ & _ & ->); [lia|].
  by eapply elem_of_list_lookup_2.
Qed.

Lemma slot_in_block a i : arena_inv a -> i < a_cap a -> in_block a (slotp (a_chunks a) i).
Proof.
  intros Hinv Hlt. destruct (slot_block a _ Hinv Hlt) as (c & b & _ & Hb & Hsz & ->).
  exists b. split; [done|]. simpl. rewrite Hsz. apply ii_lt.
Qed.

Lemma arena_shrunk_slot_cell a a' p : arena_inv a -> arena_shrunk a a' -> p ∈ aslots a ->
  acell a' p = acell a p.
Proof.
  intros Hinv H Hp. rewrite (as_cells _ _ H). rewrite decide_True; [done|].
  apply slot_in_chunks; [apply H|]. by rewrite (arena_shrunk_aslots a a').
Qed.

Definition popped_chunk a : arena T :=
  match list.last (a_chunks a) with
  | None => a
  | Some c => mkArena (delete c (a_heap a)) (a_next a) (removelast (a_chunks a)) (a_len a)
                (a_cap a - clen (nchunks a - 1)) (a_drops a)
  end.

Lemma popped_chunk_shrunk a l c : arena_inv a -> a_chunks a = l ++ [c] ->
  a_len a <= cfirst (nchunks a - 1) ->
  popped_chunk a = mkArena (delete c (a_heap a)) (a_next a) l (a_len a) (cfirst (nchunks a - 1)) (a_drops a)
  /\ arena_shrunk a (popped_chunk a).
Proof.
  intros Hinv Hl Hlen. pose proof Hinv as [H1 H2 H3 H4 H5 H6 H7].
  assert (Hn : nchunks a = N.of_nat (length l) + 1).
  { unfold nchunks. rewrite Hl, app_length. simpl. lia. }
  assert (Hcap : a_cap a - clen (nchunks a - 1) = cfirst (nchunks a - 1)).
  { rewrite H6, Hn. replace (N.of_nat (length l) + 1 - 1) with (N.of_nat (length l)) by lia.
    rewrite cfirst_S. lia. }
  assert (Heq : popped_chunk a = mkArena (delete c (a_heap a)) (a_next a) l (a_len a) (cfirst (nchunks a - 1)) (a_drops a)).
  { unfold popped_chunk. rewrite Hcap, Hl. rewrite last_snoc, removelast_last. done. }
  split; [done|]. rewrite Heq.
  rewrite Hl in H3. apply NoDup_app in H3 as (Hnd & Hdisj & _).
  assert (Hcl : c ∉ l). { intros Hc. apply (Hdisj c Hc). by apply elem_of_list_singleton. }
  split; simpl; try done.
  - split; simpl; try done.
    + intros j c' Hc'. destruct (H1 j c') as (b & Hb & Hs).
      { rewrite Hl. by apply lookup_app_l_Some. }
      exists b. split; [|done]. rewrite lookup_delete_ne; [done|].
      intros <-. by eapply Hcl, elem_of_list_lookup_2.
    + intros c' b Hc'. apply lookup_delete_Some in Hc' as [Hne Hc'].
      apply H2 in Hc'. rewrite Hl in Hc'. apply elem_of_app in Hc' as [|Hc']; [done|].
      apply elem_of_list_singleton in Hc'. congruence.
    + intros c' Hc'. apply H4. rewrite Hl. apply elem_of_app. by left.
    + unfold nchunks in *. simpl. lia.
    + unfold nchunks at 2. simpl. f_equal. lia.
  - intros p. unfold acell at 1. simpl. case_decide as Hp.
    + rewrite lookup_delete_ne; [done|]. intros ->. done.
    + destruct (decide (p.1 = c)) as [->|Hne]; [by rewrite lookup_delete|].
      rewrite lookup_delete_ne by done.
      destruct (a_heap a !! p.1) as [b|] eqn:Hb; [|done].
      apply H2 in Hb. rewrite Hl in Hb. apply elem_of_app in Hb as [|Hb]; [done|].
      apply elem_of_list_singleton in Hb. congruence.
  - eauto.
Qed.

Lemma shrink_loop_spec e fuel a : arena_inv a ->
  (length (a_chunks a) < fuel)%nat ->
  wp (shrink_loop e fuel (nchunks a))
    (fun _ a' => arena_shrunk a a' /\ forall n, a_len a <= cfirst n -> n <= nchunks a -> nchunks a' <= n)
    (fun _ _ => False) a.
Proof.
  revert a. induction fuel as [|fuel IH]; intros a Hinv Hfuel; [lia|].
  cbn [shrink_loop]. apply wp_bind, wp_get.
  destruct (list.last (a_chunks a)) as [c|] eqn:Hlast.
  2:{ apply last_None in Hlast. apply wp_ret. split; [by apply arena_shrunk_refl|].
      intros n _ _. unfold nchunks. rewrite Hlast. simpl. lia. }
  apply last_Some in Hlast as [l Hl].
  assert (Hn : nchunks a = N.of_nat (length l) + 1).
  { unfold nchunks. rewrite Hl, app_length. simpl. lia. }
  pose proof (ai_n a Hinv) as H60.
  apply wp_bind. eapply wp_lift_ret; [apply usub_ret; lia|].
  assert (Hm : (nchunks a - 1) mod U32 = nchunks a - 1).
  { apply N.mod_small. change U32 with 4294967296. lia. }
  rewrite Hm.
  apply wp_bind. eapply wp_lift_ret; [apply chunk_len_ret; lia|].
  assert (Hcap : a_cap a = cfirst (nchunks a - 1) + clen (nchunks a - 1)).
  { rewrite (ai_cap a Hinv), <- cfirst_S. f_equal. lia. }
  apply wp_bind. eapply wp_lift_ret; [apply usub_ret; lia|].
  replace (a_cap a - clen (nchunks a - 1)) with (cfirst (nchunks a - 1)) by lia.
  destruct (N.leb_spec (a_len a) (cfirst (nchunks a - 1))) as [Hle|Hgt].
  - destruct (popped_chunk_shrunk a l c Hinv Hl Hle) as [Heq Hsh].
    destruct (ai_chunk a Hinv (length l) c) as (b & Hb & Hsz).
    { rewrite Hl. by apply list_lookup_middle. }
    apply wp_bind. unfold wp at 1, free_chunk. rewrite Hb, Hsz.
    replace (N.of_nat (length l)) with (nchunks a - 1) by lia. rewrite N.eqb_refl.
    apply wp_bind, wp_mod. apply wp_bind. eapply wp_lift_ret; [apply usub_ret; lia|].
    apply wp_bind. eapply wp_lift_ret; [apply usub_ret; lia|].
    apply wp_bind, wp_mod.
    match goal with |- wp _ _ _ ?s => assert (s = popped_chunk a) as -> end.
    { rewrite Heq. unfold set_acap, set_chunks, set_heap. simpl. rewrite Hl, removelast_last.
      f_equal. lia. }
    assert (Hnp : nchunks a - 1 = nchunks (popped_chunk a)).
    { rewrite Heq. unfold nchunks at 2. simpl. lia. }
    rewrite Hnp. eapply wp_mono; [apply IH| |done].
    + apply Hsh.
    + rewrite Heq. simpl. rewrite Hl, app_length in Hfuel. simpl in *. lia.
    + intros _ a' [Hsh' Hmin]. split; [by eapply arena_shrunk_trans|].
      intros n Hn1 Hn2. pose proof (as_len _ _ Hsh) as Hlen'.
      destruct (N.eq_dec n (nchunks a)) as [->|Hne].
      * destruct (as_chunks _ _ Hsh') as [l' Hl']. 
        assert (nchunks a' <= nchunks (popped_chunk a)); [|lia].
        unfold nchunks. rewrite Hl', app_length. lia.
      * apply Hmin; [by rewrite Hlen'|lia].
  - apply wp_ret. split; [by apply arena_shrunk_refl|].
    intros n Hn1 Hn2. destruct (N.le_gt_cases (nchunks a) n) as [|Hlt]; [done|].
    pose proof (cfirst_mono n (nchunks a - 1)). lia.
Qed.

Lemma arena_shrink_spec e a : arena_inv a ->
  wp (arena_shrink_to_fit e)
    (fun _ a' => arena_shrunk a a' /\ forall n, a_len a <= cfirst n -> n <= nchunks a -> nchunks a' <= n)
    (fun _ _ => False) a.
Proof.
  intros Hinv. unfold arena_shrink_to_fit. apply wp_bind, wp_get.
  fold (nchunks a). apply shrink_loop_spec; [done|lia].
Qed.

(** ** Clearing without destructors *)

Lemma reset_len_inv a : arena_inv a -> arena_inv (reset_len a).
Proof.
  intros [H1 H2 H3 H4 H5 H6 H7]. split; simpl; try done.
  - intros j c Hc. destruct (H1 j c Hc) as (b & Hb & Hs).
    rewrite lookup_fmap, Hb. simpl. eauto.
  - intros c b Hc. rewrite lookup_fmap in Hc.
    destruct (a_heap a !! c) as [b'|] eqn:Hb; [|done]. by eapply H2.
  - lia.
Qed.

Lemma reset_len_acell a p : acell (reset_len a) p = None.
Proof.
  unfold acell. simpl. rewrite lookup_fmap. destruct (a_heap a !! p.1); simpl; [|done].
  rewrite lookup_empty. by destruct (_ <? _).
Qed.

Lemma arena_clear_nodrop e pn a : arena_clear e false pn a = (Ret tt, reset_len a).
Proof. done. Qed.

(** ** Freeing everything *)

Lemma free_chunks_spec e l : forall i a,
  (forall j c, l !! j = Some c -> exists b, a_heap a !! c = Some b /\ b_size b = clen (i + N.of_nat j)) ->
  (forall c b, a_heap a !! c = Some b -> c ∈ l) ->
  NoDup l -> i + N.of_nat (length l) <= 60 ->
  free_chunks e i l a = (Ret tt, set_heap ∅ a).
Proof.
  induction l as [|c l IH]; intros i a Hl Hdom Hnd Hi.
  - cbn [free_chunks]. unfold sret. f_equal. destruct a as [h ? ? ? ? ?]. unfold set_heap. simpl in *.
    f_equal. apply map_empty. intros c. destruct (h !! c) eqn:Hc; [|done].
    apply Hdom in Hc. by apply elem_of_nil in Hc.
  - cbn [free_chunks length] in *. unfold sbind, slift.
    rewrite chunk_len_ret by lia.
    destruct (Hl 0%nat c eq_refl) as (b & Hb & Hs). replace (i + N.of_nat 0) with i in Hs by lia.
    unfold free_chunk. rewrite Hb, Hs, N.eqb_refl.
    apply NoDup_cons in Hnd as [Hc Hnd].
    rewrite IH; [done| | |done|lia]; simpl.
    + intros j c' Hj. destruct (Hl (S j) c' Hj) as (b' & Hb' & Hs').
      exists b'. split; [|rewrite Hs'; f_equal; lia].
      rewrite lookup_delete_ne; [done|]. intros <-. by eapply Hc, elem_of_list_lookup_2.
    + intros c' b' Hc'. apply lookup_delete_Some in Hc' as [Hne Hc'].
      apply Hdom in Hc'. by apply elem_of_cons in Hc' as [|].
Qed.

(** The final state after dropping the arena (without element destructors). *)
Lemma arena_drop_nodrop e pn a : arena_inv a ->
  arena_drop e false pn a = (Ret tt, set_chunks [] (set_heap ∅ (reset_len a))).
Proof.
  intros Hinv. unfold arena_drop, sbind at 1. rewrite arena_clear_nodrop.
  pose proof (reset_len_inv a Hinv) as Hinv'.
  unfold sbind, sget. rewrite free_chunks_spec; [done| | |apply Hinv'|].
  - intros j c Hc. destruct (ai_chunk _ Hinv' j c Hc) as (b & Hb & Hs). exists b.
    split; [done|]. rewrite Hs. done.
  - apply Hinv'.
  - apply (ai_n _ Hinv').
Qed.

(** ** with_capacity *)

Lemma arena_with_capacity_spec e n :
  match arena_with_capacity (T:=T) e n with
  | (Ret _, a) => arena_inv a /\ a_len a = 0 /\ n <= a_cap a /\ a_drops a = [] /\
                  (n = 0 -> a = arena_new) /\
                  (forall c, n <= cfirst c -> nchunks a <= c)
  | (Panic p, a) => alloc_fail (Some p) /\ a_heap a = ∅ /\ a_chunks a = [] /\ a_drops a = []
  | (Abort, _) => True
  | (UB _, _) => False
  | (Diverge, _) => False
  end.
Proof.
  unfold arena_with_capacity.
  pose proof (grow_loop_spec e GROW_FUEL n arena_new arena_new_inv (grow_fuel_enough _)) as H.
  unfold wp in H. destruct (grow_loop e GROW_FUEL n arena_new) as [[] a]; try done.
  - destruct H as (Hext & Hcap & Hz & Hmin). destruct Hext as [? ? Hl ? ? Hd].
    split_and!; try done.
    + intros ->. apply Hz. done.
    + intros c Hc. apply Hmin; [|done]. unfold nchunks. simpl. lia.
  - destruct H as (Hf & Hext & _).
    rewrite arena_drop_nodrop by apply Hext.
    split_and!; try done. simpl. by rewrite (ax_drops _ _ Hext).
Qed.

(** ** Iteration *)

Lemma next_ptr_some e a r : arena_inv a -> arena_full a -> r_start r < r_end r -> r_end r <= a_len a ->
  exists x, acell a (slotp (a_chunks a) (r_start r)) = Some x /\
  next_ptr e a r = (Ret (Some (slotp (a_chunks a) (r_start r), x)), mkRange (r_start r + 1) (r_end r)).
Proof.
  intros Hinv Hfull Hlt Hend. pose proof (ai_len a Hinv).
  destruct (Hfull (slotp (a_chunks a) (r_start r))) as [x Hx].
  { apply elem_of_slots. exists (r_start r). split; [lia|done]. }
  exists x. split; [done|]. unfold next_ptr. apply N.ltb_lt in Hlt as Hlt'. rewrite Hlt'.
  rewrite ptr_at_ret by (try done; lia). cbn [rbind].
  apply arena_get_ret in Hx. by rewrite Hx.
Qed.

Lemma next_back_ptr_some e a r : arena_inv a -> arena_full a -> r_start r < r_end r -> r_end r <= a_len a ->
  exists x, acell a (slotp (a_chunks a) (r_end r - 1)) = Some x /\
  next_back_ptr e a r = (Ret (Some (slotp (a_chunks a) (r_end r - 1), x)), mkRange (r_start r) (r_end r - 1)).
Proof.
  intros Hinv Hfull Hlt Hend. pose proof (ai_len a Hinv).
  destruct (Hfull (slotp (a_chunks a) (r_end r - 1))) as [x Hx].
  { apply elem_of_slots. exists (r_end r - 1). split; [lia|done]. }
  exists x. split; [done|]. unfold next_back_ptr. apply N.ltb_lt in Hlt as Hlt'. rewrite Hlt'.
  rewrite ptr_at_ret by (try done; lia). cbn [rbind].
  apply arena_get_ret in Hx. by rewrite Hx.
Qed.

Lemma next_ptr_none e a r : r_end r <= r_start r -> next_ptr e a r = (Ret None, r).
Proof. intros H. unfold next_ptr. apply N.ltb_ge in H. by rewrite H. Qed.

Lemma next_back_ptr_none e a r : r_end r <= r_start r -> next_back_ptr e a r = (Ret None, r).
Proof. intros H. unfold next_back_ptr. apply N.ltb_ge in H. by rewrite H. Qed.

End arena_proofs.
