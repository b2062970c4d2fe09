(** * The two private containers behave as specified *)

From Verif Require Import ProofBase ProofArena ProofSlab.
From Verif Require Export SpecArena.
Local Open Scope N_scope.

(** ** Positions *)

Lemma position_ok e i : i < 2 ^ 64 - 8 ->
  exists pos n, position_for e i = Ret pos /\ chunk_len e (chunk_index pos) = Ret n /\ item_index pos < n.
Proof.
  intros Hi. eexists _, _. split_and!.
  - by apply position_for_ret.
  - cbn [chunk_index]. apply chunk_len_ret. apply N.lt_succ_r. apply (ci_of_lt i (60 + 1)).
    replace (cfirst (60 + 1)) with (2 ^ 64 - 8) by (vm_compute; done). done.
  - cbn [item_index]. apply ii_lt.
Qed.

Lemma position_inj e i j : i < 2 ^ 64 - 8 -> j < 2 ^ 64 - 8 -> position_for e i = position_for e j -> i = j.
Proof.
  intros Hi Hj. rewrite !position_for_ret by done. intros [= H1 H2]. by apply ci_ii_inj.
Qed.

Lemma position_surj e c n k : c <= 60 -> chunk_len e c = Ret n -> k < n ->
  exists i, i < 2 ^ 64 - 8 /\ position_for e i = Ret (mkChunkPos c k).
Proof.
  intros Hc Hn Hk. rewrite chunk_len_ret in Hn by done. injection Hn as <-.
  assert (Hci : ci_of (cfirst c + k) = c).
  { apply ci_unique. rewrite cfirst_S. lia. }
  assert (cfirst c + k < 2 ^ 64 - 8).
  { replace (2 ^ 64 - 8) with (cfirst 61) by (vm_compute; done).
    pose proof (cfirst_mono (c + 1) 61). rewrite cfirst_S in *. lia. }
  exists (cfirst c + k). split; [done|]. rewrite position_for_ret by done. unfold ii_of. rewrite Hci.
  do 2 f_equal. lia.
Qed.

Lemma chunk_lengths e c : c <= 60 -> chunk_len e c = Ret (8 * 2 ^ c).
Proof. apply chunk_len_ret. Qed.

Lemma position_bound_tight e i : e_chk e = true -> 2 ^ 64 - 8 <= i < 2 ^ 64 -> position_for e i = Panic POverflow.
Proof.
  intros Hchk Hi. unfold position_for, MULTIPLIER.
  assert (i / 8 = 2 ^ 61 - 1) as ->.
  { symmetry. apply (N.div_unique i 8 (2 ^ 61 - 1) (i - (2 ^ 64 - 8))); lia. }
  rewrite Hchk. unfold chunk_len. rewrite Hchk. done.
Qed.

Fixpoint eq_values {T} (eqT : T -> T -> bool) (l1 l2 : list T) : bool :=
  match l1, l2 with
  | [], [] => true
  | x :: l1, y :: l2 => eqT x y && eq_values eqT l1 l2
  | _, _ => false
  end.

Lemma eq_values_iff {T} (eqT : T -> T -> bool) l1 l2 :
  eq_values eqT l1 l2 = true <-> Forall2 (fun x y => eqT x y = true) l1 l2.
Proof.
  revert l2. induction l1 as [|x l1 IH]; intros [|y l2]; cbn [eq_values].
  - split; [constructor|done].
  - split; [done|]. intros H. inversion H.
  - split; [done|]. intros H. inversion H.
  - rewrite andb_true_iff, IH. split; [intros [? ?]; by constructor|]. intros H. by inversion H.
Qed.

Section arena.
Context {T : Type}.
Implicit Types a : arena T.
Implicit Types l : list (Ptr * T).

(** ** Contents *)

Record arena_rep a l : Prop := {
  rp_inv : arena_inv a;
  rp_slots : l.*1 = aslots a;
  rp_cell : forall p x, (p, x) ∈ l -> acell a p = Some x;
}.

Lemma arena_rep_len a l : arena_rep a l -> a_len a = N.of_nat (length l).
Proof. intros [H1 H2 H3]. apply (f_equal length) in H2. rewrite fmap_length in H2. unfold aslots in H2. rewrite slots_length in H2. lia. Qed.

Lemma arena_rep_nodup a l : arena_rep a l -> NoDup l.*1.
Proof. intros H. rewrite (rp_slots _ _ H). apply NoDup_aslots, H. Qed.

Lemma arena_rep_full a l : arena_rep a l -> arena_full a.
Proof.
  intros H p Hp. rewrite <- (rp_slots _ _ H) in Hp. apply elem_of_list_fmap in Hp as ([q x] & -> & Hin).
  exists x. by apply (rp_cell _ _ H).
Qed.

Lemma arena_rep_lookup a l i q x : arena_rep a l -> l !! i = Some (q, x) ->
  q = slotp (a_chunks a) (N.of_nat i) /\ acell a q = Some x.
Proof.
  intros H Hi. split; [|apply (rp_cell _ _ H); by eapply elem_of_list_lookup_2].
  assert (Hq : l.*1 !! i = Some q) by by rewrite list_lookup_fmap, Hi.
  rewrite (rp_slots _ _ H) in Hq. unfold aslots in Hq. rewrite slots_lookup in Hq; [by injection Hq|].
  apply lookup_lt_Some in Hi. rewrite (arena_rep_len _ _ H). lia.
Qed.

Lemma arena_rep_new : arena_rep arena_new [].
Proof. split; [apply arena_new_inv|done|]. intros p x Hin. by apply elem_of_nil in Hin. Qed.

Lemma arena_rep_empty a : arena_inv a -> a_len a = 0 -> arena_rep a [].
Proof. intros H Hl. split; [done| |]. - unfold aslots. rewrite Hl. done. - intros p x Hin. by apply elem_of_nil in Hin. Qed.

Lemma arena_rep_ext a a' l : arena_rep a l -> arena_ext a a' -> arena_rep a' l.
Proof.
  intros H Hx. split; [apply Hx| |].
  - rewrite (arena_ext_aslots a a'); [apply H|apply H|done].
  - intros p x Hin. rewrite (ax_cells _ _ Hx). by apply (rp_cell _ _ H).
Qed.

Lemma arena_rep_shrunk a a' l : arena_rep a l -> arena_shrunk a a' -> arena_rep a' l.
Proof.
  intros H Hx. split; [apply Hx| |].
  - rewrite (arena_shrunk_aslots a a'); [apply H|apply H|done].
  - intros p x Hin. rewrite (arena_shrunk_slot_cell a a'); [by apply (rp_cell _ _ H)|apply H|done|].
    rewrite <- (rp_slots _ _ H). apply elem_of_list_fmap. by exists (p, x).
Qed.

Lemma arena_rep_same a a' l : arena_rep a l -> same_but_next a a' -> arena_rep a' l.
Proof. intros H Hs. eapply arena_rep_ext; [done|]. by apply same_but_next_ext; [apply H|]. Qed.

(** ** Lists of addresses and values *)

Lemma held_in l p x : NoDup l.*1 -> (held l p = Some x <-> (p, x) ∈ l).
Proof.
  induction l as [|[q y] l IH]; cbn [held fmap list_fmap fst]; intros Hnd.
  - split; [done|]. intros H. by apply elem_of_nil in H.
  - apply NoDup_cons in Hnd as [Hq Hnd]. rewrite elem_of_cons. case_decide as Heq.
    + subst q. split; [intros [= ->]; by left|]. intros [[= ->]|Hin]; [done|].
      destruct Hq. apply elem_of_list_fmap. by exists (p, x).
    + rewrite (IH Hnd). split; [by right|]. by intros [[= -> ->]|].
Qed.

Lemma store_fst l p w : (store l p w).*1 = l.*1.
Proof. induction l as [|[q y] l IH]; cbn [store]; [done|]. case_decide; [done|]. csimpl. by rewrite IH. Qed.

Lemma store_in l p w q x : NoDup l.*1 -> (q, x) ∈ store l p w -> (q = p /\ x = w /\ p ∈ l.*1) \/ (q <> p /\ (q, x) ∈ l).
Proof.
  induction l as [|[r y] l IH]; cbn [store fmap list_fmap fst]; intros Hnd.
  - intros H. by apply elem_of_nil in H.
  - apply NoDup_cons in Hnd as [Hr Hnd]. case_decide as Heq.
    + subst r. intros [[= -> ->]|Hin]%elem_of_cons; [left; set_solver|]. right. split; [|by right].
      intros ->. destruct Hr. apply elem_of_list_fmap. by exists (p, x).
    + intros [[= -> ->]|Hin]%elem_of_cons; [right; set_solver|].
      destruct (IH Hnd Hin) as [(-> & -> & H)|(H1 & H2)]; [left; set_solver|right; set_solver].
Qed.

Lemma arena_rep_put a l p w : arena_rep a l -> p ∈ l.*1 -> arena_rep (put_cell p w a) (store l p w).
Proof.
  intros H Hp. assert (is_Some (acell a p)) as [x Hx].
  { apply (arena_rep_full _ _ H). by rewrite <- (rp_slots _ _ H). }
  pose proof (acell_in_block _ _ _ Hx) as Hb.
  destruct (put_cell_fields p w a) as (Hf1 & Hf2 & Hf3 & Hf4 & _).
  split.
  - by apply put_cell_inv, H.
  - rewrite store_fst, (rp_slots _ _ H). unfold aslots. by rewrite Hf2, Hf3.
  - intros q y Hin. rewrite acell_put by done.
    apply store_in in Hin as [(-> & -> & _)|[Hne Hin]]; [|by case_decide; [|apply (rp_cell _ _ H)]|by eapply arena_rep_nodup].
    by rewrite decide_True.
Qed.

Lemma arena_set_rep a l p w : arena_rep a l -> p ∈ l.*1 -> arena_set p w a = (Ret tt, put_cell p w a).
Proof.
  intros H Hp. assert (is_Some (acell a p)) as [x Hx].
  { apply (arena_rep_full _ _ H). by rewrite <- (rp_slots _ _ H). }
  by eapply arena_set_ret.
Qed.

(** ** Calls *)

Definition fails_cleanly a l (p : option panic_reason) (a' : arena T) : Prop :=
  alloc_fail p /\ arena_rep a' l /\ a_drops a' = a_drops a /\ a_cap a <= a_cap a'.

Lemma arena_alloc_rep e x a l : arena_rep a l ->
  wp (arena_alloc e x)
    (fun p a' => p ∉ l.*1 /\ arena_rep a' (l ++ [(p, x)]) /\ a_drops a' = a_drops a)
    (fun p a' => fails_cleanly a l p a') a.
Proof.
  intros H. eapply wp_mono; [apply arena_alloc_spec, H| |].
  - intros p a' (a1 & Ha1 & Hinv1 & Hlt & Hp & ->).
    assert (arena_rep a1 l /\ a_drops a1 = a_drops a) as [Hrep1 Hd1].
    { destruct Ha1 as [[-> _]|(-> & _ & Hn)]; [done|]. split; [|done].
      eapply arena_rep_ext; [done|]. apply pushed_chunk_ext; [apply H|done]. }
    assert (Hnin : p ∉ l.*1).
    { rewrite (rp_slots _ _ Hrep1), Hp. unfold aslots. intros (i & Hi & Heq)%elem_of_slots.
      apply slotp_inj in Heq; [lia|done|lia|lia]. }
    destruct (put_cell_fields p x a1) as (Hf1 & Hf2 & Hf3 & Hf4 & Hf5).
    assert (Hb : in_block a1 p) by (rewrite Hp; by apply slot_in_block).
    split_and!; [done| |by simpl; rewrite Hf5].
    split.
    + pose proof (put_cell_inv p x a1 Hinv1) as [I1 I2 I3 I4 I5 I6 I7]. split; try done. simpl. rewrite Hf4. lia.
    + rewrite fmap_app, (rp_slots _ _ Hrep1). unfold aslots. simpl. rewrite Hf2.
      replace (N.to_nat (a_len a1 + 1)) with (S (N.to_nat (a_len a1))) by lia.
      rewrite slots_S, N2Nat.id. by rewrite <- Hp.
    + intros q y Hin. change (acell (set_alen (a_len a1 + 1) (put_cell p x a1)) q) with (acell (put_cell p x a1) q).
      rewrite acell_put by done. apply elem_of_app in Hin as [Hin|Hin].
      * rewrite decide_False; [by apply (rp_cell _ _ Hrep1)|]. intros ->. apply Hnin, elem_of_list_fmap. by exists (p, y).
      * apply elem_of_list_singleton in Hin as [= -> ->]. by rewrite decide_True.
  - intros p a' (Hf & Hs & _). split_and!; [done|by eapply arena_rep_same| |]; destruct Hs as [-> _]; done.
Qed.

Lemma arena_reserve_rep e n a l : arena_rep a l ->
  wp (arena_reserve e n)
    (fun _ a' => arena_rep a' l /\ a_drops a' = a_drops a /\ a_cap a <= a_cap a')
    (fun p a' => fails_cleanly a l p a' \/
       (p = Some POverflow /\ a' = a /\ 2 ^ 64 <= N.of_nat (length l) + n)) a.
Proof.
  intros H. unfold arena_reserve, arena_len. apply wp_bind, wp_get. apply wp_bind.
  assert (Hgrow : forall capacity, wp (grow_loop e GROW_FUEL capacity)
    (fun _ a' => arena_rep a' l /\ a_drops a' = a_drops a /\ a_cap a <= a_cap a')
    (fun p a' => fails_cleanly a l p a' \/
       (p = Some POverflow /\ a' = a /\ 2 ^ 64 <= N.of_nat (length l) + n)) a).
  { intros capacity. eapply wp_mono; [apply grow_loop_spec; [apply H|apply grow_fuel_enough]| |].
    - intros _ a' (Hx & _). split_and!; [by eapply arena_rep_ext|apply Hx|by apply arena_ext_cap; [apply H|]].
    - intros p a' (Hf & Hx & _). left. split_and!; [done|by eapply arena_rep_ext|apply Hx|by apply arena_ext_cap; [apply H|]]. }
  unfold uadd. destruct (N.ltb_spec (a_len a + n) USIZE) as [Hlt|Hge].
  { eapply wp_lift_ret; [done|]. apply Hgrow. }
  destruct (e_chk e).
  - unfold wp, slift. right. split_and!; [done|done|]. rewrite <- (arena_rep_len _ _ H). exact Hge.
  - eapply wp_lift_ret; [done|]. apply Hgrow.
Qed.

(** ** The drop loop of clear *)

Record dropping a l (k : nat) a' : Prop := {
  dr_next : a_next a' = a_next a;
  dr_chunks : a_chunks a' = a_chunks a;
  dr_len : a_len a' = a_len a;
  dr_cap : a_cap a' = a_cap a;
  dr_sizes : forall c, b_size <$> a_heap a' !! c = b_size <$> a_heap a !! c;
  dr_k : (k <= length l)%nat;
  dr_drops : a_drops a' = a_drops a ++ take k l.*2;
  dr_cells : forall i p x, (k <= i)%nat -> l !! i = Some (p, x) -> acell a' p = Some x;
}.

Lemma dropping_start a l : arena_rep a l -> dropping a l 0 a.
Proof.
  intros H. split; try done; [lia|by rewrite take_0, app_nil_r|].
  intros i p x _ Hi. by eapply arena_rep_lookup.
Qed.

Lemma dropping_reset a l k a' : dropping a l k a' ->
  reset_len a' = mkArena (a_heap (reset_len a)) (a_next a) (a_chunks a) 0 (a_cap a) (a_drops a ++ take k l.*2).
Proof.
  intros [H1 H2 H3 H4 H5 H6 H7 H8]. unfold reset_len, forget_cells, set_alen, set_heap. simpl.
  rewrite H1, H2, H4, H7. f_equal. apply map_eq. intros c. rewrite !lookup_fmap. specialize (H5 c).
  destruct (a_heap a' !! c), (a_heap a !! c); simpl in *; try done. by injection H5 as ->.
Qed.

Lemma drop_cell_step pn a l k a' p x : arena_rep a l -> dropping a l k a' -> l !! k = Some (p, x) -> pn x = false ->
  exists a'', drop_cell pn p a' = (Ret tt, a'') /\ dropping a l (S k) a''.
Proof.
  intros Hrep H Hk Hpn. pose proof (dr_cells _ _ _ _ H k p x ltac:(lia) Hk) as Hcell.
  unfold drop_cell. apply arena_get_ret in Hcell as Hget. rewrite Hget.
  destruct (acell_in_block _ _ _ Hcell) as (b & Hb & Hlt). rewrite Hb, Hpn. eexists. split; [done|].
  destruct H as [H1 H2 H3 H4 H5 H6 H7 H8]. split; try done; simpl.
  - intros c. destruct (decide (c = p.1)) as [->|Hne]; [|by rewrite lookup_insert_ne].
    rewrite lookup_insert. rewrite <- H5, Hb. done.
  - apply lookup_lt_Some in Hk. lia.
  - rewrite H7, <- app_assoc. f_equal. erewrite take_S_r; [done|]. by rewrite list_lookup_fmap, Hk.
  - intros i q y Hi Hl. specialize (H8 i q y ltac:(lia) Hl).
    assert (q <> p).
    { intros ->. pose proof (arena_rep_nodup _ _ Hrep) as Hnd.
      enough (i = k) by lia. eapply (NoDup_lookup l.*1); [done| |]; rewrite list_lookup_fmap; [by rewrite Hl|by rewrite Hk]. }
    unfold acell in *. simpl. destruct p as [p1 p2], q as [q1 q2]; simpl in *.
    destruct (decide (q1 = p1)) as [->|Hne1]; [|by rewrite lookup_insert_ne].
    rewrite lookup_insert. simpl. rewrite Hb in H8. rewrite lookup_delete_ne by congruence. done.
Qed.

Lemma clear_items_spec e pn a l j c : arena_rep a l -> Forall (fun x => pn x = false) l.*2 ->
  a_chunks a !! j = Some c ->
  forall fuel i k a', (N.to_nat (a_len a) - k < fuel)%nat -> dropping a l k a' ->
  N.of_nat k = cfirst (N.of_nat j) + i -> i <= clen (N.of_nat j) ->
  exists k' b a'', clear_items e pn (S fuel) c (clen (N.of_nat j)) i (N.of_nat k) a' = (Ret (N.of_nat k', b), a'') /\
    dropping a l k' a'' /\ (if b : bool then N.of_nat k' = cfirst (N.of_nat j + 1) else k' = length l).
Proof.
  intros Hrep Hpn Hj fuel. pose proof (arena_rep_len _ _ Hrep) as Hlen.
  induction fuel as [|fuel IH]; intros i k a' Hfuel Hd Hk Hi; [lia|].
  remember (S fuel) as f eqn:Hf. cbn [clear_items].
  destruct (N.ltb_spec i (clen (N.of_nat j))) as [Hlt|Hge].
  2:{ exists k, true, a'. split_and!; [done|done|]. rewrite cfirst_S. lia. }
  unfold sbind at 1, sget. cbn beta iota. rewrite (dr_len _ _ _ _ Hd).
  pose proof (dr_k _ _ _ _ Hd) as Hkl.
  destruct (N.eqb_spec (N.of_nat k) (a_len a)) as [Heq|Hne].
  { exists k, false, a'. split_and!; [done|done|]. lia. }
  assert (Hk' : (k < length l)%nat) by lia.
  apply lookup_lt_is_Some in Hk' as [[p x] Hpx].
  assert (p = (c, i)) as ->.
  { destruct (arena_rep_lookup _ _ _ _ _ Hrep Hpx) as [-> _]. unfold slotp, ii_of.
    rewrite (ci_unique (N.of_nat k) (N.of_nat j)); [|rewrite cfirst_S; lia].
    rewrite Nat2N.id, Hj. simpl. f_equal. lia. }
  assert (Hx : pn x = false).
  { rewrite Forall_lookup in Hpn. apply (Hpn k). by rewrite list_lookup_fmap, Hpx. }
  destruct (drop_cell_step pn a l k a' (c, i) x Hrep Hd Hpx Hx) as (a'' & Hdc & Hd'').
  unfold sbind at 1. rewrite Hdc. unfold sbind at 1, slift. rewrite uadd_ret.
  2:{ pose proof (ai_len _ (rp_inv _ _ Hrep)). pose proof (ai_cap _ (rp_inv _ _ Hrep)) as Hc.
      pose proof (cfirst_mono _ 60 (ai_n _ (rp_inv _ _ Hrep))) as Hm. rewrite cfirst_60 in Hm.
      change USIZE with (2 ^ 64). lia. }
  subst f. replace (N.of_nat k + 1) with (N.of_nat (S k)) by lia.
  apply (IH (i + 1) (S k) a''); [lia|done|lia|lia].
Qed.

Lemma clear_chunks_spec e pn a l : arena_rep a l -> Forall (fun x => pn x = false) l.*2 ->
  forall cs j k a', a_chunks a = take j (a_chunks a) ++ cs -> (j + length cs = length (a_chunks a))%nat ->
  dropping a l k a' -> N.of_nat k = cfirst (N.of_nat j) ->
  exists a'', clear_chunks e pn (N.of_nat j) cs (N.of_nat k) a' = (Ret (N.of_nat (length l)), a'') /\
    dropping a l (length l) a''.
Proof.
  intros Hrep Hpn. pose proof (arena_rep_len _ _ Hrep) as Hlen. pose proof (rp_inv _ _ Hrep) as Hinv.
  induction cs as [|c cs IH]; intros j k a' Hcs Hj Hd Hk; cbn [clear_chunks].
  - assert (k = length l) as ->; [|by exists a'].
    pose proof (dr_k _ _ _ _ Hd). pose proof (ai_len _ Hinv). pose proof (ai_cap _ Hinv) as Hc.
    unfold nchunks in Hc. simpl in Hj. replace (length (a_chunks a)) with j in Hc by lia. lia.
  - assert (Hlk : a_chunks a !! j = Some c).
    { rewrite Hcs. rewrite lookup_app_r; rewrite take_length_le by lia; [|lia]. by rewrite Nat.sub_diag. }
    pose proof (ai_n _ Hinv) as Hn. unfold nchunks in Hn. cbn [length] in Hj.
    unfold sbind at 1, slift. rewrite chunk_len_ret by lia. unfold sbind at 1, sget.
    destruct (ai_chunk _ Hinv j c Hlk) as (b & Hb & Hsz).
    pose proof (dr_sizes _ _ _ _ Hd c) as Hs. rewrite Hb in Hs.
    destruct (a_heap a' !! c) as [b'|] eqn:Hb'; [|done]. simpl in Hs. injection Hs as Hs.
    rewrite Hs, Hsz. rewrite N.ltb_irrefl.
    destruct (clear_items_spec e pn a l j c Hrep Hpn Hlk (S (N.to_nat (a_len a' - N.of_nat k))) 0 k a')
      as (k' & b0 & a'' & Hrun & Hd'' & Hres).
    + rewrite (dr_len _ _ _ _ Hd). lia.
    + done.
    + lia.
    + lia.
    + unfold sbind at 1. rewrite Hrun. destruct b0.
      * replace (N.of_nat j + 1) with (N.of_nat (S j)) in * by lia. apply IH; [|lia|done|done].
        rewrite (take_S_r _ _ _ Hlk), <- app_assoc. done.
      * subst k'. by exists a''.
Qed.

Lemma arena_clear_rep e nd pn a l : arena_rep a l -> Forall (fun x => pn x = false) l.*2 ->
  exists a', arena_clear e nd pn a = (Ret tt, a') /\ arena_rep a' [] /\ a_cap a' = a_cap a /\
    a_chunks a' = a_chunks a /\ a_drops a' = a_drops a ++ (if nd then l.*2 else []).
Proof.
  intros Hrep Hpn. pose proof (arena_rep_len _ _ Hrep) as Hlen. pose proof (rp_inv _ _ Hrep) as Hinv.
  unfold arena_clear. unfold sbind at 1, sget.
  assert (Hreset : arena_rep (reset_len a) []) by by apply arena_rep_empty; [apply reset_len_inv|].
  destruct nd; cbn [negb orb]; [|eexists; split_and!; try done; simpl; by rewrite app_nil_r].
  unfold arena_is_empty, arena_len. rewrite Hlen. destruct (N.eqb_spec (N.of_nat (length l)) 0) as [Hz|Hz].
  { destruct l; [|done]. eexists; split_and!; try done; simpl; by rewrite app_nil_r. }
  destruct (clear_chunks_spec e pn a l Hrep Hpn (a_chunks a) 0 0 a) as (a' & Hrun & Hd); [done|done|by apply dropping_start|done|].
  unfold sbind at 1. change (N.of_nat 0) with 0 in Hrun. rewrite Hrun. unfold sbind at 1, sget, slift. unfold sbind.
  rewrite dassert_ret by (apply N.eqb_eq; by rewrite (dr_len _ _ _ _ Hd)).
  unfold smod. eexists. split; [done|]. rewrite (dropping_reset _ _ _ _ Hd).
  split_and!; [|done|done|].
  - apply arena_rep_empty; [|done]. destruct (reset_len_inv _ Hinv) as [I1 I2 I3 I4 I5 I6 I7]. by split.
  - simpl. rewrite take_ge; [done|]. by rewrite fmap_length.
Qed.

Lemma arena_drop_rep e nd pn a l : arena_rep a l -> Forall (fun x => pn x = false) l.*2 ->
  exists a', arena_drop e nd pn a = (Ret tt, a') /\ a_heap a' = ∅ /\ a_drops a' = a_drops a ++ (if nd then l.*2 else []).
Proof.
  intros Hrep Hpn. destruct (arena_clear_rep e nd pn a l Hrep Hpn) as (a' & Hc & Hrep' & _ & _ & Hd).
  unfold arena_drop. unfold sbind at 1. rewrite Hc.
  pose proof (arena_drop_nodrop e (fun _ => false) a' (rp_inv _ _ Hrep')) as Hn.
  unfold sbind, sget. pose proof (rp_inv _ _ Hrep') as Hinv'.
  rewrite free_chunks_spec; [by eexists| | |apply Hinv'|].
  - intros j c Hj. destruct (ai_chunk _ Hinv' j c Hj) as (b & Hb & Hs). exists b. by rewrite Hs.
  - apply Hinv'.
  - apply (ai_n _ Hinv').
Qed.

(** ** Iteration *)

(** The elements with indexes from [i] up to but excluding [j]. *)
Definition between {A} (l : list A) (i j : nat) : list A := take (j - i) (drop i l).

Lemma between_length {A} (l : list A) i j : (j <= length l)%nat -> length (between l i j) = (j - i)%nat.
Proof. intros. unfold between. rewrite take_length, drop_length. lia. Qed.
Lemma between_head {A} (l : list A) i j : (i < j)%nat -> head (between l i j) = l !! i.
Proof.
  intros. unfold between. replace (j - i)%nat with (S (j - i - 1)) by lia.
  rewrite head_lookup, lookup_take by lia. by rewrite lookup_drop, Nat.add_0_r.
Qed.
Lemma between_tail {A} (l : list A) i j : (i < j)%nat -> tail (between l i j) = between l (S i) j.
Proof.
  intros. unfold between. replace (j - i)%nat with (S (j - S i)) by lia.
  destruct (drop i l) as [|x l'] eqn:Hd.
  - simpl. replace (drop (S i) l) with (@nil A); [by rewrite take_nil|].
    symmetry. apply length_zero_iff_nil. apply (f_equal length) in Hd. rewrite drop_length in *. simpl in Hd. lia.
  - simpl. f_equal. replace (S i) with (i + 1)%nat by lia. rewrite <- drop_drop, Hd. done.
Qed.
Lemma between_last {A} (l : list A) i j : (i < j <= length l)%nat -> last (between l i j) = l !! (j - 1)%nat.
Proof.
  intros. rewrite last_lookup, between_length by lia. unfold between. rewrite lookup_take by lia.
  rewrite lookup_drop. f_equal. lia.
Qed.
Lemma between_removelast {A} (l : list A) i j : (i < j <= length l)%nat -> removelast (between l i j) = between l i (j - 1).
Proof.
  intros. unfold between. replace (j - i)%nat with (S (j - 1 - i)) by lia.
  rewrite removelast_firstn; [done|]. rewrite drop_length. lia.
Qed.
Lemma between_nil {A} (l : list A) i j : (j <= i)%nat -> between l i j = [].
Proof. intros. unfold between. by replace (j - i)%nat with 0%nat by lia. Qed.
Lemma between_all {A} (l : list A) : between l 0 (length l) = l.
Proof. unfold between. rewrite drop_0, Nat.sub_0_r. by apply take_ge. Qed.
Lemma between_insert {A} (l : list A) i j k x : (k < i \/ j <= k)%nat -> between (<[k := x]> l) i j = between l i j.
Proof.
  intros H. apply list_eq. intros n. unfold between.
  destruct (decide (n < j - i)%nat) as [Hn|Hn].
  - rewrite !lookup_take by lia. rewrite !lookup_drop. rewrite list_lookup_insert_ne by lia. done.
  - rewrite !lookup_take_ge by lia. done.
Qed.

Lemma store_insert l i p x w : NoDup l.*1 -> l !! i = Some (p, x) -> store l p w = <[i := (p, w)]> l.
Proof.
  revert i. induction l as [|[q y] l IH]; intros i Hnd Hi; [done|]. csimpl in *.
  apply NoDup_cons in Hnd as [Hq Hnd]. cbn [store]. destruct i as [|i]; simpl in Hi.
  - injection Hi as -> ->. by rewrite decide_True.
  - case_decide as Heq.
    + subst q. destruct Hq. apply elem_of_list_fmap. exists (p, x). split; [done|]. by eapply elem_of_list_lookup_2.
    + simpl. f_equal. by apply IH.
Qed.

Definition good_range l (r : range) : Prop := r_start r <= r_end r <= N.of_nat (length l).
Definition left_of l (r : range) : list (Ptr * T) := between l (N.to_nat (r_start r)) (N.to_nat (r_end r)).

(** One call at either end: what it returns, and what is left. *)
Lemma end_ptr_spec e a l d r : arena_rep a l -> good_range l r ->
  exists y r', end_ptr e a d r = (Ret y, r') /\ good_range l r' /\
    iter_size r = N.of_nat (length (left_of l r)) /\
    (y = match d with AtFront => head (left_of l r) | AtBack => last (left_of l r) end) /\
    (left_of l r' = match d with AtFront => tail (left_of l r) | AtBack => removelast (left_of l r) end) /\
    (forall p x w, y = Some (p, x) -> exists i, l !! i = Some (p, x) /\ left_of (<[i := (p, w)]> l) r' = left_of l r').
Proof.
  intros Hrep [Hr1 Hr2]. pose proof (arena_rep_len _ _ Hrep) as Hlen.
  assert (Hsz : iter_size r = N.of_nat (length (left_of l r))).
  { unfold left_of. rewrite between_length by lia. unfold iter_size. lia. }
  destruct (N.eq_dec (r_start r) (r_end r)) as [Heq|Hne].
  { assert (Hnil : left_of l r = []) by (apply between_nil; lia).
    exists None, r. destruct d; cbn [end_ptr]; rewrite ?Hnil; (split; [first [apply next_ptr_none|apply next_back_ptr_none]; lia|]);
      (split_and!; [done|by rewrite Hsz, Hnil|done|done|done]). }
  assert (Hlook : forall i, (i < length l)%nat -> exists p x, l !! i = Some (p, x) /\
     p = slotp (a_chunks a) (N.of_nat i) /\ acell a p = Some x).
  { intros i Hi. apply lookup_lt_is_Some in Hi as [[p x] Hi]. exists p, x. split; [done|].
    by eapply arena_rep_lookup. }
  destruct d; cbn [end_ptr].
  - destruct (next_ptr_some e a r (rp_inv _ _ Hrep) (arena_rep_full _ _ Hrep) ltac:(lia) ltac:(lia)) as (x & Hx & ->).
    destruct (Hlook (N.to_nat (r_start r)) ltac:(lia)) as (p & x' & Hl & Hp & Hx').
    rewrite N2Nat.id in Hp. rewrite <- Hp, Hx' in Hx. injection Hx as <-.
    assert (Hleft : left_of l (mkRange (r_start r + 1) (r_end r)) = tail (left_of l r)).
    { unfold left_of. cbn [r_start r_end]. rewrite between_tail by lia. f_equal. lia. }
    eexists _, _. split; [done|]. split_and!; [split; simpl; lia|done| |done|].
    + unfold left_of. rewrite between_head by lia. by rewrite Hl, Hp.
    + intros q y w [= <- <-]. exists (N.to_nat (r_start r)). rewrite <- Hp. split; [done|].
      apply between_insert. left. cbn [r_start]. lia.
  - destruct (next_back_ptr_some e a r (rp_inv _ _ Hrep) (arena_rep_full _ _ Hrep) ltac:(lia) ltac:(lia)) as (x & Hx & ->).
    destruct (Hlook (N.to_nat (r_end r - 1)) ltac:(lia)) as (p & x' & Hl & Hp & Hx').
    rewrite N2Nat.id in Hp. rewrite <- Hp, Hx' in Hx. injection Hx as <-.
    assert (Hleft : left_of l (mkRange (r_start r) (r_end r - 1)) = removelast (left_of l r)).
    { unfold left_of. cbn [r_start r_end]. rewrite between_removelast by lia. f_equal. lia. }
    eexists _, _. split; [done|]. split_and!; [split; simpl; lia|done| |done|].
    + unfold left_of. rewrite between_last by lia. replace (N.to_nat (r_end r) - 1)%nat with (N.to_nat (r_end r - 1)) by lia.
      by rewrite Hl, Hp.
    + intros q y w [= <- <-]. exists (N.to_nat (r_end r - 1)). rewrite <- Hp. split; [done|].
      apply between_insert. right. cbn [r_end]. lia.
Qed.

Lemma iter_calls_spec e a l : arena_rep a l -> forall ds r, good_range l r ->
  arena_iter_calls e a ds r = Ret (from_ends (left_of l r) ds).
Proof.
  intros Hrep. induction ds as [|d ds IH]; intros r Hr; cbn [arena_iter_calls from_ends]; [done|].
  destruct (end_ptr_spec e a l d r Hrep Hr) as (y & r' & -> & Hr' & Hsz & Hy & Hl & _).
  cbn [rbind]. rewrite IH by done. cbn [rbind]. rewrite Hsz, Hy, Hl. by destruct d.
Qed.

Lemma iter_new_range a l : arena_rep a l -> good_range l (iter_new a) /\ left_of l (iter_new a) = l.
Proof.
  intros H. unfold iter_new, arena_len. rewrite (arena_rep_len _ _ H). split; [split; simpl; lia|].
  unfold left_of. cbn [r_start r_end]. rewrite Nat2N.id. apply between_all.
Qed.

Lemma iter_mut_calls_spec e : forall ds r a l, arena_rep a l -> good_range l r ->
  exists a', arena_iter_mut_calls e ds r a = (Ret (from_ends (left_of l r) ds.*1), a') /\
    arena_rep a' (store_yielded l (from_ends (left_of l r) ds.*1) ds.*2) /\
    a_drops a' = a_drops a /\ a_cap a' = a_cap a.
Proof.
  induction ds as [|[d w] ds IH]; intros r a l Hrep Hr; cbn [arena_iter_mut_calls].
  { by exists a. }
  destruct (end_ptr_spec e a l d r Hrep Hr) as (y & r' & Hp & Hr' & Hsz & Hy & Hl & Hw).
  assert (Hends : from_ends (left_of l r) (((d, w) :: ds).*1) = (iter_size r, y) :: from_ends (left_of l r') ds.*1).
  { csimpl. rewrite Hsz, Hy, Hl. by destruct d. }
  rewrite Hends. csimpl. unfold sbind at 1, sget. rewrite Hp. unfold sbind at 1, slift. unfold sbind at 1.
  destruct y as [[p x]|].
  - destruct w as [w|]; cbn [store_yielded].
    + destruct (Hw p x w eq_refl) as (i & Hi & Hleft).
      assert (Hin : p ∈ l.*1) by (apply elem_of_list_fmap; exists (p, x); split; [done|by eapply elem_of_list_lookup_2]).
      rewrite (arena_set_rep a l p w Hrep Hin). pose proof (arena_rep_put a l p w Hrep Hin) as Hrep'.
      rewrite (store_insert l i p x w (arena_rep_nodup _ _ Hrep) Hi) in *.
      destruct (put_cell_fields p w a) as (_ & _ & _ & Hf4 & Hf5).
      destruct (IH r' _ _ Hrep') as (a' & Hrun & Hrep'' & Hd & Hc).
      { destruct Hr'. split; [done|]. by rewrite insert_length. }
      rewrite Hleft in *. unfold sbind. rewrite Hrun. exists a'. split_and!; [done|done|congruence|congruence].
    + unfold sret at 1. destruct (IH r' a l Hrep Hr') as (a' & Hrun & Hrep' & Hd & Hc).
      unfold sbind. rewrite Hrun. by exists a'.
  - unfold sret at 1. destruct (IH r' a l Hrep Hr') as (a' & Hrun & Hrep' & Hd & Hc).
    unfold sbind. rewrite Hrun. exists a'. split_and!; [done| |done|done]. by destruct w.
Qed.

(** Whatever the interleaving, the list splits into what came out at the front, what
    is left, and what came out at the back. *)
Lemma from_ends_split {A} (ds : list iter_end) : forall l : list A, exists mid,
  l = came_out AtFront ds (from_ends l ds) ++ mid ++ reverse (came_out AtBack ds (from_ends l ds)) /\
  length mid = (length l - length ds)%nat.
Proof.
  induction ds as [|d ds IH]; intros l; cbn [from_ends came_out].
  { exists l. cbn [length]. split; [by rewrite app_nil_r|lia]. }
  destruct d.
  - destruct l as [|x l]; cbn [came_out from_ends head tail end_is length].
    + destruct (IH []) as (mid & H1 & H2). exists mid. split; [exact H1|]. simpl in *. lia.
    + destruct (IH l) as (mid & H1 & H2). exists mid. cbn [tail]. split; [|simpl in *; lia].
      rewrite <- app_comm_cons. by f_equal.
  - destruct l as [|x l _] using rev_ind.
    + cbn [came_out from_ends last]. destruct (IH []) as (mid & H1 & H2). exists mid. split; [exact H1|]. simpl in *. lia.
    + cbn [came_out from_ends]. rewrite last_snoc, removelast_last. cbn [end_is].
      destruct (IH l) as (mid & H1 & H2). exists mid. split; [|rewrite app_length; simpl in *; lia].
      rewrite reverse_cons. rewrite !app_assoc. f_equal. by rewrite <- app_assoc.
Qed.

Lemma from_ends_none {A} (ds : list iter_end) : forall (l : list A) i n y, from_ends l ds !! i = Some (n, y) ->
  n = N.of_nat (length l - i) /\ (y = None <-> (length l <= i)%nat).
Proof.
  assert (Hrem : forall l : list A, length (removelast l) = (length l - 1)%nat).
  { intros l. destruct l as [|x l _] using rev_ind; [done|]. rewrite removelast_last, app_length. simpl. lia. }
  assert (Hlast : forall l : list A, last l = None <-> (length l <= 0)%nat).
  { intros l. rewrite last_None. split; [by intros ->|]. destruct l; [done|]. simpl. lia. }
  induction ds as [|d ds IH]; intros l i n y; cbn [from_ends]; [done|].
  destruct d, i as [|i]; cbn [lookup list_lookup].
  - intros [= <- <-]. split; [f_equal; lia|]. destruct l; simpl; (split; [done||lia|done||lia]).
  - intros H. apply IH in H as [H1 H2]. assert (Hl : length (tail l) = (length l - 1)%nat) by (destruct l; simpl; lia).
    rewrite Hl in *. split; [rewrite H1; f_equal; lia|]. rewrite H2. lia.
  - intros [= <- <-]. split; [f_equal; lia|apply Hlast].
  - intros H. apply IH in H as [H1 H2]. rewrite Hrem in *. split; [rewrite H1; f_equal; lia|]. rewrite H2. lia.
Qed.

Lemma arena_debug_spec e a l : arena_rep a l -> arena_debug e a = Ret l.*2.
Proof.
  intros Hrep. unfold arena_debug, iter_new, arena_len. rewrite (arena_rep_len _ _ Hrep), Nat2N.id.
  enough (H : forall fuel i, (length l - i < fuel)%nat -> (i <= length l)%nat ->
    arena_debug_loop e fuel a (mkRange (N.of_nat i) (N.of_nat (length l))) = Ret (drop i l.*2)).
  { change 0 with (N.of_nat 0). rewrite H by lia. by rewrite drop_0. }
  induction fuel as [|fuel IH]; intros i Hf Hi; [lia|]. cbn [arena_debug_loop].
  destruct (decide (i = length l)) as [->|Hne].
  { rewrite next_ptr_none by (simpl; lia). cbn [rbind]. by rewrite drop_ge by (rewrite fmap_length; lia). }
  assert (Hi1 : (i < length l)%nat) by lia. apply lookup_lt_is_Some in Hi1 as [[p x] Hl].
  destruct (arena_rep_lookup _ _ _ _ _ Hrep Hl) as [Hp Hc].
  destruct (next_ptr_some e a (mkRange (N.of_nat i) (N.of_nat (length l))) (rp_inv _ _ Hrep) (arena_rep_full _ _ Hrep))
    as (y & Hy & ->); [simpl; lia|simpl; rewrite (arena_rep_len _ _ Hrep); lia|].
  cbn [r_start r_end] in *. rewrite <- Hp, Hc in Hy. injection Hy as <-. cbn [rbind].
  replace (N.of_nat i + 1) with (N.of_nat (S i)) by lia. rewrite IH by lia. cbn [rbind].
  rewrite (drop_S l.*2 x i); [done|]. by rewrite list_lookup_fmap, Hl.
Qed.

(** ** One call, any call *)

Lemma arena_exec_spec e c a l : arena_rep a l -> arena_legal l c ->
  match arena_exec e c a with
  | (r, a') => arena_answers l c r /\
      (process_on r -> arena_rep a' (arena_after l c r) /\
         a_drops a' = a_drops a ++ match c, r with AClear _, Ret _ => if e_nd e then l.*2 else [] | _, _ => [] end)
  end.
Proof.
  intros Hrep Hleg. pose proof (arena_rep_len _ _ Hrep) as Hlen.
  destruct c as [x|p|p x|n| |pn| | | |ds|ds]; cbn [arena_exec arena_legal arena_answers] in *.
  - pose proof (arena_alloc_rep e x a l Hrep) as H. unfold wp in H. unfold sbind.
    destruct (arena_alloc e x a) as [[p|pa| | |] a']; try done.
    + destruct H as (Hp & Hr & Hd). split; [left; by exists p|]. intros _. split; [done|]. by rewrite Hd, app_nil_r.
    + destruct H as (Hf & Hr & Hd & _). split; [right; unfold no_room, alloc_fail in *; naive_solver|].
      intros _. split; [done|]. by rewrite Hd, app_nil_r.
    + split; [right; unfold no_room; naive_solver|]. intros [].
  - apply elem_of_list_fmap in Hleg as ([q x] & -> & Hin). pose proof (rp_cell _ _ Hrep _ _ Hin) as Hc.
    apply arena_get_ret in Hc. unfold sbind, sget, slift, sret. cbn [fst]. rewrite Hc. split; [eauto|]. intros _.
    split; [done|]. by rewrite app_nil_r.
  - unfold sbind. rewrite (arena_set_rep a l p x Hrep Hleg). split; [done|]. intros _. split; [by apply arena_rep_put|].
    destruct (put_cell_fields p x a) as (_ & _ & _ & _ & ->). by rewrite app_nil_r.
  - pose proof (arena_reserve_rep e n a l Hrep) as H. unfold wp in H. unfold sbind.
    destruct (arena_reserve e n a) as [[[]|pa| | |] a']; try done.
    + destruct H as (Hr & Hd & _). split; [by left|]. intros _. split; [done|]. by rewrite Hd, app_nil_r.
    + destruct H as [(Hf & Hr & Hd & _)|([= ->] & -> & Hov)].
      * split; [right; left; unfold no_room, alloc_fail in *; naive_solver|].
        intros _. split; [done|]. by rewrite Hd, app_nil_r.
      * split; [by right; right|]. intros _. split; [done|]. by rewrite app_nil_r.
    + split; [right; left; unfold no_room; naive_solver|]. intros [].
  - pose proof (arena_shrink_spec e a (rp_inv _ _ Hrep)) as H. unfold wp in H. unfold sbind.
    destruct (arena_shrink_to_fit e a) as [[[]|pa| | |] a']; try done.
    destruct H as [Hs _]. split; [done|]. intros _. split; [by eapply arena_rep_shrunk|].
    by rewrite (as_drops _ _ Hs), app_nil_r.
  - destruct (arena_clear_rep e (e_nd e) pn a l Hrep Hleg) as (a' & Hc & Hr & _ & _ & Hd).
    unfold sbind. rewrite Hc. split; [done|]. intros _. done.
  - unfold sbind, sget, sret, arena_len. split; [by rewrite Hlen|]. intros _. split; [done|]. by rewrite app_nil_r.
  - unfold sbind, sget, sret, arena_is_empty, arena_len. split; [rewrite Hlen; by destruct l|]. intros _. split; [done|]. by rewrite app_nil_r.
  - unfold sbind, sget, sret, arena_capacity. split; [eexists; split; [done|]; rewrite <- Hlen; apply (ai_len _ (rp_inv _ _ Hrep))|].
    intros _. split; [done|]. by rewrite app_nil_r.
  - destruct (iter_new_range a l Hrep) as [Hr Hl]. unfold sbind, sget, slift. rewrite (iter_calls_spec e a l Hrep) by done.
    rewrite Hl. split; [done|]. intros _. split; [done|]. by rewrite app_nil_r.
  - destruct (iter_new_range a l Hrep) as [Hr Hl]. unfold sbind, sget.
    destruct (iter_mut_calls_spec e ds (iter_new a) a l Hrep Hr) as (a' & Hrun & Hrep' & Hd & _).
    rewrite Hl in *. rewrite Hrun. split; [done|]. intros _. split; [done|]. by rewrite Hd, app_nil_r.
Qed.

Lemma arena_run_spec e : forall cs a l rs a', arena_rep a l -> arena_run e cs a = (rs, a') ->
  arena_contract l cs rs ->
  arena_results l cs rs /\
  (Forall process_on rs -> arena_rep a' (arena_contents l cs rs) /\
     a_drops a' = a_drops a ++ arena_dropped (e_nd e) l cs rs).
Proof.
  induction cs as [|c cs IH]; intros a l rs a' Hrep Hrun Hct; cbn [arena_run] in Hrun.
  { injection Hrun as <- <-. split; [done|]. intros _. split; [done|]. by rewrite app_nil_r. }
  assert (Hleg : arena_legal l c) by (destruct rs; [exact Hct|apply Hct]).
  pose proof (arena_exec_spec e c a l Hrep Hleg) as H.
  destruct (arena_exec e c a) as [r a1]. destruct H as [Hans Hon].
  assert (Hgo : process_on r -> forall rs1, arena_run e cs a1 = (rs1, a') -> arena_contract l (c :: cs) (r :: rs1) ->
    arena_results l (c :: cs) (r :: rs1) /\
    (Forall process_on (r :: rs1) -> arena_rep a' (arena_contents l (c :: cs) (r :: rs1)) /\
       a_drops a' = a_drops a ++ arena_dropped (e_nd e) l (c :: cs) (r :: rs1))).
  { intros Hp rs1 Hrun1 [_ Hct1]. destruct (Hon Hp) as [Hrep1 Hd1].
    destruct (IH _ _ _ _ Hrep1 Hrun1 Hct1) as [Hres Hfin]. split.
    - split; [done|]. by left.
    - intros [_ Hall]%Forall_cons. destruct (Hfin Hall) as [Hr Hd]. split; [done|].
      cbn [arena_dropped]. rewrite app_assoc, <- Hd1. done. }
  destruct r as [x|p| |u|].
  - destruct (arena_run e cs a1) as [rs1 a2] eqn:H1. injection Hrun as <- <-. by apply Hgo.
  - destruct (arena_run e cs a1) as [rs1 a2] eqn:H1. injection Hrun as <- <-. by apply Hgo.
  - injection Hrun as <- <-. split; [split; [done|right]; split; [tauto|done]|]. by intros [[] _]%Forall_cons.
  - injection Hrun as <- <-. split; [split; [done|right]; split; [tauto|done]|]. by intros [[] _]%Forall_cons.
  - injection Hrun as <- <-. split; [split; [done|right]; split; [tauto|done]|]. by intros [[] _]%Forall_cons.
Qed.

Lemma arena_begin_spec e n a : arena_begin e n = (Ret tt, a) -> arena_rep a [] /\ a_drops a = [].
Proof.
  destruct n as [n|]; cbn [arena_begin].
  - pose proof (arena_with_capacity_spec (T:=T) e n) as H. intros Heq. rewrite Heq in H.
    destruct H as (Hinv & Hl & _ & Hd & _). split; [by apply arena_rep_empty|done].
  - intros [= <-]. split; [apply arena_rep_new|done].
Qed.

(** ** Histories *)

Lemma arena_history e n cs rs a : arena_reached e n cs rs a -> arena_contract [] cs rs ->
  arena_results [] cs rs.
Proof.
  intros (a0 & Hb & Hrun) Hct. apply arena_begin_spec in Hb as [Hrep _].
  by eapply arena_run_spec.
Qed.

Lemma arena_final e n cs rs a : arena_reached e n cs rs a -> arena_contract [] cs rs -> Forall process_on rs ->
  arena_rep a (arena_contents [] cs rs) /\ a_drops a = arena_dropped (e_nd e) [] cs rs.
Proof.
  intros (a0 & Hb & Hrun) Hct Hall. apply arena_begin_spec in Hb as [Hrep Hd].
  destruct (arena_run_spec e cs a0 [] rs a Hrep Hrun Hct) as [_ Hfin]. destruct (Hfin Hall) as [H1 H2].
  split; [done|]. by rewrite H2, Hd.
Qed.

Lemma arena_reads e n cs rs a p x : arena_reached e n cs rs a -> arena_contract [] cs rs -> Forall process_on rs ->
  (p, x) ∈ arena_contents [] cs rs -> arena_get a p = Ret x.
Proof. intros H1 H2 H3 Hin. destruct (arena_final _ _ _ _ _ H1 H2 H3) as [Hrep _]. apply arena_get_ret. by apply (rp_cell _ _ Hrep). Qed.

Lemma arena_addresses e n cs rs a : arena_reached e n cs rs a -> arena_contract [] cs rs -> Forall process_on rs ->
  NoDup (arena_contents [] cs rs).*1.
Proof. intros H1 H2 H3. destruct (arena_final _ _ _ _ _ H1 H2 H3) as [Hrep _]. by eapply arena_rep_nodup. Qed.

Lemma arena_begin_cases e n : match arena_begin (T:=T) e n with
  | (Ret _, a) => default 0 n <= arena_capacity a /\ arena_len a = 0
  | (r, a) => no_room r /\ (r = Abort \/ a_heap a = ∅)
  end.
Proof.
  destruct n as [n|]; cbn [arena_begin default from_option id]; [|done].
  pose proof (arena_with_capacity_spec (T:=T) e n) as H.
  destruct (arena_with_capacity e n) as [[[]|p| | |] a]; try done.
  - split; apply H.
  - destruct H as (Hf & Hh & _). split; [unfold no_room, alloc_fail in *; naive_solver|by right].
  - split; [unfold no_room; naive_solver|by left].
Qed.

(** ** Comparing and clearing *)

Lemma arena_eq_loop_spec e eqT a1 a2 l1 l2 : arena_rep a1 l1 -> arena_rep a2 l2 -> length l1 = length l2 ->
  forall fuel i, (length l1 - i < fuel)%nat -> (i <= length l1)%nat ->
  arena_eq_loop eqT e fuel a1 a2 (mkRange (N.of_nat i) (N.of_nat (length l1))) (mkRange (N.of_nat i) (N.of_nat (length l2)))
  = Ret (eq_values eqT (drop i l1.*2) (drop i l2.*2)).
Proof.
  intros H1 H2 Hlen. induction fuel as [|fuel IH]; intros i Hf Hi; [lia|]. cbn [arena_eq_loop].
  destruct (decide (i = length l1)) as [->|Hne].
  { rewrite next_ptr_none by (simpl; lia). cbn [rbind].
    rewrite !drop_ge by (rewrite fmap_length; lia). done. }
  assert (Hi1 : (i < length l1)%nat) by lia. assert (Hi2 : (i < length l2)%nat) by lia.
  apply lookup_lt_is_Some in Hi1 as [[p1 x1] Hl1]. apply lookup_lt_is_Some in Hi2 as [[p2 x2] Hl2].
  destruct (arena_rep_lookup _ _ _ _ _ H1 Hl1) as [Hp1 Hc1]. destruct (arena_rep_lookup _ _ _ _ _ H2 Hl2) as [Hp2 Hc2].
  destruct (next_ptr_some e a1 (mkRange (N.of_nat i) (N.of_nat (length l1))) (rp_inv _ _ H1) (arena_rep_full _ _ H1))
    as (y1 & Hy1 & ->); [simpl; lia|simpl; rewrite (arena_rep_len _ _ H1); lia|].
  destruct (next_ptr_some e a2 (mkRange (N.of_nat i) (N.of_nat (length l2))) (rp_inv _ _ H2) (arena_rep_full _ _ H2))
    as (y2 & Hy2 & ->); [simpl; lia|simpl; rewrite (arena_rep_len _ _ H2); lia|].
  cbn [r_start r_end] in *. rewrite <- Hp1, Hc1 in Hy1. rewrite <- Hp2, Hc2 in Hy2. injection Hy1 as <-. injection Hy2 as <-.
  cbn [rbind]. rewrite (drop_S l1.*2 x1 i) by by rewrite list_lookup_fmap, Hl1.
  rewrite (drop_S l2.*2 x2 i) by by rewrite list_lookup_fmap, Hl2. cbn [eq_values].
  destruct (eqT x1 x2); [|done]. replace (N.of_nat i + 1) with (N.of_nat (S i)) by lia. apply IH; lia.
Qed.

Lemma arena_eq_rep e eqT a1 a2 l1 l2 : arena_rep a1 l1 -> arena_rep a2 l2 ->
  arena_eq eqT e a1 a2 = Ret (eq_values eqT l1.*2 l2.*2).
Proof.
  intros H1 H2. unfold arena_eq, iter_new, arena_len. rewrite (arena_rep_len _ _ H1), (arena_rep_len _ _ H2).
  destruct (N.eqb_spec (N.of_nat (length l1)) (N.of_nat (length l2))) as [Heq|Hne]; cbn [negb].
  - rewrite Nat2N.id. change 0 with (N.of_nat 0).
    rewrite (arena_eq_loop_spec e eqT a1 a2 l1 l2 H1 H2) by lia. by rewrite !drop_0.
  - f_equal. symmetry. assert (Hne' : length l1.*2 <> length l2.*2) by (rewrite !fmap_length; lia).
    clear -Hne'. revert Hne'. generalize (l1.*2) (l2.*2). intros m1. induction m1 as [|x m1 IH]; intros [|y m2] Hne; try done.
    cbn [eq_values]. simpl in Hne. rewrite IH by lia. by destruct (eqT x y).
Qed.

(** ** The observers that are not part of a history *)

Lemma arena_history_eq e eqT n1 n2 cs1 cs2 rs1 rs2 a1 a2 :
  arena_reached e n1 cs1 rs1 a1 -> arena_contract [] cs1 rs1 -> Forall process_on rs1 ->
  arena_reached e n2 cs2 rs2 a2 -> arena_contract [] cs2 rs2 -> Forall process_on rs2 ->
  exists b, arena_eq eqT e a1 a2 = Ret b /\
    (b = true <-> Forall2 (fun x y => eqT x y = true) (arena_contents [] cs1 rs1).*2 (arena_contents [] cs2 rs2).*2).
Proof.
  intros H1 H2 H3 H4 H5 H6. destruct (arena_final _ _ _ _ _ H1 H2 H3) as [Hr1 _]. destruct (arena_final _ _ _ _ _ H4 H5 H6) as [Hr2 _].
  eexists. split; [by apply arena_eq_rep|]. apply eq_values_iff.
Qed.

Lemma arena_history_clear e n cs rs a pn : arena_reached e n cs rs a -> arena_contract [] cs rs -> Forall process_on rs ->
  Forall (fun x => pn x = false) (arena_contents [] cs rs).*2 ->
  exists a', arena_clear e (e_nd e) pn a = (Ret tt, a') /\
    a_drops a' = a_drops a ++ (if e_nd e then (arena_contents [] cs rs).*2 else []) /\
    arena_capacity a' = arena_capacity a /\ arena_len a' = 0.
Proof.
  intros H1 H2 H3 Hpn. destruct (arena_final _ _ _ _ _ H1 H2 H3) as [Hr1 _].
  destruct (arena_clear_rep e (e_nd e) pn a _ Hr1 Hpn) as (a' & Hc & Hr' & Hcap & _ & Hd).
  exists a'. split_and!; [done|done|done|]. exact (arena_rep_len _ _ Hr').
Qed.

Lemma arena_history_drop e n cs rs a pn : arena_reached e n cs rs a -> arena_contract [] cs rs -> Forall process_on rs ->
  Forall (fun x => pn x = false) (arena_contents [] cs rs).*2 ->
  exists a', arena_drop e (e_nd e) pn a = (Ret tt, a') /\ a_heap a' = ∅ /\
    a_drops a' = arena_dropped (e_nd e) [] cs rs ++ (if e_nd e then (arena_contents [] cs rs).*2 else []).
Proof.
  intros H1 H2 H3 Hpn. destruct (arena_final _ _ _ _ _ H1 H2 H3) as [Hr1 Hd0].
  destruct (arena_drop_rep e (e_nd e) pn a _ Hr1 Hpn) as (a' & Hc & Hh & Hd). exists a'. rewrite <- Hd0. done.
Qed.

Lemma arena_history_into_iter e n cs rs a pn : arena_reached e n cs rs a -> arena_contract [] cs rs -> Forall process_on rs ->
  Forall (fun x => pn x = false) (arena_contents [] cs rs).*2 ->
  exists a', arena_into_iter e pn a = (Panic PTodo, a') /\ a_heap a' = ∅ /\
    a_drops a' = arena_dropped (e_nd e) [] cs rs ++ (if e_nd e then (arena_contents [] cs rs).*2 else []).
Proof.
  intros H1 H2 H3 Hpn. destruct (arena_history_drop _ _ _ _ _ _ H1 H2 H3 Hpn) as (a' & Hd & Hrest).
  exists a'. split; [|done]. unfold arena_into_iter, sbind. by rewrite Hd.
Qed.

Lemma arena_history_debug e n cs rs a : arena_reached e n cs rs a -> arena_contract [] cs rs -> Forall process_on rs ->
  arena_debug e a = Ret (arena_contents [] cs rs).*2.
Proof.
  intros H1 H2 H3. destruct (arena_final _ _ _ _ _ H1 H2 H3) as [Hr1 _]. by apply arena_debug_spec.
Qed.

End arena.

(** ** UnsafeSlab *)

Section slab.
Context {T : Type}.
Implicit Types s : slab T.
Implicit Types L : gmap Ptr T.

Definition slab_holds s L : Prop := exists fl, slab_rep s L fl.

Lemma slab_arena_len_bound s L fl : slab_rep s L fl -> a_len (s_items s) <= 2 ^ 63 - 8.
Proof.
  intros H. pose proof (sr_inv _ _ _ H) as Hinv. pose proof (ai_len _ Hinv). pose proof (ai_cap _ Hinv).
  pose proof (cfirst_mono _ 60 (ai_n _ Hinv)) as Hm. rewrite cfirst_60 in Hm. lia.
Qed.

Lemma slab_rep_ext s L fl a' : slab_rep s L fl -> arena_ext (s_items s) a' -> slab_rep (set_items a' s) L fl.
Proof.
  intros [I1 I2 I3 I4 I5] Hx. split; simpl; [apply Hx| |done| |].
  - eapply chain_cells; [|done]. intros p _. by rewrite (ax_cells _ _ Hx).
  - intros p x Hp. rewrite (ax_cells _ _ Hx). by apply I4.
  - by rewrite (arena_ext_aslots _ _ I1 Hx).
Qed.

Lemma slab_reserve_any e n s L : slab_holds s L ->
  wp (slab_reserve e n)
    (fun _ s' => slab_holds s' L /\ s_drops s' = s_drops s)
    (fun p s' => slab_holds s' L /\ s_drops s' = s_drops s /\ (alloc_fail p \/ (p = Some POverflow /\ 2 ^ 63 <= n))) s.
Proof.
  intros [fl H]. unfold slab_reserve. apply wp_zoom. unfold arena_reserve, arena_len. apply wp_bind, wp_get. apply wp_bind.
  assert (Hgrow : forall capacity, wp (grow_loop e GROW_FUEL capacity)
    (fun _ a' => slab_holds (set_items a' s) L /\ s_drops (set_items a' s) = s_drops s)
    (fun p a' => slab_holds (set_items a' s) L /\ s_drops (set_items a' s) = s_drops s /\
       (alloc_fail p \/ (p = Some POverflow /\ 2 ^ 63 <= n))) (s_items s)).
  { intros capacity. eapply wp_mono; [apply grow_loop_spec; [apply H|apply grow_fuel_enough]| |].
    - intros _ a' (Hx & _). split; [|done]. exists fl. by apply slab_rep_ext.
    - intros p a' (Hf & Hx & _). split_and!; [|done|by left]. exists fl. by apply slab_rep_ext. }
  unfold uadd. destruct (N.ltb_spec (a_len (s_items s) + n) USIZE) as [Hlt|Hge].
  { eapply wp_lift_ret; [done|]. apply Hgrow. }
  destruct (e_chk e).
  - unfold wp, slift. split_and!; [|done|].
    + exists fl. by destruct s.
    + right. split; [done|]. pose proof (slab_arena_len_bound _ _ _ H). change USIZE with (2 ^ 64) in Hge. lia.
  - eapply wp_lift_ret; [done|]. apply Hgrow.
Qed.

Lemma slab_exec_spec e c s L : slab_holds s L -> slab_legal L c ->
  match slab_exec e c s with
  | (r, s') => slab_answers L c r /\
      (process_on r -> slab_holds s' (slab_after L c r) /\
         s_drops s' ≡ₚ s_drops s ++ match c, r with SClear _, Ret _ => if e_nd e then (map_to_list L).*2 else [] | _, _ => [] end)
  end.
Proof.
  intros [fl Hrep] Hleg.
  destruct c as [x|p|p|p f|n| |pn| | |]; cbn [slab_exec slab_legal slab_answers slab_after] in *.
  - pose proof (slab_push_spec e s L fl x Hrep) as H. unfold wp in H. unfold sbind.
    destruct (slab_push e x s) as [[p|pa| | |] s']; try done.
    + destruct H as (Hp & Hr & Hd & _). split; [left; by exists p|]. intros _. split; [by eexists|]. by rewrite Hd, app_nil_r.
    + destruct H as (Hf & Hr & Hd & _). split; [right; unfold no_room, alloc_fail in *; naive_solver|].
      intros _. split; [by eexists|]. by rewrite Hd, app_nil_r.
    + split; [right; unfold no_room; naive_solver|]. intros [].
  - destruct Hleg as [x Hx]. pose proof (slab_remove_spec e s L fl p x (fun _ _ => False) Hrep Hx) as H. unfold wp in H. unfold sbind.
    destruct (slab_remove e p s) as [[y|pa| | |] s']; try done.
    destruct H as (-> & Hr & _ & Hd & _). split; [eauto|]. intros _. split; [by eexists|]. by rewrite Hd, app_nil_r.
  - destruct Hleg as [x Hx]. unfold sbind, sget, slift, sret. rewrite (slab_get_ret s L fl p x Hrep Hx).
    split; [eauto|]. intros _. split; [by eexists|]. by rewrite app_nil_r.
  - destruct Hleg as [x Hx]. pose proof (slab_update_spec s L fl p x f (fun _ _ => False) Hrep Hx) as H. unfold wp in H. unfold sbind.
    destruct (slab_update p f s) as [[y|pa| | |] s']; try done.
    destruct H as (-> & Hr & _ & Hd). split; [eauto|]. intros _. split; [|by rewrite Hd, app_nil_r].
    exists fl. cbn [slab_after]. replace (alter f p L) with (<[p := f x]> L); [done|].
    apply map_eq. intros q. destruct (decide (q = p)) as [->|Hne].
    + by rewrite lookup_insert, lookup_alter, Hx.
    + by rewrite lookup_insert_ne, lookup_alter_ne.
  - pose proof (slab_reserve_any e n s L (ex_intro _ fl Hrep)) as H. unfold wp in H. unfold sbind.
    destruct (slab_reserve e n s) as [[[]|pa| | |] s']; try done.
    + destruct H as (Hr & Hd). split; [by left|]. intros _. split; [done|]. by rewrite Hd, app_nil_r.
    + destruct H as (Hr & Hd & Hf). split.
      * destruct Hf as [Hf|[[= ->] Hn]]; [right; left; unfold no_room, alloc_fail in *; naive_solver|by right; right].
      * intros _. split; [done|]. by rewrite Hd, app_nil_r.
    + split; [right; left; unfold no_room; naive_solver|]. intros [].
  - pose proof (slab_shrink_spec e s L fl Hrep) as H. unfold wp in H. unfold sbind.
    destruct (slab_shrink_to_fit e s) as [[[]|pa| | |] s']; try done.
    destruct H as (Hr & _ & Hs & _). split; [done|]. intros _. split; [by eexists|]. rewrite Hs, app_nil_r. done.
  - destruct (slab_clear_spec e pn s L fl Hrep Hleg) as (drops & Hc & Hd). unfold sbind. rewrite Hc.
    split; [done|]. intros _. split; [exists []; apply slab_cleared_rep, Hrep|].
    cbn [slab_cleared s_drops]. apply Permutation_app_head. destruct (e_nd e); [done|by rewrite Hd].
  - unfold sbind, sget, slift, sret. rewrite (slab_len_ret e s L fl Hrep). split; [done|]. intros _. split; [by eexists|]. by rewrite app_nil_r.
  - unfold sbind, sget, slift, sret. rewrite (slab_is_empty_ret e s L fl Hrep). split; [|intros _; split; [by eexists|by rewrite app_nil_r]].
    do 2 f_equal. case_bool_decide as HL; symmetry; [by rewrite HL|]. apply N.eqb_neq. intros Hz. apply HL.
    apply map_size_empty_inv. lia.
  - unfold sbind, sget, sret. split; [|intros _; split; [by eexists|by rewrite app_nil_r]].
    eexists. split; [done|]. unfold slab_capacity, arena_capacity.
    pose proof (slab_rep_count _ _ _ Hrep). pose proof (ai_len _ (sr_inv _ _ _ Hrep)). lia.
Qed.

Lemma slab_run_spec e : forall cs s L rs s', slab_holds s L -> slab_run e cs s = (rs, s') ->
  slab_contract L cs rs ->
  slab_results L cs rs /\
  (Forall process_on rs -> slab_holds s' (slab_contents L cs rs) /\
     s_drops s' ≡ₚ s_drops s ++ slab_dropped (e_nd e) L cs rs).
Proof.
  induction cs as [|c cs IH]; intros s L rs s' Hrep Hrun Hct; cbn [slab_run] in Hrun.
  { injection Hrun as <- <-. split; [done|]. intros _. split; [done|]. by rewrite app_nil_r. }
  assert (Hleg : slab_legal L c) by (destruct rs; [exact Hct|apply Hct]).
  pose proof (slab_exec_spec e c s L Hrep Hleg) as H.
  destruct (slab_exec e c s) as [r s1]. destruct H as [Hans Hon].
  assert (Hgo : process_on r -> forall rs1, slab_run e cs s1 = (rs1, s') -> slab_contract L (c :: cs) (r :: rs1) ->
    slab_results L (c :: cs) (r :: rs1) /\
    (Forall process_on (r :: rs1) -> slab_holds s' (slab_contents L (c :: cs) (r :: rs1)) /\
       s_drops s' ≡ₚ s_drops s ++ slab_dropped (e_nd e) L (c :: cs) (r :: rs1))).
  { intros Hp rs1 Hrun1 [_ Hct1]. destruct (Hon Hp) as [Hrep1 Hd1].
    destruct (IH _ _ _ _ Hrep1 Hrun1 Hct1) as [Hres Hfin]. split.
    - split; [done|]. by left.
    - intros [_ Hall]%Forall_cons. destruct (Hfin Hall) as [Hr Hd]. split; [done|].
      cbn [slab_dropped]. rewrite app_assoc, <- Hd1. done. }
  destruct r as [x|p| |u|].
  - destruct (slab_run e cs s1) as [rs1 s2] eqn:H1. injection Hrun as <- <-. by apply Hgo.
  - destruct (slab_run e cs s1) as [rs1 s2] eqn:H1. injection Hrun as <- <-. by apply Hgo.
  - injection Hrun as <- <-. split; [split; [done|right]; split; [tauto|done]|]. by intros [[] _]%Forall_cons.
  - injection Hrun as <- <-. split; [split; [done|right]; split; [tauto|done]|]. by intros [[] _]%Forall_cons.
  - injection Hrun as <- <-. split; [split; [done|right]; split; [tauto|done]|]. by intros [[] _]%Forall_cons.
Qed.

Lemma slab_begin_spec e n s : slab_begin e n = (Ret tt, s) -> slab_holds s ∅ /\ s_drops s = [].
Proof.
  destruct n as [n|]; cbn [slab_begin].
  - pose proof (slab_with_capacity_spec (T:=T) e n) as H. intros Heq. rewrite Heq in H.
    destruct H as (Hr & _ & _ & Hd & _). split; [by eexists|done].
  - intros [= <-]. split; [exists []; apply slab_new_rep|done].
Qed.

Lemma slab_history e n cs rs s : slab_reached e n cs rs s -> slab_contract ∅ cs rs -> slab_results ∅ cs rs.
Proof.
  intros (s0 & Hb & Hrun) Hct. apply slab_begin_spec in Hb as [Hrep _]. by eapply slab_run_spec.
Qed.

Lemma slab_final e n cs rs s : slab_reached e n cs rs s -> slab_contract ∅ cs rs -> Forall process_on rs ->
  slab_holds s (slab_contents ∅ cs rs) /\ s_drops s ≡ₚ slab_dropped (e_nd e) ∅ cs rs.
Proof.
  intros (s0 & Hb & Hrun) Hct Hall. apply slab_begin_spec in Hb as [Hrep Hd].
  destruct (slab_run_spec e cs s0 ∅ rs s Hrep Hrun Hct) as [_ Hfin]. destruct (Hfin Hall) as [H1 H2].
  split; [done|]. by rewrite H2, Hd.
Qed.

Lemma slab_reads e n cs rs s p x : slab_reached e n cs rs s -> slab_contract ∅ cs rs -> Forall process_on rs ->
  slab_contents ∅ cs rs !! p = Some x -> slab_get s p = Ret x.
Proof. intros H1 H2 H3 Hp. destruct (slab_final _ _ _ _ _ H1 H2 H3) as [[fl Hrep] _]. by eapply slab_get_ret. Qed.

Lemma slab_drops_all e n cs rs s pn : slab_reached e n cs rs s -> slab_contract ∅ cs rs -> Forall process_on rs ->
  (forall x, pn x = false) ->
  exists s', slab_drop e pn s = (Ret tt, s') /\ a_heap (s_items s') = ∅ /\
    s_drops s' ≡ₚ slab_dropped (e_nd e) ∅ cs rs ++ (if e_nd e then (map_to_list (slab_contents ∅ cs rs)).*2 else []).
Proof.
  intros H1 H2 H3 Hpn. destruct (slab_final _ _ _ _ _ H1 H2 H3) as [[fl Hrep] Hd].
  destruct (slab_drop_spec e pn s _ fl Hrep Hpn) as (drops & s' & Hrun & Hh & _ & Hds & Hdr).
  exists s'. split_and!; [done|done|]. rewrite Hds, Hd. apply Permutation_app_head. destruct (e_nd e); [done|by rewrite Hdr].
Qed.

End slab.
