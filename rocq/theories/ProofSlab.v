(** * The slab as a finite map from addresses to values *)

From Verif Require Export ModelSlab ProofArena.
Local Open Scope N_scope.

(** The chain of free entries starting at [h]. *)
Fixpoint chain {T} (a : arena (entry T)) (h : option Ptr) (fl : list Ptr) : Prop :=
  match fl with
  | [] => h = None
  | p :: fl' => h = Some p /\ exists n, acell a p = Some (EFree n) /\ chain a n fl'
  end.

(** The slab [s] holds exactly the values [L]; [fl] is its free list. *)
Record slab_rep {T} (s : slab T) (L : gmap Ptr T) (fl : list Ptr) : Prop := {
  sr_inv : arena_inv (s_items s);
  sr_chain : chain (s_items s) (s_head s) fl;
  sr_free : s_free s = N.of_nat (length fl);
  sr_live : forall p x, L !! p = Some x -> acell (s_items s) p = Some (EVal x);
  sr_slots : aslots (s_items s) ≡ₚ fl ++ (map_to_list L).*1;
}.

(** What no slab method (other than growing or shrinking) changes. *)
Definition same_room {T} (s s' : slab T) : Prop :=
  a_chunks (s_items s') = a_chunks (s_items s) /\ a_cap (s_items s') = a_cap (s_items s) /\
  a_next (s_items s') = a_next (s_items s).

Section slab_proofs.
Context {T : Type}.
Implicit Types s : slab T.
Implicit Types L : gmap Ptr T.

Lemma chain_cells (a a' : arena (entry T)) h fl :
  (forall p, p ∈ fl -> acell a' p = acell a p) -> chain a h fl -> chain a' h fl.
Proof.
  revert h. induction fl as [|p fl IH]; intros h Hc; simpl; [done|].
  intros (-> & n & Hn & Hch). split; [done|]. exists n. split.
  - rewrite Hc; [done|]. by left.
  - apply IH; [|done]. intros q Hq. apply Hc. by right.
Qed.

Lemma fst_map_to_list L p : p ∈ (map_to_list L).*1 <-> is_Some (L !! p).
Proof.
  rewrite elem_of_list_fmap. split.
  - intros ([q x] & -> & Hq). apply elem_of_map_to_list in Hq. simpl. eauto.
  - intros [x Hx]. exists (p, x). split; [done|]. by apply elem_of_map_to_list.
Qed.

Lemma slab_new_rep : slab_rep (slab_new (T:=T)) ∅ [].
Proof.
  split; simpl; try done.
  - apply arena_new_inv.
Qed.

Lemma slab_rep_nodup s L fl : slab_rep s L fl -> NoDup (fl ++ (map_to_list L).*1).
Proof. intros [H1 _ _ _ H5]. rewrite <- H5. by apply NoDup_aslots. Qed.

Lemma slab_rep_free_not_live s L fl p : slab_rep s L fl -> p ∈ fl -> L !! p = None.
Proof.
  intros H Hp. apply slab_rep_nodup in H as Hnd. apply NoDup_app in Hnd as (_ & Hd & _).
  apply eq_None_not_Some. intros Hs. eapply Hd; [done|]. by apply fst_map_to_list.
Qed.

Lemma slab_rep_in_slots s L fl p : slab_rep s L fl ->
  p ∈ aslots (s_items s) <-> p ∈ fl \/ is_Some (L !! p).
Proof. intros H. rewrite (sr_slots _ _ _ H), elem_of_app, fst_map_to_list. done. Qed.

Lemma slab_rep_cell s L fl p : slab_rep s L fl -> p ∈ aslots (s_items s) ->
  (exists x, L !! p = Some x /\ acell (s_items s) p = Some (EVal x)) \/
  (p ∈ fl /\ exists n, acell (s_items s) p = Some (EFree n)).
Proof.
  intros H Hp. apply (slab_rep_in_slots s L fl) in Hp; [|done]. destruct Hp as [Hp|[x Hx]].
  - right. split; [done|]. pose proof (sr_chain _ _ _ H) as Hch. clear H.
    generalize dependent (s_head s). induction fl as [|q fl IH]; intros h Hch.
    + by apply elem_of_nil in Hp.
    + destruct Hch as (-> & n & Hn & Hch). apply elem_of_cons in Hp as [->|Hp]; [eauto|].
      by eapply IH.
  - left. exists x. split; [done|]. by eapply sr_live.
Qed.

Lemma slab_rep_full s L fl : slab_rep s L fl -> arena_full (s_items s).
Proof.
  intros H p Hp. destruct (slab_rep_cell s L fl p H Hp) as [(x & _ & ?)|(_ & n & ?)]; eauto.
Qed.

Lemma slab_rep_count s L fl : slab_rep s L fl ->
  a_len (s_items s) = N.of_nat (length fl) + N.of_nat (size L).
Proof.
  intros H. pose proof (Permutation_length (sr_slots _ _ _ H)) as Hl.
  unfold aslots in Hl. rewrite slots_length, app_length, fmap_length in Hl.
  change (length (map_to_list L)) with (size L) in Hl. lia.
Qed.

Lemma slab_len_ret e s L fl : slab_rep s L fl -> slab_len e s = Ret (N.of_nat (size L)).
Proof.
  intros H. unfold slab_len, arena_len. rewrite (slab_rep_count s L fl H), (sr_free _ _ _ H).
  rewrite usub_ret by lia. f_equal. lia.
Qed.

Lemma slab_is_empty_ret e s L fl : slab_rep s L fl ->
  slab_is_empty e s = Ret (bool_decide (L = ∅)).
Proof.
  intros H. unfold slab_is_empty. rewrite (slab_len_ret e s L fl H). simpl. f_equal.
  pose proof (map_size_empty_iff L) as Hs.
  case_bool_decide as HL.
  - apply N.eqb_eq. rewrite (proj2 Hs HL). done.
  - apply N.eqb_neq. intros Hz. apply HL, Hs. lia.
Qed.

Lemma slab_get_ret s L fl p x : slab_rep s L fl -> L !! p = Some x -> slab_get s p = Ret x.
Proof.
  intros H Hx. unfold slab_get. apply (sr_live _ _ _ H) in Hx.
  apply arena_get_ret in Hx. by rewrite Hx.
Qed.

(** Overwriting the entry at an address in use. *)
Lemma put_chain (a : arena (entry T)) h fl p x : chain a h fl -> in_block a p -> p ∉ fl ->
  chain (put_cell p x a) h fl.
Proof.
  intros Hch Hin Hp. eapply chain_cells; [|done]. intros q Hq.
  rewrite acell_put by done. rewrite decide_False; [done|]. intros ->. done.
Qed.

Lemma aslots_put (a : arena (entry T)) p x : aslots (put_cell p x a) = aslots a.
Proof.
  unfold aslots. destruct (put_cell_fields p x a) as (_ & -> & -> & _). done.
Qed.

Lemma slab_update_spec s L fl p x f E : slab_rep s L fl -> L !! p = Some x ->
  wp (slab_update p f)
    (fun r s' => r = x /\ slab_rep s' (<[p := f x]> L) fl /\ same_room s s' /\
       s_drops s' = s_drops s)
    E s.
Proof.
  intros H Hx. unfold slab_update. apply wp_bind, wp_get. apply wp_bind.
  eapply wp_lift_ret; [by eapply slab_get_ret|].
  apply wp_bind, wp_zoom. unfold wp.
  pose proof (sr_live _ _ _ H _ _ Hx) as Hcell.
  rewrite (arena_set_ret _ _ _ _ Hcell). unfold wp, sret.
  pose proof (acell_in_block _ _ _ Hcell) as Hin.
  destruct (put_cell_fields p (EVal (f x)) (s_items s)) as (Hf1 & Hf2 & Hf3 & Hf4 & _).
  split_and!; try done.
  - split; simpl.
    + apply put_cell_inv, H.
    + apply put_chain; [apply H|done|]. intros Hp.
      apply (slab_rep_free_not_live s L fl p H) in Hp. congruence.
    + apply H.
    + intros q y Hq. rewrite acell_put by done. case_decide as Heq.
      * subst q. rewrite lookup_insert in Hq. congruence.
      * rewrite lookup_insert_ne in Hq by done. by eapply sr_live.
    + rewrite aslots_put, (sr_slots _ _ _ H). apply Permutation_app_head.
      rewrite <- (insert_id L p x) at 1 by done.
      rewrite <- (insert_delete_insert L p x), <- (insert_delete_insert L p (f x)).
      rewrite !map_to_list_insert by apply lookup_delete. done.
Qed.

Lemma slab_push_spec e s L fl x : slab_rep s L fl ->
  wp (slab_push e x)
    (fun p s' => L !! p = None /\ slab_rep s' (<[p := x]> L) (tail fl) /\
       s_drops s' = s_drops s /\
       (fl = [] \/ head fl = Some p) /\
       (N.of_nat (size L) < a_cap (s_items s) -> same_room s s') /\
       (fl <> [] -> a_len (s_items s') = a_len (s_items s)) /\
       a_cap (s_items s) <= a_cap (s_items s'))
    (fun r s' => alloc_fail r /\ slab_rep s' L fl /\ s_drops s' = s_drops s /\
       fl = [] /\ N.of_nat (size L) = a_cap (s_items s) /\
       s' = set_items (set_next (a_next (s_items s')) (s_items s)) s) s.
Proof.
  intros H. unfold slab_push. apply wp_bind, wp_get.
  pose proof (sr_chain _ _ _ H) as Hch.
  destruct fl as [|p fl].
  - (* no free entry: allocate *)
    rewrite Hch. apply wp_zoom. eapply wp_mono; [apply arena_alloc_spec, H| |].
    + intros p a' (a1 & Ha1 & Hinv1 & Hlt & -> & ->).
      pose proof (slab_rep_count _ _ _ H) as Hcount. simpl in Hcount.
      set (p := slotp (a_chunks a1) (a_len a1)).
      assert (Hin : in_block a1 p) by (by apply slot_in_block).
      assert (Hcells : forall q, acell a1 q = acell (s_items s) q).
      { intros q. destruct Ha1 as [[-> _]|(-> & _)]; [done|]. apply pushed_chunk_acell, H. }
      assert (Hslots : aslots a1 = aslots (s_items s)).
      { destruct Ha1 as [[-> _]|(-> & _)]; [done|]. apply pushed_chunk_aslots, H. }
      assert (Hlen : a_len a1 = a_len (s_items s)).
      { by destruct Ha1 as [[-> _]|(-> & _)]. }
      assert (Hfresh : p ∉ aslots a1).
      { intros Hp. apply elem_of_slots in Hp as (i & Hi & Hp).
        pose proof (ai_len a1 Hinv1). apply (slotp_inj a1) in Hp; [|done|lia|lia]. lia. }
      assert (HLp : L !! p = None).
      { apply eq_None_not_Some. intros Hs. apply Hfresh. rewrite Hslots.
        apply (slab_rep_in_slots s L []); [done|by right]. }
      destruct (put_cell_fields p (EVal x) a1) as (Hf1 & Hf2 & Hf3 & Hf4 & Hf5).
      assert (Hslots' : aslots (set_alen (a_len a1 + 1) (put_cell p (EVal x) a1)) = aslots a1 ++ [p]).
      { unfold aslots. simpl. rewrite Hf2. replace (N.to_nat (a_len a1 + 1)) with (S (N.to_nat (a_len a1))) by lia.
        rewrite slots_S. unfold p. by rewrite N2Nat.id. }
      split_and!; try done.
      * split; cbn [s_items s_head s_free set_items tail].
        -- destruct (put_cell_inv p (EVal x) a1 Hinv1) as [I1 I2 I3 I4 I5 I6 I7].
           split; simpl; try done. rewrite Hf4. lia.
        -- done.
        -- apply H.
        -- intros q y Hq. change (acell (put_cell p (EVal x) a1) q = Some (EVal y)).
           rewrite acell_put by done. case_decide as Heq.
           ++ subst q. rewrite lookup_insert in Hq. congruence.
           ++ rewrite lookup_insert_ne in Hq by done. rewrite Hcells. by eapply sr_live.
        -- rewrite Hslots', Hslots, (sr_slots _ _ _ H). simpl.
           rewrite map_to_list_insert by done. rewrite Permutation_app_comm. done.
      * by left.
      * intros Hroom. destruct Ha1 as [[-> ?]|(-> & Heq & ?)]; [|lia].
        split_and!; simpl; done.
      * simpl. rewrite Hf4. destruct Ha1 as [[-> _]|(-> & _)]; simpl; lia.
    + intros r a' (Hf & Hs & Heq). pose proof (slab_rep_count _ _ _ H) as Hcount. simpl in Hcount.
      destruct Hs as [Ha' Hn]. rewrite Ha'. split_and!; try done.
      * destruct H as [I1 I2 I3 I4 I5]. split; simpl; try done.
        eapply same_but_next_inv; [|apply I1]. split; [done|simpl; lia].
      * lia.
  - destruct Hch as (Hhead & n & Hn & Hch). rewrite Hhead.
    apply wp_bind. eapply wp_lift_ret; [by apply arena_get_ret|].
    apply wp_bind. eapply wp_lift_ret; [done|].
    apply wp_bind, wp_mod. apply wp_bind. rewrite (sr_free _ _ _ H). cbn [length].
    eapply wp_lift_ret; [apply usub_ret; lia|].
    apply wp_bind, wp_mod. apply wp_bind, wp_zoom. unfold wp. simpl.
    rewrite (arena_set_ret _ _ _ _ Hn). unfold wp, sret.
    pose proof (acell_in_block _ _ _ Hn) as Hin.
    assert (HLp : L !! p = None) by (eapply slab_rep_free_not_live; [done|by left]).
    destruct (put_cell_fields p (EVal x) (s_items s)) as (Hf1 & Hf2 & Hf3 & Hf4 & _).
    pose proof (slab_rep_nodup _ _ _ H) as Hnd. simpl in Hnd. apply NoDup_cons in Hnd as [Hp Hnd].
    split_and!; try done; simpl.
    + split; simpl.
      * apply put_cell_inv, H.
      * apply put_chain; [done|done|]. set_solver.
      * lia.
      * intros q y Hq. rewrite acell_put by done. case_decide as Heq.
        -- subst q. rewrite lookup_insert in Hq. congruence.
        -- rewrite lookup_insert_ne in Hq by done. by eapply sr_live.
      * rewrite aslots_put, (sr_slots _ _ _ H). simpl.
        rewrite map_to_list_insert by done. simpl. by rewrite Permutation_middle.
    + by right.
    + rewrite Hf4. lia.
Qed.

Lemma slab_remove_spec e s L fl p x E : slab_rep s L fl -> L !! p = Some x ->
  wp (slab_remove e p)
    (fun r s' => r = x /\ slab_rep s' (delete p L) (p :: fl) /\ same_room s s' /\
       s_drops s' = s_drops s /\ a_len (s_items s') = a_len (s_items s))
    E s.
Proof.
  intros H Hx. unfold slab_remove. apply wp_bind, wp_get. apply wp_bind.
  pose proof (sr_live _ _ _ H _ _ Hx) as Hcell.
  eapply wp_lift_ret; [by apply arena_get_ret|].
  apply wp_bind, wp_zoom. unfold wp.
  rewrite (arena_set_ret _ _ _ _ Hcell).
  pose proof (acell_in_block _ _ _ Hcell) as Hin.
  apply wp_bind, wp_mod. apply wp_bind.
  rewrite (sr_free _ _ _ H).
  pose proof (slab_rep_count _ _ _ H) as Hcount.
  eapply wp_lift_ret; [apply uadd_ret|].
  { pose proof (ai_len _ (sr_inv _ _ _ H)) as Hl. rewrite (ai_cap _ (sr_inv _ _ _ H)) in Hl.
    pose proof (cfirst_mono _ _ (ai_n _ (sr_inv _ _ _ H))). rewrite cfirst_60 in *.
    change USIZE with (2 ^ 64).
    change (2 ^ 63) with 9223372036854775808 in *. change (2 ^ 64) with 18446744073709551616. lia. }
  apply wp_bind, wp_mod. eapply wp_lift_ret; [done|].
  destruct (put_cell_fields p (EFree (s_head s)) (s_items s)) as (Hf1 & Hf2 & Hf3 & Hf4 & _).
  assert (Hpf : p ∉ fl).
  { intros Hp. apply (slab_rep_free_not_live s L fl p H) in Hp. congruence. }
  split_and!; try done. split; simpl.
  - apply put_cell_inv, H.
  - split; [done|]. exists (s_head s). split.
    + rewrite acell_put by done. by rewrite decide_True.
    + apply put_chain; [apply H|done|done].
  - lia.
  - intros q y Hq. apply lookup_delete_Some in Hq as [Hne Hq].
    rewrite acell_put by done. rewrite decide_False by done. by eapply sr_live.
  - rewrite aslots_put, (sr_slots _ _ _ H).
    rewrite <- (insert_id L p x) at 1 by done. rewrite <- insert_delete_insert.
    rewrite map_to_list_insert by apply lookup_delete. simpl. by rewrite Permutation_middle.
Qed.

Lemma slab_reserve_spec e s L fl n : slab_rep s L fl -> a_len (s_items s) + n < USIZE ->
  wp (slab_reserve e n)
    (fun _ s' => slab_rep s' L fl /\ arena_ext (s_items s) (s_items s') /\
       s' = set_items (s_items s') s /\
       a_len (s_items s) + n <= a_cap (s_items s') /\
       (a_len (s_items s) + n <= a_cap (s_items s) -> s' = s) /\
       (forall c, nchunks (s_items s) <= c -> a_len (s_items s) + n <= cfirst c -> nchunks (s_items s') <= c))
    (fun r s' => alloc_fail r /\ slab_rep s' L fl /\ arena_ext (s_items s) (s_items s') /\
       s' = set_items (s_items s') s) s.
Proof.
  intros H Hn. unfold slab_reserve. apply wp_zoom.
  assert (Hrep : forall a', arena_ext (s_items s) a' -> slab_rep (set_items a' s) L fl).
  { intros a' Hext. destruct H as [I1 I2 I3 I4 I5]. split; simpl; try done.
    - apply Hext.
    - eapply chain_cells; [|done]. intros. apply Hext.
    - intros p x Hp. rewrite (ax_cells _ _ Hext). by apply I4.
    - rewrite (arena_ext_aslots (s_items s)) by done. done. }
  eapply wp_mono; [apply arena_reserve_spec; [apply H|done]| |].
  - intros _ a' (Hext & Hcap & Hid & Hmin). split_and!; try done.
    + by apply Hrep.
    + intros Hle. rewrite Hid by done. by destruct s.
  - intros r a' (Hf & Hext & _). split_and!; try done. by apply Hrep.
Qed.

Lemma slab_shrink_spec e s L fl : slab_rep s L fl ->
  wp (slab_shrink_to_fit e)
    (fun _ s' => slab_rep s' L fl /\ arena_shrunk (s_items s) (s_items s') /\
       s' = set_items (s_items s') s /\
       (forall n, a_len (s_items s) <= cfirst n -> n <= nchunks (s_items s) -> nchunks (s_items s') <= n))
    (fun _ _ => False) s.
Proof.
  intros H. unfold slab_shrink_to_fit. apply wp_zoom.
  eapply wp_mono; [apply arena_shrink_spec, H| |done].
  intros _ a' (Hsh & Hmin). split_and!; try done.
  pose proof (slab_rep_in_slots s L fl) as Hslots.
  pose proof (sr_inv _ _ _ H) as Hinv.
  pose proof H as H0.
  destruct H as [I1 I2 I3 I4 I5]. split; simpl; try done.
  - apply Hsh.
  - eapply chain_cells; [|done]. intros p Hp.
    apply arena_shrunk_slot_cell; try done. apply Hslots; [done|by left].
  - intros p x Hp. rewrite (arena_shrunk_slot_cell (s_items s)); [by apply I4|done|done|].
    apply Hslots; [done|right; eauto].
  - rewrite (arena_shrunk_aslots (s_items s)) by done. done.
Qed.

(** ** clear *)

Definition slab_cleared s (drops : list T) : slab T :=
  mkSlab (reset_len (s_items s)) None 0 drops.

Lemma slab_cleared_rep s drops : arena_inv (s_items s) -> slab_rep (slab_cleared s drops) ∅ [].
Proof.
  intros H. split; simpl; try done.
  - by apply reset_len_inv.
Qed.

Lemma reset_internal_state_ret e s : reset_internal_state e s = (Ret tt, slab_cleared s (s_drops s)).
Proof. done. Qed.

Lemma collect_free_spec s fl : forall fuel h acc, chain (s_items s) h fl -> (length fl < fuel)%nat ->
  exists acc', collect_free fuel s h acc = Ret acc' /\ forall p, p ∈ acc' <-> p ∈ acc \/ p ∈ fl.
Proof.
  induction fl as [|p fl IH]; intros [|fuel] h acc Hch Hf; simpl in *; try lia.
  - rewrite Hch. exists acc. split; [done|]. set_solver.
  - destruct Hch as (-> & n & Hn & Hch). apply arena_get_ret in Hn. rewrite Hn. simpl.
    destruct (IH fuel n ({[p]} ∪ acc) Hch) as (acc' & -> & Hacc); [lia|].
    exists acc'. split; [done|]. set_solver.
Qed.

(** The entries dropped by [clear], in the order of their addresses. *)
Definition live_at L (ps : list Ptr) : list T := omap (fun p => L !! p) ps.

Lemma drop_value_ret pn s p x : acell (s_items s) p = Some (EVal x) ->
  drop_value pn p s =
    ((if pn x then Panic PDrop else Ret tt),
     add_sdrop x (set_items (put_cell p (EDropped x) (s_items s)) s)).
Proof.
  intros H. unfold drop_value, sbind, sget, slift, slab_get, on_items, zoom.
  pose proof (proj1 (arena_get_ret _ _ _) H) as Hg. rewrite Hg. simpl.
  rewrite (arena_set_ret _ _ _ _ H). unfold smod. by destruct (pn x).
Qed.

Lemma reset_put (a : arena (entry T)) p x : in_block a p -> reset_len (put_cell p x a) = reset_len a.
Proof.
  intros (b & Hb & _). unfold put_cell. rewrite Hb. unfold reset_len, forget_cells, set_alen, set_heap.
  simpl. f_equal. rewrite fmap_insert. simpl. apply insert_id. by rewrite lookup_fmap, Hb.
Qed.

(** The destructors that run: up to the first that panics. *)
Fixpoint upto (pn : T -> bool) (l : list T) : list T :=
  match l with [] => [] | x :: l => if pn x then [x] else x :: upto pn l end.

Lemma upto_none (pn : T -> bool) l : (forall x, pn x = false) -> upto pn l = l /\ existsb pn l = false.
Proof. intros H. induction l as [|x l [IH1 IH2]]; simpl; [done|]. by rewrite H, IH1, IH2. Qed.

Lemma upto_split (pn : T -> bool) l : exists l2, l = upto pn l ++ l2 /\
  (if existsb pn l then exists l0 x, upto pn l = l0 ++ [x] /\ pn x = true /\ Forall (fun y => pn y = false) l0
   else l2 = [] /\ Forall (fun y => pn y = false) l).
Proof.
  induction l as [|x l (l2 & IH1 & IH2)]; simpl; [by exists []|]. destruct (pn x) eqn:Hx; simpl.
  - exists l. split; [done|]. by exists [], x.
  - exists l2. split; [by rewrite IH1 at 1|]. destruct (existsb pn l).
    + destruct IH2 as (l0 & y & -> & Hy & Hl0). exists (x :: l0), y. split_and!; [done|done|]. by constructor.
    + destruct IH2 as [-> IH2]. split; [done|]. by constructor.
Qed.

(** Dropping the slots from index [i] on. *)
Lemma drop_loop_spec e pn free L : forall k s i fuel, arena_inv (s_items s) -> arena_full (s_items s) ->
  i + N.of_nat k = a_len (s_items s) -> (k < fuel)%nat ->
  (forall j, i <= j < a_len (s_items s) ->
    let p := slotp (a_chunks (s_items s)) j in
    (p ∈ free -> L !! p = None) /\
    (p ∉ free -> exists x, L !! p = Some x /\ acell (s_items s) p = Some (EVal x))) ->
  let ll := live_at L (slotp (a_chunks (s_items s)) <$> (N.of_nat <$> seq (N.to_nat i) k)) in
  exists a', drop_loop e pn fuel free (mkRange i (a_len (s_items s))) s =
    ((if existsb pn ll then Panic PDrop else Ret tt), mkSlab a' (s_head s) (s_free s) (s_drops s ++ upto pn ll)) /\
    arena_inv a' /\ a_len a' = a_len (s_items s) /\ a_chunks a' = a_chunks (s_items s) /\
    a_cap a' = a_cap (s_items s) /\ a_next a' = a_next (s_items s) /\ a_drops a' = a_drops (s_items s) /\
    reset_len a' = reset_len (s_items s).
Proof.
  induction k as [|k IH]; intros s i fuel Hinv Hfull Hi Hfuel Hcells ll.
  - destruct fuel as [|fuel]; [lia|]. cbn [drop_loop]. unfold sbind at 1, sget.
    rewrite next_ptr_none by (simpl; lia). exists (s_items s).
    split_and!; try done. simpl. rewrite app_nil_r. by destruct s.
  - destruct fuel as [|fuel]; [lia|]. cbn [drop_loop]. unfold sbind at 1, sget.
    destruct (next_ptr_some e (s_items s) (mkRange i (a_len (s_items s))) Hinv Hfull) as (en & Hen & Hnext);
      [simpl; lia|simpl; lia|].
    rewrite Hnext. simpl r_start in *. simpl r_end in *.
    set (p := slotp (a_chunks (s_items s)) i) in *.
    unfold sbind at 1, slift.
    destruct (Hcells i) as [Hfree Hlive]; [lia|].
    subst ll. cbn [seq fmap list_fmap list_omap omap].
    replace (S (N.to_nat i)) with (N.to_nat (i + 1)) by lia.
    rewrite (N2Nat.id i). fold p.
    case_decide as Hp.
    + destruct (IH s (i + 1) fuel) as (a' & Heq & Hrest); try done; try lia.
      { intros j Hj. apply Hcells. lia. }
      exists a'. rewrite Heq. split; [|done]. unfold live_at. simpl. by rewrite (Hfree Hp : L !! p = None).
    + destruct (Hlive Hp) as (x & HLx & Hcx). fold p in HLx, Hcx.
      unfold sbind at 1. rewrite (drop_value_ret pn s p x Hcx).
      pose proof (acell_in_block _ _ _ Hcx) as Hin.
      destruct (put_cell_fields p (EDropped x) (s_items s)) as (Hf1 & Hf2 & Hf3 & Hf4 & Hf5).
      destruct (pn x) eqn:Hpn.
      { exists (put_cell p (EDropped x) (s_items s)). split_and!; try done; try congruence.
        - unfold live_at. simpl. rewrite HLx. simpl. by rewrite Hpn.
        - by apply put_cell_inv.
        - by apply reset_put. }
      set (s1 := add_sdrop x (set_items (put_cell p (EDropped x) (s_items s)) s)).
      destruct (IH s1 (i + 1) fuel) as (a' & Heq & Hinv' & Hl & Hc & Hcap & Hnx & Hdr & Hreset); simpl.
      { by apply put_cell_inv. }
      { intros q. rewrite aslots_put. intros Hq. rewrite acell_put by done.
        case_decide; [eauto|]. by apply Hfull. }
      { rewrite Hf3. lia. }
      { lia. }
      { intros j Hj. rewrite Hf2. rewrite Hf3 in Hj.
        destruct (Hcells j) as [Hj1 Hj2]; [lia|]. split; [done|].
        intros Hjf. destruct (Hj2 Hjf) as (y & Hy1 & Hy2). exists y. split; [done|].
        rewrite acell_put by done. rewrite decide_False; [done|].
        intros Heqp. apply (slotp_inj (s_items s)) in Heqp; [lia|done| |];
          pose proof (ai_len _ Hinv); lia. }
      exists a'. simpl in Heq, Hl, Hc, Hcap, Hnx, Hdr, Hreset. rewrite Hf3, Hf2 in Heq.
      rewrite Heq. split_and!; try done; try congruence.
      * unfold live_at. simpl. rewrite HLx. simpl. rewrite Hpn. simpl. by rewrite <- app_assoc.
      * rewrite Hreset. by apply reset_put.
Qed.

(** [clear] drops the live values up to the first whose destructor panics. *)
Lemma slab_clear_any e pn s L fl : slab_rep s L fl ->
  exists drops s', slab_clear e pn s = ((if existsb pn drops then Panic PDrop else Ret tt), s') /\
    (if existsb pn drops then arena_inv (s_items s') /\ s_drops s' = s_drops s ++ upto pn drops
     else s' = slab_cleared s (s_drops s ++ drops)) /\
    (if e_nd e then drops ≡ₚ (map_to_list L).*2 else drops = []).
Proof.
  intros H. unfold slab_clear. unfold sbind at 1, sget. unfold arena_len.
  pose proof (slab_rep_count _ _ _ H) as Hcount.
  rewrite (sr_free _ _ _ H).
  destruct (e_nd e); cbn [negb orb].
  2:{ exists [], (slab_cleared s (s_drops s)). simpl. by rewrite app_nil_r. }
  destruct (N.eqb_spec (a_len (s_items s)) (N.of_nat (length fl))) as [Hall|Hne].
  { exists [], (slab_cleared s (s_drops s)). simpl. rewrite app_nil_r. split; [done|]. split; [done|].
    assert (size L = 0%nat) as Hz by lia. apply map_size_empty_inv in Hz as ->. done. }
  destruct (collect_free_spec s fl (S (N.to_nat (a_len (s_items s)))) (s_head s) ∅) as (free & Hfree & Hmem);
    [apply H|lia|].
  unfold sbind at 1, slift. rewrite Hfree. unfold sbind at 1.
  unfold iter_new, arena_len.
  destruct (drop_loop_spec e pn free L (N.to_nat (a_len (s_items s))) s 0 (S (N.to_nat (a_len (s_items s)))))
    as (a' & Heq & Hinv' & Hl & Hc & Hcap & Hnx & Hdr & Hreset).
  { apply H. }
  { by eapply slab_rep_full. }
  { lia. }
  { lia. }
  { intros j Hj p. assert (p ∈ aslots (s_items s)) as Hp.
    { apply elem_of_slots. exists j. split; [lia|done]. }
    split.
    - intros Hpf. eapply slab_rep_free_not_live; [done|]. apply Hmem in Hpf. set_solver.
    - intros Hpf. destruct (slab_rep_cell s L fl p H Hp) as [?|[Hin _]]; [done|].
      exfalso. apply Hpf, Hmem. by right. }
  exists (live_at L (aslots (s_items s))). rewrite Heq. clear Heq.
  change (slotp (a_chunks (s_items s)) <$> (N.of_nat <$> seq (N.to_nat 0) (N.to_nat (a_len (s_items s))))) with (aslots (s_items s)).
  assert (live_at L (aslots (s_items s)) ≡ₚ (map_to_list L).*2) as Hperm.
  { unfold live_at. rewrite (sr_slots _ _ _ H). rewrite omap_app.
    assert (omap (fun p => L !! p) fl = []) as ->.
    { assert (forall p, p ∈ fl -> L !! p = None) as Hnone.
      { intros p Hp. by eapply slab_rep_free_not_live. }
      clear -Hnone. induction fl as [|p fl IH]; simpl; [done|].
      rewrite Hnone by (by left). apply IH. intros q Hq. apply Hnone. by right. }
    simpl. assert (forall l : list (Ptr * T), (forall p x, (p, x) ∈ l -> L !! p = Some x) ->
      omap (fun p => L !! p) l.*1 = l.*2) as Hom.
    { induction l as [|[p x] l IH]; intros Hl'; simpl; [done|].
      rewrite (Hl' p x) by (by left). f_equal. apply IH. intros. apply Hl'. by right. }
    rewrite Hom; [done|]. intros p x Hp. by apply elem_of_map_to_list. }
  destruct (upto_split pn (live_at L (aslots (s_items s)))) as (l2 & Hup & Hcase).
  destruct (existsb pn (live_at L (aslots (s_items s)))).
  - eexists. split; [done|]. split; [done|done].
  - destruct Hcase as [-> _]. rewrite app_nil_r in Hup. rewrite <- Hup.
    rewrite reset_internal_state_ret. eexists. split; [done|]. split; [|done].
    unfold slab_cleared. simpl. by rewrite Hreset.
Qed.

(** [clear] drops every live value once and forgets everything. *)
Lemma slab_clear_spec e pn s L fl : slab_rep s L fl -> (forall x, pn x = false) ->
  exists drops,
    slab_clear e pn s = (Ret tt, slab_cleared s (s_drops s ++ drops)) /\
    (if e_nd e then drops ≡ₚ (map_to_list L).*2 else drops = []).
Proof.
  intros H Hpn. destruct (slab_clear_any e pn s L fl H) as (drops & s' & Heq & Hs' & Hd).
  destruct (upto_none pn drops Hpn) as [_ Hex]. rewrite Hex in *. subst s'. by exists drops.
Qed.

(** The drop of the slab frees all memory, even when a destructor panics. *)
Lemma slab_drop_any e pn s L fl : slab_rep s L fl ->
  exists drops s', slab_drop e pn s = ((if existsb pn drops then Panic PDrop else Ret tt), s') /\
    a_heap (s_items s') = ∅ /\ a_chunks (s_items s') = [] /\
    s_drops s' = s_drops s ++ upto pn drops /\
    (if e_nd e then drops ≡ₚ (map_to_list L).*2 else drops = []).
Proof.
  intros H. unfold slab_drop. destruct (e_nd e) eqn:Hnd; simpl.
  - destruct (slab_clear_any e pn s L fl H) as (drops & s' & Heq & Hs' & Hd). rewrite Hnd in Hd. rewrite Heq.
    exists drops. destruct (upto_split pn drops) as (l2 & Hup & Hcase). destruct (existsb pn drops).
    + destruct Hs' as [Hinv Hdr]. unfold on_items, zoom. rewrite arena_drop_nodrop by done. eexists. split_and!; done.
    + destruct Hcase as [-> _]. rewrite app_nil_r in Hup. rewrite <- Hup. subst s'.
      unfold on_items, zoom. rewrite arena_drop_nodrop.
      2:{ apply reset_len_inv, H. }
      eexists. split_and!; done.
  - exists []. unfold on_items, zoom. rewrite arena_drop_nodrop by apply H.
    eexists. split_and!; try done. simpl. by rewrite app_nil_r.
Qed.

Lemma slab_drop_spec e pn s L fl : slab_rep s L fl -> (forall x, pn x = false) ->
  exists drops s', slab_drop e pn s = (Ret tt, s') /\
    a_heap (s_items s') = ∅ /\ a_chunks (s_items s') = [] /\
    s_drops s' = s_drops s ++ drops /\
    (if e_nd e then drops ≡ₚ (map_to_list L).*2 else drops = []).
Proof.
  intros H Hpn. destruct (slab_drop_any e pn s L fl H) as (drops & s' & Heq & H1 & H2 & H3 & Hd).
  destruct (upto_none pn drops Hpn) as [Hup Hex]. rewrite Hex, Hup in *. by exists drops, s'.
Qed.

Lemma slab_with_capacity_spec e n :
  match slab_with_capacity (T:=T) e n with
  | (Ret _, s) => slab_rep s ∅ [] /\ n <= a_cap (s_items s) /\ a_len (s_items s) = 0 /\
                  s_drops s = [] /\ (n = 0 -> s = slab_new) /\
                  (forall c, n <= cfirst c -> nchunks (s_items s) <= c)
  | (Panic p, s) => alloc_fail (Some p) /\ a_heap (s_items s) = ∅ /\ s_drops s = []
  | (Abort, _) => True
  | (UB _, _) => False
  | (Diverge, _) => False
  end.
Proof.
  unfold slab_with_capacity. pose proof (arena_with_capacity_spec (T:=entry T) e n) as H.
  destruct (arena_with_capacity e n) as [[] ar]; try done.
  - destruct H as (H1 & H2 & H3 & H4 & H5 & H6). split_and!; try done.
    + split; simpl; try done. unfold aslots. by rewrite H2.
    + intros Hz. by rewrite H5.
  - destruct H as (H1 & H2 & H3 & H4). done.
Qed.

End slab_proofs.
