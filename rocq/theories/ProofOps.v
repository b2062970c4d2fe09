(** * The remaining map methods: writes, remove, clear, capacity, extend, drop *)

From Verif Require Export SpecFacts ProofMap SpecHistory.

Section order_link.
Context {K V : Type}.
Implicit Types t : ptree K V.

Lemma tget_find o f t : answers o f -> forall i x, tget o i t = Ret x ->
  snd <$> x = tree_find f (erase t).
Proof.
  intros Ho. induction t as [|l IHl p k v r IHr]; intros i x; simpl; [by intros [= <-]|].
  unfold ask. destruct (Ho i k) as [->| ->]; simpl; [|done].
  destruct (f k); [by intros [= <-]|apply IHl|apply IHr].
Qed.

Lemma tins_insert o cmp k v q t : answers o (cmp k) -> forall i t' r, tins o i k v q t = Ret (t', r) ->
  erase t' = tree_insert cmp k v (erase t) /\ r = snd <$> tree_find (cmp k) (erase t).
Proof.
  intros Ho. induction t as [|l IHl p k0 v0 r IHr]; intros i t' x; simpl; [by intros [= <- <-]|].
  unfold ask. destruct (Ho i k0) as [->| ->]; simpl; [|done].
  destruct (cmp k k0); [by intros [= <- <-]| |].
  - destruct (tins o (S i) k v q l) as [[l' y]| | | |] eqn:Hi; simpl; try done.
    intros [= <- <-]. apply IHl in Hi as [<- ?]. done.
  - destruct (tins o (S i) k v q r) as [[r' y]| | | |] eqn:Hi; simpl; try done.
    intros [= <- <-]. apply IHr in Hi as [<- ?]. done.
Qed.

Lemma tmin_erase l : forall (p : Ptr) (k : K) (v : V) r x r', tmin l p k v r = (x, r') ->
  tree_min (erase l) k v (erase r) = (x.2, erase r').
Proof.
  induction l as [|ll IH lp lk lv lr _]; intros p k v r x r'; simpl; [by intros [= <- <-]|].
  destruct (tmin ll lp lk lv lr) as [y l'] eqn:Hm. intros [= <- <-].
  apply IH in Hm. by rewrite Hm.
Qed.

Lemma tjoin_erase (l r : ptree K V) : erase (tjoin l r) = tree_join (erase l) (erase r).
Proof.
  destruct l as [|ll lp lk lv lr]; [done|]. destruct r as [|rl rp rk rv rr]; [done|]. simpl.
  destruct (tmin rl rp rk rv rr) as [[p [k v]] r'] eqn:Hm. apply tmin_erase in Hm. simpl in *.
  by rewrite Hm.
Qed.

Lemma trem_remove o f t : answers o f -> forall i t' x, trem o i t = Ret (t', x) ->
  erase t' = tree_remove f (erase t) /\ snd <$> x = tree_find f (erase t).
Proof.
  intros Ho. induction t as [|l IHl p k v r IHr]; intros i t' x; simpl; [by intros [= <- <-]|].
  unfold ask. destruct (Ho i k) as [->| ->]; simpl; [|done].
  destruct (f k).
  - intros [= <- <-]. split; [apply tjoin_erase|done].
  - destruct (trem o (S i) l) as [[l' y]| | | |] eqn:Hi; simpl; try done.
    intros [= <- <-]. apply IHl in Hi as [<- ?]. done.
  - destruct (trem o (S i) r) as [[r' y]| | | |] eqn:Hi; simpl; try done.
    intros [= <- <-]. apply IHr in Hi as [<- ?]. done.
Qed.

(** ** Entries with addresses *)

Lemma tins_perm o k v q t : forall i t' r, tins o i k v q t = Ret (t', r) ->
  match r with
  | None => ppre t' ≡ₚ (q, (k, v)) :: ppre t
  | Some w => exists p k0 l0, ppre t ≡ₚ (p, (k0, w)) :: l0 /\ ppre t' ≡ₚ (p, (k0, v)) :: l0
  end.
Proof.
  induction t as [|l IHl p k0 v0 r IHr]; intros i t' x; simpl; [by intros [= <- <-]|].
  unfold ask. destruct (o i k0) as [[]|]; simpl; [| | |done].
  - intros [= <- <-]. exists p, k0, (ppre l ++ ppre r). done.
  - destruct (tins o (S i) k v q l) as [[l' y]| | | |] eqn:Hi; simpl; try done.
    intros [= <- <-]. apply IHl in Hi. destruct y as [w|]; simpl.
    + destruct Hi as (p1 & k1 & l0 & H1 & H2). exists p1, k1, ((p, (k0, v0)) :: l0 ++ ppre r).
      rewrite H1, H2. split; solve_Permutation.
    + rewrite Hi. solve_Permutation.
  - destruct (tins o (S i) k v q r) as [[r' y]| | | |] eqn:Hi; simpl; try done.
    intros [= <- <-]. apply IHr in Hi. destruct y as [w|]; simpl.
    + destruct Hi as (p1 & k1 & l0 & H1 & H2). exists p1, k1, ((p, (k0, v0)) :: ppre l ++ l0).
      rewrite H1, H2. split; solve_Permutation.
    + rewrite Hi. solve_Permutation.
Qed.

(** Overwriting the value at one address. *)
Definition iset (q : Ptr) (w : V) (x : Ptr * (K * V)) : Ptr * (K * V) :=
  if decide (x.1 = q) then (x.1, (x.2.1, w)) else x.

Lemma ppre_tset q w t : ppre (tset q w t) = iset q w <$> ppre t.
Proof.
  induction t as [|l IHl p k v r IHr]; simpl; [done|]. rewrite fmap_app, IHl, IHr. f_equal.
  unfold iset. simpl. by destruct (decide (p = q)).
Qed.
Lemma pin_tset q w t : pin (tset q w t) = iset q w <$> pin t.
Proof.
  induction t as [|l IHl p k v r IHr]; simpl; [done|]. rewrite fmap_app, fmap_cons, IHl, IHr. do 2 f_equal.
  unfold iset. simpl. by destruct (decide (p = q)).
Qed.
Lemma ppost_tset q w t : ppost (tset q w t) = iset q w <$> ppost t.
Proof.
  induction t as [|l IHl p k v r IHr]; simpl; [done|]. rewrite !fmap_app, IHl, IHr. simpl. do 3 f_equal.
  unfold iset. simpl. by destruct (decide (p = q)).
Qed.

Lemma iset_not_in q w (l : list (Ptr * (K * V))) : q ∉ l.*1 -> iset q w <$> l = l.
Proof.
  induction l as [|x l IH]; [done|]. rewrite fmap_cons. intros Hq.
  rewrite fmap_cons, IH by set_solver. f_equal. unfold iset. rewrite decide_False by set_solver. done.
Qed.

Lemma iset_perm q w k v (l l0 : list (Ptr * (K * V))) : NoDup l.*1 -> l ≡ₚ (q, (k, v)) :: l0 ->
  iset q w <$> l ≡ₚ (q, (k, w)) :: l0.
Proof.
  intros Hnd Hp. rewrite Hp. rewrite Hp in Hnd. rewrite fmap_cons in Hnd.
  apply NoDup_cons in Hnd as [Hq _]. rewrite fmap_cons, iset_not_in by done.
  unfold iset. simpl. by rewrite decide_True.
Qed.

End order_link.

(** ** Ownership accounts

    Keys and values owned by a list of entries. *)

Lemma owned_app {K V} (l1 l2 : list (K * V)) : owned (l1 ++ l2) = owned l1 ++ owned l2.
Proof. apply bind_app. Qed.
Lemma owned_perm {K V} (l1 l2 : list (K * V)) : l1 ≡ₚ l2 -> owned l1 ≡ₚ owned l2.
Proof. intros H. unfold owned. by rewrite H. Qed.

Lemma owned_cons_perm {K V} (l : list (K * V)) k v l0 : l ≡ₚ (k, v) :: l0 -> owned l ≡ₚ inl k :: inr v :: owned l0.
Proof. exact (owned_perm l ((k, v) :: l0)). Qed.

Section ops.
Context {K V : Type}.
Implicit Types m : bstmap K V.
Implicit Types t : ptree K V.

Definition kv_of (n : inner K V) : K * V := (n_key n, n_value n).

(** Everything the map owns or has dropped. *)
Definition held t : list (K + V) := owned (ppre t).*2.
Definition gone m : list (K + V) := m_drops m ++ owned (kv_of <$> s_drops (m_nodes m)).
Definition opt_val (r : option V) : list (K + V) := match r with Some v => [inr v] | None => [] end.
Definition opt_kv (r : option (K * V)) : list (K + V) := match r with Some kv => [inl kv.1; inr kv.2] | None => [] end.

Lemma held_perm t t' : ppre t ≡ₚ ppre t' -> held t ≡ₚ held t'.
Proof. intros H. unfold held. apply owned_perm. by rewrite H. Qed.

Lemma rep_nodup m t fl : map_rep m t fl -> NoDup (ptrs t).
Proof. intros [[H _] _]. done. Qed.

Lemma rep_nodup_pre m t fl : map_rep m t fl -> NoDup (ppre t).*1.
Proof. intros H. rewrite ppre_fst. by eapply rep_nodup. Qed.

(** ** Assigning through a reference *)

Lemma write_value_spec m t fl p k v w : map_rep m t fl -> (p, (k, v)) ∈ ppre t ->
  wp (write_value p w)
    (fun _ m' => map_rep m' (tset p w t) fl /\ stays m m' /\ m_drops m' = m_drops m ++ [inr v])
    (fun _ _ => False) m.
Proof.
  intros Hrep Hin. unfold write_value.
  rewrite ppre_nodes in Hin. apply elem_of_list_fmap in Hin as ([q n] & Heq & Hin).
  simpl in Heq. injection Heq as -> -> ->.
  apply elem_of_list_split in Hin as (l1 & l2 & Hl).
  assert (Hnodes : nodes t ≡ₚ (q, n) :: l1 ++ l2) by (rewrite Hl; solve_Permutation).
  apply wp_bind. eapply wp_mono; [eapply on_update; [exact Hrep|exact Hnodes]| |done].
  intros x m' (-> & Hm' & Hst & Hd). apply wp_mod. split_and!; [|done|].
  - destruct Hm' as [Hs' Hr']. split; cbn [log_drops m_nodes m_root].
    + eapply srep_perm; [|exact Hs']. rewrite nodes_tset, Hl.
      pose proof (rep_nodup _ _ _ Hrep) as Hnd. unfold ptrs in Hnd. rewrite Hnodes in Hnd. simpl in Hnd.
      apply NoDup_cons in Hnd as [Hq _]. rewrite fmap_app in Hq.
      assert (Hskip : forall l : list (Ptr * inner K V), q ∉ l.*1 -> nset q w <$> l = l).
      { induction l as [|x l IH]; [done|]. rewrite fmap_cons. intros Hx. rewrite fmap_cons, IH by set_solver.
        f_equal. unfold nset. rewrite decide_False by set_solver. done. }
      rewrite fmap_app, fmap_cons, !Hskip by set_solver.
      unfold nset. simpl. rewrite decide_True by done. simpl. solve_Permutation.
    + rewrite Hr'. by rewrite tset_rootp.
  - cbn [log_drops m_drops]. by rewrite Hd.
Qed.

(** ** remove *)

Lemma map_remove_spec e (o : oracle K) m t fl : map_rep m t fl ->
  wp (map_remove e o)
    (fun (r : option V) m' => exists t' x, trem o 0 t = Ret (t', x) /\ r = (fun y => y.2.2) <$> x /\
       map_rep m' t' (removed_slot x fl) /\ stays m m' /\
       m_drops m' = m_drops m ++ (match x with Some y => [inl y.2.1] | None => [] end) /\
       a_len (s_items (m_nodes m')) = a_len (s_items (m_nodes m)) /\
       (x = None -> m' = m))
    (fun r m' => r = Some PCmp /\ m' = m /\ trem o 0 t = Panic PCmp) m.
Proof.
  intros Hrep. unfold map_remove. apply wp_bind.
  eapply wp_mono; [by eapply map_remove_entry_spec| |done].
  intros r m' (t' & x & Htr & -> & Hrep' & Hst & Hd & Hlen & Hnone).
  destruct x as [[p [k v]]|]; simpl.
  - apply wp_bind, wp_mod, wp_ret. exists t', (Some (p, (k, v))). split_and!; try done.
    cbn [log_drops m_drops]. by rewrite Hd.
  - apply wp_ret. exists t', None. split_and!; try done. by rewrite app_nil_r.
Qed.

(** ** clear *)

Lemma map_clear_spec e pn m t fl : map_rep m t fl -> (forall n, pn n = false) ->
  exists m' drops, map_clear e pn m = (Ret tt, m') /\ map_rep m' Leaf [] /\
    s_drops (m_nodes m') = s_drops (m_nodes m) ++ drops /\ m_drops m' = m_drops m /\
    a_len (s_items (m_nodes m')) = 0%N /\
    same_room (m_nodes m) (m_nodes m') /\
    (if e_nd e then kv_of <$> drops ≡ₚ (ppre t).*2 else drops = []).
Proof.
  intros [[Hnd Hs] Hroot] Hpn. unfold map_clear, on_nodes, zoom, sbind.
  destruct (slab_clear_spec e pn _ _ _ Hs Hpn) as (drops & -> & Hd).
  eexists _, drops. split; [done|]. simpl. split_and!; try done.
  - split; [|done]. simpl. split; [constructor|].
    apply slab_cleared_rep, Hs.
  - destruct (e_nd e); [|done]. rewrite Hd, map_to_list_to_map by done.
    rewrite ppre_nodes. rewrite <- !list_fmap_compose. done.
Qed.

(** ** Capacity *)

Lemma map_rep_ext m t fl a' : map_rep m t fl -> arena_ext (s_items (m_nodes m)) a' ->
  map_rep (set_nodes (set_items a' (m_nodes m)) m) t fl.
Proof.
  intros [[Hnd Hs] Hroot] Hext. split; [|done]. split; [done|].
  destruct Hs as [I1 I2 I3 I4 I5]. split; simpl; try done.
  - apply Hext.
  - eapply chain_cells; [|done]. intros. apply Hext.
  - intros p x Hp. rewrite (ax_cells _ _ Hext). by apply I4.
  - rewrite (arena_ext_aslots (s_items (m_nodes m))) by done. done.
Qed.

Definition mem m := s_items (m_nodes m).
(** [m'] is [m] with the arena grown. *)
Definition grown m m' : Prop :=
  arena_ext (mem m) (mem m') /\ m' = set_nodes (set_items (mem m') (m_nodes m)) m.

Lemma grown_refl m : arena_inv (mem m) -> grown m m.
Proof. intros H. split; [by apply arena_ext_refl|]. by destruct m as [[] ? ?]. Qed.

Lemma rep_inv m t fl : map_rep m t fl -> arena_inv (mem m).
Proof. intros [[_ H] _]. apply H. Qed.

Lemma map_reserve_spec e n m t fl : map_rep m t fl ->
  wp (map_reserve e n)
    (fun _ m' => map_rep m' t fl /\ grown m m' /\
       ((a_len (mem m) + n < USIZE)%N ->
          (a_len (mem m) + n <= map_capacity m')%N /\
          ((a_len (mem m) + n <= map_capacity m)%N -> m' = m) /\
          (forall c, (nchunks (mem m) <= c)%N -> (a_len (mem m) + n <= cfirst c)%N -> (nchunks (mem m') <= c)%N)) /\
       ((USIZE <= a_len (mem m) + n)%N -> e_chk e = false))
    (fun r m' => map_rep m' t fl /\ grown m m' /\
       ((alloc_fail r /\ ((a_len (mem m) + n < USIZE)%N -> (map_capacity m' < a_len (mem m) + n)%N)) \/
        (r = Some POverflow /\ m' = m /\ e_chk e = true /\ (USIZE <= a_len (mem m) + n)%N))) m.
Proof.
  intros Hrep. pose proof (rep_inv _ _ _ Hrep) as Hinv. unfold map_reserve, on_nodes. apply wp_zoom.
  unfold slab_reserve, on_items. apply wp_zoom. unfold arena_reserve, arena_len.
  apply wp_bind, wp_get. apply wp_bind. fold (mem m).
  destruct (N.lt_ge_cases (a_len (mem m) + n) USIZE) as [Hlt|Hge].
  - eapply wp_lift_ret; [by apply uadd_ret|].
    eapply wp_mono; [eapply grow_loop_spec; [done|apply grow_fuel_enough]| |].
    + intros _ a' (Hext & Hcap & Hid & Hmin). split_and!; try done.
      * by apply map_rep_ext.
      * intros _. split_and!; try done. intros Hle. rewrite Hid by done. by destruct m as [[] ? ?].
      * intros Hge. exfalso. lia.
    + intros r a' (Hf & Hext & Hcap). split_and!; try done.
      * by apply map_rep_ext.
      * by left.
  - apply wp_lift. unfold uadd. apply N.ltb_ge in Hge as Hge'. rewrite Hge'.
    destruct (e_chk e) eqn:Hchk; cbn [rwp].
    + replace (set_nodes _ m) with m by (by destruct m as [[] ? ?]).
      split_and!; [done|by apply grown_refl|right; done].
    + eapply wp_mono; [eapply grow_loop_spec; [done|apply grow_fuel_enough]| |].
      * intros _ a' (Hext & _). split_and!; try done.
        -- by apply map_rep_ext.
        -- intros Hlt. exfalso. lia.
      * intros r a' (Hf & Hext & _). split_and!; try done.
        -- by apply map_rep_ext.
        -- left. split; [done|]. intros Hlt. exfalso. lia.
Qed.

Lemma map_shrink_spec e m t fl : map_rep m t fl ->
  wp (map_shrink_to_fit e)
    (fun _ m' => map_rep m' t fl /\ arena_shrunk (mem m) (mem m') /\
       m' = set_nodes (set_items (mem m') (m_nodes m)) m /\
       (forall n, (a_len (mem m) <= cfirst n)%N -> (n <= nchunks (mem m))%N -> (nchunks (mem m') <= n)%N))
    (fun _ _ => False) m.
Proof.
  intros [[Hnd Hs] Hroot]. apply wp_zoom. eapply wp_mono; [by eapply slab_shrink_spec| |done].
  intros _ s' (Hs' & Hsh & Heq & Hmin). split_and!; try done. unfold mem. cbn [set_nodes m_nodes]. f_equal. exact Heq.
Qed.

Lemma map_new_rep : map_rep (@map_new K V) Leaf [].
Proof. split; [|done]. split; [constructor|]. apply slab_new_rep. Qed.

Lemma map_with_capacity_spec e n :
  match map_with_capacity (K:=K) (V:=V) e n with
  | (Ret _, m) => map_rep m Leaf [] /\ (n <= map_capacity m)%N /\ a_len (mem m) = 0%N /\
                  m_drops m = [] /\ s_drops (m_nodes m) = [] /\ (n = 0%N -> m = map_new) /\
                  (forall c, (n <= cfirst c)%N -> (nchunks (mem m) <= c)%N)
  | (Panic p, m) => alloc_fail (Some p) /\ a_heap (mem m) = ∅ /\ m_drops m = [] /\ s_drops (m_nodes m) = []
  | (Abort, _) => True
  | (UB _, _) => False
  | (Diverge, _) => False
  end.
Proof.
  unfold map_with_capacity. pose proof (slab_with_capacity_spec (T:=inner K V) e n) as H.
  destruct (slab_with_capacity e n) as [[] s]; try done.
  - destruct H as (H1 & H2 & H3 & H4 & H5 & H6). split_and!; try done.
    + split; [|done]. split; [constructor|]. done.
    + intros Hn. by rewrite H5.
  - destruct H as (H1 & H2 & H3). done.
Qed.

(** ** Dropping a map *)

Lemma map_drop_spec e pn m t fl : map_rep m t fl -> (forall n, pn n = false) ->
  exists m' drops, map_drop e pn m = (Ret tt, m') /\
    a_heap (mem m') = ∅ /\ m_drops m' = m_drops m /\
    s_drops (m_nodes m') = s_drops (m_nodes m) ++ drops /\
    (if e_nd e then kv_of <$> drops ≡ₚ (ppre t).*2 else drops = []).
Proof.
  intros [[Hnd Hs] Hroot] Hpn. unfold map_drop, on_nodes, zoom.
  destruct (slab_drop_spec e pn _ _ _ Hs Hpn) as (drops & s' & -> & H1 & H2 & H3 & H4).
  eexists _, drops. split; [done|]. split_and!; try done.
  destruct (e_nd e); [|done]. rewrite H4, map_to_list_to_map by done.
  rewrite ppre_nodes. rewrite <- !list_fmap_compose. done.
Qed.

(** ** Ownership accounts of insert and remove *)

Lemma tins_account o i k v q t t' r : tins o i k v q t = Ret (t', r) ->
  held t' ++ opt_val r ++ (if is_some r then [inl k] else []) ≡ₚ held t ++ [inl k; inr v].
Proof.
  intros H. apply tins_perm in H. unfold held. destruct r as [w|]; simpl.
  - destruct H as (p & k0 & l0 & H1 & H2).
    assert (E1 : owned (ppre t).*2 ≡ₚ inl k0 :: inr w :: owned l0.*2) by (apply owned_cons_perm; by rewrite H1).
    assert (E2 : owned (ppre t').*2 ≡ₚ inl k0 :: inr v :: owned l0.*2) by (apply owned_cons_perm; by rewrite H2).
    rewrite E1, E2. solve_Permutation.
  - assert (E : owned (ppre t').*2 ≡ₚ inl k :: inr v :: owned (ppre t).*2) by (apply owned_cons_perm; by rewrite H).
    rewrite E. solve_Permutation.
Qed.

Lemma trem_account o i t t' x : trem o i t = Ret (t', x) ->
  held t' ++ opt_kv (snd <$> x) ≡ₚ held t.
Proof.
  intros H. apply trem_perm in H. destruct x as [[p [k v]]|]; simpl.
  - unfold held. assert (E : owned (ppre t).*2 ≡ₚ inl k :: inr v :: owned (ppre t').*2).
    { apply owned_cons_perm. by rewrite <- H. }
    rewrite E. solve_Permutation.
  - subst. by rewrite app_nil_r.
Qed.

Lemma bstmap_insert_account e (o : oracle K) (k : K) (v : V) m t fl : map_rep m t fl ->
  wp (bstmap_insert e o k v)
    (fun (r : option V) m' => exists q t' fl', tins o 0 k v q t = Ret (t', r) /\ map_rep m' t' fl' /\
       held t' ++ gone m' ++ opt_val r ≡ₚ held t ++ gone m ++ [inl k; inr v])
    (fun r m' => map_rep m' t fl /\
       match r with Some _ => gone m' ≡ₚ gone m ++ [inl k; inr v] | None => True end) m.
Proof.
  intros Hrep. eapply wp_mono; [by apply bstmap_insert_spec| |].
  - intros r m' (q & t' & Ht & Hpost). exists q, t'. pose proof (tins_account _ _ _ _ _ _ _ _ Ht) as Ha.
    destruct r as [w|]; cbn [insert_post] in Hpost.
    + destruct Hpost as (Hr & [_ Hst] & Hd). exists fl. split_and!; try done.
      unfold gone. rewrite Hd, Hst. cbn [opt_val is_some] in *.
      transitivity ((held t' ++ [inr w] ++ [inl k]) ++ m_drops m ++ owned (kv_of <$> s_drops (m_nodes m)));
        [solve_Permutation|]. rewrite Ha. solve_Permutation.
    + destruct Hpost as (Hr & _ & _ & Hd & Hsd & _). exists (tail fl). split_and!; try done.
      unfold gone. rewrite Hd, Hsd. cbn [opt_val is_some] in *. rewrite app_nil_r in *. simpl in Ha.
      rewrite Ha. solve_Permutation.
  - intros r m' [(-> & -> & _)|(m0 & Href & _ & ->)].
    + split; [done|]. unfold gone, log_drops. simpl. solve_Permutation.
    + destruct Href as (_ & Hr0 & _ & _ & _ & Hd & Hsd & _). destruct r as [r|]; [|done].
      split; [done|]. unfold gone, log_drops. simpl. rewrite Hd, Hsd. solve_Permutation.
Qed.

End ops.
