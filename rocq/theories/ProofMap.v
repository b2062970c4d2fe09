(** * The map methods compute the tree operations *)

From Verif Require Export ProofTree.

Section map_proofs.
Context {K V : Type}.
Implicit Types m : bstmap K V.
Implicit Types t l sub : ptree K V.

(** The map [m] represents the tree [t]; [fl] is the list of its free slots. *)
Definition map_rep m t (fl : list Ptr) : Prop :=
  srep (m_nodes m) (nodes t) fl /\ m_root m = rootp t.

(** Every node of [t] can be read from memory. *)
Definition readable m t : Prop := forall p n, (p, n) ∈ nodes t -> slab_get (m_nodes m) p = Ret n.

Lemma rep_readable m t fl : map_rep m t fl -> readable m t.
Proof. intros [H _] p n Hin. by eapply srep_get. Qed.

Lemma readable_l m l p k v r : readable m (Bin l p k v r) -> readable m l.
Proof. intros H q n Hin. apply H. simpl. right. apply elem_of_app. by left. Qed.
Lemma readable_r m l p k v r : readable m (Bin l p k v r) -> readable m r.
Proof. intros H q n Hin. apply H. simpl. right. apply elem_of_app. by right. Qed.
Lemma readable_root m l p k v r : readable m (Bin l p k v r) ->
  slab_get (m_nodes m) p = Ret (mkInner k v (rootp l) (rootp r)).
Proof. intros H. apply H. simpl. left. Qed.
Hint Resolve readable_l readable_r : core.

Lemma rep_fuel m t fl : map_rep m t fl -> tsize t < map_fuel m.
Proof. intros [H _]. unfold map_fuel, arena_len, tsize. by eapply srep_fuel. Qed.
Lemma rep_fuel_height m t fl : map_rep m t fl -> pheight t < map_fuel m.
Proof. intros H. apply rep_fuel in H. pose proof (pheight_size t). lia. Qed.

Definition node_of t : option (Node K V) :=
  match t with
  | Leaf => None
  | Bin l p k v r => Some (mkNode p (mkInner k v (rootp l) (rootp r)))
  end.

Lemma opt_node_ret m t : readable m t -> opt_node m (rootp t) = Ret (node_of t).
Proof.
  intros H. destruct t as [|l p k v r]; [done|]. simpl. unfold node_new.
  by rewrite (readable_root _ _ _ _ _ _ H).
Qed.

Lemma opt_nodemut_ret m t : readable m t -> opt_nodemut m (rootp t) = Ret (rootp t).
Proof.
  intros H. destruct t as [|l p k v r]; [done|]. simpl. unfold nodemut_new.
  by rewrite (readable_root _ _ _ _ _ _ H).
Qed.

Lemma map_root_ret m t fl : map_rep m t fl -> map_root m = Ret (node_of t).
Proof. intros H. unfold map_root. rewrite (proj2 H). apply opt_node_ret. by eapply rep_readable. Qed.
Lemma map_root_mut_ret m t fl : map_rep m t fl -> map_root_mut m = Ret (rootp t).
Proof. intros H. unfold map_root_mut. rewrite (proj2 H). apply opt_nodemut_ret. by eapply rep_readable. Qed.

Lemma nodemut_key_ret m l p k v r : readable m (Bin l p k v r) -> nodemut_key m p = Ret k.
Proof. intros H. unfold nodemut_key. by rewrite (readable_root _ _ _ _ _ _ H). Qed.
Lemma nodemut_left_ret m l p k v r : readable m (Bin l p k v r) -> nodemut_left m p = Ret (rootp l).
Proof.
  intros H. unfold nodemut_left. rewrite (readable_root _ _ _ _ _ _ H). cbn [rbind n_left].
  apply opt_nodemut_ret. eauto.
Qed.
Lemma nodemut_right_ret m l p k v r : readable m (Bin l p k v r) -> nodemut_right m p = Ret (rootp r).
Proof.
  intros H. unfold nodemut_right. rewrite (readable_root _ _ _ _ _ _ H). cbn [rbind n_right].
  apply opt_nodemut_ret. eauto.
Qed.

(** ** Lookups *)

Lemma get_entry_loop_eq m o t : forall fuel i, readable m t -> pheight t < fuel ->
  get_entry_loop m o fuel i (node_of t) = tget o i t.
Proof.
  induction t as [|l IHl p k v r IHr]; intros [|fuel] i Hr Hf; simpl in *; try lia; [done|].
  unfold node_key. simpl. destruct (ask o i k) as [[]| | | |]; simpl; try done.
  - unfold node_left. simpl. rewrite opt_node_ret by eauto. cbn [rbind]. apply IHl; eauto. lia.
  - unfold node_right. simpl. rewrite opt_node_ret by eauto. cbn [rbind]. apply IHr; eauto. lia.
Qed.

Lemma get_loop_eq m o t : forall fuel i, readable m t -> pheight t < fuel ->
  get_loop m o fuel i (node_of t) = rmap (fmap (fun x => (x.1, x.2.2))) (tget o i t).
Proof.
  induction t as [|l IHl p k v r IHr]; intros [|fuel] i Hr Hf; simpl in *; try lia; [done|].
  unfold node_key. simpl. destruct (ask o i k) as [[]| | | |]; simpl; try done.
  - unfold node_left. simpl. rewrite opt_node_ret by eauto. cbn [rbind]. apply IHl; eauto. lia.
  - unfold node_right. simpl. rewrite opt_node_ret by eauto. cbn [rbind]. apply IHr; eauto. lia.
Qed.

Definition is_some {A} (x : option A) : bool := match x with Some _ => true | None => false end.

Lemma contains_loop_eq m o t : forall fuel i, readable m t -> pheight t < fuel ->
  contains_loop m o fuel i (node_of t) = rmap is_some (tget o i t).
Proof.
  induction t as [|l IHl p k v r IHr]; intros [|fuel] i Hr Hf; simpl in *; try lia; [done|].
  unfold node_key. simpl. destruct (ask o i k) as [[]| | | |]; simpl; try done.
  - unfold node_left. simpl. rewrite opt_node_ret by eauto. cbn [rbind]. apply IHl; eauto. lia.
  - unfold node_right. simpl. rewrite opt_node_ret by eauto. cbn [rbind]. apply IHr; eauto. lia.
Qed.

Lemma get_mut_loop_eq m o t : forall fuel i, readable m t -> pheight t < fuel ->
  get_mut_loop m o fuel i (rootp t) = rmap (fmap fst) (tget o i t).
Proof.
  induction t as [|l IHl p k v r IHr]; intros [|fuel] i Hr Hf; simpl in *; try lia; [done|].
  rewrite (nodemut_key_ret _ _ _ _ _ _ Hr). cbn [rbind].
  destruct (ask o i k) as [[]| | | |]; simpl; try done.
  - rewrite (nodemut_left_ret _ _ _ _ _ _ Hr). cbn [rbind]. apply IHl; eauto. lia.
  - rewrite (nodemut_right_ret _ _ _ _ _ _ Hr). cbn [rbind]. apply IHr; eauto. lia.
Qed.

Lemma get_entry_mut_loop_eq m o t : forall fuel i, readable m t -> pheight t < fuel ->
  get_entry_mut_loop m o fuel i (rootp t) = rmap (fmap (fun x => (x.2.1, x.1))) (tget o i t).
Proof.
  induction t as [|l IHl p k v r IHr]; intros [|fuel] i Hr Hf; simpl in *; try lia; [done|].
  rewrite (nodemut_key_ret _ _ _ _ _ _ Hr). cbn [rbind].
  destruct (ask o i k) as [[]| | | |]; simpl; try done.
  - rewrite (nodemut_left_ret _ _ _ _ _ _ Hr). cbn [rbind]. apply IHl; eauto. lia.
  - rewrite (nodemut_right_ret _ _ _ _ _ _ Hr). cbn [rbind]. apply IHr; eauto. lia.
Qed.

Lemma map_get_entry_ref_eq m t fl o : map_rep m t fl -> map_get_entry_ref m o = tget o 0 t.
Proof.
  intros H. unfold map_get_entry_ref. rewrite (map_root_ret _ _ _ H). cbn [rbind].
  apply get_entry_loop_eq; [by eapply rep_readable|by eapply rep_fuel_height].
Qed.
Lemma map_get_ref_eq m t fl o : map_rep m t fl ->
  map_get_ref m o = rmap (fmap (fun x => (x.1, x.2.2))) (tget o 0 t).
Proof.
  intros H. unfold map_get_ref. rewrite (map_root_ret _ _ _ H). cbn [rbind].
  apply get_loop_eq; [by eapply rep_readable|by eapply rep_fuel_height].
Qed.
Lemma map_contains_key_eq m t fl o : map_rep m t fl ->
  map_contains_key m o = rmap is_some (tget o 0 t).
Proof.
  intros H. unfold map_contains_key. rewrite (map_root_ret _ _ _ H). cbn [rbind].
  apply contains_loop_eq; [by eapply rep_readable|by eapply rep_fuel_height].
Qed.
Lemma map_get_mut_eq m t fl o : map_rep m t fl -> map_get_mut m o = rmap (fmap fst) (tget o 0 t).
Proof.
  intros H. unfold map_get_mut. rewrite (map_root_mut_ret _ _ _ H). cbn [rbind].
  apply get_mut_loop_eq; [by eapply rep_readable|by eapply rep_fuel_height].
Qed.
Lemma map_get_entry_mut_eq m t fl o : map_rep m t fl ->
  map_get_entry_mut m o = rmap (fmap (fun x => (x.2.1, x.1))) (tget o 0 t).
Proof.
  intros H. unfold map_get_entry_mut. rewrite (map_root_mut_ret _ _ _ H). cbn [rbind].
  apply get_entry_mut_loop_eq; [by eapply rep_readable|by eapply rep_fuel_height].
Qed.

Lemma map_get_entry_eq m t fl o : map_rep m t fl ->
  map_get_entry m o = rmap (fmap snd) (tget o 0 t).
Proof. intros H. unfold map_get_entry. by rewrite (map_get_entry_ref_eq _ _ _ o H). Qed.
Lemma map_get_eq m t fl o : map_rep m t fl ->
  map_get m o = rmap (fmap (fun x => x.2.2)) (tget o 0 t).
Proof.
  intros H. unfold map_get. rewrite (map_get_ref_eq _ _ _ o H).
  destruct (tget o 0 t) as [[x|]| | | |]; done.
Qed.

(** ** Sizes *)

Lemma map_len_ret e m t fl : map_rep m t fl -> map_len e m = Ret (N.of_nat (tsize t)).
Proof.
  intros [H _]. unfold map_len. rewrite (slab_len_ret e _ _ _ (proj2 H)).
  by rewrite (srep_size _ _ _ H).
Qed.

Lemma slab_empty_ret e m t fl : map_rep m t fl ->
  slab_is_empty e (m_nodes m) = Ret (match t with Leaf => true | _ => false end).
Proof.
  intros [H _]. unfold slab_is_empty. rewrite (slab_len_ret e _ _ _ (proj2 H)).
  rewrite (srep_size _ _ _ H). cbn [rbind]. by destruct t.
Qed.

Lemma map_is_empty_ret e m t fl : map_rep m t fl ->
  map_is_empty e m = Ret (match t with Leaf => true | _ => false end).
Proof.
  intros H. unfold map_is_empty. rewrite (slab_empty_ret e _ _ _ H). cbn [rbind].
  rewrite (proj2 H). destruct (e_chk e); cbn [rbind]; [|done].
  rewrite dassert_ret; [done|]. by destruct t.
Qed.

(** ** Frames *)

(** What stays the same when a method neither grows nor shrinks the arena and
    drops no node. *)
Definition stays m m' : Prop :=
  same_room (m_nodes m) (m_nodes m') /\ s_drops (m_nodes m') = s_drops (m_nodes m).

Lemma stays_refl m : stays m m.
Proof. done. Qed.
Lemma stays_trans m1 m2 m3 : stays m1 m2 -> stays m2 m3 -> stays m1 m3.
Proof. unfold stays, same_room. intros ((?&?&?)&?) ((?&?&?)&?). split_and!; congruence. Qed.

(** Memory with some nodes, and a root; [map_rep] up to the order of the nodes. *)
Definition mrep m ns fl r := srep (m_nodes m) ns fl /\ m_root m = r.

Lemma mrep_get m ns fl r p n : mrep m ns fl r -> (p, n) ∈ ns -> slab_get (m_nodes m) p = Ret n.
Proof. intros [H _] Hin. by eapply srep_get. Qed.

Lemma mrep_perm m ns ns' fl r : ns ≡ₚ ns' -> mrep m ns fl r -> mrep m ns' fl r.
Proof. intros Hp [H1 H2]. split; [|done]. by eapply srep_perm. Qed.

Lemma rep_mrep m t fl : map_rep m t fl <-> mrep m (nodes t) fl (rootp t).
Proof. done. Qed.

Lemma on_update m ns p n ns' fl r f : mrep m ns fl r -> ns ≡ₚ (p, n) :: ns' ->
  wp (on_nodes (slab_update p f))
    (fun x m' => x = n /\ mrep m' ((p, f n) :: ns') fl r /\ stays m m' /\ m_drops m' = m_drops m)
    (fun _ _ => False) m.
Proof.
  intros [H1 H2] Hp. apply wp_zoom. eapply srep_perm in H1; [|done].
  eapply wp_mono; [by eapply srep_update| |done].
  intros x s' (-> & Hs' & Hroom & Hd). split_and!; done.
Qed.

(** ** insert *)

(** The possible effects of [insert] when it returns. *)
Definition insert_post m t fl (k : K) (r : option V) m' t' (q : Ptr) : Prop :=
  match r with
  | Some _ =>
      map_rep m' t' fl /\ stays m m' /\ m_drops m' = m_drops m ++ [inl k]
  | None =>
      map_rep m' t' (tail fl) /\ q ∉ ptrs t /\ (fl = [] \/ head fl = Some q) /\
      m_drops m' = m_drops m /\ s_drops (m_nodes m') = s_drops (m_nodes m) /\
      ((N.of_nat (tsize t) < map_capacity m)%N -> stays m m') /\
      (map_capacity m <= map_capacity m')%N /\
      (fl <> [] -> a_len (s_items (m_nodes m')) = a_len (s_items (m_nodes m)))
  end.

(** The memory is full and the allocator refused; nothing has changed. *)
Definition refused m t fl (r : option panic_reason) m' : Prop :=
  alloc_fail r /\ map_rep m' t fl /\ fl = [] /\ N.of_nat (tsize t) = map_capacity m /\
  map_capacity m' = map_capacity m /\
  m_drops m' = m_drops m /\ s_drops (m_nodes m') = s_drops (m_nodes m) /\
  exists n, m' = set_nodes (set_items (set_next n (s_items (m_nodes m))) (m_nodes m)) m.

Lemma push_spec e m t fl (n : inner K V) : map_rep m t fl ->
  wp (on_nodes (slab_push e n))
    (fun q m' => mrep m' ((q, n) :: nodes t) (tail fl) (m_root m) /\ q ∉ ptrs t /\
       (fl = [] \/ head fl = Some q) /\
       m_drops m' = m_drops m /\ s_drops (m_nodes m') = s_drops (m_nodes m) /\
       ((N.of_nat (tsize t) < map_capacity m)%N -> stays m m') /\
       (map_capacity m <= map_capacity m')%N /\
       (fl <> [] -> a_len (s_items (m_nodes m')) = a_len (s_items (m_nodes m))))
    (fun r m' => refused m t fl r m') m.
Proof.
  intros [H1 H2]. apply wp_zoom. eapply wp_mono; [by apply srep_push| |].
  - intros q s' (Hq & Hs' & Hd & Hfl & Hroom & Hlen & Hcap). split_and!; try done.
    intros Hlt. specialize (Hroom Hlt). done.
  - intros r s' (Hf & Hs' & Hd & Hfl & Hcap & Heq). unfold refused.
    assert (a_cap (s_items s') = a_cap (s_items (m_nodes m))) by (by rewrite Heq).
    split_and!; try done. eexists. by rewrite Heq at 1.
Qed.

Lemma insert_loop_spec e o k v t : forall sub C fuel i m fl,
  t = plug C sub -> map_rep m t fl -> pheight sub < fuel -> sub <> Leaf ->
  wp (insert_loop e o fuel i k v (rootp sub))
    (fun r m' => exists q sub', tins o i k v q sub = Ret (sub', r) /\
       insert_post m t fl k r m' (plug C sub') q)
    (fun r m' =>
       (r = Some PCmp /\ m' = m /\ forall q, tins o i k v q sub = Panic PCmp) \/
       (refused m t fl r m' /\ forall q, exists sub', tins o i k v q sub = Ret (sub', None))) m.
Proof.
  induction sub as [|l IHl p k0 v0 r IHr]; [done|].
  intros C [|fuel] i m fl Ht Hrep Hf _; simpl in Hf; [lia|].
  assert (Hread : readable m (Bin l p k0 v0 r)).
  { intros q n Hin. eapply rep_readable; [done|]. rewrite Ht, nodes_plug. apply elem_of_app. by left. }
  assert (Hnodes : nodes t ≡ₚ (p, mkInner k0 v0 (rootp l) (rootp r)) :: nodes l ++ nodes r ++ cnodes C (Some p)).
  { rewrite Ht, nodes_plug. simpl. solve_Permutation. }
  cbn [rootp insert_loop]. apply wp_bind, wp_get. apply wp_bind.
  eapply wp_lift_ret; [by eapply nodemut_key_ret|]. apply wp_bind.
  cbn [tins]. destruct (o i k0) as [c|] eqn:Ho.
  2:{ apply wp_lift. unfold ask. rewrite Ho. simpl. left. split_and!; done. }
  eapply wp_lift_ret; [unfold ask; by rewrite Ho|].
  unfold ask. rewrite Ho. cbn [rbind]. destruct c.
  - (* equal *)
    apply wp_bind. unfold nodemut_replace_value. apply wp_bind.
    eapply wp_mono; [eapply on_update; [exact Hrep|exact Hnodes]| |done].
    intros x m' (-> & Hm' & Hst & Hd). apply wp_ret. apply wp_bind, wp_mod.
    apply wp_ret. exists p. eexists. split; [done|]. split_and!; try done.
    + destruct Hm' as [Hs' Hroot']. split; cbn [log_drops m_nodes m_root].
      * eapply srep_perm; [|exact Hs']. rewrite nodes_plug. simpl. unfold with_value. simpl.
        solve_Permutation.
      * rewrite Hroot', Ht. apply rootp_plug_cong. by right.
    + cbn [log_drops m_drops]. by rewrite Hd.
  - (* less *)
    apply wp_bind. unfold nodemut_has_left. rewrite (readable_root _ _ _ _ _ _ Hread).
    eapply wp_lift_ret; [done|]. cbn [n_left].
    destruct l as [|ll lp lk lv lr].
    + cbn [rootp negb]. apply wp_bind. unfold nodemut_push_left. apply wp_bind.
      eapply wp_mono; [by eapply push_spec| |].
      2:{ intros r0 m' Href. right. split; [done|]. intros q. by eexists. }
      intros q m' (Hm' & Hq & Hfl & Hd & Hsd & Hroom & Hcap & Hlen). apply wp_bind.
      unfold nodemut_set_left. apply wp_bind.
      eapply wp_mono; [eapply (on_update m' _ p); [exact Hm'|]| |done].
      { rewrite Hnodes. apply Permutation_swap. }
      intros x m'' (-> & Hm'' & Hst & Hd'). do 3 apply wp_ret.
      exists q. eexists. split; [done|]. cbn [insert_post]. destruct Hst as [(Hr1 & Hr2 & Hr3) Hst2].
      split_and!; try done.
      * destruct Hm'' as [Hs'' Hroot'']. split.
        -- eapply srep_perm; [|exact Hs'']. rewrite nodes_plug. simpl. unfold with_left. simpl.
           solve_Permutation.
        -- rewrite Hroot'', (proj2 Hrep), Ht. apply rootp_plug_cong. by right.
      * by rewrite Hd'.
      * by rewrite Hst2.
      * intros Hlt. eapply stays_trans; [by apply Hroom|]. done.
      * unfold map_capacity, slab_capacity, arena_capacity in *. by rewrite Hr2.
      * intros Hne. rewrite <- Hlen by done.
        destruct Hm' as [Hm' _], Hm'' as [Hm'' _].
        rewrite (srep_len _ _ _ Hm'), (srep_len _ _ _ Hm''). simpl. rewrite Hnodes. simpl. done.
    + cbn [rootp negb]. apply wp_bind.
      eapply wp_lift_ret; [by eapply nodemut_left_ret|].
      eapply wp_mono; [eapply (IHl (FL p k0 v0 r :: C)); [done|done|simpl in *; lia|done]| |].
      * intros x m' (q & sub' & Hins & Hpost). exists q. rewrite Hins. simpl. eexists. split; [done|].
        done.
      * intros x m' [(-> & -> & Hp)|(Href & Hp)].
        -- left. split_and!; try done. intros q. by rewrite Hp.
        -- right. split; [done|]. intros q. destruct (Hp q) as [sub' ->]. simpl. eauto.
  - (* greater *)
    apply wp_bind. unfold nodemut_has_right. rewrite (readable_root _ _ _ _ _ _ Hread).
    eapply wp_lift_ret; [done|]. cbn [n_right].
    destruct r as [|rl rp rk rv rr].
    + cbn [rootp negb]. apply wp_bind. unfold nodemut_push_right. apply wp_bind.
      eapply wp_mono; [by eapply push_spec| |].
      2:{ intros r0 m' Href. right. split; [done|]. intros q. by eexists. }
      intros q m' (Hm' & Hq & Hfl & Hd & Hsd & Hroom & Hcap & Hlen). apply wp_bind.
      unfold nodemut_set_right. apply wp_bind.
      eapply wp_mono; [eapply (on_update m' _ p); [exact Hm'|]| |done].
      { rewrite Hnodes. apply Permutation_swap. }
      intros x m'' (-> & Hm'' & Hst & Hd'). do 3 apply wp_ret.
      exists q. eexists. split; [done|]. cbn [insert_post]. destruct Hst as [(Hr1 & Hr2 & Hr3) Hst2].
      split_and!; try done.
      * destruct Hm'' as [Hs'' Hroot'']. split.
        -- eapply srep_perm; [|exact Hs'']. rewrite nodes_plug. simpl. unfold with_right. simpl.
           solve_Permutation.
        -- rewrite Hroot'', (proj2 Hrep), Ht. apply rootp_plug_cong. by right.
      * by rewrite Hd'.
      * by rewrite Hst2.
      * intros Hlt. eapply stays_trans; [by apply Hroom|]. done.
      * unfold map_capacity, slab_capacity, arena_capacity in *. by rewrite Hr2.
      * intros Hne. rewrite <- Hlen by done.
        destruct Hm' as [Hm' _], Hm'' as [Hm'' _].
        rewrite (srep_len _ _ _ Hm'), (srep_len _ _ _ Hm''). simpl. rewrite Hnodes. simpl. done.
    + cbn [rootp negb]. apply wp_bind.
      eapply wp_lift_ret; [by eapply nodemut_right_ret|].
      eapply wp_mono; [eapply (IHr (FR l p k0 v0 :: C)); [done|done|simpl in *; lia|done]| |].
      * intros x m' (q & sub' & Hins & Hpost). exists q. rewrite Hins. simpl. eexists. split; [done|].
        done.
      * intros x m' [(-> & -> & Hp)|(Href & Hp)].
        -- left. split_and!; try done. intros q. by rewrite Hp.
        -- right. split; [done|]. intros q. destruct (Hp q) as [sub' ->]. simpl. eauto.
Qed.

Lemma bstmap_insert_spec e (o : oracle K) (k : K) (v : V) m t fl : map_rep m t fl ->
  wp (bstmap_insert e o k v)
    (fun (r : option V) m' => exists q t', tins o 0 k v q t = Ret (t', r) /\
       insert_post m t fl k r m' t' q)
    (fun r m' =>
       (r = Some PCmp /\ m' = log_drops [inl k; inr v] m /\ forall q, tins o 0 k v q t = Panic PCmp) \/
       (exists m0, refused m t fl r m0 /\ (forall q, exists t', tins o 0 k v q t = Ret (t', None)) /\
          m' = match r with Some _ => log_drops [inl k; inr v] m0 | None => m0 end)) m.
Proof.
  intros Hrep. apply wp_on_panic. apply wp_bind, wp_get. apply wp_bind.
  eapply wp_lift_ret; [by eapply map_root_mut_ret|].
  destruct t as [|l p k0 v0 r]; cbn [rootp].
  - apply wp_bind. eapply wp_mono; [by eapply push_spec| |].
    + intros q m' (Hm' & Hq & Hfl & Hd & Hsd & Hroom & Hcap & Hlen).
      apply wp_bind, wp_mod, wp_ret. exists q. eexists. split; [done|]. split_and!; try done.
      destruct Hm' as [Hs' _]. split; [|done]. eapply srep_perm; [|exact Hs']. simpl. done.
    + intros r m' Href. destruct r; (right; exists m'; split_and!; [done| |done]; eauto).
  - change (Some p) with (rootp (Bin l p k0 v0 r)).
    eapply wp_mono; [eapply (insert_loop_spec e o k v _ (Bin l p k0 v0 r) []); [done|done| |done]| |].
    + by eapply rep_fuel_height.
    + intros x m' (q & t' & Hins & Hpost). eauto.
    + intros x m' [(-> & -> & Hp)|(Href & Hp)].
      * by left.
      * destruct x; (right; exists m'; split_and!; done).
Qed.

(** ** remove *)

Lemma remove_find_eq m o sub : forall C fuel i, readable m sub -> pheight sub < fuel ->
  remove_find m o fuel i (cparent C) (rootp sub) =
  rmap (fun x => (cparent x.1, rootp x.2)) (tfind o i C sub).
Proof.
  induction sub as [|l IHl p k v r IHr]; intros C [|fuel] i Hr Hf; simpl in *; try lia; [done|].
  rewrite (readable_root _ _ _ _ _ _ Hr). cbn [rbind n_key n_left n_right].
  destruct (ask o i k) as [[]| | | |]; cbn [rbind rmap]; try done.
  - apply (IHl (FL p k v r :: C)); eauto. lia.
  - apply (IHr (FR l p k v :: C)); eauto. lia.
Qed.

Lemma succ_loop_eq m l : forall C fuel p k v r f C' x mr, readable m (Bin l p k v r) -> pheight l < fuel ->
  tmin_ctx (f :: C) l p k v r = (C', x, mr) ->
  exists f' C'', C' = f' :: C'' /\ succ_loop m fuel (fptr f) p = Ret (fptr f', x.1).
Proof.
  induction l as [|ll IHll lp lk lv lr _]; intros C [|fuel] p k v r f C' x mr Hr Hf Hm; simpl in *; try lia.
  - injection Hm as <- <- <-. exists f, C. split; [done|].
    by rewrite (readable_root _ _ _ _ _ _ Hr).
  - rewrite (readable_root _ _ _ _ _ _ Hr). cbn [rbind n_left rootp].
    change p with (fptr (FL p k v r)) at 1. eapply IHll; [|lia|exact Hm]. eauto.
Qed.

(** The frames on the way to the smallest node all go left. *)
Lemma tmin_ctx_top l : forall C p k v r C' x mr p0 k0 v0 r0,
  tmin_ctx (FL p0 k0 v0 r0 :: C) l p k v r = (C', x, mr) ->
  exists p1 k1 v1 r1 C1, C' = FL p1 k1 v1 r1 :: C1.
Proof.
  induction l as [|ll IHll lp lk lv lr _]; intros C p k v r C' x mr p0 k0 v0 r0 Hm; simpl in *.
  - injection Hm as <- <- <-. eauto 6.
  - by eapply IHll.
Qed.

Lemma remove_replacement_spec m t fl C l p k v r : map_rep m t fl -> t = plug C (Bin l p k v r) ->
  wp (remove_replacement p)
    (fun rep m' => rep = rootp (tjoin l r) /\
       mrep m' ((p, mkInner k v (rootp l) (rootp r)) :: nodes (tjoin l r) ++ cnodes C (Some p)) fl (rootp t) /\
       stays m m' /\ m_drops m' = m_drops m)
    (fun _ _ => False) m.
Proof.
  intros Hrep Ht.
  assert (Hnodes : nodes t ≡ₚ (p, mkInner k v (rootp l) (rootp r)) :: nodes l ++ nodes r ++ cnodes C (Some p)).
  { rewrite Ht, nodes_plug. simpl. solve_Permutation. }
  assert (Hread : readable m (Bin l p k v r)).
  { intros q n Hin. eapply rep_readable; [done|]. rewrite Ht, nodes_plug. apply elem_of_app. by left. }
  unfold remove_replacement. apply wp_bind, wp_get. apply wp_bind.
  eapply wp_lift_ret; [by eapply readable_root|]. cbn [n_left n_right].
  apply rep_mrep in Hrep as Hm.
  destruct l as [|ll lp lk lv lr]; destruct r as [|rl rp rk rv rr]; cbn [rootp].
  - apply wp_ret. split_and!; try done. eapply mrep_perm; [exact Hnodes|done].
  - apply wp_ret. split_and!; try done. eapply mrep_perm; [exact Hnodes|done].
  - apply wp_ret. split_and!; try done. eapply mrep_perm; [|exact Hm]. rewrite Hnodes. simpl.
    solve_Permutation.
  - (* two children *)
    set (l := Bin ll lp lk lv lr) in *.
    apply wp_bind. eapply wp_lift_ret; [eapply readable_root, readable_r, Hread|]. cbn [n_left].
    apply wp_bind.
    destruct rl as [|rll rlp rlk rlv rlr]; cbn [rootp].
    + apply wp_ret. apply wp_bind. unfold store_left. apply wp_bind.
      eapply wp_mono; [eapply (on_update m _ rp (mkInner rk rv None (rootp rr))
        ((p, mkInner k v (rootp l) (Some rp)) :: nodes l ++ nodes rr ++ cnodes C (Some p))); [exact Hm|]| |done].
      { rewrite Hnodes. cbn [nodes rootp]. solve_Permutation. }
      intros x m' (-> & Hm' & Hst & Hd). do 2 apply wp_ret. split_and!; try done.
      eapply mrep_perm; [|exact Hm']. unfold with_left. simpl. solve_Permutation.
    + destruct (tmin_ctx (FL rp rk rv rr :: []) rll rlp rlk rlv rlr) as [[D [mp [mk mv]]] mr] eqn:Hmin.
      pose proof (tmin_ctx_spec _ _ _ _ _ _ _ _ _ _ _ Hmin) as (Hplug & r' & Hr' & Hplug' & _).
      destruct (succ_loop_eq m rll [] (map_fuel m) rlp rlk rlv rlr (FL rp rk rv rr) D (mp, (mk, mv)) mr) as (f' & D' & HD & Hsucc).
      { eauto. }
      { pose proof (rep_fuel_height _ _ _ Hrep) as Hfuel.
        pose proof (pheight_size t). unfold tsize in *.
        assert (pheight rll < map_fuel m); [|done].
        pose proof (rep_fuel _ _ _ Hrep) as Hf. unfold tsize in Hf. rewrite Hnodes in Hf.
        pose proof (pheight_size rll) as Hh. unfold tsize in Hh.
        simpl in Hf. rewrite !app_length in Hf. simpl in Hf. rewrite !app_length in Hf. lia. }
      { exact Hmin. }
      destruct (tmin_ctx_top _ _ _ _ _ _ _ _ _ _ _ _ _ Hmin) as (p1 & k1 & v1 & r1 & D1 & HD1).
      rewrite HD1 in HD. injection HD as <- <-. subst D. cbn [fptr fst] in Hsucc.
      (* the nodes of the right subtree, around the successor *)
      assert (Hr : nodes (Bin (Bin rll rlp rlk rlv rlr) rp rk rv rr) ≡ₚ
        (mp, mkInner mk mv None (rootp mr)) :: (p1, mkInner k1 v1 (Some mp) (rootp r1)) ::
        nodes mr ++ nodes r1 ++ cnodes D1 (Some p1)).
      { change (Bin (Bin rll rlp rlk rlv rlr) rp rk rv rr) with
          (plug [FL rp rk rv rr] (Bin rll rlp rlk rlv rlr)).
        rewrite <- Hplug, nodes_plug. simpl. solve_Permutation. }
      assert (Hr2 : nodes (plug (FL p1 k1 v1 r1 :: D1) mr) ≡ₚ
        (p1, mkInner k1 v1 (rootp mr) (rootp r1)) :: nodes mr ++ nodes r1 ++ cnodes D1 (Some p1)).
      { rewrite nodes_plug. simpl. solve_Permutation. }
      assert (Hroot2 : rootp (plug (FL p1 k1 v1 r1 :: D1) mr) = Some rp).
      { rewrite (rootp_plug_cong _ mr (Bin Leaf mp mk mv mr)) by (by left). by rewrite Hplug. }
      assert (Htj : tjoin l (Bin (Bin rll rlp rlk rlv rlr) rp rk rv rr) =
        Bin l mp mk mv (plug (FL p1 k1 v1 r1 :: D1) mr)).
      { unfold l. rewrite Hplug'. simpl. by rewrite Hr'. }
      set (rest := (p, mkInner k v (rootp l) (Some rp)) :: nodes l ++ cnodes C (Some p)).
      assert (Hm0 : mrep m ((mp, mkInner mk mv None (rootp mr)) :: (p1, mkInner k1 v1 (Some mp) (rootp r1)) ::
        (nodes mr ++ nodes r1 ++ cnodes D1 (Some p1)) ++ rest) fl (rootp t)).
      { eapply mrep_perm; [|exact Hm]. rewrite Hnodes, Hr. unfold rest. cbn [rootp]. solve_Permutation. }
      apply wp_bind. rewrite Hsucc. eapply wp_lift_ret; [done|].
      apply wp_bind. eapply wp_lift_ret; [eapply (mrep_get m); [exact Hm0|left]|]. cbn [n_right].
      apply wp_bind. unfold store_left at 1. apply wp_bind.
      eapply wp_mono; [eapply (on_update m _ p1); [exact Hm0|apply Permutation_swap]| |done].
      intros x m1 (-> & Hm1 & Hst1 & Hd1). apply wp_ret.
      apply wp_bind. unfold store_right. apply wp_bind.
      eapply wp_mono; [eapply (on_update m1 _ mp); [exact Hm1|apply Permutation_swap]| |done].
      intros x m2 (-> & Hm2 & Hst2 & Hd2). do 2 apply wp_ret.
      apply wp_bind. unfold store_left. apply wp_bind.
      eapply wp_mono; [eapply (on_update m2 _ mp); [exact Hm2|done]| |done].
      intros x m3 (-> & Hm3 & Hst3 & Hd3). do 2 apply wp_ret.
      split_and!.
      * by rewrite Htj.
      * eapply mrep_perm; [|exact Hm3]. rewrite Htj. cbn [nodes]. rewrite Hr2, Hroot2.
        unfold rest, with_left, with_right. cbn [n_key n_value n_left n_right rootp].
        change (rootp l) with (Some lp). solve_Permutation.
      * eapply stays_trans; [exact Hst1|]. by eapply stays_trans.
      * congruence.
Qed.

Definition removed_slot (x : option (Ptr * (K * V))) (fl : list Ptr) : list Ptr :=
  match x with Some y => y.1 :: fl | None => fl end.

Lemma map_remove_entry_spec e (o : oracle K) m t fl : map_rep m t fl ->
  wp (map_remove_entry e o)
    (fun (r : option (K * V)) m' => exists t' x, trem o 0 t = Ret (t', x) /\ r = snd <$> x /\
       map_rep m' t' (removed_slot x fl) /\ stays m m' /\ m_drops m' = m_drops m /\
       a_len (s_items (m_nodes m')) = a_len (s_items (m_nodes m)) /\
       (x = None -> m' = m))
    (fun r m' => r = Some PCmp /\ m' = m /\ trem o 0 t = Panic PCmp) m.
Proof.
  intros Hrep. unfold map_remove_entry. apply wp_bind, wp_get. apply wp_bind.
  pose proof (remove_find_eq m o t [] (map_fuel m) 0) as Hfind.
  rewrite (proj2 Hrep). change (@None Ptr) with (cparent (K:=K) (V:=V) []).
  rewrite Hfind by (by eapply rep_readable || by eapply rep_fuel_height). clear Hfind.
  pose proof (tfind_trem o t 0 []) as Htf. apply wp_lift. cbn [plug] in Htf.
  destruct (tfind o 0 [] t) as [[C [|l p k v r]]|x| | |]; simpl; try done.
  - apply wp_ret. destruct Htf as [Htf _]. exists t, None. split_and!; done.
  - destruct Htf as (t' & Htr & Hp1 & Hp2).
    apply wp_bind. eapply wp_mono; [by eapply remove_replacement_spec| |done].
    intros rep m1 (-> & Hm1 & Hst1 & Hd1). apply wp_bind.
    (* after relinking *)
    eapply (wp_mono _ (fun _ m2 =>
      mrep m2 ((p, mkInner k v (rootp l) (rootp r)) :: nodes (tjoin l r) ++ cnodes C (rootp (tjoin l r))) fl (rootp t')
      /\ stays m m2 /\ m_drops m2 = m_drops m) _ (fun _ _ => False)); [| |done].
    + destruct C as [|f C]; cbn [cparent head fmap option_fmap option_map].
      * apply wp_mod. simpl in Hp1, Hp2. subst t'. split_and!; try done.
        cbn [cnodes] in *. split; [|done]. apply Hm1.
      * apply wp_bind, wp_get. apply wp_bind.
        assert (Hn1 : (p, mkInner k v (rootp l) (rootp r)) :: nodes (tjoin l r) ++ cnodes (f :: C) (Some p)
          ≡ₚ fnode f (Some p) :: (p, mkInner k v (rootp l) (rootp r)) :: nodes (tjoin l r) ++ nodes (fsib f) ++ cnodes C (Some (fptr f))).
        { cbn [cnodes]. solve_Permutation. }
        eapply (mrep_perm _ _ _ _ _ Hn1) in Hm1.
        eapply wp_lift_ret; [eapply (mrep_get m1); [exact Hm1|]|].
        { replace (fnode f (Some p)) with (fptr f, (fnode f (Some p)).2) by (by destruct f). left. }
        assert (Hroot : rootp t = rootp t').
        { rewrite <- Hp1, <- Hp2. apply rootp_plug_cong. by left. }
        destruct f as [fp fk fv fr|fl0 fp fk fv]; cbn [fnode fptr fsib snd n_left] in *.
        -- rewrite bool_decide_eq_true_2 by done. unfold store_left. apply wp_bind.
           eapply wp_mono; [eapply (on_update m1 _ fp); [exact Hm1|done]| |done].
           intros x m2 (-> & Hm2 & Hst2 & Hd2). apply wp_ret. split_and!.
           ++ rewrite <- Hroot. eapply mrep_perm; [|exact Hm2]. cbn [cnodes fnode fsib fptr].
              unfold with_left. simpl. solve_Permutation.
           ++ by eapply stays_trans.
           ++ congruence.
        -- rewrite bool_decide_eq_false_2.
           2:{ intros Heq. destruct Hm1 as [[Hnd _] _]. simpl in Hnd. apply NoDup_cons in Hnd as [_ Hnd].
               apply NoDup_cons in Hnd as [Hnin _]. apply Hnin. rewrite !fmap_app, !elem_of_app. right. left.
               destruct fl0; simpl in *; [done|]. injection Heq as ->. left. }
           unfold store_right. apply wp_bind.
           eapply wp_mono; [eapply (on_update m1 _ fp); [exact Hm1|done]| |done].
           intros x m2 (-> & Hm2 & Hst2 & Hd2). apply wp_ret. split_and!.
           ++ rewrite <- Hroot. eapply mrep_perm; [|exact Hm2]. cbn [cnodes fnode fsib fptr].
              unfold with_right. simpl. solve_Permutation.
           ++ by eapply stays_trans.
           ++ congruence.
    + intros _ m2 (Hm2 & Hst2 & Hd2). apply wp_bind. destruct Hm2 as [Hs2 Hroot2].
      apply wp_zoom. eapply wp_mono; [by eapply (srep_remove e)| |done].
      intros n s3 (-> & Hs3 & Hroom3 & Hsd3 & Hlen3). apply wp_ret.
      exists t', (Some (p, (k, v))). cbn [fmap option_fmap option_map snd n_key n_value removed_slot fst].
      split_and!; try done.
      * split; [|done]. eapply srep_perm; [|exact Hs3]. rewrite <- Hp1, nodes_plug. done.
      * eapply stays_trans; [exact Hst2|]. done.
      * cbn [set_nodes m_nodes]. rewrite Hlen3, (srep_len _ _ _ Hs2), (srep_len _ _ _ (proj1 Hrep)).
        rewrite <- Hp2, nodes_plug. destruct Hm1 as [Hm1 _].
        pose proof (srep_len _ _ _ Hm1) as Hl1. pose proof (srep_len _ _ _ Hs3) as Hl3.
        simpl. rewrite !app_length. 
        assert (Hj : length (nodes (tjoin l r)) = length (nodes l) + length (nodes r)).
        { pose proof (Permutation_length (tjoin_perm l r)) as Hpl.
          by rewrite app_length, !ppre_length in Hpl. }
        assert (Hc : forall C h h', length (cnodes (K:=K) (V:=V) C h) = length (cnodes C h')).
        { intros [|f0 C0] h h'; simpl; [done|]. done. }
        rewrite (Hc C _ (Some p)), Hj. simpl. rewrite ?app_length. lia.
  - destruct Htf as [Htf ->]. simpl. done.
Qed.

End map_proofs.
