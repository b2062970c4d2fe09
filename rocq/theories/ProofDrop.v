(** * Destructors that panic during [clear] *)

From Verif Require Export ProofSafety.
Local Open Scope N_scope.

Lemma first_index (P : N -> Prop) `{forall i, Decision (P i)} (j : N) : P j ->
  exists i, i <= j /\ P i /\ forall i', i' < i -> ~ P i'.
Proof.
  induction j as [j IH] using (well_founded_induction N.lt_wf_0). intros Hj.
  destruct (decide (Exists P (N.of_nat <$> seq 0 (N.to_nat j)))) as [Hex|Hno].
  - apply Exists_exists in Hex as (i & Hi & HP). apply elem_of_list_fmap in Hi as (n & -> & Hn). apply elem_of_seq in Hn.
    destruct (IH (N.of_nat n)) as (i & Hi & HPi & Hmin); [lia|done|]. exists i. split_and!; try done. lia.
  - exists j. split_and!; [lia|done|]. intros i' Hi' HP. apply Hno, Exists_exists. exists i'. split; [|done].
    apply elem_of_list_fmap. exists (N.to_nat i'). split; [lia|]. apply elem_of_seq. lia.
Qed.

Section drop_proofs.
Context {T : Type}.
Implicit Types s : slab T.

Local Notation slot s j := (slotp (a_chunks (s_items s)) j).

Lemma drop_loop_any e pn free : forall k s i fuel, arena_inv (s_items s) -> arena_full (s_items s) ->
  i + N.of_nat k = a_len (s_items s) -> (k < fuel)%nat ->
  (forall j, i <= j < a_len (s_items s) -> slot s j ∉ free -> exists x : T, acell (s_items s) (slot s j) = Some (EVal x)) ->
  exists r s', drop_loop e pn fuel free (mkRange i (a_len (s_items s))) s = (r, s') /\
    (r = Ret tt \/ r = Panic PDrop) /\
    (r = Ret tt -> forall j x, i <= j < a_len (s_items s) -> slot s j ∉ free ->
       acell (s_items s) (slot s j) = Some (EVal x) -> pn x = false) /\
    arena_inv (s_items s') /\ arena_full (s_items s') /\ a_len (s_items s') = a_len (s_items s) /\
    a_chunks (s_items s') = a_chunks (s_items s) /\ s_head s' = s_head s /\ s_free s' = s_free s /\
    (forall p, p ∈ free -> acell (s_items s') p = acell (s_items s) p) /\
    (forall j, j < i -> acell (s_items s') (slot s j) = acell (s_items s) (slot s j)) /\
    (forall j, i <= j < a_len (s_items s) -> slot s j ∉ free -> (forall j', i <= j' < j -> slot s j' ∈ free) ->
       exists x, acell (s_items s') (slot s j) = Some (EDropped x)).
Proof.
  induction k as [|k IH]; intros s i fuel Hinv Hfull Hi Hfuel Hcells.
  - destruct fuel as [|fuel]; [lia|]. cbn [drop_loop]. unfold sbind at 1, sget.
    rewrite next_ptr_none by (simpl; lia). exists (Ret tt), s. split_and!; try done.
    + by left.
    + intros; lia.
    + intros; lia.
  - destruct fuel as [|fuel]; [lia|]. cbn [drop_loop]. unfold sbind at 1, sget.
    destruct (next_ptr_some e (s_items s) (mkRange i (a_len (s_items s))) Hinv Hfull) as (en & Hen & Hnext);
      [simpl; lia|simpl; lia|].
    rewrite Hnext. simpl r_start in *. simpl r_end in *. unfold sbind at 1, slift.
    case_decide as Hp.
    + destruct (IH s (i + 1) fuel) as (r & s' & Heq & Hr & Hok & H1 & H2 & H3 & H4 & H5 & H6 & H7 & H8 & H9); try done; try lia.
      { intros j Hj. apply Hcells. lia. }
      exists r, s'. split_and!; try done.
      * intros Hret j x Hj Hjf. apply Hok; [done| |done]. destruct (decide (j = i)) as [->|]; [done|lia].
      * intros j Hj. apply H8. lia.
      * intros j Hj Hjf Hall. destruct (decide (j = i)) as [->|]; [done|]. apply H9; [lia|done|].
        intros j' Hj'. apply Hall. lia.
    + destruct (Hcells i) as (x & Hcx); [lia|done|].
      unfold sbind at 1. rewrite (drop_value_ret pn s _ x Hcx).
      pose proof (acell_in_block _ _ _ Hcx) as Hin.
      set (p := slot s i) in *.
      destruct (put_cell_fields p (EDropped x) (s_items s)) as (Hf1 & Hf2 & Hf3 & Hf4 & Hf5).
      set (s1 := add_sdrop x (set_items (put_cell p (EDropped x) (s_items s)) s)).
      assert (Hinv1 : arena_inv (s_items s1)) by (by apply put_cell_inv).
      assert (Hfull1 : arena_full (s_items s1)).
      { intros q. simpl. rewrite aslots_put. intros Hq. rewrite acell_put by done.
        case_decide; [eauto|]. by apply Hfull. }
      assert (Hne : forall j, j < a_len (s_items s) -> j <> i -> slot s j <> p).
      { intros j Hj Hji Heqp. apply (slotp_inj (s_items s)) in Heqp; [lia|done| |];
          pose proof (ai_len _ Hinv); lia. }
      assert (Hfree1 : forall q, q ∈ free -> acell (s_items s1) q = acell (s_items s) q).
      { intros q Hq. simpl. rewrite acell_put by done. rewrite decide_False; [done|]. intros ->. done. }
      destruct (pn x) eqn:Hpn.
      { exists (Panic PDrop), s1. split_and!; try done.
        - by right.
        - intros j Hj. simpl. rewrite acell_put by done. rewrite decide_False; [done|]. apply Hne; lia.
        - intros j Hj Hjf Hall. destruct (decide (j = i)) as [->|].
          + exists x. simpl. rewrite acell_put by done. by rewrite decide_True.
          + destruct (Hp). apply Hall. lia. }
      destruct (IH s1 (i + 1) fuel) as (r & s' & Heq & Hr & Hok & H1 & H2 & H3 & H4 & H5 & H6 & H7 & H8 & H9); try done; simpl.
      { rewrite Hf3. lia. }
      { lia. }
      { intros j Hj. rewrite Hf2. rewrite Hf3 in Hj. intros Hjf. destruct (Hcells j) as (y & Hy); [lia|done|].
        exists y. rewrite acell_put by done. rewrite decide_False; [done|]. apply Hne; lia. }
      simpl in Heq, Hok, H3, H4, H5, H6, H8, H9. rewrite Hf3 in *. rewrite Hf2 in *.
      exists r, s'. rewrite Heq. split_and!; try done.
      * intros Hret j y Hj Hjf Hy. destruct (decide (j = i)) as [->|].
        { fold p in Hy. rewrite Hcx in Hy. injection Hy as <-. done. }
        apply (Hok Hret j); [lia|done|]. rewrite acell_put by done. rewrite decide_False; [done|]. apply Hne; lia.
      * intros q Hq. rewrite H7 by done. by apply Hfree1.
      * intros j Hj. rewrite H8 by lia. rewrite acell_put by done. rewrite decide_False; [done|]. apply Hne; lia.
      * intros j Hj Hjf Hall. destruct (decide (j = i)) as [->|].
        { exists x. rewrite H8 by lia. rewrite acell_put by done. by rewrite decide_True. }
        destruct Hp. apply Hall. lia.
Qed.

Lemma drop_loop_dropped e pn free : forall k s i fuel j x, arena_inv (s_items s) -> arena_full (s_items s) ->
  i + N.of_nat k = a_len (s_items s) -> (k < fuel)%nat ->
  i <= j < a_len (s_items s) -> slot s j ∉ free -> (forall j', i <= j' < j -> slot s j' ∈ free) ->
  acell (s_items s) (slot s j) = Some (EDropped x) ->
  (drop_loop e pn fuel free (mkRange i (a_len (s_items s))) s).1 = UB UDropped.
Proof.
  induction k as [|k IH]; intros s i fuel j x Hinv Hfull Hi Hfuel Hj Hjf Hall Hx; [lia|].
  destruct fuel as [|fuel]; [lia|]. cbn [drop_loop]. unfold sbind at 1, sget.
  destruct (next_ptr_some e (s_items s) (mkRange i (a_len (s_items s))) Hinv Hfull) as (en & Hen & Hnext);
    [simpl; lia|simpl; lia|].
  rewrite Hnext. simpl r_start in *. simpl r_end in *. unfold sbind at 1, slift.
  case_decide as Hp.
  - destruct (decide (j = i)) as [->|]; [done|]. apply (IH s (i + 1) fuel j x); try done; try lia.
    intros j' Hj'. apply Hall. lia.
  - destruct (decide (j = i)) as [->|]; [|destruct Hp; apply Hall; lia].
    unfold sbind at 1, drop_value, sbind at 1, sget, slift, slab_get.
    pose proof (proj1 (arena_get_ret _ _ _) Hx) as Hg. rewrite Hg. done.
Qed.

(** The first live slot has been dropped, but the slab still counts it as live. *)
Definition half_cleared s : Prop :=
  exists fl j x, arena_inv (s_items s) /\ arena_full (s_items s) /\ chain (s_items s) (s_head s) fl /\
    s_free s = N.of_nat (length fl) /\ (N.of_nat (length fl) < a_len (s_items s)) /\
    j < a_len (s_items s) /\ slot s j ∉ fl /\ (forall j', j' < j -> slot s j' ∈ fl) /\
    acell (s_items s) (slot s j) = Some (EDropped x).

Lemma slab_clear_panics e pn s L fl p x : slab_rep s L fl -> e_nd e = true -> L !! p = Some x -> pn x = true ->
  exists s', slab_clear e pn s = (Panic PDrop, s') /\ half_cleared s'.
Proof.
  intros H Hnd HL Hpn. unfold slab_clear. unfold sbind at 1, sget. unfold arena_len.
  pose proof (slab_rep_count _ _ _ H) as Hcount. rewrite (sr_free _ _ _ H), Hnd. cbn [negb orb].
  assert (Hsz : (0 < base.size L)%nat).
  { destruct (decide (base.size L = 0%nat)) as [Hz|]; [|lia]. apply map_size_empty_inv in Hz as ->. done. }
  destruct (N.eqb_spec (a_len (s_items s)) (N.of_nat (length fl))) as [Hall|Hne]; [lia|].
  destruct (collect_free_spec s fl (S (N.to_nat (a_len (s_items s)))) (s_head s) ∅) as (free & Hfree & Hmem);
    [apply H|lia|].
  assert (Hfl : forall q, q ∈ free <-> q ∈ fl) by (intros q; rewrite Hmem; set_solver).
  unfold sbind at 1, slift. rewrite Hfree. unfold sbind at 1. unfold iter_new, arena_len.
  destruct (drop_loop_any e pn free (N.to_nat (a_len (s_items s))) s 0 (S (N.to_nat (a_len (s_items s)))))
    as (r & s' & Heq & Hr & Hok & H1 & H2 & H3 & H4 & H5 & H6 & H7 & H8 & H9).
  { apply H. }
  { by eapply slab_rep_full. }
  { lia. }
  { lia. }
  { intros j Hj Hjf. assert (slot s j ∈ aslots (s_items s)) as Hin.
    { apply elem_of_slots. exists j. split; [lia|done]. }
    destruct (slab_rep_cell s L fl _ H Hin) as [(y & _ & Hy)|[Hin' _]]; [by exists y|].
    exfalso. by apply Hjf, Hfl. }
  assert (Hslot : exists j, j < a_len (s_items s) /\ slot s j = p).
  { assert (p ∈ aslots (s_items s)) as Hin.
    { rewrite (sr_slots _ _ _ H). apply elem_of_app. right. apply elem_of_list_fmap. exists (p, x).
      split; [done|]. by apply elem_of_map_to_list. }
    apply elem_of_slots in Hin as (j & Hj & ->). exists j. split; [lia|done]. }
  destruct Hslot as (j & Hj & Hjp).
  assert (Hnf : p ∉ fl).
  { intros Hpf. rewrite (slab_rep_free_not_live _ _ _ _ H Hpf) in HL. done. }
  assert (r = Panic PDrop) as ->.
  { destruct Hr as [Hr|Hr]; [|done]. exfalso. assert (pn x = false); [|congruence].
    apply (Hok Hr j); [lia| |].
    - by rewrite Hjp, Hfl.
    - rewrite Hjp. by apply (sr_live _ _ _ H). }
  exists s'. rewrite Heq. split; [done|].
  destruct (first_index (fun j => slot s j ∉ fl) j) as (j0 & Hj0 & Hj0f & Hmin); [by rewrite Hjp|].
  assert (Hmin' : forall j', j' < j0 -> slot s j' ∈ fl).
  { intros j' Hj'. destruct (decide (slot s j' ∈ fl)); [done|]. exfalso. by apply (Hmin j'). }
  destruct (H9 j0) as (y & Hy); [lia|by rewrite Hfl|intros; apply Hfl; apply Hmin'; lia|].
  exists fl, j0, y. rewrite H4, H3, H5, H6. split_and!; try done.
  - eapply chain_cells; [|apply H]. intros q Hq. apply H7. by apply Hfl.
  - apply H.
  - lia.
  - lia.
Qed.

Lemma half_cleared_clear e pn s : e_nd e = true -> half_cleared s -> (slab_clear e pn s).1 = UB UDropped.
Proof.
  intros Hnd (fl & j & x & Hinv & Hfull & Hch & Hfr & Hlt & Hj & Hjf & Hmin & Hx).
  unfold slab_clear. unfold sbind at 1, sget. unfold arena_len. rewrite Hfr, Hnd. cbn [negb orb].
  destruct (N.eqb_spec (a_len (s_items s)) (N.of_nat (length fl))) as [Hall|Hne]; [lia|].
  destruct (collect_free_spec s fl (S (N.to_nat (a_len (s_items s)))) (s_head s) ∅) as (free & Hfree & Hmem);
    [done|lia|].
  assert (Hfl : forall q, q ∈ free <-> q ∈ fl) by (intros q; rewrite Hmem; set_solver).
  unfold sbind at 1, slift. rewrite Hfree. unfold sbind at 1. unfold iter_new, arena_len.
  pose proof (drop_loop_dropped e pn free (N.to_nat (a_len (s_items s))) s 0 (S (N.to_nat (a_len (s_items s)))) j x) as HUB.
  destruct (drop_loop _ _ _ _ _ s) as [r s']. simpl in HUB. rewrite HUB; try done; try lia.
  - by rewrite Hfl.
  - intros j' Hj'. apply Hfl, Hmin. lia.
Qed.

Lemma half_cleared_drop e pn s : e_nd e = true -> half_cleared s -> (slab_drop e pn s).1 = UB UDropped.
Proof.
  intros Hnd Hs. unfold slab_drop. rewrite Hnd. simpl. pose proof (half_cleared_clear e pn s Hnd Hs) as Hc.
  destruct (slab_clear e pn s) as [r s']. simpl in Hc. by rewrite Hc.
Qed.

End drop_proofs.

Section map_drop_proofs.
Context {K V : Type}.
Implicit Types m : bstmap K V.

(** If the destructor of some stored entry panics, [clear] panics, and a later
    drop or [clear] of the map runs a destructor a second time. *)
Theorem clear_drops_twice e bad m l k v :
  reachable e m -> e_nd e = true -> yields m In l -> (k, v) ∈ l -> bad k v = true ->
  exists m', map_clear e (fun n => bad (n_key n) (n_value n)) m = (Panic PDrop, m') /\
    (forall pn, (map_drop e pn m').1 = UB UDropped) /\ (forall pn, (map_clear e pn m').1 = UB UDropped).
Proof.
  intros Hr Hnd Hl Hin Hbad. destruct (reachable_rep e m Hr) as (t & fl & Hrep).
  rewrite (rep_yields_eq _ _ _ _ _ Hrep Hl) in Hin.
  assert (exists p n, (p, n) ∈ nodes t /\ n_key n = k /\ n_value n = v) as (p & n & Hn & <- & <-).
  { rewrite <- (porder_snd_tree In t) in Hin.
    apply elem_of_list_fmap in Hin as ([p kv] & Heq & Hin). simpl in Heq. subst kv.
    rewrite porder_perm, ppre_nodes in Hin. apply elem_of_list_fmap in Hin as ([q n] & [= -> -> ->] & Hn).
    by exists q, n. }
  destruct Hrep as [[Hnd' Hs] Hroot].
  destruct (slab_clear_panics e (fun n => bad (n_key n) (n_value n)) (m_nodes m) _ fl p n Hs Hnd) as (s' & Hc & Hh); [|done|].
  { by apply elem_of_list_to_map. }
  exists (set_nodes s' m). unfold map_clear, map_drop, on_nodes, zoom, sbind. rewrite Hc. split_and!; [done| |].
  - intros pn. cbn [m_nodes set_nodes]. pose proof (half_cleared_drop e pn s' Hnd Hh) as Hd.
    destruct (slab_drop e pn s'). done.
  - intros pn. cbn [m_nodes set_nodes]. pose proof (half_cleared_clear e pn s' Hnd Hh) as Hd.
    destruct (slab_clear e pn s') as [r s2]. simpl in Hd. by rewrite Hd.
Qed.
End map_drop_proofs.
