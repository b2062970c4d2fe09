(** * The map properties, for maps reached under a lawful order *)

From Verif Require Export ProofObs.

Lemma bind_ret {S A B} (f : M S A) (g : A -> B) s r s' :
  f s = (r, s') -> (let! x := f in sret (g x)) s = (rmap g r, s').
Proof. intros H. unfold sbind. rewrite H. by destruct r. Qed.

Section props.
Context {K V : Type}.
Implicit Types m : bstmap K V.
Implicit Types l : list (K * V).
Variable cmp : K -> K -> comparison.
Hypothesis Hlaw : lawful cmp.

Lemma query_self k : is_query cmp (cmp k).
Proof. by apply cmp_is_query. Qed.

Lemma get_find m (t : ptree K V) fl o f : map_rep m t fl -> surely o f ->
  map_get m o = Ret (snd <$> tree_find f (erase t)) /\
  map_get_entry m o = Ret (tree_find f (erase t)) /\
  map_contains_key m o = Ret (match tree_find f (erase t) with Some _ => true | None => false end).
Proof.
  intros Hrep Ho. destruct (surely_tget o f t Ho 0) as (y & Hy & Hf). rewrite <- Hf.
  rewrite (map_get_eq _ _ _ _ Hrep), (map_get_entry_eq _ _ _ _ Hrep), (map_contains_key_eq _ _ _ _ Hrep), Hy.
  by destruct y.
Qed.

(** C01 *)
Lemma lookups_refine e s cs rs m : legal_start cmp s -> Forall (legal cmp) cs -> reached e s cs rs m ->
  exists l, steps (map_step cmp) (start_map cmp s) cs rs l /\
    (exists l', l' ≡ₚ l /\ sorted cmp l' /\ yields m In l') /\
    map_len e m = Ret (N.of_nat (length l)) /\
    forall f o, is_query cmp f -> surely o f ->
      map_get m o = Ret (snd <$> assoc_find f l) /\
      map_get_entry m o = Ret (assoc_find f l) /\
      map_contains_key m o = Ret (match assoc_find f l with Some _ => true | None => false end).
Proof.
  intros Hs Hcs Hr. destruct (reached_map cmp Hlaw _ _ _ _ _ Hs Hcs Hr) as (l & t & fl & Hst & Hrep & Hb & Hp).
  exists l. split; [done|]. split; [|split].
  - exists (tree_inorder (erase t)). split_and!; [done|by apply bst_sorted|by apply (rep_yields _ _ _ In Hrep)].
  - rewrite (map_len_ret _ _ _ _ Hrep). rewrite Hp, erase_size. done.
  - intros f o Hf Ho. rewrite <- (tree_find_assoc cmp Hlaw f (erase t) l Hf Hb Hp). by eapply get_find.
Qed.

(** C02 *)
Lemma insert_refines e m o k v l r m' : ordered_reachable cmp e m -> surely o (cmp k) -> yields m In l ->
  bstmap_insert e o k v m = (r, m') ->
  match r with
  | Ret x => x = snd <$> assoc_find (cmp k) l /\ exists l', yields m' In l' /\ l' ≡ₚ assoc_insert cmp k v l
  | _ => alloc_refused r /\ yields m' In l
  end.
Proof.
  intros Hm Ho Hl He. destruct (ordered_rep cmp Hlaw _ _ Hm) as (t & fl & Hrep & Hb).
  apply (rep_yields_eq _ _ _ _ _ Hrep) in Hl as ->. simpl.
  assert (He' : exec e (OInsert o k v) m = (rmap OutValue r, m')) by (by apply bind_ret).
  assert (Hleg : legal cmp (OInsert o k v)) by (by apply surely_answers).
  destruct (exec_ordered cmp Hlaw _ _ _ _ _ _ _ Hrep Hb Hleg He') as (t' & fl' & Hrep' & Hb' & Ht & Hst).
  pose proof (rep_yields _ _ _ In Hrep') as Hy'. simpl in Hy'. destruct r as [x|p| |u|]; simpl in Hst, Ht.
  - destruct Hst as [[= ->] Hp]. split; [done|]. eauto.
  - destruct Ht as [Ht _]. rewrite Ht in Hy'. split; [|done]. destruct Hst as [_ [(Hpc & i & kv & _ & Hn)|[Ha|[Ha|Ha]]]].
    + by rewrite Ho in Hn.
    + left. by injection Ha as ->.
    + right; left. by injection Ha as ->.
    + done.
  - destruct Ht as [Ht _]. rewrite Ht in Hy'. split; [|done]. by right; right.
  - destruct Hst as [_ [(Hpc & _)|[?|[?|?]]]]; done.
  - destruct Hst as [_ [(Hpc & _)|[?|[?|?]]]]; done.
Qed.

Lemma sorted_eq_unique l x y : sorted cmp l -> x ∈ l -> y ∈ l -> cmp x.1 y.1 = Eq -> x = y.
Proof.
  intros Hs Hx Hy Hc. destruct (sorted_uniq cmp Hlaw _ l (query_self x.1) Hs) as [Hn|(z & l0 & Hp & Hz & Hn)].
  - unfold nomatch in Hn. rewrite Forall_forall in Hn. by apply Hn in Hy.
  - unfold nomatch in Hn. rewrite Forall_forall in Hn. rewrite Hp in Hx, Hy. apply elem_of_cons in Hx, Hy.
    assert (x = z) as <-. { destruct Hx as [->|Hx]; [done|]. apply Hn in Hx. by rewrite (lw_refl _ Hlaw) in Hx. }
    destruct Hy as [->|Hy]; [done|]. by apply Hn in Hy.
Qed.

Lemma insert_pointwise e m o k v l x m' : ordered_reachable cmp e m -> surely o (cmp k) -> yields m In l ->
  bstmap_insert e o k v m = (Ret x, m') ->
  exists l', yields m' In l' /\
    (forall k0 v0, (k0, v0) ∈ l -> cmp k k0 = Eq -> x = Some v0 /\ (k0, v) ∈ l' /\ length l' = length l) /\
    ((forall k0 v0, (k0, v0) ∈ l -> cmp k k0 <> Eq) -> x = None /\ (k, v) ∈ l' /\ length l' = S (length l)) /\
    (forall k0 v0, cmp k k0 <> Eq -> (k0, v0) ∈ l' <-> (k0, v0) ∈ l).
Proof.
  intros Hm Ho Hl He. destruct (insert_refines _ _ _ _ _ _ _ _ Hm Ho Hl He) as (-> & l' & Hl' & Hp).
  exists l'. split; [done|].
  destruct (ordered_rep cmp Hlaw _ _ Hm) as (t & fl & Hrep & Hb). apply (rep_yields_eq _ _ _ _ _ Hrep) in Hl as ->. simpl in *.
  apply bst_sorted in Hb as Hs; [|done]. set (l := tree_inorder (erase t)) in *.
  destruct (sorted_uniq cmp Hlaw _ l (query_self k) Hs) as [Hn|(z & l0 & Hpz & Hz & Hn)].
  - rewrite (nomatch_insert _ _ _ _ Hn) in Hp. rewrite (nomatch_assoc _ _ Hn). unfold nomatch in Hn. rewrite Forall_forall in Hn.
    split_and!.
    + intros k0 v0 Hin Hc. by apply Hn in Hin.
    + intros _. rewrite Hp, app_length. simpl. split_and!; [done| |lia]. rewrite elem_of_app. right. apply elem_of_list_here.
    + intros k0 v0 Hc. rewrite Hp, elem_of_app. split; [|tauto]. intros [?|Hin]; [done|].
      apply elem_of_list_singleton in Hin. simplify_eq. by rewrite (lw_refl _ Hlaw) in Hc.
  - rewrite (matched_insert cmp k l z l0 v Hpz Hz Hn) in Hp. rewrite (matched_assoc (cmp k) l z l0 Hpz Hz Hn).
    unfold nomatch in Hn. rewrite Forall_forall in Hn. split_and!.
    + intros k0 v0 Hin Hc. rewrite Hpz in Hin. apply elem_of_cons in Hin as [<-|Hin]; [|by apply Hn in Hin].
      rewrite Hp, Hpz. split_and!; [done|left|done].
    + intros H. exfalso. destruct z as [k0 v0]. eapply H; [|done]. rewrite Hpz. left.
    + intros k0 v0 Hc. rewrite Hp, Hpz, !elem_of_cons. split; intros [Heq|?]; try tauto.
      * by injection Heq as -> _.
      * by subst z.
Qed.

Lemma surely_no_panic e c m o f r m' (l : list (K * V)) : surely o f -> cmp_panicked o l r -> exec e c m = (r, m') -> False.
Proof. intros Ho (_ & i & kv & _ & Hn) _. by rewrite Ho in Hn. Qed.

Lemma assoc_remove_sub f (l : list (K * V)) x : x ∈ assoc_remove f l -> x ∈ l.
Proof.
  induction l as [|[k v] l IH]; simpl; [done|]. rewrite elem_of_cons. destruct (f k); [tauto| |]; rewrite elem_of_cons; tauto.
Qed.
Lemma assoc_remove_sorted f l : sorted cmp l -> sorted cmp (assoc_remove f l).
Proof.
  induction l as [|[k v] l IH]; simpl; [done|]. rewrite sorted_cons. intros [Hs Hf]. destruct (f k); [done| |];
    rewrite sorted_cons; (split; [by apply IH|]); rewrite Forall_forall in Hf |- *; intros x Hx; apply Hf; by apply assoc_remove_sub in Hx.
Qed.
Lemma assoc_set_sorted f w l : sorted cmp l -> sorted cmp (assoc_set f w l).
Proof.
  assert (Hk : forall l, (assoc_set f w l).*1 = l.*1).
  { clear l. induction l as [|[k v] l IH]; simpl; [done|]. destruct (f k); [done| |]; simpl; f_equal; apply IH. }
  induction l as [|[k v] l IH]; simpl; [done|]. rewrite sorted_cons. intros [Hs Hf]. destruct (f k); rewrite sorted_cons.
  - done.
  - split; [by apply IH|]. rewrite (Forall_fst (fun k' => cmp k k' = Lt)) in Hf |- *. by rewrite Hk.
  - split; [by apply IH|]. rewrite (Forall_fst (fun k' => cmp k k' = Lt)) in Hf |- *. by rewrite Hk.
Qed.

(** C03 *)
Lemma remove_entry_refines e m o f l r m' : ordered_reachable cmp e m -> is_query cmp f -> surely o f -> yields m In l ->
  map_remove_entry e o m = (r, m') ->
  r = Ret (assoc_find f l) /\ yields m' In (assoc_remove f l).
Proof.
  intros Hm Hf Ho Hl He. destruct (ordered_rep cmp Hlaw _ _ Hm) as (t & fl & Hrep & Hb).
  apply (rep_yields_eq _ _ _ _ _ Hrep) in Hl as ->. simpl.
  assert (He' : exec e (ORemoveEntry o) m = (rmap OutEntry r, m')) by (by apply bind_ret).
  assert (Hleg : legal cmp (ORemoveEntry (V:=V) o)) by (exists f; split; [done|by apply surely_answers]).
  destruct (exec_ordered cmp Hlaw _ _ _ _ _ _ _ Hrep Hb Hleg He') as (t' & fl' & Hrep' & Hb' & _ & Hst).
  destruct r as [x|p| |u|]; simpl in Hst; try (by destruct Hst as [_ (_ & i & kv & _ & Hn)]; rewrite Ho in Hn).
  destruct (Hst f Hf (surely_answers _ _ Ho)) as [[= ->] Hp]. split; [done|].
  rewrite <- (sorted_unique cmp Hlaw _ _ (proj1 (bst_sorted cmp Hlaw _) Hb') (assoc_remove_sorted f _ (proj1 (bst_sorted cmp Hlaw _) Hb)) Hp).
  apply (rep_yields _ _ _ In Hrep').
Qed.

Lemma remove_refines e m o f l r m' : ordered_reachable cmp e m -> is_query cmp f -> surely o f -> yields m In l ->
  map_remove e o m = (r, m') ->
  r = Ret (snd <$> assoc_find f l) /\ yields m' In (assoc_remove f l).
Proof.
  intros Hm Hf Ho Hl He. destruct (ordered_rep cmp Hlaw _ _ Hm) as (t & fl & Hrep & Hb).
  apply (rep_yields_eq _ _ _ _ _ Hrep) in Hl as ->. simpl.
  assert (He' : exec e (ORemove o) m = (rmap OutValue r, m')) by (by apply bind_ret).
  assert (Hleg : legal cmp (ORemove (V:=V) o)) by (exists f; split; [done|by apply surely_answers]).
  destruct (exec_ordered cmp Hlaw _ _ _ _ _ _ _ Hrep Hb Hleg He') as (t' & fl' & Hrep' & Hb' & _ & Hst).
  destruct r as [x|p| |u|]; simpl in Hst; try (by destruct Hst as [_ (_ & i & kv & _ & Hn)]; rewrite Ho in Hn).
  destruct (Hst f Hf (surely_answers _ _ Ho)) as [[= ->] Hp]. split; [done|].
  rewrite <- (sorted_unique cmp Hlaw _ _ (proj1 (bst_sorted cmp Hlaw _) Hb') (assoc_remove_sorted f _ (proj1 (bst_sorted cmp Hlaw _) Hb)) Hp).
  apply (rep_yields _ _ _ In Hrep').
Qed.

(** What removing means, entry by entry. *)
Lemma assoc_remove_pointwise f l : is_query cmp f -> sorted cmp l ->
  (forall k v, (k, v) ∈ assoc_remove f l <-> (k, v) ∈ l /\ f k <> Eq) /\
  (forall k v, assoc_find f l = Some (k, v) <-> (k, v) ∈ l /\ f k = Eq).
Proof.
  intros Hf Hs. destruct (sorted_uniq cmp Hlaw _ l Hf Hs) as [Hn|(z & l0 & Hpz & Hz & Hn)].
  - rewrite (nomatch_remove _ _ Hn), (nomatch_assoc _ _ Hn). unfold nomatch in Hn. rewrite Forall_forall in Hn.
    split; intros k v; (split; [|tauto || (intros [Hin He]; by apply Hn in Hin)]).
    + intros Hin. split; [done|]. by apply Hn in Hin.
    + done.
  - rewrite (matched_assoc f l z l0 Hpz Hz Hn). pose proof (matched_remove f l z l0 Hpz Hz Hn) as Hr.
    unfold nomatch in Hn. rewrite Forall_forall in Hn. split; intros k v; rewrite ?Hr, Hpz, elem_of_cons.
    + split; [intros Hin; split; [by right|by apply Hn in Hin]|]. intros [[<-|?] ?]; done.
    + split; [intros [= ->]; split; [by left|done]|]. intros [[<-|Hin] ?]; [done|]. by apply Hn in Hin.
Qed.

(** C04 *)
Lemma len_counts e m : reachable e m -> exists l, (forall d, exists l', yields m d l' /\ length l' = length l) /\
  yields m In l /\ map_len e m = Ret (N.of_nat (length l)) /\
  map_is_empty e m = Ret (N.of_nat (length l) =? 0)%N.
Proof.
  intros (t & fl & Hrep)%reachable_rep. exists (tree_inorder (erase t)). split; [|split; [|split]].
  - intros d. exists (tree_order d (erase t)). split; [by eapply rep_yields|]. by rewrite tree_order_in.
  - by apply (rep_yields _ _ _ In Hrep).
  - by rewrite (map_len_ret _ _ _ _ Hrep), erase_size.
  - rewrite (map_is_empty_ret _ _ _ _ Hrep), erase_size. by destruct t.
Qed.

(** C05 *)
Lemma clear_empties e m r m' : reachable e m -> map_clear e (fun _ => false) m = (r, m') ->
  r = Ret tt /\ (forall d, yields m' d []) /\ shows m' tleaf /\ map_len e m' = Ret 0%N /\
  map_capacity m' = map_capacity m /\
  (forall o, map_get m' o = Ret None /\ map_get_entry m' o = Ret None /\ map_contains_key m' o = Ret false) /\
  reachable e m'.
Proof.
  intros Hm He. assert (He' : exec e OClear m = (rmap (fun _ => OutUnit) r, m')) by (by apply bind_ret).
  destruct (reachable_rep _ _ Hm) as (t & fl & Hrep).
  destruct (map_clear_spec e (fun _ => false) m t fl Hrep ltac:(done)) as (m1 & dr & H1 & Hrep' & _ & _ & _ & Hroom & _).
  rewrite H1 in He. injection He as <- <-. split; [done|]. split; [|split; [|split; [|split; [|split]]]].
  - intros d. pose proof (rep_yields _ _ _ d Hrep') as H. by destruct d.
  - by apply (rep_shows _ _ _ Hrep').
  - apply (map_len_ret _ _ _ _ Hrep').
  - apply Hroom.
  - intros o. rewrite (map_get_eq _ _ _ _ Hrep'), (map_get_entry_eq _ _ _ _ Hrep'), (map_contains_key_eq _ _ _ _ Hrep'). done.
  - by eapply reachable_step.
Qed.

Lemma clear_like_new e m r m' cs rs m2 : ordered_reachable cmp e m -> map_clear e (fun _ => false) m = (r, m') ->
  Forall (legal cmp) cs -> run e cs m' = (rs, m2) ->
  (exists t, steps (tree_step cmp) tleaf cs rs t /\ shows m2 t) /\
  (exists l l', steps (map_step cmp) [] cs rs l /\ yields m2 In l' /\ l' ≡ₚ l).
Proof.
  intros Hm He Hcs Hrun. destruct (ordered_rep cmp Hlaw _ _ Hm) as (t & fl & Hrep & _).
  destruct (map_clear_spec e (fun _ => false) m t fl Hrep ltac:(done)) as (m1 & dr & H1 & Hrep' & _).
  rewrite H1 in He. injection He as <- <-.
  destruct (run_tree cmp e cs m1 Leaf [] rs m2 Hrep' Hcs Hrun) as (t2 & fl2 & Hrep2 & Hst).
  split.
  - exists (erase t2). split; [done|by eapply rep_shows].
  - destruct (steps_start cmp Hlaw cs (erase Leaf) rs (erase t2) [] Hcs I Hst ltac:(done)) as (l & Hl & Hs).
    exists l, (tree_inorder (erase t2)). split_and!; [done|by apply (rep_yields _ _ _ In Hrep2)|done].
Qed.

(** C06, C14 *)
Lemma inorder_sorted e m l : ordered_reachable cmp e m -> yields m In l -> sorted cmp l.
Proof.
  intros Hm Hl. destruct (ordered_rep cmp Hlaw _ _ Hm) as (t & fl & Hrep & Hb).
  apply (rep_yields_eq _ _ _ _ _ Hrep) in Hl as ->. by apply bst_sorted.
Qed.

Lemma inorder_complete e s cs rs m : legal_start cmp s -> Forall (legal cmp) cs -> reached e s cs rs m ->
  exists l, steps (map_step cmp) (start_map cmp s) cs rs l /\ exists l', yields m In l' /\ l' ≡ₚ l.
Proof.
  intros Hs Hcs Hr. destruct (lookups_refine _ _ _ _ _ Hs Hcs Hr) as (l & Hl & (l' & Hp & _ & Hy) & _). eauto.
Qed.

Lemma shown_exists e m : reachable e m -> exists t, shows m t.
Proof. intros (t & fl & Hrep)%reachable_rep. exists (erase t). by eapply rep_shows. Qed.

Lemma shown_bst e m t : ordered_reachable cmp e m -> shows m t -> bst cmp t.
Proof.
  intros Hm Ht. destruct (ordered_rep cmp Hlaw _ _ Hm) as (t0 & fl & Hrep & Hb).
  by apply (rep_shows_eq _ _ _ _ Hrep) in Ht as ->.
Qed.

(** C15 *)
Lemma get_mut_same e m o : reachable e m ->
  map_get_mut m o = rmap (fmap fst) (map_get_ref m o) /\
  map_get_entry_mut m o = rmap (fmap (fun x => (x.2.1, x.1))) (map_get_entry_ref m o) /\
  map_get m o = rmap (fmap snd) (map_get_ref m o) /\
  map_get_entry m o = rmap (fmap snd) (map_get_entry_ref m o).
Proof.
  intros (t & fl & Hrep)%reachable_rep.
  rewrite (map_get_mut_eq _ _ _ _ Hrep), (map_get_ref_eq _ _ _ _ Hrep), (map_get_entry_mut_eq _ _ _ _ Hrep),
    (map_get_entry_ref_eq _ _ _ _ Hrep), (map_get_eq _ _ _ _ Hrep), (map_get_entry_eq _ _ _ _ Hrep).
  destruct (tget_cases o t 0) as [[[[p [k v]]|] ->]| ->]; simpl; done.
Qed.

Lemma write_only e m p k v w : reachable e m -> stored m p k v ->
  exists m', write_value p w m = (Ret tt, m') /\
    (forall d lp, iter_collect m d = Ret lp -> iter_collect m' d = Ret (assign p w lp)) /\
    (forall t, shows m t -> exists t', shows m' t' /\ tree_keys t' = tree_keys t) /\
    map_len e m' = map_len e m /\ map_capacity m' = map_capacity m.
Proof.
  intros Hm Hst. destruct (reachable_rep _ _ Hm) as (t & fl & Hrep).
  pose proof (proj1 (rep_stored _ _ _ _ _ _ Hrep) Hst) as Hin.
  pose proof (write_value_spec m t fl p k v w Hrep Hin) as H. unfold wp in H.
  destruct (write_value p w m) as [[[]|?| |?|] m'] eqn:Hw; try done. destruct H as (Hrep' & Hsty & Hd).
  exists m'. split; [done|]. split; [|split; [|split]].
  - intros d lp. rewrite (iter_collect_spec _ _ _ d Hrep), (iter_collect_spec _ _ _ d Hrep'). intros [= <-].
    by rewrite porder_tset.
  - intros t0 Ht0. apply (rep_shows_eq _ _ _ _ Hrep) in Ht0 as ->. exists (erase (tset p w t)).
    split; [by eapply rep_shows|]. by rewrite <- !pshape_erase, pshape_tset.
  - by rewrite (map_len_ret _ _ _ _ Hrep), (map_len_ret _ _ _ _ Hrep'), tset_size.
  - apply Hsty.
Qed.

Lemma get_mut_stored e m o p : reachable e m -> map_get_mut m o = Ret (Some p) ->
  exists k v, stored m p k v /\ map_get_entry m o = Ret (Some (k, v)).
Proof.
  intros (t & fl & Hrep)%reachable_rep. rewrite (map_get_mut_eq _ _ _ _ Hrep), (map_get_entry_eq _ _ _ _ Hrep).
  destruct (tget_cases o t 0) as [[[[q [k v]]|] Hy]|Hy]; rewrite Hy; simpl; try done. intros [= ->].
  exists k, v. split; [|done]. apply (rep_stored _ _ _ _ _ _ Hrep). by eapply tget_in.
Qed.

Lemma get_mut_write e m o p w m' : reachable e m -> map_get_mut m o = Ret (Some p) -> write_value p w m = (Ret tt, m') ->
  reachable e m'.
Proof.
  intros Hm Hg Hw. destruct (get_mut_stored _ _ _ _ Hm Hg) as (k & v & Hst & _).
  destruct (reachable_rep _ _ Hm) as (t & fl & Hrep).
  eapply (reachable_step e (OGetMut o (Some w)) m (Ret (OutValue (Some v)))); [done| |done].
  cbn [exec]. unfold sbind, sget, slift, sret. rewrite Hg. 
  rewrite (value_in _ _ _ _ _ _ Hrep (proj1 (rep_stored _ _ _ _ _ _ Hrep) Hst)). cbn [opt_write]. by rewrite Hw.
Qed.

Lemma get_mut_refines e m o f l : ordered_reachable cmp e m -> is_query cmp f -> surely o f -> yields m In l ->
  match assoc_find f l with
  | None => map_get_mut m o = Ret None /\ map_get_entry_mut m o = Ret None
  | Some (k, v) => exists p, map_get_mut m o = Ret (Some p) /\ map_get_entry_mut m o = Ret (Some (k, p)) /\ stored m p k v /\
      forall w m', write_value p w m = (Ret tt, m') -> yields m' In (assoc_set f w l) /\ ordered_reachable cmp e m'
  end.
Proof.
  intros Hm Hf Ho Hl. destruct (ordered_rep cmp Hlaw _ _ Hm) as (t & fl & Hrep & Hb).
  apply (rep_yields_eq _ _ _ _ _ Hrep) in Hl as ->. simpl.
  rewrite <- (tree_find_assoc cmp Hlaw f (erase t) _ Hf Hb ltac:(reflexivity)).
  destruct (surely_tget o f t Ho 0) as (y & Hy & Hfind). rewrite <- Hfind.
  rewrite (map_get_mut_eq _ _ _ _ Hrep), (map_get_entry_mut_eq _ _ _ _ Hrep), Hy.
  destruct y as [[p [k v]]|]; simpl; [|done]. exists p. split; [done|]. split; [done|].
  pose proof (tget_in _ _ _ _ Hy) as Hin.
  assert (Hst : stored m p k v) by (by apply (rep_stored _ _ _ _ _ _ Hrep)). split; [done|].
  intros w m' Hw.
  assert (Hg : map_get_mut m o = Ret (Some p)) by (rewrite (map_get_mut_eq _ _ _ _ Hrep), Hy; done).
  assert (He : exec e (OGetMut o (Some w)) m = (Ret (OutValue (Some v)), m')).
  { cbn [exec]. unfold sbind, sget, slift, sret. rewrite Hg.
    rewrite (value_in _ _ _ _ _ _ Hrep Hin). cbn [opt_write]. by rewrite Hw. }
  assert (Hleg : legal cmp (OGetMut o (Some w))) by (exists f; split; [done|by apply surely_answers]).
  destruct (exec_ordered cmp Hlaw _ _ _ _ _ _ _ Hrep Hb Hleg He) as (t' & fl' & Hrep' & Hb' & _ & Hs).
  destruct (Hs f Hf (surely_answers _ _ Ho)) as [_ Hp]. split; [|by eapply ordered_step].
  rewrite <- (sorted_unique cmp Hlaw _ _ (proj1 (bst_sorted cmp Hlaw _) Hb') (assoc_set_sorted f w _ (proj1 (bst_sorted cmp Hlaw _) Hb)) Hp).
  apply (rep_yields _ _ _ In Hrep').
Qed.

End props.
