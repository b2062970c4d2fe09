(** * Every call of a history, at the level of trees with addresses *)

From Coq Require Import String.
From Verif Require Export ProofViews.

Section exec.
Context {K V : Type}.
Implicit Types m : bstmap K V.
Implicit Types t : ptree K V.

(** What a call that returns [x] does to the tree. *)
Definition tstep (c : op K V) t (x : out K V) t' : Prop :=
  match c with
  | OInsert o k v => exists q r, tins o 0 k v q t = Ret (t', r) /\ (r = None -> q ∉ ptrs t) /\ x = OutValue r
  | ORemove o => exists y, trem o 0 t = Ret (t', y) /\ x = OutValue ((fun y => y.2.2) <$> y)
  | ORemoveEntry o => exists y, trem o 0 t = Ret (t', y) /\ x = OutEntry (snd <$> y)
  | OGet o => exists y, tget o 0 t = Ret y /\ t' = t /\ x = OutValue ((fun y => y.2.2) <$> y)
  | OGetEntry o => exists y, tget o 0 t = Ret y /\ t' = t /\ x = OutEntry (snd <$> y)
  | OContains o => exists y, tget o 0 t = Ret y /\ t' = t /\ x = OutBool (is_some y)
  | OGetMut o w => exists y, tget o 0 t = Ret y /\ x = OutValue ((fun y => y.2.2) <$> y) /\
      t' = match y, w with Some y, Some w => tset y.1 w t | _, _ => t end
  | OGetEntryMut o w => exists y, tget o 0 t = Ret y /\ x = OutEntry (snd <$> y) /\
      t' = match y, w with Some y, Some w => tset y.1 w t | _, _ => t end
  | OLen => t' = t /\ x = OutNum (N.of_nat (tsize t))
  | OIsEmpty => t' = t /\ x = OutBool (match t with Leaf => true | _ => false end)
  | OCapacity => t' = t /\ exists n, x = OutNum n
  | OClear => t' = Leaf /\ x = OutUnit
  | OReserve _ | OShrink => t' = t /\ x = OutUnit
  | OExtend os it => ui_panics it = false /\ ins_rel os 0 (ui_items it) t t' /\ x = OutUnit
  | OIter d n => t' = t /\ x = OutSeq (first_calls n (tree_order d (erase t)))
  | OIterMut d evs => pshape t' = pshape t /\
      let '(l', n, z) := mut_walk (tree_order d (erase t)) 0 0 evs in
      tree_order d (erase t') = l' /\ x = OutMut (take n (tree_order d (erase t))) z
  | OWalk path => t' = t /\ x = OutNode (tree_show (tree_at path (erase t)))
  | OWalkMut path w => pshape t' = pshape t /\ x = OutNode (tree_show (tree_at path (erase t))) /\
      erase t' = match w with Some w => tree_write_at path w (erase t) | None => erase t end
  | ODebug => t' = t /\ x = OutDebug (DStruct "BSTMap" [("root", tree_debug (erase t))])%string
  | OClone os ck cv => (clones ck cv 0 (ppre t).*2).2 = true /\ x = OutUnit /\
      ins_rel os 0 (clones ck cv 0 (ppre t).*2).1 Leaf t'
  end.

(** What a call that panics or aborts does to it. *)
Definition tstop (e : env) (c : op K V) m t (r : option panic_reason) t' : Prop :=
  match c with
  | OInsert o k v => t' = t /\
      ((r = Some PCmp /\ forall q, tins o 0 k v q t = Panic PCmp) \/
       (alloc_fail r /\ N.of_nat (tsize t) = map_capacity m))
  | ORemove o | ORemoveEntry o => t' = t /\ r = Some PCmp /\ trem o 0 t = Panic PCmp
  | OGet o | OGetEntry o | OContains o | OGetMut o _ | OGetEntryMut o _ =>
      t' = t /\ r = Some PCmp /\ tget o 0 t = Panic PCmp
  | OReserve n => t' = t /\
      (alloc_fail r \/ (r = Some POverflow /\ e_chk e = true /\ (USIZE <= a_len (mem m) + n)%N))
  | OExtend os it =>
      (t' = t /\
       (alloc_fail r \/ (r = Some POverflow /\ e_chk e = true /\ (USIZE <= a_len (mem m) + hint_len it)%N))) \/
      (exists n cap, ins_rel os 0 (take n (ui_items it)) t t' /\
         stopped os 0 (ui_items it) (ui_panics it) r n t' cap)
  | OClone os ck cv => t' = t /\
      match r with
      | Some p => build_stop p /\ p <> PIter /\
          (alloc_fail r \/ exists t1, clone_stop os ck cv 0 (ppre t).*2 Leaf r t1)
      | None => True
      end
  | _ => False
  end.

(** Slots, capacity, room and addresses, whether the call returns or not. *)
Record effects (c : op K V) m t m' t' : Prop := {
  ef_slots : match c with
             | OClear => a_len (mem m') = 0%N
             | OClone _ _ _ => True
             | _ => a_len (mem m') = N.max (a_len (mem m)) (N.of_nat (tsize t'))
             end;
  ef_cap : match c with OShrink | OClone _ _ _ => True | _ => (map_capacity m <= map_capacity m')%N end;
  ef_room : match c with
            | OInsert _ _ _ | OExtend _ _ | OReserve _ | OShrink | OClone _ _ _ => True
            | _ => same_room (m_nodes m) (m_nodes m')
            end;
  ef_kept : match c with
            | ORemove _ | ORemoveEntry _ | OClear | OClone _ _ _ => True
            | _ => kept t t'
            end;
}.

(** Nothing is lost or duplicated. *)
Definition account (e : env) (c : op K V) m t (x : out K V) m' t' : Prop :=
  match c with
  | OClone _ _ _ => True
  | OClear => e_nd e = true -> held t' ++ gone m' ≡ₚ held t ++ gone m
  | _ => held t' ++ gone m' ++ returned c x ≡ₚ held t ++ gone m ++ given (tsize t) c x
  end.

(** What a panicking call drops of what it was given: an insertion everything,
    [extend] the entries it had taken from the iterator. *)
Definition account_stop (c : op K V) (p : panic_reason) m t m' t' : Prop :=
  match c with
  | OInsert _ k v => held t' ++ gone m' ≡ₚ held t ++ gone m ++ [inl k; inr v]
  | OExtend os it => exists n, pulled os it p n /\ held t' ++ gone m' ≡ₚ held t ++ gone m ++ owned (take n (ui_items it))
  | _ => held t' ++ gone m' ≡ₚ held t ++ gone m
  end.

Definition exec_ret (e : env) (c : op K V) m t x m' : Prop :=
  exists t' fl', map_rep m' t' fl' /\ tstep c t x t' /\ effects c m t m' t' /\ account e c m t x m' t' /\
    match c with
    | OInsert _ _ _ => roomy m m' t'
    | OClone _ _ _ => a_len (mem m') = N.of_nat (tsize t')
    | _ => True
    end.
Definition exec_stop (e : env) (c : op K V) m t r m' : Prop :=
  exists t' fl', map_rep m' t' fl' /\ tstop e c m t r t' /\ effects c m t m' t' /\
    (match r with Some p => account_stop c p m t m' t' | None => True end) /\
    match c with
    | OReserve _ | OExtend _ _ => True
    | _ => unchanged m m' /\ map_capacity m' = map_capacity m
    end.

Lemma effects_same c m t m' fl fl' : map_rep m t fl -> map_rep m' t fl' -> same_room (m_nodes m) (m_nodes m') ->
  a_len (mem m') = a_len (mem m) -> c <> OClear -> effects c m t m' t.
Proof.
  intros Hrep Hrep' Hr Hl Hc. assert (Hcap : map_capacity m' = map_capacity m) by apply Hr.
  pose proof (map_rep_len _ _ _ Hrep). pose proof (map_rep_len _ _ _ Hrep').
  split; destruct c; try done; try apply kept_refl; try lia.
Qed.

Lemma effects_refl c m t fl : map_rep m t fl -> c <> OClear -> effects c m t m t.
Proof.
  intros Hrep Hc. pose proof (map_rep_len _ _ _ Hrep). split; destruct c; try done; try apply kept_refl; try lia.
Qed.

Lemma wp_pure (f : bstmap K V -> res (out K V)) Q E m :
  rwp (f m) (fun a => Q a m) (fun p => E p m) -> wp (let! m := sget in slift (f m)) Q E m.
Proof. intros H. apply wp_bind, wp_get, wp_lift, H. Qed.

(** Calls that only read. *)
Lemma exec_read e c (f : bstmap K V -> res (out K V)) m t fl : map_rep m t fl ->
  (forall m, exec e c m = (f m, m)) -> match c with OClear | OClone _ _ _ => False | _ => True end ->
  rwp (f m) (fun x => tstep c t x t /\ returned c x = [] /\ given (tsize t) c x = [])
            (fun r => tstop e c m t r t /\ match c with OInsert _ _ _ | OExtend _ _ => False | _ => True end) ->
  wp (exec e c) (exec_ret e c m t) (exec_stop e c m t) m.
Proof.
  intros Hrep Heq Hc Hf. unfold wp. rewrite Heq. assert (Hef : effects c m t m t) by (eapply effects_refl; [done|by destruct c]).
  destruct (f m) as [x|p| |u|]; try done.
  - destruct Hf as (Hs & Hr & Hg). exists t, fl. split_and!; try done; unfold account.
    + destruct c; try done; rewrite Hr, Hg; by rewrite !app_nil_r.
    + by destruct c.
  - destruct Hf as [Hs Hk]. exists t, fl. split_and!; try done; [by unfold account_stop; destruct c|].
    destruct c; try done; (split; [apply unchanged_refl|done]).
  - destruct Hf as [Hs Hk]. exists t, fl. split_and!; try done. 
    destruct c; try done; (split; [apply unchanged_refl|done]).
Qed.

Lemma tget_rwp (o : oracle K) t (Q : _ -> Prop) (E : option panic_reason -> Prop) :
  (forall y, tget o 0 t = Ret y -> Q y) -> (tget o 0 t = Panic PCmp -> E (Some PCmp)) -> rwp (tget o 0 t) Q E.
Proof.
  intros HQ HE. destruct (tget_cases o t 0) as [[y Hy]|Hy]; rewrite Hy.
  - by apply HQ.
  - by apply HE.
Qed.

Lemma first_calls_le {A} n : forall k (l : list A), n <= k -> take n ((Some <$> l) ++ replicate k None) = first_calls n l.
Proof.
  induction n as [|n IH]; intros k l Hk; [done|]. destruct l as [|x l]; simpl.
  - destruct k as [|k]; [lia|]. simpl. f_equal. apply (IH k []). lia.
  - f_equal. apply IH. lia.
Qed.

Lemma first_calls_fmap {A B} (f : A -> B) n : forall l, option_map f <$> first_calls n l = first_calls n (f <$> l).
Proof. induction n as [|n IH]; intros [|x l]; simpl; try done; f_equal; apply (IH []) || apply IH. Qed.

Lemma porder_snd_tree d t : snd <$> porder d t = tree_order d (erase t).
Proof. apply porder_erase. Qed.

(** A call that writes through a pointer to a stored value. *)
Lemma write_ret e c m t fl p k v (w : option V) x : map_rep m t fl -> (p, (k, v)) ∈ ppre t ->
  match c with OGetMut _ _ | OGetEntryMut _ _ | OWalkMut _ _ => True | _ => False end ->
  given (tsize t) c x = match w with Some w => [inr w] | None => [] end -> returned c x = [] ->
  tstep c t x (match w with Some w => tset p w t | None => t end) ->
  wp (opt_write p w) (fun _ m' => exec_ret e c m t x m') (fun _ _ => False) m.
Proof.
  intros Hrep Hin Hc Hg Hret Hstep. destruct w as [w|]; simpl.
  - eapply wp_mono; [by eapply write_value_spec| |done]. intros ? m' (Hrep' & Hst & Hd).
    exists (tset p w t), fl. split_and!; try done.
    + assert (Hcap : map_capacity m' = map_capacity m) by apply Hst.
      assert (Hl : a_len (mem m') = a_len (mem m)).
      { rewrite (map_rep_len _ _ _ Hrep), (map_rep_len _ _ _ Hrep'), tset_size. done. }
      pose proof (map_rep_len _ _ _ Hrep) as Hl0.
      split; destruct c; try done; try apply tset_kept; try apply Hst; try lia; rewrite tset_size, Hl; lia.
    + assert (Hac : held (tset p w t) ++ gone m' ++ returned c x ≡ₚ held t ++ gone m ++ given (tsize t) c x).
      { rewrite Hg, Hret, app_nil_r. eapply write_account; [done|done|done|apply Hst]. }
      unfold account. by destruct c.
    + by destruct c.
  - apply wp_ret. exists t, fl. split_and!; try done.
    + eapply effects_refl; [done|]. by destruct c.
    + unfold account. destruct c; try done; rewrite Hg, Hret, !app_nil_r; done.
    + by destruct c.
Qed.

Lemma wp_false {S A} (f : M S A) (Q : A -> S -> Prop) (E : option panic_reason -> S -> Prop) s :
  wp f Q (fun _ _ => False) s -> wp f Q E s.
Proof. intros H. eapply wp_mono; [exact H|done|done]. Qed.

Lemma tree_write_nothing path w : forall (t : tree K V), tree_at path t = tleaf -> tree_write_at path w t = t.
Proof.
  induction path as [|[] path IH]; intros [|l k v r]; simpl; try done; intros H; f_equal; by apply IH.
Qed.

Theorem exec_spec e c m t fl : map_rep m t fl ->
  wp (exec e c) (exec_ret e c m t) (exec_stop e c m t) m.
Proof.
  intros Hrep. destruct c as [o k v|o|o|o|o|o|o w|o w| | | | |n| |os it|d n|d evs|path|path w| |os ck cv].
  - (* insert *)
    apply wp_bind. eapply wp_mono; [by eapply insert_call| |].
    + intros r m' (q & t' & fl' & Ht & Hrep' & Hg & Hr & Hf & Hac). apply wp_ret. exists t', fl'. split_and!; try done.
      * exists q, r. done.
      * split; try done; by apply Hg.
    + intros r m' (Hrep' & Hu & Hs & Hwhy & Hd). exists t, fl. split_and!; try done.
      * split; [done|]. destruct Hwhy as [[-> Hw]|(Ha & _ & Hc & _)]; [by left|by right].
      * destruct Hu as [_ [n Hu]].
        assert (Hl : mem m' = set_next n (mem m)) by (unfold mem; by rewrite Hu).
        assert (Hcap : map_capacity m' = map_capacity m).
        { unfold map_capacity, slab_capacity. unfold mem in Hl. by rewrite Hl. }
        pose proof (map_rep_len _ _ _ Hrep) as Hlen. split; try lia.
        -- rewrite Hl. simpl. lia.
        -- apply kept_refl.
      * destruct r; [|done]. unfold account_stop. by rewrite Hd.
      * destruct Hu as [_ [n Hu]]. unfold map_capacity, slab_capacity. by rewrite Hu.
  - (* remove *)
    apply wp_bind. eapply wp_mono; [by eapply map_remove_spec| |].
    + intros r m' (t' & y & Ht & -> & Hrep' & Hst & Hd & Hl & Hnone). apply wp_ret. eexists t', _. split_and!; try done.
      * by exists y.
      * assert (Hcap : map_capacity m' = map_capacity m) by apply Hst.
        change (a_len (mem m') = a_len (mem m)) in Hl.
        pose proof (map_rep_len _ _ _ Hrep'). split; try done; try apply Hst; lia.
      * unfold account. pose proof (trem_account _ _ _ _ _ Ht) as Hac. unfold gone. rewrite Hd, (proj2 Hst), <- Hac.
        simpl. destruct y as [[p [k v]]|]; simpl; [solve_Permutation|by rewrite !app_nil_r].
    + intros r m' (-> & -> & Ht). exists t, fl. split; [done|]. split; [done|]. split; [by eapply effects_refl|].
      split; [try done; simpl; reflexivity|]. split; [apply unchanged_refl|done].
  - (* remove_entry *)
    apply wp_bind. eapply wp_mono; [by eapply map_remove_entry_spec| |].
    + intros r m' (t' & y & Ht & -> & Hrep' & Hst & Hd & Hl & Hnone). apply wp_ret. eexists t', _. split_and!; try done.
      * by exists y.
      * assert (Hcap : map_capacity m' = map_capacity m) by apply Hst.
        change (a_len (mem m') = a_len (mem m)) in Hl.
        pose proof (map_rep_len _ _ _ Hrep'). split; try done; try apply Hst; lia.
      * unfold account. pose proof (trem_account _ _ _ _ _ Ht) as Hac. unfold gone. rewrite Hd, (proj2 Hst), <- Hac.
        simpl. destruct y as [[p [k v]]|]; simpl; [solve_Permutation|by rewrite !app_nil_r].
    + intros r m' (-> & -> & Ht). exists t, fl. split; [done|]. split; [done|]. split; [by eapply effects_refl|].
      split; [try done; simpl; reflexivity|]. split; [apply unchanged_refl|done].
  - (* get *)
    apply (exec_read e _ (fun m => rmap OutValue (map_get m o)) m t fl Hrep); [|done|].
    { intros m0. simpl. unfold sbind, sget, slift, sret. by destruct (map_get m0 o). }
    rewrite (map_get_eq _ _ _ _ Hrep). unfold rmap. do 2 apply rwp_bind. apply tget_rwp; simpl; [|done]. eauto 10.
  - (* get_entry *)
    apply (exec_read e _ (fun m => rmap OutEntry (map_get_entry m o)) m t fl Hrep); [|done|].
    { intros m0. simpl. unfold sbind, sget, slift, sret. by destruct (map_get_entry m0 o). }
    rewrite (map_get_entry_eq _ _ _ _ Hrep). unfold rmap. do 2 apply rwp_bind. apply tget_rwp; simpl; [|done]. eauto 10.
  - (* contains *)
    apply (exec_read e _ (fun m => rmap OutBool (map_contains_key m o)) m t fl Hrep); [|done|].
    { intros m0. simpl. unfold sbind, sget, slift, sret. by destruct (map_contains_key m0 o). }
    rewrite (map_contains_key_eq _ _ _ _ Hrep). unfold rmap. do 2 apply rwp_bind. apply tget_rwp; simpl; [|done]. eauto 10.
  - (* get_mut *)
    cbn [exec]. apply wp_bind, wp_get, wp_bind, wp_lift. rewrite (map_get_mut_eq _ _ _ _ Hrep).
    unfold rmap. apply rwp_bind. apply tget_rwp.
    + intros [[p [k v]]|] Ht; simpl.
      * pose proof (tget_in _ _ _ _ Ht) as Hin. apply wp_bind, wp_lift. rewrite (value_in _ _ _ _ _ _ Hrep Hin). simpl.
        apply wp_bind, wp_false. eapply wp_mono; [eapply (write_ret e (OGetMut o w) m t fl p k v w (OutValue (Some v)))| |]; try done.
        exists (Some (p, (k, v))). by destruct w.
      * apply wp_ret. exists t, fl. split_and!; try done.
        -- by exists None.
        -- by eapply effects_refl.
        -- unfold account. simpl. destruct w; simpl; reflexivity.
    + intros Ht. exists t, fl. split; [done|]. split; [done|]. split; [by eapply effects_refl|].
      split; [try done; simpl; reflexivity|]. split; [apply unchanged_refl|done].
  - (* get_entry_mut *)
    cbn [exec]. apply wp_bind, wp_get, wp_bind, wp_lift. rewrite (map_get_entry_mut_eq _ _ _ _ Hrep).
    unfold rmap. apply rwp_bind. apply tget_rwp.
    + intros [[p [k v]]|] Ht; simpl.
      * pose proof (tget_in _ _ _ _ Ht) as Hin. apply wp_bind, wp_lift. rewrite (value_in _ _ _ _ _ _ Hrep Hin). simpl.
        apply wp_bind, wp_false. eapply wp_mono; [eapply (write_ret e (OGetEntryMut o w) m t fl p k v w (OutEntry (Some (k, v))))| |]; try done.
        exists (Some (p, (k, v))). by destruct w.
      * apply wp_ret. exists t, fl. split_and!; try done.
        -- by exists None.
        -- by eapply effects_refl.
        -- unfold account. simpl. destruct w; simpl; reflexivity.
    + intros Ht. exists t, fl. split; [done|]. split; [done|]. split; [by eapply effects_refl|].
      split; [try done; simpl; reflexivity|]. split; [apply unchanged_refl|done].
  - (* len *)
    apply (exec_read e _ (fun m => rmap OutNum (map_len e m)) m t fl Hrep); [|done|].
    { intros m0. simpl. unfold sbind, sget, slift, sret. by destruct (map_len e m0). }
    by rewrite (map_len_ret _ _ _ _ Hrep).
  - (* is_empty *)
    apply (exec_read e _ (fun m => rmap OutBool (map_is_empty e m)) m t fl Hrep); [|done|].
    { intros m0. simpl. unfold sbind, sget, slift, sret. by destruct (map_is_empty e m0). }
    by rewrite (map_is_empty_ret _ _ _ _ Hrep).
  - (* capacity *)
    apply (exec_read e _ (fun m => Ret (OutNum (map_capacity m))) m t fl Hrep); [done|done|]. simpl. eauto 10.
  - (* clear *)
    destruct (map_clear_spec e (fun _ => false) m t fl Hrep) as (m' & drops & Heq & Hrep' & Hd1 & Hd2 & Hl & Hroom & Hd3); [done|].
    unfold wp. simpl. unfold sbind. rewrite Heq. simpl. exists Leaf, []. split_and!; try done.
    + split; try done. assert (map_capacity m' = map_capacity m) by apply Hroom. simpl. lia.
    + unfold account. intros Hnd. rewrite Hnd in Hd3. unfold held, gone. simpl. rewrite Hd1, Hd2, fmap_app, owned_app, (owned_perm _ _ Hd3).
      solve_Permutation.
  - (* reserve *)
    cbn [exec]. apply wp_bind. eapply wp_mono; [by eapply map_reserve_spec| |].
    + intros ? m' (Hrep' & Hg & _). apply wp_ret. pose proof (grown_grew _ _ _ _ Hrep Hg) as Hgg. exists t, fl. split_and!; try done.
      * split; try done; apply Hgg.
      * unfold account. simpl. rewrite (grown_gone _ _ Hg), !app_nil_r. done.
    + intros r m' (Hrep' & Hg & Hwhy). pose proof (grown_grew _ _ _ _ Hrep Hg) as Hgg. exists t, fl. split_and!; try done.
      * split; [done|]. destruct Hwhy as [[Ha _]|(-> & _ & Hc & Ho)]; [by left|right; done].
      * split; try done; apply Hgg.
      * destruct r; [|done]. simpl. by rewrite (grown_gone _ _ Hg).
  - (* shrink *)
    cbn [exec]. apply wp_bind. eapply wp_mono; [by eapply map_shrink_spec| |done].
    intros ? m' (Hrep' & Hs & Hm & _). apply wp_ret. exists t, fl. split_and!; try done.
    + pose proof (map_rep_len _ _ _ Hrep). split; try done; [|apply kept_refl]. rewrite (as_len _ _ Hs). lia.
    + unfold account. simpl. assert (gone m' = gone m) as -> by (rewrite Hm; done). by rewrite !app_nil_r.
  - (* extend *)
    cbn [exec]. apply wp_bind. eapply wp_mono; [by eapply map_extend_spec| |].
    + intros ? m' (Hp & t' & fl' & Hrep' & Hi & Hg & Hac). apply wp_ret. exists t', fl'. split_and!; try done.
      * split; try done; apply Hg.
      * unfold account. simpl. rewrite app_nil_r. done.
    + intros r m' [(Hrep' & Hg & Hwhy)|(n & t' & fl' & Hrep' & Hi & Hst & Hg & Hac)].
      * pose proof (grown_grew _ _ _ _ Hrep Hg) as Hgg. exists t, fl. split_and!; try done.
        -- left. done.
        -- split; try done; apply Hgg.
        -- destruct r as [p|]; [|done]. exists 0. split; [|simpl; rewrite (grown_gone _ _ Hg), !app_nil_r; done].
           destruct Hwhy as [[[= ->]|[[= ->]|?]]|([= ->] & _)]; simpl; done || lia.
      * exists t', fl'. split_and!; try done.
        -- right. eauto.
        -- split; try done; apply Hg.
        -- destruct r as [p|]; [|done]. destruct (stopped_pulled _ _ _ _ _ _ Hst) as (n' & Heq & Hn'). exists n'. split; [done|]. by rewrite Heq.
  - (* iter *)
    destruct (iter_start_spec m t fl d Hrep) as (it & Hs & Hok).
    destruct (nexts_spec m t fl d Hrep n it _ Hok) as (it' & Hn).
    apply (exec_read e _ (fun m => let* it := iter_start m d in
                                   let* l := fst (nexts (iter_next m d) n it) in
                                   Ret (OutSeq (option_map snd <$> l))) m t fl Hrep); [|done|].
    { intros m0. simpl. unfold sbind, sget, slift, sret. destruct (iter_start m0 d); try done. simpl.
      by destruct (fst (nexts _ _ _)). }
    rewrite Hs. cbn [rbind]. rewrite Hn. simpl. split_and!; try done. f_equal.
    rewrite first_calls_le by done. rewrite first_calls_fmap. by rewrite <- porder_snd_tree.
  - (* iter_mut *)
    destruct (iter_mut_program_spec d evs m t fl Hrep) as (st & t' & Heq & H).
    cbn [exec]. apply wp_bind, wp_get, wp_bind, wp_lift. rewrite Heq. simpl.
    apply wp_bind, wp_mod, wp_ret. unfold exec_ret. simpl. rewrite <- porder_erase.
    destruct (mut_walk (porder d t).*2 0 0 evs) as [[l' n'] x'].
    destruct H as (A1 & A2 & A3 & A4 & A5 & A6 & A7 & A8 & A9 & A9b & A10). exists t', fl. split_and!; try done.
    + by rewrite <- porder_erase.
    + by rewrite A2, A3, <- fmap_take.
    + assert (Hcap : map_capacity (mu_map st) = map_capacity m) by apply A7.
      pose proof (map_rep_len _ _ _ A1). split; try done; try apply A7; try lia.
    + unfold account. simpl. rewrite app_nil_r. done.
  - (* walk *)
    apply (exec_read e _ (fun m => let* r := map_root m in let* n := walk m path r in
                                   Ret (OutNode (option_map show_node n))) m t fl Hrep); [|done|].
    { intros m0. simpl. unfold sbind, sget, slift, sret. destruct (map_root m0); try done. simpl.
      by destruct (walk m0 path _). }
    rewrite (map_root_ret _ _ _ Hrep). cbn [rbind]. rewrite walk_eq by (by eapply rep_readable). simpl.
    by rewrite show_node_eq, tat_erase.
  - (* walk_mut *)
    cbn [exec]. apply wp_bind, wp_get, wp_bind, wp_lift. rewrite (map_root_mut_ret _ _ _ Hrep). cbn [rwp].
    apply wp_bind, wp_lift. pose proof (rep_readable _ _ _ Hrep) as Hread. rewrite walk_mut_eq by done. cbn [rwp].
    pose proof (tat_readable m path t Hread) as Hr.
    pose proof (tat_erase path t) as Hat.
    destruct (tat path t) as [|l p k v r] eqn:Ht; cbn [rootp].
    + apply wp_ret. exists t, fl. split_and!; try done.
      * simpl. rewrite <- Hat. split_and!; try done. destruct w as [w|]; [|done]. by rewrite tree_write_nothing.
      * by eapply effects_refl.
      * unfold account. simpl. destruct w; simpl; reflexivity.
    + apply wp_bind, wp_lift. rewrite (show_nodemut_eq _ _ _ _ _ _ Hr). cbn [rwp].
      assert (Hin : (p, (k, v)) ∈ ppre t) by (apply (tat_nodes path); rewrite Ht; left).
      apply wp_bind, wp_false. eapply wp_mono; [eapply (write_ret e (OWalkMut path w) m t fl p k v w
        (OutNode (Some (k, v, nonleaf (erase l), nonleaf (erase r)))))| |]; try done.
      simpl. rewrite <- Hat. split_and!; try done; destruct w as [w|]; try done; [apply pshape_tset|].
        pose proof (tset_erase_at path w t (rep_nodup _ _ _ Hrep)) as Hw. by rewrite Ht in Hw.
  - (* debug *)
    apply (exec_read e _ (fun m => rmap OutDebug (map_debug m)) m t fl Hrep); [|done|].
    { intros m0. simpl. unfold sbind, sget, slift, sret. by destruct (map_debug m0). }
    by rewrite (map_debug_eq _ _ _ Hrep).
  - (* clone *)
    pose proof (map_clone_spec e os ck cv m t fl Hrep) as Hc.
    destruct (map_drop_spec e (fun _ => false) m t fl Hrep) as (m1 & drops & Hdrop & _); [done|].
    unfold wp. simpl. unfold sbind, clone_and_replace.
    destruct (map_clone e os ck cv m) as [[u|p| |u|] m2]; try done.
    + rewrite Hdrop. simpl. destruct Hc as (Hb & t' & fl' & Hrep' & Hi & _ & _ & Hl). exists t', fl'. split_and!; try done.
    + destruct Hc as (_ & Hb & Hp & Hw & _). exists t, fl. split; [done|]. split; [done|]. split; [by eapply effects_refl|].
      split; [try done; simpl; reflexivity|]. split; [apply unchanged_refl|done].
    + exists t, fl. split; [done|]. split; [done|]. split; [by eapply effects_refl|].
      split; [try done; simpl; reflexivity|]. split; [apply unchanged_refl|done].
Qed.

End exec.
