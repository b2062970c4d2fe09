(** * Memory safety, termination, stability of addresses *)

From Coq Require Import String.
From Verif Require Export ProofIterProps SpecSafety.

Section safety_proofs.
Context {K V : Type}.
Implicit Types m : bstmap K V.
Implicit Types t : ptree K V.

Lemma rep_size e m t fl : map_rep m t fl -> entry_count e m = N.of_nat (tsize t).
Proof. intros H. unfold entry_count. by rewrite (map_len_ret _ _ _ _ H). Qed.

Lemma defined_no_ub {A} (r : res A) : defined r -> no_ub r.
Proof. intros H u ->. done. Qed.
Lemma defined_settles {A} (r : res A) : defined r -> r <> Diverge.
Proof. intros H ->. done. Qed.

(** ** C18, C19 *)

Lemma no_ub_history e (s : start K V) cs :
  no_ub (begin e s).1 /\
  forall rs m, reached e s cs rs m -> Forall no_ub rs /\ no_ub (map_drop e (fun _ => false) m).1.
Proof.
  split.
  - destruct (begin e s) as [r m] eqn:E. eapply defined_no_ub, begin_defined. exact E.
  - intros rs m H. destruct (reached_rep _ _ _ _ _ H) as [Hd (t & fl & Hrep)]. split.
    + eapply Forall_impl; [exact Hd|]. intros r. apply defined_no_ub.
    + destruct (map_drop_spec e (fun _ => false) m t fl Hrep) as (m' & drops & -> & _); done.
Qed.

Lemma always_settles e (s : start K V) cs :
  (begin e s).1 <> Diverge /\
  forall rs m, reached e s cs rs m -> Forall (fun r => r <> Diverge) rs /\ (map_drop e (fun _ => false) m).1 <> Diverge.
Proof.
  split.
  - destruct (begin e s) as [r m] eqn:E. eapply defined_settles, begin_defined. exact E.
  - intros rs m H. destruct (reached_rep _ _ _ _ _ H) as [Hd (t & fl & Hrep)]. split.
    + eapply Forall_impl; [exact Hd|]. intros r. apply defined_settles.
    + destruct (map_drop_spec e (fun _ => false) m t fl Hrep) as (m' & drops & -> & _); done.
Qed.

(** The loops do not depend on their fuel once it is enough. *)
Lemma insert_loop_more e (o : oracle K) k (v : V) fuel : forall fuel' i cur m, fuel <= fuel' ->
  (insert_loop e o fuel i k v cur m).1 <> Diverge ->
  insert_loop e o fuel' i k v cur m = insert_loop e o fuel i k v cur m.
Proof.
  induction fuel as [|fuel IH]; intros [|fuel'] i cur m Hle Hd; simpl in *; try done; [lia|].
  destruct cur as [node|]; [|done]. unfold sbind, sget, slift, sret in *.
  destruct (nodemut_key m node) as [nk|?| |?|]; try done.
  destruct (ask o i nk) as [[]|?| |?|]; try done.
  - destruct (nodemut_has_left m node) as [[]|?| |?|]; simpl in *; try done.
    destruct (nodemut_left m node) as [cur|?| |?|]; try done. apply IH; [lia|done].
  - destruct (nodemut_has_right m node) as [[]|?| |?|]; simpl in *; try done.
    destruct (nodemut_right m node) as [cur|?| |?|]; try done. apply IH; [lia|done].
Qed.

Lemma descent_bound e m n : reachable e m -> map_len e m = Ret n -> forall fuel, (n < N.of_nat fuel)%N ->
  (forall o, rbind (map_root m) (contains_loop m o fuel 0) = map_contains_key m o) /\
  (forall o, rbind (map_root m) (get_loop m o fuel 0) = map_get_ref m o) /\
  (forall o, rbind (map_root m) (get_entry_loop m o fuel 0) = map_get_entry_ref m o) /\
  (forall o, rbind (map_root_mut m) (get_mut_loop m o fuel 0) = map_get_mut m o) /\
  (forall o, rbind (map_root_mut m) (get_entry_mut_loop m o fuel 0) = map_get_entry_mut m o) /\
  (forall o k v r, map_root_mut m = Ret r ->
     insert_loop e o fuel 0 k v r m = insert_loop e o (map_fuel m) 0 k v r m) /\
  (forall o, remove_find m o fuel 0 None (m_root m) = remove_find m o (map_fuel m) 0 None (m_root m)).
Proof.
  intros (t & fl & Hrep)%reachable_rep Hn fuel Hf.
  rewrite (map_len_ret _ _ _ _ Hrep) in Hn. injection Hn as <-.
  assert (Hh : pheight t < fuel) by (pose proof (pheight_size t); lia).
  pose proof (rep_fuel_height _ _ _ Hrep) as Hh'. pose proof (rep_readable _ _ _ Hrep) as Hr.
  unfold map_contains_key, map_get_ref, map_get_entry_ref, map_get_mut, map_get_entry_mut.
  rewrite (map_root_ret _ _ _ Hrep), (map_root_mut_ret _ _ _ Hrep). cbn [rbind].
  split_and!.
  - intros o. by rewrite !(contains_loop_eq m o t).
  - intros o. by rewrite !(get_loop_eq m o t).
  - intros o. by rewrite !(get_entry_loop_eq m o t).
  - intros o. by rewrite !(get_mut_loop_eq m o t).
  - intros o. by rewrite !(get_entry_mut_loop_eq m o t).
  - intros o k v r [= <-].
    assert (Hd : forall f, pheight t < f -> (insert_loop e o f 0 k v (rootp t) m).1 <> Diverge).
    { intros f Hff. destruct t as [|l p k0 v0 r].
      - destruct f; [simpl in Hff; lia|done].
      - pose proof (insert_loop_spec e o k v (Bin l p k0 v0 r) (Bin l p k0 v0 r) [] f 0 m fl eq_refl Hrep Hff) as H.
        specialize (H ltac:(done)). unfold wp in H. by destruct (insert_loop _ _ _ _ _ _ _ m) as [[] ?]. }
    destruct (Nat.le_ge_cases fuel (map_fuel m)).
    + symmetry. apply insert_loop_more; [done|by apply Hd].
    + apply insert_loop_more; [done|by apply Hd].
  - intros o. rewrite (proj2 Hrep). rewrite !(remove_find_eq m o t []) by done. done.
Qed.

(** The loop that looks for the successor of a node with two children. *)
Lemma successor_bound e m n x r rl : reachable e m -> map_len e m = Ret n -> forall fuel, (n < N.of_nat fuel)%N ->
  handle m x -> node_right m x = Ret (Some r) -> node_left m r = Ret (Some rl) ->
  succ_loop m fuel (nd_ptr r) (nd_ptr rl) = succ_loop m (map_fuel m) (nd_ptr r) (nd_ptr rl) /\
  succ_loop m fuel (nd_ptr r) (nd_ptr rl) <> Diverge.
Proof.
  intros (t & fl & Hrep)%reachable_rep Hn fuel Hf Hx Hxr Hxl.
  rewrite (map_len_ret _ _ _ _ Hrep) in Hn. injection Hn as <-.
  assert (Hh : pheight t < fuel) by (pose proof (pheight_size t); lia).
  pose proof (rep_fuel_height _ _ _ Hrep) as Hh'. pose proof (rep_readable _ _ _ Hrep) as Hr.
  destruct (handle_rep _ _ _ _ Hrep Hx) as (path & l & p & k & v & rt & Hat & ->).
  pose proof (tat_height path t) as Hht. rewrite Hat in Hht.
  assert (Hrd : readable m (Bin l p k v rt)) by (rewrite <- Hat; by apply tat_readable).
  unfold node_right in Hxr. cbn [nd_inner n_right] in Hxr.
  rewrite (opt_node_ret m rt) in Hxr by (by eapply readable_r). injection Hxr as Hxr.
  destruct rt as [|rtl rp rk rv rtr]; [done|]. injection Hxr as <-.
  assert (Hrd2 : readable m (Bin rtl rp rk rv rtr)) by (by eapply readable_r).
  unfold node_left in Hxl. cbn [nd_inner n_left] in Hxl.
  rewrite (opt_node_ret m rtl) in Hxl by (by eapply readable_l). injection Hxl as Hxl.
  destruct rtl as [|rll lp lk lv rlr]; [done|]. injection Hxl as <-. cbn [nd_ptr].
  destruct (tmin_ctx (FL rp rk rv rtr :: []) rll lp lk lv rlr) as [[C' y] mr] eqn:E.
  assert (Hrd3 : readable m (Bin rll lp lk lv rlr)) by (by eapply readable_l).
  simpl in Hht.
  destruct (succ_loop_eq m rll [] fuel lp lk lv rlr (FL rp rk rv rtr) C' y mr Hrd3 ltac:(lia) E) as (f1 & C1 & -> & H1).
  destruct (succ_loop_eq m rll [] (map_fuel m) lp lk lv rlr (FL rp rk rv rtr) (f1 :: C1) y mr Hrd3 ltac:(lia) E) as (f2 & C2 & H3 & H2).
  injection H3 as <- <-. cbn [fptr] in H1, H2. rewrite H1, H2. done.
Qed.

(** ** C20 *)

Lemma rep_stored_list m t fl p k v : map_rep m t fl -> stored m p k v -> (p, (k, v)) ∈ ppre t.
Proof. intros H. by apply rep_stored with fl. Qed.

Lemma trem_eq o t : forall i t' y, trem o i t = Ret (t', Some y) -> exists j, o j y.2.1 = Some Eq.
Proof.
  induction t as [|l IHl p k v r IHr]; intros i t' y; simpl; [done|].
  unfold ask. destruct (o i k) as [[]|] eqn:Ho; simpl; try done.
  - intros [= <- <-]. by exists i.
  - destruct (trem o (S i) l) as [[l' y']|?| |?|] eqn:E; simpl; try done. intros [= <- ->]. by eapply IHl.
  - destruct (trem o (S i) r) as [[l' y']|?| |?|] eqn:E; simpl; try done. intros [= <- ->]. by eapply IHr.
Qed.

Lemma exec_keeps e c m t fl r m' p k v : map_rep m t fl -> exec e c m = (r, m') -> spares k c -> (p, (k, v)) ∈ ppre t ->
  exists t' fl' v', map_rep m' t' fl' /\ (p, (k, v')) ∈ ppre t'.
Proof.
  intros Hrep He Hs Hin. pose proof (exec_cases e c m t fl Hrep) as H. rewrite He in H.
  assert (Hk : forall t', kept t t' -> exists v', (p, (k, v')) ∈ ppre t') by (intros t' Hk; by eapply Hk).
  assert (Hrem : forall o t' y, (forall i, o i k <> Some Eq) -> trem o 0 t = Ret (t', y) -> exists v', (p, (k, v')) ∈ ppre t').
  { intros o t' y Ho Ht. pose proof (trem_perm _ _ _ _ _ Ht) as Hp. destruct y as [y|]; [|subst; eauto].
    rewrite <- Hp in Hin. apply elem_of_cons in Hin as [<-|Hin]; [|eauto].
    destruct (trem_eq _ _ _ _ _ Ht) as [j Hj]. by apply Ho in Hj. }
  assert (Hgoal : forall (x : bool) t', effects c m t m' t' ->
    (match c with ORemove _ | ORemoveEntry _ => kept t t' \/ exists o y, (forall i, o i k <> Some Eq) /\ trem o 0 t = Ret (t', y) | _ => True end) ->
    exists v', (p, (k, v')) ∈ ppre t').
  { intros _ t' Hef Hc. pose proof (ef_kept _ _ _ _ _ Hef) as Hk'. destruct c; try (by apply Hk); try done.
    - destruct Hc as [Hc|(o' & y & Ho' & Ht)]; [by apply Hk|by eapply Hrem].
    - destruct Hc as [Hc|(o' & y & Ho' & Ht)]; [by apply Hk|by eapply Hrem]. }
  destruct r as [x|q| |u|]; try done; destruct H as (t' & fl' & Hrep' & Hst & Hef & _).
  - destruct (Hgoal true t' Hef) as [v' Hv']; [|eauto 6].
    destruct c; try done; destruct Hst as (y & Hy & _); eauto 6.
  - destruct (Hgoal true t' Hef) as [v' Hv']; [|eauto 6].
    destruct c; try done; destruct Hst as (-> & _); left; apply kept_refl.
  - destruct (Hgoal true t' Hef) as [v' Hv']; [|eauto 6].
    destruct c; try done; destruct Hst as (-> & _); left; apply kept_refl.
Qed.

Lemma run_keeps e cs : forall m t fl rs m' p k v, map_rep m t fl -> run e cs m = (rs, m') -> Forall (spares k) cs ->
  (p, (k, v)) ∈ ppre t -> exists t' fl' v', map_rep m' t' fl' /\ (p, (k, v')) ∈ ppre t'.
Proof.
  induction cs as [|c cs IH]; intros m t fl rs m' p k v Hrep Hrun Hsp Hin; simpl in Hrun.
  - injection Hrun as <- <-. eauto 6.
  - apply Forall_cons in Hsp as [Hc Hsp]. destruct (exec e c m) as [r m1] eqn:He.
    destruct (exec_keeps _ _ _ _ _ _ _ _ _ _ Hrep He Hc Hin) as (t1 & fl1 & v1 & Hrep1 & Hin1).
    destruct r as [x|q| |u|].
    + destruct (run e cs m1) as [rs1 m2] eqn:Hr. injection Hrun as <- <-. by eapply IH.
    + destruct (run e cs m1) as [rs1 m2] eqn:Hr. injection Hrun as <- <-. by eapply IH.
    + injection Hrun as <- <-. eauto 6.
    + injection Hrun as <- <-. eauto 6.
    + injection Hrun as <- <-. eauto 6.
Qed.

Lemma entries_stay e m cs rs m' p k v : reachable e m -> run e cs m = (rs, m') -> Forall (spares k) cs ->
  stored m p k v -> exists v', stored m' p k v'.
Proof.
  intros (t & fl & Hrep)%reachable_rep Hrun Hsp Hst. apply (rep_stored _ _ _ _ _ _ Hrep) in Hst.
  destruct (run_keeps _ _ _ _ _ _ _ _ _ _ Hrep Hrun Hsp Hst) as (t' & fl' & v' & Hrep' & Hin).
  exists v'. by apply (rep_stored _ _ _ _ _ _ Hrep').
Qed.

(** Removing an entry leaves all others where they are. *)
Lemma removal_stays e m o m' y p k v : reachable e m -> exec e (ORemoveEntry o) m = (Ret (OutEntry y), m') ->
  stored m p k v -> stored m' p k v \/ (y = Some (k, v) /\ forall k' v', ~ stored m' p k' v').
Proof.
  intros (t & fl & Hrep)%reachable_rep He Hst. apply (rep_stored _ _ _ _ _ _ Hrep) in Hst.
  pose proof (exec_cases e (ORemoveEntry o) m t fl Hrep) as H. rewrite He in H.
  destruct H as (t' & fl' & Hrep' & (x & Ht & [= ->]) & _).
  pose proof (trem_perm _ _ _ _ _ Ht) as Hp. destruct x as [x|].
  - assert (Hnd : NoDup (ptrs t)) by (by eapply rep_nodup). rewrite <- ppre_fst, <- Hp in Hnd.
    rewrite <- Hp in Hst. apply elem_of_cons in Hst as [<-|Hin].
    + right. split; [done|]. intros k' v' Hs. apply (rep_stored _ _ _ _ _ _ Hrep') in Hs.
      apply NoDup_cons in Hnd as [Hnin _]. apply Hnin. apply elem_of_list_fmap. by exists (p, (k', v')).
    + left. by apply (rep_stored _ _ _ _ _ _ Hrep').
  - subst. left. by apply (rep_stored _ _ _ _ _ _ Hrep').
Qed.

(** ** C28, C30: failing calls *)

Lemma rep_same_tree m t fl m' fl' : map_rep m t fl -> map_rep m' t fl' -> same_tree m m'.
Proof.
  intros H H'. split_and!.
  - by rewrite (map_root_ret _ _ _ H), (map_root_ret _ _ _ H').
  - intros n Hn. destruct (handle_rep _ _ _ _ H Hn) as (path & l & p & k & v & r & Hat & ->).
    assert (Hr : readable m (Bin l p k v r)) by (rewrite <- Hat; apply tat_readable; by eapply rep_readable).
    assert (Hr' : readable m' (Bin l p k v r)) by (rewrite <- Hat; apply tat_readable; by eapply rep_readable).
    unfold node_left, node_right. cbn [nd_inner n_left n_right].
    rewrite (opt_node_ret m l), (opt_node_ret m' l) by (by eapply readable_l).
    by rewrite (opt_node_ret m r), (opt_node_ret m' r) by (by eapply readable_r).
  - intros d. by rewrite (iter_collect_spec _ _ _ d H), (iter_collect_spec _ _ _ d H').
Qed.

Lemma unchanged_same_map m t fl m' fl' : map_rep m t fl -> map_rep m' t fl' -> unchanged m m' ->
  map_capacity m' = map_capacity m -> same_map m m'.
Proof.
  intros H H' [Hroot [n Hn]] Hc. destruct (rep_same_tree _ _ _ _ _ H H') as (H1 & _ & H3).
  split_and!; try done; intros x; unfold node_left, node_right.
  - destruct (n_left (nd_inner x)) as [p|]; [|done]. simpl. unfold node_new. rewrite Hn. done.
  - destruct (n_right (nd_inner x)) as [p|]; [|done]. simpl. unfold node_new. rewrite Hn. done.
Qed.

Lemma panic_same e c m p m' : reachable e m -> exec e c m = (Panic p, m') ->
  match c with OReserve _ | OExtend _ _ => False | _ => True end -> same_map m m' /\ reachable e m'.
Proof.
  intros Hreach He Hc. split; [|by eapply reachable_step].
  apply reachable_rep in Hreach as (t & fl & Hrep).
  pose proof (exec_cases e c m t fl Hrep) as H. rewrite He in H.
  destruct H as (t' & fl' & Hrep' & Hs & _ & _ & Hu).
  assert (t' = t) as ->.
  { destruct c; try done; try (by destruct Hs); try (by destruct Hs as [-> _]). }
  assert (Hu' : unchanged m m' /\ map_capacity m' = map_capacity m) by (by destruct c).
  destruct Hu' as [Hu1 Hu2]. by eapply unchanged_same_map.
Qed.

Lemma reserve_fails e n m p m' : reachable e m -> exec e (OReserve n) m = (Panic p, m') ->
  same_tree m m' /\ (map_capacity m <= map_capacity m')%N /\ reachable e m'.
Proof.
  intros Hreach He. split_and!; [| |by eapply reachable_step].
  - apply reachable_rep in Hreach as (t & fl & Hrep).
    pose proof (exec_cases e (OReserve n) m t fl Hrep) as H. rewrite He in H.
    destruct H as (t' & fl' & Hrep' & [-> _] & _). by eapply rep_same_tree.
  - apply reachable_rep in Hreach as (t & fl & Hrep).
    pose proof (exec_cases e (OReserve n) m t fl Hrep) as H. rewrite He in H.
    destruct H as (t' & fl' & Hrep' & [-> _] & Hef & _). apply (ef_cap _ _ _ _ _ Hef).
Qed.

Lemma extend_fails e os it m q m' : reachable e m -> exec e (OExtend os it) m = (Panic q, m') ->
  (forall p k v, stored m p k v -> exists v', stored m' p k v') /\ (map_capacity m <= map_capacity m')%N /\ reachable e m'.
Proof.
  intros Hreach He. split_and!; [| |by eapply reachable_step].
  - intros p k v Hst. eapply (entries_stay e m [OExtend os it]); [done| |by constructor|done].
    cbn [run]. by rewrite He.
  - apply reachable_rep in Hreach as (t & fl & Hrep).
    pose proof (exec_cases e (OExtend os it) m t fl Hrep) as H. rewrite He in H.
    destruct H as (t' & fl' & Hrep' & _ & Hef & _). apply (ef_cap _ _ _ _ _ Hef).
Qed.

End safety_proofs.
