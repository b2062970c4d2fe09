(** * The arena behaves as specified when [set_len] is used *)

From Verif Require Import ProofBase ProofArena ProofArenaRun.
From Verif Require Export SpecSetLen.
Local Open Scope N_scope.

Section set_len.
Context {T : Type}.
Implicit Types a : arena T.
Implicit Types w : list (Ptr * T).

Record tailed a w (n : nat) : Prop := {
  tl_inv : arena_inv a;
  tl_len : a_len a = N.of_nat n;
  tl_n : (n <= length w)%nat;
  tl_cap : N.of_nat (length w) <= a_cap a;
  tl_at : forall i p x, w !! i = Some (p, x) -> p = slotp (a_chunks a) (N.of_nat i) /\ acell a p = Some x;
}.

Lemma slots_eq a w m : (m <= length w)%nat ->
  (forall i p x, w !! i = Some (p, x) -> p = slotp (a_chunks a) (N.of_nat i) /\ acell a p = Some x) ->
  (take m w).*1 = slots (a_chunks a) m.
Proof.
  intros Hm H. apply list_eq. intros i. rewrite list_lookup_fmap.
  destruct (decide (i < m)%nat) as [Hi|Hi].
  - rewrite lookup_take by done. rewrite slots_lookup by done.
    destruct (w !! i) as [[p x]|] eqn:Hl; [|apply lookup_ge_None in Hl; lia].
    destruct (H i p x Hl) as [-> _]. done.
  - rewrite lookup_take_ge by lia. symmetry. apply lookup_ge_None. rewrite slots_length. lia.
Qed.

Lemma tailed_rep a w n : tailed a w n -> arena_rep a (take n w).
Proof.
  intros H. split; [apply H| |].
  - unfold aslots. rewrite (tl_len _ _ _ H), Nat2N.id. apply slots_eq; apply H.
  - intros p x Hin. apply elem_of_list_lookup in Hin as [i Hi].
    apply lookup_take_Some in Hi as [Hi _]. by apply (tl_at _ _ _ H) in Hi as [_ ?].
Qed.

Lemma rep_tailed a l : arena_rep a l -> tailed a l (length l).
Proof.
  intros H. pose proof (arena_rep_len _ _ H) as Hl. split; [apply H|done|done| |].
  - rewrite <- Hl. apply (ai_len _ (rp_inv _ _ H)).
  - intros i p x Hi. by eapply arena_rep_lookup.
Qed.

Lemma set_alen_inv a n : arena_inv a -> n <= a_cap a -> arena_inv (set_alen n a).
Proof. intros [H1 H2 H3 H4 H5 H6 H7] Hn. by split. Qed.

Lemma set_alen_same a : set_alen (a_len a) a = a.
Proof. by destruct a. Qed.

Lemma tailed_set_len a w n m : tailed a w n -> (m <= length w)%nat -> tailed (set_alen (N.of_nat m) a) w m.
Proof.
  intros [H1 H2 H3 H4 H5] Hm. split; [|done|done|done|done]. apply set_alen_inv; [done|]. lia.
Qed.

(** All slots that hold a value, seen as elements. *)
Lemma tailed_all a w n : tailed a w n -> arena_rep (set_alen (N.of_nat (length w)) a) w.
Proof.
  intros H. rewrite <- (take_ge w (length w)) at 2 by done. apply tailed_rep. by eapply tailed_set_len.
Qed.

Lemma all_tailed a w n : arena_rep (set_alen (N.of_nat (length w)) a) w -> a_len a = N.of_nat n -> (n <= length w)%nat ->
  tailed a w n.
Proof.
  intros H Ha Hn. apply rep_tailed in H. apply (tailed_set_len _ _ _ n) in H; [|done].
  assert (set_alen (N.of_nat n) (set_alen (N.of_nat (length w)) a) = a) as Heq.
  { rewrite <- Ha. by destruct a. }
  by rewrite Heq in H.
Qed.

Lemma tailed_nodup a w n : tailed a w n -> NoDup w.*1.
Proof. intros H. eapply arena_rep_nodup. by eapply tailed_all. Qed.

Lemma tailed_ext a a' w n : tailed a w n -> arena_ext a a' -> tailed a' w n.
Proof.
  intros H Hx. pose proof (arena_ext_cap _ _ (tl_inv _ _ _ H) Hx) as Hc.
  split; [apply Hx|by rewrite (ax_len _ _ Hx), (tl_len _ _ _ H)|apply H|pose proof (tl_cap _ _ _ H); lia|].
  intros i p x Hi. pose proof (lookup_lt_Some _ _ _ Hi) as Hlt. destruct (tl_at _ _ _ H i p x Hi) as [Hp Hcell].
  split; [|by rewrite (ax_cells _ _ Hx)]. rewrite Hp. destruct (ax_chunks _ _ Hx) as [l ->].
  unfold slotp. rewrite lookup_app_l; [done|].
  pose proof (ci_nchunks a (N.of_nat i) (tl_inv _ _ _ H)). pose proof (tl_cap _ _ _ H). unfold nchunks in *. lia.
Qed.

Lemma tailed_put a w n i p x y : tailed a w n -> w !! i = Some (p, x) -> tailed (put_cell p y a) (<[i := (p, y)]> w) n.
Proof.
  intros H Hi. pose proof (tailed_nodup _ _ _ H) as Hnd. destruct (tl_at _ _ _ H i p x Hi) as [Hp Hc].
  pose proof (acell_in_block _ _ _ Hc) as Hb. destruct (put_cell_fields p y a) as (_ & Hf2 & Hf3 & Hf4 & _).
  split; [apply put_cell_inv, H|by rewrite Hf3; apply H|rewrite insert_length; apply H|rewrite insert_length, Hf4; apply H|].
  intros j q z Hj. rewrite Hf2. rewrite acell_put by done.
  destruct (decide (j = i)) as [->|Hne].
  - rewrite list_lookup_insert in Hj by by eapply lookup_lt_Some. injection Hj as <- <-. by rewrite decide_True.
  - rewrite list_lookup_insert_ne in Hj by done. rewrite decide_False; [by apply (tl_at _ _ _ H)|].
    intros ->. apply Hne. eapply (NoDup_lookup w.*1); [done| |]; rewrite list_lookup_fmap; [by rewrite Hj|by rewrite Hi].
Qed.

(** ** Iteration does not look at the length *)

Lemma end_ptr_alen e a k d r : end_ptr e (set_alen k a) d r = end_ptr e a d r.
Proof. by destruct d. Qed.

Lemma arena_set_alen p x a k : arena_set p x (set_alen k a) = ((arena_set p x a).1, set_alen k (arena_set p x a).2).
Proof.
  unfold arena_set. change (arena_get (set_alen k a) p) with (arena_get a p).
  destruct (arena_get a p); try done. unfold arena_poke. change (a_heap (set_alen k a)) with (a_heap a).
  destruct (a_heap a !! p.1) as [b|]; [|done]. by destruct (p.2 <? b_size b).
Qed.

Lemma iter_mut_alen e k : forall ds r a,
  arena_iter_mut_calls e ds r (set_alen k a) =
  ((arena_iter_mut_calls e ds r a).1, set_alen k (arena_iter_mut_calls e ds r a).2).
Proof.
  induction ds as [|[d w] ds IH]; intros r a; [done|]. cbn [arena_iter_mut_calls].
  unfold sbind, sget, slift. rewrite end_ptr_alen. destruct (end_ptr e a d r) as [x r'].
  destruct x as [x|p| | |]; try done. destruct x as [[p x]|].
  - destruct w as [w|].
    + rewrite arena_set_alen. destruct (arena_set p w a) as [y a']. cbn [fst snd].
      destruct y as [[]|q| | |]; try done. rewrite IH. destruct (arena_iter_mut_calls e ds r' a') as [z a'']. by destruct z.
    + unfold sret. rewrite IH. destruct (arena_iter_mut_calls e ds r' a) as [z a'']. by destruct z.
  - unfold sret. rewrite IH. destruct (arena_iter_mut_calls e ds r' a) as [z a'']. by destruct w, z.
Qed.

Lemma iter_mut_len e ds r a : a_len (arena_iter_mut_calls e ds r a).2 = a_len a.
Proof. pose proof (iter_mut_alen e (a_len a) ds r a) as H. rewrite set_alen_same in H. by rewrite H. Qed.

Lemma store_yielded_length w ys ws : length (store_yielded w ys ws) = length w.
Proof.
  assert (Hs : forall w p x, length (store w p x) = length w).
  { intros w0 p x. rewrite <- (fmap_length fst (store w0 p x)), store_fst. apply fmap_length. }
  revert w ws. induction ys as [|[k [[p x]|]] ys IH]; intros w [|[y|] ws]; cbn [store_yielded]; try done. by rewrite IH, Hs.
Qed.

Lemma iter_mut_tailed e a w n ds : tailed a w n -> exists a',
  arena_iter_mut_calls e ds (iter_new a) a = (Ret (from_ends (take n w) ds.*1), a') /\
  tailed a' (store_yielded w (from_ends (take n w) ds.*1) ds.*2) n /\ a_drops a' = a_drops a.
Proof.
  intros H. pose proof (tailed_all _ _ _ H) as Hrep. pose proof (tl_n _ _ _ H) as Hn.
  assert (Hr : good_range w (iter_new a)).
  { unfold iter_new, arena_len. rewrite (tl_len _ _ _ H). split; simpl; lia. }
  assert (Hl : left_of w (iter_new a) = take n w).
  { unfold left_of, ProofArenaRun.between, iter_new, arena_len. rewrite (tl_len _ _ _ H). cbn [r_start r_end]. rewrite Nat2N.id, drop_0.
    f_equal. lia. }
  destruct (iter_mut_calls_spec e ds (iter_new a) _ w Hrep Hr) as (b & Hrun & Hrep' & Hd & _).
  rewrite Hl in *. rewrite iter_mut_alen in Hrun. pose proof (iter_mut_len e ds (iter_new a) a) as Hlen.
  destruct (arena_iter_mut_calls e ds (iter_new a) a) as [y a']. cbn [fst snd] in *.
  injection Hrun as -> <-. exists a'. split_and!; [done| |done]. apply all_tailed; [by rewrite store_yielded_length| |].
  - rewrite Hlen. apply H.
  - by rewrite store_yielded_length.
Qed.

(** ** Allocating *)

Lemma alloc_over e a w n x p y : tailed a w n -> w !! n = Some (p, y) ->
  exists a', arena_alloc e x a = (Ret p, a') /\ tailed a' (<[n := (p, x)]> w) (S n) /\ a_drops a' = a_drops a.
Proof.
  intros H Hn. pose proof (lookup_lt_Some _ _ _ Hn) as Hlt. pose proof (tl_cap _ _ _ H) as Hcap.
  pose proof (tl_len _ _ _ H) as Hlen. destruct (tl_at _ _ _ H n p y Hn) as [Hp _].
  pose proof (arena_alloc_spec e x a (tl_inv _ _ _ H)) as Hs. unfold wp in Hs.
  assert (Hne : a_len a < a_cap a) by lia.
  destruct (arena_alloc e x a) as [[q|pa| | |] a']; try done.
  - destruct Hs as (a1 & Ha1 & _ & _ & Hq & ->). destruct Ha1 as [[-> _]|(_ & ? & _)]; [|lia].
    rewrite Hlen, <- Hp in Hq. subst q.
    exists (set_alen (a_len a + 1) (put_cell p x a)). split; [done|]. split.
    + replace (a_len a + 1) with (N.of_nat (S n)) by lia. eapply tailed_set_len; [by eapply tailed_put|]. rewrite insert_length. lia.
    + by destruct (put_cell_fields p x a) as (_ & _ & _ & _ & ?).
  - destruct Hs as (_ & _ & ?). lia.
  - destruct Hs as (_ & _ & ?). lia.
Qed.

(** ** One call *)

Lemma len_exec_spec e c a s : tailed a s.1 s.2 -> len_legal s c ->
  match len_exec e c a with
  | (r, a') => len_answers s c r /\
      (process_on r -> tailed a' (len_after s c r).1 (len_after s c r).2 /\
         a_drops a' = a_drops a ++ match c, r with LCall (AClear _), Ret _ => if e_nd e then (live_elements s).*2 else [] | _, _ => [] end)
  end.
Proof.
  destruct s as [w n]. cbn [fst snd]. intros H Hleg. pose proof (tailed_rep _ _ _ H) as Hrep. unfold live_elements. cbn [fst snd].
  destruct c as [c|k].
  2:{ cbn [len_exec len_legal fst snd] in *. unfold sbind, arena_set_len, smod, sret. split; [done|]. intros _.
      split; [|by rewrite app_nil_r]. cbn [len_after fst snd]. rewrite <- (N2Nat.id k) at 1. eapply tailed_set_len; [done|]. lia. }
  (* calls that change nothing but what [arena_exec_spec] says *)
  pose proof (arena_exec_spec e c a (take n w) Hrep) as Hold.
  destruct c as [x|p|p x|m| |pn| | | |ds|ds]; cbn [len_exec len_legal fst snd] in *.
  - cbn [len_answers fst snd]. destruct (w !! n) as [[p y]|] eqn:Hn.
    + destruct (alloc_over e a w n x p y H Hn) as (a' & Hrun & Ht & Hd). cbn [arena_exec]. unfold sbind. rewrite Hrun.
      split; [done|]. intros _. cbn [len_after fst snd]. split; [|by rewrite Hd, app_nil_r].
      rewrite insert_take_drop in Ht by by eapply lookup_lt_Some. done.
    + apply lookup_ge_None in Hn. assert (n = length w) as -> by (pose proof (tl_n _ _ _ H); lia).
      rewrite take_ge in * by done. specialize (Hold I). destruct (arena_exec e (AAlloc x) a) as [r a'].
      destruct Hold as [Hans Hon]. split; [done|]. intros Hp. destruct (Hon Hp) as [Hr Hd].
      apply rep_tailed in Hr. split.
      * destruct r as [[| | | | |]| | | |]; try done; cbn [len_after arena_after fst snd] in *.
        rewrite (take_ge w (length w)), drop_ge by lia. rewrite app_length, Nat.add_1_r in Hr. done.
      * done.
  - apply elem_of_list_fmap in Hleg as ([q x] & -> & Hin). apply elem_of_list_lookup in Hin as Hl. destruct Hl as [i Hi].
    destruct (tl_at _ _ _ H i q x Hi) as [_ Hc]. apply arena_get_ret in Hc. cbn [arena_exec].
    unfold sbind, sget, slift, sret. cbn [fst]. rewrite Hc. split; [eexists; split; [done|exact Hin]|].
    intros _. split; [done|]. by rewrite app_nil_r.
  - apply elem_of_list_fmap in Hleg as ([q y] & -> & Hin). apply elem_of_list_lookup in Hin as [i Hi]. cbn [fst].
    destruct (tl_at _ _ _ H i q y Hi) as [_ Hc]. cbn [arena_exec]. unfold sbind. rewrite (arena_set_ret q x y a Hc).
    split; [done|]. intros _. cbn [len_after fst snd]. split.
    + rewrite (store_insert w i q y x (tailed_nodup _ _ _ H) Hi). by eapply tailed_put.
    + destruct (put_cell_fields q x a) as (_ & _ & _ & _ & ->). by rewrite app_nil_r.
  - clear Hold. pose proof (arena_rep_len _ _ Hrep) as Hlen. cbn [len_answers arena_answers arena_exec].
    unfold sbind at 1, arena_reserve, arena_len. unfold sbind at 1, sget. unfold sbind at 1, slift.
    assert (Hgrow : forall capacity, match (let (r, s') := grow_loop e GROW_FUEL capacity a in
        match r with Ret _ => sret (AUnit (T:=T)) s' | Panic p => (Panic p, s') | Abort => (Abort, s') | UB u => (UB u, s') | Diverge => (Diverge, s') end) with
      | (r, a') => reserve_answers (N.of_nat (length (take n w))) m AUnit r /\
        (process_on r -> tailed a' (len_after (w, n) (LCall (AReserve m)) r).1 (len_after (w, n) (LCall (AReserve m)) r).2 /\ a_drops a' = a_drops a ++ [])
      end).
    { intros capacity. pose proof (grow_loop_spec e GROW_FUEL capacity a (tl_inv _ _ _ H) (grow_fuel_enough a)) as Hg.
      unfold wp in Hg. destruct (grow_loop e GROW_FUEL capacity a) as [[[]|pa| | |] a']; try done.
      - destruct Hg as (Hx & _). split; [by left|]. intros _. split; [by eapply tailed_ext|]. rewrite app_nil_r. apply Hx.
      - destruct Hg as (Hf & Hx & _). split; [right; left; unfold no_room, alloc_fail in *; naive_solver|].
        intros _. split; [by eapply tailed_ext|]. rewrite app_nil_r. apply Hx.
      - split; [right; left; unfold no_room; naive_solver|]. intros []. }
    unfold uadd. destruct (N.ltb_spec (a_len a + m) USIZE) as [Hlt|Hge]; [apply Hgrow|].
    destruct (e_chk e); [|apply Hgrow]. split; [right; right; split; [done|]; unfold live_elements; cbn [fst snd]; rewrite <- Hlen; exact Hge|].
    intros _. split; [done|]. by rewrite app_nil_r.
  - specialize (Hold I). destruct (arena_exec e AShrink a) as [r a']. destruct Hold as [Hans Hon].
    split; [done|]. intros Hp. destruct (Hon Hp) as [Hr Hd]. split; [|by destruct r].
    cbn [arena_answers] in Hans. subst r. cbn [len_after arena_after live_elements fst snd] in *. apply rep_tailed in Hr.
    unfold live_elements. cbn [fst snd]. rewrite take_length_le in Hr by apply H. done.
  - specialize (Hold Hleg). destruct (arena_exec e (AClear pn) a) as [r a']. destruct Hold as [Hans Hon].
    split; [done|]. intros Hp. destruct (Hon Hp) as [Hr Hd]. split; [|done].
    cbn [arena_answers] in Hans. subst r. cbn [len_after arena_after fst snd] in *. by apply rep_tailed in Hr.
  - specialize (Hold I). cbn [arena_exec] in *. unfold sbind, sget, sret in *. destruct Hold as [Hans _].
    split; [done|]. intros _. split; [done|]. by rewrite app_nil_r.
  - specialize (Hold I). cbn [arena_exec] in *. unfold sbind, sget, sret in *. destruct Hold as [Hans _].
    split; [done|]. intros _. split; [done|]. by rewrite app_nil_r.
  - cbn [arena_exec]. unfold sbind, sget, sret, arena_capacity. split; [eexists; split; [done|]; apply H|].
    intros _. split; [done|]. by rewrite app_nil_r.
  - specialize (Hold I). cbn [arena_exec] in *. unfold sbind, sget, sret, slift in *.
    destruct (arena_iter_calls e a ds (iter_new a)) as [ys|pa| | |]; try by destruct Hold.
    destruct Hold as [Hans _]. split; [done|]. intros _. split; [done|]. by rewrite app_nil_r.
  - clear Hold. destruct (iter_mut_tailed e a w n ds H) as (a' & Hrun & Ht & Hd). cbn [arena_exec].
    unfold sbind, sget. rewrite Hrun. split; [done|]. intros _. split; [done|]. by rewrite Hd, app_nil_r.
Qed.

Lemma len_run_spec e : forall cs a s rs a', tailed a s.1 s.2 -> len_run e cs a = (rs, a') ->
  len_contract s cs rs ->
  len_results s cs rs /\
  (Forall process_on rs -> tailed a' (len_filled s cs rs).1 (len_filled s cs rs).2 /\
     a_drops a' = a_drops a ++ len_dropped (e_nd e) s cs rs).
Proof.
  induction cs as [|c cs IH]; intros a s rs a' Hrep Hrun Hct; cbn [len_run] in Hrun.
  { injection Hrun as <- <-. split; [done|]. intros _. split; [done|]. by rewrite app_nil_r. }
  assert (Hleg : len_legal s c) by (destruct rs; [exact Hct|apply Hct]).
  pose proof (len_exec_spec e c a s Hrep Hleg) as H.
  destruct (len_exec e c a) as [r a1]. destruct H as [Hans Hon].
  assert (Hgo : process_on r -> forall rs1, len_run e cs a1 = (rs1, a') -> len_contract s (c :: cs) (r :: rs1) ->
    len_results s (c :: cs) (r :: rs1) /\
    (Forall process_on (r :: rs1) -> tailed a' (len_filled s (c :: cs) (r :: rs1)).1 (len_filled s (c :: cs) (r :: rs1)).2 /\
       a_drops a' = a_drops a ++ len_dropped (e_nd e) s (c :: cs) (r :: rs1))).
  { intros Hp rs1 Hrun1 [_ Hct1]. destruct (Hon Hp) as [Hrep1 Hd1].
    destruct (IH _ _ _ _ Hrep1 Hrun1 Hct1) as [Hres Hfin]. split.
    - split; [done|]. by left.
    - intros [_ Hall]%Forall_cons. destruct (Hfin Hall) as [Hr Hd]. split; [done|].
      cbn [len_dropped]. rewrite app_assoc, <- Hd1. done. }
  destruct r as [x|p| |u|].
  - destruct (len_run e cs a1) as [rs1 a2] eqn:H1. injection Hrun as <- <-. by apply Hgo.
  - destruct (len_run e cs a1) as [rs1 a2] eqn:H1. injection Hrun as <- <-. by apply Hgo.
  - injection Hrun as <- <-. split; [split; [done|right]; split; [tauto|done]|]. by intros [[] _]%Forall_cons.
  - injection Hrun as <- <-. split; [split; [done|right]; split; [tauto|done]|]. by intros [[] _]%Forall_cons.
  - injection Hrun as <- <-. split; [split; [done|right]; split; [tauto|done]|]. by intros [[] _]%Forall_cons.
Qed.

(** ** Histories *)

Lemma tailed_begin e n a : arena_begin e n = (Ret tt, a) -> tailed a [] 0 /\ a_drops a = [].
Proof. intros H. apply arena_begin_spec in H as [H ?]. by apply rep_tailed in H. Qed.

Lemma len_history e n cs rs a : len_reached e n cs rs a -> len_contract ([], 0%nat) cs rs ->
  len_results ([], 0%nat) cs rs.
Proof. intros (a0 & Hb & Hrun) Hct. apply tailed_begin in Hb as [Hrep _]. by eapply len_run_spec. Qed.

Lemma len_final e n cs rs a : len_reached e n cs rs a -> len_contract ([], 0%nat) cs rs -> Forall process_on rs ->
  tailed a (len_filled ([], 0%nat) cs rs).1 (len_filled ([], 0%nat) cs rs).2 /\ a_drops a = len_dropped (e_nd e) ([], 0%nat) cs rs.
Proof.
  intros (a0 & Hb & Hrun) Hct Hall. apply tailed_begin in Hb as [Hrep Hd].
  destruct (len_run_spec e cs a0 ([], 0%nat) rs a Hrep Hrun Hct) as [_ Hfin]. destruct (Hfin Hall) as [H1 H2].
  split; [done|]. by rewrite H2, Hd.
Qed.

Lemma len_reads e n cs rs a p x : len_reached e n cs rs a -> len_contract ([], 0%nat) cs rs -> Forall process_on rs ->
  (p, x) ∈ (len_filled ([], 0%nat) cs rs).1 -> arena_get a p = Ret x.
Proof.
  intros H1 H2 H3 Hin. destruct (len_final _ _ _ _ _ H1 H2 H3) as [Ht _]. apply arena_get_ret.
  apply elem_of_list_lookup in Hin as [i Hi]. by apply (tl_at _ _ _ Ht) in Hi as [_ ?].
Qed.

Lemma len_addresses e n cs rs a : len_reached e n cs rs a -> len_contract ([], 0%nat) cs rs -> Forall process_on rs ->
  NoDup (len_filled ([], 0%nat) cs rs).1.*1 /\ ((len_filled ([], 0%nat) cs rs).2 <= length (len_filled ([], 0%nat) cs rs).1)%nat.
Proof.
  intros H1 H2 H3. destruct (len_final _ _ _ _ _ H1 H2 H3) as [Ht _]. split; [by eapply tailed_nodup|apply Ht].
Qed.

Lemma len_history_drop e n cs rs a pn : len_reached e n cs rs a -> len_contract ([], 0%nat) cs rs -> Forall process_on rs ->
  Forall (fun x => pn x = false) (live_elements (len_filled ([], 0%nat) cs rs)).*2 ->
  exists a', arena_drop e (e_nd e) pn a = (Ret tt, a') /\ a_heap a' = ∅ /\
    a_drops a' = len_dropped (e_nd e) ([], 0%nat) cs rs ++ (if e_nd e then (live_elements (len_filled ([], 0%nat) cs rs)).*2 else []).
Proof.
  intros H1 H2 H3 Hpn. destruct (len_final _ _ _ _ _ H1 H2 H3) as [Ht Hd0]. apply tailed_rep in Ht.
  destruct (arena_drop_rep e (e_nd e) pn a _ Ht Hpn) as (a' & Hc & Hh & Hd). exists a'. rewrite <- Hd0. done.
Qed.

(** ** The contract is needed: without [set_len], no slot past the end holds a value *)

Definition nothing_past a : Prop := forall p, is_Some (acell a p) -> p ∈ aslots a.

Lemma nothing_past_ext a a' : arena_inv a -> nothing_past a -> arena_ext a a' -> nothing_past a'.
Proof. intros Hi H Hx p Hp. rewrite (ax_cells _ _ Hx) in Hp. rewrite (arena_ext_aslots a a') by done. by apply H. Qed.

Lemma nothing_past_put a l p (w : T) : arena_rep a l -> p ∈ l.*1 -> nothing_past a -> nothing_past (put_cell p w a).
Proof.
  intros Hrep Hp H q Hq. assert (is_Some (acell a p)) as [x Hx].
  { apply (arena_rep_full _ _ Hrep). by rewrite <- (rp_slots _ _ Hrep). }
  destruct (put_cell_fields p w a) as (_ & Hf2 & Hf3 & _).
  unfold aslots. rewrite Hf2, Hf3. fold (aslots a). rewrite acell_put in Hq by by eapply acell_in_block.
  case_decide as Heq; [|by apply H]. subst q. by rewrite <- (rp_slots _ _ Hrep).
Qed.

Lemma nothing_past_iter_mut e : forall ds r a l, arena_rep a l -> good_range l r -> nothing_past a ->
  nothing_past (arena_iter_mut_calls e ds r a).2.
Proof.
  induction ds as [|[d w] ds IH]; intros r a l Hrep Hr Hnp; cbn [arena_iter_mut_calls]; [done|].
  destruct (end_ptr_spec e a l d r Hrep Hr) as (y & r' & Hp & Hr' & _ & _ & _ & Hw).
  unfold sbind at 1, sget. rewrite Hp. unfold sbind at 1, slift. unfold sbind at 1.
  assert (Hnext : forall a1 l1, arena_rep a1 l1 -> good_range l1 r' -> nothing_past a1 ->
    nothing_past (sbind (arena_iter_mut_calls e ds r') (fun l => sret ((iter_size r, y) :: l)) a1).2).
  { intros a1 l1 H1 H2 H3. pose proof (IH r' a1 l1 H1 H2 H3) as H4. unfold sbind.
    destruct (arena_iter_mut_calls e ds r' a1) as [[]]; done. }
  destruct y as [[p x]|].
  - destruct w as [w|]; [|by eapply Hnext].
    destruct (Hw p x w eq_refl) as (i & Hi & Hleft).
    assert (Hin : p ∈ l.*1) by (apply elem_of_list_fmap; exists (p, x); split; [done|by eapply elem_of_list_lookup_2]).
    rewrite (arena_set_rep a l p w Hrep Hin). eapply Hnext; [by apply arena_rep_put| |by eapply nothing_past_put].
    rewrite (store_insert l i p x w (arena_rep_nodup _ _ Hrep) Hi). destruct Hr'. split; [done|]. by rewrite insert_length.
  - by destruct w; eapply Hnext.
Qed.

Lemma nothing_past_exec e c a l : arena_rep a l -> arena_legal l c -> nothing_past a ->
  process_on (arena_exec e c a).1 -> nothing_past (arena_exec e c a).2.
Proof.
  intros Hrep Hleg Hnp. pose proof (rp_inv _ _ Hrep) as Hinv.
  destruct c as [x|p|p x|n| |pn| | | |ds|ds]; cbn [arena_exec arena_legal] in *; unfold sbind, sget, slift, sret; try done.
  - pose proof (arena_alloc_spec e x a Hinv) as H. unfold wp in H.
    destruct (arena_alloc e x a) as [[p|pa| | |] a']; try done; intros _.
    + destruct H as (a1 & Ha1 & Hinv1 & Hlt & Hp & ->). cbn [snd].
      assert (Hnp1 : nothing_past a1).
      { destruct Ha1 as [[-> _]|(-> & _ & Hn)]; [done|]. eapply nothing_past_ext; [exact Hinv|done|by apply pushed_chunk_ext]. }
      assert (Hb : in_block a1 p) by (rewrite Hp; by apply slot_in_block).
      destruct (put_cell_fields p x a1) as (_ & Hf2 & Hf3 & _).
      intros q Hq. change (acell (set_alen (a_len a1 + 1) (put_cell p x a1)) q) with (acell (put_cell p x a1) q) in Hq.
      unfold aslots. simpl. rewrite Hf2. replace (N.to_nat (a_len a1 + 1)) with (S (N.to_nat (a_len a1))) by lia.
      rewrite slots_S, N2Nat.id. apply elem_of_app. rewrite acell_put in Hq by done. case_decide as Heq.
      * right. subst q. rewrite Hp. by apply elem_of_list_singleton.
      * left. by apply Hnp1.
    + destruct H as (_ & Hs & _). eapply nothing_past_ext; [exact Hinv|done|by apply same_but_next_ext].
  - by destruct (arena_get a p).
  - rewrite (arena_set_rep a l p x Hrep Hleg). intros _. by eapply nothing_past_put.
  - unfold arena_reserve, arena_len, sbind, sget, slift.
    assert (Hgrow : forall capacity, nothing_past (grow_loop e GROW_FUEL capacity a).2 \/ ~ process_on (grow_loop e GROW_FUEL capacity a).1).
    { intros capacity. pose proof (grow_loop_spec e GROW_FUEL capacity a Hinv (grow_fuel_enough a)) as Hg.
      unfold wp in Hg. destruct (grow_loop e GROW_FUEL capacity a) as [[[]|pa| | |] a']; try (by right; intros []); left;
        (eapply nothing_past_ext; [exact Hinv|done|apply Hg]). }
    destruct (uadd (e_chk e) (a_len a) n) as [capacity| | | |]; try done.
    destruct (Hgrow capacity) as [H|H]; destruct (grow_loop e GROW_FUEL capacity a) as [[[]|pa| | |] a']; done.
  - pose proof (arena_shrink_spec e a Hinv) as H. unfold wp in H.
    destruct (arena_shrink_to_fit e a) as [[[]|pa| | |] a']; try done. intros _. destruct H as [Hs _]. cbn [snd].
    intros q Hq. rewrite (arena_shrunk_aslots a a') by done. rewrite (as_cells _ _ Hs) in Hq.
    case_decide; [by apply Hnp|by destruct Hq].
  - destruct (arena_clear_rep e (e_nd e) pn a l Hrep Hleg) as (a' & Hc & _). rewrite Hc. intros _. cbn [snd].
    intros q Hq. exfalso. revert Hc. unfold arena_clear. unfold sbind, sget, smod, slift, dassert.
    destruct (negb (e_nd e) || arena_is_empty a).
    { intros [= <-]. rewrite reset_len_acell in Hq. by destruct Hq. }
    destruct (clear_chunks e pn 0 (a_chunks a) 0 a) as [[d|p| | |] a1]; try done.
    destruct (e_chk e && negb (d =? a_len a1)); [done|]. intros [= <-]. rewrite reset_len_acell in Hq. by destruct Hq.
  - by destruct (arena_iter_calls e a ds (iter_new a)).
  - intros _. destruct (iter_new_range a l Hrep) as [Hr _]. pose proof (nothing_past_iter_mut e ds (iter_new a) a l Hrep Hr Hnp) as H.
    destruct (arena_iter_mut_calls e ds (iter_new a) a) as [[]]; done.
Qed.

Lemma nothing_past_run e : forall cs a l rs a', arena_rep a l -> arena_run e cs a = (rs, a') ->
  arena_contract l cs rs -> Forall process_on rs -> nothing_past a -> nothing_past a'.
Proof.
  induction cs as [|c cs IH]; intros a l rs a' Hrep Hrun Hct Hon Hnp; cbn [arena_run] in Hrun.
  { by injection Hrun as <- <-. }
  assert (Hleg : arena_legal l c) by (destruct rs; [exact Hct|apply Hct]).
  pose proof (arena_exec_spec e c a l Hrep Hleg) as H. pose proof (nothing_past_exec e c a l Hrep Hleg Hnp) as H1.
  destruct (arena_exec e c a) as [r a1]. destruct H as [_ Hstep]. cbn [fst snd] in H1.
  destruct r as [x|p| |u|].
  1-2: destruct (arena_run e cs a1) as [rs1 a2] eqn:Hr; injection Hrun as <- <-;
       apply Forall_cons in Hon as [Ho Hon]; destruct Hct as [_ Hct]; destruct (Hstep Ho) as [Hrep1 _];
       eapply IH; [exact Hrep1|exact Hr|exact Hct|exact Hon|by apply H1].
  all: injection Hrun as <- <-; apply Forall_cons in Hon as [[] _].
Qed.

Lemma nothing_past_begin e n a : arena_begin (T:=T) e n = (Ret tt, a) -> nothing_past a.
Proof.
  intros Hb p Hp. exfalso. destruct n as [n|]; cbn [arena_begin] in Hb.
  - unfold arena_with_capacity in Hb.
    pose proof (grow_loop_spec (T:=T) e GROW_FUEL n arena_new (arena_new_inv) (grow_fuel_enough _)) as Hg. unfold wp in Hg.
    destruct (grow_loop e GROW_FUEL n arena_new) as [[[]|q| | |] a1]; try done.
    + injection Hb as <-. destruct Hg as (Hx & _). rewrite (ax_cells _ _ Hx) in Hp. by destruct Hp.
    + by destruct (arena_drop e false (λ _, false) a1) as [[[]| | | |] ?].
  - injection Hb as <-. by destruct Hp.
Qed.

(** Reading the first slot past the contents. *)
Lemma iter_past e a l k : arena_rep a l -> nothing_past a -> N.of_nat (length l) < k <= a_cap a ->
  arena_iter_calls e (set_alen k a) (repeat AtFront (S (length l))) (iter_new (set_alen k a)) = UB UUninit.
Proof.
  intros Hrep Hnp Hk. pose proof (rp_inv _ _ Hrep) as Hinv. unfold iter_new, arena_len. cbn [set_alen a_len].
  enough (H : forall m i, (i + m = length l)%nat ->
    arena_iter_calls e (set_alen k a) (repeat AtFront (S m)) (mkRange (N.of_nat i) k) = UB UUninit).
  { apply (H (length l) 0%nat). lia. }
  induction m as [|m IH]; intros i Hi.
  - cbn [repeat arena_iter_calls]. rewrite end_ptr_alen. cbn [end_ptr]. unfold next_ptr. cbn [r_start r_end].
    rewrite (proj2 (N.ltb_lt _ _)) by lia. rewrite (ptr_at_ret e a _ Hinv) by lia. cbn [rbind].
    assert (Hnone : acell a (slotp (a_chunks a) (N.of_nat i)) = None).
    { apply eq_None_not_Some. intros Hs. apply Hnp in Hs. unfold aslots in Hs. apply elem_of_slots in Hs as (j & Hj & Heq).
      rewrite (arena_rep_len _ _ Hrep) in Hj. apply (slotp_inj a) in Heq; [lia|done|lia|lia]. }
    destruct (slot_in_block a (N.of_nat i) Hinv ltac:(lia)) as (b & Hb & Hlt).
    unfold acell in Hnone. unfold arena_get. rewrite Hb in *. rewrite (proj2 (N.ltb_lt _ _) Hlt) in *. by rewrite Hnone.
  - assert (Hl : (i < length l)%nat) by lia. apply lookup_lt_is_Some in Hl as [[p x] Hl].
    destruct (arena_rep_lookup _ _ _ _ _ Hrep Hl) as [Hp Hc]. apply arena_get_ret in Hc.
    change (repeat AtFront (S (S m))) with (AtFront :: repeat AtFront (S m)).
    remember (repeat AtFront (S m)) as ds. cbn [arena_iter_calls]. rewrite end_ptr_alen. cbn [end_ptr]. unfold next_ptr. cbn [r_start r_end].
    rewrite (proj2 (N.ltb_lt _ _)) by lia. rewrite (ptr_at_ret e a _ Hinv) by lia. cbn [rbind]. rewrite <- Hp, Hc. cbn [rbind].
    replace (N.of_nat i + 1) with (N.of_nat (S i)) by lia. rewrite IH by lia. done.
Qed.

Lemma set_len_past e n cs rs a k : arena_reached e n cs rs a -> arena_contract [] cs rs -> Forall process_on rs ->
  N.of_nat (length (arena_contents [] cs rs)) < k <= arena_capacity a ->
  (len_run e [LSetLen k; LCall (AIter (repeat AtFront (S (length (arena_contents [] cs rs)))))] a).1 = [Ret AUnit; UB UUninit].
Proof.
  intros H1 H2 H3 Hk. destruct (arena_final _ _ _ _ _ H1 H2 H3) as [Hrep _]. destruct H1 as (a0 & Hb & Hrun).
  pose proof (arena_begin_spec _ _ _ Hb) as [Hrep0 _]. apply nothing_past_begin in Hb as Hnp0.
  pose proof (nothing_past_run e cs a0 [] rs a Hrep0 Hrun H2 H3 Hnp0) as Hnp.
  remember (repeat AtFront (S (length (arena_contents [] cs rs)))) as ds eqn:Hds.
  cbn [len_run len_exec]. unfold sbind, arena_set_len, smod, sret. cbn [arena_exec]. unfold sbind, sget, slift.
  subst ds. rewrite (iter_past e a _ k Hrep Hnp Hk). done.
Qed.

End set_len.
