(** * How much memory a history needs (C99) *)

From Verif Require Export SpecBudget ProofAlloc ProofReserve ProofSetSafety ProofRoom.
From Verif Require Import SpecSafety.
Local Open Scope N_scope.

(** ** Chunks are asked for one by one *)

Section even.
Context {S T : Type} (ar : S -> arena T).
(** The chunks held grow by the number of requests made. *)
Definition even {A} (f : M S A) : Prop :=
  forall s, a_next (ar (f s).2) + nchunks (ar s) = a_next (ar s) + nchunks (ar (f s).2).
Lemma even_bind {A B} (f : M S A) (g : A -> M S B) : even f -> (forall x, even (g x)) -> even (sbind f g).
Proof.
  intros Hf Hg s. unfold sbind. specialize (Hf s). destruct (f s) as [r s1]. destruct r as [x| | | |]; simpl in *; try done.
  specialize (Hg x s1). lia.
Qed.
Lemma even_on_panic {A} h (f : M S A) : (forall s, ar (h s) = ar s) -> even f -> even (on_panic h f).
Proof. intros Hh Hf s. unfold on_panic. specialize (Hf s). destruct (f s) as [r s1]. destruct r; simpl in *; try done. by rewrite Hh. Qed.
End even.

Lemma even_zoom {S S' T A} (ar : S -> arena T) (ar' : S' -> arena T) pr inj (f : M S' A) :
  (forall s, ar s = ar' (pr s)) -> (forall t s, ar (inj t s) = ar' t) -> even ar' f -> even ar (zoom pr inj f).
Proof. intros H1 H2 Hf s. unfold zoom. rewrite (H1 s). specialize (Hf (pr s)). destruct (f (pr s)) as [r t]. simpl in *. by rewrite H2. Qed.

Section exact.
Context (e : env) (He : exact e).

Lemma push_chunk_even {T} : even (fun a : arena T => a) (push_chunk e).
Proof.
  intros a. destruct He as [H0 H1]. destruct (push_chunk e a) as [r a'] eqn:Heq. cbn [snd].
  unfold push_chunk, sbind at 1, sget, sbind at 1, slift in Heq.
  destruct (chunk_len _ _) as [cl|p| |u|]; try (by injection Heq as <- <-). unfold sbind at 1, vec_with_capacity in Heq.
  destruct (N.eqb_spec (e_size e) 0) as [?|_]; [done|]. destruct (_ <? _); [by injection Heq as <- <-|].
  destruct (e_alloc e (a_next a) cl) as [c|] eqn:Ha; [|by injection Heq as <- <-]. apply H1 in Ha as ->.
  unfold sbind at 1, smod in Heq. rewrite N.eqb_refl in Heq. simpl in Heq.
  unfold sbind, slift, uadd in Heq. simpl in Heq. unfold nchunks.
  repeat case_match; injection Heq as <- <-; simpl; rewrite app_length; simpl; lia.
Qed.
Lemma poke_even {T} p (x : T) : even (fun a => a) (arena_poke p x).
Proof. intros a. unfold arena_poke. repeat case_match; done. Qed.
Lemma set_even {T} p (x : T) : even (fun a => a) (arena_set p x).
Proof. intros a. unfold arena_set. case_match; try done. apply poke_even. Qed.
Ltac ev := repeat first [apply push_chunk_even|apply poke_even|apply even_bind; [|intros]|by intros ?|case_match; try by intros ?].
Lemma alloc_even {T} (x : T) : even (fun a => a) (arena_alloc e x).
Proof. unfold arena_alloc. ev. Qed.
Lemma slab_push_even {T} (x : T) : even sar (slab_push e x).
Proof. unfold slab_push. ev; apply (even_zoom _ (fun a => a)); try done; [apply set_even|apply alloc_even]. Qed.
Lemma grow_loop_even {T} fuel : forall c, even (fun a : arena T => a) (grow_loop e fuel c).
Proof. induction fuel as [|fuel IH]; intros c; cbn [grow_loop]; ev. apply IH. Qed.
Lemma arena_reserve_even {T} n : even (fun a : arena T => a) (arena_reserve e n).
Proof. unfold arena_reserve. ev; apply grow_loop_even. Qed.

Context {K V : Type}.
Implicit Types m : bstmap K V.

Lemma push_even (x : inner K V) : even mem (on_nodes (slab_push e x)).
Proof. apply (even_zoom _ sar); [done|done|apply slab_push_even]. Qed.
Lemma slab_update_even p f : even mem (on_nodes (K := K) (V := V) (slab_update p f)).
Proof. apply (even_zoom _ sar); [done|done|]. unfold slab_update. ev. apply (even_zoom _ (fun a => a)); [done|done|apply set_even]. Qed.
Lemma insert_loop_even o fuel : forall i (k : K) (v : V) cur, even mem (insert_loop e o fuel i k v cur).
Proof.
  induction fuel as [|fuel IH]; intros i k v cur; cbn [insert_loop]; ev;
    unfold nodemut_push_left, nodemut_push_right, nodemut_set_left, nodemut_set_right, nodemut_replace_value; ev;
    auto using push_even, slab_update_even.
Qed.
Lemma insert_even o (k : K) (v : V) : even mem (bstmap_insert e o k v).
Proof.
  unfold bstmap_insert. apply even_on_panic; [done|].
  apply even_bind; [by intros ?|]. intros m. apply even_bind; [by intros ?|].
  intros [n|]; [apply insert_loop_even|]. ev; auto using insert_loop_even, push_even, slab_update_even.
Qed.
Lemma reserve_even n : even mem (map_reserve (K := K) (V := V) e n).
Proof. apply (even_zoom _ sar); [done|done|]. apply (even_zoom _ (fun a => a)); [done|done|apply arena_reserve_even]. Qed.
Lemma insert_all_even os panics : forall (items : list (K * V)) j, even mem (insert_all e os j items panics).
Proof.
  induction items as [|[k v] items IH]; intros j; cbn [insert_all]; [by destruct panics|].
  apply even_bind; [apply insert_even|]. intros x. apply even_bind; [by intros ?|]. intros _. apply IH.
Qed.
End exact.

Lemma room_mono j k : j <= k -> chunks_room j <= chunks_room k.
Proof. rewrite <- !cfirst_room. apply cfirst_mono. Qed.
Lemma room_lt j k : chunks_room j < chunks_room k -> j < k.
Proof. intros H. destruct (N.le_gt_cases k j) as [Hle|?]; [|done]. apply room_mono in Hle. lia. Qed.
Lemma room_next j : chunks_room (j + 1) = 2 * chunks_room j + 8.
Proof. rewrite <- !cfirst_room. apply cfirst_double. Qed.
Lemma room_inj j k : chunks_room j = chunks_room k -> j = k.
Proof.
  intros H. destruct (N.lt_trichotomy j k) as [Hl|[?|Hl]]; [|done|].
  - assert (chunks_room (j + 1) <= chunks_room k) by (apply room_mono; lia). rewrite room_next in *. lia.
  - assert (chunks_room (k + 1) <= chunks_room j) by (apply room_mono; lia). rewrite room_next in *. lia.
Qed.

Lemma least_twice n c : at_most_least_room n c -> c <= 2 * n + 6 /\ (n = 0 -> c = 0).
Proof.
  intros H. split.
  2:{ intros ->. specialize (H 0). change (chunks_room 0) with 0 in H. lia. }
  destruct (N.eq_dec n 0) as [->|Hn].
  { specialize (H 0). change (chunks_room 0) with 0 in H. lia. }
  assert (Hex : exists j, chunks_room j < n <= chunks_room (j + 1)).
  { clear H c. induction n as [|n IH] using N.peano_ind; [done|].
    destruct (N.eq_dec n 0) as [->|Hn0]; [by exists 0|].
    destruct (IH Hn0) as (j & H1 & H2). destruct (N.le_gt_cases (N.succ n) (chunks_room (j + 1))) as [?|?]; [exists j; lia|].
    exists (j + 1). rewrite (room_next (j + 1)). lia. }
  destruct Hex as (j & H1 & H2). specialize (H (j + 1) H2). rewrite room_next in H. lia.
Qed.

Section budget.
Context {K V : Type}.
Implicit Types m : bstmap K V.

Lemma rep_room m t fl : map_rep m t fl -> map_capacity m = chunks_room (mnc m).
Proof. apply rep_cap. Qed.

Lemma insert_room_rep e (o : oracle K) (k : K) (v : V) m t fl r m' j : map_rep m t fl ->
  bstmap_insert e o k v m = (r, m') -> map_capacity m <= chunks_room j -> slots m' <= chunks_room j ->
  map_capacity m' <= chunks_room j.
Proof.
  intros Hrep Hi Hc Hs. destruct (insert_growth_rep e o k v m t fl r m' Hrep Hi) as [->|(-> & _ & Hf & _)]; [done|].
  rewrite (rep_room _ _ _ Hrep) in *. rewrite <- room_next. apply room_mono.
  assert (mnc m < j); [|lia]. apply room_lt. lia.
Qed.

Lemma insert_all_slots e os panics items i m t fl r m' : map_rep m t fl -> insert_all e os i items panics m = (r, m') ->
  slots m <= slots m'.
Proof.
  intros Hrep Hi. pose proof (insert_all_spec e os panics items i m t fl Hrep) as Hwp. unfold wp in Hwp. rewrite Hi in Hwp.
  assert (Hg : exists t', grew m t m' t').
  { destruct r as [x|p| |u|]; try done.
    - destruct Hwp as (_ & t' & fl' & _ & _ & Hg & _). eauto.
    - destruct Hwp as (n & t' & fl' & _ & _ & _ & Hg & _). eauto.
    - destruct Hwp as (n & t' & fl' & _ & _ & _ & Hg & _). eauto. }
  destruct Hg as [t' Hg]. pose proof (gr_slots _ _ _ _ Hg) as H. change (a_len (mem m')) with (slots m') in H.
  change (a_len (mem m)) with (slots m) in H. lia.
Qed.

Lemma insert_all_room_any e os panics : forall items i m t fl r m' j, map_rep m t fl ->
  insert_all e os i items panics m = (r, m') -> map_capacity m <= chunks_room j -> slots m' <= chunks_room j ->
  map_capacity m' <= chunks_room j.
Proof.
  induction items as [|[k v] items IH]; intros i m t fl r m' j Hrep Hi Hc Hs; cbn [insert_all] in Hi.
  { destruct panics; injection Hi as <- <-; done. }
  unfold sbind at 1 in Hi. destruct (bstmap_insert e (os i k) k v m) as [r1 m1] eqn:H1.
  pose proof (insert_call e (os i k) k v m t fl Hrep) as Hwp. unfold wp in Hwp. rewrite H1 in Hwp.
  destruct r1 as [x|p| |u|]; try done.
  2,3: injection Hi as <- <-; by eapply insert_room_rep.
  destruct Hwp as (q & t1 & fl1 & _ & Hrep1 & _). unfold sbind, smod in Hi. set (m2 := log_drops _ m1) in Hi.
  assert (Hrep2 : map_rep m2 t1 fl1) by done.
  eapply IH; [exact Hrep2|exact Hi| |done]. change (map_capacity m2) with (map_capacity m1).
  eapply (insert_room_rep e (os i k) k v m); [done|exact H1|done|]. change (slots m1) with (slots m2).
  pose proof (insert_all_slots _ _ _ _ _ _ _ _ _ _ Hrep2 Hi). lia.
Qed.

Lemma rep_bound m t fl : map_rep m t fl -> map_capacity m < 2 ^ 63.
Proof.
  intros Hrep. rewrite (rep_cap _ _ _ Hrep). assert (Hi : arena_inv (mem m)) by apply Hrep.
  pose proof (cfirst_mono (mnc m) 60 (ai_n _ Hi)) as H. rewrite cfirst_60 in H.
  change (2 ^ 63) with 9223372036854775808 in *. lia.
Qed.

Lemma reserve_room_any e n m t fl r m' j : map_rep m t fl -> exec e (OReserve n) m = (r, m') ->
  map_capacity m <= chunks_room j -> slots m + n <= chunks_room j -> map_capacity m' <= chunks_room j.
Proof.
  intros Hrep Hx Hc Hn. destruct (exec_rep _ _ _ _ _ _ _ Hrep Hx) as [_ (t' & fl' & Hrep')].
  destruct (N.lt_ge_cases (slots m + n) USIZE) as [Hu|Hu].
  2:{ pose proof (rep_bound _ _ _ Hrep') as Hb. change USIZE with (2 ^ 64) in Hu. change (2 ^ 64) with (2 * 2 ^ 63) in Hu. lia. }
  pose proof (reserve_exec e n m t fl _ _ Hrep Hx) as H. destruct r as [x|p| |u|]; try done.
  - destruct H as (_ & _ & _ & H & _). destruct (H Hu) as (_ & _ & H1). by apply H1.
  - destruct H as (_ & _ & [[_ H]|(_ & -> & _)]); [|done]. specialize (H Hu). lia.
  - destruct H as [_ H]. specialize (H Hu). lia.
Qed.

Lemma with_capacity_least e n m : map_with_capacity (K := K) (V := V) e n = (Ret tt, m) -> at_most_least_room n (map_capacity m).
Proof. intros H. destruct (with_capacity_room e n m H) as (_ & _ & (_ & _ & Hl) & _). exact Hl. Qed.

Lemma exec_room e c m r m' j : reachable e m -> exec e c m = (r, m') ->
  map_capacity m <= chunks_room j -> wants e c m m' <= chunks_room j -> map_capacity m' <= chunks_room j.
Proof.
  intros Hr Hx Hc Hw. destruct (reachable_rep e m Hr) as (t & fl & Hrep).
  pose proof (exec_cases e c m t fl Hrep) as H. rewrite Hx in H.
  assert (Hef : exists t', effects c m t m' t').
  { destruct r as [x|p| |u|]; try done; destruct H as (t' & fl' & _ & _ & Hef & _); eauto. }
  destruct Hef as [t' Hef]. pose proof (ef_room _ _ _ _ _ Hef) as Hroom.
  pose proof (exec_slots e c m t fl r m' Hrep Hx) as Hsl. pose proof (rep_slots _ _ _ Hrep) as Hs0.
  assert (Hsame : same_room (m_nodes m) (m_nodes m') -> map_capacity m' <= chunks_room j).
  { intros (_ & Ha & _). unfold map_capacity, slab_capacity, arena_capacity in *. by rewrite Ha. }
  destruct c; try (by apply Hsame); cbn [wants] in Hw; cbv beta iota in Hsl.
  - cbn [exec] in Hx. unfold sbind in Hx. destruct (bstmap_insert e o k v m) as [x m1] eqn:Hi.
    assert (m' = m1) as -> by (by destruct x; injection Hx). eapply insert_room_rep; [done|exact Hi|done|].
    lia.
  - by eapply reserve_room_any.
  - destruct (shrink_tight e m _ _ Hr Hx) as (_ & _ & H1 & _). lia.
  - pose proof (extend_split e os it m r m' Hx) as Hsp. change (hinted it) with (hint_len it) in Hw.
    destruct (exec e (OReserve (hint_len it)) m) as [r0 m1] eqn:H0.
    pose proof (reserve_room_any e _ m t fl _ _ j Hrep H0 Hc ltac:(lia)) as Hc1.
    destruct (exec_rep _ _ _ _ _ _ _ Hrep H0) as [Hd (t1 & fl1 & Hrep1)].
    destruct r0 as [x0|p| |u|]; try (by destruct Hsp as [_ ->]).
    destruct Hsp as (r1 & Hi & _). eapply insert_all_room_any; [exact Hrep1|exact Hi|done|]. lia.
  - cbn [exec] in Hx. unfold sbind in Hx. destruct (clone_and_replace e os ck cv m) as [x m1] eqn:Hi.
    assert (m' = m1) as -> by (by destruct x; injection Hx). unfold clone_and_replace in Hi.
    pose proof (clone_room e os ck cv m Hr) as Hcl.
    destruct (begin e (SWithCapacity (entry_count e m))) as [r0 m0] eqn:Hb.
    destruct (map_clone e os ck cv m) as [y m2] eqn:Hm.
    assert (Hm2 : forall z, y = Ret z -> map_capacity m2 <= chunks_room j).
    { intros z ->. destruct r0 as [[]|p| |u|]; try done. destruct Hcl as [-> _].
      apply (with_capacity_least e (entry_count e m) m0 Hb). rewrite (rep_entry_count _ _ _ _ Hrep). lia. }
    destruct y as [z|p| |u|]; try (by injection Hi as <- <-). specialize (Hm2 z eq_refl).
    destruct (map_drop_spec e (fun _ => false) m t fl Hrep ltac:(done)) as (m3 & drops & Hd & _). rewrite Hd in Hi. by injection Hi as <- <-.
Qed.

Lemma run_room e cs : forall m rs m' j, reachable e m -> run e cs m = (rs, m') ->
  map_capacity m <= chunks_room j -> most_wanted e cs m <= chunks_room j -> map_capacity m' <= chunks_room j.
Proof.
  induction cs as [|c cs IH]; intros m rs m' j Hr Hrun Hc Hw; cbn [run most_wanted] in *; [by injection Hrun as <- <-|].
  destruct (exec e c m) as [r m1] eqn:Hx. pose proof (exec_room e c m r m1 j Hr Hx Hc ltac:(lia)) as H1.
  destruct r as [x|p| |u|]; try (by injection Hrun as <- <-).
  - destruct (run e cs m1) as [rs1 m2] eqn:Hr1. injection Hrun as <- <-. eapply IH; [|done|done|lia]. by eapply reachable_step.
  - destruct (run e cs m1) as [rs1 m2] eqn:Hr1. injection Hrun as <- <-. eapply IH; [|done|done|lia]. by eapply reachable_step.
Qed.

Lemma start_room e (s : start K V) m : begin e s = (Ret tt, m) -> at_most_least_room (start_wants e s m) (map_capacity m).
Proof.
  intros Hb j Hw. destruct s as [|n|os it]; cbn [start_wants] in Hw.
  - injection Hb as <-. change (map_capacity map_new) with 0. lia.
  - by eapply with_capacity_least.
  - pose proof (begin_rep e (SFromIter os it)) as Hs. rewrite Hb in Hs. destruct Hs as (t & fl & Hrep & Hl & _).
    rewrite (rep_entry_count _ _ _ _ Hrep) in Hw. change (a_len (mem m)) with (slots m) in Hl. cbn [begin] in Hb.
    unfold map_from_iter, build in Hb. change (hinted it) with (hint_len it) in Hw.
    destruct (map_with_capacity e (hint_len it)) as [r0 m0] eqn:Hc. destruct r0 as [[]| | | |]; try done.
    pose proof (map_with_capacity_spec (K := K) (V := V) e (hint_len it)) as H0. rewrite Hc in H0. destruct H0 as (Hrep0 & _).
    destruct (insert_all e os 0 (ui_items it) (ui_panics it) m0) as [r1 m1] eqn:Hi.
    destruct r1 as [[]|p| | |]; try done.
    2:{ destruct (map_drop _ _ m1) as [[] ?]; done. }
    injection Hb as <-. eapply insert_all_room_any; [exact Hrep0|exact Hi| |lia].
    apply (with_capacity_least e _ m0 Hc). lia.
Qed.

Lemma begin_reachable e (s : start K V) m : begin e s = (Ret tt, m) -> reachable e m.
Proof. intros H. exists s, [], []. split; [|constructor]. exists m. by split. Qed.

Lemma history_room e (s : start K V) cs rs m m0 : begin e s = (Ret tt, m0) -> run e cs m0 = (rs, m) ->
  at_most_least_room (N.max (start_wants e s m0) (most_wanted e cs m0)) (map_capacity m).
Proof.
  intros Hb Hr j Hw. eapply run_room; [by eapply begin_reachable|done| |lia]. apply (start_room e s m0 Hb). lia.
Qed.

Lemma history_twice e (s : start K V) cs rs m m0 : begin e s = (Ret tt, m0) -> run e cs m0 = (rs, m) ->
  let w := N.max (start_wants e s m0) (most_wanted e cs m0) in
  map_capacity m <= 2 * w + 6 /\ (w = 0 -> map_capacity m = 0).
Proof. intros Hb Hr w. apply least_twice. by eapply history_room. Qed.

Lemma history_memory e (s : start K V) cs rs m m0 : begin e s = (Ret tt, m0) -> run e cs m0 = (rs, m) -> alive rs ->
  footprint (blocks m) <= 2 * N.max (start_wants e s m0) (most_wanted e cs m0) + 6.
Proof.
  intros Hb Hr Ha. rewrite (map_memory e); [by eapply history_twice|]. exists s, cs, rs. split; [|done]. by exists m0.
Qed.

Lemma plain_wants e cs : forall m, Forall plain_call cs -> most_wanted e cs m = most_held e cs m.
Proof.
  induction cs as [|c cs IH]; intros m Hp; [done|]. apply Forall_cons in Hp as [Hc Hp]. cbn [most_wanted most_held].
  destruct (exec e c m) as [r m1]. rewrite (IH m1 Hp). by destruct c.
Qed.

(** ** Requests *)

Definition level m : Prop := requests m = mnc m.

Lemma even_level {A} (f : M (bstmap K V) A) m r m' : even mem f -> f m = (r, m') -> level m -> level m'.
Proof.
  intros Hf Heq Hl. specialize (Hf m). rewrite Heq in Hf. cbn [snd] in Hf. unfold level in *.
  change (a_next (mem m) = nchunks (mem m)) in Hl. change (a_next (mem m') = nchunks (mem m')). lia.
Qed.

Lemma with_capacity_level e n m : exact e -> map_with_capacity (K := K) (V := V) e n = (Ret tt, m) -> level m.
Proof.
  intros He Hw. unfold map_with_capacity, slab_with_capacity, arena_with_capacity in Hw.
  pose proof (grow_loop_even (T := entry (inner K V)) e He GROW_FUEL n arena_new) as H.
  destruct (grow_loop e GROW_FUEL n arena_new) as [r a]. cbn [snd] in H.
  change (nchunks arena_new) with 0 in H. change (a_next arena_new) with 0 in H.
  destruct r as [x|p| |u|]; try done.
  - injection Hw as _ <-. change (a_next a = nchunks a). lia.
  - destruct (arena_drop _ _ _ a) as [[] ?]; done.
Qed.

Lemma exec_level e c m r m' : exact e -> reachable e m -> c <> OShrink -> exec e c m = (r, m') -> level m -> level m'.
Proof.
  intros He Hr Hns Hx Hl. destruct (reachable_rep e m Hr) as (t & fl & Hrep).
  pose proof (exec_cases e c m t fl Hrep) as H. rewrite Hx in H.
  assert (Hef : exists t', effects c m t m' t').
  { destruct r as [x|p| |u|]; try done; destruct H as (t' & fl' & _ & _ & Hef & _); eauto. }
  destruct Hef as [t' Hef]. pose proof (ef_room _ _ _ _ _ Hef) as Hroom.
  assert (Hsame : same_room (m_nodes m) (m_nodes m') -> level m').
  { intros (Ha & _ & Hb). change (a_next (mem m) = N.of_nat (length (a_chunks (mem m)))) in Hl.
    change (a_next (mem m') = N.of_nat (length (a_chunks (mem m')))). unfold mem in *. by rewrite Hb, Ha. }
  assert (Hout : forall A (f : M (bstmap K V) A) (g : A -> out K V), even mem f -> (let! x := f in sret (g x)) m = (r, m') -> level m').
  { intros A f g Hf Hfx. unfold sbind in Hfx. destruct (f m) as [x m1] eqn:Hfm.
    assert (m' = m1) as -> by (by destruct x; injection Hfx). by eapply even_level. }
  destruct c; try (by apply Hsame); try done; cbn [exec] in Hx.
  - eapply (Hout _ (bstmap_insert e o k v) (fun r => OutValue r)); [by apply insert_even|done].
  - eapply (Hout _ (map_reserve e n) (fun _ => OutUnit)); [by apply reserve_even|done].
  - eapply (Hout _ (map_extend e os it) (fun _ => OutUnit)); [|done]. unfold map_extend.
    apply even_bind; [by apply reserve_even|]. intros _. by apply insert_all_even.
  - unfold sbind in Hx. destruct (clone_and_replace e os ck cv m) as [x m1] eqn:Hi.
    assert (m' = m1) as -> by (by destruct x; injection Hx). unfold clone_and_replace in Hi.
    pose proof (clone_room e os ck cv m Hr) as Hcl.
    destruct (begin e (SWithCapacity (entry_count e m))) as [r0 m0] eqn:Hb.
    destruct (map_clone e os ck cv m) as [y m2] eqn:Hm.
    assert (Hy : forall z, y = Ret z -> m1 = m2).
    { intros z ->. destruct (map_drop_spec e (fun _ => false) m t fl Hrep ltac:(done)) as (m3 & drops & Hd & _).
      rewrite Hd in Hi. by injection Hi as <- <-. }
    destruct y as [z|p| |u|]; try (by injection Hi as <- <-). specialize (Hy z eq_refl) as ->.
    destruct r0 as [[]|p| |u|]; try done. destruct Hcl as [Hc1 Hc2].
    pose proof (with_capacity_level e _ m0 He Hb) as Hl0.
    destruct (reachable_rep e m0) as (t0 & fl0 & Hrep0); [by eapply (begin_reachable e (SWithCapacity _))|].
    assert (Hrep' : exists t' fl', map_rep m2 t' fl').
    { destruct x as [x|p| |u|]; injection Hx as <-; try done; destruct H as (t2 & fl2 & H & _); eauto. }
    destruct Hrep' as (t2 & fl2 & Hrep2). unfold level in *. rewrite Hc2, Hl0. apply room_inj.
    by rewrite <- (rep_room _ _ _ Hrep2), <- (rep_room _ _ _ Hrep0), Hc1.
Qed.

Lemma run_level e cs : forall m rs m', exact e -> reachable e m -> Forall (fun c => ~ gives_back c) cs ->
  run e cs m = (rs, m') -> level m -> level m'.
Proof.
  induction cs as [|c cs IH]; intros m rs m' He Hr Hns Hrun Hl; cbn [run] in Hrun; [by injection Hrun as <- <-|].
  apply Forall_cons in Hns as [Hc Hns]. destruct (exec e c m) as [r m1] eqn:Hx.
  pose proof (exec_level e c m r m1 He Hr Hc Hx Hl) as H1.
  destruct r as [x|p| |u|]; try (by injection Hrun as <- <-).
  - destruct (run e cs m1) as [rs1 m2] eqn:Hr1. injection Hrun as <- <-. eapply IH; [done| |done|done|done]. by eapply reachable_step.
  - destruct (run e cs m1) as [rs1 m2] eqn:Hr1. injection Hrun as <- <-. eapply IH; [done| |done|done|done]. by eapply reachable_step.
Qed.

Lemma start_level e (s : start K V) m : exact e -> begin e s = (Ret tt, m) -> level m.
Proof.
  intros He Hb. destruct s as [|n|os it].
  - by injection Hb as <-.
  - by eapply with_capacity_level.
  - cbn [begin] in Hb. unfold map_from_iter, build in Hb.
    destruct (map_with_capacity e (hint_len it)) as [r0 m0] eqn:Hc. destruct r0 as [[]| | | |]; try done.
    destruct (insert_all e os 0 (ui_items it) (ui_panics it) m0) as [r1 m1] eqn:Hi.
    destruct r1 as [[]|p| | |]; try done.
    2:{ destruct (map_drop _ _ m1) as [[] ?]; done. }
    injection Hb as <-. eapply even_level; [by apply insert_all_even|exact Hi|]. by eapply with_capacity_level.
Qed.

Lemma history_requests e (s : start K V) cs rs m m0 : exact e -> begin e s = (Ret tt, m0) -> run e cs m0 = (rs, m) ->
  Forall (fun c => ~ gives_back c) cs -> map_capacity m = chunks_room (requests m).
Proof.
  intros He Hb Hr Hns. pose proof (begin_reachable e s m0 Hb) as Hr0.
  pose proof (run_level e cs m0 rs m He Hr0 Hns Hr (start_level e s m0 He Hb)) as Hl.
  destruct (reachable_rep e m0 Hr0) as (t0 & fl0 & Hrep0).
  destruct (run_rep _ _ _ _ _ _ _ Hrep0 Hr) as [_ (t & fl & Hrep)]. by rewrite Hl, (rep_room _ _ _ Hrep).
Qed.

Lemma history_few e (s : start K V) cs rs m m0 : exact e -> begin e s = (Ret tt, m0) -> run e cs m0 = (rs, m) ->
  Forall (fun c => ~ gives_back c) cs ->
  4 * 2 ^ requests m <= N.max (start_wants e s m0) (most_wanted e cs m0) + 7.
Proof.
  intros He Hb Hr Hns. pose proof (history_requests e s cs rs m m0 He Hb Hr Hns) as H1.
  destruct (history_twice e s cs rs m m0 Hb Hr) as [H2 _]. rewrite H1 in H2. unfold chunks_room in H2.
  pose proof (N.pow_nonzero 2 (requests m)). set (p := 2 ^ requests m) in *. lia.
Qed.

Lemma plain_history e cs rs (m : bstmap K V) : run e cs map_new = (rs, m) -> Forall plain_call cs ->
  let n := most_held e cs map_new in
  map_capacity m <= 2 * n + 6 /\ (n = 0 -> map_capacity m = 0) /\
  (exact e -> Forall (fun c => ~ gives_back c) cs -> 4 * 2 ^ requests m <= n + 7).
Proof.
  intros Hr Hp n. assert (Hb : begin e (SNew : start K V) = (Ret tt, map_new)) by done.
  assert (Hn : N.max (start_wants e (SNew : start K V) map_new) (most_wanted e cs map_new) = n).
  { rewrite (plain_wants e cs _ Hp). cbn [start_wants]. unfold n. lia. }
  destruct (history_twice e SNew cs rs m map_new Hb Hr) as [H1 H2]. cbv zeta in H1, H2. rewrite Hn in H1, H2.
  split; [done|]. split; [done|]. intros He Hns. rewrite <- Hn. by eapply history_few.
Qed.
End budget.

(** ** Sets *)

Section sets.
Context {T : Type}.
Implicit Types m : bstset T.

Lemma set_wants_map e c m m' : set_wants e c m m' = wants e (to_map c) m m'.
Proof. by destruct c. Qed.

Lemma set_most_map e cs : forall m t fl, map_rep m t fl -> set_most_wanted e cs m = most_wanted e (to_map <$> cs) m.
Proof.
  induction cs as [|c cs IH]; intros m t fl Hrep; [done|]. rewrite fmap_cons. cbn [set_most_wanted most_wanted].
  destruct (exec e (to_map c) m) as [r m1] eqn:He. rewrite (set_exec_eq _ _ _ _ _ _ _ Hrep He).
  destruct (exec_rep _ _ _ _ _ _ _ Hrep He) as [Hd (t1 & fl1 & Hrep1)]. rewrite set_wants_map.
  destruct r as [y|p| |u|]; cbn [rmap]; try done; by rewrite (IH _ _ _ Hrep1).
Qed.

Lemma set_start_map e (s : set_start T) m : set_start_wants e s m = start_wants e (start_to_map s) m.
Proof. by destruct s. Qed.

Lemma set_history e (s : set_start T) cs xs m m0 : set_begin e s = (Ret tt, m0) -> set_run e cs m0 = (xs, m) ->
  exists rs, begin e (start_to_map s) = (Ret tt, m0) /\ run e (to_map <$> cs) m0 = (rs, m) /\
    N.max (start_wants e (start_to_map s) m0) (most_wanted e (to_map <$> cs) m0) =
    N.max (set_start_wants e s m0) (set_most_wanted e cs m0).
Proof.
  intros Hb Hr. destruct (set_reachable_rep _ _ (set_start_reachable _ _ _ Hb)) as [_ (t & fl & Hrep)].
  destruct (set_run_aligned _ _ _ _ _ _ _ Hrep Hr) as (rs & Hrs & _). rewrite set_begin_eq in Hb.
  exists rs. split; [done|]. split; [done|]. by rewrite (set_most_map _ _ _ _ _ Hrep), set_start_map.
Qed.

Lemma set_history_room e (s : set_start T) cs xs m m0 : set_begin e s = (Ret tt, m0) -> set_run e cs m0 = (xs, m) ->
  at_most_least_room (N.max (set_start_wants e s m0) (set_most_wanted e cs m0)) (set_capacity m).
Proof. intros Hb Hr. destruct (set_history _ _ _ _ _ _ Hb Hr) as (rs & H1 & H2 & <-). by eapply history_room. Qed.

Lemma set_history_few e (s : set_start T) cs xs m m0 : exact e -> set_begin e s = (Ret tt, m0) -> set_run e cs m0 = (xs, m) ->
  Forall (fun c => c <> SetShrink) cs ->
  set_capacity m = chunks_room (requests m) /\
  4 * 2 ^ requests m <= N.max (set_start_wants e s m0) (set_most_wanted e cs m0) + 7.
Proof.
  intros He Hb Hr Hns. destruct (set_history _ _ _ _ _ _ Hb Hr) as (rs & H1 & H2 & <-).
  assert (Hns' : Forall (fun c => ~ gives_back c) (to_map <$> cs)).
  { apply Forall_fmap. eapply Forall_impl; [exact Hns|]. intros c Hc Hg. by destruct c. }
  split; [by eapply history_requests|by eapply history_few].
Qed.
End sets.
