(** * Room is reserved before anything is inserted (C61)

    [extend], [from_iter] and [clone] ask for memory only before the first entry
    is inserted, if the iterator yields no more than its hint says. *)

From Verif Require Export ProofSet ProofMem.
From Verif Require Import SpecSafety.
Local Open Scope N_scope.

Section reserve.
Context {K V : Type}.
Implicit Types (m : bstmap K V).

(** Inserting into a map with enough room. *)
Lemma insert_stays e o (k : K) (v : V) m t fl r m' : map_rep m t fl -> N.of_nat (tsize t) + 1 <= map_capacity m ->
  bstmap_insert e o k v m = (r, m') ->
  map_capacity m' = map_capacity m /\ requests m' = requests m /\
  ((exists x t' fl', r = Ret x /\ map_rep m' t' fl' /\ (tsize t' <= S (tsize t))%nat) \/ r = Panic PCmp).
Proof.
  intros Hrep Hc Hi. pose proof (insert_call e o k v m t fl Hrep) as Hwp. unfold wp in Hwp. rewrite Hi in Hwp.
  assert (Hbad : forall p, alloc_fail p -> N.of_nat (tsize t) = map_capacity m -> False) by (intros; lia).
  assert (Hun : unchanged m m' -> map_capacity m' = map_capacity m).
  { intros [_ [n Hn]]. unfold map_capacity, slab_capacity, arena_capacity. rewrite Hn. done. }
  destruct r as [x|p| |u|]; try done.
  - destruct Hwp as (q & t' & fl' & Ht & Hrep' & _ & Hro & _). pose proof (tins_size _ _ _ _ _ _ _ _ Ht) as Hsz.
    assert (Hsz' : (tsize t' <= S (tsize t))%nat) by (destruct x; simpl in *; lia).
    destruct Hro as [(Hh & Hcap & Hn) _]; [lia|]. split; [exact Hcap|]. split; [exact Hn|]. left. by exists x, t', fl'.
  - destruct Hwp as (_ & Hu & _ & Hwhy & _). destruct Hwhy as [[[= ->] Hp]|(Hf & _ & Hs & _)]; [|exfalso; eauto].
    split; [by apply Hun|]. split; [|by right].
    pose proof (bstmap_insert_spec e o k v m t fl Hrep) as Hwp. unfold wp in Hwp. rewrite Hi in Hwp.
    destruct Hwp as [(_ & -> & _)|(m0 & (_ & _ & _ & Hs & _) & _)]; [done|]. exfalso. lia.
  - destruct Hwp as (_ & _ & _ & Hwhy & _). destruct Hwhy as [[? _]|(Hf & _ & Hs & _)]; [done|exfalso; eauto].
Qed.

Lemma insert_all_stays e os panics : forall items j m t fl r m', map_rep m t fl ->
  N.of_nat (tsize t + length items) <= map_capacity m -> insert_all e os j items panics m = (r, m') ->
  map_capacity m' = map_capacity m /\ requests m' = requests m /\ (r = Ret tt \/ r = Panic PIter \/ r = Panic PCmp).
Proof.
  induction items as [|[k v] items IH]; intros j m t fl r m' Hrep Hc Hi; cbn [insert_all] in Hi.
  { destruct panics; injection Hi as <- <-; auto. }
  unfold sbind at 1 in Hi. destruct (bstmap_insert e (os j k) k v m) as [r1 m1] eqn:H1. simpl in Hc.
  destruct (insert_stays e (os j k) k v m t fl r1 m1 Hrep) as (A1 & A2 & A3); [lia|done|].
  destruct A3 as [(x & t1 & fl1 & -> & Hrep1 & Hsz)| ->]; [|injection Hi as <- <-; auto].
  unfold sbind, smod in Hi. set (m2 := log_drops _ m1) in Hi. assert (Hrep2 : map_rep m2 t1 fl1) by done.
  destruct (IH (S j) m2 t1 fl1 r m' Hrep2) as (B1 & B2 & B3); [|done|].
  - change (map_capacity m2) with (map_capacity m1). lia.
  - rewrite B1, B2. change (map_capacity m2) with (map_capacity m1). change (requests m2) with (requests m1). auto.
Qed.

(** The capacity never falls. *)
Lemma insert_all_grows e os panics items j m t fl r m' : map_rep m t fl -> insert_all e os j items panics m = (r, m') ->
  r <> Abort -> map_capacity m <= map_capacity m'.
Proof.
  intros Hrep Hi Hna. pose proof (insert_all_spec e os panics items j m t fl Hrep) as Hwp. unfold wp in Hwp. rewrite Hi in Hwp.
  destruct r; try done.
  - destruct Hwp as (_ & t' & fl' & _ & _ & Hg & _). apply Hg.
  - destruct Hwp as (n & t' & fl' & _ & _ & _ & Hg & _). apply Hg.
Qed.

(** ** extend *)

Lemma extend_split e os it m r m' : exec e (OExtend os it) m = (r, m') ->
  match exec e (OReserve (hint_len it)) m with
  | (Ret _, m1) => exists r1, insert_all e os 0 (ui_items it) (ui_panics it) m1 = (r1, m') /\ r = rmap (fun _ => OutUnit) r1
  | (r1, m1) => r = r1 /\ m' = m1
  end.
Proof.
  cbn [exec]. unfold map_extend, sbind. destruct (map_reserve e (hint_len it) m) as [[u|p| |u|] m1]; simpl.
  - destruct (insert_all _ _ _ _ _ m1) as [r1 m2]. intros Heq. exists r1. destruct r1; injection Heq as <- <-; done.
  - by intros [= <- <-].
  - by intros [= <- <-].
  - by intros [= <- <-].
  - by intros [= <- <-].
Qed.

Lemma no_wrap e n m t fl x m' : map_rep m t fl -> exec e (OReserve n) m = (Ret x, m') ->
  (e_chk e = true \/ slots m + n < USIZE) -> slots m + n < USIZE.
Proof.
  intros Hrep Hex [Hc|?]; [|done]. pose proof (reserve_exec e n m t fl _ _ Hrep Hex) as (_ & _ & _ & _ & Hge).
  destruct (N.lt_ge_cases (slots m + n) USIZE) as [?|Hu]; [done|]. apply Hge in Hu. congruence.
Qed.

Lemma extend_fails_first e os it m r m1 : exec e (OReserve (hint_len it)) m = (r, m1) -> (forall x, r <> Ret x) ->
  exec e (OExtend os it) m = (r, m1).
Proof.
  intros Hr Hn. destruct (exec e (OExtend os it) m) as [r' m'] eqn:Hx. pose proof (extend_split e os it m r' m' Hx) as H.
  rewrite Hr in H. destruct r; [by edestruct Hn|..]; by destruct H as [-> ->].
Qed.

Lemma extend_reserved e os it m r m' : reachable e m -> exec e (OExtend os it) m = (r, m') ->
  (e_chk e = true \/ slots m + hint_len it < USIZE) ->
  (exists x, r = Ret x) \/ r = Panic PIter \/ r = Panic PCmp -> slots m + hint_len it <= map_capacity m'.
Proof.
  intros Hr Hx Hno Hres. destruct (reachable_rep e m Hr) as (t & fl & Hrep). pose proof (extend_split e os it m r m' Hx) as H.
  destruct (exec e (OReserve (hint_len it)) m) as [r0 m1] eqn:H0.
  pose proof (reserve_exec e _ m t fl _ _ Hrep H0) as H1.
  destruct r0 as [x0|p| |u|]; try done.
  - destruct H as (r1 & Hi & ->). pose proof (no_wrap _ _ _ _ _ _ _ Hrep H0 Hno) as Hu.
    destruct H1 as (_ & Hrep1 & _ & Hlt & _). destruct (Hlt Hu) as [Hle _].
    etransitivity; [exact Hle|]. eapply insert_all_grows; [done|done|]. intros ->. naive_solver.
  - destruct H as [-> ->]. destruct H1 as (_ & _ & Hwhy).
    exfalso. destruct Hres as [[? ?]|[[= ->]|[= ->]]]; [done|..]; destruct Hwhy as [[Hf _]|(? & _)]; try done; by destruct Hf as [?|[?|?]].
  - destruct H as [-> ->]. naive_solver.
Qed.

Lemma extend_no_growth e os it m x m1 r m' : reachable e m -> exec e (OReserve (hint_len it)) m = (Ret x, m1) ->
  (e_chk e = true \/ slots m + hint_len it < USIZE) -> N.of_nat (length (ui_items it)) <= hint_len it ->
  exec e (OExtend os it) m = (r, m') ->
  map_capacity m' = map_capacity m1 /\ requests m' = requests m1 /\ (r = Ret OutUnit \/ r = Panic PIter \/ r = Panic PCmp).
Proof.
  intros Hr H0 Hno Hh Hx. destruct (reachable_rep e m Hr) as (t & fl & Hrep). pose proof (extend_split e os it m r m' Hx) as H.
  rewrite H0 in H. destruct H as (r1 & Hi & ->). pose proof (no_wrap _ _ _ _ _ _ _ Hrep H0 Hno) as Hu.
  pose proof (reserve_exec e _ m t fl _ _ Hrep H0) as (_ & Hrep1 & _ & Hlt & _). destruct (Hlt Hu) as [Hle _].
  pose proof (rep_slots _ _ _ Hrep).
  destruct (insert_all_stays e os (ui_panics it) (ui_items it) 0 m1 t fl r1 m' Hrep1) as (A1 & A2 & A3); [lia|done|].
  split; [done|]. split; [done|]. destruct A3 as [->|[->| ->]]; auto.
Qed.

(** ** from_iter *)

Lemma collect_fails_first e os it p m : begin (K:=K) (V:=V) e (SWithCapacity (hint_len it)) = (p, m) -> p <> Ret tt ->
  begin e (SFromIter os it) = (p, m).
Proof. simpl. unfold map_from_iter, build. intros -> Hn. by destruct p as [[]| | | |]. Qed.

Lemma collect_no_growth e os it m0 m : begin (K:=K) (V:=V) e (SWithCapacity (hint_len it)) = (Ret tt, m0) ->
  begin e (SFromIter os it) = (Ret tt, m) ->
  hint_len it <= map_capacity m /\
  (N.of_nat (length (ui_items it)) <= hint_len it -> map_capacity m = map_capacity m0 /\ requests m = requests m0).
Proof.
  intros H0 Hb. simpl in H0, Hb. unfold map_from_iter, build in Hb.
  pose proof (map_with_capacity_spec (K := K) (V := V) e (hint_len it)) as Hw. rewrite H0 in Hw, Hb.
  destruct Hw as (Hrep0 & Hle & _). destruct (insert_all e os 0 (ui_items it) (ui_panics it) m0) as [r1 m1] eqn:Hi.
  destruct r1 as [[]|p| | |]; try done.
  2:{ destruct (map_drop _ _ m1) as [[] ?]; done. }
  injection Hb as <-. split.
  - etransitivity; [exact Hle|]. by eapply insert_all_grows.
  - intros Hh. destruct (insert_all_stays e os (ui_panics it) (ui_items it) 0 m0 Leaf [] (Ret tt) m1 Hrep0) as (A1 & A2 & _); [|done|done].
    simpl. lia.
Qed.

(** ** clone *)

Lemma clone_list_stays e os ck cv : forall l j m t fl r m', map_rep m t fl ->
  N.of_nat (tsize t + length l) <= map_capacity m -> clone_list e os ck cv j l m = (r, m') ->
  map_capacity m' = map_capacity m /\ requests m' = requests m /\ (r = Ret tt \/ r = Panic PClone \/ r = Panic PCmp).
Proof.
  induction l as [|[k0 v0] l IH]; intros j m t fl r m' Hrep Hc Hi; cbn [clone_list] in Hi.
  { injection Hi as <- <-. auto. }
  destruct (ck j k0) as [k|]; [|injection Hi as <- <-; auto].
  destruct (cv j v0) as [v|]; [|injection Hi as <- <-; auto].
  unfold sbind at 1 in Hi. destruct (bstmap_insert e (os j k) k v m) as [r1 m1] eqn:H1. simpl in Hc.
  destruct (insert_stays e (os j k) k v m t fl r1 m1 Hrep) as (A1 & A2 & A3); [lia|done|].
  destruct A3 as [(x & t1 & fl1 & -> & Hrep1 & Hsz)| ->]; [|injection Hi as <- <-; auto].
  unfold sbind, smod in Hi. set (m2 := log_drops _ m1) in Hi. assert (Hrep2 : map_rep m2 t1 fl1) by done.
  destruct (IH (S j) m2 t1 fl1 r m' Hrep2) as (B1 & B2 & B3); [|done|].
  - change (map_capacity m2) with (map_capacity m1). lia.
  - rewrite B1, B2. change (map_capacity m2) with (map_capacity m1). change (requests m2) with (requests m1). auto.
Qed.

(** A clone asks for the room of [len] entries, and nothing more. *)
Lemma clone_room e os ck cv m : reachable e m ->
  match begin (K:=K) (V:=V) e (SWithCapacity (entry_count e m)) with
  | (Ret _, m0) =>
    match map_clone e os ck cv m with
    | (Ret _, m') => map_capacity m' = map_capacity m0 /\ requests m' = requests m0
    | (r, _) => r = Panic PClone \/ r = Panic PCmp
    end
  | (r, m0) => map_clone e os ck cv m = (r, m0)
  end.
Proof.
  intros Hr. destruct (reachable_rep e m Hr) as (t & fl & Hrep). rewrite (rep_entry_count _ _ _ _ Hrep). simpl.
  unfold map_clone. rewrite (map_len_ret e m t fl Hrep). unfold build.
  pose proof (map_with_capacity_spec (K := K) (V := V) e (N.of_nat (tsize t))) as Hw.
  destruct (map_with_capacity e (N.of_nat (tsize t))) as [[[]|p| |u|] m0]; try done.
  destruct Hw as (Hrep0 & Hle & _).
  set (body := let! r := slift (map_root m) in clone_loop e os ck cv m (map_fuel m) 0 (opt_list r)).
  assert (Heq : body m0 = clone_list e os ck cv 0 (ppre t).*2 m0).
  { unfold body, sbind, slift. rewrite (map_root_ret _ _ _ Hrep).
    replace (opt_list (node_of t)) with (node_stack [t]) by (by destruct t).
    rewrite (clone_loop_eq e os ck cv m t fl Hrep).
    - unfold pre_pend. cbn [mbind list_bind]. by rewrite app_nil_r.
    - apply Forall_cons. split; [|constructor]. apply sub_refl. by eapply rep_nodup.
    - unfold pre_pend. cbn [mbind list_bind]. rewrite app_nil_r, ppre_length. by eapply rep_fuel. }
  rewrite Heq. destruct (clone_list e os ck cv 0 (ppre t).*2 m0) as [r1 m1] eqn:Hc.
  destruct (clone_list_stays e os ck cv (ppre t).*2 0 m0 Leaf [] r1 m1 Hrep0) as (A1 & A2 & A3); [|done|].
  { rewrite fmap_length, ppre_length. simpl. lia. }
  destruct A3 as [->|A3]; [done|].
  pose proof (clone_list_spec e os ck cv (ppre t).*2 0 m0 Leaf [] Hrep0) as Hwp. unfold wp in Hwp. rewrite Hc in Hwp.
  assert (Hd : forall p, r1 = Panic p -> exists t' fl', map_rep m1 t' fl').
  { intros p ->. destruct Hwp as (t' & fl' & H1 & _). eauto. }
  destruct A3 as [->| ->]; destruct (Hd _ eq_refl) as (t' & fl' & Hrep');
    destruct (map_drop_spec e (fun _ => false) m1 t' fl' Hrep') as (m2 & drops & -> & _); auto.
Qed.

End reserve.

(** ** Sets *)

Section sets.
Context {T : Type}.

Lemma set_exec_map e c (m : bstset T) r m' : set_reachable e m -> set_exec e c m = (r, m') ->
  exists r0, exec e (to_map c) m = (r0, m') /\ match r0 with Ret _ => exists x, r = Ret x | Panic p => r = Panic p | Abort => r = Abort | _ => False end.
Proof.
  intros (t & fl & Hrep)%set_reachable_map%reachable_rep Hx. destruct (exec e (to_map c) m) as [r0 m0] eqn:H0.
  pose proof (exec_cases e (to_map c) m t fl Hrep) as Hd. rewrite H0 in Hd.
  rewrite (set_exec_eq e c m t fl r0 m0 Hrep H0) in Hx. injection Hx as <- <-. exists r0. split; [done|].
  destruct r0; simpl; eauto.
Qed.

Lemma set_extend_reserved e os it (m : bstset T) r m' : set_reachable e m -> set_exec e (SetExtend os it) m = (r, m') ->
  (e_chk e = true \/ slots m + hint_len it < USIZE) ->
  (exists x, r = Ret x) \/ r = Panic PIter \/ r = Panic PCmp -> slots m + hint_len it <= set_capacity m'.
Proof.
  intros Hr Hx Hno Hres. destruct (set_exec_map _ _ _ _ _ Hr Hx) as (r0 & H0 & Hrr).
  apply (extend_reserved e os (with_units it) m r0 m'); [by apply set_reachable_map|done|done|].
  destruct r0; try done; [by left; eauto| |]; naive_solver.
Qed.

Lemma set_extend_no_growth e os it (m : bstset T) x m1 r m' : set_reachable e m ->
  set_exec e (SetReserve (hint_len it)) m = (Ret x, m1) ->
  (e_chk e = true \/ slots m + hint_len it < USIZE) -> N.of_nat (length (ui_items it)) <= hint_len it ->
  set_exec e (SetExtend os it) m = (r, m') ->
  set_capacity m' = set_capacity m1 /\ requests m' = requests m1 /\ (r = Ret SetUnit \/ r = Panic PIter \/ r = Panic PCmp).
Proof.
  intros Hr H1 Hno Hh Hx. destruct (set_exec_map _ _ _ _ _ Hr Hx) as (r0 & H0 & Hrr).
  destruct (set_exec_map _ _ _ _ _ Hr H1) as (r2 & H2 & Hrr2). destruct r2 as [x2| | | |]; try done; try by destruct Hrr2.
  destruct (extend_no_growth e os (with_units it) m x2 m1 r0 m') as (A1 & A2 & A3); try done.
  - by apply set_reachable_map.
  - simpl. by rewrite fmap_length.
  - split; [done|]. split; [done|]. destruct (reachable_rep e m (set_reachable_map _ _ Hr)) as (t & fl & Hrep).
    rewrite (set_exec_eq e _ m t fl _ _ Hrep H0) in Hx. injection Hx as <-. destruct A3 as [->|[->| ->]]; auto.
Qed.

End sets.
