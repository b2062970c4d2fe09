(** * Arenas of zero-sized values *)

From Verif Require Export ModelArenaRun SpecArena SpecAlloc.
From Verif Require Import ProofArena ProofArenaRun ProofAlloc.
Local Open Scope N_scope.

Section zero.
Context {T : Type} (e : env).
Hypothesis Hz : e_size e = 0.
Implicit Types a : arena T.

(** Nothing was ever stored. *)
Definition unused a : Prop := a_heap a = ∅ /\ a_chunks a = [] /\ a_len a = 0 /\ a_cap a = 0.

Lemma push_chunk_zero a : unused a -> exists a', push_chunk e a = (Panic PAssert, a') /\ unused a'.
Proof.
  intros (Hh & Hc & Hl & Hp). destruct a as [h nx cs l c d]. simpl in *. subst.
  unfold push_chunk, sbind, sget, slift. cbn [a_chunks length N.of_nat].
  rewrite (chunk_len_ret e) by (vm_compute; discriminate).
  unfold vec_with_capacity. rewrite Hz. cbn [N.eqb]. eexists. split; [by vm_compute|done].
Qed.

Lemma alloc_zero x a : unused a -> exists a', arena_alloc e x a = (Panic PAssert, a') /\ unused a'.
Proof.
  intros Ha. destruct (push_chunk_zero a Ha) as (a' & H & Ha'). destruct Ha as (_ & _ & Hl & Hc).
  exists a'. split; [|done]. unfold arena_alloc, sbind, sget, slift, dassert. rewrite Hl, Hc.
  change (0 =? 0) with true. change (0 <=? 0) with true. destruct (e_chk e); cbn [negb andb]; by rewrite H.
Qed.

Lemma grow_zero fuel n a : unused a -> 0 < n -> exists a', grow_loop e (S fuel) n a = (Panic PAssert, a') /\ unused a'.
Proof.
  intros Ha Hn. destruct (push_chunk_zero a Ha) as (a' & H & Ha'). destruct Ha as (_ & _ & _ & Hc).
  exists a'. split; [|done]. cbn [grow_loop]. unfold sbind at 1, sget, arena_capacity. rewrite Hc.
  destruct (N.ltb_spec 0 n); [|lia]. unfold sbind. by rewrite H.
Qed.
Lemma grow_none fuel a : unused a -> grow_loop e (S fuel) 0 a = (Ret tt, a).
Proof. intros (_ & _ & _ & Hc). cbn [grow_loop]. unfold sbind at 1, sget, arena_capacity. by rewrite Hc. Qed.

Lemma get_zero p a : unused a -> arena_get a p = UB UDangling.
Proof. intros (Hh & _). unfold arena_get. by rewrite Hh, lookup_empty. Qed.

Lemma next_zero d a r : unused a -> r = iter_new a -> end_ptr e a d r = (Ret None, r).
Proof. intros (_ & _ & Hl & _) ->. unfold iter_new, arena_len. rewrite Hl. by destruct d. Qed.

Lemma iter_mut_zero ds a : unused a -> exists l, arena_iter_mut_calls e ds (iter_new a) a = (Ret l, a).
Proof.
  intros Ha. induction ds as [|[d w] ds [l IH]]; cbn [arena_iter_mut_calls]; [by eexists|].
  unfold sbind at 1, sget. rewrite (next_zero d a _ Ha eq_refl). unfold sbind at 1, slift. unfold sbind at 1, sret at 1.
  unfold sbind. rewrite IH. by eexists.
Qed.

Lemma reserve_zero n a : unused a -> 0 < n < 2 ^ 64 -> exists a', arena_reserve e n a = (Panic PAssert, a') /\ unused a'.
Proof.
  intros Ha Hn. pose proof Ha as (_ & _ & Hl & _). unfold arena_reserve, sbind at 1, sget, arena_len. rewrite Hl.
  rewrite uadd_ret by (change USIZE with (2 ^ 64); lia). unfold sbind, slift. apply grow_zero; [done|lia].
Qed.

Lemma exec_zero c a : unused a -> unused (arena_exec e c a).2.
Proof.
  intros Ha. pose proof Ha as (Hh & Hcs & Hl & Hc). destruct c as [x|p|p x|n| |pn| | | |ds|ds]; cbn [arena_exec].
  - destruct (alloc_zero x a Ha) as (a' & H & Ha'). unfold sbind. by rewrite H.
  - unfold sbind, sget, slift. by rewrite (get_zero p a Ha).
  - unfold sbind, arena_set. by rewrite (get_zero p a Ha).
  - unfold arena_reserve, sbind, sget, slift, arena_len. rewrite Hl.
    destruct (uadd (e_chk e) 0 n) as [k|?| |?|]; [|done..].
    destruct (N.eq_0_gt_0_cases k) as [->|Hk]; [change GROW_FUEL with 64%nat; by rewrite grow_none|].
    destruct (grow_zero 63 k a Ha Hk) as (a' & H & Ha'). change GROW_FUEL with 64%nat. by rewrite H.
  - unfold arena_shrink_to_fit, sbind, sget, slift. rewrite Hcs. cbn [length shrink_loop]. unfold sbind, sget. by rewrite Hcs.
  - unfold arena_clear, sbind, sget, arena_is_empty, arena_len. rewrite Hl.
    rewrite orb_true_r. unfold smod, sret. simpl. unfold unused, reset_len, forget_cells. destruct a; simpl in *. subst.
    by rewrite fmap_empty.
  - done.
  - done.
  - done.
  - unfold sbind, sget, slift. by destruct (arena_iter_calls e a ds (iter_new a)).
  - unfold sbind, sget. destruct (iter_mut_zero ds a Ha) as [l H]. by rewrite H.
Qed.

Lemma run_zero cs : forall a, unused a -> unused (arena_run e cs a).2.
Proof.
  induction cs as [|c cs IH]; intros a Ha; cbn [arena_run]; [done|].
  pose proof (exec_zero c a Ha) as H. destruct (arena_exec e c a) as [r a']. simpl in H.
  destruct r; try done; specialize (IH a' H); by destruct (arena_run e cs a').
Qed.

Lemma new_unused : unused arena_new.
Proof. done. Qed.

Lemma with_capacity_zero n : 0 < n -> exists a, arena_begin (T:=T) e (Some n) = (Panic PAssert, a).
Proof.
  intros Hn. cbn [arena_begin]. unfold arena_with_capacity.
  destruct (grow_zero 63 n arena_new new_unused Hn) as (a & H & Ha). change GROW_FUEL with 64%nat. rewrite H.
  pose proof Ha as (_ & Hc & _). unfold arena_drop, arena_clear, sbind, sget. cbn [negb orb]. unfold smod.
  replace (a_chunks (reset_len a)) with (a_chunks a) by (by destruct a). rewrite Hc. cbn [free_chunks]. unfold sret. by eexists.
Qed.

Lemma begin_zero n a : arena_begin e n = (Ret tt, a) -> unused a.
Proof.
  destruct n as [n|]; [|by intros [= <-]]. destruct (N.eq_0_gt_0_cases n) as [->|Hn].
  - cbn [arena_begin]. unfold arena_with_capacity. change GROW_FUEL with 64%nat. rewrite grow_none by done. by intros [= <-].
  - destruct (with_capacity_zero n Hn) as [a' H]. rewrite H. done.
Qed.

Lemma reached_zero n cs rs a : arena_reached e n cs rs a -> unused a.
Proof.
  intros (a0 & Hb & Hr). pose proof (run_zero cs a0 (begin_zero _ _ Hb)) as H. by rewrite Hr in H.
Qed.
End zero.

(** C97 *)
Lemma zero_sized {T : Type} e n cs rs (a : arena T) : e_size e = 0 -> arena_reached e n cs rs a ->
  arena_len a = 0 /\ arena_capacity a = 0 /\
  (forall x, (arena_exec e (AAlloc x) a).1 = Panic PAssert) /\
  (forall k, 0 < k < 2 ^ 64 -> (arena_exec e (AReserve k) a).1 = Panic PAssert).
Proof.
  intros Hz Hr. pose proof (reached_zero e Hz _ _ _ _ Hr) as Ha. pose proof Ha as (_ & _ & Hl & Hc). split_and!; [done|done| |].
  - intros x. cbn [arena_exec]. destruct (alloc_zero e Hz x a Ha) as (a' & H & _). unfold sbind. by rewrite H.
  - intros k Hk. cbn [arena_exec]. destruct (reserve_zero e Hz k a Ha Hk) as (a' & H & _). unfold sbind. by rewrite H.
Qed.
Lemma zero_sized_creation {T : Type} e n : e_size e = 0 -> 0 < n -> (arena_begin (T:=T) e (Some n)).1 = Panic PAssert.
Proof. intros Hz Hn. destruct (with_capacity_zero (T:=T) e Hz n Hn) as [a H]. by rewrite H. Qed.

Lemma other_sizes {T : Type} e n cs rs (a : arena T) x :
  arena_reached e n cs rs a -> arena_contract [] cs rs -> Forall process_on rs ->
  granted e (a_next a) (arena_capacity a + 8) -> exists p, (arena_exec e (AAlloc x) a).1 = Ret (APtr p).
Proof.
  intros H1 H2 H3 Hg. destruct (arena_final _ _ _ _ _ H1 H2 H3) as [Hrep _].
  pose proof (arena_exec_spec e (AAlloc x) a _ Hrep I) as Hs.
  pose proof (arena_alloc_refused e n cs rs a x H1 H2 H3) as Hr.
  destruct (arena_exec e (AAlloc x) a) as [r a']. destruct Hs as [[(p & -> & _)|Hno] _]; [by exists p|].
  destruct (refuses_granted _ _ _ _ (proj2 (Hr Hno)) Hg).
Qed.
