(** * Proofs about clearing and freeing under Stacked Borrows *)

From Verif Require Import ProofIterProps ModelBorrow ProofBorrow ProofBorrowRun ModelBorrowFree.
From Verif Require Import ModelIter.
Local Open Scope nat_scope.

(** Raw pointers: without tags in the stacks, with tags in the tree *)
Definition tag_mode (R : rules) : bool := match R with Stacked => false | Tree => true end.

Section rules.
Context {Ru : rules}.
Notation ok := (ModelBorrow.ok Ru).

(** ** Accesses through a tag that may occur several times, or not at all *)
Definition writable (t : nat) (l : loc) (b : borrows) : Prop := exists p, (t, p) ∈ b_at b l /\ (p = Unique \/ p = SharedRW).
Lemma use_write_in t st : (exists p, (t, p) ∈ st /\ (p = Unique \/ p = SharedRW)) ->
  exists st', use_write t st = Some st' /\ exists p, (t, p) ∈ st' /\ (p = Unique \/ p = SharedRW).
Proof.
  induction st as [|[u q] st IH]; intros (p & Hin & Hp); [by apply elem_of_nil in Hin|]. cbn [use_write].
  case_bool_decide as H.
  - eexists. split; [done|]. destruct H as [-> H]. exists q. split; [left|done].
  - apply IH. apply elem_of_cons in Hin as [[= -> ->]|Hin]; [by destruct H|]. by exists p.
Qed.
Lemma access_all_in t ls : forall b, b_rules b = Stacked -> (forall l, l ∈ ls -> writable t l b) ->
  exists b', access_all true t ls b = (Ret tt, b') /\ b_next b' = b_next b /\ b_rules b' = Stacked /\ forall l, l ∉ ls -> b_at b' l = b_at b l.
Proof.
  unfold access_all. induction ls as [|l ls IH]; intros b HR H; cbn [access_all_as]; [by exists b|].
  destruct (use_write_in t (b_at b l)) as (st' & E & Hst'); [apply H; left|].
  unfold sbind, access_as, use_stack. rewrite HR, E. destruct (IH (set_at l st' b)) as (b' & E' & Hn & HR' & Hout); [done| |].
  { intros l' Hl'. unfold writable. destruct (decide (l' = l)) as [->|Hne]; [by rewrite set_at_eq|].
    rewrite set_at_ne by done. apply H. by right. }
  exists b'. split_and!; try done. intros l' [H1 H2]%not_elem_of_cons. rewrite Hout by done. by rewrite set_at_ne.
Qed.
Lemma use_write_none t st : t ∉ st.*1 -> use_write t st = None.
Proof.
  induction st as [|[u q] st IH]; cbn [fmap list_fmap use_write fst]; [done|]. intros [H1 H2]%not_elem_of_cons.
  rewrite bool_decide_eq_false_2 by naive_solver. by apply IH.
Qed.
Lemma access_all_gone t l ls : forall b, b_rules b = Stacked -> l ∈ ls -> t ∉ (b_at b l).*1 -> (access_all true t ls b).1 = UB UAlias.
Proof.
  unfold access_all. induction ls as [|l' ls IH]; intros b HR Hl Ht; [by apply elem_of_nil in Hl|].
  cbn [access_all_as]. unfold sbind, access_as, use_stack. rewrite HR.
  destruct (decide (l' = l)) as [->|Hne]; [by rewrite use_write_none|].
  destruct (use_write t (b_at b l')) as [st|]; [|done]. apply IH.
  - done.
  - apply elem_of_cons in Hl as [->|]; done.
  - by rewrite set_at_ne.
Qed.
Lemma chunk_locs_elem l c cl : l ∈ chunk_locs c cl <-> exists i f, l = LNode (c, i) f /\ (i < cl)%N.
Proof.
  unfold chunk_locs. rewrite elem_of_list_In, in_flat_map. split.
  - intros (i & Hi%in_seq & H). apply elem_of_list_In, node_locs_elem in H as (f & ->). exists (N.of_nat i), f. split; [done|lia].
  - intros (i & f & -> & Hi). exists (N.to_nat i). split; [apply in_seq; lia|]. apply elem_of_list_In, node_locs_elem.
    exists f. by rewrite N2Nat.id.
Qed.

Lemma base_grants wr b l : ok b -> exists p s, (base, p) :: s `suffix_of` b_at b l /\ grants wr p.
Proof. intros Hok. exists SharedRW, []. split; [by apply ok_base|apply grants_rw]. Qed.

(** A new reference made from the raw pointer [p]. *)
Lemma entry_spec q p b : ok b -> exists n b', retag_as q base (node_locs p) b = (Ret n, b') /\ ok b' /\ n = b_next b /\
  b_next b' = S (b_next b) /\ (forall l, l ∉ node_locs p -> b_at b' l = b_at b l) /\ on_top n q p b'.
Proof.
  intros Hok. destruct (retag_as_spec q base (node_locs p) b Hok (node_locs_nodup p)) as (b' & E & Hok' & Hn & Hout & Hin).
  { intros l _. by apply base_grants. }
  exists (b_next b), b'. split_and!; try done. intros f.
  destruct (Hin (LNode p f) SharedRW []) as (a & _ & ->); [rewrite node_locs_elem; eauto|by apply ok_base|apply grants_rw|eauto].
Qed.
Lemma child_spec q n q' p b : ok b -> on_top n q' p b -> grants (writes q) q' ->
  exists n' b', retag_as q n (node_locs p) b = (Ret n', b') /\ ok b' /\ n' = b_next b /\ b_next b' = S (b_next b) /\
    (forall l, l ∉ node_locs p -> b_at b' l = b_at b l) /\ on_top n' q p b'.
Proof.
  intros Hok Ht Hg. destruct (retag_as_spec q n (node_locs p) b Hok (node_locs_nodup p)) as (b' & E & Hok' & Hn & Hout & Hin).
  { intros l (f & ->)%node_locs_elem. destruct (Ht f) as (s & ->). by exists q', s. }
  exists (b_next b), b'. split_and!; try done. intros f. destruct (Ht f) as (s & Hs).
  destruct (Hin (LNode p f) q' s) as (a & _ & ->); [rewrite node_locs_elem; eauto|by rewrite Hs|done|eauto].
Qed.
Lemma use_all_spec wr n q p b : ok b -> on_top n q p b -> grants wr q ->
  exists b', access_all wr n (node_locs p) b = (Ret tt, b') /\ ok b' /\ b_next b' = b_next b /\
    (forall l, l ∉ node_locs p -> b_at b' l = b_at b l).
Proof.
  intros Hok Ht Hg. destruct (access_all_spec wr n (node_locs p) b Hok (node_locs_nodup p)) as (b' & E & Hok' & Hn & Hout & _).
  { intros l (f & ->)%node_locs_elem. destruct (Ht f) as (s & ->). by exists q, s. }
  by exists b'.
Qed.
Lemma slab_not_node p : LSlab ∉ node_locs p.
Proof. rewrite node_locs_elem. naive_solver. Qed.
Lemma slab_has_out st p b b' : (forall l, l ∉ node_locs p -> b_at b' l = b_at b l) -> slab_has st b -> slab_has st b'.
Proof. intros H Hs. unfold slab_has. rewrite H by apply slab_not_node. done. Qed.

(** ** Accesses in the tree *)
Definition fine_at (u : nat) (l : loc) (b : borrows) : Prop := b_perm b l u = Reserved \/ b_perm b l u = Active.
Lemma own_fine wr x : x = Reserved \/ x = Active -> exists y, own_use wr x = Some y /\ (y = Reserved \/ y = Active).
Proof. intros [-> | ->]; eexists; (split; [done|]); destruct wr; auto. Qed.
Record framed (ls : list loc) (b b' : borrows) : Prop := mkF {
  fr_rules : b_rules b' = b_rules b;
  fr_next : b_next b' = b_next b;
  fr_path : b_path b' = b_path b;
  fr_at : forall l, l ∉ ls -> b_at b' l = b_at b l;
  fr_perm : forall l, l ∉ ls -> b_perm b' l = b_perm b l;
}.
Lemma access_tree wr twr t l b b' : b_rules b = Tree -> access_as wr twr t l b = (Ret tt, b') ->
  framed [l] b b' /\ forall u l', u ∈ b_path b t -> fine_at u l' b -> fine_at u l' b'.
Proof.
  intros HR. unfold access_as. rewrite HR.
  destruct (use_tree twr (b_path b t) (b_perm b l)) as [pm|] eqn:E; [|done]. intros [= <-]. split.
  - split; cbn; try done; intros l' Hl'; apply not_elem_of_cons in Hl' as [Hl' _]; by rewrite decide_False.
  - intros u l' Hu. unfold fine_at. cbn. destruct (decide (l' = l)) as [->|Hne]; [|done]. intros Hf.
    unfold use_tree in E. destruct (forallb _ _); [|done]. injection E as <-. rewrite decide_True by done.
    by destruct (own_fine twr _ Hf) as (y & -> & ?).
Qed.
Lemma access_all_tree wr twr t ls : forall b b', b_rules b = Tree -> access_all_as wr twr t ls b = (Ret tt, b') ->
  framed ls b b' /\ forall u l', u ∈ b_path b t -> fine_at u l' b -> fine_at u l' b'.
Proof.
  induction ls as [|l ls IH]; intros b b' HR; cbn [access_all_as].
  { intros [= <-]. split; [by split|done]. }
  unfold sbind. destruct (access_as wr twr t l b) as [[[]| | | |] b1] eqn:E1; try done. intros E2.
  destruct (access_tree wr twr t l b b1 HR E1) as [[] Hu1]. destruct (IH b1 b') as [[] Hu2]; [congruence|done|]. split.
  - split; try congruence; intros l' [Hl1 Hl2]%not_elem_of_cons.
    + rewrite fr_at1 by done. apply fr_at0. by rewrite elem_of_list_singleton.
    + rewrite fr_perm1 by done. apply fr_perm0. by rewrite elem_of_list_singleton.
  - intros u l' Hu Hf. apply Hu2; [by rewrite fr_path0|]. by apply Hu1.
Qed.
Lemma access_all_fine wr twr t ls : forall b, b_rules b = Tree -> (forall u l, u ∈ b_path b t -> l ∈ ls -> fine_at u l b) ->
  exists b', access_all_as wr twr t ls b = (Ret tt, b').
Proof.
  induction ls as [|l ls IH]; intros b HR Hf; cbn [access_all_as]; [by exists b|]. unfold sbind.
  assert (exists b1, access_as wr twr t l b = (Ret tt, b1)) as [b1 E1].
  { unfold access_as. rewrite HR, use_tree_Some; [eauto|]. intros u Hu.
    destruct (own_fine twr (b_perm b l u)) as (y & -> & _); [|done]. apply Hf; [done|left]. }
  rewrite E1. destruct (access_tree wr twr t l b b1 HR E1) as [[] Hu1]. apply IH; [congruence|].
  intros u l' Hu Hl'. rewrite fr_path0 in Hu. apply Hu1; [done|]. apply Hf; [done|by right].
Qed.
(** A new mutable reference or raw pointer, anywhere in the memory it is made for. *)
Lemma push_all_frame n p ls : forall b b', push_all n p ls b = (Ret tt, b') ->
  b_rules b' = b_rules b /\ b_next b' = b_next b /\ b_path b' = b_path b /\ b_perm b' = b_perm b /\ forall l, l ∉ ls -> b_at b' l = b_at b l.
Proof.
  induction ls as [|l ls IH]; intros b b'; cbn [push_all]; [by intros [= <-]|]. unfold sbind, push_item, smod.
  intros (H1 & H2 & H3 & H4 & H5)%IH. split_and!; try done. intros l' [Hl1 Hl2]%not_elem_of_cons. rewrite H5 by done. by rewrite set_at_ne.
Qed.
Lemma retag_tree q t ls b n b' : b_rules b = Tree -> q <> SharedRO -> t <> b_next b -> retag_as q t ls b = (Ret n, b') ->
  n = b_next b /\ b_rules b' = Tree /\ b_path b' n = n :: b_path b t /\
  (forall l, existsb (same_memory l) ls = true -> fine_at n l b') /\
  (forall u l, u ∈ b_path b t -> u <> n -> fine_at u l b -> fine_at u l b') /\
  (forall l, l ∉ ls -> b_at b' l = b_at b l).
Proof.
  intros HR Hq Ht. unfold retag_as, sbind, sget, smod. cbn [fst snd].
  set (b0 := mkB (b_rules b) (S (b_next b)) (b_at b) (b_path b) (b_perm b)).
  destruct (access_all_as _ false t ls b0) as [[[]| | | |] b1] eqn:E1; try done.
  destruct (access_all_tree _ _ _ _ b0 _ HR E1) as [[] Hu1].
  destruct (push_all (b_next b) q ls (new_tag (b_next b) q t ls b1)) as [[[]| | | |] b2] eqn:E2; try done. intros [= <- <-].
  apply push_all_frame in E2 as (H1 & H2 & H3 & H4 & H5). cbn in H1, H2, H3, H4, H5. split_and!.
  - done.
  - rewrite H1. by rewrite fr_rules0.
  - rewrite H3. rewrite decide_True by done. by rewrite fr_path0.
  - intros l Hl. unfold fine_at. rewrite H4. rewrite decide_True, Hl by done. destruct q; auto; done.
  - intros u l Hu Hne Hf. unfold fine_at. rewrite H4. rewrite decide_False by done. by apply Hu1.
  - intros l Hl. rewrite H5 by done. by rewrite fr_at0.
Qed.
Lemma base_fine l b : ok b -> Ru = Tree -> fine_at base l b.
Proof.
  intros Hok HR. destruct (ok_tree Ru b Hok HR) as [Hp Hf]. destruct (Hf l) as [_ Hfit].
  destruct (ok_base b l Hok) as [above Hab]. rewrite Hab in Hfit. apply fits_app in Hfit as [_ [|[H _]]]; [done|].
  apply (H base). rewrite Hp. left.
Qed.

(** ** Giving back one chunk *)
Definition forgotten (c : N) (b : borrows) : borrows := (forget c b).2.
Lemma forgotten_ok c b b' : ok b -> b_rules b' = b_rules b ->
  (forall l, (forall i f, l <> LNode (c, i) f) -> b_at b' l = b_at b l /\ (Ru = Tree -> b_perm b' l = b_perm b l)) ->
  (Ru = Tree -> b_path b' = b_path b) -> b_next b <= b_next b' -> ok (forgotten c b').
Proof.
  intros Hok HR H Hpath Hn.
  assert (Hb : ok_stack (b_next b') [(base, SharedRW)]).
  { split_and!; cbn; [apply NoDup_singleton| |done]. intros t ->%elem_of_list_singleton. apply (ok_stack_mono _ _ _ Hn (ok_at Ru b Hok LSlab)).
    destruct (ok_base b LSlab Hok) as [a ->]. rewrite fmap_app. apply elem_of_app. right. left. }
  split.
  - cbn. rewrite HR. apply (ok_rules Ru b Hok).
  - intros l. cbn. destruct l as [|[c' i] f].
    + destruct (H LSlab) as [-> _]; [done|]. eapply ok_stack_mono; [done|]. apply (ok_at Ru b Hok).
    + destruct (N.eqb_spec c' c) as [->|Hne]; [done|]. destruct (H (LNode (c', i) f)) as [-> _]; [naive_solver|].
      eapply ok_stack_mono; [done|]. apply (ok_at Ru b Hok).
  - intros HT. destruct (ok_tree Ru b Hok HT) as [Hbase Hl]. cbn. rewrite (Hpath HT). split; [done|].
    assert (Hout : forall l, (forall i f, l <> LNode (c, i) f) -> (forall t, t ∈ (b_at b' l).*1 -> ok_path (b_next b') (b_path b) t) /\
              fits (b_path b) (b_perm b' l) (b_at b' l)).
    { intros l Hc. destruct (H l Hc) as [-> Hpm]. rewrite (Hpm HT). destruct (Hl l) as [H1 H2]. split; [|done].
      intros t Ht. destruct (H1 t Ht) as [A B]. split; [done|]. intros u Hu. destruct (B u Hu). split; [lia|done]. }
    intros l. destruct l as [|[c' i] f]; [by apply Hout|]. destruct (N.eqb_spec c' c) as [->|Hne]; [|apply Hout; naive_solver].
    split.
    + intros t ->%elem_of_list_singleton. destruct Hb as (_ & Hb & _). cbn. split; [rewrite Hbase; left|]. intros u. rewrite Hbase.
      intros ->%elem_of_list_singleton. split; [apply Hb; left|]. by rewrite Hbase.
    + cbn. split; [done|]. right. rewrite Hbase. split; [|by intros u q ?%elem_of_nil]. intros u ->%elem_of_list_singleton. by left.
Qed.

Lemma free_refs_stacked c cl b : ok b -> Ru = Stacked ->
  exists first ptr b1 b2 b3, retag_mut base (node_locs (c, 0%N)) b = (Ret first, b1) /\
    as_raw false first (node_locs (c, 0%N)) b1 = (Ret ptr, b2) /\
    access_all true ptr (chunk_locs c cl) b2 = (Ret tt, b3) /\
    ok (forgotten c b3) /\ b_at (forgotten c b3) LSlab = b_at b LSlab.
Proof.
  intros Hok HR. destruct (entry_spec Unique (c, 0%N) b Hok) as (n & b1 & E1 & Hok1 & -> & Hn1 & Hout1 & Ht1).
  destruct (use_all_spec true (b_next b) Unique (c, 0%N) b1 Hok1 Ht1) as (b2 & E2 & Hok2 & Hn2 & Hout2); [by left|].
  destruct (push_all_spec base SharedRW (node_locs (c, 0%N)) b2 (node_locs_nodup _)) as (b3 & E3 & Hn3 & HR3 & _ & _ & Hout3 & Hin3).
  pose proof (ok_rules Ru b2 Hok2) as HR2. rewrite HR in HR2. rewrite HR2 in HR3.
  destruct (access_all_in base (chunk_locs c cl) b3 HR3) as (b4 & E4 & Hn4 & HR4 & Hout4).
  { intros l (i & f & -> & Hi)%chunk_locs_elem. exists SharedRW. split; [|by right].
    destruct (decide (LNode (c, i) f ∈ node_locs (c, 0%N))) as [Hin|Hni].
    - rewrite Hin3 by done. left.
    - rewrite Hout3 by done. destruct (ok_base b2 (LNode (c, i) f) Hok2) as [a ->]. apply elem_of_app. right. left. }
  exists (b_next b), base, b1, b3, b4. split_and!; try done.
  - unfold as_raw, sbind. rewrite E2, E3. done.
  - apply (forgotten_ok c b); [done|rewrite HR4, (ok_rules Ru b Hok); done| |congruence|rewrite Hn4, Hn3, Hn2, Hn1; lia].
    intros l Hl. split; [|congruence]. rewrite Hout4, Hout3, Hout2, Hout1; [done|..].
    1-3: rewrite node_locs_elem; naive_solver.
    rewrite chunk_locs_elem. naive_solver.
  - cbn. rewrite Hout4, Hout3, Hout2, Hout1; [done|by apply slab_not_node..|]. rewrite chunk_locs_elem. naive_solver.
Qed.
Lemma free_refs_tree c cl b : ok b -> Ru = Tree ->
  exists first ptr b1 b2 b3, retag_mut base (node_locs (c, 0%N)) b = (Ret first, b1) /\
    as_raw true first (node_locs (c, 0%N)) b1 = (Ret ptr, b2) /\
    access_all true ptr (chunk_locs c cl) b2 = (Ret tt, b3) /\
    ok (forgotten c b3) /\ b_at (forgotten c b3) LSlab = b_at b LSlab.
Proof.
  intros Hok HR. destruct (entry_spec Unique (c, 0%N) b Hok) as (n & b1 & E1 & Hok1 & -> & Hn1 & Hout1 & Ht1).
  destruct (child_spec SharedRW (b_next b) Unique (c, 0%N) b1 Hok1 Ht1) as (n' & b2 & E2 & Hok2 & -> & Hn2 & Hout2 & Ht2); [by left|].
  assert (Hlt : base < b_next b).
  { destruct (ok_at Ru b Hok LSlab) as (_ & H & _). apply H. destruct (ok_base b LSlab Hok) as [a ->]. rewrite fmap_app. apply elem_of_app. right. left. }
  assert (Hb : b_rules b = Tree) by (by rewrite (ok_rules Ru b Hok)).
  destruct (retag_tree Unique base (node_locs (c, 0%N)) b _ b1 Hb ltac:(done) ltac:(lia) E1) as (_ & Hb1 & Hp1 & Hf1 & _).
  destruct (retag_tree SharedRW (b_next b) (node_locs (c, 0%N)) b1 _ b2 Hb1 ltac:(done) ltac:(lia) E2) as (_ & Hb2 & Hp2 & Hf2 & Ho2 & _).
  destruct (ok_tree Ru b Hok HR) as [Hbase _]. rewrite Hbase in Hp1. rewrite Hp1 in Hp2, Ho2.
  assert (Hmem : forall l, l ∈ chunk_locs c cl -> existsb (same_memory l) (node_locs (c, 0%N)) = true).
  { intros l (i & f & -> & _)%chunk_locs_elem. cbn. by rewrite bool_decide_true. }
  destruct (access_all_fine true true (b_next b1) (chunk_locs c cl) b2 Hb2) as (b3 & E3).
  { intros u l Hu Hl. rewrite Hp2 in Hu. apply elem_of_cons in Hu as [->|Hu]; [by apply Hf2, Hmem|].
    apply elem_of_cons in Hu as [->|Hu]; [|apply elem_of_list_singleton in Hu as ->].
    - apply Ho2; [left|lia|]. by apply Hf1, Hmem.
    - by apply base_fine. }
  destruct (access_all_tree _ _ _ _ _ _ Hb2 E3) as [[] _].
  assert (Hchunk : forall l, (forall i f, l <> LNode (c, i) f) -> l ∉ chunk_locs c cl) by (intros l Hl; rewrite chunk_locs_elem; naive_solver).
  exists (b_next b), (b_next b1), b1, b2, b3. split_and!; try done.
  - apply (forgotten_ok c b2); [done|done| |done|lia]. intros l Hl%Hchunk. split; [by apply fr_at0|intros _; by apply fr_perm0].
  - cbn. rewrite fr_at0 by (by apply Hchunk). rewrite Hout2, Hout1 by apply slab_not_node. done.
Qed.
Lemma free_refs c cl b : ok b ->
  exists first ptr b1 b2 b3, retag_mut base (node_locs (c, 0%N)) b = (Ret first, b1) /\
    as_raw (tag_mode Ru) first (node_locs (c, 0%N)) b1 = (Ret ptr, b2) /\
    access_all true ptr (chunk_locs c cl) b2 = (Ret tt, b3) /\
    ok (forgotten c b3) /\ b_at (forgotten c b3) LSlab = b_at b LSlab.
Proof.
  intros Hok. assert (HR : Ru = Stacked \/ Ru = Tree) by (destruct Ru; auto). destruct HR as [HR|HR].
  - replace (tag_mode Ru) with false by (by rewrite HR). by apply free_refs_stacked.
  - replace (tag_mode Ru) with true by (by rewrite HR). by apply free_refs_tree.
Qed.

Section proofs.
Context {K V : Type}.
Implicit Types m : bstmap K V.

(** ** References to the slab only *)
Definition stays {B} (st : stack) (st' : B -> stack) (g : M borrows B) : Prop :=
  forall b, ok b -> slab_has st b -> exists y b', g b = (Ret y, b') /\ ok b' /\ slab_has (st' y) b'.
Definition at_st (P : bstmap K V -> Prop) (st : stack) m (b : borrows) : Prop := P m /\ slab_has st b.
Lemma sim_st {A B B'} P st st' R (f : M (bstmap K V) A) (g : M borrows B) (g' : B -> M (bmap K V) B') :
  stays st st' g -> (forall y, sim (at_st P (st' y)) R f (g' y)) -> sim (at_st P st) R f (sbind (on_r g) g').
Proof.
  intros Hg H. eapply (sim_r _ (fun y => at_st P (st' y))); [|exact H].
  intros m b Hok [HP Hs]. destruct (Hg b Hok Hs) as (y & b' & E & Hok' & Hs'). exists y, b'. done.
Qed.
Lemma stays_mut t s : stays ((t, Unique) :: s) (fun y => (y, Unique) :: (t, Unique) :: s) (retag_mut t [LSlab]).
Proof.
  intros b Hok Hs. destruct (quiet_slab_mut [] t Unique s (grants_unique true) b Hok Hs) as (y & b' & E & Hok' & _ & _ & Hs').
  by exists y, b'.
Qed.
Lemma stays_shr t s : stays ((t, Unique) :: s) (fun _ => (t, Unique) :: s) (retag_shr t [LSlab]).
Proof.
  intros b Hok Hs. destruct (quiet_slab [] false t Unique s (grants_unique false) b Hok Hs) as (y & b' & E & Hok' & _ & _ & Hs' & _).
  by exists y, b'.
Qed.
Lemma stays_access wr t s : stays ((t, Unique) :: s) (fun _ => (t, Unique) :: s) (access wr t LSlab).
Proof.
  intros b Hok Hs. destruct (access_spec wr b t Unique s LSlab Hok Hs (grants_unique wr)) as (a & b' & _ & E & Hok' & _ & Hb' & _).
  exists tt, b'. split; [exact E|]. split; [done|]. unfold slab_has. rewrite Hb'. by apply suffix_app_r.
Qed.
Lemma sim_at_pre {A B} P st st' R (f : M (bstmap K V) A) (g : M (bmap K V) B) : st' `suffix_of` st -> sim (at_st P st') R f g -> sim (at_st P st) R f g.
Proof. intros Hs. apply sim_weaken; [|done]. intros m b [HP H]. split; [done|]. unfold slab_has in *. by etrans. Qed.

(** ** Plain code on the slab and on the arena *)
Notation anyst := (at_st (fun _ => True)).
Definition keeps_st {A} (st : stack) (x y : A) m b : Prop := x = y /\ slab_has st b.
Lemma sim_plain {A} st (f : M (bstmap K V) A) : sim (anyst st) (keeps_st st) f (on_m f).
Proof.
  eapply sim_weaken; [| |apply (sim_m (anyst st) (fun _ _ b => slab_has st b))]; [done|by intros x y m b H|]. by intros m b x m' [_ ?] _.
Qed.
Lemma sim_ext {A B} (P : bstmap K V -> borrows -> Prop) (R : A -> B -> bstmap K V -> borrows -> Prop) f f' g :
  (forall m, f' m = f m) -> sim P R f g -> sim P R f' g.
Proof. intros E H m b Hok HP. rewrite E. by apply H. Qed.
Lemma nodes_bind {A B} (f : M (slab (inner K V)) A) (g : A -> M _ B) m :
  on_nodes (sbind f g) m = sbind (on_nodes f) (fun x => on_nodes (g x)) m.
Proof. unfold on_nodes, zoom, sbind. destruct (f (m_nodes m)) as [[] s]; cbn; done. Qed.
Lemma arena_bind {A B} (f : M (arena (entry (inner K V))) A) (g : A -> M _ B) m :
  on_nodes (on_items (sbind f g)) m = sbind (on_nodes (on_items f)) (fun x => on_nodes (on_items (g x))) m.
Proof. unfold on_nodes, on_items, zoom, sbind. cbn. destruct (f (s_items (m_nodes m))) as [[] s]; cbn; done. Qed.
Lemma sim_nodes_get {A B} P R (f : slab (inner K V) -> M _ A) (g : bmap K V -> M (bmap K V) B) st :
  (forall m0 b0, sim (at_st (fun m => m = m0 /\ P m) st) R (on_nodes (f (m_nodes m0))) (g (m0, b0))) ->
  sim (at_st P st) R (on_nodes (sbind sget f)) (sbind sget g).
Proof. intros H m b Hok [HP Hs]. apply (H m b m b Hok). done. Qed.
Lemma sim_arena_get {A B} P R (f : arena (entry (inner K V)) -> M _ A) (g : bmap K V -> M (bmap K V) B) st :
  (forall m0 b0, sim (at_st (fun m => m = m0 /\ P m) st) R (on_nodes (on_items (f (s_items (m_nodes m0))))) (g (m0, b0))) ->
  sim (at_st P st) R (on_nodes (on_items (sbind sget f))) (sbind sget g).
Proof. intros H m b Hok [HP Hs]. apply (H m b m b Hok). done. Qed.
Lemma set_nodes_id m : set_nodes (m_nodes m) m = m.
Proof. by destruct m. Qed.
Lemma set_items_id (s : slab (inner K V)) : set_items (s_items s) s = s.
Proof. by destruct s. Qed.
Lemma sim_nodes_lift {A A' B} P R (x : res A) (f : A -> M (slab (inner K V)) A') (g : A -> M (bmap K V) B) :
  (forall a, x = Ret a -> sim P R (on_nodes (f a)) (g a)) -> sim P R (on_nodes (sbind (slift x) f)) (sbind (slift x) g).
Proof.
  intros H m b Hok HP. destruct x as [a| | | |]; [by apply (H a eq_refl m b)|..]; exists b; (split; [done|]);
    unfold on_nodes, zoom, sbind, slift; cbn; by rewrite set_nodes_id.
Qed.
Lemma sim_arena_lift {A A' B} P R (x : res A) (f : A -> M (arena (entry (inner K V))) A') (g : A -> M (bmap K V) B) :
  (forall a, x = Ret a -> sim P R (on_nodes (on_items (f a))) (g a)) -> sim P R (on_nodes (on_items (sbind (slift x) f))) (sbind (slift x) g).
Proof.
  intros H m b Hok HP. destruct x as [a| | | |]; [by apply (H a eq_refl m b)|..]; exists b; (split; [done|]);
    unfold on_nodes, on_items, zoom, sbind, slift; cbn; by rewrite set_items_id, set_nodes_id.
Qed.
Lemma sim_nodes_bind {A A' B} P st R (f : M (slab (inner K V)) A) (f' : A -> M _ A') (g' : A -> M (bmap K V) B) :
  (forall x, sim (anyst st) R (on_nodes (f' x)) (g' x)) -> sim (at_st P st) R (on_nodes (sbind f f')) (sbind (on_m (on_nodes f)) g').
Proof.
  intros H. eapply sim_ext; [intros m; apply nodes_bind|].
  eapply (sim_bind _ (keeps_st st)); [eapply sim_weaken; [| |apply (sim_plain st)]; [by intros m b [_ ?]|done]|].
  intros x y m b Hok [<- Hs]. by apply H.
Qed.
Lemma sim_arena_bind {A A' B} P st R (f : M (arena (entry (inner K V))) A) (f' : A -> M _ A') (g' : A -> M (bmap K V) B) :
  (forall x, sim (anyst st) R (on_nodes (on_items (f' x))) (g' x)) ->
  sim (at_st P st) R (on_nodes (on_items (sbind f f'))) (sbind (on_arena f) g').
Proof.
  intros H. eapply sim_ext; [intros m; apply arena_bind|].
  eapply (sim_bind _ (keeps_st st)); [eapply sim_weaken; [| |apply (sim_plain st)]; [by intros m b [_ ?]|done]|].
  intros x y m b Hok [<- Hs]. by apply H.
Qed.

Ltac step L := eapply sim_st; [apply L|]; cbn beta; intros _.
Ltac step_as L x := eapply sim_st; [apply L|]; cbn beta; intros x.

(** ** [clear] *)
Lemma sim_reset e h s : sim (anyst ((h, Unique) :: s)) (keeps_st ((h, Unique) :: s)) (on_nodes (reset_internal_state e)) (b_reset e h).
Proof.
  unfold b_reset. step_as stays_mut it. step stays_access.
  eapply (sim_at_pre _ _ ((h, Unique) :: s)); [by apply suffix_cons_r|].
  step stays_access. apply sim_plain.
Qed.
Lemma sim_collect h s m0 : forall fuel cur acc,
  sim (at_st (fun m => m = m0) ((h, Unique) :: s)) (fun x y m b => x = y /\ at_st (fun m => m = m0) ((h, Unique) :: s) m b)
    (slift (collect_free fuel (m_nodes m0) cur acc)) (b_collect_free h fuel cur acc).
Proof.
  induction fuel as [|fuel IH]; intros cur acc; cbn [collect_free b_collect_free]; [apply sim_fail|].
  destruct cur as [p|].
  2:{ intros m b Hok HP. exists b. split; [done|]. by exists acc. }
  step stays_shr.
  eapply (sim_r _ (fun n m b => at_st (fun m => m = m0) ((h, Unique) :: s) m b /\ on_top n SharedRO p b)).
  { intros m b Hok [HP Hs]. destruct (entry_spec SharedRO p b Hok) as (n & b' & E & Hok' & _ & _ & Hout & Ht).
    exists n, b'. split_and!; try done. split; [done|]. by eapply slab_has_out. }
  intros n. eapply (sim_r _ (fun _ => at_st (fun m => m = m0) ((h, Unique) :: s))).
  { intros m b Hok [[HP Hs] Ht]. destruct (use_all_spec false n SharedRO p b Hok Ht) as (b' & E & Hok' & _ & Hout); [done|].
    exists tt, b'. split_and!; try done. split; [done|]. by eapply slab_has_out. }
  intros _. destruct (arena_get (s_items (m_nodes m0)) p) as [en| | | |] eqn:Hen; cbn [rbind].
  2-5: intros m b Hok [-> Hs]; exists b; (split; [done|]); unfold of_m, sbind, sget, slift; cbn; by rewrite Hen.
  eapply (sim_read m0 (fun m => arena_get (s_items (m_nodes m)) p) en); [done|by intros m b [-> _]|].
  destruct (entry_next en) as [nf| | | |]; cbn [rbind].
  2-5: intros m b Hok HP; by exists b.
  apply IH.
Qed.
Lemma sim_drop_loop e pn it s free : forall fuel r,
  sim (anyst ((it, Unique) :: s)) (keeps_st ((it, Unique) :: s))
    (on_nodes (drop_loop e pn fuel free r)) (b_drop_loop e pn it fuel free r).
Proof.
  induction fuel as [|fuel IH]; intros r; cbn [drop_loop b_drop_loop].
  { intros m b Hok HP. exists b. split; [done|]. unfold on_nodes, zoom. cbn. by rewrite set_nodes_id. }
  apply sim_nodes_get. intros m0 b0. unfold items_of. cbn [fst snd]. destruct (next_ptr e (s_items (m_nodes m0)) r) as [x r'].
  apply sim_nodes_lift. intros [[p y]|] _.
  2:{ intros m b Hok [_ HP]. exists b. split; [done|]. exists tt. split; [|by split]. unfold on_nodes, zoom. cbn. by rewrite set_nodes_id. }
  step stays_shr.
  eapply (sim_r _ (fun n m b => anyst ((it, Unique) :: s) m b /\ on_top n Unique p b)).
  { intros m b Hok [_ Hs]. destruct (entry_spec Unique p b Hok) as (n & b' & E & Hok' & _ & _ & Hout & Ht).
    exists n, b'. split_and!; try done. split; [done|]. by eapply slab_has_out. }
  intros n. destruct (decide (p ∈ free)).
  { eapply sim_weaken; [| |apply IH]; [by intros m b [? _]|done]. }
  eapply (sim_r _ (fun n m b => anyst ((it, Unique) :: s) m b /\ on_top n Unique p b)).
  { intros m b Hok [[_ Hs] Ht]. destruct (child_spec Unique n Unique p b Hok Ht) as (n' & b' & E & Hok' & _ & _ & Hout & Ht'); [by left|].
    exists n', b'. split_and!; try done. split; [done|]. by eapply slab_has_out. }
  intros n'. eapply (sim_r _ (fun _ => anyst ((it, Unique) :: s))).
  { intros m b Hok [[_ Hs] Ht]. destruct (use_all_spec true n' Unique p b Hok Ht) as (b' & E & Hok' & _ & Hout); [by left|].
    exists tt, b'. split_and!; try done. split; [done|]. by eapply slab_has_out. }
  intros _. apply (sim_nodes_bind (fun _ => True)). intros _. apply IH.
Qed.
Lemma sim_nodes_read {A A' B} m0 st P R (x : res A) (f : A -> M (slab (inner K V)) A') (g : M (bmap K V) A) (g' : A -> M (bmap K V) B) :
  sim (at_st (fun m => m = m0) st) (fun x y m b => x = y /\ at_st (fun m => m = m0) st m b) (slift x) g ->
  (forall a, sim (anyst st) R (on_nodes (f a)) (g' a)) ->
  sim (at_st (fun m => m = m0 /\ P m) st) R (on_nodes (sbind (slift x) f)) (sbind g g').
Proof.
  intros Hg H m b Hok [[-> _] Hs]. destruct (Hg m0 b Hok) as (b1 & Hok1 & H1); [by split|]. unfold slift in H1. cbn [fst snd] in H1.
  unfold sbind at 3. destruct x as [a| | | |].
  2-5: rewrite H1; exists b1; (split; [done|]); unfold on_nodes, zoom, sbind, slift; cbn; by rewrite set_nodes_id.
  destruct H1 as (? & -> & <- & _ & Hs1). by apply (H a m0 b1 Hok1).
Qed.
Lemma sim_slab_clear e pn h s : sim (anyst ((h, Unique) :: s)) (keeps_st ((h, Unique) :: s)) (on_nodes (slab_clear e pn)) (b_slab_clear e pn h).
Proof.
  unfold slab_clear, b_slab_clear. eapply sim_st; [apply stays_access|]. cbn beta. intros _. apply sim_nodes_get. intros m0 b0. unfold items_of. cbn [fst snd].
  destruct (negb (e_nd e) || (arena_len (s_items (m_nodes m0)) =? s_free (m_nodes m0))%N).
  { eapply sim_weaken; [| |apply sim_reset]; [by intros m b [_ ?]|done]. }
  apply sim_nodes_read; [apply sim_collect|]. intros fr.
  step_as stays_mut it. eapply sim_ext; [intros m; apply nodes_bind|].
  eapply sim_bind; [apply sim_drop_loop|]. intros x1 x2. eapply (sim_weaken (anyst ((it, Unique) :: (h, Unique) :: s))); [by intros m b [_ ?]|exact (fun _ _ _ _ H => H)|].
  eapply sim_at_pre; [|apply sim_reset]. by apply suffix_cons_r.
Qed.
Lemma self_stays : stays [] (fun self => [(self, Unique); (base, SharedRW)]) (retag_mut base [LSlab]).
Proof.
  intros b Hok _. destruct (retag_as_spec Unique base [LSlab] b Hok slab_nodup) as (b' & E & Hok' & _ & _ & Hin); [intros l _; by apply base_grants|].
  exists (b_next b), b'. split_and!; try done. destruct (Hin LSlab SharedRW []) as (a & _ & Hb); [left|by apply ok_base|apply grants_rw|].
  unfold slab_has. rewrite Hb. done.
Qed.
Lemma sim_clear e pn m0 : sim (fun m _ => m = m0) eqr (map_clear e pn) (b_clear e pn).
Proof.
  unfold map_clear, b_clear. eapply (sim_weaken (anyst [])); [intros m b _; split; [done|apply suffix_nil]|exact (fun _ _ _ _ H => H)|].
  step_as self_stays self. step_as stays_mut h.
  eapply sim_bind; [apply sim_slab_clear|]. intros [] []. eapply sim_weaken; [| |apply (sim_plain [])]; [intros m b _; split; [done|apply suffix_nil]|].
  by intros x y m b [? _].
Qed.
Lemma sim_reserve e n m0 : sim (fun m _ => m = m0) eqr (map_reserve e n) (b_reserve e n).
Proof.
  unfold b_reserve. eapply (sim_weaken (anyst [])); [intros m b _; split; [done|apply suffix_nil]|exact (fun _ _ _ _ H => H)|].
  step_as self_stays self. step_as stays_mut h. step stays_access.
  eapply sim_weaken; [| |apply sim_plain]; [done|]. by intros x y m b [? _].
Qed.

(** ** Chunks *)
Lemma free_tail {A} c cl st P (f' : M (bstmap K V) A) B (g' : unit -> M (bmap K V) B) R (ch : nat) :
  sim (at_st P ((ch, Unique) :: st)) R f' (sbind (on_arena (free_chunk c cl)) g') ->
  sim (at_st P ((ch, Unique) :: st)) R f' (sbind (b_free_chunk (tag_mode Ru) ch c cl) g').
Proof.
  intros H m b Hok [HP Hs].
  destruct (stays_access false ch st b Hok Hs) as ([] & b0 & E0 & Hok0 & Hs0).
  destruct (free_refs c cl b0 Hok0) as (n & ptr & b1 & b2 & b3 & E1 & E2 & E3 & Hok' & Hsl).
  destruct (H m (forgotten c b3) Hok') as (b4 & Hok4 & H4); [split; [done|]; unfold slab_has; rewrite Hsl; done|].
  exists b4. split; [done|]. enough (Heq : (sbind (b_free_chunk (tag_mode Ru) ch c cl) g') (m, b) = (sbind (on_arena (free_chunk c cl)) g') (m, forgotten c b3)) by (by rewrite Heq).
  unfold b_free_chunk, on_r, zoom, sbind. cbn [fst snd]. rewrite E0. cbn [fst snd]. rewrite E1. cbn [fst snd]. rewrite E2. cbn [fst snd]. rewrite E3. done.
Qed.
Lemma sim_shrink_loop e h s : forall fuel n,
  sim (anyst ((h, Unique) :: s)) (keeps_st ((h, Unique) :: s)) (on_nodes (on_items (shrink_loop e fuel n))) (b_shrink_loop (tag_mode Ru) e h fuel n).
Proof.
  induction fuel as [|fuel IH]; intros n; cbn [shrink_loop b_shrink_loop].
  { intros m b Hok HP. exists b. split; [done|]. unfold on_nodes, on_items, zoom. cbn. by rewrite set_items_id, set_nodes_id. }
  assert (Hend : forall P st, sim (at_st P ((st, Unique) :: (h, Unique) :: s)) (keeps_st ((h, Unique) :: s)) (on_nodes (on_items (sret tt))) (sret tt)).
  { intros P st m b Hok [_ Hs]. exists b. split; [done|]. exists tt. unfold on_nodes, on_items, zoom. cbn. rewrite set_items_id, set_nodes_id.
    split; [done|]. split; [done|]. by eapply slab_has_below. }
  step_as stays_mut ch. apply sim_arena_get. intros m0 b0. unfold items_of. cbn [fst snd].
  destruct (list.last (a_chunks (s_items (m_nodes m0)))) as [c|]; [|apply Hend].
  apply sim_arena_lift. intros cl1 _. apply sim_arena_lift. intros cl _. apply sim_arena_lift. intros room _.
  destruct (_ <=? _)%N; [|apply Hend].
  apply free_tail. apply sim_arena_bind. intros _.
  eapply (sim_at_pre _ _ ((h, Unique) :: s)); [by apply suffix_cons_r|].
  step stays_access. apply sim_arena_bind. intros _. apply sim_arena_lift. intros n' _. apply sim_arena_lift. intros cap _.
  apply sim_arena_bind. intros _. apply IH.
Qed.
Lemma sim_shrink e m0 : sim (fun m _ => m = m0) eqr (map_shrink_to_fit e) (b_shrink_to_fit (tag_mode Ru) e).
Proof.
  unfold map_shrink_to_fit, slab_shrink_to_fit, arena_shrink_to_fit, b_shrink_to_fit.
  eapply (sim_weaken (anyst [])); [intros m b _; split; [done|apply suffix_nil]|exact (fun _ _ _ _ H => H)|].
  step_as self_stays self. step_as stays_mut h. step_as stays_mut it. apply sim_arena_get. intros m1 b1. unfold items_of. cbn [fst snd].
  set (F := S (length _)). set (L := N.of_nat _). intros m b Hok [_ Hs].
  destruct (sim_shrink_loop e it _ F L m b Hok (conj I Hs)) as (b' & Hok' & H').
  unfold sbind. destruct (on_nodes (on_items (shrink_loop e F L)) m) as [[x| | | |] m']; cbn [fst snd] in *.
  2-5: rewrite H'; by exists b'.
  destruct H' as (y & -> & <- & Hs'). destruct (stays_access true it _ b' Hok' Hs') as ([] & b2 & E2 & Hok2 & _).
  unfold on_r, zoom. cbn [fst snd]. rewrite E2. exists b2. split; [done|]. destruct x. by exists tt.
Qed.

(** ** [drop] *)
Lemma sim_free_chunks e it s : forall cs i,
  sim (anyst ((it, Unique) :: s)) (keeps_st ((it, Unique) :: s)) (on_nodes (on_items (free_chunks e i cs))) (b_free_chunks (tag_mode Ru) e it i cs).
Proof.
  induction cs as [|c cs IH]; intros i; cbn [free_chunks b_free_chunks].
  { intros m b Hok [_ Hs]. exists b. split; [done|]. exists tt. unfold on_nodes, on_items, zoom. cbn. by rewrite set_items_id, set_nodes_id. }
  apply sim_arena_lift. intros cl _. apply free_tail. apply sim_arena_bind. intros _. apply IH.
Qed.
Definition to_end (x y : unit) (m : bstmap K V) (b : borrows) : Prop := x = y.
Lemma sim_arena_drop e : sim (fun _ _ => True) to_end (on_nodes (on_items (arena_drop e false (fun _ => false)))) (b_arena_drop (tag_mode Ru) e).
Proof.
  unfold arena_drop, b_arena_drop.
  eapply (sim_weaken (anyst [])); [intros m b _; split; [done|apply suffix_nil]|exact (fun _ _ _ _ H => H)|].
  step_as self_stays self. step_as stays_mut cs. step stays_access. apply sim_arena_bind. intros _.
  eapply (sim_at_pre _ _ [(self, Unique); (base, SharedRW)]); [by apply suffix_cons_r|].
  step_as stays_mut it. apply sim_arena_get. intros m1 b1. unfold items_of. cbn [fst snd].
  eapply sim_ext; [intros m; apply arena_bind|].
  eapply sim_bind; [eapply sim_weaken; [| |apply sim_free_chunks]; [intros m b [_ ?]; by split|exact (fun _ _ _ _ H => H)]|].
  intros x y. eapply sim_weaken; [| |apply (sim_plain [])]; [intros m b _; split; [done|apply suffix_nil]|]. by intros x' y' m b [? _].
Qed.
Lemma sim_drop_clear e pn : sim (fun _ _ => True) to_end
  (on_nodes (if negb (e_nd e) then sret tt else slab_clear e pn))
  (let! self := on_r (retag_mut base [LSlab]) in
   if negb (e_nd e) then sret tt else let! nodes := on_r (retag_mut self [LSlab]) in b_slab_clear e pn nodes).
Proof.
  eapply (sim_weaken (anyst [])); [intros m b _; split; [done|apply suffix_nil]|exact (fun _ _ _ _ H => H)|].
  step_as self_stays self. destruct (negb (e_nd e)).
  - intros m b Hok _. exists b. split; [done|]. exists tt. unfold on_nodes, zoom. cbn. by rewrite set_nodes_id.
  - step_as stays_mut h. eapply sim_weaken; [| |apply sim_slab_clear]; [done|]. by intros x y m b [? _].
Qed.
Lemma sim_drop e pn m0 : sim (fun m _ => m = m0) eqr (map_drop e pn) (b_drop (tag_mode Ru) e pn).
Proof.
  intros m b Hok _. destruct (sim_drop_clear e pn m b Hok I) as (b1 & Hok1 & H1). unfold map_drop, b_drop, slab_drop.
  set (f := if negb (e_nd e) then sret tt else slab_clear e pn) in *. set (g := sbind (on_r (retag_mut base [LSlab])) _) in *.
  unfold on_nodes at 1 2, zoom. assert (Ho : on_nodes f m = ((f (m_nodes m)).1, set_nodes (f (m_nodes m)).2 m)).
  { unfold on_nodes, zoom. by destruct (f (m_nodes m)). }
  rewrite Ho in H1. clear Ho. destruct (f (m_nodes m)) as [r s1]; cbn [fst snd] in *.
  assert (Hd := sim_arena_drop e (set_nodes s1 m) b1 Hok1 I). unfold on_nodes, zoom in Hd. cbn [m_nodes set_nodes] in Hd.
  destruct r as [x|p| |u|]; [destruct H1 as (y & -> & <-)|rewrite H1..].
  3-5: exists b1; done.
  all: destruct Hd as (b2 & Hok2 & H2); exists b2; (split; [done|]);
    destruct (on_items (arena_drop e false (fun _ => false)) s1) as [[] s2]; cbn [fst snd] in *; try (rewrite H2; done).
  - exact H2.
  - by destruct H2 as (y & -> & _).
Qed.

Lemma b_clear_run e pn m b : ok b -> exists b', ok b' /\ b_clear e pn (m, b) = ((map_clear e pn m).1, ((map_clear e pn m).2, b')).
Proof. intros Hok. by apply (sim_run _ _ m b (sim_clear e pn m)). Qed.

(** ** Statements *)
Lemma f_exec_tidy e (c : f_op K V) : tidy (fa_exec e c).
Proof.
  destruct c as [c| |n|]; cbn [fa_exec]; [apply a_exec_tidy|..].
  - intros m t fl Hrep. pose proof (exec_rep e OClear m t fl) as H. cbn [exec] in H. unfold sbind in H.
    destruct (map_clear e (fun _ => false) m) as [[x| | | |] m']; cbn [fst snd]; edestruct H as [A B]; try done.
  - intros m t fl Hrep. pose proof (exec_rep e (OReserve n) m t fl) as H. cbn [exec] in H. unfold sbind in H.
    destruct (map_reserve e n m) as [[x| | | |] m']; cbn [fst snd]; edestruct H as [A B]; try done.
  - intros m t fl Hrep. pose proof (exec_rep e OShrink m t fl) as H. cbn [exec] in H. unfold sbind in H.
    destruct (map_shrink_to_fit e m) as [[x| | | |] m']; cbn [fst snd]; edestruct H as [A B]; try done.
Qed.
Lemma f_exec_run e c m t fl b : map_rep m t fl -> ok b ->
  exists b', ok b' /\ fb_exec (tag_mode Ru) e c (m, b) = ((fa_exec e c m).1, ((fa_exec e c m).2, b')).
Proof.
  intros Hrep Hok. destruct c as [c| |n|]; cbn [fa_exec fb_exec].
  - by eapply b_exec_run.
  - apply (sim_run _ _ m b (sim_clear e _ m) Hok).
  - apply (sim_run _ _ m b (sim_reserve e n m) Hok).
  - apply (sim_run _ _ m b (sim_shrink e m) Hok).
Qed.
Lemma f_runs_spec e : forall cs (m : bstmap K V) t fl b, map_rep m t fl -> ok b ->
  exists rs m' b', runs (fa_exec e) cs m = (rs, m') /\ runs (fb_exec (tag_mode Ru) e) cs (m, b) = (rs, (m', b')) /\ ok b' /\ Forall defined rs /\
    exists t' fl', map_rep m' t' fl'.
Proof.
  induction cs as [|c cs IH]; intros m t fl b Hrep Hok; cbn [runs].
  { exists [], m, b. split_and!; try done. eauto. }
  destruct (f_exec_run e c m t fl b Hrep Hok) as (b1 & Hok1 & ->). destruct (f_exec_tidy e c m t fl Hrep) as (Hd & t1 & fl1 & Hrep1).
  destruct (fa_exec e c m) as [r m1]; cbn [fst snd] in *. destruct (IH m1 t1 fl1 b1 Hrep1 Hok1) as (rs & m2 & b2 & E1 & E2 & Hok2 & Hd2 & Hrep2).
  destruct r as [x|q| |u|]; try done; [rewrite E1, E2..|].
  - exists (Ret x :: rs), m2, b2. split_and!; try done. by constructor.
  - exists (Panic q :: rs), m2, b2. split_and!; try done. by constructor.
  - exists [Abort], m1, b1. split_and!; try done; [by constructor|eauto].
Qed.
Lemma drop_defined e pn m t fl : map_rep m t fl -> (map_drop e pn m).1 = Ret tt \/ (map_drop e pn m).1 = Panic PDrop.
Proof.
  intros [[_ Hs] _]. destruct (slab_drop_any e pn _ _ _ Hs) as (dr & s' & E & _). unfold map_drop, on_nodes, zoom. rewrite E. cbn.
  destruct (existsb pn dr); auto.
Qed.
Lemma free_programs e m cs b pn : reachable e m -> ok b ->
  exists rs m' b', runs (fa_exec e) cs m = (rs, m') /\ runs (fb_exec (tag_mode Ru) e) cs (m, b) = (rs, (m', b')) /\
    (forall r, r ∈ rs -> (forall u, r <> UB u) /\ r <> Diverge) /\
    exists r m'' b'', map_drop e pn m' = (r, m'') /\ b_drop (tag_mode Ru) e pn (m', b') = (r, (m'', b'')) /\ (r = Ret tt \/ r = Panic PDrop).
Proof.
  intros (t & fl & Hrep)%reachable_rep Hok. destruct (f_runs_spec e cs m t fl b Hrep Hok) as (rs & m' & b' & E & E' & Hok' & Hd & t' & fl' & Hrep').
  exists rs, m', b'. split_and!; try done.
  - intros r Hr. apply defined_iff. by eapply Forall_forall in Hr.
  - destruct (sim_run _ _ m' b' (sim_drop e pn m') Hok') as (b'' & _ & Ed). pose proof (drop_defined e pn m' t' fl' Hrep').
    destruct (map_drop e pn m') as [r m'']. exists r, m'', b''. done.
Qed.
Lemma free_clear e pn m b : reachable e m -> ok b ->
  exists r m' b', map_clear e pn m = (r, m') /\ b_clear e pn (m, b) = (r, (m', b')) /\ ok b' /\ (r = Ret tt \/ r = Panic PDrop).
Proof.
  intros (t & fl & Hrep)%reachable_rep Hok. destruct (b_clear_run e pn m b Hok) as (b' & Hok' & E).
  exists (map_clear e pn m).1, (map_clear e pn m).2, b'. split_and!; try done; [by destruct (map_clear e pn m)|].
  destruct Hrep as [[_ Hs] _]. destruct (slab_clear_any e pn _ _ _ Hs) as (dr & s' & Ec & _). unfold map_clear, sbind, on_nodes, zoom. rewrite Ec.
  destruct (existsb pn dr); auto.
Qed.
End proofs.
End rules.

(** ** Tagged raw pointers, in the stacks *)
Section tagged.
Context {K V : Type}.
Implicit Types m : bstmap K V.
Notation ok := (ModelBorrow.ok Stacked).

Lemma free_refs_tagged c cl b : ok b -> (1 < cl)%N ->
  exists first ptr b1 b2, retag_mut base (node_locs (c, 0%N)) b = (Ret first, b1) /\
    as_raw true first (node_locs (c, 0%N)) b1 = (Ret ptr, b2) /\
    (access_all true ptr (chunk_locs c cl) b2).1 = UB UAlias.
Proof.
  intros Hok Hcl. destruct (entry_spec Unique (c, 0%N) b Hok) as (n & b1 & E1 & Hok1 & -> & Hn1 & Hout1 & Ht1).
  destruct (child_spec SharedRW (b_next b) Unique (c, 0%N) b1 Hok1 Ht1) as (n' & b2 & E2 & Hok2 & -> & Hn2 & Hout2 & Ht2); [by left|].
  exists (b_next b), (b_next b1), b1, b2. split_and!; try done.
  apply (access_all_gone _ (LNode (c, 1%N) FKey)); [apply (ok_rules _ b2 Hok2)|..].
  - apply chunk_locs_elem. by exists 1%N, FKey.
  - rewrite Hout2, Hout1 by (rewrite node_locs_elem; naive_solver). intros Hin. destruct (ok_at _ b Hok (LNode (c, 1%N) FKey)) as (_ & Hlt & _).
    apply Hlt in Hin. lia.
Qed.
Lemma free_tagged ch c cl s m b : ok b -> slab_has ((ch, Unique) :: s) b -> (1 < cl)%N -> (b_free_chunk true ch c cl (m, b)).1 = UB UAlias.
Proof.
  intros Hok Hs Hcl. destruct (stays_access false ch s b Hok Hs) as ([] & b0 & E0 & Hok0 & Hs0).
  destruct (free_refs_tagged c cl b0 Hok0 Hcl) as (n & ptr & b1 & b2 & E1 & E2 & E3).
  unfold b_free_chunk, on_r, zoom, sbind. cbn [fst snd]. rewrite E0. cbn [fst snd]. rewrite E1. cbn [fst snd]. rewrite E2. cbn [fst snd].
  destruct (access_all true ptr (chunk_locs c cl) b2) as [r b3]; cbn [fst snd] in *. by rewrite E3.
Qed.
Lemma sbind_ub {S A B} (f : M S A) (g : A -> M S B) s u : (f s).1 = UB u -> (sbind f g s).1 = UB u.
Proof. unfold sbind. destruct (f s) as [[] s']; cbn; congruence. Qed.
Lemma run_r {B B'} (g : M borrows B) (g' : B -> M (bmap K V) B') m b y b' : g b = (Ret y, b') -> sbind (on_r g) g' (m, b) = g' y (m, b').
Proof. intros E. unfold sbind, on_r, zoom. cbn [fst snd]. by rewrite E. Qed.
Lemma drop_loop_chunks e pn free : forall fuel r (s : slab (inner K V)), a_chunks (s_items (drop_loop e pn fuel free r s).2) = a_chunks (s_items s).
Proof.
  induction fuel as [|fuel IH]; intros r s; cbn [drop_loop]; [done|]. unfold sbind at 1, sget.
  destruct (next_ptr e (s_items s) r) as [x r']. unfold sbind at 1, slift. destruct x as [[[p y]|]| | | |]; try done.
  destruct (decide (p ∈ free)); [apply IH|]. unfold drop_value. unfold sbind at 1 2, sget. unfold sbind at 1, slift.
  destruct (slab_get s p) as [z| | | |]; try done. unfold sbind at 1 2. unfold on_items, zoom.
  assert (Hset : a_chunks (arena_set p (EDropped z) (s_items s)).2 = a_chunks (s_items s)).
  { unfold arena_set, arena_poke. repeat (case_match; try done). }
  destruct (arena_set p (EDropped z) (s_items s)) as [[[]| | | |] a']; cbn [fst snd] in *; try done.
  unfold smod. destruct (pn z); cbn; [done|]. rewrite IH. done.
Qed.
Lemma slab_clear_chunks e pn (s : slab (inner K V)) : a_chunks (s_items (slab_clear e pn s).2) = a_chunks (s_items s).
Proof.
  unfold slab_clear. unfold sbind at 1, sget. destruct (negb (e_nd e) || _); [done|]. unfold sbind at 1, slift.
  destruct (collect_free _ s (s_head s) ∅) as [fr| | | |]; try done. unfold sbind.
  pose proof (drop_loop_chunks e pn fr (S (N.to_nat (arena_len (s_items s)))) (iter_new (s_items s)) s) as H.
  destruct (drop_loop e pn _ fr _ s) as [[[]| | | |] s1]; cbn [fst snd] in *; try done.
Qed.

Lemma shrink_tagged e m t fl b : map_rep m t fl -> ok b ->
  exists m', map_shrink_to_fit e m = (Ret tt, m') /\
    ((map_capacity m' < map_capacity m)%N /\ (b_shrink_to_fit true e (m, b)).1 = UB UAlias \/
     m' = m /\ exists b', b_shrink_to_fit true e (m, b) = (Ret tt, (m, b')) /\ ok b').
Proof.
  intros [[_ Hs] _] Hok. set (a := s_items (m_nodes m)). assert (Hinv : arena_inv a) by apply Hs.
  pose proof (arena_shrink_spec e a Hinv) as Hspec. unfold wp in Hspec.
  destruct (arena_shrink_to_fit e a) as [r a'] eqn:Ea. destruct r as [[]| | | |]; try done. destruct Hspec as [Hsh Hmin].
  exists (set_nodes (set_items a' (m_nodes m)) m). split.
  { unfold map_shrink_to_fit, slab_shrink_to_fit, on_nodes, on_items, zoom. fold a. by rewrite Ea. }
  assert (Hself := self_stays b Hok (suffix_nil _)). destruct Hself as (self & b1 & E1 & Hok1 & Hs1).
  destruct (stays_mut self _ b1 Hok1 Hs1) as (h & b2 & E2 & Hok2 & Hs2).
  destruct (stays_mut h _ b2 Hok2 Hs2) as (it & b3 & E3 & Hok3 & Hs3).
  destruct (stays_mut it _ b3 Hok3 Hs3) as (ch & b4 & E4 & Hok4 & Hs4).
  remember (b_shrink_to_fit true e (m, b)) as o eqn:Ho.
  unfold b_shrink_to_fit in Ho. rewrite (run_r _ _ _ _ _ _ E1), (run_r _ _ _ _ _ _ E2), (run_r _ _ _ _ _ _ E3) in Ho.
  unfold sbind at 1 2, sget in Ho. unfold items_of in Ho. cbn [fst snd] in Ho. fold a in Ho. cbn [b_shrink_loop] in Ho.
  rewrite (run_r _ _ _ _ _ _ E4) in Ho. unfold sbind at 1, sget in Ho. unfold items_of in Ho. cbn [fst snd] in Ho. fold a in Ho.
  unfold arena_shrink_to_fit in Ea. unfold sbind at 1, sget in Ea. cbn [shrink_loop] in Ea. unfold sbind at 1, sget in Ea.
  assert (Hstop : a' = a -> exists b', (let (r, s') := sret tt (m, b4) in
      match r with Ret _ => on_r (access true it LSlab) s' | Panic p => (Panic p, s') | Abort => (Abort, s') | UB u => (UB u, s') | Diverge => (Diverge, s') end)
      = (Ret tt, (m, b')) /\ ok b').
  { intros _. apply slab_has_below in Hs4. destruct (stays_access true it _ b4 Hok4 Hs4) as ([] & b5 & E5 & Hok5 & _).
    exists b5. split; [|done]. cbn. unfold on_r, zoom. cbn. by rewrite E5. }
  assert (Hid : a' = a -> set_nodes (set_items a' (m_nodes m)) m = m).
  { intros ->. unfold a. by rewrite set_items_id, set_nodes_id. }
  destruct (list.last (a_chunks a)) as [c|] eqn:Hlast.
  2:{ assert (Ha : a' = a) by (by injection Ea). right. split; [by apply Hid|]. rewrite Ho. by apply Hstop. }
  apply last_Some in Hlast as [l Hl].
  assert (Hn : nchunks a = (N.of_nat (length l) + 1)%N). { unfold nchunks. rewrite Hl, app_length. simpl. lia. }
  pose proof (ai_n a Hinv) as H60. fold (nchunks a) in Ea, Ho.
  unfold sbind at 1, slift in Ea. unfold sbind at 1, slift in Ho. rewrite usub_ret in Ea, Ho by lia.
  assert (Hm : ((nchunks a - 1) mod U32 = nchunks a - 1)%N). { apply N.mod_small. change U32 with 4294967296%N. lia. }
  rewrite Hm in Ea, Ho. unfold sbind at 1 in Ea. unfold sbind at 1 in Ho. rewrite chunk_len_ret in Ea, Ho by lia.
  assert (Hcap : (a_cap a = cfirst (nchunks a - 1) + clen (nchunks a - 1))%N).
  { rewrite (ai_cap a Hinv), <- cfirst_S. f_equal. lia. }
  unfold sbind at 1 in Ea. unfold sbind at 1 in Ho. rewrite usub_ret in Ea, Ho by lia.
  replace (a_cap a - clen (nchunks a - 1))%N with (cfirst (nchunks a - 1)) in Ea, Ho by lia.
  destruct (N.leb_spec (a_len a) (cfirst (nchunks a - 1))) as [Hle|Hgt].
  - left. split.
    + unfold map_capacity, slab_capacity, arena_capacity. cbn. fold a. rewrite Hcap.
      specialize (Hmin (nchunks a - 1)%N Hle ltac:(lia)). destruct Hsh as [Hinv' _ _]. rewrite (ai_cap _ Hinv').
      pose proof (cfirst_mono _ _ Hmin). assert (0 < clen (nchunks a - 1))%N; [|lia]. unfold clen. pose proof (pow2_pos (nchunks a - 1)). lia.
    + assert (Hub : (b_free_chunk true ch c (clen (nchunks a - 1)) (m, b4)).1 = UB UAlias).
      { eapply free_tagged; [done|exact Hs4|]. unfold clen. pose proof (pow2_pos (nchunks a - 1)). lia. }
      rewrite Ho. unfold sbind at 1. destruct (b_free_chunk true ch c (clen (nchunks a - 1)) (m, b4)) as [r s']; cbn [fst] in Hub. by rewrite Hub.
  - assert (Ha : a' = a) by (by injection Ea). right. split; [by apply Hid|]. rewrite Ho. by apply Hstop.
Qed.
Lemma b_drop_arena e pn m b : ok b -> exists b1, ok b1 /\ forall tagged,
  let o := (if negb (e_nd e) then sret tt else slab_clear e pn) (m_nodes m) in
  b_drop tagged e pn (m, b) =
    match o.1 with
    | Ret _ => b_arena_drop tagged e (set_nodes o.2 m, b1)
    | Panic p => match b_arena_drop tagged e (set_nodes o.2 m, b1) with (Ret _, s2) => (Panic p, s2) | x => x end
    | r => (r, (set_nodes o.2 m, b1))
    end.
Proof.
  intros Hok. destruct (sim_drop_clear e pn m b Hok I) as (b1 & Hok1 & H1). exists b1. split; [done|]. intros tagged. cbn zeta. unfold b_drop.
  set (f := if negb (e_nd e) then sret tt else slab_clear e pn) in *. set (g := sbind (on_r (retag_mut base [LSlab])) _) in *.
  assert (Ho : on_nodes f m = ((f (m_nodes m)).1, set_nodes (f (m_nodes m)).2 m)).
  { unfold on_nodes, zoom. by destruct (f (m_nodes m)). }
  rewrite Ho in H1. clear Ho. destruct (f (m_nodes m)) as [r s1]; cbn [fst snd] in *.
  destruct r as [x|p| |u|]; [destruct H1 as (y & -> & <-)|rewrite H1..]; done.
Qed.
Lemma arena_drop_tagged e m b c cs : ok b -> a_chunks (s_items (m_nodes m)) = c :: cs -> (b_arena_drop true e (m, b)).1 = UB UAlias.
Proof.
  intros Hok Hc. unfold b_arena_drop.
  destruct (self_stays b Hok (suffix_nil _)) as (self & b1 & E1 & Hok1 & Hs1).
  destruct (stays_mut self _ b1 Hok1 Hs1) as (h & b2 & E2 & Hok2 & Hs2).
  destruct (stays_access true h _ b2 Hok2 Hs2) as ([] & b3 & E3 & Hok3 & Hs3). apply slab_has_below in Hs3.
  destruct (stays_mut self _ b3 Hok3 Hs3) as (it & b4 & E4 & Hok4 & Hs4).
  rewrite (run_r _ _ _ _ _ _ E1), (run_r _ _ _ _ _ _ E2), (run_r _ _ _ _ _ _ E3). unfold sbind at 1.
  change (on_arena (arena_clear e false (fun _ => false)) (m, b3)) with
    (Ret tt, (set_nodes (set_items (reset_len (s_items (m_nodes m))) (m_nodes m)) m, b3)). cbn match.
  rewrite (run_r _ _ _ _ _ _ E4). unfold sbind at 1 2, sget. set (m1 := set_nodes _ m). replace (a_chunks (items_of (m1, b4))) with (c :: cs) by done.
  cbn [b_free_chunks]. rewrite chunk_len_ret by lia. unfold sbind at 1 2, slift. cbn match.
  pose proof (free_tagged it c (clen 0) _ m1 b4 Hok4 Hs4 ltac:(done)) as Hub.
  match goal with H : ?x.1 = UB UAlias |- _ => destruct x as [r s']; cbn [fst] in H; by rewrite H end.
Qed.
Lemma sbind_same {S A B} (f : M S A) (g g' : A -> M S B) s : (forall x s', f s = (Ret x, s') -> g x s' = g' x s') -> sbind f g s = sbind f g' s.
Proof. intros H. unfold sbind. destruct (f s) as [[] s'] eqn:E; try done. by apply H. Qed.
Lemma on_r_fst {A} (g : M borrows A) (s : bmap K V) x s' : on_r g s = (Ret x, s') -> s'.1 = s.1.
Proof. unfold on_r, zoom. destruct (g s.2). by intros [= _ <-]. Qed.
Lemma arena_drop_empty e m b : a_chunks (s_items (m_nodes m)) = [] -> b_arena_drop true e (m, b) = b_arena_drop false e (m, b).
Proof.
  intros Hc. unfold b_arena_drop. apply sbind_same. intros self s1 E1%on_r_fst. apply sbind_same. intros h s2 E2%on_r_fst.
  apply sbind_same. intros [] s3 E3%on_r_fst. apply sbind_same. intros [] s4 E4. apply sbind_same. intros it s5 E5%on_r_fst.
  apply sbind_same. intros s6 s7 [= <- <-]. cbn [fst] in E1. rewrite E2, E1 in E3.
  assert (Hc1 : a_chunks (items_of s5) = []).
  { unfold items_of. rewrite E5. destruct s3 as [m3 b3]. cbn [fst] in E3. subst m3.
    change (on_arena (arena_clear e false (fun _ => false)) (m, b3)) with
      (Ret tt, (set_nodes (set_items (reset_len (s_items (m_nodes m))) (m_nodes m)) m, b3)) in E4. by injection E4 as <-. }
  by rewrite Hc1.
Qed.
Lemma drop_tagged e pn m t fl b : map_rep m t fl -> ok b ->
  ((0 < map_capacity m)%N -> (b_drop true e pn (m, b)).1 = UB UAlias) /\
  (map_capacity m = 0%N -> exists b', b_drop true e pn (m, b) = ((map_drop e pn m).1, ((map_drop e pn m).2, b')) /\ ok b').
Proof.
  intros [[_ Hs] _] Hok. assert (Hinv : arena_inv (s_items (m_nodes m))) by apply Hs.
  destruct (b_drop_arena e pn m b Hok) as (b1 & Hok1 & Hb). cbn zeta in Hb.
  set (f := if negb (e_nd e) then sret tt else slab_clear e pn) in *.
  assert (Hch : a_chunks (s_items (f (m_nodes m)).2) = a_chunks (s_items (m_nodes m))).
  { unfold f. destruct (negb (e_nd e)); [done|]. apply slab_clear_chunks. }
  assert (Hr : (f (m_nodes m)).1 = Ret tt \/ (f (m_nodes m)).1 = Panic PDrop).
  { unfold f. destruct (negb (e_nd e)); [by left|]. destruct (slab_clear_any e pn _ _ _ Hs) as (dr & s' & -> & _). cbn.
    destruct (existsb pn dr); auto. }
  assert (Hcap : map_capacity m = cfirst (nchunks (s_items (m_nodes m)))) by apply (ai_cap _ Hinv).
  split.
  - intros Hpos. destruct (a_chunks (s_items (m_nodes m))) as [|c cs] eqn:Hc.
    { rewrite Hcap in Hpos. unfold nchunks in Hpos. rewrite Hc in Hpos. done. }
    assert (Hub := arena_drop_tagged e (set_nodes (f (m_nodes m)).2 m) b1 c cs Hok1 Hch).
    rewrite Hb. destruct Hr as [-> | ->]; [done|].
    match goal with H : ?x.1 = UB UAlias |- _ => destruct x as [r s']; cbn [fst] in H; by rewrite H end.
  - intros Hz. assert (Hc : a_chunks (s_items (m_nodes m)) = []).
    { destruct (a_chunks (s_items (m_nodes m))) as [|c cs] eqn:Hc; [done|]. rewrite Hcap in Hz. unfold nchunks in Hz. rewrite Hc in Hz.
      pose proof (cfirst_mono 1 (N.of_nat (length (c :: cs))) ltac:(cbn [length]; lia)) as Hm. rewrite Hz in Hm. by vm_compute in Hm. }
    rewrite Hc in Hch. destruct (sim_run _ _ m b (sim_drop e pn m) Hok) as (b' & Hok' & E).
    exists b'. split; [|done]. rewrite <- E, Hb.
    rewrite Hb. rewrite (arena_drop_empty e (set_nodes (f (m_nodes m)).2 m) b1 Hch). done.
Qed.

(** ** Statements *)
Lemma free_shrink_tagged e m b : reachable e m -> ok b ->
  exists m', map_shrink_to_fit e m = (Ret tt, m') /\
    ((map_capacity m' < map_capacity m)%N -> (b_shrink_to_fit true e (m, b)).1 = UB UAlias) /\
    (map_capacity m' = map_capacity m -> exists b', b_shrink_to_fit true e (m, b) = (Ret tt, (m', b')) /\ ok b').
Proof.
  intros (t & fl & Hrep)%reachable_rep Hok. destruct (shrink_tagged e m t fl b Hrep Hok) as (m' & E & H). exists m'. split; [done|].
  destruct H as [[Hlt H]|[-> H]]; (split; [|]); try done; lia.
Qed.
Lemma free_drop_tagged e pn m b : reachable e m -> ok b ->
  ((0 < map_capacity m)%N -> (b_drop true e pn (m, b)).1 = UB UAlias) /\
  (map_capacity m = 0%N -> exists r m' b', map_drop e pn m = (r, m') /\ b_drop true e pn (m, b) = (r, (m', b'))).
Proof.
  intros (t & fl & Hrep)%reachable_rep Hok. destruct (drop_tagged e pn m t fl b Hrep Hok) as [H1 H2]. split; [done|].
  intros Hz. destruct (H2 Hz) as (b' & E & _). exists (map_drop e pn m).1, (map_drop e pn m).2, b'. split; [by destruct (map_drop e pn m)|done].
Qed.

End tagged.
