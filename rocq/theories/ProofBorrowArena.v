(** * Proofs about ModelBorrowArena.v *)

From Verif Require Import ProofBorrow ProofBorrowFree ProofArena ProofArenaRun SpecBorrowArena ModelBorrowArena.
Local Open Scope N_scope.

Section rules.
Context {Ru : rules}.
Notation ok := (ModelBorrow.ok Ru).
Context {T : Type}.
Implicit Types a : arena T.
Implicit Types l : list (Ptr * T).
Implicit Types b : borrows.

Lemma on_br_ret {A} (f : M borrows A) a b x b' : f b = (Ret x, b') -> on_br f (a, b) = (Ret x, (a, b')).
Proof. intros H. unfold on_br, zoom. cbn [snd]. by rewrite H. Qed.
Lemma on_ar_run {A} (f : M (arena T) A) a b : on_ar f (a, b) = ((f a).1, ((f a).2, b)).
Proof. unfold on_ar, zoom. cbn [fst snd]. by destruct (f a). Qed.
Lemma bind_ret {S A B} (f : M S A) (g : A -> M S B) s x s' : f s = (Ret x, s') -> sbind f g s = g x s'.
Proof. intros H. unfold sbind. by rewrite H. Qed.

(** ** The calls of the references *)

(** A new exclusive reference to an element. *)
Lemma item_mut p b : ok b -> exists n b', retag_mut base [litem p] b = (Ret n, b') /\ ok b' /\
  (exists s, b_at b' (litem p) = (n, Unique) :: s) /\ (forall lc, lc <> litem p -> b_at b' lc = b_at b lc).
Proof.
  intros Hok. destruct (retag_as_spec Unique base [litem p] b Hok (NoDup_singleton _)) as (b' & E & Hok' & _ & Hout & Hin).
  { intros lc _. by apply (base_grants true). }
  exists (b_next b), b'. split; [exact E|]. split; [done|]. split.
  - destruct (Hin (litem p) SharedRW []) as (above & _ & ->); [by left|by apply ok_base|by right|]. eauto.
  - intros lc Hl. apply Hout. by intros ->%elem_of_list_singleton.
Qed.

Lemma slab_mut t p s b : ok b -> slab_has ((t, p) :: s) b -> grants true p ->
  exists n b', retag_mut t [LSlab] b = (Ret n, b') /\ ok b' /\ (forall q, b_at b' (litem q) = b_at b (litem q)) /\
    slab_has ((n, Unique) :: (t, p) :: s) b'.
Proof.
  intros Hok Hs Hp. destruct (retag_slab_spec true t p s b Hok Hs Hp) as (b' & E & Hok' & _ & He & _ & Ht).
  exists (b_next b), b'. split_and!; [exact E|done|intros q; apply He, not_elem_of_nil|by apply Ht].
Qed.
Lemma slab_shr t p s b : ok b -> slab_has ((t, p) :: s) b -> grants false p ->
  exists n b', retag_shr t [LSlab] b = (Ret n, b') /\ ok b' /\ (forall q, b_at b' (litem q) = b_at b (litem q)) /\
    slab_has ((t, p) :: s) b' /\ b_at b' LSlab !! 0%nat = Some (n, SharedRO).
Proof.
  intros Hok Hs Hp. destruct (retag_as_spec SharedRO t [LSlab] b Hok slab_nodup) as (b' & E & Hok' & _ & Hout & Hin).
  { intros lc ->%elem_of_list_singleton. by exists p, s. }
  destruct (Hin LSlab p s) as (above & Hab & Hb'); [left|done|done|].
  exists (b_next b), b'. split_and!; [exact E|done| | |by rewrite Hb'].
  - intros q. apply Hout. by intros ?%elem_of_list_singleton.
  - unfold slab_has. rewrite Hb'. by apply suffix_cons_r, suffix_app_r.
Qed.
(** Using the one on top. *)
Lemma top_use wr t p s lc b : ok b -> b_at b lc = (t, p) :: s -> grants wr p ->
  exists b', access wr t lc b = (Ret tt, b') /\ ok b' /\ forall lc', b_at b' lc' = b_at b lc'.
Proof. intros H1 H2 H3. destruct (access_top wr t p s lc b H1 H2 H3) as (b' & E & Hok & [Hs _]). by exists b'. Qed.

(** ** Mutable sessions *)

(** The references that are held. *)
Definition held_mut (refs : list (Ptr * nat)) b : Prop :=
  forall p n, (p, n) ∈ refs -> exists s, b_at b (litem p) = (n, Unique) :: s.
Lemma held_mut_same refs b b' : (forall q, b_at b' (litem q) = b_at b (litem q)) -> held_mut refs b -> held_mut refs b'.
Proof. intros H Hh p n Hin. rewrite H. by apply Hh. Qed.

Record mut_state (it : nat) (st : stack) (s : session) (a : arena T) b (ab : abstract) : Prop := {
  ms_ok : ok b;
  ms_slab : slab_has ((it, Unique) :: st) b;
  ms_rep : arena_rep a ab.1.1;
  ms_its : exists r, s.1 = [(it, r)] /\ good_range ab.1.1 r /\ ab.1.2 = [(left_of ab.1.1 r).*1] /\
             (forall p, p ∈ s.2.*1 -> p ∉ (left_of ab.1.1 r).*1);
  ms_refs : s.2.*1 = ab.2;
  ms_nodup : NoDup s.2.*1;
  ms_in : forall p, p ∈ s.2.*1 -> p ∈ ab.1.1.*1;
  ms_held : held_mut s.2 b;
}.

Lemma left_sub l r p : p ∈ (left_of l r).*1 -> p ∈ l.*1.
Proof.
  unfold left_of, ProofArenaRun.between. intros Hp. apply elem_of_list_fmap in Hp as (y & -> & Hy). apply elem_of_list_fmap.
  exists y. split; [done|]. apply elem_of_list_lookup in Hy as [i Hi]. rewrite elem_of_list_lookup.
  apply lookup_take_Some in Hi as [Hi _]. rewrite lookup_drop in Hi. eauto.
Qed.
Lemma left_nodup l r : NoDup l.*1 -> NoDup (left_of l r).*1.
Proof.
  intros H. unfold left_of, ProofArenaRun.between. rewrite fmap_take, fmap_drop. generalize (N.to_nat (r_start r)).
  intros j. generalize (N.to_nat (r_end r) - j)%nat. intros i. rewrite <- (take_drop j l.*1) in H. apply NoDup_app in H as (_ & _ & H).
  rewrite <- (take_drop i (drop j l.*1)) in H. by apply NoDup_app in H as (H & _).
Qed.

Lemma end_left d l r r' : left_of l r' = match d with AtFront => tail (left_of l r) | AtBack => removelast (left_of l r) end ->
  (left_of l r').*1 = rest_of d (left_of l r).*1.
Proof.
  intros ->. destruct d; cbn [rest_of]; [by destruct (left_of l r)|].
  generalize (left_of l r). intros q. induction q as [|x q IH]; [done|]. destruct q; [done|]. csimpl. csimpl in IH. by rewrite <- IH.
Qed.
Lemma end_item d (q : list (Ptr * T)) : fst <$> match d with AtFront => head q | AtBack => list.last q end = from_end d q.*1.
Proof. destruct d; cbn [from_end]; [by destruct q|]. by rewrite fmap_last. Qed.
Lemma from_end_in {A} d (q : list A) x : from_end d q = Some x -> x ∈ q.
Proof.
  destruct d; cbn [from_end]; [|by apply last_Some_elem_of].
  destruct q; [done|]. intros [= ->]. left.
Qed.
Lemma rest_sub {A} d (q : list A) x : x ∈ rest_of d q -> x ∈ q.
Proof.
  destruct d; cbn [rest_of].
  - destruct q; [done|]. by right.
  - destruct q as [|y q _] using rev_ind; [done|]. rewrite removelast_last. rewrite elem_of_app. by left.
Qed.
Lemma rest_gone {A} d (q : list A) x : NoDup q -> from_end d q = Some x -> x ∉ rest_of d q.
Proof.
  destruct d; cbn [from_end rest_of].
  - destruct q; [done|]. intros [? _]%NoDup_cons [= ->]. done.
  - destruct q as [|y q _] using rev_ind; [done|]. rewrite last_snoc, removelast_last. intros Hn [= ->].
    apply NoDup_app in Hn as (_ & Hn & _). intros Hx. apply (Hn x Hx). left.
Qed.

Lemma mut_event e self it st ev s a b ab : mut_state it st s a b ab -> event_legal true ab.1.1 ev ->
  exists s' a' b', ba_event e true self ev s (a, b) = (Ret (event_out ev ab, s'), (a', b')) /\
    mut_state it st s' a' b' (event_after ev ab).
Proof.
  intros [Hok Hslab Hrep (r & Hits & Hr & Hq & Hfar) Hrefs Hnd Hin Hheld] Hleg.
  destruct s as [its refs], ab as [[l qs] ps]. cbn [fst snd] in *. subst its qs ps.
  assert (Hout : forall p n, (p, n) ∈ refs -> p ∈ refs.*1) by (intros p n H; apply elem_of_list_fmap; by exists (p, n)).
  destruct ev as [|k d|p|j|j w]; cbn [event_legal] in Hleg; [done| |by destruct Hleg| |].
  - cbn [ba_event event_out event_after]. destruct k as [|k].
    2: { eexists _, _, _. split; [done|].
         split; cbn [fst snd]; try done. by exists r. }
    cbn [lookup list_lookup mbind option_bind].
    destruct (end_ptr_spec e a l d r Hrep Hr) as (y & r' & Hp & Hr' & _ & Hy & Hl & _).
    apply end_left in Hl. pose proof (end_item d (left_of l r)) as Hy'. rewrite <- Hy in Hy'.
    unfold ba_next. unfold sbind at 1 2. unfold sget. cbn [fst]. rewrite Hp. unfold sbind at 1, slift.
    destruct y as [[p x]|]; cbn [fmap option_fmap option_map fst] in Hy'.
    + symmetry in Hy'.
      destruct (slab_shr it Unique st b Hok Hslab) as (h & b1 & E1 & Hok1 & Hi1 & Hs1 & Ht1); [done|].
      rewrite (bind_ret _ _ _ _ _ (on_br_ret _ a _ _ _ E1)).
      destruct (b_at b1 LSlab) as [|? s1] eqn:Hst1; [done|]. injection Ht1 as ->.
      destruct (top_use false h SharedRO s1 LSlab b1 Hok1 Hst1) as (b2 & E2 & Hok2 & Hs2); [done|].
      rewrite (bind_ret _ _ _ _ _ (on_br_ret _ a _ _ _ E2)).
      destruct (item_mut p b2 Hok2) as (n & b3 & E3 & Hok3 & Htop & Hs3).
      rewrite (bind_ret _ _ _ _ _ (on_br_ret _ a _ _ _ E3)). unfold sret.
      pose proof (from_end_in _ _ _ Hy') as Hpl.
      assert (Hpn : p ∉ refs.*1) by (intros Hx; by apply (Hfar p)).
      rewrite Hy'. cbn [option_list fmap option_fmap option_map fst].
      eexists _, _, _. split; [done|]. split; cbn [fst snd].
      * done.
      * unfold slab_has in *. rewrite Hs3, Hs2 by done. done.
      * done.
      * exists r'. split; [done|]. split; [done|]. cbn [insert list_insert]. rewrite <- Hl. split; [done|].
        intros q Hx. rewrite fmap_app in Hx. apply elem_of_app in Hx as [Hx|Hx].
        -- rewrite Hl. intros Hz%rest_sub. by apply (Hfar q).
        -- apply elem_of_list_singleton in Hx as ->. rewrite Hl. apply rest_gone; [|done]. by eapply left_nodup, arena_rep_nodup.
      * by rewrite fmap_app.
      * rewrite fmap_app. apply NoDup_app. split_and!; [done| |apply NoDup_singleton]. intros q Hx ->%elem_of_list_singleton. done.
      * intros q Hx. rewrite fmap_app in Hx. apply elem_of_app in Hx as [Hx|Hx]; [by apply Hin|].
        apply elem_of_list_singleton in Hx as ->. by eapply left_sub.
      * intros q n' Hx. apply elem_of_app in Hx as [Hx|Hx].
        -- rewrite Hs3, Hs2, Hi1; [by apply Hheld|]. intros [= ->]. by apply Hpn, (Hout _ n').
        -- apply elem_of_list_singleton in Hx as [= -> ->]. done.
    + symmetry in Hy'. unfold sret. rewrite Hy'. cbn [option_list]. rewrite !app_nil_r. eexists _, _, _. split; [done|].
      split; cbn [fst snd]; try done. exists r'. split; [done|]. split; [done|]. cbn [insert list_insert]. rewrite <- Hl. split; [done|].
      intros q Hx. rewrite Hl. intros Hz%rest_sub. by apply (Hfar q).
  - cbn [ba_event event_out event_after]. rewrite list_lookup_fmap. destruct (refs !! j) as [[p n]|] eqn:Hj.
    2: { eexists _, _, _. split; [done|]. split; cbn [fst snd]; try done. by exists r. }
    apply elem_of_list_lookup_2 in Hj. destruct (Hheld p n Hj) as (s1 & Hs1).
    destruct (top_use false n Unique s1 (litem p) b Hok Hs1) as (b1 & E1 & Hok1 & Hsame); [done|].
    rewrite (bind_ret _ _ _ _ _ (on_br_ret _ a _ _ _ E1)). unfold sbind at 1, sget. cbn [fst].
    pose proof (Hin p (Hout p n Hj)) as Hpl. apply elem_of_list_fmap in Hpl as ([? x] & -> & Hx). cbn [fst] in *.
    pose proof (rp_cell _ _ Hrep _ _ Hx) as Hc. apply arena_get_ret in Hc.
    unfold sbind, slift. rewrite Hc. cbn [fmap option_fmap option_map fst mbind option_bind].
    apply (held_in l _ x) in Hx; [|by eapply arena_rep_nodup]. rewrite Hx. unfold sret.
    eexists _, _, _. split; [done|]. split; cbn [fst snd]; try done.
    + unfold slab_has. by rewrite Hsame.
    + by exists r.
    + eapply held_mut_same; [|done]. intros q. apply Hsame.
  - cbn [ba_event event_out event_after]. rewrite list_lookup_fmap. destruct (refs !! j) as [[p n]|] eqn:Hj.
    2: { eexists _, _, _. split; [done|]. split; cbn [fst snd]; try done. by exists r. }
    apply elem_of_list_lookup_2 in Hj. destruct (Hheld p n Hj) as (s1 & Hs1).
    destruct (top_use true n Unique s1 (litem p) b Hok Hs1) as (b1 & E1 & Hok1 & Hsame); [by left|].
    rewrite (bind_ret _ _ _ _ _ (on_br_ret _ a _ _ _ E1)). unfold sbind. rewrite on_ar_run.
    pose proof (Hin p (Hout p n Hj)) as Hpl. rewrite (arena_set_rep a l p w Hrep Hpl). cbn [fst snd]. unfold sret.
    cbn [fmap option_fmap option_map fst].
    pose proof Hpl as Hpl'. apply elem_of_list_fmap in Hpl' as ([q0 x] & Hq0 & Hx). cbn [fst] in Hq0. subst q0.
    apply elem_of_list_lookup in Hx as [i Hi].
    assert (Hleft : (left_of (store l p w) r).*1 = (left_of l r).*1).
    { unfold left_of, ProofArenaRun.between. by rewrite !fmap_take, !fmap_drop, store_fst. }
    eexists _, _, _. split; [done|]. split; cbn [fst snd]; try done.
    + unfold slab_has. by rewrite Hsame.
    + by apply arena_rep_put.
    + exists r. split; [done|]. rewrite Hleft. split; [|done]. destruct Hr as [? Hr]. split; [done|].
      rewrite (store_insert l i p x w (arena_rep_nodup _ _ Hrep) Hi), insert_length. done.
    + intros q Hx. rewrite store_fst. by apply Hin.
    + eapply held_mut_same; [|done]. intros q. apply Hsame.
Qed.

(** ** Shared sessions *)

Record shr_state (self : nat) (s : session) (a : arena T) b (ab : abstract) : Prop := {
  sh_ok : ok b;
  sh_self : live self LSlab b;
  sh_rep : arena_rep a ab.1.1;
  sh_its : Forall2 (fun y q => live y.1 LSlab b /\ good_range ab.1.1 y.2 /\ (left_of ab.1.1 y.2).*1 = q) s.1 ab.1.2;
  sh_refs : Forall2 (fun y p => y.1 = p /\ p ∈ ab.1.1.*1 /\ live y.2 (litem p) b) s.2 ab.2;
}.
Lemma shr_state_keeps self s a b b' ab : ok b' -> keeps b b' -> shr_state self s a b ab -> shr_state self s a b' ab.
Proof.
  intros Hok Hk [_ H2 H3 H4 H5]. split; [done|by eapply live_keeps|done| |].
  - eapply Forall2_impl; [exact H4|]. intros y q (? & ? & ?). split; [by eapply live_keeps|done].
  - eapply Forall2_impl; [exact H5|]. intros y q (? & ? & ?). split; [done|]. split; [done|by eapply live_keeps].
Qed.

Lemma get_shr h p a b : ok b -> live h LSlab b ->
  exists n b', ba_get false h p (a, b) = (Ret n, (a, b')) /\ ok b' /\ keeps b b' /\ live n (litem p) b'.
Proof.
  intros Hok Hl. unfold ba_get, retag.
  destruct (shr_retag h [LSlab] b Hok slab_nodup) as (h' & b1 & E1 & Hok1 & Hk1 & _); [by intros lc ->%elem_of_list_singleton|].
  rewrite (bind_ret _ _ _ _ _ (on_br_ret _ a _ _ _ E1)).
  destruct (shr_retag base [litem p] b1 Hok1 (NoDup_singleton _)) as (n & b2 & E2 & Hok2 & Hk2 & Hn); [by intros lc _; apply live_base|].
  rewrite (on_br_ret _ a _ _ _ E2). exists n, b2. split; [done|]. split; [done|]. split; [by eapply keeps_trans|]. apply Hn. left.
Qed.

Lemma iter_shr self a b : ok b -> live self LSlab b ->
  exists it b', ba_iter false self (a, b) = (Ret (it, iter_new a), (a, b')) /\ ok b' /\ keeps b b' /\ live it LSlab b'.
Proof.
  intros Hok Hl. unfold ba_iter, retag.
  destruct (shr_retag self [LSlab] b Hok slab_nodup) as (it & b1 & E1 & Hok1 & Hk1 & Hn1); [by intros lc ->%elem_of_list_singleton|].
  rewrite (bind_ret _ _ _ _ _ (on_br_ret _ a _ _ _ E1)). specialize (Hn1 LSlab ltac:(left)).
  destruct (shr_retag it [LSlab] b1 Hok1 slab_nodup) as (h & b2 & E2 & Hok2 & Hk2 & Hn2); [by intros lc ->%elem_of_list_singleton|].
  rewrite (bind_ret _ _ _ _ _ (on_br_ret _ a _ _ _ E2)). specialize (Hn2 LSlab ltac:(left)).
  destruct (shr_access h LSlab b2 Hok2 Hn2) as (b3 & E3 & Hok3 & Hk3).
  rewrite (bind_ret _ _ _ _ _ (on_br_ret _ a _ _ _ E3)). unfold sbind, sget, sret. cbn [fst].
  exists it, b3. split; [done|]. split; [done|]. split; [by eapply keeps_trans; [|eapply keeps_trans]|].
  eapply live_keeps; [exact Hk3|]. by eapply live_keeps.
Qed.

Lemma shr_event e self ev s a b ab : shr_state self s a b ab -> event_legal false ab.1.1 ev ->
  exists s' a' b', ba_event e false self ev s (a, b) = (Ret (event_out ev ab, s'), (a', b')) /\
    shr_state self s' a' b' (event_after ev ab).
Proof.
  intros Hst Hleg. pose proof Hst as [Hok Hself Hrep Hits Hrefs].
  destruct s as [its refs], ab as [[l qs] ps]. cbn [fst snd] in *.
  destruct ev as [|k d|p|j|j w]; cbn [event_legal] in Hleg; cbn [ba_event event_out event_after].
  - destruct (iter_shr self a b Hok Hself) as (it & b1 & E1 & Hok1 & Hk1 & Hl1).
    rewrite (bind_ret _ _ _ _ _ E1). unfold sret. eexists _, _, _. split; [done|].
    apply (shr_state_keeps _ _ _ _ b1 _ Hok1 Hk1) in Hst as [_ H2 H3 H4 H5]. cbn [fst snd] in *.
    split; cbn [fst snd]; try done. apply Forall2_app; [done|]. constructor; [|constructor].
    destruct (iter_new_range a l Hrep) as [Hr Hl]. cbn [fst snd]. by rewrite Hl.
  - destruct (its !! k) as [[it r]|] eqn:Hk.
    2: { assert (qs !! k = None) as ->.
         { apply lookup_ge_None in Hk. apply lookup_ge_None. by rewrite <- (Forall2_length _ _ _ Hits). }
         by eexists _, _, _. }
    destruct (Forall2_lookup_l _ _ _ _ _ Hits Hk) as (q & Hqk & Hit & Hr & Hq). cbn [fst snd] in Hit, Hr, Hq.
    rewrite Hqk. cbn [mbind option_bind].
    destruct (end_ptr_spec e a l d r Hrep Hr) as (y & r' & Hp & Hr' & _ & Hy & Hl & _).
    apply end_left in Hl. pose proof (end_item d (left_of l r)) as Hy'. rewrite <- Hy, Hq in Hy'. rewrite Hq in Hl.
    unfold ba_next. unfold sbind at 1 2. unfold sget. cbn [fst]. rewrite Hp. unfold sbind at 1, slift.
    destruct y as [[p x]|]; cbn [fmap option_fmap option_map fst] in Hy'.
    + destruct (shr_retag it [LSlab] b Hok slab_nodup) as (h & b1 & E1 & Hok1 & Hk1 & Hn1); [by intros lc ->%elem_of_list_singleton|].
      rewrite (bind_ret _ _ _ _ _ (on_br_ret _ a _ _ _ E1)). specialize (Hn1 LSlab ltac:(left)).
      destruct (shr_access h LSlab b1 Hok1 Hn1) as (b2 & E2 & Hok2 & Hk2).
      rewrite (bind_ret _ _ _ _ _ (on_br_ret _ a _ _ _ E2)).
      assert (Hk12 : keeps b b2) by by eapply keeps_trans.
      destruct (get_shr it p a b2 Hok2) as (n & b3 & E3 & Hok3 & Hk3 & Hn3); [by eapply live_keeps|].
      rewrite (bind_ret _ _ _ _ _ E3). unfold sret. rewrite <- Hy'. cbn [option_list fmap option_fmap option_map fst].
      eexists _, _, _. split; [done|].
      assert (Hk13 : keeps b b3) by by eapply keeps_trans.
      apply (shr_state_keeps _ _ _ _ b3 _ Hok3 Hk13) in Hst as [_ H2 H3 H4 H5]. cbn [fst snd] in *.
      split; cbn [fst snd]; try done.
      * apply Forall2_insert; [done|]. cbn [fst snd]. split; [by eapply live_keeps|done].
      * apply Forall2_app; [done|]. constructor; [|constructor]. cbn [fst snd]. split; [done|]. split; [|done].
        apply (left_sub l r). rewrite Hq. by eapply from_end_in.
    + unfold sret. rewrite <- Hy'. cbn [option_list fmap option_fmap option_map]. rewrite !app_nil_r. eexists _, _, _. split; [done|].
      split; cbn [fst snd]; try done. apply Forall2_insert; done.
  - destruct Hleg as [_ Hp]. destruct (get_shr self p a b Hok Hself) as (n & b1 & E1 & Hok1 & Hk1 & Hl1).
    rewrite (bind_ret _ _ _ _ _ E1). unfold sret. eexists _, _, _. split; [done|].
    apply (shr_state_keeps _ _ _ _ b1 _ Hok1 Hk1) in Hst as [_ H2 H3 H4 H5]. cbn [fst snd] in *.
    split; cbn [fst snd]; try done. apply Forall2_app; [done|]. by constructor.
  - destruct (refs !! j) as [[p n]|] eqn:Hj.
    + destruct (Forall2_lookup_l _ _ _ _ _ Hrefs Hj) as (? & -> & <- & Hp & Hl). cbn [fst snd] in *.
      destruct (shr_access n (litem p) b Hok Hl) as (b1 & E1 & Hok1 & Hk1).
      rewrite (bind_ret _ _ _ _ _ (on_br_ret _ a _ _ _ E1)). unfold sbind at 1, sget. cbn [fst].
      apply elem_of_list_fmap in Hp as ([? x] & -> & Hx). cbn [fst] in *.
      pose proof (rp_cell _ _ Hrep _ _ Hx) as Hc. apply arena_get_ret in Hc.
      unfold sbind, slift. rewrite Hc. cbn [mbind option_bind].
      apply (held_in l _ x) in Hx; [|by eapply arena_rep_nodup]. rewrite Hx. unfold sret.
      eexists _, _, _. split; [done|]. by eapply shr_state_keeps.
    + assert (ps !! j = None) as ->.
      { apply lookup_ge_None in Hj. apply lookup_ge_None. by rewrite <- (Forall2_length _ _ _ Hrefs). }
      by eexists _, _, _.
  - done.
Qed.

(** ** Sessions *)

Lemma event_legal_after mut (ab : abstract (T := T)) ev ev' : event_legal mut ab.1.1 ev' -> event_legal mut (event_after ev ab).1.1 ev'.
Proof.
  intros H. destruct ab as [[l qs] ps]. cbn [fst snd] in H. assert (E : (event_after ev (l, qs, ps)).1.1.*1 = l.*1).
  { destruct ev; cbn [event_after fst snd]; try done; case_match; cbn [fst snd]; try done. apply store_fst. }
  destruct ev'; cbn [event_legal] in *; try done. by rewrite E.
Qed.

Lemma mut_events e self it st : forall evs s a b ab, mut_state it st s a b ab -> Forall (event_legal true ab.1.1) evs ->
  exists s' a' b', ba_events e true self evs s (a, b) = (Ret (events_out evs ab), (a', b')) /\
    mut_state it st s' a' b' (events_after evs ab).
Proof.
  induction evs as [|ev evs IH]; intros s a b ab Hst Hleg; cbn [ba_events events_out events_after].
  { by eexists _, _, _. }
  apply Forall_cons in Hleg as [Hl Hls].
  destruct (mut_event e self it st ev s a b ab Hst Hl) as (s1 & a1 & b1 & E1 & Hst1). rewrite (bind_ret _ _ _ _ _ E1).
  destruct (IH s1 a1 b1 _ Hst1) as (s2 & a2 & b2 & E2 & Hst2).
  { eapply Forall_impl; [exact Hls|]. intros ev'. apply event_legal_after. }
  rewrite (bind_ret _ _ _ _ _ E2). by eexists _, _, _.
Qed.
Lemma shr_events e self : forall evs s a b ab, shr_state self s a b ab -> Forall (event_legal false ab.1.1) evs ->
  exists s' a' b', ba_events e false self evs s (a, b) = (Ret (events_out evs ab), (a', b')) /\
    shr_state self s' a' b' (events_after evs ab).
Proof.
  induction evs as [|ev evs IH]; intros s a b ab Hst Hleg; cbn [ba_events events_out events_after].
  { by eexists _, _, _. }
  apply Forall_cons in Hleg as [Hl Hls].
  destruct (shr_event e self ev s a b ab Hst Hl) as (s1 & a1 & b1 & E1 & Hst1). rewrite (bind_ret _ _ _ _ _ E1).
  destruct (IH s1 a1 b1 _ Hst1) as (s2 & a2 & b2 & E2 & Hst2).
  { eapply Forall_impl; [exact Hls|]. intros ev'. apply event_legal_after. }
  rewrite (bind_ret _ _ _ _ _ E2). by eexists _, _, _.
Qed.
(** Shared references write nothing. *)
Lemma shr_contents : forall evs (ab : abstract (T := T)) l, Forall (event_legal false l) evs -> (events_after evs ab).1.1 = ab.1.1.
Proof.
  induction evs as [|ev evs IH]; intros ab l Hleg; cbn [events_after]; [done|].
  apply Forall_cons in Hleg as [Hl Hls]. rewrite (IH _ l Hls). destruct ab as [[l0 qs] ps].
  destruct ev; cbn [event_after event_legal] in *; try done. by case_match.
Qed.

Lemma slab_base b : ok b -> slab_has [(base, SharedRW)] b.
Proof. apply ok_base. Qed.

Lemma mut_session e evs a b l : arena_rep a l -> ok b -> Forall (event_legal true l) evs ->
  exists a' b', ba_session e true evs (a, b) = (Ret (events_out evs (at_start l)), (a', b')) /\ ok b' /\
    arena_rep a' (events_after evs (at_start l)).1.1.
Proof.
  intros Hrep Hok Hleg. unfold ba_session, retag.
  destruct (slab_mut base SharedRW [] b Hok (slab_base b Hok)) as (self & b1 & E1 & Hok1 & _ & Hs1); [by right|].
  rewrite (bind_ret _ _ _ _ _ (on_br_ret _ a _ _ _ E1)).
  destruct (slab_mut self Unique _ b1 Hok1 Hs1) as (it & b2 & E2 & Hok2 & _ & Hs2); [by left|].
  assert (E : exists b3, ba_iter true self (a, b1) = (Ret (it, iter_new a), (a, b3)) /\ ok b3 /\
            slab_has ((it, Unique) :: (self, Unique) :: [(base, SharedRW)]) b3).
  { unfold ba_iter, retag. rewrite (bind_ret _ _ _ _ _ (on_br_ret _ a _ _ _ E2)).
    destruct (slab_shr it Unique _ b2 Hok2 Hs2) as (h & b3 & E3 & Hok3 & _ & Hs3 & Ht3); [done|].
    rewrite (bind_ret _ _ _ _ _ (on_br_ret _ a _ _ _ E3)).
    destruct (b_at b3 LSlab) as [|? s3] eqn:Hst3; [done|]. injection Ht3 as ->.
    destruct (top_use false h SharedRO s3 LSlab b3 Hok3 Hst3) as (b4 & E4 & Hok4 & Hs4); [done|].
    rewrite (bind_ret _ _ _ _ _ (on_br_ret _ a _ _ _ E4)). unfold sbind, sget, sret. cbn [fst].
    exists b4. split; [done|]. split; [done|]. unfold slab_has in *. by rewrite Hs4. }
  destruct E as (b3 & E3 & Hok3 & Hs3).
  destruct (iter_new_range a l Hrep) as [Hr Hl].
  destruct (mut_events e self it ((self, Unique) :: [(base, SharedRW)]) evs ([(it, iter_new a)], []) a b3 (at_start l)) as (s' & a' & b' & E4 & Hst').
  { split; cbn [fst snd at_start]; try done.
    - exists (iter_new a). rewrite Hl. split_and!; [done..|]. by intros p ?%elem_of_nil.
    - constructor.
    - by intros p ?%elem_of_nil.
    - by intros p n ?%elem_of_nil. }
  { done. }
  exists a', b'. destruct Hst' as [H1 _ H3 _ _ _ _ _]. split_and!; [|done|done].
  rewrite (bind_ret _ _ _ _ _ E3). exact E4.
Qed.

Lemma shr_session e evs a b l : arena_rep a l -> ok b -> Forall (event_legal false l) evs ->
  exists a' b', ba_session e false evs (a, b) = (Ret (events_out evs (at_start l)), (a', b')) /\ ok b' /\
    arena_rep a' l.
Proof.
  intros Hrep Hok Hleg. unfold ba_session.
  destruct (shr_retag base [LSlab] b Hok slab_nodup) as (self & b1 & E1 & Hok1 & Hk1 & Hn1); [by intros lc _; apply live_base|].
  specialize (Hn1 LSlab ltac:(left)).
  change (retag false base [LSlab]) with (retag_shr base [LSlab]).
  rewrite (bind_ret _ _ _ _ _ (on_br_ret _ a _ _ _ E1)).
  destruct (iter_shr self a b1 Hok1 Hn1) as (it & b2 & E2 & Hok2 & Hk2 & Hl2). rewrite (bind_ret _ _ _ _ _ E2).
  destruct (iter_new_range a l Hrep) as [Hr Hl].
  destruct (shr_events e self evs ([(it, iter_new a)], []) a b2 (at_start l)) as (s' & a' & b' & E4 & Hst').
  { split; cbn [fst snd at_start]; try done; [by eapply live_keeps|]. constructor; [|constructor]. cbn [fst snd]. by rewrite Hl. }
  { done. }
  exists a', b'. destruct Hst' as [H1 _ H3 _ _]. split_and!; [exact E4|done|]. by rewrite (shr_contents _ _ _ Hleg) in H3.
Qed.

(** ** Calls *)

Lemma self_mut a b : ok b -> exists self b', on_br (retag_mut base [LSlab]) (a, b) = (Ret self, (a, b')) /\ ok b' /\
  slab_has ((self, Unique) :: [(base, SharedRW)]) b'.
Proof.
  intros Hok. destruct (slab_mut base SharedRW [] b Hok (slab_base b Hok)) as (self & b1 & E1 & Hok1 & _ & Hs1); [by right|].
  exists self, b1. split; [by apply on_br_ret|done].
Qed.
Lemma self_use wr t s a b : ok b -> slab_has ((t, Unique) :: s) b ->
  exists b', on_br (access wr t LSlab) (a, b) = (Ret tt, (a, b')) /\ ok b' /\ slab_has ((t, Unique) :: s) b'.
Proof.
  intros Hok Hs. destruct (access_spec wr b t Unique s LSlab Hok Hs (grants_unique wr)) as (above & b1 & _ & E1 & Hok1 & _ & Hb1 & _).
  exists b1. split; [by apply on_br_ret|]. split; [done|]. unfold slab_has. rewrite Hb1. by apply suffix_app_r.
Qed.
Lemma item_write p a b : ok b -> exists n b1 b', on_br (retag_mut base [litem p]) (a, b) = (Ret n, (a, b1)) /\
  on_br (access true n (litem p)) (a, b1) = (Ret tt, (a, b')) /\ ok b'.
Proof.
  intros Hok. destruct (item_mut p b Hok) as (n & b1 & E1 & Hok1 & (s & Hs) & _).
  destruct (top_use true n Unique s (litem p) b1 Hok1 Hs) as (b2 & E2 & Hok2 & _); [by left|].
  exists n, b1, b2. split_and!; [by apply on_br_ret|by apply on_br_ret|done].
Qed.

Lemma ba_exec_spec tagged e c a b l : arena_rep a l -> ok b -> prog_legal (e_nd e) l c ->
  exists r a' b', ba_exec tagged e c (a, b) = (r, (a', b')) /\ prog_answers l c r /\ ok b' /\
    (process_on r -> arena_rep a' (prog_after l c r)).
Proof.
  intros Hrep Hok Hleg. destruct c as [x|p|p x|n| | |evs|evs]; cbn [ba_exec prog_legal] in *.
  - pose proof (arena_exec_spec e (AAlloc x) a l Hrep I) as H. cbn [arena_answers] in H.
    destruct (self_mut a b Hok) as (self & b1 & E1 & Hok1 & Hs1). rewrite (bind_ret _ _ _ _ _ E1).
    destruct (self_use true self _ a b1 Hok1 Hs1) as (b2 & E2 & Hok2 & _). rewrite (bind_ret _ _ _ _ _ E2).
    unfold sbind at 1. rewrite on_ar_run. destruct (arena_exec e (AAlloc x) a) as [r a']. cbn [fst snd].
    destruct H as [[(p & -> & Hp)|Hno] Hr].
    + destruct (item_write p a' b2 Hok2) as (n & b3 & b4 & E3 & E4 & Hok4).
      rewrite (bind_ret _ _ _ _ _ E3), (bind_ret _ _ _ _ _ E4). eexists _, _, _. split; [done|].
      split; [left; by exists p|]. split; [done|]. intros _. by destruct (Hr I).
    + destruct Hno as [->|[->| ->]]; (eexists _, _, _; split; [done|]; split; [right; unfold no_room; naive_solver|]; split; [done|]; intros Hp; by destruct (Hr Hp)).
  - pose proof (arena_exec_spec e (AGet p) a l Hrep Hleg) as H. cbn [arena_answers] in H.
    destruct (shr_retag base [LSlab] b Hok slab_nodup) as (self & b1 & E1 & Hok1 & Hk1 & Hn1); [by intros lc _; apply live_base|].
    specialize (Hn1 LSlab ltac:(left)). rewrite (bind_ret _ _ _ _ _ (on_br_ret _ a _ _ _ E1)).
    destruct (get_shr self p a b1 Hok1 Hn1) as (n & b2 & E2 & Hok2 & Hk2 & Hl2). rewrite (bind_ret _ _ _ _ _ E2).
    destruct (shr_access n (litem p) b2 Hok2 Hl2) as (b3 & E3 & Hok3 & Hk3). rewrite (bind_ret _ _ _ _ _ (on_br_ret _ a _ _ _ E3)).
    unfold sbind at 1. rewrite on_ar_run. destruct (arena_exec e (AGet p) a) as [r a']. cbn [fst snd].
    destruct H as [(x & -> & Hx) Hr]. eexists _, _, _. split; [done|]. split; [by exists x|]. split; [done|]. intros _. by destruct (Hr I).
  - pose proof (arena_exec_spec e (ASet p x) a l Hrep Hleg) as H. cbn [arena_answers] in H.
    destruct (self_mut a b Hok) as (self & b1 & E1 & Hok1 & Hs1). rewrite (bind_ret _ _ _ _ _ E1). unfold ba_get, retag.
    destruct (slab_mut self Unique _ b1 Hok1 Hs1) as (h & b2 & E2 & Hok2 & _ & Hs2); [by left|].
    destruct (item_write p a b2 Hok2) as (n & b3 & b4 & E3 & E4 & Hok4).
    assert (E23 : (let! _ := on_br (retag_mut self [LSlab]) in on_br (retag_mut base [litem p])) (a, b1) = (Ret n, (a, b3))).
    { rewrite (bind_ret _ _ _ _ _ (on_br_ret _ a _ _ _ E2)). exact E3. }
    rewrite (bind_ret _ _ _ _ _ E23), (bind_ret _ _ _ _ _ E4).
    unfold sbind at 1. rewrite on_ar_run. destruct (arena_exec e (ASet p x) a) as [r a']. cbn [fst snd].
    destruct H as [-> Hr]. eexists _, _, _. split; [done|]. split; [done|]. split; [done|]. intros _. by destruct (Hr I).
  - pose proof (arena_exec_spec e (AReserve n) a l Hrep I) as H. cbn [arena_answers] in H.
    destruct (self_mut a b Hok) as (self & b1 & E1 & Hok1 & Hs1). rewrite (bind_ret _ _ _ _ _ E1).
    destruct (self_use true self _ a b1 Hok1 Hs1) as (b2 & E2 & Hok2 & _). rewrite (bind_ret _ _ _ _ _ E2).
    unfold sbind at 1. rewrite on_ar_run. destruct (arena_exec e (AReserve n) a) as [r a']. cbn [fst snd].
    destruct H as [Ha Hr]. unfold reserve_answers, no_room in Ha.
    assert (Hfin : forall rr : res (prog_out T), reserve_answers (N.of_nat (length l)) n (OCall AUnit) rr -> (process_on rr -> process_on r) ->
      exists r0 a0 b0, (rr, (a', b2)) = (r0, (a0, b0)) /\ prog_answers l (BReserve n) r0 /\ ok b0 /\ (process_on r0 -> arena_rep a0 (prog_after l (BReserve n) r0))).
    { intros rr H1 H2. exists rr, a', b2. split; [done|]. split; [done|]. split; [done|]. intros Hp. destruct (Hr (H2 Hp)) as [H3 _].
      cbn [arena_after] in H3. by destruct r. }
    destruct Ha as [->|[[->|[->| ->]]|[-> Hov]]]; apply Hfin; try done; unfold reserve_answers, no_room; naive_solver.
  - pose proof (arena_exec_spec e ALen a l Hrep I) as H. cbn [arena_answers] in H.
    destruct (shr_retag base [LSlab] b Hok slab_nodup) as (self & b1 & E1 & Hok1 & Hk1 & Hn1); [by intros lc _; apply live_base|].
    specialize (Hn1 LSlab ltac:(left)). rewrite (bind_ret _ _ _ _ _ (on_br_ret _ a _ _ _ E1)).
    destruct (shr_access self LSlab b1 Hok1 Hn1) as (b2 & E2 & Hok2 & Hk2). rewrite (bind_ret _ _ _ _ _ (on_br_ret _ a _ _ _ E2)).
    unfold sbind at 1. rewrite on_ar_run. destruct (arena_exec e ALen a) as [r a']. cbn [fst snd].
    destruct H as [-> Hr]. eexists _, _, _. split; [done|]. split; [done|]. split; [done|]. intros _. by destruct (Hr I).
  - assert (Hall : arena_legal l (AClear (fun _ => false))) by (cbn [arena_legal]; by apply Forall_forall).
    pose proof (arena_exec_spec e (AClear (fun _ => false)) a l Hrep Hall) as H. cbn [arena_answers] in H.
    destruct (self_mut a b Hok) as (self & b1 & E1 & Hok1 & Hs1). rewrite (bind_ret _ _ _ _ _ E1). unfold ba_clear.
    rewrite Hleg. cbn [negb orb].
    destruct (self_use true self _ a b1 Hok1 Hs1) as (b2 & E2 & Hok2 & _).
    unfold sbind at 1 2, sget. unfold sbind at 1, sret at 1. rewrite (bind_ret _ _ _ _ _ E2).
    rewrite on_ar_run. destruct (arena_exec e (AClear (fun _ => false)) a) as [r a']. cbn [fst snd].
    destruct H as [-> Hr]. eexists _, _, _. split; [done|]. split; [done|]. split; [done|]. intros _. by destruct (Hr I).
  - destruct (mut_session e evs a b l Hrep Hok Hleg) as (a' & b' & E & Hok' & Hrep'). rewrite (bind_ret _ _ _ _ _ E).
    eexists _, _, _. split; [done|]. split; [done|]. split; [done|]. done.
  - destruct (shr_session e evs a b l Hrep Hok Hleg) as (a' & b' & E & Hok' & Hrep'). rewrite (bind_ret _ _ _ _ _ E).
    eexists _, _, _. split; [done|]. split; [done|]. split; [done|]. done.
Qed.

Lemma ba_run_spec tagged e : forall cs a b l rs s, arena_rep a l -> ok b -> ba_run tagged e cs (a, b) = (rs, s) ->
  prog_contract (e_nd e) l cs rs ->
  prog_results l cs rs /\ ok s.2 /\ (Forall process_on rs -> arena_rep s.1 (prog_contents l cs rs)).
Proof.
  induction cs as [|c cs IH]; intros a b l rs s Hrep Hok Hrun Hct; cbn [ba_run] in Hrun.
  { by injection Hrun as <- <-. }
  assert (Hleg : prog_legal (e_nd e) l c) by (destruct rs; [exact Hct|apply Hct]).
  destruct (ba_exec_spec tagged e c a b l Hrep Hok Hleg) as (r & a1 & b1 & E & Hans & Hok1 & Hon). rewrite E in Hrun.
  assert (Hgo : process_on r -> forall rs1, ba_run tagged e cs (a1, b1) = (rs1, s) -> prog_contract (e_nd e) l (c :: cs) (r :: rs1) ->
    prog_results l (c :: cs) (r :: rs1) /\ ok s.2 /\ (Forall process_on (r :: rs1) -> arena_rep s.1 (prog_contents l (c :: cs) (r :: rs1)))).
  { intros Hp rs1 Hrun1 [_ Hct1]. destruct (IH _ _ _ _ _ (Hon Hp) Hok1 Hrun1 Hct1) as (Hres & Hf & Hr). split; [|split; [done|]].
    - split; [done|]. by left.
    - intros [_ Hall]%Forall_cons. by apply Hr. }
  destruct r as [x|p| |u|].
  - destruct (ba_run tagged e cs (a1, b1)) as [rs1 s1] eqn:H1. injection Hrun as <- <-. by apply Hgo.
  - destruct (ba_run tagged e cs (a1, b1)) as [rs1 s1] eqn:H1. injection Hrun as <- <-. by apply Hgo.
  - injection Hrun as <- <-. split_and!; [split; [done|right]; split; [tauto|done]|done|by intros [[] _]%Forall_cons].
  - injection Hrun as <- <-. split_and!; [split; [done|right]; split; [tauto|done]|done|by intros [[] _]%Forall_cons].
  - injection Hrun as <- <-. split_and!; [split; [done|right]; split; [tauto|done]|done|by intros [[] _]%Forall_cons].
Qed.

End rules.

(** ** Programs *)
Lemma arena_programs {T} (R : rules) tagged e n (a : arena T) b cs rs s : arena_begin e n = (Ret tt, a) -> ok R b ->
  ba_run tagged e cs (a, b) = (rs, s) -> prog_contract (e_nd e) [] cs rs -> prog_results [] cs rs /\ ok R s.2.
Proof.
  intros Ha Hok Hrun Hct. apply arena_begin_spec in Ha as [Hrep _].
  destruct (ba_run_spec (Ru := R) _ _ _ _ _ _ _ _ Hrep Hok Hrun Hct) as (H1 & H2 & _). done.
Qed.
Lemma arena_programs_rep {T} (R : rules) tagged e n (a : arena T) b cs rs s : arena_begin e n = (Ret tt, a) -> ok R b ->
  ba_run tagged e cs (a, b) = (rs, s) -> prog_contract (e_nd e) [] cs rs -> Forall process_on rs ->
  arena_rep s.1 (prog_contents [] cs rs).
Proof.
  intros Ha Hok Hrun Hct. apply arena_begin_spec in Ha as [Hrep _].
  by destruct (ba_run_spec (Ru := R) _ _ _ _ _ _ _ _ Hrep Hok Hrun Hct) as (_ & _ & H3).
Qed.
Lemma arena_programs_end {T} (R : rules) tagged e n (a : arena T) b cs rs s : arena_begin e n = (Ret tt, a) -> ok R b ->
  ba_run tagged e cs (a, b) = (rs, s) -> prog_contract (e_nd e) [] cs rs -> Forall process_on rs ->
  forall p x, (p, x) ∈ prog_contents [] cs rs -> arena_get s.1 p = Ret x.
Proof.
  intros Ha Hok Hrun Hct Hall p x Hin. pose proof (arena_programs_rep R _ _ _ _ _ _ _ _ Ha Hok Hrun Hct Hall) as Hrep.
  apply arena_get_ret. by apply (rp_cell _ _ Hrep).
Qed.

(** No event of a session is ever refused: whatever references are held, each may be used. *)
Lemma arena_session {T} (R : rules) e n cs rs (a : arena T) b mut evs : arena_reached e n cs rs a -> arena_contract [] cs rs ->
  Forall process_on rs -> ok R b -> Forall (event_legal mut (arena_contents [] cs rs)) evs ->
  exists s, ba_session e mut evs (a, b) = (Ret (events_out evs (at_start (arena_contents [] cs rs))), s) /\ ok R s.2 /\
    forall p x, (p, x) ∈ (events_after evs (at_start (arena_contents [] cs rs))).1.1 -> arena_get s.1 p = Ret x.
Proof.
  intros H1 H2 H3 Hok Hleg. destruct (arena_final _ _ _ _ _ H1 H2 H3) as [Hrep _]. destruct mut.
  - destruct (mut_session (Ru := R) e evs a b _ Hrep Hok Hleg) as (a' & b' & E & Hok' & Hrep'). exists (a', b'). split; [done|]. split; [done|].
    intros p x Hin. apply arena_get_ret. by apply (rp_cell _ _ Hrep').
  - destruct (shr_session (Ru := R) e evs a b _ Hrep Hok Hleg) as (a' & b' & E & Hok' & Hrep'). exists (a', b'). split; [done|]. split; [done|].
    intros p x Hin. rewrite (shr_contents _ _ _ Hleg) in Hin. apply arena_get_ret. by apply (rp_cell _ _ Hrep').
Qed.

(** ** [clear] with destructors *)

Lemma gone_as t l ls : forall b, b_rules b = Stacked -> l ∈ ls -> t ∉ (b_at b l).*1 -> (access_all_as true false t ls b).1 = UB UAlias.
Proof.
  induction ls as [|l' ls IH]; intros b Hr Hin Ht; [by apply elem_of_nil in Hin|].
  cbn [access_all_as]. unfold sbind, access_as. rewrite Hr. destruct (use_stack Stacked true t (b_at b l')) as [st|] eqn:E; [|done].
  apply elem_of_cons in Hin as [->|Hin]; [by unfold use_stack in E; rewrite use_write_none in E|].
  destruct (decide (l = l')) as [->|Hne]; [by unfold use_stack in E; rewrite use_write_none in E|].
  apply IH; [done|done|]. by rewrite set_at_ne.
Qed.

Lemma clear_chunk_ub {T} e c cs b (a : arena T) it n s : ok Stacked b -> slab_has ((it, Unique) :: s) b ->
  (ba_clear_chunks true e it 0 (c :: cs) n (a, b)).1 = UB UAlias.
Proof.
  intros Hok Hs. cbn [ba_clear_chunks]. unfold slift, sbind at 1. replace (chunk_len e 0) with (Ret 8 : res N) by done.
  destruct (self_use (Ru := Stacked) false it s a b Hok Hs) as (b1 & E1 & Hok1 & _). rewrite (bind_ret _ _ _ _ _ E1).
  destruct (item_mut (Ru := Stacked) (c, 0) b1 Hok1) as (first & b2 & E2 & Hok2 & (s2 & Hs2) & _).
  rewrite (bind_ret _ _ _ _ _ (on_br_ret _ a _ _ _ E2)). unfold as_raw.
  destruct (retag_as_spec (Ru := Stacked) SharedRW first [litem (c, 0)] b2 Hok2 (NoDup_singleton _)) as (b3 & E3 & Hok3 & Hn3 & Hout3 & _).
  { intros lc ->%elem_of_list_singleton. exists Unique, s2. split; [by rewrite Hs2|by left]. }
  rewrite (bind_ret _ _ _ _ _ (on_br_ret _ a _ _ _ E3)).
  assert (Hub : (on_br (retag_mut (b_next b2) ((fun i => litem (c, N.of_nat i)) <$> seq 0 (N.to_nat 8))) (a, b3)).1 = UB UAlias).
  { unfold on_br, zoom, retag_mut, retag_as. cbn [snd]. unfold sbind, sget, smod, sret. cbn [fst snd].
    change (negb (bool_decide (Unique = SharedRO))) with true.
    set (b4 := mkB (b_rules b3) (S (b_next b3)) (b_at b3) (b_path b3) (b_perm b3)).
    assert (H4 : (access_all_as true false (b_next b2) ((fun i => litem (c, N.of_nat i)) <$> seq 0 (N.to_nat 8)) b4).1 = UB UAlias).
    { apply (gone_as _ (litem (c, 1))).
      - apply (ok_rules _ _ Hok3).
      - apply elem_of_list_fmap. exists 1%nat. split; [done|]. apply elem_of_seq. lia.
      - cbn [b4 b_at]. rewrite Hout3 by by intros ?%elem_of_list_singleton. intros Hin.
        destruct (ok_at _ _ Hok2 (litem (c, 1))) as (_ & Hlt & _). specialize (Hlt _ Hin). lia. }
    destruct (access_all_as _ _ _ _ b4) as [r4 b5]. cbn [fst] in H4. by rewrite H4. }
  unfold sbind at 1. destruct (on_br _ (a, b3)) as [r4 s4]. cbn [fst] in Hub. by rewrite Hub.
Qed.

Lemma clear_ub {T} e n cs rs (a : arena T) b : arena_reached e n cs rs a -> arena_contract [] cs rs ->
  Forall process_on rs -> ok Stacked b -> e_nd e = true -> arena_contents [] cs rs <> [] ->
  (ba_exec true e BClear (a, b)).1 = UB UAlias.
Proof.
  intros H1 H2 H3 Hok Hnd Hl. destruct (arena_final _ _ _ _ _ H1 H2 H3) as [Hrep _].
  pose proof (arena_rep_len _ _ Hrep) as Hlen. pose proof (rp_inv _ _ Hrep) as Hinv.
  set (l := arena_contents [] cs rs) in *. assert (Hpos : a_len a <> 0) by (destruct l; [done|]; cbn [length] in Hlen; lia).
  cbn [ba_exec]. destruct (self_mut (Ru := Stacked) a b Hok) as (self & b1 & E1 & Hok1 & Hs1). rewrite (bind_ret _ _ _ _ _ E1).
  unfold ba_clear. unfold sbind at 1 2, sget. rewrite Hnd. unfold arena_is_empty, arena_len. cbn [fst negb orb].
  apply N.eqb_neq in Hpos as Hpos'. rewrite Hpos'.
  destruct (slab_mut (Ru := Stacked) self Unique _ b1 Hok1 Hs1) as (it & b2 & E2 & Hok2 & _ & Hs2); [by left|].
  assert (exists c ch, a_chunks a = c :: ch) as (c & ch & Hch).
  { destruct (a_chunks a) eqn:Hc; [|eauto]. destruct Hpos. pose proof (ai_len _ Hinv) as H. rewrite (ai_cap _ Hinv) in H.
    unfold nchunks in H. rewrite Hc in H. change (cfirst (N.of_nat (length ([] : list N)))) with 0 in H. lia. }
  rewrite Hch. pose proof (clear_chunk_ub e c ch b2 a it (a_len a) _ Hok2 Hs2) as Hub.
  unfold sbind at 1. unfold sbind at 1. rewrite (on_br_ret _ a _ _ _ E2).
  destruct (ba_clear_chunks true e it 0 (c :: ch) (a_len a) (a, b2)) as [r s]. cbn [fst] in Hub. by rewrite Hub.
Qed.
