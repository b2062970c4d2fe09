(** * Room, high-water mark, ownership, and maps with arbitrary comparators *)

From Coq Require Import String.
From Verif Require Export ProofSafety.
From Verif Require Import ProofQuiet.

Section ledger_proofs.
Context {K V : Type}.
Implicit Types m : bstmap K V.
Implicit Types t : ptree K V.

(** ** C24 *)

Lemma insert_room e (o : oracle K) (k : K) (v : V) m r m' : reachable e m -> (entry_count e m < map_capacity m)%N ->
  exec e (OInsert o k v) m = (r, m') ->
  (r = Panic PCmp \/ exists x, r = Ret x) /\ requests m' = requests m /\ map_capacity m' = map_capacity m /\
  (entry_count e m' <= entry_count e m + 1)%N.
Proof.
  intros (t & fl & Hrep)%reachable_rep Hlt He. rewrite (rep_size _ _ _ _ Hrep) in *.
  pose proof (bstmap_insert_spec e o k v m t fl Hrep) as H1. pose proof (insert_call e o k v m t fl Hrep) as H2.
  unfold wp in H1, H2. simpl in He. unfold sbind in He.
  destruct (bstmap_insert e o k v m) as [[x|p| |u|] m1]; try done; injection He as <- <-.
  - destruct H2 as (q & t' & fl' & Hi & Hrep' & Hg & Hro & _). pose proof (tins_size _ _ _ _ _ _ _ _ Hi) as Hs.
    assert (Hst : stays m m1). { apply Hro. destruct x; lia. }
    rewrite (rep_size _ _ _ _ Hrep'). split_and!; [eauto|apply Hst|apply Hst|]. destruct x; lia.
  - destruct H1 as [(Hp & -> & _)|(m0 & Href & _)].
    + injection Hp as ->. assert (Hrep' : map_rep (log_drops [inl k; inr v] m) t fl) by done.
      rewrite (rep_size _ _ _ _ Hrep'). split_and!; try done; [eauto|lia].
    + destruct Href as (_ & _ & _ & Hc & _). lia.
  - destruct H1 as [(Hp & -> & _)|(m0 & Href & _)]; [done|].
    destruct Href as (_ & _ & _ & Hc & _). lia.
Qed.

Lemma inserts_room e cs : forall m rs m', reachable e m -> Forall (fun c => exists o k v, c = OInsert o k v) cs ->
  (entry_count e m + N.of_nat (length cs) <= map_capacity m)%N -> run e cs m = (rs, m') ->
  length rs = length cs /\ Forall (fun r => r = Panic PCmp \/ exists x, r = Ret x) rs /\
  requests m' = requests m /\ map_capacity m' = map_capacity m.
Proof.
  induction cs as [|c cs IH]; intros m rs m' Hreach Hcs Hle Hrun; simpl in Hrun.
  - injection Hrun as <- <-. done.
  - apply Forall_cons in Hcs as [(o & k & v & ->) Hcs]. simpl in Hle.
    destruct (exec e (OInsert o k v) m) as [r m1] eqn:He.
    destruct (insert_room _ _ _ _ _ _ _ Hreach ltac:(lia) He) as (Hr & H1 & H2 & H3).
    assert (Hna : r <> Abort) by (destruct Hr as [->|[x ->]]; done).
    pose proof (reachable_step _ _ _ _ _ Hreach He Hna) as Hreach1.
    assert (Hgo : exists rs1, rs = r :: rs1 /\ run e cs m1 = (rs1, m')).
    { destruct Hr as [->|[x ->]]; cbn [exec] in He; destruct (run e cs m1) as [rs1 m2]; injection Hrun as <- <-; eauto. }
    destruct Hgo as (rs1 & -> & Hr1).
    destruct (IH m1 rs1 m' Hreach1 Hcs ltac:(lia) Hr1) as (A1 & A2 & A3 & A4). simpl.
    split_and!; try congruence. by constructor.
Qed.

Lemma removing_keeps_room e c m r m' : reachable e m -> exec e c m = (r, m') ->
  match c with ORemove _ | ORemoveEntry _ | OClear => True | _ => False end ->
  map_capacity m' = map_capacity m /\ requests m' = requests m.
Proof.
  intros (t & fl & Hrep)%reachable_rep He Hc. pose proof (exec_cases e c m t fl Hrep) as H. rewrite He in H.
  assert (Hgo : exists t', effects c m t m' t').
  { destruct r as [x|p| |u|]; try done; destruct H as (t' & fl' & _ & _ & Hef & _); eauto. }
  destruct Hgo as [t' Hef]. pose proof (ef_room _ _ _ _ _ Hef) as Hr. destruct c; try done; split; apply Hr.
Qed.

(** ** C25 *)

Lemma exec_slots e c m t fl r m' : map_rep m t fl -> exec e c m = (r, m') ->
  slots m' = match c, r with
             | OClear, _ => 0%N
             | OClone _ _ _, Ret _ => entry_count e m'
             | _, _ => N.max (slots m) (entry_count e m')
             end.
Proof.
  intros Hrep He. pose proof (exec_cases e c m t fl Hrep) as H. rewrite He in H.
  pose proof (map_rep_len _ _ _ Hrep) as Hl.
  assert (Hstop : forall q, exec_stop e c m t q m' ->
    slots m' = match c with OClear => 0%N | _ => N.max (slots m) (entry_count e m') end).
  { intros q (t' & fl' & Hrep' & Hs & Hef & _ & Hu). rewrite (rep_size _ _ _ _ Hrep').
    pose proof (ef_slots _ _ _ _ _ Hef) as Hsl. unfold slots, arena_len. fold (mem m) (mem m').
    destruct c; try done. destruct Hs as [-> _]. destruct Hu as [[_ [n Hu]] _]. unfold mem at 1. rewrite Hu. simpl. lia. }
  destruct r as [x|p| |u|]; try done.
  - destruct H as (t' & fl' & Hrep' & Hs & Hef & _ & Hu). rewrite (rep_size _ _ _ _ Hrep').
    pose proof (ef_slots _ _ _ _ _ Hef) as Hsl. unfold slots, arena_len. fold (mem m) (mem m').
    destruct c; try done.
  - rewrite (Hstop _ H). by destruct c.
  - rewrite (Hstop _ H). by destruct c.
Qed.

Lemma run_slots e cs : forall m t fl rs m', map_rep m t fl -> run e cs m = (rs, m') ->
  slots m' = peak e cs m (slots m).
Proof.
  induction cs as [|c cs IH]; intros m t fl rs m' Hrep Hrun; cbn [run peak] in *.
  - by injection Hrun as <- <-.
  - destruct (exec e c m) as [r m1] eqn:He. rewrite <- (exec_slots e c m t fl r m1 Hrep He).
    destruct (exec_rep _ _ _ _ _ _ _ Hrep He) as [Hd (t1 & fl1 & Hrep1)].
    destruct r as [x|p| |u|]; try done.
    + destruct (run e cs m1) as [rs1 m2] eqn:Hr. injection Hrun as <- <-. by eapply IH.
    + destruct (run e cs m1) as [rs1 m2] eqn:Hr. injection Hrun as <- <-. by eapply IH.
    + by injection Hrun as <- <-.
Qed.

Lemma high_water e (s : start K V) cs rs m m0 : begin e s = (Ret tt, m0) -> run e cs m0 = (rs, m) ->
  slots m = peak e cs m0 (entry_count e m0).
Proof.
  intros Hb Hr. pose proof (begin_rep e s) as H. rewrite Hb in H. destruct H as (t & fl & Hrep & Hl & _).
  rewrite (run_slots _ _ _ _ _ _ _ Hrep Hr). f_equal. rewrite (rep_size _ _ _ _ Hrep). exact Hl.
Qed.

(** Free slots are used before any memory is requested. *)
Lemma reuse e (o : oracle K) (k : K) (v : V) m r m' : reachable e m -> (entry_count e m < slots m)%N ->
  exec e (OInsert o k v) m = (r, m') -> slots m' = slots m /\ requests m' = requests m.
Proof.
  intros Hreach Hlt He. pose proof Hreach as (t & fl & Hrep)%reachable_rep.
  assert (Hcap : (slots m <= map_capacity m)%N) by (by eapply map_rep_cap).
  destruct (insert_room _ _ _ _ _ _ _ Hreach ltac:(lia) He) as (Hr & H1 & H2 & H3). split; [|done].
  rewrite (exec_slots _ _ _ _ _ _ _ Hrep He). cbv beta iota. lia.
Qed.

(** ** C26, C27 *)

Lemma mut_written_yielded evs : forall (l : list (K * V)) a x l' n z, a <= length l -> mut_walk l a x evs = (l', n, z) ->
  a <= n <= length l /\ mut_written (length l) a evs = mut_written n a evs.
Proof.
  induction evs as [|[|j v] evs IH]; intros l a x l' n z Ha Hw; simpl in *.
  - injection Hw as <- <- <-. done.
  - destruct (Nat.ltb a (length l)) eqn:E.
    + apply Nat.ltb_lt in E. assert (Ha' : S a <= length l) by lia. destruct (IH _ _ _ _ _ _ Ha' Hw) as [H1 H2]. split; [lia|].
      assert (Nat.ltb a n = true) as -> by (apply Nat.ltb_lt; lia). done.
    + apply Nat.ltb_ge in E. destruct (IH _ _ _ _ _ _ Ha Hw) as [H1 H2]. split; [lia|].
      assert (Nat.ltb a n = false) as -> by (apply Nat.ltb_ge; lia). done.
  - destruct (Nat.ltb j a).
    + pose proof (IH (alter (fun kv : K * V => (kv.1, v)) j l) a x l' n z) as H. rewrite alter_length in H.
      destruct (H Ha Hw) as [H1 H2]. split; [done|]. by f_equal.
    + by eapply IH.
Qed.

(** The arena has run no destructor, so all that was dropped is known. *)
Lemma dropped_gone m : a_drops (s_items (m_nodes m)) = [] -> dropped m = gone m.
Proof. intros H. unfold dropped. rewrite H. simpl. by rewrite app_nil_r. Qed.

Lemma tree_order_length d t : length (tree_order d (erase t)) = tsize t.
Proof. rewrite <- porder_erase, fmap_length. apply porder_length. Qed.

Lemma exec_taken e c m t fl r m' : e_nd e = true -> no_clone c -> map_rep m t fl -> exec e c m = (r, m') -> r <> Abort ->
  exists t' fl' g, map_rep m' t' fl' /\ taken c r g /\ held t' ++ gone m' ++ handed c r ≡ₚ held t ++ gone m ++ g.
Proof.
  intros Hnd Hnc Hrep He Hna. pose proof (exec_cases e c m t fl Hrep) as H. rewrite He in H.
  destruct r as [x|p| |u|]; try done.
  - destruct H as (t' & fl' & Hrep' & Hs & _ & Hac & _). exists t', fl'.
    assert (Hc : (exists d evs, c = OIterMut d evs) \/ match c with OIterMut _ _ => False | _ => True end) by (destruct c; eauto).
    destruct Hc as [Hc|Hc].
    { destruct Hc as (d & evs & ->). simpl in Hs, Hac. destruct Hs as [_ Hs].
      destruct (mut_walk (tree_order d (erase t)) 0 0 evs) as [[l' n] z] eqn:Hw. destruct Hs as [_ ->].
      eexists. split; [done|]. split; [done|]. simpl.
      destruct (mut_written_yielded _ _ _ _ _ _ _ (Nat.le_0_l _) Hw) as [H1 H2].
      rewrite tree_order_length in H1, H2. rewrite take_length, tree_order_length, Nat.min_l by lia. by rewrite <- H2. }
    exists (given (tsize t) c x). split; [done|]. split.
    + destruct c as [o k v|o|o|o|o|o|o w|o w| | | | |n| |os it|d n|d evs|path|path w| |os ck cv]; done.
    + unfold account in Hac. destruct c; try done; try exact Hac. cbn [returned given handed]. rewrite !app_nil_r. by apply Hac.
  - destruct H as (t' & fl' & Hrep' & Hs & _ & Hac & _). exists t', fl'. unfold account_stop in Hac. cbn [handed].
    destruct c as [o k v|o|o|o|o|o|o w|o w| | | | |n| |os it|d n|d evs|path|path w| |os ck cv]; try done.
    all: try (exists []; rewrite !app_nil_r; done).
    + eexists. rewrite app_nil_r. done.
    + destruct Hac as (n & Hn & Hac). exists (owned (take n (ui_items it))). rewrite app_nil_r. split; [done|]. split; [by exists n|done].
Qed.

Lemma run_ledger e cs : forall m t fl rs m', e_nd e = true -> Forall no_clone cs -> alive rs -> map_rep m t fl -> run e cs m = (rs, m') ->
  exists t' fl' G B, map_rep m' t' fl' /\ ledger cs rs G B /\ held t' ++ gone m' ++ B ≡ₚ held t ++ gone m ++ G.
Proof.
  induction cs as [|c cs IH]; intros m t fl rs m' Hnd Hnc Ha Hrep Hrun; cbn [run] in Hrun.
  - injection Hrun as <- <-. exists t, fl, [], []. done.
  - apply Forall_cons in Hnc as [Hc Hnc]. destruct (exec e c m) as [r m1] eqn:He.
    destruct (exec_rep _ _ _ _ _ _ _ Hrep He) as [Hd _].
    assert (Hgo : exists rs1, r <> Abort /\ rs = r :: rs1 /\ run e cs m1 = (rs1, m')).
    { destruct r as [x|p| |u|]; try done.
      - destruct (run e cs m1) as [rs1 m2]. injection Hrun as <- <-. eauto.
      - destruct (run e cs m1) as [rs1 m2]. injection Hrun as <- <-. eauto.
      - injection Hrun as <- <-. by apply Forall_cons in Ha as [? _]. }
    destruct Hgo as (rs1 & Hna & -> & Hr1). apply Forall_cons in Ha as [_ Ha].
    destruct (exec_taken _ _ _ _ _ _ _ Hnd Hc Hrep He Hna) as (t1 & fl1 & g & Hrep1 & Hg & Hac).
    destruct (IH m1 t1 fl1 rs1 m' Hnd Hnc Ha Hrep1 Hr1) as (t' & fl' & G & B & Hrep' & Hl & Hac').
    exists t', fl', (g ++ G), (handed c r ++ B). split; [done|]. split; [by exists g, G, B|].
    transitivity ((held t' ++ gone m' ++ B) ++ handed c r); [solve_Permutation|]. rewrite Hac'.
    transitivity ((held t1 ++ gone m1 ++ handed c r) ++ G); [solve_Permutation|]. rewrite Hac. solve_Permutation.
Qed.

Lemma held_owned t d : owned (tree_order d (erase t)) ≡ₚ held t.
Proof. unfold held. apply owned_perm. rewrite <- porder_erase. by rewrite porder_perm. Qed.

Lemma conserved e (s : start K V) cs rs m : e_nd e = true -> Forall no_clone cs -> reached e s cs rs m -> alive rs ->
  exists G B, ledger cs rs G B /\ forall d l, yields m d l ->
    owned l ++ dropped m ++ B ≡ₚ start_taken s ++ G.
Proof.
  intros Hnd Hnc (m0 & Hb & Hr) Ha. pose proof (begin_rep e s) as H. rewrite Hb in H. destruct H as (t & fl & Hrep & _ & H).
  destruct (run_ledger e cs m0 t fl rs m Hnd Hnc Ha Hrep Hr) as (t' & fl' & G & B & Hrep' & Hl & Hac).
  exists G, B. split; [done|]. intros d l Hy. rewrite (rep_yields_eq _ _ _ _ _ Hrep' Hy), held_owned.
  rewrite (dropped_gone m) by (apply (arena_silent e) with s cs rs; by exists m0). rewrite Hac.
  rewrite app_assoc. f_equiv. destruct s as [|n|os it]; simpl.
  - by destruct H as [-> ->].
  - by destruct H as (-> & -> & _).
  - apply H.
Qed.

Lemma drop_releases e m : reachable e m -> exists m', map_drop e (fun _ => false) m = (Ret tt, m') /\
  blocks m' = ∅ /\ (e_nd e = true -> forall d l, yields m d l -> dropped m' ≡ₚ dropped m ++ owned l).
Proof.
  intros Hreach. assert (Hq : a_drops (s_items (m_nodes m)) = []) by (destruct Hreach as (s & cs & rs & Hr & _); by apply (arena_silent e) in Hr).
  pose proof (proj1 (proj2 (proj2 (arena_silent e))) (fun _ => false) m Hq) as Hq'. apply reachable_rep in Hreach as (t & fl & Hrep).
  destruct (map_drop_spec e (fun _ => false) m t fl Hrep) as (m' & drops & Heq & H1 & H2 & H3 & H4); [done|].
  exists m'. split_and!; [done|done|]. intros Hnd d l Hy. rewrite Hnd in H4.
  rewrite (rep_yields_eq _ _ _ _ _ Hrep Hy), held_owned. rewrite Heq in Hq'. rewrite !dropped_gone by done. unfold gone.
  rewrite H2, H3, fmap_app, owned_app.
  assert (Ho : owned (kv_of <$> drops) ≡ₚ held t) by (by apply owned_perm). rewrite Ho. solve_Permutation.
Qed.

(** Plain data *)
Lemma plain_data e m pn : reachable e m -> e_nd e = false -> visited m = 0 /\
  (exists m', map_clear e pn m = (Ret tt, m') /\ visited m' = 0 /\ forall d, yields m' d []) /\
  (exists m', map_drop e pn m = (Ret tt, m') /\ visited m' = 0 /\ blocks m' = ∅).
Proof.
  intros Hreach Hnd. destruct (plain_silent (K := K) (V := V) e Hnd) as (_ & _ & Hdr & Hcl & _ & Hre).
  destruct (arena_silent (K := K) (V := V) e) as (_ & _ & Hdr2 & Hcl2 & _ & Hre2).
  assert (Hv : s_drops (m_nodes m) = [] /\ a_drops (s_items (m_nodes m)) = []).
  { destruct Hreach as (s & cs & rs & Hr & _). split; [exact (Hre _ _ _ _ Hr)|exact (Hre2 _ _ _ _ Hr)]. }
  destruct Hv as [Hv Hv2]. apply reachable_rep in Hreach as (t & fl & Hrep). unfold visited. split; [by rewrite Hv, Hv2|]. split.
  - assert (Heq : map_clear e pn m = map_clear e (fun _ => false) m) by (unfold map_clear, slab_clear; by rewrite Hnd).
    destruct (map_clear_spec e (fun _ => false) m t fl Hrep) as (m' & drops & H & Hrep' & _); [done|]. rewrite Heq, H.
    exists m'. pose proof (Hcl (fun _ => false) m Hv) as H'. pose proof (Hcl2 (fun _ => false) m Hv2) as H2'. rewrite H in H', H2'.
    cbn [snd] in *. split_and!; [done|by rewrite H', H2'|]. intros d.
    pose proof (rep_yields _ _ _ d Hrep') as Hy. by destruct d.
  - assert (Heq : map_drop e pn m = map_drop e (fun _ => false) m) by (unfold map_drop, slab_drop; by rewrite Hnd).
    destruct (map_drop_spec e (fun _ => false) m t fl Hrep) as (m' & drops & H & Hb & _); [done|]. rewrite Heq, H.
    exists m'. pose proof (Hdr (fun _ => false) m Hv) as H'. pose proof (Hdr2 (fun _ => false) m Hv2) as H2'. rewrite H in H', H2'.
    cbn [snd] in *. split_and!; [done|by rewrite H', H2'|done].
Qed.

(** Destructors that panic *)
Lemma destroyed (bad : K -> V -> bool) (drops : list (inner K V)) (l : list (K * V)) : kv_of <$> drops ≡ₚ l ->
  let pn := fun n => bad (n_key n) (n_value n) in
  exists l1 l2, l ≡ₚ l1 ++ l2 /\ kv_of <$> upto pn drops = l1 /\
    (if existsb pn drops then stopped_at_panic bad l1 l2 else all_destroyed bad l1 l2 /\ upto pn drops = drops).
Proof.
  intros Hp pn. destruct (upto_split pn drops) as (l2 & Hup & Hcase).
  exists (kv_of <$> upto pn drops), (kv_of <$> l2). split; [by rewrite <- Hp, <- fmap_app, <- Hup|]. split; [done|].
  destruct (existsb pn drops).
  - destruct Hcase as (l0 & x & -> & Hx & Hl0). exists (kv_of <$> l0), (n_key x), (n_value x).
    rewrite fmap_app. split_and!; [done|done|]. by apply Forall_fmap.
  - destruct Hcase as [-> Hall]. rewrite app_nil_r in Hup. rewrite <- Hup. split; [|done]. split; [done|]. by apply Forall_fmap.
Qed.

Lemma drop_stops e bad m d l : reachable e m -> e_nd e = true -> yields m d l ->
  exists l1 l2 m', l ≡ₚ l1 ++ l2 /\ dropped m' ≡ₚ dropped m ++ owned l1 /\ blocks m' = ∅ /\
    let r := map_drop e (fun n => bad (n_key n) (n_value n)) m in
    ((r = (Ret tt, m') /\ all_destroyed bad l1 l2) \/ (r = (Panic PDrop, m') /\ stopped_at_panic bad l1 l2)).
Proof.
  intros Hreach Hnd Hy. set (pn := fun n : inner K V => bad (n_key n) (n_value n)).
  destruct (arena_silent (K := K) (V := V) e) as (_ & _ & Hdr & _ & _ & Hre).
  assert (Hv : a_drops (s_items (m_nodes m)) = []) by (destruct Hreach as (s & cs & rs & Hr & _); exact (Hre _ _ _ _ Hr)).
  pose proof (Hdr pn m Hv) as Hv'. apply reachable_rep in Hreach as (t & fl & Hrep).
  rewrite (rep_yields_eq _ _ _ _ _ Hrep Hy). destruct Hrep as [[Hndup Hs] Hroot].
  destruct (slab_drop_any e pn _ _ _ Hs) as (drops & s' & Heq & H1 & H2 & H3 & H4). rewrite Hnd in H4.
  assert (Hk : kv_of <$> drops ≡ₚ tree_order d (erase t)).
  { rewrite <- porder_erase, porder_perm. rewrite H4, map_to_list_to_map by done.
    rewrite ppre_nodes. rewrite <- !list_fmap_compose. done. }
  destruct (destroyed bad drops _ Hk) as (l1 & l2 & Hl & Hl1 & Hcase).
  unfold map_drop, on_nodes, zoom in *. rewrite Heq in *. cbn [fst snd] in *.
  exists l1, l2. eexists. split; [done|]. split; [|split; [|fold pn in Hcase; destruct (existsb pn drops); [right|left; split; [|apply Hcase]]; done]].
  - rewrite (dropped_gone _ Hv), (dropped_gone _ Hv'). unfold gone. simpl. rewrite H3, fmap_app, owned_app.
    fold pn in Hl1. change (fun n : inner K V => (n_key n, n_value n)) with (kv_of (K := K) (V := V)). rewrite Hl1. by rewrite app_assoc.
  - exact H1.
Qed.

Lemma clear_stops e bad m d l : reachable e m -> e_nd e = true -> yields m d l ->
  exists l1 l2 m', l ≡ₚ l1 ++ l2 /\ dropped m' ≡ₚ dropped m ++ owned l1 /\
    let r := map_clear e (fun n => bad (n_key n) (n_value n)) m in
    ((r = (Ret tt, m') /\ all_destroyed bad l1 l2 /\ (forall d, yields m' d [])) \/ (r = (Panic PDrop, m') /\ stopped_at_panic bad l1 l2)).
Proof.
  intros Hreach Hnd Hy. set (pn := fun n : inner K V => bad (n_key n) (n_value n)).
  destruct (arena_silent (K := K) (V := V) e) as (_ & _ & _ & Hdr & _ & Hre).
  assert (Hv : a_drops (s_items (m_nodes m)) = []) by (destruct Hreach as (s & cs & rs & Hr & _); exact (Hre _ _ _ _ Hr)).
  pose proof (Hdr pn m Hv) as Hv'. apply reachable_rep in Hreach as (t & fl & Hrep).
  rewrite (rep_yields_eq _ _ _ _ _ Hrep Hy). destruct Hrep as [[Hndup Hs] Hroot].
  destruct (slab_clear_any e pn _ _ _ Hs) as (drops & s' & Heq & H3 & H4). rewrite Hnd in H4.
  assert (Hk : kv_of <$> drops ≡ₚ tree_order d (erase t)).
  { rewrite <- porder_erase, porder_perm. rewrite H4, map_to_list_to_map by done.
    rewrite ppre_nodes. rewrite <- !list_fmap_compose. done. }
  destruct (destroyed bad drops _ Hk) as (l1 & l2 & Hl & Hl1 & Hcase).
  unfold map_clear, on_nodes, zoom, sbind in *. rewrite Heq in *. fold pn in Hcase, Hl1.
  destruct (existsb pn drops).
  - cbn [fst snd] in *. exists l1, l2. eexists. split; [done|]. split; [|right; done].
    rewrite (dropped_gone _ Hv), (dropped_gone _ Hv'). unfold gone. simpl. destruct H3 as [_ H3]. rewrite H3, fmap_app, owned_app.
    change (fun n : inner K V => (n_key n, n_value n)) with (kv_of (K := K) (V := V)). rewrite Hl1. by rewrite app_assoc.
  - destruct Hcase as [Hall Hup]. rewrite Hup in Hl1. unfold smod in *. cbn [fst snd] in *. exists l1, l2. eexists. split; [done|]. split; [|left; split; [done|]; split; [done|]].
    + rewrite (dropped_gone _ Hv), (dropped_gone _ Hv'). unfold gone. subst s'. simpl. rewrite fmap_app, owned_app.
      change (fun n : inner K V => (n_key n, n_value n)) with (kv_of (K := K) (V := V)). rewrite Hl1. by rewrite app_assoc.
    + intros d'. subst s'.
      assert (Hrep' : map_rep (set_root None (set_nodes (slab_cleared (m_nodes m) (s_drops (m_nodes m) ++ drops)) m)) Leaf []).
      { split; [|done]. split; [constructor|]. apply slab_cleared_rep, Hs. }
      pose proof (rep_yields _ _ _ d' Hrep') as Hy'. by destruct d'.
Qed.

(** From its creation to its drop, a map gives back or drops all it was given. *)
Lemma whole_life e (s : start K V) cs rs m : e_nd e = true -> Forall no_clone cs -> reached e s cs rs m -> alive rs ->
  exists G B m', ledger cs rs G B /\ map_drop e (fun _ => false) m = (Ret tt, m') /\ blocks m' = ∅ /\
    dropped m' ++ B ≡ₚ start_taken s ++ G.
Proof.
  intros Hnd Hnc Hr Ha. destruct (conserved e s cs rs m Hnd Hnc Hr Ha) as (G & B & Hl & Hac).
  assert (Hreach : reachable e m) by (by exists s, cs, rs).
  destruct (drop_releases e m Hreach) as (m' & Hd & Hb & Hdr).
  apply reachable_rep in Hreach as (t & fl & Hrep).
  exists G, B, m'. split_and!; try done.
  rewrite (Hdr Hnd In _ (rep_yields _ _ _ In Hrep)), <- (Hac In _ (rep_yields _ _ _ In Hrep)). solve_Permutation.
Qed.

(** A clone consists of the clones of the entries; when cloning panics, the
    clones made so far are dropped and all memory is freed. *)
Lemma clone_ledger e os ck cv m l : reachable e m -> e_nd e = true -> yields m Pre l ->
  match map_clone e os ck cv m with
  | (Ret _, m') => forall d l', yields m' d l' -> owned l' ++ dropped m' ≡ₚ owned (clones ck cv 0 l).1
  | (Panic p, m') => blocks m' = ∅ /\ exists g, clones_made os ck cv 0 l p g /\ dropped m' ≡ₚ g
  | _ => True
  end.
Proof.
  intros (t & fl & Hrep)%reachable_rep Hnd Hy. pose proof (map_clone_spec e os ck cv m t fl Hrep) as H.
  destruct (arena_silent (K := K) (V := V) e) as (_ & _ & _ & _ & Hcl & _). pose proof (Hcl os ck cv m) as Hq.
  rewrite (rep_yields_eq _ _ _ _ _ Hrep Hy). change (tree_order Pre (erase t)) with (tree_preorder (erase t)). rewrite <- ppre_erase.
  destruct (map_clone e os ck cv m) as [[u|p| |u|] m']; try done.
  - destruct H as (_ & t' & fl' & Hrep' & _ & Hac & _). intros d l' Hy'.
    by rewrite (rep_yields_eq _ _ _ _ _ Hrep' Hy'), held_owned, (dropped_gone m' Hq).
  - destruct H as (H1 & _ & _ & H2). split; [done|]. rewrite (dropped_gone m' Hq). by apply H2.
Qed.

(** A construction from an iterator that fails drops what it took. *)
Lemma collect_fails e os it p (m : bstmap K V) : e_nd e = true -> begin e (SFromIter os it) = (Panic p, m) ->
  blocks m = ∅ /\ exists n, pulled os it p n /\ dropped m ≡ₚ owned (take n (ui_items it)).
Proof.
  intros Hnd Hb. pose proof (map_from_iter_spec e os it) as H. pose proof (proj1 (arena_silent e) (SFromIter os it)) as Hq. rewrite Hb in Hq. simpl in Hb. rewrite Hb in H.
  rewrite (dropped_gone m Hq). destruct H as [H1 H2]. split; [done|]. destruct H2 as [[Hf Hg]|(n & t & cap & _ & Hst & Hg)].
  - exists 0. split; [destruct Hf as [[= ->]|[[= ->]|?]]; simpl; done || lia|]. simpl. by rewrite Hg.
  - destruct (stopped_pulled _ _ _ _ _ _ Hst) as (n' & Heq & Hn'). exists n'. split; [done|]. rewrite Heq. by apply Hg.
Qed.

(** ** C51 *)

Lemma pre_in t : (ppre t).*2 ≡ₚ tree_inorder (erase t).
Proof. rewrite <- pin_erase. by rewrite pin_ppre. Qed.

Lemma tins_loose o i k v q t t' r : tins o i k v q t = Ret (t', r) ->
  loose_insert k v (tree_inorder (erase t)) r (tree_inorder (erase t')).
Proof.
  intros H%tins_perm. destruct r as [w|]; simpl.
  - destruct H as (p & k0 & l0 & H1 & H2). exists k0, l0.*2. rewrite <- !pre_in, H1, H2. done.
  - by rewrite <- !pre_in, H.
Qed.

Lemma ins_rel_loose os items : forall j t t', ins_rel os j items t t' ->
  loose_inserts items (tree_inorder (erase t)) (tree_inorder (erase t')).
Proof.
  induction items as [|[k v] items IH]; intros j t t'; simpl; [by intros ->|].
  intros (q & t1 & r & H1 & _ & H2). exists r, (tree_inorder (erase t1)). split; [by eapply tins_loose|by eapply IH].
Qed.

Lemma tset_loose p k v w t : NoDup (ptrs t) -> (p, (k, v)) ∈ ppre t ->
  loose_write (Some (k, v)) (Some w) (tree_inorder (erase t)) (tree_inorder (erase (tset p w t))).
Proof.
  intros Hnd Hin. apply elem_of_Permutation in Hin as [l0 Hl0]. exists l0.*2. rewrite <- !pre_in, ppre_tset.
  rewrite <- ppre_fst in Hnd. rewrite (iset_perm p w k v _ l0 Hnd Hl0), Hl0. done.
Qed.

Lemma mut_loose o i t y w t' : NoDup (ptrs t) -> tget o i t = Ret y ->
  t' = match y, w with Some y, Some w => tset y.1 w t | _, _ => t end ->
  loose_write (snd <$> y) w (tree_inorder (erase t)) (tree_inorder (erase t')).
Proof.
  intros Hnd Hy ->. destruct y as [[p [k v]]|]; [|destruct w; simpl; reflexivity]. pose proof (tget_in _ _ _ _ Hy) as Hin.
  destruct w as [w|]; [by apply tset_loose|]. cbn [fmap option_fmap option_map snd loose_write].
  apply elem_of_Permutation in Hin as [l0 Hl0]. exists l0.*2. rewrite <- pre_in, Hl0. done.
Qed.

Lemma tstep_loose c t x t' : NoDup (ptrs t) -> tstep c t x t' ->
  loose_step (tree_inorder (erase t)) c (Ret x) (tree_inorder (erase t')).
Proof.
  intros Hnd Hs. destruct c as [o k v|o|o|o|o|o|o w|o w| | | | |n| |os it|d n|d evs|path|path w| |os ck cv]; simpl in Hs |- *.
  - destruct Hs as (q & r & H1 & _ & ->). exists r. split; [done|]. by eapply tins_loose.
  - destruct Hs as (y & H1 & ->). apply trem_perm in H1. destruct y as [[p [k v]]|]; simpl; [|subst; by left].
    right. exists k, v. split; [done|]. rewrite <- !pre_in, <- H1. done.
  - destruct Hs as (y & H1 & ->). apply trem_perm in H1. destruct y as [[p [k v]]|]; simpl; [|subst; by left].
    right. exists (k, v). split; [done|]. rewrite <- !pre_in, <- H1. done.
  - destruct Hs as (y & H1 & -> & ->). split; [done|]. exists (snd <$> y). split; [by destruct y|].
    intros kv Hkv. destruct y as [y|]; [|done]. injection Hkv as <-. apply tget_in in H1. rewrite <- pre_in.
    by apply elem_of_list_fmap_1.
  - destruct Hs as (y & H1 & -> & ->). split; [done|]. exists (snd <$> y). split; [by destruct y|].
    intros kv Hkv. destruct y as [y|]; [|done]. injection Hkv as <-. apply tget_in in H1. rewrite <- pre_in.
    by apply elem_of_list_fmap_1.
  - destruct Hs as (y & H1 & -> & ->). eauto.
  - destruct Hs as (y & H1 & -> & Ht). exists (snd <$> y). split; [by destruct y|]. by eapply mut_loose.
  - destruct Hs as (y & H1 & -> & Ht). exists (snd <$> y). split; [by destruct y|]. by eapply mut_loose.
  - destruct Hs as [-> ->]. by rewrite erase_size.
  - destruct Hs as [-> ->]. split; [done|]. rewrite erase_size. by destruct t.
  - destruct Hs as [-> Hs]. done.
  - destruct Hs as [-> ->]. done.
  - destruct Hs as [-> ->]. done.
  - destruct Hs as [-> ->]. done.
  - destruct Hs as (H1 & H2 & ->). split_and!; try done. by eapply ins_rel_loose.
  - destruct Hs as [-> ->]. split; [done|]. eexists. split; [apply tree_order_in|done].
  - destruct Hs as [_ Hs]. exists (tree_order d (erase t)). split; [apply tree_order_in|].
    destruct (mut_walk _ 0 0 evs) as [[l2 n] z]. destruct Hs as [<- ->]. split; [|done]. symmetry. apply tree_order_in.
  - destruct Hs as [-> ->]. split; [done|]. destruct (erase t) as [|tl k0 v0 tr] eqn:Htt; [left; by destruct path as [|[]]|].
    rewrite <- Htt. pose proof (tree_at_inorder path v0 (erase t)) as Hin.
    destruct (tree_at path (erase t)) as [|l1 k v r1]; [by left|]. destruct Hin as (a & b & Hin & _). right.
    eexists _, _, _, _. split; [done|]. rewrite Hin. set_solver.
  - destruct Hs as (_ & -> & ->). exists (tree_show (tree_at path (erase t))). split; [done|].
    assert (Hw : forall w0, match tree_at path (erase t) with
      | tleaf => tree_write_at path w0 (erase t) = erase t
      | tnode _ k v _ => exists l1 l2, tree_inorder (erase t) = l1 ++ (k, v) :: l2 /\
          tree_inorder (tree_write_at path w0 (erase t)) = l1 ++ (k, w0) :: l2 end) by (intros; apply tree_at_inorder).
    destruct (tree_at path (erase t)) as [|l1 k v r1].
    + simpl. destruct w as [w|]; [|done]. by rewrite (Hw w).
    + simpl. destruct w as [w|].
      * destruct (Hw w) as (a & b & H1 & H2). exists (a ++ b). rewrite H1, H2. split; solve_Permutation.
      * destruct (Hw v) as (a & b & H1 & H2). exists (a ++ b). rewrite H1. split; solve_Permutation.
  - destruct Hs as [-> ->]. eauto.
  - destruct Hs as (H1 & -> & H2). split; [done|]. exists (ppre t).*2, (clones ck cv 0 (ppre t).*2).1.
    split_and!; [apply pre_in| |by eapply ins_rel_loose in H2].
    destruct (clones ck cv 0 (ppre t).*2) as [a b]. simpl in *. by subst.
Qed.

Lemma tstop_loose e c m t r t' : tstop e c m t r t' ->
  loose_step (tree_inorder (erase t)) c (res_of r) (tree_inorder (erase t')).
Proof.
  intros Hs. destruct c as [o k v|o|o|o|o|o|o w|o w| | | | |n| |os it|d n|d evs|path|path w| |os ck cv]; simpl in Hs; try done.
  all: try (destruct Hs as [-> _]; destruct r; simpl; reflexivity).
  assert (Hgoal : exists n, loose_inserts (take n (ui_items it)) (tree_inorder (erase t)) (tree_inorder (erase t'))).
  { destruct Hs as [[-> _]|(n & cap & Hi & _)]; [exists 0; simpl; reflexivity|]. exists n. by eapply ins_rel_loose. }
  by destruct r.
Qed.

Lemma run_loose e cs : forall m t fl rs m', map_rep m t fl -> run e cs m = (rs, m') ->
  exists t' fl', map_rep m' t' fl' /\ steps loose_step (tree_inorder (erase t)) cs rs (tree_inorder (erase t')).
Proof.
  induction cs as [|c cs IH]; intros m t fl rs m' Hrep Hrun; cbn [run] in Hrun.
  - injection Hrun as <- <-. by exists t, fl.
  - pose proof (exec_cases e c m t fl Hrep) as H.
    destruct (exec e c m) as [[x|p| |u|] m1] eqn:He; try done.
    + destruct (run e cs m1) as [rs1 m2] eqn:Hr. injection Hrun as <- <-.
      destruct H as (t1 & fl1 & Hrep1 & Hs & _).
      destruct (IH m1 t1 fl1 rs1 m2 Hrep1 Hr) as (t' & fl' & Hrep' & Hst). exists t', fl'. split; [done|].
      cbn [steps]. exists (tree_inorder (erase t1)). split; [|done]. apply tstep_loose; [by eapply rep_nodup|done].
    + destruct (run e cs m1) as [rs1 m2] eqn:Hr. injection Hrun as <- <-.
      destruct H as (t1 & fl1 & Hrep1 & Hs & _).
      destruct (IH m1 t1 fl1 rs1 m2 Hrep1 Hr) as (t' & fl' & Hrep' & Hst). exists t', fl'. split; [done|].
      cbn [steps]. exists (tree_inorder (erase t1)). split; [|done]. by apply (tstop_loose e c m t (Some p)).
    + injection Hrun as <- <-. destruct H as (t1 & fl1 & Hrep1 & Hs & _). exists t1, fl1. split; [done|].
      cbn [steps]. exists (tree_inorder (erase t1)). split; [|done]. by apply (tstop_loose e c m t None).
Qed.

Lemma loose_history e (s : start K V) cs rs m : reached e s cs rs m ->
  exists l0 l, loose_start s l0 /\ steps loose_step l0 cs rs l /\ map_len e m = Ret (N.of_nat (length l)) /\
    forall d, exists l', yields m d l' /\ l' ≡ₚ l.
Proof.
  intros (m0 & Hb & Hr). pose proof (begin_rep e s) as H. rewrite Hb in H. destruct H as (t & fl & Hrep & _ & H).
  destruct (run_loose e cs m0 t fl rs m Hrep Hr) as (t' & fl' & Hrep' & Hst).
  exists (tree_inorder (erase t)), (tree_inorder (erase t')). split_and!; [|done| |].
  - destruct s as [|n|os it]; simpl.
    + by destruct H as [-> _].
    + by destruct H as [-> _].
    + destruct H as (_ & H & _). by eapply ins_rel_loose in H.
  - rewrite (map_len_ret _ _ _ _ Hrep'). by rewrite erase_size.
  - intros d. exists (tree_order d (erase t')). split; [by eapply rep_yields|apply tree_order_in].
Qed.

End ledger_proofs.
