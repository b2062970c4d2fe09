(** * Lemmas for the properties of iterators, handles and printing *)

From Coq Require Import String.
From Verif Require Export ProofMapProps.

Section iter_props.
Context {K V : Type}.
Implicit Types m : bstmap K V.
Implicit Types t : ptree K V.

Lemma traversal_eq e m d : reachable e m ->
  exists t : tree K V, shows m t /\ (forall t' : tree K V, shows m t' -> t' = t) /\ yields m d (tree_order d t).
Proof.
  intros (t & fl & Hrep)%reachable_rep. exists (erase t). split_and!.
  - by eapply rep_shows.
  - intros t'. by eapply rep_shows_eq.
  - by eapply rep_yields.
Qed.

Lemma traversals_agree e m : reachable e m ->
  exists lpre lin lpost, iter_collect m Pre = Ret lpre /\ iter_collect m In = Ret lin /\ iter_collect m Post = Ret lpost /\
    lpre ≡ₚ lin /\ lpost ≡ₚ lin /\ NoDup lin.*1 /\ map_len e m = Ret (N.of_nat (length lin)) /\
    (forall n, handle m n -> (nd_ptr n, (node_key n, node_value n)) ∈ lin).
Proof.
  intros (t & fl & Hrep)%reachable_rep.
  exists (porder Pre t), (porder In t), (porder Post t).
  rewrite !(iter_collect_spec _ _ _ _ Hrep). split_and!; try done.
  - by rewrite (porder_perm In).
  - by rewrite (porder_perm In), (porder_perm Post).
  - apply porder_nodup. by eapply rep_nodup.
  - unfold item, NodeMut. rewrite (map_len_ret e _ _ _ Hrep), porder_length. done.
  - intros n (path & r & Hr & Hw). rewrite (map_root_ret _ _ _ Hrep) in Hr. injection Hr as <-.
    rewrite (walk_eq m path t) in Hw by (by eapply rep_readable). injection Hw as Hn.
    rewrite (porder_perm In). apply (tat_nodes path).
    destruct (tat path t) as [|l p k v r]; [done|]. simpl in Hn. injection Hn as <-. left.
Qed.

Lemma first_calls_take {A} n (l : list A) : take n ((Some <$> l) ++ replicate n None) = first_calls n l.
Proof.
  revert l. induction n as [|n IH]; intros l; [done|]. destruct l as [|x l]; simpl.
  - f_equal. rewrite <- (IH []). done.
  - f_equal. rewrite <- IH. change (None :: replicate n None) with (replicate (S n) (@None A)).
    rewrite replicate_S_end, app_assoc. apply take_app_le. rewrite app_length, replicate_length. lia.
Qed.

Lemma lazy_fused e m d : reachable e m -> exists it l, iter_start m d = Ret it /\ iter_collect m d = Ret l /\
  forall n, fst (nexts (iter_next m d) n it) = Ret (first_calls n l).
Proof.
  intros (t & fl & Hrep)%reachable_rep. destruct (iter_start_spec m t fl d Hrep) as (it & Hit & Hok).
  exists it, (porder d t). rewrite (iter_collect_spec _ _ _ _ Hrep). split_and!; try done.
  intros n. destruct (nexts_spec m t fl d Hrep n it _ Hok) as (it' & ->). simpl. by rewrite first_calls_take.
Qed.

Lemma mut_iteration e m d evs l : reachable e m -> iter_collect m d = Ret l ->
  exists st, iter_mut_program d evs m = Ret st /\
    let '(l', n, x) := mut_walk l.*2 0 0 evs in
    mu_yielded st = take n l /\ mu_ended st = x /\
    (exists lp, iter_collect (mu_map st) d = Ret lp /\ lp.*1 = l.*1 /\ lp.*2 = l') /\
    (forall t : tree K V, shows m t -> exists t' : tree K V, shows (mu_map st) t' /\ tree_keys t' = tree_keys t) /\
    map_len e (mu_map st) = map_len e m /\ map_capacity (mu_map st) = map_capacity m /\
    reachable e (mu_map st).
Proof.
  intros Hreach Hl. pose proof Hreach as (t & fl & Hrep)%reachable_rep.
  rewrite (iter_collect_spec _ _ _ _ Hrep) in Hl. injection Hl as <-.
  destruct (iter_mut_program_spec d evs m t fl Hrep) as (st & t' & Heq & H). exists st. split; [done|].
  unfold item in *. destruct (mut_walk (porder d t).*2 0 0 evs) as [[l' n'] x'].
  destruct H as (A1 & A2 & A3 & A4 & A5 & A6 & A7 & A8 & A9 & A9b & A10).
  split_and!; try done.
  - exists (porder d t'). by rewrite (iter_collect_spec _ _ _ _ A1).
  - intros t0 Ht0. rewrite (rep_shows_eq _ _ _ _ Hrep Ht0). exists (erase t'). split; [by eapply rep_shows|].
    by rewrite <- !pshape_erase, A9b.
  - rewrite (map_len_ret e _ _ _ A1), (map_len_ret e _ _ _ Hrep). do 2 f_equal.
    rewrite <- (porder_length d t'), <- (porder_length d t), <- !(fmap_length fst), A5. done.
  - apply A7.
  - eapply (reachable_step e (OIterMut d evs) m (Ret (OutMut (mu_yielded st).*2 (mu_ended st)))); [done| |done].
    cbn [exec]. unfold sbind, sget, slift, smod, sret. unfold item. rewrite Heq. done.
Qed.

(** ** Aliasing *)
Lemma no_alias e m d evs1 evs2 it : reachable e m -> iter_start m d = Ret it ->
  exists st1 st2, mut_run d evs1 (mkMut m it [] 0) = (Ret tt, st1) /\ mut_run d evs2 st1 = (Ret tt, st2) /\
    NoDup (mu_yielded st2).*1 /\ (exists ys, mu_yielded st2 = mu_yielded st1 ++ ys) /\
    exists rs, it_reads (mu_iter st2) = it_reads (mu_iter st1) ++ rs /\ forall q, q ∈ rs -> q ∉ (mu_yielded st1).*1.
Proof.
  intros (t & fl & Hrep)%reachable_rep Hit.
  destruct (iter_start_spec m t fl d Hrep) as (it' & Hit' & Hok). rewrite Hit in Hit'. injection Hit' as <-.
  destruct (mut_run_spec d evs1 m t fl it [] 0 (porder d t) 0) as (st1 & t1 & E1 & H1); try done; [lia|by rewrite porder_length|].
  destruct (mut_walk (porder d t).*2 0 0 evs1) as [[l1 n1] x1].
  destruct H1 as (A1 & A2 & A3 & A4 & A5 & A6 & A7 & A8 & A9 & A9b & A10 & A10b & A10c & rs1 & A11 & A12).
  destruct (mut_run_spec d evs2 (mu_map st1) t1 fl (mu_iter st1) (mu_yielded st1) (mu_ended st1) (porder d t) n1)
    as (st2 & t2 & E2 & H2); try done.
  { rewrite <- (porder_length d t1), <- (fmap_length fst (porder d t1)), A5, fmap_length, porder_length. done. }
  { rewrite <- (porder_length d t1), <- (fmap_length fst (porder d t1)), A5, fmap_length. done. }
  assert (Hst1 : mkMut (mu_map st1) (mu_iter st1) (mu_yielded st1) (mu_ended st1) = st1) by (by destruct st1).
  unfold item in *. rewrite Hst1 in E2. exists st1, st2. split; [exact E1|]. split; [exact E2|].
  assert (Hge : forall (evs : list (mut_event V)) (l : list (K * V)) n x, n <= (mut_walk l n x evs).1.2).
  { clear. intros evs. induction evs as [|[|j w] evs IH]; intros l n x; simpl; [done| |].
    - destruct (Nat.ltb n (length l)); [|apply IH]. specialize (IH l (S n) x). lia.
    - destruct (Nat.ltb j n); apply IH. }
  specialize (Hge evs2 (porder d t1).*2 n1 (mu_ended st1)).
  destruct (mut_walk (porder d t1).*2 n1 (mu_ended st1) evs2) as [[l2 n2] x2]. simpl in Hge.
  destruct H2 as (B1 & B2 & B3 & B4 & B5 & B6 & B7 & B8 & B9 & B9b & B10 & B10b & B10c & rs2 & B11 & B12).
  pose proof (porder_nodup d t (rep_nodup _ _ _ Hrep)) as Hnd.
  rewrite B2, A2. split_and!.
  - rewrite <- (take_drop n2 (porder d t)), fmap_app in Hnd. by apply NoDup_app in Hnd as [Hnd _].
  - exists (drop n1 (take n2 (porder d t))). 
    rewrite <- (take_drop n1 (take n2 (porder d t))) at 1. f_equal. rewrite take_take. f_equal. lia.
  - exists rs2. split; [done|]. intros q Hq%B12. 
    rewrite <- (take_drop n1 (porder d t)), fmap_app in Hnd. apply NoDup_app in Hnd as (_ & Hnd & _).
    intros Hq2. apply (Hnd q); [done|]. by rewrite fmap_drop.
Qed.

(** ** Walks with [root_mut] *)

Lemma walk_mut_agrees e m (t : tree K V) path : reachable e m -> shows m t ->
  exists r n, map_root m = Ret r /\ walk m path r = Ret n /\ option_map show_node n = tree_show (tree_at path t) /\
  exists r', map_root_mut m = Ret r' /\ walk_mut m path r' = Ret (option_map nd_ptr n) /\
  match n with
  | None => True
  | Some n =>
    show_nodemut m (nd_ptr n) = Ret (show_node n) /\ stored m (nd_ptr n) (node_key n) (node_value n) /\
    (exists c, nodemut_left m (nd_ptr n) = Ret c /\ nodemut_has_left m (nd_ptr n) = Ret (if c then true else false)) /\
    (exists c, nodemut_right m (nd_ptr n) = Ret c /\ nodemut_has_right m (nd_ptr n) = Ret (if c then true else false)) /\
    forall w, exists m', write_value (nd_ptr n) w m = (Ret tt, m') /\ shows m' (tree_write_at path w t) /\
      (forall d lp, iter_collect m d = Ret lp -> iter_collect m' d = Ret (assign (nd_ptr n) w lp)) /\
      map_len e m' = map_len e m /\ map_capacity m' = map_capacity m
  end.
Proof.
  intros Hreach Ht. pose proof Hreach as (t0 & fl & Hrep)%reachable_rep.
  rewrite (rep_shows_eq _ _ _ _ Hrep Ht). pose proof (rep_readable _ _ _ Hrep) as Hread.
  exists (node_of t0), (node_of (tat path t0)). split; [by eapply map_root_ret|].
  split; [by apply walk_eq|]. split; [by rewrite show_node_eq, tat_erase|].
  exists (rootp t0). split; [by eapply map_root_mut_ret|].
  assert (Hp : option_map nd_ptr (node_of (tat path t0)) = rootp (tat path t0)) by (by destruct (tat path t0)).
  rewrite Hp. split; [by apply walk_mut_eq|].
  destruct (tat path t0) as [|l p k v r] eqn:Htat; [done|]. simpl.
  assert (Hr : readable m (Bin l p k v r)) by (rewrite <- Htat; by apply tat_readable).
  assert (Hin : (p, (k, v)) ∈ ppre t0).
  { apply (tat_nodes path). rewrite Htat. left. }
  split_and!.
  - rewrite (show_nodemut_eq _ _ _ _ _ _ Hr). unfold show_node. simpl. by destruct l, r.
  - by eapply rep_stored.
  - exists (rootp l). split; [by apply (nodemut_left_ret _ _ _ _ _ _ Hr)|].
    unfold nodemut_has_left. rewrite (readable_root _ _ _ _ _ _ Hr). simpl. by destruct l.
  - exists (rootp r). split; [by apply (nodemut_right_ret _ _ _ _ _ _ Hr)|].
    unfold nodemut_has_right. rewrite (readable_root _ _ _ _ _ _ Hr). simpl. by destruct r.
  - intros w. destruct (write_only e m p k v w Hreach) as (m' & Hw & H1 & H2 & H3 & H4).
    { by eapply rep_stored. }
    exists m'. split_and!; try done.
    pose proof (write_value_spec m t0 fl p k v w Hrep Hin) as Hs. unfold wp in Hs. rewrite Hw in Hs.
    destruct Hs as (Hrep' & _). pose proof (tset_erase_at path w t0 (rep_nodup _ _ _ Hrep)) as He.
    rewrite Htat in He. rewrite <- He. by eapply rep_shows.
Qed.

(** ** Printing *)

Lemma debug_map e m (t : tree K V) : reachable e m -> shows m t ->
  map_debug m = Ret (DStruct "BSTMap" [("root", tree_debug t)])%string.
Proof.
  intros (t0 & fl & Hrep)%reachable_rep Ht. rewrite (rep_shows_eq _ _ _ _ Hrep Ht). by eapply map_debug_eq.
Qed.

Lemma handle_rep m t fl n : map_rep m t fl -> handle m n ->
  exists path l p k v r, tat path t = Bin l p k v r /\ n = mkNode p (mkInner k v (rootp l) (rootp r)).
Proof.
  intros Hrep (path & r & Hr & Hw). rewrite (map_root_ret _ _ _ Hrep) in Hr. injection Hr as <-.
  rewrite (walk_eq m path t) in Hw by (by eapply rep_readable). injection Hw as Hn.
  destruct (tat path t) as [|l p k v r] eqn:E; [done|]. simpl in Hn. injection Hn as <-.
  exists path, l, p, k, v, r. done.
Qed.

Lemma tat_height path : forall t, pheight (tat path t) <= pheight t.
Proof.
  induction path as [|[] path IH]; intros [|l p k v r]; simpl; try done; [specialize (IH l)|specialize (IH r)]; lia.
Qed.

Lemma debug_node e m n (t : tree K V) : reachable e m -> handle m n -> exposes m (Some n) t ->
  rmap DSome (node_debug m (map_fuel m) n) = Ret (tree_debug t) /\
  nodemut_debug m (nd_ptr n) = Ret (DStruct "NodeMut" [("key", DKey (node_key n)); ("value", DValue (node_value n));
                                     ("left", DStr "..."); ("right", DStr "...")])%string.
Proof.
  intros (t0 & fl & Hrep)%reachable_rep Hh Ht.
  destruct (handle_rep m t0 fl n Hrep Hh) as (path & l & p & k & v & r & Htat & ->).
  pose proof (tat_readable m path t0 (rep_readable _ _ _ Hrep)) as Hr. rewrite Htat in Hr.
  assert (Hex : exposes m (Some (mkNode p (mkInner k v (rootp l) (rootp r)))) (erase (Bin l p k v r))) by (exact (readable_exposes m (Bin l p k v r) Hr)).
  rewrite (exposes_fun _ _ _ Hex _ Ht). split.
  - unfold map_fuel. apply node_debug_eq; [done| |done].
    pose proof (tat_height path t0) as Hle. rewrite Htat in Hle.
    pose proof (rep_fuel_height _ _ _ Hrep) as Hf. unfold map_fuel in Hf. lia.
  - unfold nodemut_debug, nodemut_key, nodemut_value. simpl. by rewrite (readable_root _ _ _ _ _ _ Hr).
Qed.

(** ** Equality of nodes *)

Lemma node_eq_iff e m1 m2 (eqK : K -> K -> bool) (eqV : V -> V -> bool) same n1 n2 :
  reachable e m1 -> reachable e m2 -> (same = true -> m1 = m2) -> handle m1 n1 -> handle m2 n2 ->
  (forall a, eqK a a = true) -> (forall a, eqV a a = true) ->
  node_eq eqK eqV same n1 n2 = eqK (node_key n1) (node_key n2) && eqV (node_value n1) (node_value n2) /\
  nodemut_eq eqK eqV same m1 m2 (nd_ptr n1) (nd_ptr n2) =
    Ret (eqK (node_key n1) (node_key n2) && eqV (node_value n1) (node_value n2)).
Proof.
  intros (t1 & fl1 & Hrep1)%reachable_rep (t2 & fl2 & Hrep2)%reachable_rep Hsame H1 H2 HK HV.
  destruct (handle_rep m1 t1 fl1 n1 Hrep1 H1) as (path1 & l1 & p1 & k1 & v1 & r1 & Htat1 & ->).
  destruct (handle_rep m2 t2 fl2 n2 Hrep2 H2) as (path2 & l2 & p2 & k2 & v2 & r2 & Htat2 & ->).
  pose proof (tat_readable m1 path1 t1 (rep_readable _ _ _ Hrep1)) as Hr1. rewrite Htat1 in Hr1.
  pose proof (tat_readable m2 path2 t2 (rep_readable _ _ _ Hrep2)) as Hr2. rewrite Htat2 in Hr2.
  apply readable_root in Hr1, Hr2.
  unfold node_eq, nodemut_eq, nodemut_key, nodemut_value, node_key, node_value, NodeMut. simpl.
  rewrite Hr1, Hr2. simpl.
  destruct (same && bool_decide (p1 = p2)) eqn:E; simpl.
  - apply andb_true_iff in E as [-> ->%bool_decide_eq_true]. rewrite <- (Hsame eq_refl) in Hr2.
    rewrite Hr1 in Hr2. injection Hr2 as -> -> _ _. by rewrite HK, HV.
  - split; [done|]. by destruct (eqK k1 k2).
Qed.

Lemma node_eq_equiv (eqK : K -> K -> bool) (eqV : V -> V -> bool) :
  (forall a, eqK a a = true) -> (forall a, eqV a a = true) ->
  (forall a b, eqK a b = eqK b a) -> (forall a b, eqV a b = eqV b a) ->
  (forall a b c, eqK a b = true -> eqK b c = true -> eqK a c = true) ->
  (forall a b c, eqV a b = true -> eqV b c = true -> eqV a c = true) ->
  forall (n1 n2 n3 : Node K V),
  node_eq eqK eqV false n1 n1 = true /\
  (node_eq eqK eqV false n1 n2 = true -> node_eq eqK eqV false n2 n1 = true) /\
  (node_eq eqK eqV false n1 n2 = true -> node_eq eqK eqV false n2 n3 = true -> node_eq eqK eqV false n1 n3 = true).
Proof.
  intros KR VR KS VS KT VT n1 n2 n3. unfold node_eq. cbn [andb orb]. rewrite !andb_true_iff. split_and!.
  - by rewrite KR.
  - by rewrite VR.
  - intros [H1 H2]. by rewrite KS, VS.
  - intros [H1 H2] [H3 H4]. split; [by eapply KT|by eapply VT].
Qed.

Variable cmp : K -> K -> comparison.
Hypothesis Hlaw : lawful cmp.

Lemma sorted_lookup_lt (l : list (K * V)) i j x y : sorted cmp l -> l !! i = Some x -> l !! j = Some y -> i < j ->
  cmp x.1 y.1 = Lt.
Proof.
  clear Hlaw. intros Hs Hi Hj Hlt. rewrite <- (take_drop_middle l i x Hi) in Hs. apply sorted_app in Hs as (_ & Hs & _).
  apply sorted_cons in Hs as [_ Hs]. rewrite Forall_forall in Hs. apply Hs.
  apply elem_of_list_lookup. exists (j - S i). rewrite lookup_drop. by replace (S i + (j - S i)) with j by lia.
Qed.

Lemma node_eq_same e m (eqK : K -> K -> bool) (eqV : V -> V -> bool) n1 n2 :
  ordered_reachable cmp e m -> (forall a b, eqK a b = true <-> cmp a b = Eq) ->
  handle m n1 -> handle m n2 -> node_eq eqK eqV true n1 n2 = true -> n1 = n2.
Proof.
  intros Hreach HK H1 H2 Heq. destruct (ordered_rep cmp Hlaw _ _ Hreach) as (t & fl & Hrep & Hbst).
  destruct (handle_rep m t fl n1 Hrep H1) as (path1 & l1 & p1 & k1 & v1 & r1 & Htat1 & ->).
  destruct (handle_rep m t fl n2 Hrep H2) as (path2 & l2 & p2 & k2 & v2 & r2 & Htat2 & ->).
  pose proof (tat_readable m path1 t (rep_readable _ _ _ Hrep)) as Hr1. rewrite Htat1 in Hr1.
  pose proof (tat_readable m path2 t (rep_readable _ _ _ Hrep)) as Hr2. rewrite Htat2 in Hr2.
  assert (p1 = p2) as ->.
  { unfold node_eq in Heq. simpl in Heq. apply orb_true_iff in Heq as [Heq%bool_decide_eq_true|Heq]; [done|].
    apply andb_true_iff in Heq as [Heq _]. unfold node_key in Heq. simpl in Heq. apply HK in Heq.
    assert (Hin1 : (p1, (k1, v1)) ∈ ppre t) by (apply (tat_nodes path1); rewrite Htat1; left).
    assert (Hin2 : (p2, (k2, v2)) ∈ ppre t) by (apply (tat_nodes path2); rewrite Htat2; left).
    rewrite <- (porder_perm In) in Hin1, Hin2.
    apply elem_of_list_lookup in Hin1 as [i Hi], Hin2 as [j Hj].
    assert (Hi' : tree_inorder (erase t) !! i = Some (k1, v1)).
    { change (tree_order In (erase t) !! i = Some (k1, v1)). rewrite <- porder_erase, list_lookup_fmap, Hi. done. }
    assert (Hj' : tree_inorder (erase t) !! j = Some (k2, v2)).
    { change (tree_order In (erase t) !! j = Some (k2, v2)). rewrite <- porder_erase, list_lookup_fmap, Hj. done. }
    pose proof (proj1 (bst_sorted cmp Hlaw _) Hbst) as Hs.
    assert (i = j) as ->.
    { destruct (Nat.lt_trichotomy i j) as [H|[H|H]]; [|done|]; exfalso.
      - pose proof (sorted_lookup_lt _ _ _ _ _ Hs Hi' Hj' H) as Hlt. simpl in Hlt. congruence.
      - pose proof (sorted_lookup_lt _ _ _ _ _ Hs Hj' Hi' H) as Hlt. simpl in Hlt.
        rewrite (cmp_eq_sym cmp Hlaw _ _ Heq) in Hlt. congruence. }
    rewrite Hi in Hj. by injection Hj. }
  apply readable_root in Hr1, Hr2. rewrite Hr1 in Hr2. by injection Hr2 as -> -> -> ->.
Qed.

End iter_props.
