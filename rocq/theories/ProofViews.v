(** * Mutable iteration, walks, printing, equality *)

From Coq Require Import String.
From Verif Require Export ProofCalls.

Section views.
Context {K V : Type}.
Implicit Types m : bstmap K V.
Implicit Types t s : ptree K V.

(** ** Programs over a mutable iterator *)

Fixpoint pshape t : ptree K unit :=
  match t with
  | Leaf => Leaf
  | Bin l p k v r => Bin (pshape l) p k tt (pshape r)
  end.

Lemma pshape_tset p w t : pshape (tset p w t) = pshape t.
Proof. induction t as [|l IHl q k v r IHr]; simpl; [done|]. by rewrite IHl, IHr. Qed.

Lemma pshape_erase t : erase (pshape t) = tree_keys (erase t).
Proof. induction t as [|l IHl q k v r IHr]; simpl; [done|]. by rewrite IHl, IHr. Qed.

Lemma lookup_fst_nodup (l : list (Ptr * (K * V))) i j x y :
  NoDup l.*1 -> l !! i = Some x -> l !! j = Some y -> x.1 = y.1 -> i = j.
Proof.
  intros Hnd Hi Hj Heq. eapply NoDup_lookup; [exact Hnd| |].
  - rewrite list_lookup_fmap, Hi. done.
  - rewrite list_lookup_fmap, Hj. simpl. by rewrite Heq.
Qed.

Lemma iset_alter (l : list (Ptr * (K * V))) j p kv w : NoDup l.*1 -> l !! j = Some (p, kv) ->
  (iset p w <$> l).*2 = alter (fun kv => (kv.1, w)) j l.*2.
Proof.
  intros Hnd Hj. apply list_eq. intros i. rewrite !list_lookup_fmap.
  destruct (decide (i = j)) as [->|Hne].
  - rewrite list_lookup_alter, list_lookup_fmap, Hj. simpl. unfold iset. simpl. by rewrite decide_True.
  - rewrite list_lookup_alter_ne, list_lookup_fmap by done.
    destruct (l !! i) as [[q kv']|] eqn:Hi; [|done]. simpl. unfold iset. simpl.
    rewrite decide_False; [done|]. intros ->. apply Hne. by eapply lookup_fst_nodup.
Qed.

Lemma iset_drop (l : list (Ptr * (K * V))) j p kv w n : NoDup l.*1 -> l !! j = Some (p, kv) -> j < n ->
  iset p w <$> drop n l = drop n l.
Proof.
  intros Hnd Hj Hlt. apply iset_not_in. intros Hin. apply elem_of_list_lookup in Hin as [i Hi].
  rewrite list_lookup_fmap, lookup_drop in Hi. destruct (l !! (n + i)) as [[q kv']|] eqn:Hq; [|done].
  simpl in Hi. injection Hi as ->. assert (j = n + i); [|lia]. by eapply lookup_fst_nodup.
Qed.

Lemma write_account m t fl p k v w m' : map_rep m t fl -> (p, (k, v)) ∈ ppre t ->
  m_drops m' = m_drops m ++ [inr v] -> s_drops (m_nodes m') = s_drops (m_nodes m) ->
  held (tset p w t) ++ gone m' ≡ₚ held t ++ gone m ++ [inr w].
Proof.
  intros Hrep Hin Hd Hs. pose proof (rep_nodup_pre _ _ _ Hrep) as Hnd.
  apply elem_of_Permutation in Hin as [l0 Hl0].
  assert (E1 : held t ≡ₚ inl k :: inr v :: owned l0.*2).
  { unfold held. apply owned_cons_perm. by rewrite Hl0. }
  assert (E2 : held (tset p w t) ≡ₚ inl k :: inr w :: owned l0.*2).
  { unfold held. apply owned_cons_perm. rewrite ppre_tset.
    rewrite (iset_perm p w k v _ l0 Hnd Hl0). done. }
  unfold gone. rewrite E1, E2, Hd, Hs. solve_Permutation.
Qed.

Lemma tset_size p w t : tsize (tset p w t) = tsize t.
Proof. unfold tsize. by rewrite nodes_tset, fmap_length. Qed.

Lemma mut_run_spec d evs : forall m t fl it yl x l0 n, map_rep m t fl ->
  n <= tsize t -> iter_ok d t it (drop n (porder d t)) ->
  yl = take n l0 -> length l0 = tsize t -> l0.*1 = (porder d t).*1 -> drop n l0 = drop n (porder d t) ->
  exists st t', mut_run d evs (mkMut m it yl x) = (Ret tt, st) /\
    let '(l', n', x') := mut_walk (porder d t).*2 n x evs in
    map_rep (mu_map st) t' fl /\ mu_yielded st = take n' l0 /\ mu_ended st = x' /\
    (porder d t').*2 = l' /\ (porder d t').*1 = (porder d t).*1 /\ n' <= tsize t /\
    stays m (mu_map st) /\
    a_len (mem (mu_map st)) = a_len (mem m) /\ kept t t' /\ pshape t' = pshape t /\
    held t' ++ gone (mu_map st) ≡ₚ held t ++ gone m ++ (inr <$> mut_written (tsize t) n evs) /\
    iter_ok d t' (mu_iter st) (drop n' (porder d t')) /\ drop n' l0 = drop n' (porder d t') /\
    (exists rs, it_reads (mu_iter st) = it_reads it ++ rs /\ forall q, q ∈ rs -> q ∈ drop n l0.*1).
Proof.
  induction evs as [|ev evs IH]; intros m t fl it yl x l0 n Hrep Hn Hok Hyl Hl0 Hptr Hdrop.
  - eexists _, t. split; [done|]. cbn. split_and!; try done; [apply kept_refl|by rewrite app_nil_r|].
    exists []. rewrite app_nil_r. split; [done|]. set_solver.
  - cbn [mut_run]. unfold sbind. destruct ev as [|j w].
    + cbn [mut_step mu_map mu_iter mu_yielded mu_ended].
      destruct (iter_mut_next_spec m t fl d it _ Hrep Hok) as (it' & rs & -> & Hok' & Hrs & Hcov).
      cbn [mut_walk mut_written]. rewrite fmap_length, porder_length.
      assert (Hcov' : forall q, q ∈ rs -> q ∈ drop n l0.*1).
      { intros q Hq%Hcov. by rewrite Hptr, <- fmap_drop. }
      destruct (Nat.ltb_spec n (tsize t)) as [Hlt|Hge].
      * destruct (lookup_lt_is_Some_2 l0 n) as [y Hy]; [lia|].
        assert (Hd : drop n l0 = y :: drop (S n) l0) by (by apply drop_S).
        rewrite <- Hdrop, Hd. cbn [head].
        destruct (IH m t fl it' (yl ++ [y]) x l0 (S n)) as (st & t' & Heq & Hpost); [done|lia| | |done|done| |].
        { rewrite <- Hdrop, Hd in Hok'. cbn [tail] in Hok'. 
          assert (Hd' : drop (S n) l0 = drop (S n) (porder d t)).
          { change (S n) with (1 + n). rewrite Nat.add_comm, <- !drop_drop, Hdrop. done. }
          rewrite <- Hd'. done. }
        { rewrite (take_S_r _ _ y) by done. by rewrite Hyl. }
        { change (S n) with (1 + n). rewrite Nat.add_comm, <- !drop_drop, Hdrop. done. }
        exists st, t'. split; [exact Heq|].
        destruct (mut_walk (porder d t).*2 (S n) x evs) as [[l' n'] x'].
        destruct Hpost as (A1 & A2 & A3 & A4 & A5 & A6 & A7 & A8 & A9 & A9b & A10 & A10b & A10c & rs' & A11 & A12). split_and!; try done.
        exists (rs ++ rs'). rewrite A11, Hrs, app_assoc. split; [done|].
        intros q [Hq|Hq]%elem_of_app; [by apply Hcov'|]. apply A12 in Hq.
        change (S n) with (1 + n) in Hq. rewrite Nat.add_comm, <- drop_drop in Hq.
        apply elem_of_list_lookup in Hq as [i Hi]. rewrite lookup_drop in Hi. by eapply elem_of_list_lookup_2.
      * assert (Hnil : drop n (porder d t) = []) by (apply drop_ge; rewrite porder_length; lia).
        rewrite Hnil in Hok' |- *. cbn [head tail] in *.
        destruct (IH m t fl it' yl (S x) l0 n) as (st & t' & Heq & Hpost); try done; [by rewrite Hnil|].
        exists st, t'. split; [exact Heq|].
        destruct (mut_walk (porder d t).*2 n (S x) evs) as [[l' n'] x'].
        destruct Hpost as (A1 & A2 & A3 & A4 & A5 & A6 & A7 & A8 & A9 & A9b & A10 & A10b & A10c & rs' & A11 & A12). split_and!; try done.
        exists (rs ++ rs'). rewrite A11, Hrs, app_assoc. split; [done|].
        intros q [Hq|Hq]%elem_of_app; [by apply Hcov'|]. by apply A12.
    + cbn [mut_step mu_map mu_iter mu_yielded mu_ended]. subst yl.
      destruct (Nat.ltb_spec j n) as [Hlt|Hge].
      * destruct (lookup_lt_is_Some_2 l0 j) as [[p kv0] Hp]; [lia|].
        assert (Hpt : take n l0 !! j = Some (p, kv0)) by (by rewrite lookup_take). unfold item, NodeMut. rewrite Hpt.
        assert (Hpo : exists kv, porder d t !! j = Some (p, kv)).
        { assert (Hf : (porder d t).*1 !! j = Some p) by (by rewrite <- Hptr, list_lookup_fmap, Hp).
          rewrite list_lookup_fmap in Hf. destruct (porder d t !! j) as [[p' kv]|]; [|done]. simpl in Hf.
          injection Hf as ->. eauto. }
        destruct Hpo as [[k v] Hkv].
        assert (Hin : (p, (k, v)) ∈ ppre t) by (rewrite <- (porder_perm d); by eapply elem_of_list_lookup_2).
        pose proof (porder_nodup d t (rep_nodup _ _ _ Hrep)) as Hnd.
        pose proof (write_value_spec m t fl p k v w Hrep Hin) as Hw. unfold wp in Hw.
        destruct (write_value p w m) as [[u|?| |?|] m1]; try done.
        destruct Hw as (Hrep1 & Hst & Hd).
        assert (Hpo' : porder d (tset p w t) = iset p w <$> porder d t) by apply porder_tset.
        destruct (IH m1 (tset p w t) fl it (take n l0) x l0 n) as (st & t' & Heq & Hpost); try done.
        { by rewrite tset_size. }
        { rewrite Hpo', <- fmap_drop. by apply iter_ok_tset. }
        { by rewrite tset_size. }
        { rewrite Hptr, Hpo'. apply list_eq. intros i. rewrite !list_lookup_fmap.
          destruct (porder d t !! i) as [[q kv]|]; [|done]. simpl. f_equal. unfold iset. simpl.
          by destruct (decide (q = p)). }
        { rewrite Hpo', <- fmap_drop, Hdrop. symmetry. by eapply iset_drop. }
        exists st, t'. split; [by destruct u|]. cbn [mut_walk mut_written].
        destruct (Nat.ltb_spec j n); [|lia].
        rewrite Hpo', (iset_alter _ _ _ _ _ Hnd Hkv) in Hpost.
        destruct (mut_walk (alter (fun kv => (kv.1, w)) j (porder d t).*2) n x evs) as [[l' n'] x'].
        rewrite tset_size in Hpost.
        destruct Hpost as (A1 & A2 & A3 & A4 & A5 & A6 & A7 & A8 & A9 & A9b & A10 & A10b & A10c & A11). split_and!; try done.
        -- rewrite A5. apply list_eq. intros i. rewrite !list_lookup_fmap.
           destruct (porder d t !! i) as [[q kv]|]; [|done]. simpl. f_equal. unfold iset. simpl.
           by destruct (decide (q = p)).
        -- by eapply stays_trans.
        -- rewrite A8, (map_rep_len _ _ _ Hrep), (map_rep_len _ _ _ Hrep1), tset_size. done.
        -- eapply kept_trans; [apply tset_kept|done].
        -- rewrite A9b. apply pshape_tset.
        -- rewrite A10, (app_assoc (held (tset p w t))).
           rewrite (write_account m t fl p k v w m1 Hrep Hin Hd (proj2 Hst)). simpl. solve_Permutation.
      * unfold item, NodeMut. rewrite lookup_take_ge by done.
        destruct (IH m t fl it (take n l0) x l0 n) as (st & t' & Heq & Hpost); try done.
        exists st, t'. split; [exact Heq|]. cbn [mut_walk mut_written]. destruct (Nat.ltb_spec j n); [lia|]. done.
Qed.

Lemma iter_mut_program_spec d evs m t fl : map_rep m t fl ->
  exists st t', iter_mut_program d evs m = Ret st /\
    let '(l', n', x') := mut_walk (porder d t).*2 0 0 evs in
    map_rep (mu_map st) t' fl /\ mu_yielded st = take n' (porder d t) /\ mu_ended st = x' /\
    (porder d t').*2 = l' /\ (porder d t').*1 = (porder d t).*1 /\ n' <= tsize t /\
    stays m (mu_map st) /\
    a_len (mem (mu_map st)) = a_len (mem m) /\ kept t t' /\ pshape t' = pshape t /\
    held t' ++ gone (mu_map st) ≡ₚ held t ++ gone m ++ (inr <$> mut_written (tsize t) 0 evs).
Proof.
  intros Hrep. unfold iter_mut_program. destruct (iter_start_spec m t fl d Hrep) as (it & -> & Hok). cbn [rbind]. unfold item, NodeMut.
  destruct (mut_run_spec d evs m t fl it [] 0 (porder d t) 0) as (st & t' & -> & H); try done; [lia|by rewrite porder_length|].
  exists st, t'. split; [done|]. destruct (mut_walk (porder d t).*2 0 0 evs) as [[l' n'] x'].
  destruct H as (A1 & A2 & A3 & A4 & A5 & A6 & A7 & A8 & A9 & A9b & A10 & _ & _ & A11). done.
Qed.

(** ** Walks *)

Fixpoint tat (path : list dir) t : ptree K V :=
  match path, t with
  | [], _ => t
  | _, Leaf => Leaf
  | GoLeft :: path, Bin l _ _ _ _ => tat path l
  | GoRight :: path, Bin _ _ _ _ r => tat path r
  end.

Lemma tat_leaf path : tat path Leaf = Leaf.
Proof. by destruct path as [|[] path]. Qed.

Lemma tat_erase path : forall t, erase (tat path t) = tree_at path (erase t).
Proof. induction path as [|[] path IH]; intros [|l p k v r]; simpl; done. Qed.

Lemma tat_readable m path : forall t, readable m t -> readable m (tat path t).
Proof.
  induction path as [|[] path IH]; intros [|l p k v r] H; simpl; try done; apply IH.
  - by eapply readable_l.
  - by eapply readable_r.
Qed.

Lemma tat_nodes path : forall t x, x ∈ ppre (tat path t) -> x ∈ ppre t.
Proof.
  induction path as [|[] path IH]; intros [|l p k v r] x; simpl; try done; intros H%IH; right; apply elem_of_app; eauto.
Qed.

Lemma walk_eq m path : forall t, readable m t -> walk m path (node_of t) = Ret (node_of (tat path t)).
Proof.
  induction path as [|d path IH]; intros t Hr; [done|].
  destruct t as [|l p k v r]; [by destruct d|]. destruct d; cbn [walk node_of tat].
  - unfold node_left. cbn [nd_inner n_left]. rewrite (opt_node_ret m l) by (by eapply readable_l).
    cbn [rbind]. apply IH. by eapply readable_l.
  - unfold node_right. cbn [nd_inner n_right]. rewrite (opt_node_ret m r) by (by eapply readable_r).
    cbn [rbind]. apply IH. by eapply readable_r.
Qed.

Lemma walk_mut_eq m path : forall t, readable m t -> walk_mut m path (rootp t) = Ret (rootp (tat path t)).
Proof.
  induction path as [|d path IH]; intros t Hr; [done|].
  destruct t as [|l p k v r]; [by destruct d|]. destruct d; cbn [walk_mut rootp tat].
  - rewrite (nodemut_left_ret _ _ _ _ _ _ Hr). cbn [rbind]. apply IH. by eapply readable_l.
  - rewrite (nodemut_right_ret _ _ _ _ _ _ Hr). cbn [rbind]. apply IH. by eapply readable_r.
Qed.

Lemma show_node_eq t : option_map show_node (node_of t) = tree_show (erase t).
Proof. destruct t as [|l p k v r]; [done|]. simpl. unfold show_node, node_has_left, node_has_right. simpl. by destruct l, r. Qed.

Lemma show_nodemut_eq m l p k v r : readable m (Bin l p k v r) ->
  show_nodemut m p = Ret (k, v, nonleaf (erase l), nonleaf (erase r)).
Proof.
  intros H. unfold show_nodemut, nodemut_key, nodemut_value, nodemut_has_left, nodemut_has_right.
  rewrite (readable_root _ _ _ _ _ _ H). simpl. by destruct l, r.
Qed.

Lemma nodemut_value_ret m l p k v r : readable m (Bin l p k v r) -> nodemut_value m p = Ret v.
Proof. intros H. unfold nodemut_value. by rewrite (readable_root _ _ _ _ _ _ H). Qed.

Lemma value_in m t fl p k v : map_rep m t fl -> (p, (k, v)) ∈ ppre t -> nodemut_value m p = Ret v.
Proof.
  intros Hrep Hin. rewrite ppre_nodes in Hin. apply elem_of_list_fmap in Hin as ([q n] & Heq & Hin).
  simpl in Heq. injection Heq as -> -> ->. unfold nodemut_value.
  by rewrite (rep_readable _ _ _ Hrep _ _ Hin).
Qed.

Lemma tset_erase_at path w : forall t, NoDup (ptrs t) ->
  match tat path t with
  | Leaf => True
  | Bin _ p _ _ _ => erase (tset p w t) = tree_write_at path w (erase t)
  end.
Proof.
  induction path as [|d path IH]; intros t Hnd.
  - destruct t as [|l p k v r]; simpl; [done|]. rewrite ptrs_bin in Hnd. apply NoDup_cons in Hnd as [Hp _].
    rewrite !tset_not_in by set_solver. by rewrite decide_True.
  - destruct t as [|l p k v r]; [by destruct d|]. rewrite ptrs_bin in Hnd. apply NoDup_cons in Hnd as [Hp Hnd].
    apply NoDup_app in Hnd as (Hl & Hlr & Hr). destruct d; simpl.
    + specialize (IH l Hl). destruct (tat path l) as [|tl tp tk tv tr] eqn:Ht; [done|].
      assert (Hin : tp ∈ ptrs l).
      { rewrite <- ppre_fst. apply elem_of_list_fmap. exists (tp, (tk, tv)). split; [done|].
        apply (tat_nodes path). rewrite Ht. left. }
      rewrite IH, (tset_not_in _ _ r) by (by apply Hlr).
      rewrite decide_False; [done|]. intros ->. apply Hp, elem_of_app. by left.
    + specialize (IH r Hr). destruct (tat path r) as [|tl tp tk tv tr] eqn:Ht; [done|].
      assert (Hin : tp ∈ ptrs r).
      { rewrite <- ppre_fst. apply elem_of_list_fmap. exists (tp, (tk, tv)). split; [done|].
        apply (tat_nodes path). rewrite Ht. left. }
      rewrite IH, (tset_not_in _ _ l) by (intros Hc; by apply (Hlr tp)).
      rewrite decide_False; [done|]. intros ->. apply Hp, elem_of_app. by right.
Qed.

(** ** Debug *)

Lemma node_debug_eq m t : forall fuel n, readable m t -> pheight t < S fuel -> node_of t = Some n ->
  rmap DSome (node_debug m (S fuel) n) = Ret (tree_debug (erase t)).
Proof.
  induction t as [|l IHl p k v r IHr]; intros fuel n Hr Hf Hn; simpl in Hn; [done|].
  injection Hn as <-. simpl in Hf. cbn [node_debug].
  unfold node_left, node_right. cbn [nd_inner n_left n_right].
  rewrite (opt_node_ret m l) by (by eapply readable_l). cbn [rbind].
  rewrite (opt_node_ret m r) by (by eapply readable_r).
  assert (Hl' : match node_of l with Some c => rmap DSome (node_debug m fuel c) | None => Ret DNone end = Ret (tree_debug (erase l))).
  { destruct (node_of l) as [nl|] eqn:Hnl; [|by destruct l].
    destruct fuel as [|fuel]; [destruct l; simpl in Hf; [done|lia]|].
    apply IHl; [by eapply readable_l|lia|done]. }
  assert (Hr' : match node_of r with Some c => rmap DSome (node_debug m fuel c) | None => Ret DNone end = Ret (tree_debug (erase r))).
  { destruct (node_of r) as [nr|] eqn:Hnr; [|by destruct r].
    destruct fuel as [|fuel]; [destruct r; simpl in Hf; [done|lia]|].
    apply IHr; [by eapply readable_r|lia|done]. }
  rewrite Hl'. cbn [rbind]. rewrite Hr'. done.
Qed.

Lemma map_debug_eq m t fl : map_rep m t fl ->
  map_debug m = Ret (DStruct "BSTMap" [("root", tree_debug (erase t))])%string.
Proof.
  intros Hrep. unfold map_debug. rewrite (map_root_ret _ _ _ Hrep). cbn [rbind].
  destruct (node_of t) as [n|] eqn:Hn; [|by destruct t].
  unfold map_fuel. erewrite (node_debug_eq m t _ n); try done.
  - by eapply rep_readable.
  - by eapply rep_fuel_height.
Qed.

(** ** Equality *)

Lemma map_eq_loop_spec eqK eqV m1 m2 t1 t2 fl1 fl2 : map_rep m1 t1 fl1 -> map_rep m2 t2 fl2 ->
  forall fuel i1 i2 p1 p2, iter_ok In t1 i1 p1 -> iter_ok In t2 i2 p2 -> length p1 = length p2 -> length p1 < fuel ->
  map_eq_loop eqK eqV m1 m2 fuel i1 i2 = Ret (list_eqb eqK eqV p1.*2 p2.*2).
Proof.
  intros H1 H2. induction fuel as [|fuel IH]; intros i1 i2 p1 p2 Ho1 Ho2 Hl Hf; [lia|].
  cbn [map_eq_loop].
  destruct (iter_next_spec m1 t1 fl1 In i1 p1 H1 Ho1) as (i1' & rs1 & E1 & Ho1' & _).
  destruct (iter_next_spec m2 t2 fl2 In i2 p2 H2 Ho2) as (i2' & rs2 & E2 & Ho2' & _).
  cbn [iter_next] in E1, E2. rewrite E1. cbn [rbind].
  destruct p1 as [|[q1 [k1 v1]] p1], p2 as [|[q2 [k2 v2]] p2]; try done.
  cbn [head tail] in *. rewrite E2. cbn [rbind]. simpl.
  destruct (eqK k1 k2 && eqV v1 v2); [|done]. simpl in *. apply IH; try done; lia.
Qed.

Lemma list_eqb_length eqK eqV : forall (l1 l2 : list (K * V)), list_eqb eqK eqV l1 l2 = true -> length l1 = length l2.
Proof.
  induction l1 as [|[k1 v1] l1 IH]; intros [|[k2 v2] l2]; simpl; try done.
  intros H. f_equal. apply IH. by apply andb_prop in H as [_ H].
Qed.

Lemma map_eq_spec e eqK eqV m1 m2 t1 t2 fl1 fl2 : map_rep m1 t1 fl1 -> map_rep m2 t2 fl2 ->
  map_eq e eqK eqV m1 m2 = Ret (list_eqb eqK eqV (tree_inorder (erase t1)) (tree_inorder (erase t2))).
Proof.
  intros H1 H2. unfold map_eq. rewrite (map_len_ret e _ _ _ H1), (map_len_ret e _ _ _ H2). cbn [rbind].
  rewrite <- !pin_erase.
  destruct (N.eqb_spec (N.of_nat (tsize t1)) (N.of_nat (tsize t2))) as [Heq|Hne]; cbn [negb].
  - destruct (iter_start_spec m1 t1 fl1 In H1) as (i1 & -> & Ho1).
    destruct (iter_start_spec m2 t2 fl2 In H2) as (i2 & -> & Ho2). cbn [rbind].
    eapply map_eq_loop_spec; try done; rewrite !pin_length; [lia|]. by eapply rep_fuel.
  - destruct (list_eqb _ _ _ _) eqn:Hb; [|done]. apply list_eqb_length in Hb.
    rewrite !fmap_length, !pin_length in Hb. lia.
Qed.

End views.
