(** * Destructors that panic in [clone] and in [from_iter] *)

From Verif Require Export ProofDrops.
Local Open Scope nat_scope.

Section more.
Context {K V : Type}.
Implicit Types m : bstmap K V.
Variable leaky : bool.
Variable bad : K + V -> bool.

Local Notation fine_list := (Forall (fun y => bad y = false)).
Local Notation plain_item e o k v :=
  (sbind (bstmap_insert e o k v) (fun prev => smod (log_drops (match prev with Some v => [inr v] | None => [] end)))).

(** One item, if nothing that its insertion destroys panics. *)
Lemma item_log e o k v m m1 : plain_item e o k v m = (Ret tt, m1) ->
  exists l, m_drops m1 = m_drops m ++ l /\
    (fine_list l -> sbind (dinsert leaky bad e o k v) (destroy_opt bad) m = (Ret tt, m1)).
Proof.
  destruct (bstmap_insert e o k v m) as [r0 m0] eqn:Hi. rewrite (sbind_eq _ _ _ _ _ Hi).
  pose proof (dinsert_eq leaky bad e o k v m r0 m0 Hi) as H. pose proof (insert_log _ _ _ _ _ _ _ Hi) as Hl.
  destruct r0 as [[old|]|p| |u|]; try done; unfold smod; intros [= <-].
  - exists [inl k; inr old]. split; [simpl; by rewrite Hl, <- app_assoc|]. intros [Hk [Ho _]%Forall_cons]%Forall_cons.
    rewrite Hk in H. rewrite (sbind_eq _ _ _ _ _ H). cbn [destroy_opt]. rewrite destroy_log, Ho. done.
  - exists []. split; [simpl; by rewrite Hl, !app_nil_r|]. intros _. rewrite (sbind_eq _ _ _ _ _ H). cbn [destroy_opt]. by rewrite log_drops_nil.
Qed.

Lemma insert_all_fine e os items b : forall j m m1, insert_all e os j items b m = (Ret tt, m1) ->
  exists l, m_drops m1 = m_drops m ++ l /\ (fine_list l -> dinsert_all leaky bad e os j items b m = (Ret tt, m1)).
Proof.
  induction items as [|[k v] items IH]; intros j m m1 Hr; cbn [insert_all dinsert_all] in *.
  { exists []. destruct b; [done|]. injection Hr as <-. by rewrite app_nil_r. }
  rewrite sbind_assoc in Hr. destruct (plain_item e (os j k) k v m) as [r0 m0] eqn:H0.
  rewrite (sbind_eq _ _ _ _ _ H0) in Hr. destruct r0 as [[]| | | |]; try done.
  destruct (item_log _ _ _ _ _ _ H0) as (l1 & Hl1 & H1). destruct (IH _ _ _ Hr) as (l2 & Hl2 & H2).
  exists (l1 ++ l2). split; [by rewrite Hl2, Hl1, app_assoc|]. intros [Hf1 Hf2]%Forall_app.
  rewrite sbind_assoc, (sbind_eq _ _ _ _ _ (H1 Hf1)). auto.
Qed.

Lemma clone_loop_fine e os ck cv src fuel : forall j st m m1, clone_loop e os ck cv src fuel j st m = (Ret tt, m1) ->
  exists l, m_drops m1 = m_drops m ++ l /\ (fine_list l -> dclone_loop leaky bad e os ck cv src fuel j st m = (Ret tt, m1)).
Proof.
  induction fuel as [|fuel IH]; intros j st m m1 Hr; [done|]. cbn [dclone_loop clone_loop] in *.
  destruct st as [|n st].
  { exists []. injection Hr as <-. by rewrite app_nil_r. }
  destruct (ck j (node_key n)) as [k|]; [|done]. destruct (cv j (node_value n)) as [v|]; [|done].
  rewrite sbind_assoc in Hr. destruct (plain_item e (os j k) k v m) as [r0 m0] eqn:H0.
  rewrite (sbind_eq _ _ _ _ _ H0) in Hr. destruct r0 as [[]| | | |]; try done.
  destruct (item_log _ _ _ _ _ _ H0) as (l1 & Hl1 & H1).
  unfold sbind, slift in Hr. destruct (node_right src n) as [rr| | | |] eqn:E1; try done.
  destruct (node_left src n) as [ll| | | |] eqn:E2; try done.
  destruct (IH _ _ _ _ Hr) as (l2 & Hl2 & H2).
  exists (l1 ++ l2). split; [by rewrite Hl2, Hl1, app_assoc|]. intros [Hf1 Hf2]%Forall_app.
  rewrite sbind_assoc, (sbind_eq _ _ _ _ _ (H1 Hf1)). unfold sbind, slift. auto.
Qed.

Lemma build_fine e n (body body' : M (bstmap K V) unit) m1 :
  (forall m m2, body m = (Ret tt, m2) -> exists l, m_drops m2 = m_drops m ++ l /\ (fine_list l -> body' m = (Ret tt, m2))) ->
  build e (map_with_capacity e n) body = (Ret tt, m1) -> fine_list (m_drops m1) ->
  dbuild bad e (map_with_capacity e n) body' = (Ret tt, m1).
Proof.
  intros Hb. unfold build, dbuild. destruct (map_with_capacity e n) as [[[]| | | |] m0]; try done.
  destruct (body m0) as [[[]|p| |u|] m2] eqn:H2; try done.
  - intros [= <-] Hf. destruct (Hb _ _ H2) as (l & Hl & H). rewrite Hl in Hf. apply Forall_app in Hf as [_ Hf]. by rewrite H.
  - destruct (map_drop e (fun _ => false) m2) as [[]]; done.
Qed.

Lemma clone_fine e os ck cv m m1 : map_clone e os ck cv m = (Ret tt, m1) -> fine_list (m_drops m1) ->
  dclone leaky bad e os ck cv m = (Ret tt, m1).
Proof.
  unfold map_clone, dclone. destruct (map_len e m) as [n| | | |]; try done. apply build_fine.
  intros m0 m2. unfold sbind, slift. destruct (map_root m) as [r0| | | |]; try done. apply clone_loop_fine.
Qed.

Lemma from_iter_fine e os it m1 : map_from_iter e os it = (Ret tt, m1) -> fine_list (m_drops m1) ->
  dfrom_iter leaky bad e os it = (Ret tt, m1).
Proof. unfold map_from_iter, dfrom_iter. apply build_fine. intros m m2. apply insert_all_fine. Qed.

(** The drop of a map, node by node. *)
Lemma map_drop_cases e m t fl : map_rep m t fl -> exists drops m',
  map_drop e (bad_node bad) m = (if existsb (bad_node bad) drops then Panic PDrop else Ret tt, m') /\
  a_heap (mem m') = ∅ /\ m_drops m' = m_drops m /\ s_drops (m_nodes m') = s_drops (m_nodes m) ++ upto (bad_node bad) drops /\
  (if e_nd e then kv_of <$> drops ≡ₚ (ppre t).*2 else drops = []).
Proof.
  intros [[Hnd Hs] _]. unfold map_drop, on_nodes, zoom.
  destruct (slab_drop_any e (bad_node bad) _ _ _ Hs) as (drops & s' & -> & H1 & _ & H3 & H4).
  eexists drops, _. split; [done|]. split_and!; try done.
  destruct (e_nd e); [|done]. rewrite H4, map_to_list_to_map by done.
  rewrite ppre_nodes. rewrite <- !list_fmap_compose. done.
Qed.

Lemma bad_nodes_owned drops : existsb (bad_node bad) drops = existsb bad (owned (kv_of <$> drops)).
Proof.
  induction drops as [|x drops IH]; [done|]. cbn [existsb]. rewrite IH. simpl. unfold bad_node. by rewrite orb_assoc.
Qed.
Lemma existsb_perm {A} (f : A -> bool) l l' : l ≡ₚ l' -> existsb f l = existsb f l'.
Proof. induction 1; simpl; try congruence. by rewrite !orb_assoc, (orb_comm (f y)). Qed.

Lemma clone_ends e os ck cv m t fl r0 m0 r m' : map_rep m t fl ->
  exec e (OClone os ck cv) m = (r0, m0) -> dexec leaky bad e (OClone os ck cv) m = (r, m') ->
  match r0 with
  | Ret _ => fine_list (m_drops m0) ->
      (r = Abort /\ e_nd e = true /\ exists k v, (k, v) ∈ (ppre t).*2 /\ bad (inl k) = true /\ bad (inr v) = true) \/
      (m' = m0 /\ r = if e_nd e && existsb bad (held t) then Panic PDrop else r0)
  | Panic _ => r <> Abort -> m' = m
  | _ => True
  end.
Proof.
  intros Hrep Hx Hd. cbn [exec dexec] in *.
  destruct (clone_and_replace e os ck cv m) as [r1 m1] eqn:H1. rewrite (sbind_eq _ _ _ _ _ H1) in Hx.
  destruct (dclone_and_replace leaky bad e os ck cv m) as [r2 m2] eqn:H2. rewrite (sbind_eq _ _ _ _ _ H2) in Hd.
  destruct r1 as [[]|p| |u|]; injection Hx as <- <-; try done.
  - intros Hf. unfold clone_and_replace, dclone_and_replace in *.
    destruct (map_clone e os ck cv m) as [[[]|p| |u|] m3] eqn:Hc; try done.
    destruct (map_drop e (fun _ => false) m) as [[[]| | | |] mm] eqn:Hdd; try done. injection H1 as ->.
    rewrite (clone_fine _ _ _ _ _ _ Hc Hf) in H2.
    destruct (map_drop_cases e m t fl Hrep) as (drops & m4 & Hdrop & _ & _ & Hsd & Hdr). rewrite Hdrop in H2.
    assert (Hb : existsb (bad_node bad) drops = e_nd e && existsb bad (held t)).
    { rewrite bad_nodes_owned. destruct (e_nd e); simpl; [|by rewrite Hdr].
      apply existsb_perm. unfold held. apply owned_perm, Hdr. }
    rewrite <- Hb. destruct (upto_split (bad_node bad) drops) as (l2 & Hup & Hcase).
    destruct (existsb (bad_node bad) drops).
    + destruct Hcase as (l0 & x & Hu & Hbx & _). rewrite Hsd, Hu, app_assoc, last_snoc in H2.
      destruct (bad (inl (n_key x)) && bad (inr (n_value x))) eqn:Hkv.
      * left. injection H2 as <- <-. injection Hd as <- <-. apply andb_true_iff in Hkv as [Hk Hv]. split; [done|].
        destruct (e_nd e); [|subst drops; by destruct l0]. split; [done|].
        exists (n_key x), (n_value x). split_and!; try done. rewrite <- Hdr.
        apply elem_of_list_fmap. exists x. split; [done|]. rewrite Hup, Hu. set_solver.
      * right. injection H2 as <- <-. injection Hd as <- <-. done.
    + right. injection H2 as <- <-. injection Hd as <- <-. done.
  - intros Hna. assert (Hna2 : r2 <> Abort) by (intros ->; by injection Hd as <- _).
    destruct (dclone_and_replace_ends _ _ _ _ _ _ _ _ _ _ _ Hrep H2 Hna2) as [H3|[-> [->|H3]]]; try (rewrite H1 in H3); try done.
    + injection H3 as <- <-. injection Hd as <- <-.
      unfold clone_and_replace in H1. destruct (map_clone e os ck cv m) as [[[]|q| |u|] m3]; try (by injection H1).
      destruct (map_drop_spec e (fun _ => false) m t fl Hrep ltac:(done)) as (m5 & drops & Hdd & _). by rewrite Hdd in H1.
    + by injection Hd as <- <-.
Qed.

(** A construction from an iterator in which a destructor panics. *)
Lemma from_iter_panics e os it m : dfrom_iter leaky bad e os it = (Panic PDrop, m) ->
  a_heap (mem m) = ∅ /\ a_drops (mem m) = [] /\ exists n L, leaked leaky 1 L /\
    (e_nd e = true -> gone m ++ L ≡ₚ owned (take n (ui_items it))) /\ exists x, x ∈ gone m /\ bad x = true.
Proof.
  unfold dfrom_iter, dbuild. pose proof (with_capacity_rep (K := K) (V := V) e (hint_len it)) as Hw.
  pose proof (begin_rep (K := K) (V := V) e (SWithCapacity (hint_len it))) as Hw2. cbn [begin] in Hw2.
  destruct (map_with_capacity e (hint_len it)) as [[[]|p| |u|] m0] eqn:Hcap; try done.
  2: { intros [= -> _]. destruct Hw2 as [[?|[?|?]]|[?|[?|?]]]; done. }
  destruct Hw as (t0 & fl0 & Hrep0).
  destruct (dinsert_all leaky bad e os 0 (ui_items it) (ui_panics it) m0) as [r1 m1] eqn:H1.
  destruct r1 as [[]|p| |u|]; try done.
  destruct (dinsert_all_rep _ _ _ _ _ _ _ _ _ _ _ _ Hrep0 H1 ltac:(done)) as (t1 & fl1 & Hrep1).
  destruct (map_drop_cases e m1 t1 fl1 Hrep1) as (drops & m4 & Hdrop & Hheap & Hmd & Hsd & Hdr). rewrite Hdrop.
  destruct (existsb (bad_node bad) drops) eqn:Hb; [done|]. intros [= -> <-].
  destruct (upto_split (bad_node bad) drops) as (l2 & Hup & Hcase). rewrite Hb in Hcase. destruct Hcase as [-> _].
  rewrite app_nil_r in Hup. rewrite <- Hup in Hsd. split; [done|].
  destruct (dinsert_all_ends _ _ _ _ _ _ _ _ _ _ H1 ltac:(done)) as [H2|(_ & n & mm & L & H2 & Hal & HL & Hlk)].
  { exfalso. pose proof (map_from_iter_spec e os it) as Hs. unfold map_from_iter, build in Hs. rewrite Hcap, H2 in Hs.
    destruct (map_drop_spec e (fun _ => false) m1 t1 fl1 Hrep1 ltac:(done)) as (m5 & dr & Hdd & _). rewrite Hdd in Hs.
    destruct Hs as [_ [[[?|[?|?]] _]|(n & t & cap & _ & Hst & _)]]; try done.
    destruct (stopped_pulled _ _ _ _ _ _ Hst) as (n' & _ & Hn'). done. }
  set (it' := mkUserIter (ui_lo it) (ui_hi it) (take n (ui_items it)) false).
  assert (Hbegin : begin e (SFromIter os it') = (Ret tt, mm)).
  { cbn [begin]. unfold map_from_iter, build. change (hint_len it') with (hint_len it). cbn [it' ui_items ui_panics]. by rewrite Hcap, H2. }
  split.
  { destruct (arena_silent (K := K) (V := V) e) as (Hq1 & _ & Hq2 & _). pose proof (Hq1 (SFromIter os it')) as Hq. rewrite Hbegin in Hq.
    cbn [snd] in Hq. destruct Hal as [Hal _]. rewrite <- Hal in Hq. pose proof (Hq2 (bad_node bad) m1 Hq) as Hq3. by rewrite Hdrop in Hq3. }
  exists n, L. split; [done|].
  pose proof (map_from_iter_spec e os it') as Hs. unfold it' in Hs.
  unfold map_from_iter, build in Hs. change (hint_len (mkUserIter _ _ _ _)) with (hint_len it) in Hs. cbn [ui_items ui_panics] in Hs.
  rewrite Hcap, H2 in Hs. destruct Hs as (_ & t & fl & Hrep & _ & Hg & _).
  split.
  - intros Hnd. rewrite Hnd in Hdr. rewrite <- Hg.
    pose proof (alike_rep _ _ _ _ (alike_sym _ _ Hal) Hrep) as Hrep2.
    assert (Ht : held t1 ≡ₚ held t).
    { pose proof (rep_yields _ _ _ Pre Hrep1) as Hy1. pose proof (rep_yields_eq _ _ _ _ _ Hrep2 Hy1) as He.
      rewrite <- !held_owned with (d := Pre). by rewrite He. }
    rewrite <- Ht. unfold gone. rewrite Hmd, Hsd, fmap_app, owned_app, (owned_perm _ _ Hdr). fold (held t1).
    destruct Hal as [<- _]. rewrite <- HL. solve_Permutation.
  - destruct (dinsert_all_log _ _ _ _ _ _ _ _ _ _ _ _ Hrep0 H1 ltac:(done)) as (l & Hl & l1 & x & l3 & -> & Hx & _).
    exists x. split; [|done]. unfold gone. rewrite Hmd, Hl. set_solver.
Qed.

End more.

Section theorems.
Context {K V : Type}.
Implicit Types m : bstmap K V.
Variable leaky : bool.

Lemma dreached_rep e bad (s : start K V) cs rs m : dreached leaky e bad s cs rs m -> Forall quiet_clear cs -> alive rs ->
  exists t fl, map_rep m t fl.
Proof.
  intros (m0 & Hb & Hr) Hq Ha. destruct (dbegin_ends _ _ _ _ _ _ Hb ltac:(done)) as [Hb'|?]; [|done].
  pose proof (begin_rep e s) as H. rewrite Hb' in H. destruct H as (t & fl & Hrep & _).
  destruct (drun_as_if _ _ _ _ _ _ _ _ Hrep Hq Ha Hr) as (_ & _ & _ & t' & fl' & _ & _ & _ & Hrep' & _). eauto.
Qed.

Lemma drops_clone e bad (s : start K V) cs rs m bad' os ck cv r0 m0 r m' d l :
  dreached leaky e bad s cs rs m -> Forall quiet_clear cs -> alive rs -> yields m d l ->
  exec e (OClone os ck cv) m = (r0, m0) -> dexec leaky bad' e (OClone os ck cv) m = (r, m') ->
  match r0 with
  | Ret _ => Forall (fun y => bad' y = false) (dropped m0) ->
      (r = Abort /\ e_nd e = true /\ exists k v, (k, v) ∈ l /\ bad' (inl k) = true /\ bad' (inr v) = true) \/
      (m' = m0 /\ r = if e_nd e && existsb bad' (owned l) then Panic PDrop else r0)
  | Panic _ => r <> Abort -> m' = m
  | _ => True
  end.
Proof.
  intros Hr Hq Ha Hy Hx Hd. destruct (dreached_rep _ _ _ _ _ _ Hr Hq Ha) as (t & fl & Hrep).
  pose proof (clone_ends leaky bad' e os ck cv m t fl r0 m0 r m' Hrep Hx Hd) as H.
  destruct r0 as [x|p| |u|]; try done. intros Hf. apply Forall_app in Hf as [Hf _].
  assert (Hp : l ≡ₚ (ppre t).*2).
  { rewrite (rep_yields_eq _ _ _ _ _ Hrep Hy). rewrite <- porder_erase. by rewrite porder_perm. }
  assert (Hh : existsb bad' (held t) = existsb bad' (owned l)) by (apply existsb_perm, owned_perm; by rewrite Hp).
  rewrite <- Hh. destruct (H Hf) as [(-> & Hnd & k & v & Hin & Hk)|?]; [|by right]. left. split_and!; try done.
  exists k, v. split; [by rewrite Hp|done].
Qed.

Lemma drops_collect e bad os it r m : dbegin leaky bad e (SFromIter (K := K) (V := V) os it) = (r, m) -> r <> Abort ->
  match begin e (SFromIter os it) with
  | (Ret _, m0) => Forall (fun y => bad y = false) (dropped m0) -> r = Ret tt /\ m = m0
  | _ => True
  end /\
  (begin e (SFromIter os it) = (r, m) \/
   r = Panic PDrop /\ blocks m = ∅ /\ exists n L, leaked leaky 1 L /\
     (e_nd e = true -> dropped m ++ L ≡ₚ owned (take n (ui_items it))) /\ exists x, x ∈ dropped m /\ bad x = true).
Proof.
  cbn [dbegin begin]. intros Hd Hna. split.
  - destruct (map_from_iter e os it) as [[[]| | | |] m0] eqn:H0; try done. intros [Hf _]%Forall_app.
    rewrite (from_iter_fine leaky bad _ _ _ _ H0 Hf) in Hd. by injection Hd as <- <-.
  - destruct (dfrom_iter_ends _ _ _ _ _ _ _ Hd Hna) as [?| ->]; [by left|right].
    destruct (from_iter_panics _ _ _ _ _ _ Hd) as (H1 & Hq & n & L & H2 & H3 & H4).
    split; [done|]. split; [done|]. exists n, L. split; [done|]. by rewrite (dropped_gone m Hq).
Qed.

End theorems.
