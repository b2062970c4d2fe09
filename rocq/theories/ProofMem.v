(** * Proofs about capacities *)

From Verif Require Export SpecMem ProofProfiles ProofDrop.
Local Open Scope N_scope.

Lemma cfirst_room n : cfirst n = chunks_room n.
Proof. done. Qed.

Lemma cfirst_double n : cfirst (n + 1) = 2 * cfirst n + 8.
Proof.
  unfold cfirst. rewrite N.add_1_r, N.pow_succ_r by lia.
  assert (1 <= 2 ^ n) by (change 1 with (2 ^ 0); apply N.pow_le_mono_r; lia). lia.
Qed.

Lemma cfirst_clen n : cfirst (n + 1) = cfirst n + clen n.
Proof.
  rewrite cfirst_double. unfold cfirst, clen.
  assert (1 <= 2 ^ n) by (change 1 with (2 ^ 0); apply N.pow_le_mono_r; lia). lia.
Qed.

(** ** How many chunks a computation can add *)

Section upto.
Context {S : Type} (cnt : S -> N).

Definition upto {A} (d : N) (f : M S A) : Prop := forall s, cnt (f s).2 <= cnt s + d.

Lemma upto_le {A} d d' (f : M S A) : d <= d' -> upto d f -> upto d' f.
Proof. intros Hd Hf s. specialize (Hf s). lia. Qed.
Lemma upto_bind {A B} d d1 d2 (f : M S A) (g : A -> M S B) : upto d1 f -> (forall x, upto d2 (g x)) -> d1 + d2 <= d -> upto d (sbind f g).
Proof.
  intros Hf Hg Hd s. unfold sbind. specialize (Hf s). destruct (f s) as [r s1]. simpl in Hf.
  destruct r as [x| | | |]; simpl; [specialize (Hg x s1)| | | |]; lia.
Qed.
Lemma upto_lift {A} d (r : res A) : upto d (slift r).
Proof. intros s. simpl. lia. Qed.
Lemma upto_ret {A} d (x : A) : upto d (sret x).
Proof. intros s. simpl. lia. Qed.
Lemma upto_get d : upto d sget.
Proof. intros s. simpl. lia. Qed.
Lemma upto_mod d f : (forall s, cnt (f s) = cnt s) -> upto d (smod f).
Proof. intros H s. simpl. rewrite H. lia. Qed.
Lemma upto_on_panic {A} d h (f : M S A) : (forall s, cnt (h s) = cnt s) -> upto d f -> upto d (on_panic h f).
Proof. intros Hh Hf s. unfold on_panic. specialize (Hf s). destruct (f s) as [r s1]. destruct r; simpl in *; rewrite ?Hh; lia. Qed.
End upto.

Lemma upto_zoom {S T A} (cs : S -> N) (ct : T -> N) pr inj d (f : M T A) :
  (forall s, cs s = ct (pr s)) -> (forall t s, cs (inj t s) = ct t) -> upto ct d f -> upto cs d (zoom pr inj f).
Proof. intros H1 H2 Hf s. unfold zoom. specialize (Hf (pr s)). destruct (f (pr s)) as [r t]. simpl in *. specialize (H1 s). specialize (H2 t s). lia. Qed.

Section counting.
Context {T : Type}.
Lemma push_chunk_upto e : upto (@nchunks T) 1 (push_chunk e).
Proof.
  unfold push_chunk. intros a.
  unfold sbind at 1, sget. unfold sbind at 1, slift. destruct (chunk_len _ _) as [cl| | | |]; simpl; try lia.
  unfold sbind at 1. destruct (vec_with_capacity _ _ _) as [c| | | |]; simpl; try lia.
  case_match; simpl; [unfold nchunks; simpl; lia|].
  unfold sbind, smod. simpl. unfold slift. destruct (uadd _ _ _); simpl; unfold nchunks; simpl; rewrite app_length; simpl; lia.
Qed.

Lemma arena_poke_upto (p : Ptr) (x : T) : upto nchunks 0 (arena_poke p x).
Proof. intros a. unfold arena_poke. repeat case_match; unfold nchunks; simpl; lia. Qed.

Lemma arena_set_upto (p : Ptr) (x : T) : upto nchunks 0 (arena_set p x).
Proof. intros a. unfold arena_set. case_match; simpl; try lia. apply (arena_poke_upto p x a). Qed.

Lemma arena_alloc_upto e (x : T) : upto nchunks 1 (arena_alloc e x).
Proof.
  unfold arena_alloc. eapply (upto_bind _ _ 0 1); [apply upto_get| |lia]. intros a.
  eapply (upto_bind _ _ 0 1); [apply upto_lift| |lia]. intros _.
  eapply (upto_bind _ _ 1 0); [case_match; [apply push_chunk_upto|apply upto_ret]| |lia]. intros _.
  eapply (upto_bind _ _ 0 0); [apply upto_get| |lia]. intros a1.
  eapply (upto_bind _ _ 0 0); [apply upto_lift| |lia]. intros _.
  eapply (upto_bind _ _ 0 0); [apply upto_lift| |lia]. intros pos.
  eapply (upto_bind _ _ 0 0); [apply upto_lift| |lia]. intros _.
  eapply (upto_bind _ _ 0 0); [apply upto_lift| |lia]. intros ip.
  eapply (upto_bind _ _ 0 0); [apply arena_poke_upto| |lia]. intros _.
  eapply (upto_bind _ _ 0 0); [apply upto_lift| |lia]. intros l.
  eapply (upto_bind _ _ 0 0); [by apply upto_mod| |lia]. intros _. apply upto_ret.
Qed.

End counting.

Section counting_slab.
Context {T : Type}.
Definition snc (s : slab T) : N := nchunks (s_items s).

Lemma on_items_upto {A} d (f : M (arena (entry T)) A) : upto nchunks d f -> upto snc d (on_items f).
Proof. by apply upto_zoom. Qed.

Lemma slab_update_upto p f : upto snc 0 (slab_update (T := T) p f).
Proof.
  unfold slab_update. eapply (upto_bind _ _ 0 0); [apply upto_get| |lia]. intros s.
  eapply (upto_bind _ _ 0 0); [apply upto_lift| |lia]. intros x.
  eapply (upto_bind _ _ 0 0); [apply on_items_upto, arena_set_upto| |lia]. intros _. apply upto_ret.
Qed.

Lemma slab_push_upto e (x : T) : upto snc 1 (slab_push e x).
Proof.
  unfold slab_push. eapply (upto_bind _ _ 0 1); [apply upto_get| |lia]. intros s.
  destruct (s_head s); [|apply on_items_upto, arena_alloc_upto].
  eapply (upto_bind _ _ 0 0); [apply upto_lift| |lia]. intros en.
  eapply (upto_bind _ _ 0 0); [apply upto_lift| |lia]. intros nf.
  eapply (upto_bind _ _ 0 0); [by apply upto_mod| |lia]. intros _.
  eapply (upto_bind _ _ 0 0); [apply upto_lift| |lia]. intros fl.
  eapply (upto_bind _ _ 0 0); [by apply upto_mod| |lia]. intros _.
  eapply (upto_bind _ _ 0 0); [apply on_items_upto, arena_set_upto| |lia]. intros _. apply upto_ret.
Qed.
End counting_slab.

Section mem.
Context {K V : Type}.
Implicit Types m : bstmap K V.
Implicit Types t : ptree K V.

Definition mnc m : N := nchunks (mem m).

Lemma on_nodes_upto {A} d (f : M (slab (inner K V)) A) : upto snc d f -> upto mnc d (on_nodes f).
Proof. by apply upto_zoom. Qed.


Ltac up := repeat first
  [ apply upto_get | apply upto_ret | apply upto_lift | by apply upto_mod
  | apply on_nodes_upto, slab_push_upto | apply on_nodes_upto, slab_update_upto
  | eapply (upto_bind _ _ 0 1); [| |lia] ].

Lemma set_left_upto n p : upto mnc 0 (nodemut_set_left (K := K) (V := V) n p).
Proof. eapply (upto_bind _ _ 0 0); [apply on_nodes_upto, slab_update_upto|intros; apply upto_ret|lia]. Qed.
Lemma set_right_upto n p : upto mnc 0 (nodemut_set_right (K := K) (V := V) n p).
Proof. eapply (upto_bind _ _ 0 0); [apply on_nodes_upto, slab_update_upto|intros; apply upto_ret|lia]. Qed.

Lemma push_left_upto e p (k : K) (v : V) : upto mnc 1 (nodemut_push_left e p k v).
Proof.
  eapply (upto_bind _ _ 1 0); [apply on_nodes_upto, slab_push_upto| |lia]. intros x.
  eapply (upto_bind _ _ 0 0); [apply set_left_upto| |lia]. intros. apply upto_ret.
Qed.
Lemma push_right_upto e p (k : K) (v : V) : upto mnc 1 (nodemut_push_right e p k v).
Proof.
  eapply (upto_bind _ _ 1 0); [apply on_nodes_upto, slab_push_upto| |lia]. intros x.
  eapply (upto_bind _ _ 0 0); [apply set_right_upto| |lia]. intros. apply upto_ret.
Qed.

Lemma insert_upto e o (k : K) (v : V) : upto mnc 1 (bstmap_insert e o k v).
Proof.
  assert (Hloop : forall fuel i cur, upto mnc 1 (insert_loop e o fuel i k v cur)).
  { induction fuel as [|fuel IH]; intros i cur; simpl; [apply upto_lift|].
    destruct cur as [n|]; [|apply upto_ret].
    eapply (upto_bind _ _ 0 1); [apply upto_get| |lia]. intros m.
    eapply (upto_bind _ _ 0 1); [apply upto_lift| |lia]. intros nk.
    eapply (upto_bind _ _ 0 1); [apply upto_lift| |lia]. intros [].
    - eapply (upto_bind _ _ 0 1); [|intros x|lia].
      + unfold nodemut_replace_value. eapply (upto_bind _ _ 0 0); [apply on_nodes_upto, slab_update_upto|intros; apply upto_ret|lia].
      + eapply (upto_bind _ _ 0 1); [by apply upto_mod|intros; apply upto_ret|lia].
    - eapply (upto_bind _ _ 0 1); [apply upto_lift| |lia]. intros []; cbn [negb].
      + eapply (upto_bind _ _ 0 1); [apply upto_lift| |lia]. intros c. apply IH.
      + eapply (upto_bind _ _ 1 0); [apply push_left_upto| |lia]. intros. apply upto_ret.
    - eapply (upto_bind _ _ 0 1); [apply upto_lift| |lia]. intros []; cbn [negb].
      + eapply (upto_bind _ _ 0 1); [apply upto_lift| |lia]. intros c. apply IH.
      + eapply (upto_bind _ _ 1 0); [apply push_right_upto| |lia]. intros. apply upto_ret. }
  unfold bstmap_insert. apply upto_on_panic; [done|].
  eapply (upto_bind _ _ 0 1); [apply upto_get| |lia]. intros m.
  eapply (upto_bind _ _ 0 1); [apply upto_lift| |lia]. intros [r|]; [apply Hloop|].
  eapply (upto_bind _ _ 1 0); [apply on_nodes_upto, slab_push_upto| |lia]. intros p.
  eapply (upto_bind _ _ 0 0); [by apply upto_mod| |lia]. intros. apply upto_ret.
Qed.

Lemma rep_cap m t fl : map_rep m t fl -> map_capacity m = cfirst (mnc m).
Proof. intros H. apply (ai_cap _ (rep_inv _ _ _ H)). Qed.

Lemma rep_slots m t fl : map_rep m t fl -> N.of_nat (tsize t) <= slots m <= map_capacity m.
Proof.
  intros H. pose proof (map_rep_len _ _ _ H) as Hl. pose proof (ai_len _ (rep_inv _ _ _ H)).
  change (slots m) with (a_len (mem m)). change (map_capacity m) with (a_cap (mem m)). lia.
Qed.

Lemma rep_count e m t fl : map_rep m t fl -> map_len e m = Ret (N.of_nat (tsize t)).
Proof. intros H. by eapply map_len_ret. Qed.

Lemma rep_entry_count e m t fl : map_rep m t fl -> entry_count e m = N.of_nat (tsize t).
Proof. intros H. unfold entry_count. by erewrite rep_count. Qed.

(** ** Growth of one insertion *)

Lemma insert_growth_rep e (o : oracle K) (k : K) (v : V) m t fl r m' : map_rep m t fl ->
  bstmap_insert e o k v m = (r, m') ->
  map_capacity m' = map_capacity m \/
  (map_capacity m' = 2 * map_capacity m + 8 /\ N.of_nat (tsize t) = map_capacity m /\ slots m' = map_capacity m + 1 /\ r = Ret None).
Proof.
  intros Hrep Heq. pose proof (insert_call e o k v m t fl Hrep) as Hwp. unfold wp in Hwp. rewrite Heq in Hwp.
  pose proof (insert_upto e o k v m) as Hup. rewrite Heq in Hup. simpl in Hup.
  pose proof (rep_slots _ _ _ Hrep) as Hs. pose proof (rep_cap _ _ _ Hrep) as Hc.
  assert (Hstop : unchanged m m' -> map_capacity m' = map_capacity m).
  { intros [_ [n Hu]]. unfold map_capacity, slab_capacity. by rewrite Hu. }
  destruct r as [x|p| |u|]; try done.
  - destruct Hwp as (q & t' & fl' & Ht & Hrep' & Hg & Hroom & Hq & _).
    pose proof (rep_slots _ _ _ Hrep') as Hs'. pose proof (rep_cap _ _ _ Hrep') as Hc'.
    destruct (N.le_gt_cases (N.of_nat (tsize t')) (map_capacity m)) as [Hle|Hgt].
    { left. destruct (Hroom Hle) as [(_ & Hcap & _) _]. exact Hcap. }
    right. pose proof (tins_size _ _ _ _ _ _ _ _ Ht) as Hsz.
    assert (mnc m' = mnc m + 1).
    { destruct (N.le_gt_cases (mnc m') (mnc m)) as [Hle|?]; [|lia]. apply cfirst_mono in Hle. lia. }
    rewrite Hc', Hc, H, cfirst_double. rewrite <- Hc.
    pose proof (gr_slots _ _ _ _ Hg) as Hsl. change (a_len (mem m')) with (slots m') in Hsl. change (a_len (mem m)) with (slots m) in Hsl.
    destruct x; simpl in Hsz; split_and!; try done; lia.
  - left. apply Hstop. by destruct Hwp as (_ & ? & _).
  - left. apply Hstop. by destruct Hwp as (_ & ? & _).
Qed.

Lemma insert_growth e (o : oracle K) (k : K) (v : V) m r m' : reachable e m -> exec e (OInsert o k v) m = (r, m') ->
  map_capacity m' = map_capacity m \/
  (map_capacity m' = 2 * map_capacity m + 8 /\ entry_count e m = map_capacity m /\ r = Ret (OutValue None)).
Proof.
  intros Hr Hex. destruct (reachable_rep e m Hr) as (t & fl & Hrep). cbn [exec] in Hex. unfold sbind in Hex.
  destruct (bstmap_insert e o k v m) as [x m1] eqn:Heq.
  pose proof (insert_growth_rep e o k v m t fl x m1 Hrep Heq) as Hg. rewrite (rep_entry_count _ _ _ _ Hrep).
  destruct x as [x| | | |]; injection Hex as <- <-; destruct Hg as [Hg|(Hg1 & Hg2 & _ & Hg3)]; try (by left); try done.
  right. injection Hg3 as ->. done.
Qed.

(** Insertions grow the capacity no further than to the next chunk. *)
Lemma insert_all_room e os panics : forall items j m t fl m', map_rep m t fl ->
  insert_all e os j items panics m = (Ret tt, m') ->
  forall c, map_capacity m <= chunks_room c -> slots m' <= chunks_room c -> map_capacity m' <= chunks_room c.
Proof.
  induction items as [|[k v] items IH]; intros j m t fl m' Hrep Heq c Hc Hs; cbn [insert_all] in Heq.
  { destruct panics; [done|]. by injection Heq as <-. }
  unfold sbind at 1 in Heq. destruct (bstmap_insert e (os j k) k v m) as [r m1] eqn:Hi.
  destruct r as [r| | | |]; try done. unfold sbind, smod in Heq.
  pose proof (insert_call e (os j k) k v m t fl Hrep) as Hwp. unfold wp in Hwp. rewrite Hi in Hwp.
  destruct Hwp as (q & t1 & fl1 & _ & Hrep1 & Hg1 & _).
  set (m2 := log_drops _ m1) in Heq. assert (Hrep2 : map_rep m2 t1 fl1) by done.
  eapply (IH _ m2); try done.
  pose proof (insert_all_spec e os panics items (S j) m2 t1 fl1 Hrep2) as Hall. unfold wp in Hall. rewrite Heq in Hall.
  destruct Hall as (_ & t' & fl' & Hrep' & _ & Hg2 & _).
  assert (Hsl : slots m1 <= slots m').
  { pose proof (gr_slots _ _ _ _ Hg2) as Hx. change (a_len (mem m2)) with (slots m1) in Hx. change (a_len (mem m')) with (slots m') in Hx. lia. }
  change (map_capacity m2) with (map_capacity m1).
  destruct (insert_growth_rep e (os j k) k v m t fl _ m1 Hrep Hi) as [->|(-> & _ & Hfull & _)]; [done|].
  rewrite (rep_cap _ _ _ Hrep) in *. rewrite cfirst_room in *.
  destruct (N.le_gt_cases c (mnc m)) as [Hle|Hgt].
  { exfalso. pose proof (cfirst_mono _ _ Hle : chunks_room c <= chunks_room (mnc m)). lia. }
  change (2 * chunks_room (mnc m) + 8) with (2 * cfirst (mnc m) + 8). rewrite <- cfirst_double. apply cfirst_mono. lia.
Qed.

(** ** with_capacity and new *)

Lemma with_capacity_room e n m : begin (K := K) (V := V) e (SWithCapacity n) = (Ret tt, m) ->
  map_len e m = Ret 0 /\ (forall d, yields m d []) /\ least_room n (map_capacity m) /\ (n = 0 -> m = map_new).
Proof.
  simpl. intros Heq. pose proof (map_with_capacity_spec (K := K) (V := V) e n) as H. rewrite Heq in H.
  destruct H as (Hrep & Hle & _ & _ & _ & H0 & Hmin). split_and!; try done.
  - by rewrite (rep_count e _ _ _ Hrep).
  - intros d. pose proof (rep_yields _ _ _ d Hrep) as Hy. by destruct d.
  - split_and!; [|done|].
    + exists (mnc m). by rewrite (rep_cap _ _ _ Hrep).
    + intros j Hj. rewrite (rep_cap _ _ _ Hrep). apply cfirst_mono, Hmin. done.
Qed.

Lemma with_capacity_fails e n p m : begin (K := K) (V := V) e (SWithCapacity n) = (Panic p, m) ->
  (p = PCapacity \/ p = PAssert) /\ blocks m = ∅.
Proof.
  simpl. intros Heq. pose proof (map_with_capacity_spec (K := K) (V := V) e n) as H. rewrite Heq in H.
  destruct H as (Ha & Hh & _). split; [|done]. destruct Ha as [[= ->]|[[= ->]|[=]]]; auto.
Qed.

Lemma new_allocates_nothing e : map_with_capacity (K := K) (V := V) e 0 = (Ret tt, map_new) /\
  map_capacity (@map_new K V) = 0 /\ requests (@map_new K V) = 0 /\ blocks (@map_new K V) = ∅.
Proof. done. Qed.

(** ** reserve *)

Lemma reserve_exec e n m t fl r m' : map_rep m t fl -> exec e (OReserve n) m = (r, m') ->
  match r with
  | Ret x => x = OutUnit /\ map_rep m' t fl /\ grown m m' /\
       (slots m + n < USIZE ->
          slots m + n <= map_capacity m' /\ (slots m + n <= map_capacity m -> m' = m) /\
          (forall c, map_capacity m <= chunks_room c -> slots m + n <= chunks_room c -> map_capacity m' <= chunks_room c)) /\
       (USIZE <= slots m + n -> e_chk e = false)
  | Panic p => map_rep m' t fl /\ grown m m' /\
      ((alloc_fail (Some p) /\ (slots m + n < USIZE -> map_capacity m' < slots m + n)) \/
       (p = POverflow /\ m' = m /\ e_chk e = true /\ USIZE <= slots m + n))
  | Abort => grown m m' /\ (slots m + n < USIZE -> map_capacity m' < slots m + n)
  | _ => False
  end.
Proof.
  intros Hrep Hex. pose proof (map_reserve_spec e n m t fl Hrep) as Hwp. cbn [exec] in Hex. unfold sbind, wp in *.
  destruct (map_reserve e n m) as [x m1]. destruct x as [[]|p| |u|]; injection Hex as <- <-; try done.
  - destruct Hwp as (Hrep' & Hg & Hlt & Hge). split_and!; try done. intros Hu. destruct (Hlt Hu) as (H1 & H2 & H3).
    split_and!; try done. intros c Hc Hn. rewrite (rep_cap _ _ _ Hrep'), (rep_cap _ _ _ Hrep) in *.
    destruct (N.le_gt_cases (mnc m) c) as [Hle|Hgt].
    + apply cfirst_mono. by apply H3.
    + exfalso. assert (cfirst c < cfirst (mnc m)); [|change (chunks_room c) with (cfirst c) in *; lia].
      assert (Hx : cfirst (c + 1) <= cfirst (mnc m)) by (apply cfirst_mono; lia). rewrite cfirst_double in Hx. lia.
  - destruct Hwp as (Hrep' & Hg & [[Ha Hlt]|([= ->] & H1 & H2 & H3)]); split_and!; auto.
  - destruct Hwp as (Hrep' & Hg & [[Ha Hlt]|(? & _)]); done.
Qed.

Lemma reserve_room e n m x m' : reachable e m -> exec e (OReserve n) m = (Ret x, m') ->
  (e_chk e = true \/ slots m + n < USIZE) ->
  entry_count e m + n <= map_capacity m' /\ map_capacity m <= map_capacity m' /\ same_tree m m' /\
  (map_capacity m < slots m + n -> least_room (slots m + n) (map_capacity m')).
Proof.
  intros Hr Hex Hno. destruct (reachable_rep e m Hr) as (t & fl & Hrep).
  pose proof (reserve_exec e n m t fl _ _ Hrep Hex) as (_ & Hrep' & Hg & Hlt & Hge).
  assert (Hu : slots m + n < USIZE).
  { destruct Hno as [Hc|?]; [|done]. destruct (N.lt_ge_cases (slots m + n) USIZE) as [?|Hu]; [done|]. apply Hge in Hu. congruence. }
  destruct (Hlt Hu) as (H1 & H2 & H3). pose proof (rep_slots _ _ _ Hrep). rewrite (rep_entry_count _ _ _ _ Hrep).
  split_and!.
  - lia.
  - destruct Hg as [Hext _]. apply (arena_ext_cap _ _ (rep_inv _ _ _ Hrep) Hext).
  - by eapply rep_same_tree.
  - intros Hcap. split_and!; [|done|].
    + exists (mnc m'). by rewrite (rep_cap _ _ _ Hrep').
    + intros j Hj. apply H3; [|done]. lia.
Qed.

Lemma reserve_overflow e n m : reachable e m -> e_chk e = true -> USIZE <= slots m + n ->
  exec e (OReserve n) m = (Panic POverflow, m).
Proof.
  intros Hr Hc Hu. cbn [exec]. unfold sbind, map_reserve, on_nodes, zoom, slab_reserve, on_items, zoom, arena_reserve, sbind, sget, slift, uadd.
  change (arena_len (s_items (m_nodes m))) with (slots m). apply N.ltb_ge in Hu. rewrite Hu, Hc.
  by destruct m as [[] ? ?].
Qed.

(** In a build without overflow checks [reserve] forgets the carry. *)
Lemma reserve_wraps e n m : reachable e m -> e_chk e = false -> USIZE <= slots m + n -> n < USIZE ->
  slots m + n - USIZE <= map_capacity m -> exec e (OReserve n) m = (Ret OutUnit, m).
Proof.
  intros Hr Hc Hu Hn Hle. cbn [exec]. unfold sbind, map_reserve, on_nodes, zoom, slab_reserve, on_items, zoom, arena_reserve, sbind, sget, slift, uadd.
  change (arena_len (s_items (m_nodes m))) with (slots m). apply N.ltb_ge in Hu as Hu'. rewrite Hu', Hc.
  assert (Hs : slots m < USIZE).
  { destruct (reachable_rep e m Hr) as (t & fl & Hrep). pose proof (slots_bound _ _ Hr) as [??]. change USIZE with (2 ^ 64).
    change (2 ^ 63) with 9223372036854775808 in *. change (2 ^ 64) with 18446744073709551616. lia. }
  replace ((slots m + n) mod USIZE) with (slots m + n - USIZE).
  2:{ apply (N.mod_unique _ _ 1); lia. }
  unfold GROW_FUEL. cbn [grow_loop]. unfold sbind, sget.
  change (arena_capacity (s_items (m_nodes m))) with (map_capacity m). apply N.ltb_ge in Hle. rewrite Hle.
  by destruct m as [[] ? ?].
Qed.

Lemma reserve_idle e n m : reachable e m -> slots m + n <= map_capacity m -> exec e (OReserve n) m = (Ret OutUnit, m).
Proof.
  intros Hr Hle. destruct (reachable_rep e m Hr) as (t & fl & Hrep).
  destruct (exec e (OReserve n) m) as [r m'] eqn:Hex. pose proof (reserve_exec e n m t fl _ _ Hrep Hex) as H.
  assert (Hu : slots m + n < USIZE).
  { pose proof (slots_bound _ _ Hr) as [??]. change USIZE with (2 ^ 64).
    change (2 ^ 63) with 9223372036854775808 in *. change (2 ^ 64) with 18446744073709551616. lia. }
  destruct r as [x|p| |u|]; try done.
  - destruct H as (-> & _ & _ & Hlt & _). destruct (Hlt Hu) as (_ & Hid & _). by rewrite Hid.
  - exfalso. destruct H as (_ & [Hext _] & [[_ Hlt]|(_ & _ & _ & ?)]); [|lia]. specialize (Hlt Hu).
    pose proof (arena_ext_cap _ _ (rep_inv _ _ _ Hrep) Hext) as Hc. change (map_capacity m <= map_capacity m') in Hc. lia.
  - exfalso. destruct H as ([Hext _] & Hlt). specialize (Hlt Hu).
    pose proof (arena_ext_cap _ _ (rep_inv _ _ _ Hrep) Hext) as Hc. change (map_capacity m <= map_capacity m') in Hc. lia.
Qed.

(** [reserve] counts the free slots as used. *)
Lemma reserve_needless e n m x m' : reachable e m -> exec e (OReserve n) m = (Ret x, m') ->
  slots m + n < USIZE -> map_capacity m < slots m + n ->
  2 * map_capacity m + 8 <= map_capacity m'.
Proof.
  intros Hr Hex Hu Hlt. destruct (reachable_rep e m Hr) as (t & fl & Hrep).
  pose proof (reserve_exec e n m t fl _ _ Hrep Hex) as (_ & Hrep' & Hg & Hx & _).
  destruct (Hx Hu) as (H1 & _). rewrite (rep_cap _ _ _ Hrep') in *. rewrite (rep_cap _ _ _ Hrep) in *.
  rewrite <- cfirst_double. apply cfirst_mono.
  destruct (N.le_gt_cases (mnc m') (mnc m)) as [Hle|?]; [|lia]. apply cfirst_mono in Hle. lia.
Qed.

(** ** shrink_to_fit *)

Lemma shrink_exec e m t fl r m' : map_rep m t fl -> exec e OShrink m = (r, m') ->
  r = Ret OutUnit /\ map_rep m' t fl /\ slots m' = slots m /\ map_capacity m' <= map_capacity m /\
  least_room (slots m) (map_capacity m') /\ requests m' = requests m.
Proof.
  intros Hrep Hex. pose proof (map_shrink_spec e m t fl Hrep) as Hwp. cbn [exec] in Hex. unfold sbind, wp in *.
  destruct (map_shrink_to_fit e m) as [x m1]. destruct x as [[]|p| |u|]; injection Hex as <- <-; try done.
  destruct Hwp as (Hrep' & Hsh & _ & Hmin).
  assert (Hle : mnc m1 <= mnc m).
  { destruct (as_chunks _ _ Hsh) as [l Hl]. unfold mnc, nchunks. rewrite Hl, app_length. lia. }
  assert (Hsl : slots m1 = slots m) by apply (as_len _ _ Hsh).
  split_and!; try done.
  - rewrite (rep_cap _ _ _ Hrep'), (rep_cap _ _ _ Hrep). by apply cfirst_mono.
  - split_and!.
    + exists (mnc m1). by rewrite (rep_cap _ _ _ Hrep').
    + rewrite <- Hsl. apply (rep_slots _ _ _ Hrep').
    + intros j Hj. rewrite (rep_cap _ _ _ Hrep'). apply cfirst_mono.
      destruct (N.le_gt_cases j (mnc m)) as [Hjm|Hjm]; [|lia]. by apply Hmin.
  - apply (as_next _ _ Hsh).
Qed.

Lemma shrink_tight e m r m' : reachable e m -> exec e OShrink m = (r, m') ->
  r = Ret OutUnit /\ same_tree m m' /\ map_capacity m' <= map_capacity m /\ entry_count e m <= map_capacity m' /\
  least_room (slots m) (map_capacity m') /\ requests m' = requests m.
Proof.
  intros Hr Hex. destruct (reachable_rep e m Hr) as (t & fl & Hrep).
  destruct (shrink_exec e m t fl _ _ Hrep Hex) as (-> & Hrep' & Hs & Hc & Hl & Hq). split_and!; try done.
  - by eapply rep_same_tree.
  - rewrite (rep_entry_count _ _ _ _ Hrep). pose proof (rep_slots _ _ _ Hrep). pose proof (rep_slots _ _ _ Hrep'). lia.
Qed.

Lemma shrink_loop_id {T} e fuel : forall n (a : arena T) r a', shrink_loop e fuel n a = (r, a') ->
  a' = a \/ nchunks a' < nchunks a.
Proof.
  induction fuel as [|fuel IH]; intros n a r a' Heq; cbn [shrink_loop] in Heq; [injection Heq; auto|].
  unfold sbind at 1, sget in Heq.
  destruct (list.last (a_chunks a)) as [c|] eqn:Hlast; [|injection Heq; auto].
  unfold sbind at 1, slift in Heq. destruct (usub _ n 1) as [n1| | | |]; [|injection Heq; auto..].
  unfold sbind at 1 in Heq. destruct (chunk_len _ _) as [cl| | | |]; [|injection Heq; auto..].
  unfold sbind at 1 in Heq. destruct (usub _ (a_cap a) cl) as [room| | | |]; [|injection Heq; auto..].
  destruct (a_len a <=? room); [|injection Heq; auto].
  unfold sbind at 1, free_chunk in Heq. destruct (a_heap a !! c) as [b|]; [|injection Heq; auto].
  destruct (b_size b =? cl); [|injection Heq; auto].
  unfold sbind, smod in Heq. right.
  assert (Hlt : (length (removelast (a_chunks a)) < length (a_chunks a))%nat).
  { clear -Hlast. induction (a_chunks a) as [|x l IHl]; [done|]. destruct l; simpl; [lia|].
    simpl in IHl. specialize (IHl Hlast). lia. }
  apply IH in Heq as [->|Heq]; unfold nchunks in *; simpl in *; lia.
Qed.

Lemma shrink_idempotent e m r m' : reachable e m -> exec e OShrink m = (r, m') -> exec e OShrink m' = (Ret OutUnit, m').
Proof.
  intros Hr Hex. destruct (reachable_rep e m Hr) as (t & fl & Hrep).
  destruct (shrink_exec e m t fl _ _ Hrep Hex) as (-> & Hrep' & Hs & Hc & (_ & Hl1 & Hl2) & _).
  destruct (exec e OShrink m') as [r2 m2] eqn:Hex2.
  destruct (shrink_exec e m' t fl _ _ Hrep' Hex2) as (-> & Hrep2 & Hs2 & Hc2 & ((j & Hj) & Hl3 & _) & _).
  f_equal. assert (Hcap : map_capacity m' <= map_capacity m2).
  { rewrite Hj. apply Hl2. rewrite <- Hj. lia. }
  rewrite (rep_cap _ _ _ Hrep'), (rep_cap _ _ _ Hrep2) in Hcap.
  cbn [exec] in Hex2. unfold sbind, map_shrink_to_fit, on_nodes, zoom, slab_shrink_to_fit, on_items, zoom, arena_shrink_to_fit, sbind, sget in Hex2.
  destruct (shrink_loop _ _ _ _) as [r3 a3] eqn:Hid. apply shrink_loop_id in Hid.
  destruct r3 as [[]| | | |]; try done. injection Hex2 as <-.
  destruct Hid as [->|Hlt]; [by destruct m' as [[] ? ?]|].
  exfalso. change (mnc _) with (nchunks a3) in Hcap at 2. unfold mnc in Hcap. fold (mem m') in Hlt.
  assert (Hx : cfirst (nchunks a3 + 1) <= cfirst (nchunks (mem m'))) by (apply cfirst_mono; lia).
  rewrite cfirst_double in Hx. lia.
Qed.

(** ** extend and collect *)

Lemma ins_rel_size os : forall items j t t', ins_rel os j items t t' -> (tsize t' <= tsize t + length items)%nat.
Proof.
  induction items as [|[k v] items IH]; intros j t t'; simpl.
  - intros ->. lia.
  - intros (q & t1 & r & Ht & _ & Hrest). apply IH in Hrest. apply tins_size in Ht. destruct r; simpl in Ht; lia.
Qed.

Lemma extend_room e os it m x m' : reachable e m -> exec e (OExtend os it) m = (Ret x, m') ->
  hint_len it <= N.of_nat (length (ui_items it)) -> slots m + N.of_nat (length (ui_items it)) < USIZE ->
  forall c, map_capacity m <= chunks_room c -> slots m + N.of_nat (length (ui_items it)) <= chunks_room c ->
    map_capacity m' <= chunks_room c.
Proof.
  intros Hr Hex Hh Hu c Hc Hn. destruct (reachable_rep e m Hr) as (t & fl & Hrep).
  cbn [exec] in Hex. unfold sbind at 1 in Hex. destruct (map_extend e os it m) as [y m1] eqn:Hx.
  destruct y as [[]| | | |]; try done. injection Hex as <- <-.
  pose proof (map_extend_spec e os it m t fl Hrep) as Hwp. unfold wp in Hwp. rewrite Hx in Hwp.
  destruct Hwp as (_ & t' & fl' & Hrep' & Hins & Hg & _). apply ins_rel_size in Hins.
  unfold map_extend, sbind in Hx. destruct (map_reserve e (hint_len it) m) as [z m2] eqn:Hres.
  destruct z as [[]| | | |]; try done.
  assert (Hr2 : exec e (OReserve (hint_len it)) m = (Ret OutUnit, m2)) by (cbn [exec]; unfold sbind; by rewrite Hres).
  pose proof (reserve_exec e _ m t fl _ _ Hrep Hr2) as (_ & Hrep2 & _ & Hlt & _).
  destruct Hlt as (_ & _ & Hroom); [lia|].
  eapply (insert_all_room e os _ _ 0%nat m2); try done.
  - apply Hroom; [done|lia].
  - pose proof (gr_slots _ _ _ _ Hg) as Hsl. change (a_len (mem m1)) with (slots m1) in Hsl. change (a_len (mem m)) with (slots m) in Hsl.
    pose proof (rep_slots _ _ _ Hrep). lia.
Qed.

Lemma collect_room e os it m : begin (K := K) (V := V) e (SFromIter os it) = (Ret tt, m) ->
  hint_len it <= N.of_nat (length (ui_items it)) ->
  forall c, N.of_nat (length (ui_items it)) <= chunks_room c -> map_capacity m <= chunks_room c.
Proof.
  intros Hb Hh c Hc. pose proof (map_from_iter_spec (K := K) (V := V) e os it) as Hs. simpl in Hb. rewrite Hb in Hs.
  destruct Hs as (_ & t & fl & Hrep & Hins & _ & _ & Hlen). apply ins_rel_size in Hins. simpl in Hins.
  unfold map_from_iter, build in Hb. destruct (map_with_capacity e (hint_len it)) as [r0 m0] eqn:Hw.
  destruct r0 as [[]| | | |]; try done.
  destruct (with_capacity_room e (hint_len it) m0 Hw) as (_ & _ & (_ & _ & Hleast) & _).
  pose proof (map_with_capacity_spec (K := K) (V := V) e (hint_len it)) as H0. rewrite Hw in H0. destruct H0 as (Hrep0 & _).
  destruct (insert_all e os 0 (ui_items it) (ui_panics it) m0) as [r1 m1] eqn:Hi.
  destruct r1 as [[]|p| | |]; try done.
  2:{ destruct (map_drop _ _ m1) as [[] ?]; done. }
  injection Hb as <-. eapply (insert_all_room e os _ _ 0%nat m0); try done.
  - apply Hleast. lia.
  - change (slots m1) with (a_len (mem m1)). rewrite Hlen. lia.
Qed.

(** A chunk that the allocator refuses is never part of the capacity. *)
Lemma push_chunk_asks {T} e (a a' : arena T) : arena_inv a -> e_size e <> 0 -> push_chunk e a = (Ret tt, a') ->
  a' = pushed_chunk a /\ exists i c, e_alloc e i (clen (nchunks a)) = Some c.
Proof.
  intros Hinv He Heq. pose proof (push_chunk_spec e a Hinv) as Hwp. unfold wp in Hwp. rewrite Heq in Hwp.
  destruct Hwp as [-> Hn]. split; [done|].
  unfold push_chunk in Heq. unfold sbind at 1, sget in Heq. unfold sbind at 1, slift in Heq.
  change (N.of_nat (length (a_chunks a))) with (nchunks a) in Heq.
  rewrite N.mod_small in Heq by (change U32 with 4294967296; lia). rewrite chunk_len_ret in Heq by lia.
  unfold sbind at 1 in Heq. unfold vec_with_capacity in Heq.
  destruct (N.eqb_spec (e_size e) 0) as [?|_]; [done|].
  destruct (ISIZE_MAX <? _); [done|]. destruct (e_alloc e (a_next a) (clen (nchunks a))) as [c|] eqn:Ha; [|done]. eauto.
Qed.

Lemma grow_loop_asks {T} e capacity fuel : forall (a a' : arena T), arena_inv a -> e_size e <> 0 ->
  grow_loop e fuel capacity a = (Ret tt, a') ->
  a' = a \/ (nchunks a < nchunks a' /\ exists i c, e_alloc e i (clen (nchunks a' - 1)) = Some c).
Proof.
  induction fuel as [|fuel IH]; intros a a' Hinv He Heq; cbn [grow_loop] in Heq; [done|].
  unfold sbind at 1, sget in Heq. case_match; [|injection Heq as <-; by left].
  unfold sbind in Heq. destruct (push_chunk e a) as [r a1] eqn:Hp. destruct r as [[]| | | |]; try done.
  pose proof (push_chunk_spec e a Hinv) as Hwp. unfold wp in Hwp. rewrite Hp in Hwp. destruct Hwp as [_ Hn].
  destruct (push_chunk_asks e a a1 Hinv He Hp) as (-> & Hask).
  assert (Hnc : nchunks (pushed_chunk a) = nchunks a + 1).
  { unfold nchunks. simpl. rewrite app_length. simpl. lia. }
  right. destruct (IH (pushed_chunk a) a') as [->|[Hlt H']]; try done.
  - by apply pushed_chunk_inv.
  - rewrite Hnc. split; [lia|]. replace (nchunks a + 1 - 1) with (nchunks a) by lia. done.
  - split; [lia|done].
Qed.

Lemma room_half n : 0 < n -> cfirst n <= 2 * clen (n - 1).
Proof.
  intros Hn. replace n with (n - 1 + 1) at 1 by lia. rewrite cfirst_clen. unfold cfirst, clen. lia.
Qed.

Lemma reserve_limited e limit n m x m' : reachable e m -> limited e limit -> exec e (OReserve n) m = (Ret x, m') ->
  slots m + n < USIZE -> map_capacity m < n -> n <= 2 * limit.
Proof.
  intros Hr [He Hlim] Hex Hu Hn. destruct (reachable_rep e m Hr) as (t & fl & Hrep).
  pose proof (reserve_exec e n m t fl _ _ Hrep Hex) as (_ & Hrep' & _ & Hlt & _).
  destruct (Hlt Hu) as (Hroom & _ & _).
  cbn [exec] in Hex. unfold sbind at 1, map_reserve, on_nodes, zoom, slab_reserve, on_items, zoom, arena_reserve in Hex.
  unfold sbind at 1, sget in Hex. unfold sbind at 1, slift in Hex.
  change (arena_len (s_items (m_nodes m))) with (slots m) in Hex. rewrite uadd_ret in Hex by done.
  destruct (grow_loop e GROW_FUEL (slots m + n) (s_items (m_nodes m))) as [r a'] eqn:Hg.
  destruct r as [[]| | | |]; try done. injection Hex as <- <-.
  destruct (grow_loop_asks e _ _ _ _ (rep_inv _ _ _ Hrep) He Hg) as [->|[Hc (i & c & Ha)]].
  - exfalso. change (slots m + n <= map_capacity m) in Hroom. lia.
  - assert (clen (nchunks a' - 1) <= limit).
    { destruct (N.le_gt_cases (clen (nchunks a' - 1)) limit) as [?|Hgt]; [done|]. by rewrite (Hlim i _ Hgt) in Ha. }
    rewrite (rep_cap _ _ _ Hrep') in Hroom. change (mnc _) with (nchunks a') in Hroom.
    pose proof (room_half (nchunks a')). lia.
Qed.

Lemma extend_limited e limit os it m x m' : reachable e m -> limited e limit ->
  slots m + hint_len it < USIZE -> map_capacity m < hint_len it -> 2 * limit < hint_len it ->
  exec e (OExtend os it) m <> (Ret x, m').
Proof.
  intros Hr Hlim Hu Hc Hh Hex. cbn [exec] in Hex. unfold sbind at 1, map_extend, sbind in Hex.
  destruct (map_reserve e (hint_len it) m) as [z m2] eqn:Hres. destruct z as [[]| | | |]; try done.
  assert (Hr2 : exec e (OReserve (hint_len it)) m = (Ret OutUnit, m2)) by (cbn [exec]; unfold sbind; by rewrite Hres).
  pose proof (reserve_limited e limit _ m _ _ Hr Hlim Hr2 Hu Hc). lia.
Qed.

Lemma new_reachable e : reachable e (@map_new K V).
Proof. exists SNew, [], []. split; [|constructor]. exists map_new. done. Qed.

Lemma collect_limited e limit os it m : limited e limit -> 2 * limit < hint_len it ->
  begin (K := K) (V := V) e (SFromIter os it) <> (Ret tt, m).
Proof.
  intros [He Hlim] Hh Hb. simpl in Hb. unfold map_from_iter, build in Hb.
  destruct (map_with_capacity e (hint_len it)) as [r0 m0] eqn:Hw. destruct r0 as [[]| | | |]; try done.
  pose proof (map_with_capacity_spec (K := K) (V := V) e (hint_len it)) as H0. rewrite Hw in H0.
  destruct H0 as (Hrep0 & Hroom & _).
  unfold map_with_capacity, slab_with_capacity, arena_with_capacity in Hw.
  destruct (grow_loop e GROW_FUEL (hint_len it) arena_new) as [r a'] eqn:Hg.
  destruct r as [[]|p| | |]; try done.
  2:{ destruct (arena_drop _ _ _ _) as [[] ?]; done. }
  injection Hw as <-. rewrite (rep_cap _ _ _ Hrep0) in Hroom. change (mnc _) with (nchunks a') in Hroom.
  destruct (grow_loop_asks e _ _ _ _ arena_new_inv He Hg) as [->|[Hc (i & c & Ha)]].
  - change (nchunks arena_new) with 0 in Hroom. change (cfirst 0) with 0 in Hroom. lia.
  - assert (clen (nchunks a' - 1) <= limit).
    { destruct (N.le_gt_cases (clen (nchunks a' - 1)) limit) as [?|Hgt]; [done|]. by rewrite (Hlim i _ Hgt) in Ha. }
    pose proof (room_half (nchunks a')). lia.
Qed.
End mem.
