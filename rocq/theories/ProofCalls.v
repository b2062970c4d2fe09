(** * Calls that insert many entries, clone, compare, print and walk *)

From Verif Require Export ProofIter ModelHistory.

Lemma wp_and {S A} (m : M S A) (Q1 Q2 : A -> S -> Prop) (E1 E2 : option panic_reason -> S -> Prop) s :
  wp m Q1 E1 s -> wp m Q2 E2 s -> wp m (fun a s' => Q1 a s' /\ Q2 a s') (fun p s' => E1 p s' /\ E2 p s') s.
Proof. unfold wp. destruct (m s) as [[] s']; naive_solver. Qed.

Lemma wp_ext {S A} (m1 m2 : M S A) (Q : A -> S -> Prop) (E : option panic_reason -> S -> Prop) s :
  m1 s = m2 s -> wp m2 Q E s -> wp m1 Q E s.
Proof. unfold wp. by intros ->. Qed.

Section calls.
Context {K V : Type}.
Implicit Types m : bstmap K V.
Implicit Types t s : ptree K V.

(** Entries keep their address and key. *)
Definition kept t t' : Prop := forall p k v, (p, (k, v)) ∈ ppre t -> exists v', (p, (k, v')) ∈ ppre t'.

Lemma kept_refl t : kept t t.
Proof. intros p k v H. eauto. Qed.
Lemma kept_trans t1 t2 t3 : kept t1 t2 -> kept t2 t3 -> kept t1 t3.
Proof. intros H1 H2 p k v (v' & H)%H1. by apply H2 in H. Qed.

Lemma tins_kept o i k v q t t' r : tins o i k v q t = Ret (t', r) -> kept t t'.
Proof.
  intros H%tins_perm p k0 v0. destruct r as [w|].
  - destruct H as (p1 & k1 & l0 & -> & H). intros [[= -> -> ->]|Hin]%elem_of_cons.
    + exists v. rewrite H. left.
    + exists v0. rewrite H. by right.
  - intros Hin. exists v0. rewrite H. by right.
Qed.

Lemma tset_kept p w t : kept t (tset p w t).
Proof.
  intros q k v Hin. rewrite ppre_tset. destruct (decide (q = p)) as [->|Hne].
  - exists w. apply elem_of_list_fmap. exists (p, (k, v)). split; [|done]. unfold iset. simpl. by rewrite decide_True.
  - exists v. apply elem_of_list_fmap. exists (q, (k, v)). split; [|done]. unfold iset. simpl. by rewrite decide_False.
Qed.

Lemma tins_size o i k v q t t' r : tins o i k v q t = Ret (t', r) ->
  tsize t' = match r with Some _ => tsize t | None => S (tsize t) end.
Proof.
  intros H%tins_perm. rewrite <- !ppre_length. destruct r as [w|].
  - destruct H as (p & k0 & l0 & -> & ->). done.
  - by rewrite H.
Qed.

(** [m'] is [m] up to the ghost logs. *)
Definition unchanged m m' : Prop :=
  m_root m' = m_root m /\
  exists n, m_nodes m' = set_items (set_next n (mem m)) (m_nodes m).

Lemma unchanged_refl m : unchanged m m.
Proof. split; [done|]. exists (a_next (mem m)). by destruct m as [[[] ? ? ?] ? ?]. Qed.
Lemma unchanged_trans m1 m2 m3 : unchanged m1 m2 -> unchanged m2 m3 -> unchanged m1 m3.
Proof.
  intros [H1 [n1 H2]] [H3 [n2 H4]]. split; [congruence|]. exists n2. rewrite H4. unfold mem. rewrite H2. done.
Qed.
Lemma unchanged_log d m : unchanged m (log_drops d m).
Proof. exact (unchanged_refl m). Qed.

Lemma map_rep_len m t fl : map_rep m t fl -> a_len (mem m) = (N.of_nat (length fl) + N.of_nat (tsize t))%N.
Proof. intros [H _]. by apply srep_len. Qed.

Lemma map_rep_cap m t fl : map_rep m t fl -> (a_len (mem m) <= map_capacity m)%N.
Proof. intros H. apply rep_inv in H. apply (ai_len _ H). Qed.

(** What inserting does to the memory. *)
Record grew m t m' t' : Prop := {
  gr_slots : a_len (mem m') = N.max (a_len (mem m)) (N.of_nat (tsize t'));
  gr_cap : (map_capacity m <= map_capacity m')%N;
  gr_size : tsize t <= tsize t';
  gr_kept : kept t t';
  gr_sdrops : s_drops (m_nodes m') = s_drops (m_nodes m);
}.

(** No allocation if the entries fit. *)
Definition roomy m m' t' : Prop := (N.of_nat (tsize t') <= map_capacity m)%N -> stays m m'.

Lemma grew_refl m t fl d : map_rep m t fl -> grew m t (log_drops d m) t.
Proof.
  intros H. pose proof (map_rep_len _ _ _ H). split; try done.
  - change (mem (log_drops d m)) with (mem m). lia.
  - apply kept_refl.
Qed.

Lemma grew_trans m1 t1 m2 t2 m3 t3 : grew m1 t1 m2 t2 -> grew m2 t2 m3 t3 -> grew m1 t1 m3 t3.
Proof.
  intros [A1 A2 A4 A5 A6] [B1 B2 B4 B5 B6]. split.
  - rewrite B1, A1. lia.
  - lia.
  - lia.
  - by eapply kept_trans.
  - congruence.
Qed.

Lemma roomy_trans m1 t1 m2 t2 m3 t3 : grew m1 t1 m2 t2 -> grew m2 t2 m3 t3 ->
  roomy m1 m2 t2 -> roomy m2 m3 t3 -> roomy m1 m3 t3.
Proof.
  intros [A1 A2 A4 A5 A6] [B1 B2 B4 B5 B6] H1 H2 Hle.
  eapply stays_trans; [apply H1; lia|apply H2; lia].
Qed.

(** ** insert *)

Lemma insert_call e (o : oracle K) (k : K) (v : V) m t fl : map_rep m t fl ->
  wp (bstmap_insert e o k v)
    (fun (r : option V) m' => exists q t' fl', tins o 0 k v q t = Ret (t', r) /\ map_rep m' t' fl' /\
       grew m t m' t' /\ roomy m m' t' /\ (r = None -> q ∉ ptrs t) /\
       held t' ++ gone m' ++ opt_val r ≡ₚ held t ++ gone m ++ [inl k; inr v])
    (fun r m' => map_rep m' t fl /\ unchanged m m' /\
       s_drops (m_nodes m') = s_drops (m_nodes m) /\
       ((r = Some PCmp /\ forall q, tins o 0 k v q t = Panic PCmp) \/
        (alloc_fail r /\ fl = [] /\ N.of_nat (tsize t) = map_capacity m /\
         forall q, exists t', tins o 0 k v q t = Ret (t', None))) /\
       match r with Some _ => gone m' ≡ₚ gone m ++ [inl k; inr v] | None => True end) m.
Proof.
  intros Hrep. pose proof (map_rep_len _ _ _ Hrep) as Hlen.
  eapply wp_mono; [by apply bstmap_insert_spec| |].
  - intros r m' (q & t' & Ht & Hpost). exists q, t'. pose proof (tins_account _ _ _ _ _ _ _ _ Ht) as Ha.
    pose proof (tins_size _ _ _ _ _ _ _ _ Ht) as Hsz. pose proof (tins_kept _ _ _ _ _ _ _ _ Ht) as Hk.
    destruct r as [w|]; cbn [insert_post] in Hpost.
    + destruct Hpost as (Hr & Hst & Hd). exists fl. pose proof (map_rep_len _ _ _ Hr) as Hlen'.
      split_and!; try done.
      * split; try done; [lia| |lia|apply Hst].
        destruct Hst as [(_ & Hc & _) _]. unfold map_capacity, slab_capacity, arena_capacity. by rewrite Hc.
      * intros _. done.
      * destruct Hst as [_ Hst]. unfold gone. rewrite Hd, Hst. cbn [opt_val is_some] in *.
        transitivity ((held t' ++ [inr w] ++ [inl k]) ++ m_drops m ++ owned (kv_of <$> s_drops (m_nodes m)));
          [solve_Permutation|]. rewrite Ha. solve_Permutation.
    + destruct Hpost as (Hr & Hq & Hfl & Hd & Hsd & Hroom & Hcap & _). exists (tail fl).
      pose proof (map_rep_len _ _ _ Hr) as Hlen'.
      split_and!; try done.
      * split; try done; [|lia].
        destruct fl as [|q0 fl]; simpl in *; lia.
      * intros Hle. apply Hroom. lia.
      * unfold gone. rewrite Hd, Hsd. cbn [opt_val is_some] in *. rewrite app_nil_r in *. simpl in Ha.
        rewrite Ha. solve_Permutation.
  - intros r m' [(-> & -> & Hp)|(m0 & Href & Hp & ->)].
    + split_and!; [done|apply unchanged_log|done|by left|]. unfold gone, log_drops. simpl. solve_Permutation.
    + destruct Href as (Hf & Hr0 & Hfl & Hsz & Hcap & Hd & Hsd & n & Heq).
      assert (Hu : unchanged m m0) by (split; [by rewrite Heq|exists n; by rewrite Heq]).
      split_and!.
      * by destruct r.
      * destruct r; [|done]. eapply unchanged_trans; [done|apply unchanged_log].
      * by destruct r.
      * right. done.
      * destruct r; [|done]. unfold gone, log_drops. simpl. rewrite Hd, Hsd. solve_Permutation.
Qed.

(** ** Inserting a list *)

(** Inserting [items] one after the other turns [t] into [t']. *)
Fixpoint ins_rel (os : nat -> K -> oracle K) (j : nat) (items : list (K * V)) t t' : Prop :=
  match items with
  | [] => t' = t
  | (k, v) :: items => exists q t1 r, tins (os j k) 0 k v q t = Ret (t1, r) /\
      (r = None -> q ∉ ptrs t) /\ ins_rel os (S j) items t1 t'
  end.

(** Why [extend] stopped at item [n]. *)
Definition stopped (os : nat -> K -> oracle K) (j : nat) (items : list (K * V)) (panics : bool)
    (r : option panic_reason) (n : nat) t' (cap : N) : Prop :=
  (r = Some PIter /\ panics = true /\ n = length items) \/
  (exists k v, items !! n = Some (k, v) /\
     ((r = Some PCmp /\ forall q, tins (os (j + n) k) 0 k v q t' = Panic PCmp) \/
      (alloc_fail r /\ N.of_nat (tsize t') = cap))).

Lemma insert_all_spec e os panics : forall items j m t fl, map_rep m t fl ->
  wp (insert_all e os j items panics)
    (fun _ m' => panics = false /\ exists t' fl', map_rep m' t' fl' /\ ins_rel os j items t t' /\
       grew m t m' t' /\ roomy m m' t' /\
       held t' ++ gone m' ≡ₚ held t ++ gone m ++ owned items)
    (fun r m' => exists n t' fl', map_rep m' t' fl' /\ ins_rel os j (take n items) t t' /\
       stopped os j items panics r n t' (map_capacity m') /\ grew m t m' t' /\
       match r with Some _ => held t' ++ gone m' ≡ₚ held t ++ gone m ++ owned (take (S n) items) | None => True end) m.
Proof.
  induction items as [|[k v] items IH]; intros j m t fl Hrep; cbn [insert_all].
  - assert (Hg : grew m t m t).
    { pose proof (map_rep_len _ _ _ Hrep). split; try done; [lia|apply kept_refl]. }
    destruct panics.
    + apply wp_fail. exists 0, t, fl. split_and!; try done; [by left|]. simpl. by rewrite app_nil_r.
    + apply wp_ret. split; [done|]. exists t, fl. split_and!; try done. simpl. by rewrite app_nil_r.
  - apply wp_bind. eapply wp_mono; [by apply insert_call| |].
    + intros r m1 (q & t1 & fl1 & Hins & Hrep1 & Hg & Hro & Hq & Ha).
      apply wp_bind, wp_mod. fold (opt_val (K:=K) r).
      assert (Hrep2 : map_rep (log_drops (opt_val r) m1) t1 fl1) by done.
      assert (Hg2 : grew m t (log_drops (opt_val r) m1) t1).
      { eapply grew_trans; [exact Hg|by eapply grew_refl]. }
      assert (Ha2 : held t1 ++ gone (log_drops (opt_val r) m1) ≡ₚ held t ++ gone m ++ [inl k; inr v]).
      { rewrite <- Ha. unfold gone, log_drops. simpl. solve_Permutation. }
      eapply wp_mono; [by eapply IH| |].
      * intros _ m' (Hp & t' & fl' & Hr' & Hrel & Hg' & Hro' & Hacc'). split; [done|]. exists t', fl'. split_and!; try done.
        { simpl. eauto 8. }
        { by eapply grew_trans. }
        { by eapply roomy_trans. }
        rewrite Hacc'. change (owned ((k, v) :: items)) with ([inl k; inr v] ++ owned items).
        rewrite app_assoc, Ha2. solve_Permutation.
      * intros r0 m' (n & t' & fl' & Hr' & Hrel & Hstop & Hg' & Hacc'). exists (S n), t', fl'.
        split_and!; try done.
        { simpl. eauto 8. }
        { destruct Hstop as [(-> & -> & ->)|(k0 & v0 & Hn & Hc)]; [left; done|right].
          exists k0, v0. split; [done|]. replace (j + S n) with (S j + n) by lia. done. }
        { by eapply grew_trans. }
        destruct r0; [|done]. rewrite Hacc'.
        change (owned (take (S (S n)) ((k, v) :: items))) with ([inl k; inr v] ++ owned (take (S n) items)).
        rewrite app_assoc, Ha2. solve_Permutation.
    + intros r m1 (Hrep1 & Hu & Hsd & Hwhy & Ha). exists 0, t, fl.
      assert (Hm : mem m1 = set_next (a_next (mem m1)) (mem m)).
      { destruct Hu as [_ [n Hn]]. unfold mem. rewrite Hn. done. }
      assert (Hc : map_capacity m1 = map_capacity m).
      { unfold map_capacity, slab_capacity, arena_capacity. fold (mem m1) (mem m). by rewrite Hm. }
      split_and!; try done.
      * right. exists k, v. split; [done|]. rewrite Nat.add_0_r, Hc.
        destruct Hwhy as [[Hr Hp]|(Hf & Hfl & Hsz & _)]; [left|right]; done.
      * pose proof (map_rep_len _ _ _ Hrep). split; try done.
        -- rewrite Hm. simpl. lia.
        -- by rewrite Hc.
        -- apply kept_refl.
      * destruct r; [|done]. simpl. rewrite Ha. done.
Qed.

(** ** extend *)

Lemma ext_cap (a a' : arena (entry (inner K V))) : arena_inv a -> arena_ext a a' -> (a_cap a <= a_cap a')%N.
Proof.
  intros Hi [Hi' _ _ [l Hc] _ _]. rewrite (ai_cap a Hi), (ai_cap a' Hi'). unfold nchunks. rewrite Hc, app_length.
  apply cfirst_mono. lia.
Qed.

Lemma grown_grew m m' t fl : map_rep m t fl -> grown m m' -> grew m t m' t.
Proof.
  intros Hrep [Hext Heq]. pose proof (map_rep_len _ _ _ Hrep). split.
  - rewrite (ax_len _ _ Hext). lia.
  - apply ext_cap; [by eapply rep_inv|done].
  - lia.
  - apply kept_refl.
  - rewrite Heq. done.
Qed.

Lemma grown_gone m m' : grown m m' -> gone m' = gone m.
Proof. intros [_ ->]. done. Qed.

Lemma map_extend_spec e os (it : user_iter (K * V)) m t fl : map_rep m t fl ->
  wp (map_extend e os it)
    (fun _ m' => ui_panics it = false /\ exists t' fl', map_rep m' t' fl' /\ ins_rel os 0 (ui_items it) t t' /\
       grew m t m' t' /\
       held t' ++ gone m' ≡ₚ held t ++ gone m ++ owned (ui_items it))
    (fun r m' => 
      (map_rep m' t fl /\ grown m m' /\
       (alloc_fail r \/ (r = Some POverflow /\ e_chk e = true /\ (USIZE <= a_len (mem m) + hint_len it)%N))) \/
      (exists n t' fl', map_rep m' t' fl' /\ ins_rel os 0 (take n (ui_items it)) t t' /\
       stopped os 0 (ui_items it) (ui_panics it) r n t' (map_capacity m') /\ grew m t m' t' /\
       match r with Some _ => held t' ++ gone m' ≡ₚ held t ++ gone m ++ owned (take (S n) (ui_items it)) | None => True end)) m.
Proof.
  intros Hrep. unfold map_extend. apply wp_bind. eapply wp_mono; [by apply map_reserve_spec| |].
  - intros _ m1 (Hrep1 & Hgr & _ & _). pose proof (grown_grew _ _ _ _ Hrep Hgr) as Hg1.
    pose proof (grown_gone _ _ Hgr) as Hgone.
    eapply wp_mono; [by eapply insert_all_spec| |].
    + intros _ m' (Hp & t' & fl' & H1 & H2 & H3 & H4 & H5). split; [done|]. exists t', fl'. split_and!; try done.
      * by eapply grew_trans.
      * by rewrite H5, Hgone.
    + intros r m' (n & t' & fl' & H1 & H2 & H3 & H4 & H5). right. exists n, t', fl'. split_and!; try done.
      * by eapply grew_trans.
      * destruct r; [|done]. by rewrite H5, Hgone.
  - intros r m' (Hrep' & Hgr & Hwhy). left. split_and!; try done.
    destruct Hwhy as [[Hf _]|(H1 & _ & H2 & H3)]; [by left|by right].
Qed.

(** ** Constructors *)

Lemma build_spec e n (body : M (bstmap K V) unit) (Q : bstmap K V -> Prop)
    (E : option panic_reason -> ptree K V -> list (K + V) -> Prop) :
  (forall m0, map_rep m0 Leaf [] -> (n <= map_capacity m0)%N -> a_len (mem m0) = 0%N -> gone m0 = [] ->
     wp body (fun _ m => Q m) (fun r m => exists t fl, map_rep m t fl /\ E r t (held t ++ gone m)) m0) ->
  match build e (map_with_capacity e n) body with
  | (Ret _, m) => Q m
  | (Panic p, m) => a_heap (mem m) = ∅ /\
      ((alloc_fail (Some p) /\ gone m = []) \/
       exists t l, E (Some p) t l /\ (e_nd e = true -> gone m ≡ₚ l))
  | (Abort, _) => True
  | (UB _, _) => False
  | (Diverge, _) => False
  end.
Proof.
  intros Hb. unfold build. pose proof (map_with_capacity_spec (K:=K) (V:=V) e n) as Hw.
  destruct (map_with_capacity e n) as [[u|p| |u|] m0]; try done.
  - destruct Hw as (H1 & H2 & H3 & H4 & H5 & _).
    specialize (Hb m0 H1 H2 H3). unfold gone in Hb. rewrite H4, H5 in Hb. specialize (Hb eq_refl).
    unfold wp in Hb. destruct (body m0) as [[u'|p| |u'|] m1]; try done.
    destruct Hb as (t & fl & Hr & HE).
    destruct (map_drop_spec e (fun _ => false) m1 t fl Hr) as (m2 & drops & -> & D1 & D2 & D3 & D4); [done|].
    split; [done|]. right. exists t, (held t ++ m_drops m1 ++ owned (kv_of <$> s_drops (m_nodes m1))). split; [done|].
    intros Hnd. rewrite Hnd in D4. unfold gone. rewrite D2, D3, fmap_app, owned_app.
    assert (Ho : owned (kv_of <$> drops) ≡ₚ held t) by (by apply owned_perm).
    rewrite Ho. solve_Permutation.
  - destruct Hw as (H1 & H2 & H3 & H4). split; [done|]. left. split; [done|]. unfold gone. by rewrite H3, H4.
Qed.

(** Why building a map stopped. *)
Definition build_stop (p : panic_reason) : Prop := alloc_fail (Some p) \/ p = PCmp \/ p = PIter \/ p = PClone.

Lemma stopped_why os j items panics p n t cap : stopped os j items panics (Some p) n t cap -> build_stop p.
Proof.
  intros [([= ->] & _)|(k & v & _ & [[[= ->] _]|[H _]])]; unfold build_stop; eauto.
Qed.

Lemma map_from_iter_spec e os (it : user_iter (K * V)) :
  match map_from_iter e os it with
  | (Ret _, m) => ui_panics it = false /\ exists t fl, map_rep m t fl /\ ins_rel os 0 (ui_items it) Leaf t /\
      held t ++ gone m ≡ₚ owned (ui_items it) /\ (hint_len it <= map_capacity m)%N /\
      a_len (mem m) = N.of_nat (tsize t)
  | (Panic p, m) => a_heap (mem m) = ∅ /\
      ((alloc_fail (Some p) /\ gone m = []) \/
       exists n t cap, ins_rel os 0 (take n (ui_items it)) Leaf t /\
         stopped os 0 (ui_items it) (ui_panics it) (Some p) n t cap /\
         (e_nd e = true -> gone m ≡ₚ owned (take (S n) (ui_items it))))
  | (Abort, _) => True
  | (UB _, _) => False
  | (Diverge, _) => False
  end.
Proof.
  unfold map_from_iter.
  pose proof (build_spec e (hint_len it) (insert_all e os 0 (ui_items it) (ui_panics it))
    (fun m => ui_panics it = false /\ exists t fl, map_rep m t fl /\ ins_rel os 0 (ui_items it) Leaf t /\
      held t ++ gone m ≡ₚ owned (ui_items it) /\ (hint_len it <= map_capacity m)%N /\
      a_len (mem m) = N.of_nat (tsize t))
    (fun r t l => exists n cap, ins_rel os 0 (take n (ui_items it)) Leaf t /\
         stopped os 0 (ui_items it) (ui_panics it) r n t cap /\
         match r with Some _ => l ≡ₚ owned (take (S n) (ui_items it)) | None => True end)) as H.
  destruct (build _ _ _) as [[u|p| |u|] m]; try (by apply H; intros m0 H1 H2 H3 H4;
    (eapply wp_mono; [by eapply insert_all_spec| |]);
    [intros _ m' (A1 & t & fl & A2 & A3 & A4 & A5 & A6); rewrite H4 in A6; split; [done|]; exists t, fl;
     split_and!; try done; [pose proof (gr_cap _ _ _ _ A4); lia|rewrite (gr_slots _ _ _ _ A4), H3; lia]
    |intros r m' (n & t & fl & A1 & A2 & A3 & A4 & A5); exists t, fl; split; [done|]; exists n, (map_capacity m');
     split_and!; try done; rewrite H4 in A5; done]).
  destruct H as [H1 H2].
  { intros m0 H1 H2 H3 H4.
    eapply wp_mono; [by eapply insert_all_spec| |].
    - intros _ m' (A1 & t & fl & A2 & A3 & A4 & A5 & A6). rewrite H4 in A6. split; [done|]. exists t, fl.
      split_and!; try done; [pose proof (gr_cap _ _ _ _ A4); lia|rewrite (gr_slots _ _ _ _ A4), H3; lia].
    - intros r m' (n & t & fl & A1 & A2 & A3 & A4 & A5). exists t, fl. split; [done|]. exists n, (map_capacity m').
      split_and!; try done. rewrite H4 in A5. done. }
  split; [done|]. destruct H2 as [H2|(t & l & (n & cap & A1 & A2 & A3) & A4)]; [by left|right].
  exists n, t, cap. split_and!; try done. intros Hnd. by rewrite A4.
Qed.

(** ** clone *)

(** [clone_loop] inserts the clones of a list of entries. *)
Fixpoint clone_list (e : env) (os : nat -> K -> oracle K) (ck : nat -> K -> option K) (cv : nat -> V -> option V)
    (j : nat) (l : list (K * V)) : M (bstmap K V) unit :=
  match l with
  | [] => sret tt
  | (k0, v0) :: l =>
      match ck j k0 with
      | None => sfail PClone
      | Some k =>
        match cv j v0 with
        | None => let! _ := smod (log_drops [inl k]) in sfail PClone
        | Some v =>
          let! prev := bstmap_insert e (os j k) k v in
          let! _ := smod (log_drops (match prev with Some v => [inr v] | None => [] end)) in
          clone_list e os ck cv (S j) l
        end
      end
  end.

Definition node_stack (st : list (ptree K V)) : list (Node K V) := omap node_of st.

Lemma node_stack_cons t st : node_stack (t :: st) = opt_list (node_of t) ++ node_stack st.
Proof. by destruct t. Qed.

Lemma clone_loop_eq e os ck cv src t0 fl0 : map_rep src t0 fl0 -> forall fuel j st m,
  Forall (fun s => sub s t0) st -> length (pre_pend st) < fuel ->
  clone_loop e os ck cv src fuel j (node_stack st) m = clone_list e os ck cv j (pre_pend st).*2 m.
Proof.
  intros Hrep. induction fuel as [|fuel IH]; intros j st m Hsub Hf; [lia|].
  induction st as [|[|l p k0 v0 r] st IHst]; [done| |].
  - inversion Hsub; subst. by apply IHst.
  - inversion Hsub as [|? ? Hs Hsub']; subst.
    cbn [node_stack omap list_omap node_of clone_loop]. fold (node_stack st).
    unfold pre_pend. cbn [mbind list_bind ppre]. fold (pre_pend st). cbn [fmap list_fmap app clone_list].
    unfold node_key, node_value. cbn [nd_inner n_key n_value snd].
    destruct (ck j k0) as [k|]; [|done]. destruct (cv j v0) as [v|]; [|done].
    unfold sbind. destruct (bstmap_insert e (os j k) k v m) as [[prev|?| |?|] m1]; try done.
    unfold smod, slift. pose proof (sub_readable _ _ _ _ Hrep Hs) as Hr.
    unfold node_right, node_left. cbn [nd_inner n_left n_right].
    rewrite (opt_node_ret src r) by (by eapply readable_r).
    rewrite (opt_node_ret src l) by (by eapply readable_l).
    rewrite <- node_stack_cons, <- node_stack_cons.
    apply sub_bin in Hs as (Hl & Hr' & _).
    rewrite IH.
    + unfold pre_pend. cbn [mbind list_bind]. by rewrite app_assoc.
    + by repeat (apply Forall_cons; split; [done|]).
    + unfold pre_pend in *. cbn [mbind list_bind ppre] in *. simpl in Hf. rewrite !app_length in *. lia.
Qed.

Lemma clones_made_cons os (ck : nat -> K -> option K) (cv : nat -> V -> option V) j k0 v0 l k v p g : ck j k0 = Some k -> cv j v0 = Some v ->
  ~ alloc_fail (Some p) ->
  clones_made os ck cv (S j) l p g -> clones_made os ck cv j ((k0, v0) :: l) p (inl k :: inr v :: g).
Proof.
  intros Hk Hv Hna. unfold clones_made. simpl. rewrite Hk, Hv. destruct (clones ck cv (S j) l) as [l' b]. simpl.
  destruct p; try done; try (exfalso; apply Hna; unfold alloc_fail; eauto; fail).
  - intros (n & k1 & v1 & i & k2 & Hn & Ho & ->). exists (S n), k1, v1, i, k2. rewrite Nat.add_succ_r. done.
  - intros [-> ->]. by rewrite Nat.add_succ_r.
Qed.

Lemma tins_panicked (o : oracle K) k v q t : forall i, tins o i k v q t = Panic PCmp -> exists j k0, o j k0 = None.
Proof.
  induction t as [|l IHl p k0 v0 r IHr]; intros i; simpl; [done|].
  unfold ask. destruct (o i k0) as [[]|] eqn:Ho; simpl; [done| | |eauto].
  - destruct (tins o (S i) k v q l) as [[]|[]| | |] eqn:Hl; try done. intros _. by eapply IHl.
  - destruct (tins o (S i) k v q r) as [[]|[]| | |] eqn:Hr; try done. intros _. by eapply IHr.
Qed.

Lemma stopped_pulled os (it : user_iter (K * V)) p n t cap :
  stopped os 0 (ui_items it) (ui_panics it) (Some p) n t cap ->
  exists n', take n' (ui_items it) = take (S n) (ui_items it) /\ pulled os it p n'.
Proof.
  intros [([= ->] & Hp & ->)|(k & v & Hn & Hc)].
  - exists (length (ui_items it)). split; [by rewrite !take_ge by lia|done].
  - exists (S n). split; [done|]. apply lookup_lt_Some in Hn as Hlt. destruct Hc as [[[= ->] Hc]|[Hf _]].
    + destruct (tins_panicked _ _ _ _ _ _ (Hc (0%N, 0%N))) as (i & k0 & Ho). by exists n, k, v, i, k0.
    + destruct Hf as [[= ->]|[[= ->]|?]]; simpl; done || lia.
Qed.

(** Why cloning panicked, other than for want of memory: all clones before the
    first that panics were inserted, or a comparison panicked. *)
Definition clone_stop (os : nat -> K -> oracle K) (ck : nat -> K -> option K) (cv : nat -> V -> option V)
    (j : nat) (l : list (K * V)) t (r : option panic_reason) t' : Prop :=
  (r = Some PClone /\ (clones ck cv j l).2 = false /\ ins_rel os j (clones ck cv j l).1 t t') \/
  (r = Some PCmp /\ exists n k v, (clones ck cv j l).1 !! n = Some (k, v) /\
     ins_rel os j (take n (clones ck cv j l).1) t t' /\ forall q, tins (os (j + n) k) 0 k v q t' = Panic PCmp).

(** The clones that are made, and whether all are. *)
Lemma clone_list_spec e os ck cv : forall l j m t fl, map_rep m t fl ->
  wp (clone_list e os ck cv j l)
    (fun _ m' => (clones ck cv j l).2 = true /\ exists t' fl', map_rep m' t' fl' /\
       ins_rel os j (clones ck cv j l).1 t t' /\ grew m t m' t' /\ roomy m m' t' /\
       held t' ++ gone m' ≡ₚ held t ++ gone m ++ owned (clones ck cv j l).1)
    (fun r m' => exists t' fl', map_rep m' t' fl' /\ grew m t m' t' /\
       ((clone_stop os ck cv j l t r t' /\
         match r with
         | Some p => exists g, clones_made os ck cv j l p g /\ held t' ++ gone m' ≡ₚ held t ++ gone m ++ g
         | None => True
         end) \/
        (alloc_fail r /\ N.of_nat (tsize t') = map_capacity m' /\ tsize t' < tsize t + length l))) m.
Proof.
  induction l as [|[k0 v0] l IH]; intros j m t fl Hrep; cbn [clone_list].
  - apply wp_ret. split; [done|]. exists t, fl. split_and!; try done; [|simpl; by rewrite app_nil_r].
    pose proof (map_rep_len _ _ _ Hrep). split; try done; [lia|apply kept_refl].
  - assert (Hg0 : grew m t m t).
    { pose proof (map_rep_len _ _ _ Hrep). split; try done; [lia|apply kept_refl]. }
    simpl. destruct (ck j k0) as [k|] eqn:Hk; [destruct (cv j v0) as [v|] eqn:Hv|].
    + apply wp_bind. eapply wp_mono; [by apply insert_call| |].
      * intros r m1 (q & t1 & fl1 & Hins & Hrep1 & Hg & Hro & Hq & Ha).
        apply wp_bind, wp_mod. fold (opt_val (K:=K) r).
        assert (Hrep2 : map_rep (log_drops (opt_val r) m1) t1 fl1) by done.
        assert (Hg2 : grew m t (log_drops (opt_val r) m1) t1).
        { eapply grew_trans; [exact Hg|by eapply grew_refl]. }
        assert (Ha2 : held t1 ++ gone (log_drops (opt_val r) m1) ≡ₚ held t ++ gone m ++ [inl k; inr v]).
        { rewrite <- Ha. unfold gone, log_drops. simpl. solve_Permutation. }
        eapply wp_mono; [by eapply (IH (S j))| |].
        -- intros u m'. destruct (clones ck cv (S j) l) as [l' b]. simpl.
           intros (Hb & t' & fl' & H1 & H2 & H3 & H4 & H5). split; [done|]. exists t', fl'. split_and!; try done.
           ++ eauto 8.
           ++ by eapply grew_trans.
           ++ by eapply roomy_trans.
           ++ rewrite H5. change (owned ((k, v) :: l')) with ([inl k; inr v] ++ owned l').
              rewrite app_assoc, Ha2. solve_Permutation.
        -- intros r0 m' (t' & fl' & H1 & H2 & H3). exists t', fl'. split_and!; try done; [by eapply grew_trans|].
           destruct H3 as [[H3 H4]|(H3 & H4 & H5)]; [left|right].
           2: { split_and!; try done. pose proof (tins_size _ _ _ _ _ _ _ _ Hins). destruct r; simpl; lia. }
           assert (Hna : ~ alloc_fail r0).
           { intros Hf. destruct H3 as [(-> & _)|(-> & _)]; destruct Hf as [?|[?|?]]; done. }
           split.
           { unfold clone_stop in *. simpl. rewrite Hk, Hv.
             destruct (clones ck cv (S j) l) as [l' b]. simpl in *. destruct H3 as [(? & ? & H3)|(? & n & k1 & v1 & Hn & H3 & Hc)].
             - left. split_and!; eauto 8.
             - right. split; [done|]. exists (S n), k1, v1. simpl. split_and!; [done|eauto 8|]. by rewrite Nat.add_succ_r. }
           destruct r0; [|done]. destruct H4 as (g & Hg1 & Hg3). exists (inl k :: inr v :: g).
           split; [by eapply clones_made_cons|]. rewrite Hg3, app_assoc, Ha2. solve_Permutation.
      * intros r m1 (Hrep1 & Hu & Hsd & Hwhy & Ha). exists t, fl. 
        assert (Hm : mem m1 = set_next (a_next (mem m1)) (mem m)).
        { destruct Hu as [_ [n Hn]]. unfold mem. rewrite Hn. done. }
        assert (Hc : map_capacity m1 = map_capacity m).
        { unfold map_capacity, slab_capacity, arena_capacity. fold (mem m1) (mem m). by rewrite Hm. }
        split_and!; try done.
        -- destruct Hg0 as [A1 A2 A3 A4 A5]. split; try done; [by rewrite Hm|by rewrite Hc].
        -- rewrite Hc. destruct Hwhy as [[-> Hp]|(Hf & _ & Hsz & _)]; [left|right; split_and!; [done|done|simpl; lia]]. split.
           ++ unfold clone_stop. simpl. rewrite Hk, Hv.
              destruct (clones ck cv (S j) l) as [l' b]. right. split; [done|]. exists 0, k, v. simpl. split_and!; [done|done|].
              by rewrite Nat.add_0_r.
           ++ exists [inl k; inr v]. split; [|by rewrite Ha].
              destruct (tins_panicked _ _ _ _ _ _ (Hp (0%N, 0%N))) as (i & k1 & Ho).
              unfold clones_made. simpl. rewrite Hk, Hv. destruct (clones ck cv (S j) l) as [l' b].
              exists 0, k, v, i, k1. by rewrite Nat.add_0_r.
    + apply wp_bind, wp_mod, wp_fail. exists t, fl. split_and!; try done; [by eapply grew_refl|].
      left. split; [left; simpl; by rewrite Hk, Hv|].
      exists [inl k]. split.
      * unfold clones_made. simpl. rewrite Hk, Hv. simpl. by rewrite Nat.add_0_r, Hk.
      * unfold gone, log_drops. simpl. solve_Permutation.
    + apply wp_fail. exists t, fl. split_and!; try done. left. split; [left; simpl; by rewrite Hk|]. exists []. split.
      * unfold clones_made. simpl. rewrite Hk. simpl. by rewrite Nat.add_0_r, Hk.
      * by rewrite app_nil_r.
Qed.

Lemma map_clone_spec e os ck cv m t fl : map_rep m t fl ->
  match map_clone e os ck cv m with
  | (Ret _, m') => (clones ck cv 0 (ppre t).*2).2 = true /\ exists t' fl', map_rep m' t' fl' /\
      ins_rel os 0 (clones ck cv 0 (ppre t).*2).1 Leaf t' /\
      held t' ++ gone m' ≡ₚ owned (clones ck cv 0 (ppre t).*2).1 /\
      (N.of_nat (tsize t) <= map_capacity m')%N /\ a_len (mem m') = N.of_nat (tsize t')
  | (Panic p, m') => a_heap (mem m') = ∅ /\ build_stop p /\ p <> PIter /\
      (alloc_fail (Some p) \/ exists t', clone_stop os ck cv 0 (ppre t).*2 Leaf (Some p) t') /\
      (e_nd e = true -> exists g, clones_made os ck cv 0 (ppre t).*2 p g /\ gone m' ≡ₚ g)
  | (Abort, _) => True
  | (UB _, _) => False
  | (Diverge, _) => False
  end.
Proof.
  intros Hrep. unfold map_clone. rewrite (map_len_ret e m t fl Hrep).
  set (body := let! r := slift (map_root m) in clone_loop e os ck cv m (map_fuel m) 0 (opt_list r)).
  assert (Heq : forall m0, body m0 = clone_list e os ck cv 0 (ppre t).*2 m0).
  { intros m0. unfold body, sbind, slift. rewrite (map_root_ret _ _ _ Hrep).
    replace (opt_list (node_of t)) with (node_stack [t]) by (by destruct t).
    rewrite (clone_loop_eq e os ck cv m t fl Hrep).
    - unfold pre_pend. cbn [mbind list_bind]. by rewrite app_nil_r.
    - apply Forall_cons. split; [|constructor]. apply sub_refl. by eapply rep_nodup.
    - unfold pre_pend. cbn [mbind list_bind]. rewrite app_nil_r, ppre_length. by eapply rep_fuel. }
  pose proof (build_spec e (N.of_nat (tsize t)) body
    (fun m' => (clones ck cv 0 (ppre t).*2).2 = true /\ exists t' fl', map_rep m' t' fl' /\
      ins_rel os 0 (clones ck cv 0 (ppre t).*2).1 Leaf t' /\
      held t' ++ gone m' ≡ₚ owned (clones ck cv 0 (ppre t).*2).1 /\
      (N.of_nat (tsize t) <= map_capacity m')%N /\ a_len (mem m') = N.of_nat (tsize t'))
    (fun r t' l => clone_stop os ck cv 0 (ppre t).*2 Leaf r t' /\
       match r with Some p => exists g, clones_made os ck cv 0 (ppre t).*2 p g /\ l ≡ₚ g | None => True end)) as H.
  assert (Hb : forall m0, map_rep m0 Leaf [] -> (N.of_nat (tsize t) <= map_capacity m0)%N -> a_len (mem m0) = 0%N ->
     gone m0 = [] -> wp body (fun _ m' => (clones ck cv 0 (ppre t).*2).2 = true /\ exists t' fl', map_rep m' t' fl' /\
      ins_rel os 0 (clones ck cv 0 (ppre t).*2).1 Leaf t' /\
      held t' ++ gone m' ≡ₚ owned (clones ck cv 0 (ppre t).*2).1 /\
      (N.of_nat (tsize t) <= map_capacity m')%N /\ a_len (mem m') = N.of_nat (tsize t'))
      (fun r m' => exists t' fl', map_rep m' t' fl' /\ clone_stop os ck cv 0 (ppre t).*2 Leaf r t' /\
         match r with
         | Some p => exists g, clones_made os ck cv 0 (ppre t).*2 p g /\ held t' ++ gone m' ≡ₚ g
         | None => True
         end) m0).
  { intros m0 H1 H2 H3 H4. apply (wp_ext _ _ _ _ _ (Heq m0)).
    eapply wp_mono; [by apply (clone_list_spec e os ck cv (ppre t).*2 0 m0 Leaf [])| |].
    - intros _ m' (A1 & t' & fl' & A2 & A3 & A4 & A5 & A6). rewrite H4 in A6. split; [done|]. exists t', fl'.
      split_and!; try done; [pose proof (gr_cap _ _ _ _ A4); lia|rewrite (gr_slots _ _ _ _ A4), H3; lia].
    - intros r m' (t' & fl' & A1 & A2 & A3). exists t', fl'. split; [done|].
      destruct A3 as [[A3 A4]|(_ & A4 & A5)].
      + split; [done|]. destruct r; [|done]. by rewrite H4 in A4.
      + exfalso. rewrite fmap_length, ppre_length in A5. pose proof (gr_cap _ _ _ _ A2). simpl in A5. lia. }
  specialize (H Hb). destruct (build _ _ _) as [[u|p| |u|] m']; try done.
  destruct H as [H1 H2]. split; [done|].
  assert (Halloc : alloc_fail (Some p) -> build_stop p /\ p <> PIter).
  { intros Hf. split; [by left|]. intros ->. destruct Hf as [?|[?|?]]; done. }
  destruct H2 as [[H2 H3]|(t' & l & [H2 H3] & H4)].
  - destruct (Halloc H2) as [H5 H6]. split_and!; try done; [by left|]. intros _. exists []. split; [by destruct H2 as [[= ->]|[[= ->]|?]]|by rewrite H3].
  - assert (build_stop p /\ p <> PIter) as [H5 H6].
    { destruct H2 as [([= ->] & _)|([= ->] & _)]; unfold build_stop; naive_solver. }
    split_and!; try done; [right; by exists t'|]. intros Hnd. destruct H3 as (g & Hg1 & Hg2). exists g. split; [done|]. by rewrite (H4 Hnd).
Qed.

End calls.
