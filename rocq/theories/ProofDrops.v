(** * Proofs about destructors that panic *)

From Verif Require Export SpecDrops ProofGhost ProofLedger ProofQuiet.

Section drops.
Context {K V : Type}.
Implicit Types m : bstmap K V.

(** ** One insertion *)

Lemma slab_get_calm {T} (s : slab T) p q : slab_get s p <> Panic q.
Proof.
  unfold slab_get, arena_get. destruct (a_heap (s_items s) !! p.1) as [b|]; [|done].
  destruct (_ <? _)%N; [|done]. destruct (b_cells b !! p.2) as [en|]; [|done]. by destruct en.
Qed.
Lemma slab_get_alive {T} (s : slab T) p : slab_get s p <> Abort.
Proof.
  unfold slab_get, arena_get. destruct (a_heap (s_items s) !! p.1) as [b|]; [|done].
  destruct (_ <? _)%N; [|done]. destruct (b_cells b !! p.2) as [en|]; [|done]. by destruct en.
Qed.

Lemma slab_update_calm {T} (s : slab T) p f q : (slab_update p f s).1 <> Panic q.
Proof.
  unfold slab_update, sbind, sget, slift. pose proof (slab_get_calm s p q) as H. destruct (slab_get s p); try done.
  unfold on_items, zoom, arena_set, arena_poke. unfold arena_get.
  destruct (a_heap (s_items s) !! p.1) as [b|]; [|done].
  destruct (_ <? _)%N; [|done]. by destruct (b_cells b !! p.2) as [en|].
Qed.

Ltac calm m n q := pose proof (slab_get_calm (m_nodes m) n q); destruct (slab_get (m_nodes m) n); cbn [rmap rbind]; try congruence.
Lemma nodemut_key_calm m n q : nodemut_key m n <> Panic q.
Proof. unfold nodemut_key. calm m n q. Qed.
Lemma has_left_calm m n q : nodemut_has_left m n <> Panic q.
Proof. unfold nodemut_has_left. calm m n q. Qed.
Lemma has_right_calm m n q : nodemut_has_right m n <> Panic q.
Proof. unfold nodemut_has_right. calm m n q. Qed.
Lemma opt_nodemut_calm m p q : opt_nodemut m p <> Panic q.
Proof. destruct p as [p|]; [|done]. simpl. unfold nodemut_new. calm m p q. Qed.
Lemma nodemut_left_calm m n q : nodemut_left m n <> Panic q.
Proof. unfold nodemut_left. calm m n q. apply opt_nodemut_calm. Qed.
Lemma nodemut_right_calm m n q : nodemut_right m n <> Panic q.
Proof. unfold nodemut_right. calm m n q. apply opt_nodemut_calm. Qed.
Lemma replace_calm m n v q : (nodemut_replace_value n v m).1 <> Panic q.
Proof.
  unfold nodemut_replace_value, sbind, on_nodes, zoom. pose proof (slab_update_calm (m_nodes m) n (with_value v) q).
  destruct (slab_update n (with_value v) (m_nodes m)) as [[] ?]; simpl in *; congruence.
Qed.

Section bad.
Variable leaky : bool.
Variable bad : K + V -> bool.

Lemma return_past_cases x y m : return_past leaky bad x y m =
  if bad y then if negb leaky && bad x then (Abort, log_drops [y] m)
                else (Panic PDrop, log_drops (if leaky then [] else [x]) (log_drops [y] m))
  else (Ret tt, log_drops [y] m).
Proof.
  unfold return_past, unwinding, destroy, sbind, smod. destruct (bad y); [|done]. unfold sfail.
  destruct leaky; simpl; [done|]. by destruct (bad x).
Qed.

Lemma existsb_two k v : existsb bad [inl k; inr v] = bad (inl k) || bad (inr v).
Proof. simpl. by rewrite orb_false_r. Qed.

Lemma dinsert_loop_eq e o k v fuel : forall i cur m,
  match insert_loop e o fuel i k v cur m with
  | (Panic p, m0) => if bad (inl k) || bad (inr v) then (dinsert_loop leaky bad e o fuel i k v cur m).1 = Abort
                     else dinsert_loop leaky bad e o fuel i k v cur m = (Panic p, log_drops [inl k; inr v] m0)
  | (Ret (Some old), m0) => exists m1, m0 = log_drops [inl k] m1 /\
      dinsert_loop leaky bad e o fuel i k v cur m =
        match return_past leaky bad (inr old) (inl k) m1 with
        | (Ret _, m2) => (Ret (Some old), m2)
        | (Panic p, m2) => (Panic p, m2)
        | (Abort, m2) => (Abort, m2)
        | (UB u, m2) => (UB u, m2)
        | (Diverge, m2) => (Diverge, m2)
        end
  | x => dinsert_loop leaky bad e o fuel i k v cur m = x
  end.
Proof.
  induction fuel as [|fuel IH]; intros i cur m; [done|]. cbn [insert_loop dinsert_loop].
  destruct cur as [n|]; [|done]. cbv beta iota delta [sbind sget slift sret smod].
  pose proof (nodemut_key_calm m n) as Hc1. destruct (nodemut_key m n) as [nk| | | |]; try done; [|by exfalso; eapply Hc1].
  destruct (ask o i nk) as [c|p| | |]; try done.
  2: { unfold unwinding. rewrite !existsb_two. by destruct (bad (inl k) || bad (inr v)). }
  change (unwinding bad [inl k; inr v] (fun s => (Ret c, s)) m) with (@Ret comparison c, m). cbv beta iota.
  destruct c.
  - pose proof (replace_calm m n v) as Hc. destruct (nodemut_replace_value n v m) as [[old|p| |u|] m1]; try done; [|by exfalso; eapply Hc].
    exists m1. split; [done|]. by destruct (return_past leaky bad (inr old) (inl k) m1) as [[] m2].
  - pose proof (has_left_calm m n) as Hc2. destruct (nodemut_has_left m n) as [hl| | | |]; try done; [|by exfalso; eapply Hc2].
    destruct hl; cbn [negb].
    + pose proof (nodemut_left_calm m n) as Hc3. destruct (nodemut_left m n) as [cur| | | |]; try done; [|by exfalso; eapply Hc3]. apply IH.
    + unfold unwinding. destruct (nodemut_push_left e n k v m) as [[]]; try done. rewrite existsb_two. by destruct (bad (inl k) || bad (inr v)).
  - pose proof (has_right_calm m n) as Hc2. destruct (nodemut_has_right m n) as [hl| | | |]; try done; [|by exfalso; eapply Hc2].
    destruct hl; cbn [negb].
    + pose proof (nodemut_right_calm m n) as Hc3. destruct (nodemut_right m n) as [cur| | | |]; try done; [|by exfalso; eapply Hc3]. apply IH.
    + unfold unwinding. destruct (nodemut_push_right e n k v m) as [[]]; try done. rewrite existsb_two. by destruct (bad (inl k) || bad (inr v)).
Qed.

(** An insertion, given what it does when no destructor panics. *)
Lemma dinsert_eq e o k v m r m0 : bstmap_insert e o k v m = (r, m0) ->
  match r with
  | Panic p => if bad (inl k) || bad (inr v) then (dinsert leaky bad e o k v m).1 = Abort
               else dinsert leaky bad e o k v m = (Panic p, m0)
  | Ret (Some old) =>
      if bad (inl k) then
        if negb leaky && bad (inr old) then (dinsert leaky bad e o k v m).1 = Abort
        else dinsert leaky bad e o k v m = (Panic PDrop, log_drops (if leaky then [] else [inr old]) m0)
      else dinsert leaky bad e o k v m = (Ret (Some old), m0)
  | _ => dinsert leaky bad e o k v m = (r, m0)
  end.
Proof.
  unfold bstmap_insert, on_panic, dinsert. unfold sbind at 1, sget at 1. unfold sbind at 1, slift at 1.
  set (D := sbind sget _). 
  assert (HD : D m = match map_root_mut m with
    | Ret (Some root) => dinsert_loop leaky bad e o (map_fuel m) 0 k v (Some root) m
    | Ret None => (let! p := unwinding bad [inl k; inr v] (on_nodes (slab_push e (inner_new k v))) in
                   let! _ := smod (set_root (Some p)) in sret None) m
    | Panic p => (Panic p, m) | Abort => (Abort, m) | UB u => (UB u, m) | Diverge => (Diverge, m) end).
  { unfold D. unfold sbind at 1, sget. unfold sbind at 1, slift. by destruct (map_root_mut m) as [[]| | | |]. }
  clearbody D. pose proof (opt_nodemut_calm m (m_root m)) as Hc. change (opt_nodemut m (m_root m)) with (map_root_mut m) in Hc.
  destruct (map_root_mut m) as [[root|]| | | |]; try (intros [= <- <-]; done).
  - pose proof (dinsert_loop_eq e o k v (map_fuel m) 0 (Some root) m) as H. rewrite <- HD in H.
    destruct (insert_loop e o (map_fuel m) 0 k v (Some root) m) as [[[old|]|p| |u|] m1].
    + destruct H as (m2 & -> & H). intros [= <- <-]. rewrite return_past_cases in H.
      destruct (bad (inl k)); [|done]. destruct (negb leaky && bad (inr old)); [by rewrite H|done].
    + intros [= <- <-]. done.
    + intros [= <- <-]. done.
    + intros [= <- <-]. done.
    + intros [= <- <-]. done.
    + intros [= <- <-]. done.
  - cbv beta iota delta [sbind smod sret unwinding] in HD |- *.
    destruct (on_nodes (slab_push e (inner_new k v)) m) as [[] ?]; intros [= <- <-]; try done.
    rewrite existsb_two in HD. destruct (bad (inl k) || bad (inr v)); [by rewrite HD|done].
  - by exfalso; eapply Hc.
Qed.

Lemma log_drops_nil m : log_drops [] m = m.
Proof. destruct m. unfold log_drops. simpl. by rewrite app_nil_r. Qed.
Lemma alike_rep m m' t fl : alike m m' -> map_rep m t fl -> map_rep m' t fl.
Proof. destruct m, m'. intros [? ?]. simpl in *. subst. done. Qed.
Lemma alike_sym m m' : alike m m' -> alike m' m.
Proof. intros [? ?]. by split. Qed.
Lemma alike_refl m : alike m m.
Proof. done. Qed.

Lemma leaked_nil n : leaked leaky n (@nil (K + V)).
Proof. split; [simpl; lia|constructor]. Qed.
Lemma leaked_le n n' (L : list (K + V)) : leaked leaky n L -> n <= n' -> leaked leaky n' L.
Proof. intros [? ?] ?. split; [destruct leaky; lia|done]. Qed.
Lemma leaked_app n n' (L L' : list (K + V)) : leaked leaky n L -> leaked leaky n' L' -> leaked leaky (n + n') (L ++ L').
Proof. intros [? ?] [? ?]. split; [rewrite app_length; destruct leaky; lia|by apply Forall_app]. Qed.
Lemma leaked_value v : leaked leaky 1 (if leaky then [inr v : K + V] else []).
Proof. destruct leaky; (split; [simpl; lia|]); constructor; [by eexists|constructor]. Qed.

(** ** Insertions in a row *)

(** [m0] is the map if no destructor had panicked; [L] is what was leaked. *)
Definition near m' m0 (L : list (K + V)) : Prop :=
  alike m' m0 /\ m_drops m' ++ L = m_drops m0 /\ leaked leaky 1 L.

Lemma near_refl m : near m m [].
Proof. split; [done|]. split; [by rewrite app_nil_r|apply leaked_nil]. Qed.

(** One item. *)
Lemma item_ends e o k v m r m1 : 
  sbind (dinsert leaky bad e o k v) (destroy_opt bad) m = (r, m1) -> r <> Abort ->
  sbind (bstmap_insert e o k v) (fun prev => smod (log_drops (match prev with Some v => [inr v] | None => [] end))) m = (r, m1) \/
  (r = Panic PDrop /\ exists m0 L,
     sbind (bstmap_insert e o k v) (fun prev => smod (log_drops (match prev with Some v => [inr v] | None => [] end))) m = (Ret tt, m0) /\
     near m1 m0 L).
Proof.
  unfold sbind. destruct (bstmap_insert e o k v m) as [r0 m0] eqn:Hi. pose proof (dinsert_eq e o k v m r0 m0 Hi) as H.
  destruct r0 as [[old|]|p| |u|].
  - destruct (bad (inl k)).
    + destruct (negb leaky && bad (inr old)) eqn:Hb.
      * destruct (dinsert leaky bad e o k v m) as [r2 m2]. simpl in H. subst r2. intros [= <- <-]. done.
      * rewrite H. intros [= <- <-] _. right. split; [done|].
        exists (log_drops [inr old] m0), (if leaky then [inr old] else []). split; [done|].
        split; [by destruct leaky|]. split; [|apply leaked_value].
        destruct leaky; simpl; by rewrite ?app_nil_r.
    + rewrite H. cbn [destroy_opt]. unfold destroy, sbind, smod. destruct (bad (inr old)).
      * unfold sfail. intros [= <- <-] _. right. split; [done|]. eexists _, []. split; [done|]. apply near_refl.
      * intros [= <- <-] _. by left.
  - rewrite H. cbn [destroy_opt]. intros [= <- <-] _. left. unfold smod. by rewrite log_drops_nil.
  - destruct (bad (inl k) || bad (inr v)).
    + destruct (dinsert leaky bad e o k v m) as [r2 m2]. simpl in H. subst r2. intros [= <- <-]. done.
    + rewrite H. intros [= <- <-] _. by left.
  - rewrite H. intros [= <- <-] _. by left.
  - rewrite H. intros [= <- <-] _. by left.
  - rewrite H. intros [= <- <-] _. by left.
Qed.

Lemma sbind_eq {S A B} (f : M S A) (g : A -> M S B) s r s1 : f s = (r, s1) ->
  sbind f g s = match r with Ret a => g a s1 | Panic p => (Panic p, s1) | Abort => (Abort, s1) | UB u => (UB u, s1) | Diverge => (Diverge, s1) end.
Proof. intros H. unfold sbind. rewrite H. by destruct r. Qed.

Lemma sbind_assoc {S A B C} (f : M S A) (g : A -> M S B) (h : B -> M S C) s :
  sbind f (fun a => sbind (g a) h) s = sbind (sbind f g) h s.
Proof. unfold sbind. by destruct (f s) as [[] ?]. Qed.

Lemma dinsert_all_ends e os items b : forall j m r m', dinsert_all leaky bad e os j items b m = (r, m') -> r <> Abort ->
  insert_all e os j items b m = (r, m') \/
  (r = Panic PDrop /\ exists n m0 L, insert_all e os j (take n items) false m = (Ret tt, m0) /\ near m' m0 L).
Proof.
  induction items as [|[k v] items IH]; intros j m r m' Hr Hna; [by left|]. cbn [dinsert_all insert_all] in *.
  rewrite sbind_assoc in Hr. rewrite sbind_assoc.
  destruct (sbind (dinsert leaky bad e (os j k) k v) (destroy_opt bad) m) as [r1 m1] eqn:H1.
  assert (Hna1 : r1 <> Abort).
  { intros ->. rewrite (sbind_eq _ _ _ _ _ H1) in Hr. by injection Hr as <- _. }
  rewrite (sbind_eq _ _ _ _ _ H1) in Hr.
  destruct (item_ends _ _ _ _ _ _ _ H1 Hna1) as [H2|(-> & m0 & L & H2 & Hn)].
  - rewrite (sbind_eq _ _ _ _ _ H2). destruct r1 as [[]|p| |u|]; try (by left).
    destruct (IH (S j) m1 r m' Hr Hna) as [?|(-> & n & m0 & L & Hi & Hn)]; [by left|]. right. split; [done|].
    exists (S n), m0, L. split; [|done]. cbn [take insert_all]. rewrite sbind_assoc. by rewrite (sbind_eq _ _ _ _ _ H2).
  - injection Hr as <- <-. right. split; [done|]. exists 1%nat, m0, L. split; [|done].
    cbn [take insert_all]. rewrite sbind_assoc. rewrite (sbind_eq _ _ _ _ _ H2). by rewrite take_0.
Qed.

(** ** Clone *)

Lemma dclone_loop_ends e os ck cv src fuel : forall j st m r m', dclone_loop leaky bad e os ck cv src fuel j st m = (r, m') -> r <> Abort ->
  clone_loop e os ck cv src fuel j st m = (r, m') \/ r = Panic PDrop.
Proof.
  induction fuel as [|fuel IH]; intros j st m r m' Hr Hna; [by left|]. cbn [dclone_loop clone_loop] in *.
  destruct st as [|n st]; [by left|]. destruct (ck j (node_key n)) as [k|]; [|by left].
  destruct (cv j (node_value n)) as [v|].
  - rewrite sbind_assoc in Hr. rewrite sbind_assoc.
    destruct (sbind (dinsert leaky bad e (os j k) k v) (destroy_opt bad) m) as [r1 m1] eqn:H1.
    assert (Hna1 : r1 <> Abort).
    { intros ->. rewrite (sbind_eq _ _ _ _ _ H1) in Hr. by injection Hr as <- _. }
    rewrite (sbind_eq _ _ _ _ _ H1) in Hr.
    destruct (item_ends _ _ _ _ _ _ _ H1 Hna1) as [H2|(-> & m0 & L & H2 & Hn)].
    + rewrite (sbind_eq _ _ _ _ _ H2). destruct r1 as [[]|p| |u|]; try (by left).
      unfold sbind, slift in Hr |- *. destruct (node_right src n) as [rr| | | |]; try (by left).
      destruct (node_left src n) as [ll| | | |]; try (by left). by apply IH.
    + right. by injection Hr as <- _.
  - unfold unwinding, sfail in Hr. destruct (existsb bad [inl k]); injection Hr as <- <-; [done|]. by left.
Qed.

Lemma drop_loop_quiet {T} e (pn : T -> bool) fuel free : forall r s s', drop_loop e pn fuel free r s = (Ret tt, s') ->
  drop_loop e (fun _ => false) fuel free r s = (Ret tt, s').
Proof.
  induction fuel as [|fuel IH]; intros r s s'; [done|]. cbn [drop_loop]. unfold drop_value.
  cbv beta iota delta [sbind sget slift smod sret sfail].
  destruct (next_ptr e (s_items s) r) as [x r'].
  destruct x as [[[p y]|]| | | |]; try done. destruct (decide (p ∈ free)); [apply IH|].
  destruct (slab_get s p) as [z| | | |]; try done.
  destruct (on_items (arena_set p (EDropped z)) s) as [[]]; try done.
  destruct (pn z); [done|]. by apply IH.
Qed.

Lemma slab_clear_quietly {T} e (pn : T -> bool) s s1 : slab_clear e pn s = (Ret tt, s1) -> slab_clear e (fun _ => false) s = (Ret tt, s1).
Proof.
  unfold slab_clear, sbind, sget. destruct (negb (e_nd e) || _); [done|]. unfold slift.
  destruct (collect_free _ s _ _) as [fp| | | |]; try done.
  destruct (drop_loop e pn _ fp _ s) as [[[]| | | |] s2] eqn:Hd; try done.
  by rewrite (drop_loop_quiet _ _ _ _ _ _ _ Hd).
Qed.

Lemma slab_drop_quietly {T} e (pn : T -> bool) s s' : slab_drop e pn s = (Ret tt, s') -> slab_drop e (fun _ => false) s = (Ret tt, s').
Proof.
  unfold slab_drop. destruct (negb (e_nd e)); [done|]. intros H.
  destruct (slab_clear e pn s) as [[[]|p| |u|] s1] eqn:Hc; try done.
  - by rewrite (slab_clear_quietly _ _ _ _ Hc).
  - destruct (on_items _ s1) as [[]]; done.
Qed.

Lemma map_drop_quietly e pn m m' : map_drop e pn m = (Ret tt, m') -> map_drop e (fun _ => false) m = (Ret tt, m').
Proof.
  unfold map_drop, on_nodes, zoom. destruct (slab_drop e pn (m_nodes m)) as [[[]| | | |] s'] eqn:H; try done.
  by rewrite (slab_drop_quietly _ _ _ _ H).
Qed.

Lemma map_clear_quietly e pn m m' : map_clear e pn m = (Ret tt, m') -> map_clear e (fun _ => false) m = (Ret tt, m').
Proof.
  unfold map_clear, sbind, on_nodes, zoom. destruct (slab_clear e pn (m_nodes m)) as [[[]| | | |] s'] eqn:H; try done.
  by rewrite (slab_clear_quietly _ _ _ _ H).
Qed.

(** ** Representation *)

Lemma log_rep m t fl x : map_rep m t fl -> map_rep (log_drops x m) t fl.
Proof. done. Qed.

Lemma insert_rep e o k v m t fl r m' : map_rep m t fl -> bstmap_insert e o k v m = (r, m') ->
  defined r /\ exists t' fl', map_rep m' t' fl'.
Proof.
  intros Hrep Hi. assert (He : exec e (OInsert o k v) m = (rmap OutValue r, m')).
  { cbn [exec]. rewrite (sbind_eq _ _ _ _ _ Hi). by destruct r. }
  destruct (exec_rep _ _ _ _ _ _ _ Hrep He) as [Hd ?]. split; [|done]. by destruct r.
Qed.

Lemma dinsert_rep e o k v m t fl r m' : map_rep m t fl -> dinsert leaky bad e o k v m = (r, m') -> r <> Abort ->
  exists t' fl', map_rep m' t' fl'.
Proof.
  intros Hrep Hd Hna. destruct (bstmap_insert e o k v m) as [r0 m0] eqn:Hi.
  destruct (insert_rep _ _ _ _ _ _ _ _ _ Hrep Hi) as (_ & t' & fl' & Hrep').
  pose proof (dinsert_eq e o k v m r0 m0 Hi) as H. rewrite Hd in H. cbn [fst] in H.
  destruct r0 as [[old|]|p| |u|]; [|by injection H as -> ->; eauto| |by injection H as -> ->; eauto..].
  - destruct (bad (inl k)); [|injection H as -> ->; eauto].
    destruct (negb leaky && bad (inr old)); [by subst|]. injection H as -> ->. exists t', fl'. by apply log_rep.
  - destruct (bad (inl k) || bad (inr v)); [by subst|]. injection H as -> ->. eauto.
Qed.

Lemma destroy_opt_rep v m t fl r m' : map_rep m t fl -> destroy_opt bad v m = (r, m') -> map_rep m' t fl.
Proof.
  intros Hrep. destruct v as [v|]; cbn [destroy_opt]; [|by intros [= <- <-]].
  unfold destroy, sbind, smod. destruct (bad (inr v)); intros [= <- <-]; by apply log_rep.
Qed.

Lemma dinsert_all_rep e os items b : forall j m t fl r m', map_rep m t fl ->
  dinsert_all leaky bad e os j items b m = (r, m') -> r <> Abort -> exists t' fl', map_rep m' t' fl'.
Proof.
  induction items as [|[k v] items IH]; intros j m t fl r m' Hrep Hr Hna; cbn [dinsert_all] in Hr.
  - destruct b; injection Hr as <- <-; eauto.
  - destruct (dinsert leaky bad e (os j k) k v m) as [r1 m1] eqn:H1. rewrite (sbind_eq _ _ _ _ _ H1) in Hr.
    assert (Hna1 : r1 <> Abort) by (intros ->; by injection Hr as <- _).
    destruct (dinsert_rep _ _ _ _ _ _ _ _ _ Hrep H1 Hna1) as (t1 & fl1 & Hrep1).
    destruct r1 as [prev|p| |u|]; try (injection Hr as <- <-; by eauto).
    destruct (destroy_opt bad prev m1) as [r2 m2] eqn:H2. rewrite (sbind_eq _ _ _ _ _ H2) in Hr.
    pose proof (destroy_opt_rep _ _ _ _ _ _ Hrep1 H2) as Hrep2.
    destruct r2 as [[]|p| |u|]; try (injection Hr as <- <-; by eauto). by eapply IH.
Qed.

Lemma dclone_loop_rep e os ck cv src fuel : forall j st m t fl r m', map_rep m t fl ->
  dclone_loop leaky bad e os ck cv src fuel j st m = (r, m') -> r <> Abort -> exists t' fl', map_rep m' t' fl'.
Proof.
  induction fuel as [|fuel IH]; intros j st m t fl r m' Hrep Hr Hna; cbn [dclone_loop] in Hr; [injection Hr as <- <-; by eauto|].
  destruct st as [|n st]; [injection Hr as <- <-; by eauto|]. destruct (ck j (node_key n)) as [k|]; [|injection Hr as <- <-; by eauto].
  destruct (cv j (node_value n)) as [v|].
  - destruct (dinsert leaky bad e (os j k) k v m) as [r1 m1] eqn:H1. rewrite (sbind_eq _ _ _ _ _ H1) in Hr.
    assert (Hna1 : r1 <> Abort) by (intros ->; by injection Hr as <- _).
    destruct (dinsert_rep _ _ _ _ _ _ _ _ _ Hrep H1 Hna1) as (t1 & fl1 & Hrep1).
    destruct r1 as [prev|p| |u|]; try (injection Hr as <- <-; by eauto).
    destruct (destroy_opt bad prev m1) as [r2 m2] eqn:H2. rewrite (sbind_eq _ _ _ _ _ H2) in Hr.
    pose proof (destroy_opt_rep _ _ _ _ _ _ Hrep1 H2) as Hrep2.
    destruct r2 as [[]|p| |u|]; try (injection Hr as <- <-; by eauto).
    unfold sbind, slift in Hr. destruct (node_right src n) as [rr| | | |]; try (injection Hr as <- <-; by eauto).
    destruct (node_left src n) as [ll| | | |]; try (injection Hr as <- <-; by eauto). by eapply IH.
  - unfold unwinding, sfail in Hr. destruct (existsb bad [inl k]); injection Hr as <- <-; [done|]. by eauto.
Qed.

Lemma map_drop_any e pn m t fl : map_rep m t fl -> exists m', map_drop e pn m = (Ret tt, m') \/ map_drop e pn m = (Panic PDrop, m').
Proof.
  intros [[_ Hs] _]. destruct (slab_drop_any e pn _ _ _ Hs) as (drops & s' & Heq & _).
  unfold map_drop, on_nodes, zoom. rewrite Heq. exists (set_nodes s' m). destruct (existsb pn drops); auto.
Qed.

Lemma with_capacity_rep e n : match map_with_capacity e n with (Ret _, m) => exists t fl, map_rep (K := K) (V := V) m t fl | _ => True end.
Proof.
  pose proof (begin_rep (K := K) (V := V) e (SWithCapacity n)) as H. cbn [begin] in H.
  destruct (map_with_capacity e n) as [[] m]; try done. destruct H as (t & fl & H & _). eauto.
Qed.

Lemma dbuild_ends e n (body body' : M (bstmap K V) unit) r m' :
  (forall m t fl r1 m1, map_rep m t fl -> body m = (r1, m1) -> r1 <> Abort ->
     (body' m = (r1, m1) \/ r1 = Panic PDrop) /\ exists t' fl', map_rep m1 t' fl') ->
  dbuild bad e (map_with_capacity e n) body = (r, m') -> r <> Abort ->
  build e (map_with_capacity e n) body' = (r, m') \/ r = Panic PDrop.
Proof.
  intros Hb. unfold dbuild, build. pose proof (with_capacity_rep e n) as Hw.
  destruct (map_with_capacity e n) as [[[]|p| |u|] m0]; try (by left). destruct Hw as (t & fl & Hrep).
  destruct (body m0) as [r1 m1] eqn:H1. intros Hr Hna.
  assert (Hna1 : r1 <> Abort) by (intros ->; by injection Hr as <- _).
  destruct (Hb _ _ _ _ _ Hrep H1 Hna1) as [H2 (t' & fl' & Hrep')].
  assert (Hp : forall p, r1 = Panic p -> exists m2, map_drop e (bad_node bad) m1 = (Ret tt, m2) /\ r = Panic p /\ m' = m2).
  { intros p ->. destruct (map_drop_any e (bad_node bad) _ _ _ Hrep') as [m2 [Hd|Hd]]; rewrite Hd in Hr; injection Hr as <- <-; eauto. done. }
  destruct H2 as [->| ->].
  - destruct r1 as [[]|p| |u|]; try (by left). destruct (Hp p eq_refl) as (m2 & Hd & -> & ->).
    left. by rewrite (map_drop_quietly _ _ _ _ Hd).
  - right. by destruct (Hp PDrop eq_refl) as (m2 & Hd & -> & ->).
Qed.

Lemma dclone_ends e os ck cv m r m' : dclone leaky bad e os ck cv m = (r, m') -> r <> Abort ->
  map_clone e os ck cv m = (r, m') \/ r = Panic PDrop.
Proof.
  unfold dclone, map_clone. destruct (map_len e m) as [n| | | |]; try (by left). apply dbuild_ends.
  intros m0 t fl r1 m1 Hrep Hr Hna. unfold sbind, slift in *. destruct (map_root m) as [r0| | | |]; try (injection Hr as <- <-; by eauto).
  split; [by apply dclone_loop_ends|by eapply dclone_loop_rep].
Qed.

Lemma dclone_and_replace_ends e os ck cv m t fl r m' : map_rep m t fl ->
  dclone_and_replace leaky bad e os ck cv m = (r, m') -> r <> Abort ->
  clone_and_replace e os ck cv m = (r, m') \/ (r = Panic PDrop /\ (m' = m \/ clone_and_replace e os ck cv m = (Ret tt, m'))).
Proof.
  intros Hrep. unfold dclone_and_replace, clone_and_replace. destruct (dclone leaky bad e os ck cv m) as [r1 m1] eqn:H1.
  intros Hr Hna. assert (Hna1 : r1 <> Abort) by (intros ->; by injection Hr as <- _).
  destruct (dclone_ends _ _ _ _ _ _ _ H1 Hna1) as [->| ->].
  - destruct r1 as [[]|p| |u|]; try (by left).
    destruct (map_drop_spec e (fun _ => false) m t fl Hrep ltac:(done)) as (m2 & drops & -> & _).
    destruct (map_drop_any e (bad_node bad) m t fl Hrep) as [m3 [Hd|Hd]]; rewrite Hd in Hr.
    + by left.
    + right. destruct (list.last (s_drops (m_nodes m3))) as [n|].
      * destruct (bad (inl (n_key n)) && bad (inr (n_value n))); injection Hr as <- <-; [done|]. auto.
      * injection Hr as <- <-. auto.
  - right. injection Hr as <- <-. auto.
Qed.

(** ** Writing *)

Lemma dwrite_ends p v m r m' : dwrite_value bad p v m = (r, m') ->
  write_value p v m = (r, m') \/ (r = Panic PDrop /\ write_value p v m = (Ret tt, m')).
Proof.
  unfold dwrite_value, write_value, sbind. destruct (on_nodes _ m) as [[x| | | |] m1]; try (by left).
  unfold destroy, sbind, smod. destruct (bad (inr (n_value x))); intros [= <- <-]; auto.
Qed.
Lemma opt_dwrite_ends p v m r m' : opt_dwrite bad p v m = (r, m') ->
  opt_write p v m = (r, m') \/ (r = Panic PDrop /\ opt_write p v m = (Ret tt, m')).
Proof. destruct v as [v|]; [apply dwrite_ends|by left]. Qed.

Lemma dmut_run_ends d evs : forall st r st', dmut_run bad d evs st = (r, st') ->
  mut_run d evs st = (r, st') \/ (r = Panic PDrop /\ exists n, mut_run d (take n evs) st = (Ret tt, st')).
Proof.
  induction evs as [|ev evs IH]; intros st r st' Hr; [by left|]. cbn [dmut_run mut_run] in *.
  destruct (dmut_step bad d ev st) as [r1 st1] eqn:H1. rewrite (sbind_eq _ _ _ _ _ H1) in Hr.
  assert (H2 : mut_step d ev st = (r1, st1) \/ (r1 = Panic PDrop /\ mut_step d ev st = (Ret tt, st1))).
  { destruct ev as [|j w]; [by left|]. cbn [dmut_step mut_step] in *. destruct (mu_yielded st !! j) as [[p z]|]; [|by left].
    destruct (dwrite_value bad p w (mu_map st)) as [r2 m2] eqn:Hw. injection H1 as <- <-.
    destruct (dwrite_ends _ _ _ _ _ Hw) as [->|[-> ->]]; auto. }
  destruct H2 as [H2|[-> H2]].
  - rewrite (sbind_eq _ _ _ _ _ H2). destruct r1 as [[]|p| |u|]; try (by left).
    destruct (IH _ _ _ Hr) as [?|[-> [n Hn]]]; [by left|]. right. split; [done|]. exists (S n). cbn [take mut_run].
    by rewrite (sbind_eq _ _ _ _ _ H2).
  - injection Hr as <- <-. right. split; [done|]. exists 1%nat. cbn [take mut_run]. rewrite take_0. by rewrite (sbind_eq _ _ _ _ _ H2).
Qed.

(** ** One call *)

(** What [c'], without a panic in a destructor, does to [m]. *)
Definition acts e c m r m' c' r' L : Prop :=
  exists m0, exec e c' m = (r', m0) /\ alike m' m0 /\ as_if c r c' r' /\
    m_drops m' ++ L ++ handed c r ≡ₚ m_drops m0 ++ handed c' r' /\ leaked leaky (drop_panics r) L.

Lemma acts_same e c m r m' : exec e c m = (r, m') -> exists c' r' L, acts e c m r m' c' r' L.
Proof. intros H. exists c, r, [], m'. split_and!; try done; [by left|apply leaked_nil]. Qed.
Lemma acts_past e c c' m m' x : part_of c c' -> handed c' (Ret x) = [] -> exec e c' m = (Ret x, m') ->
  exists c' r' L, acts e c m (Panic PDrop) m' c' r' L.
Proof.
  intros Hp Hh H. exists c', (Ret x), [], m'. split_and!; try done.
  - right. split_and!; try done. by exists x.
  - rewrite Hh. done.
  - apply leaked_nil.
Qed.

Lemma dexec_acts e c m t fl r m' : map_rep m t fl -> (c = OClear -> forall y, bad y = false) ->
  dexec leaky bad e c m = (r, m') -> r <> Abort -> exists c' r' L, acts e c m r m' c' r' L.
Proof.
  intros Hrep Hq Hd Hna.
  assert (Hex : forall d evs, match (exec e (OIterMut d evs) m).1 with Ret _ => True | _ => False end).
  { intros d evs. pose proof (exec_cases e (OIterMut d evs) m t fl Hrep) as H.
    destruct (exec e (OIterMut d evs) m) as [[] ?]; try done; destruct H as (? & ? & _ & H & _); done. }
  destruct c as [o k v|o|o|o|o|o|o w|o w| | | | |n| |os it|d n|d evs|path|path w| |os ck cv];
    try (by apply acts_same); cbn [dexec] in Hd.
  - (* insert *)
    destruct (bstmap_insert e o k v m) as [r0 m0] eqn:Hi. pose proof (dinsert_eq e o k v m r0 m0 Hi) as H.
    destruct (dinsert leaky bad e o k v m) as [r1 m1] eqn:H1. rewrite (sbind_eq _ _ _ _ _ H1) in Hd.
    assert (Hsame : r1 = r0 -> m1 = m0 -> exists c' r' L, acts e (OInsert o k v) m r m' c' r' L).
    { intros -> ->. apply acts_same. cbn [exec]. by rewrite (sbind_eq _ _ _ _ _ Hi). }
    destruct r0 as [[old|]|p| |u|]; try (injection H as -> ->; by apply Hsame).
    + destruct (bad (inl k)); [|injection H as -> ->; by apply Hsame].
      destruct (negb leaky && bad (inr old)).
      { cbn [fst] in H. subst r1. by injection Hd as <- _. }
      injection H as -> ->. injection Hd as <- <-.
      exists (OInsert o k v), (Ret (OutValue (Some old))), (if leaky then [inr old] else []), m0.
      split_and!.
      * cbn [exec]. by rewrite (sbind_eq _ _ _ _ _ Hi).
      * by destruct leaky.
      * right. split_and!; try done. by eexists.
      * simpl. destruct leaky; simpl; by rewrite ?app_nil_r.
      * apply leaked_value.
    + destruct (bad (inl k) || bad (inr v)); [|injection H as -> ->; by apply Hsame].
      cbn [fst] in H. subst r1. by injection Hd as <- _.
  - (* remove *)
    unfold dremove in Hd. unfold sbind at 1 in Hd.
    destruct (sbind (map_remove_entry e o) _ m) as [r1 m1] eqn:H1. 
    assert (Hx : exec e (ORemove o) m = match map_remove_entry e o m with
      | (Ret (Some (k, v)), m2) => (Ret (OutValue (Some v)), log_drops [inl k] m2)
      | (Ret None, m2) => (Ret (OutValue None), m2)
      | (Panic p, m2) => (Panic p, m2) | (Abort, m2) => (Abort, m2) | (UB u, m2) => (UB u, m2) | (Diverge, m2) => (Diverge, m2) end).
    { cbn [exec]. unfold map_remove, sbind. by destruct (map_remove_entry e o m) as [[[[]|]| | | |] ?]. }
    unfold sbind in H1. destruct (map_remove_entry e o m) as [[[[k v]|]|p| |u|] m2];
      try (injection H1 as <- <-; injection Hd as <- <-; by apply acts_same).
    rewrite return_past_cases in H1. destruct (bad (inl k)).
    + destruct (negb leaky && bad (inr v)); injection H1 as <- <-; injection Hd as <- <-; [done|].
      exists (ORemove o), (Ret (OutValue (Some v))), (if leaky then [inr v] else []), (log_drops [inl k] m2).
      split_and!; [done|by destruct leaky| |simpl; destruct leaky; simpl; by rewrite ?app_nil_r|apply leaked_value].
      right. split_and!; try done. by eexists.
    + injection H1 as <- <-. injection Hd as <- <-. by apply acts_same.
  - (* get_mut *)
    cbv beta iota delta [sbind sget slift sret] in Hd.
    pose proof (surjective_pairing (exec e (OGetMut o w) m)) as Hx0. set (X := exec e (OGetMut o w) m) in Hx0 at 2 3. assert (Hx : X = exec e (OGetMut o w) m) by done. clearbody X.
    cbn [exec] in Hx. cbv beta iota delta [sbind sget slift sret] in Hx.
    destruct (map_get_mut m o) as [[p|]| | | |]; try (injection Hd as <- <-; rewrite Hx in Hx0; by apply acts_same).
    destruct (nodemut_value m p) as [v| | | |]; try (injection Hd as <- <-; rewrite Hx in Hx0; by apply acts_same).
    destruct (opt_dwrite bad p w m) as [r1 m1] eqn:Hw.
    destruct (opt_dwrite_ends _ _ _ _ _ Hw) as [Hw'|[-> Hw']]; rewrite Hw' in Hx.
    + destruct r1; injection Hd as <- <-; rewrite Hx in Hx0; by apply acts_same.
    + injection Hd as <- <-. rewrite Hx in Hx0. by eapply acts_past.
  - (* get_entry_mut *)
    cbv beta iota delta [sbind sget slift sret] in Hd.
    pose proof (surjective_pairing (exec e (OGetEntryMut o w) m)) as Hx0. set (X := exec e (OGetEntryMut o w) m) in Hx0 at 2 3. assert (Hx : X = exec e (OGetEntryMut o w) m) by done. clearbody X.
    cbn [exec] in Hx. cbv beta iota delta [sbind sget slift sret] in Hx.
    destruct (map_get_entry_mut m o) as [[[k p]|]| | | |]; try (injection Hd as <- <-; rewrite Hx in Hx0; by apply acts_same).
    destruct (nodemut_value m p) as [v| | | |]; try (injection Hd as <- <-; rewrite Hx in Hx0; by apply acts_same).
    destruct (opt_dwrite bad p w m) as [r1 m1] eqn:Hw.
    destruct (opt_dwrite_ends _ _ _ _ _ Hw) as [Hw'|[-> Hw']]; rewrite Hw' in Hx.
    + destruct r1; injection Hd as <- <-; rewrite Hx in Hx0; by apply acts_same.
    + injection Hd as <- <-. rewrite Hx in Hx0. by eapply acts_past.
  - (* clear *)
    assert (Hb : forall n, bad_node bad n = false) by (intros n; unfold bad_node; by rewrite !Hq).
    apply acts_same. cbn [exec].
    destruct (map_clear_spec e (bad_node bad) m t fl Hrep Hb) as (m1 & d1 & Hc & _).
    rewrite (sbind_eq _ _ _ _ _ Hc) in Hd. injection Hd as <- <-.
    rewrite (sbind_eq _ _ _ _ _ (map_clear_quietly _ _ _ _ Hc)). done.
  - (* extend *)
    unfold dextend in Hd. rewrite <- sbind_assoc in Hd.
    assert (Hx : forall it', hint_len it' = hint_len it -> exec e (OExtend os it') m =
      sbind (map_reserve e (hint_len it)) (fun _ => sbind (insert_all e os 0 (ui_items it') (ui_panics it')) (fun _ => sret OutUnit)) m).
    { intros it' Hh. cbn [exec]. unfold map_extend. rewrite <- sbind_assoc. by rewrite Hh. }
    destruct (map_reserve e (hint_len it) m) as [r1 m1] eqn:H1. rewrite (sbind_eq _ _ _ _ _ H1) in Hd.
    destruct r1 as [[]|p| |u|]; try (injection Hd as <- <-; apply acts_same; rewrite Hx by done; by rewrite (sbind_eq _ _ _ _ _ H1)).
    destruct (dinsert_all leaky bad e os 0 (ui_items it) (ui_panics it) m1) as [r2 m2] eqn:H2.
    rewrite (sbind_eq _ _ _ _ _ H2) in Hd. assert (Hna2 : r2 <> Abort) by (intros ->; by injection Hd as <- _).
    destruct (dinsert_all_ends _ _ _ _ _ _ _ _ H2 Hna2) as [H3|(-> & n & m0 & L & H3 & (Hn1 & Hn2 & Hn3))].
    + apply acts_same. rewrite Hx by done. rewrite (sbind_eq _ _ _ _ _ H1). by rewrite (sbind_eq _ _ _ _ _ H3).
    + injection Hd as <- <-. set (it' := mkUserIter (ui_lo it) (ui_hi it) (take n (ui_items it)) false).
      exists (OExtend os it'), (Ret OutUnit), L, m0. split_and!; [|done| | |done].
      * rewrite Hx by done. rewrite (sbind_eq _ _ _ _ _ H1). by rewrite (sbind_eq _ _ _ _ _ H3).
      * right. split_and!; [done|by exists n|by eexists].
      * simpl. by rewrite !app_nil_r, Hn2.
  - (* iter_mut *)
    unfold diter_mut in Hd.
    assert (Hx : forall evs', exec e (OIterMut d evs') m = match iter_mut_program d evs' m with
       | Ret st => (Ret (OutMut (mu_yielded st).*2 (mu_ended st)), mu_map st)
       | Panic p => (Panic p, m) | Abort => (Abort, m) | UB u => (UB u, m) | Diverge => (Diverge, m) end).
    { intros evs'. cbn [exec]. cbv beta iota delta [sbind sget slift smod sret]. by destruct (iter_mut_program d evs' m). }
    unfold iter_mut_program in Hx. pose proof (Hex d evs) as Hex1. rewrite Hx in Hex1.
    destruct (iter_start m d) as [i| | | |]; try done. cbn [rbind] in Hx, Hex1.
    destruct (dmut_run bad d evs (mkMut m i [] 0)) as [r1 st] eqn:H1.
    destruct (dmut_run_ends _ _ _ _ _ H1) as [H2|[-> [n H2]]].
    + rewrite H2 in Hex1. destruct r1 as [[]| | | |]; try done. injection Hd as <- <-. apply acts_same. rewrite Hx, H2. done.
    + injection Hd as <- <-. eapply (acts_past e (OIterMut d evs) (OIterMut d (take n evs))); [by exists n| |rewrite Hx, H2; done]. done.
  - (* walk_mut *)
    cbv beta iota delta [sbind sget slift sret] in Hd.
    pose proof (surjective_pairing (exec e (OWalkMut path w) m)) as Hx0. set (X := exec e (OWalkMut path w) m) in Hx0 at 2 3. assert (Hx : X = exec e (OWalkMut path w) m) by done. clearbody X.
    cbn [exec] in Hx. cbv beta iota delta [sbind sget slift sret] in Hx.
    destruct (map_root_mut m) as [rt| | | |]; try (injection Hd as <- <-; rewrite Hx in Hx0; by apply acts_same).
    destruct (walk_mut m path rt) as [[p|]| | | |]; try (injection Hd as <- <-; rewrite Hx in Hx0; by apply acts_same).
    destruct (show_nodemut m p) as [v| | | |]; try (injection Hd as <- <-; rewrite Hx in Hx0; by apply acts_same).
    destruct (opt_dwrite bad p w m) as [r1 m1] eqn:Hw.
    destruct (opt_dwrite_ends _ _ _ _ _ Hw) as [Hw'|[-> Hw']]; rewrite Hw' in Hx.
    + destruct r1; injection Hd as <- <-; rewrite Hx in Hx0; by apply acts_same.
    + injection Hd as <- <-. rewrite Hx in Hx0. by eapply acts_past.
  - (* clone *)
    destruct (dclone_and_replace leaky bad e os ck cv m) as [r1 m1] eqn:H1. rewrite (sbind_eq _ _ _ _ _ H1) in Hd.
    assert (Hna1 : r1 <> Abort) by (intros ->; by injection Hd as <- _).
    destruct (dclone_and_replace_ends _ _ _ _ _ _ _ _ _ Hrep H1 Hna1) as [H2|[-> [->|H2]]].
    + apply acts_same. cbn [exec]. by rewrite (sbind_eq _ _ _ _ _ H2).
    + injection Hd as <- <-. eapply (acts_past e _ OCapacity); [by right| |done]. done.
    + injection Hd as <- <-. eapply (acts_past e _ (OClone os ck cv)); [by left| |cbn [exec]; by rewrite (sbind_eq _ _ _ _ _ H2)]. done.
Qed.

(** ** Which destructors panicked *)

Definition calm (l : list (K + V)) : Prop := Forall (fun y => bad y = false) l.
Definition stormy (l : list (K + V)) : Prop := exists l1 x l2, l = l1 ++ x :: l2 /\ bad x = true /\ calm (l1 ++ l2).
Definition felt {A} (r : res A) (l : list (K + V)) : Prop := match r with Panic PDrop => stormy l | _ => calm l end.

Lemma calm_stormy l l' : calm l -> stormy l' -> stormy (l ++ l').
Proof.
  intros H (l1 & x & l2 & -> & Hx & Hc). exists (l ++ l1), x, l2. rewrite <- app_assoc. split_and!; try done.
  unfold calm. rewrite <- app_assoc. by apply Forall_app.
Qed.
Lemma calm_felt {A} (r : res A) l l' : calm l -> felt r l' -> felt r (l ++ l').
Proof. intros H H'. destruct r as [|[]| | |]; simpl in *; try (by apply Forall_app); by apply calm_stormy. Qed.
Lemma storm x : bad x = true -> stormy [x].
Proof. intros H. exists [], x, []. split_and!; [done|done|constructor]. Qed.

Lemma on_nodes_log {A} (f : M (slab (inner K V)) A) m r m' : on_nodes f m = (r, m') -> m_drops m' = m_drops m.
Proof. unfold on_nodes, zoom. destruct (f (m_nodes m)). by intros [= _ <-]. Qed.

Definition hushed {A} (f : M (bstmap K V) A) : Prop := forall m r m', f m = (r, m') -> m_drops m' = m_drops m.
Lemma hushed_nodes {A} (f : M (slab (inner K V)) A) : hushed (on_nodes f).
Proof. intros m r m'. apply on_nodes_log. Qed.
Lemma hushed_bind {A B} (f : M (bstmap K V) A) (g : A -> M (bstmap K V) B) : hushed f -> (forall a, hushed (g a)) -> hushed (sbind f g).
Proof.
  intros Hf Hg m r m'. unfold sbind. destruct (f m) as [r1 m1] eqn:H1. apply Hf in H1.
  destruct r1; try (intros [= _ <-]; done). intros H%Hg. congruence.
Qed.
Lemma hushed_ret {A} (a : A) : hushed (sret a).
Proof. by intros m r m' [= _ <-]. Qed.

Lemma push_left_log e n k v m r m' : nodemut_push_left e n k v m = (r, m') -> m_drops m' = m_drops m.
Proof.
  revert m r m'. change (hushed (nodemut_push_left e n k v)). apply hushed_bind; [apply hushed_nodes|]. intros p.
  apply hushed_bind; [|intros; apply hushed_ret]. unfold nodemut_set_left. apply hushed_bind; [apply hushed_nodes|intros; apply hushed_ret].
Qed.
Lemma push_right_log e n k v m r m' : nodemut_push_right e n k v m = (r, m') -> m_drops m' = m_drops m.
Proof.
  revert m r m'. change (hushed (nodemut_push_right e n k v)). apply hushed_bind; [apply hushed_nodes|]. intros p.
  apply hushed_bind; [|intros; apply hushed_ret]. unfold nodemut_set_right. apply hushed_bind; [apply hushed_nodes|intros; apply hushed_ret].
Qed.

Lemma insert_loop_log e o k v fuel : forall i cur m r m', insert_loop e o fuel i k v cur m = (r, m') ->
  m_drops m' = m_drops m ++ match r with Ret (Some _) => [inl k] | _ => [] end.
Proof.
  induction fuel as [|fuel IH]; intros i cur m r m'; cbn [insert_loop]; [intros [= <- <-]; by rewrite app_nil_r|].
  destruct cur as [n|]; [|intros [= <- <-]; by rewrite app_nil_r]. cbv beta iota delta [sbind sget slift sret smod].
  destruct (nodemut_key m n) as [nk| | | |]; try (intros [= <- <-]; by rewrite app_nil_r).
  destruct (ask o i nk) as [c|p| | |]; try (intros [= <- <-]; by rewrite app_nil_r). destruct c.
  - destruct (nodemut_replace_value n v m) as [r1 m1] eqn:H1.
    assert (Hm : m_drops m1 = m_drops m).
    { revert H1. unfold nodemut_replace_value, sbind, on_nodes, zoom, sret. destruct (slab_update n (with_value v) (m_nodes m)) as [[] ?]; by intros [= _ <-]. }
    destruct r1; intros [= <- <-]; rewrite ?app_nil_r; try done. simpl. by rewrite Hm.
  - destruct (nodemut_has_left m n) as [hl| | | |]; try (intros [= <- <-]; by rewrite app_nil_r).
    destruct hl; cbn [negb].
    + destruct (nodemut_left m n) as [cur| | | |]; try (intros [= <- <-]; by rewrite app_nil_r). apply IH.
    + destruct (nodemut_push_left e n k v m) as [r1 m1] eqn:H1. apply push_left_log in H1.
      destruct r1; intros [= <- <-]; by rewrite app_nil_r.
  - destruct (nodemut_has_right m n) as [hl| | | |]; try (intros [= <- <-]; by rewrite app_nil_r).
    destruct hl; cbn [negb].
    + destruct (nodemut_right m n) as [cur| | | |]; try (intros [= <- <-]; by rewrite app_nil_r). apply IH.
    + destruct (nodemut_push_right e n k v m) as [r1 m1] eqn:H1. apply push_right_log in H1.
      destruct r1; intros [= <- <-]; by rewrite app_nil_r.
Qed.

Lemma insert_log e o k v m r m' : bstmap_insert e o k v m = (r, m') ->
  m_drops m' = m_drops m ++ match r with Ret (Some _) => [inl k] | Panic _ => [inl k; inr v] | _ => [] end.
Proof.
  unfold bstmap_insert, on_panic. cbv beta iota delta [sbind sget slift sret smod]. intros H.
  assert (Hp : forall p : panic_reason, map_root_mut m = Panic p -> False).
  { intros p. apply (opt_nodemut_calm m (m_root m)). }
  destruct (map_root_mut m) as [[root|]|p| |u|]; try (injection H as <- <-; by rewrite app_nil_r).
  - destruct (insert_loop e o (map_fuel m) 0 k v (Some root) m) as [r1 m1] eqn:H1. apply insert_loop_log in H1.
    destruct r1 as [[]| | | |]; injection H as <- <-; simpl; by rewrite H1, ?app_nil_r.
  - unfold on_nodes, zoom in H. destruct (slab_push e (inner_new k v) (m_nodes m)) as [[] ?]; injection H as <- <-; simpl; by rewrite ?app_nil_r.
  - by exfalso; eapply Hp.
Qed.

Lemma never_drop_panic e c m t fl m' : map_rep m t fl -> exec e c m <> (Panic PDrop, m').
Proof.
  intros Hrep H. pose proof (exec_cases e c m t fl Hrep) as Hc. rewrite H in Hc. destruct Hc as (t' & fl' & _ & Hs & _).
  assert (Hb : ~ build_stop PDrop) by (by intros [[|[|]]|[|[|]]]).
  assert (Ha : ~ alloc_fail (Some PDrop)) by (by intros [|[|]]).
  destruct c; simpl in Hs; try (by destruct Hs); try (by destruct Hs as (_ & ? & _)).
  - by destruct Hs as [_ [[? _]|[? _]]].
  - by destruct Hs as [_ [?|[? _]]].
  - destruct Hs as [[_ [?|[? _]]]|(n & cap & _ & Hst)]; [done|done|]. by apply stopped_why in Hst.
Qed.

Lemma dinsert_log e o k v m t fl r m' : map_rep m t fl -> dinsert leaky bad e o k v m = (r, m') -> r <> Abort ->
  exists l, m_drops m' = m_drops m ++ l /\ felt r l.
Proof.
  intros Hrep Hd Hna. destruct (bstmap_insert e o k v m) as [r0 m0] eqn:Hi. pose proof (dinsert_eq e o k v m r0 m0 Hi) as H.
  pose proof (insert_log _ _ _ _ _ _ _ Hi) as Hl. rewrite Hd in H. cbn [fst] in H.
  assert (Hp : forall p, r0 = Panic p -> p <> PDrop).
  { intros p -> ->. apply (never_drop_panic e (OInsert o k v) m t fl m0 Hrep). cbn [exec]. by rewrite (sbind_eq _ _ _ _ _ Hi). }
  destruct r0 as [[old|]|p| |u|]; try (injection H as -> ->; eexists; split; [exact Hl|by constructor]).
  - destruct (bad (inl k)) eqn:Hk.
    + destruct (negb leaky && bad (inr old)) eqn:Hb; [by subst|]. injection H as -> ->. simpl. rewrite Hl.
      exists (inl k :: if leaky then [] else [inr old]). split; [by rewrite <- app_assoc|].
      exists [], (inl k), (if leaky then [] else [inr old]). split_and!; [done|done|]. simpl.
      destruct leaky; [constructor|]. simpl in Hb. constructor; [done|constructor].
    + injection H as -> ->. exists [inl k]. split; [done|]. constructor; [done|constructor].
  - destruct (bad (inl k) || bad (inr v)) eqn:Hb; [by subst|]. injection H as -> ->. apply orb_false_iff in Hb as [Hb1 Hb2].
    exists [inl k; inr v]. split; [done|]. specialize (Hp p eq_refl).
    assert (calm [inl k; inr v]) by (constructor; [done|constructor; [done|constructor]]). by destruct p.
Qed.

Lemma destroy_log x m : destroy bad x m = (if bad x then Panic PDrop else Ret tt, log_drops [x] m).
Proof. unfold destroy, sbind, smod. by destruct (bad x). Qed.

Lemma destroy_felt x m r m' : destroy bad x m = (r, m') -> m_drops m' = m_drops m ++ [x] /\ felt r [x].
Proof.
  rewrite destroy_log. intros [= <- <-]. split; [done|]. destruct (bad x) eqn:Hx; [by apply storm|]. constructor; [done|constructor].
Qed.

Lemma destroy_opt_felt v m r m' : destroy_opt bad v m = (r, m') -> exists l, m_drops m' = m_drops m ++ l /\ felt r l.
Proof.
  destruct v as [v|]; cbn [destroy_opt]; [intros H%destroy_felt; eauto|].
  intros [= <- <-]. exists []. rewrite app_nil_r. split; [done|constructor].
Qed.

Lemma dinsert_all_log e os items b : forall j m t fl r m', map_rep m t fl ->
  dinsert_all leaky bad e os j items b m = (r, m') -> r <> Abort -> exists l, m_drops m' = m_drops m ++ l /\ felt r l.
Proof.
  induction items as [|[k v] items IH]; intros j m t fl r m' Hrep Hr Hna; cbn [dinsert_all] in Hr.
  - exists []. rewrite app_nil_r. destruct b; injection Hr as <- <-; (split; [done|constructor]).
  - destruct (dinsert leaky bad e (os j k) k v m) as [r1 m1] eqn:H1. rewrite (sbind_eq _ _ _ _ _ H1) in Hr.
    assert (Hna1 : r1 <> Abort) by (intros ->; by injection Hr as <- _).
    destruct (dinsert_rep _ _ _ _ _ _ _ _ _ Hrep H1 Hna1) as (t1 & fl1 & Hrep1).
    destruct (dinsert_log _ _ _ _ _ _ _ _ _ Hrep H1 Hna1) as (l1 & Hl1 & Hf1).
    destruct r1 as [prev|p| |u|]; try (injection Hr as <- <-; by exists l1).
    destruct (destroy_opt bad prev m1) as [r2 m2] eqn:H2. rewrite (sbind_eq _ _ _ _ _ H2) in Hr.
    pose proof (destroy_opt_rep _ _ _ _ _ _ Hrep1 H2) as Hrep2.
    destruct (destroy_opt_felt _ _ _ _ H2) as (l2 & Hl2 & Hf2).
    destruct r2 as [[]|p| |u|]; try (injection Hr as <- <-; exists (l1 ++ l2); split; [by rewrite Hl2, Hl1, app_assoc|by apply calm_felt]).
    destruct (IH _ _ _ _ _ _ Hrep2 Hr Hna) as (l3 & Hl3 & Hf3). exists (l1 ++ l2 ++ l3).
    split; [by rewrite Hl3, Hl2, Hl1, !app_assoc|]. apply calm_felt; [done|]. by apply calm_felt.
Qed.

Lemma dwrite_log p v m r m' : dwrite_value bad p v m = (r, m') -> exists l, m_drops m' = m_drops m ++ l /\ felt r l.
Proof.
  unfold dwrite_value, sbind, on_nodes, zoom. pose proof (slab_update_calm (m_nodes m) p (with_value v) PDrop) as Hc.
  destruct (slab_update p (with_value v) (m_nodes m)) as [[x|q| |u|] s1];
    try (intros [= <- <-]; exists []; rewrite app_nil_r; split; [done|constructor]).
  - intros H%destroy_felt. eauto.
  - intros [= <- <-]. exists []. rewrite app_nil_r. split; [done|]. destruct q; by try constructor.
Qed.
Lemma opt_dwrite_log p v m r m' : opt_dwrite bad p v m = (r, m') -> exists l, m_drops m' = m_drops m ++ l /\ felt r l.
Proof.
  destruct v as [v|]; [apply dwrite_log|]. intros [= <- <-]. exists []. rewrite app_nil_r. split; [done|constructor].
Qed.

Lemma mut_next_log d st r st' : mut_step d EvNext st = (r, st') -> m_drops (mu_map (K := K) (V := V) st') = m_drops (mu_map st).
Proof.
  cbn [mut_step].
  repeat (match goal with |- context [match ?X with _ => _ end] => destruct X end; try (by intros [= _ <-])).
Qed.

Lemma dmut_run_log d evs : forall st r st', dmut_run bad d evs st = (r, st') -> (forall n, exists s, mut_run d (take n evs) st = (Ret tt, s)) ->
  exists l, m_drops (mu_map st') = m_drops (mu_map st) ++ l /\ felt r l.
Proof.
  induction evs as [|ev evs IH]; intros st r st' Hr Hok.
  { injection Hr as <- <-. exists []. rewrite app_nil_r. split; [done|constructor]. }
  cbn [dmut_run] in Hr. destruct (dmut_step bad d ev st) as [r1 st1] eqn:H1. rewrite (sbind_eq _ _ _ _ _ H1) in Hr.
  destruct (mut_step d ev st) as [r0 st0] eqn:H0.
  assert (Hr0 : r0 = Ret tt).
  { destruct (Hok 1%nat) as [s Hs]. cbn [take mut_run] in Hs. rewrite (sbind_eq _ _ _ _ _ H0) in Hs. by destruct r0 as [[]| | | |]. }
  subst r0.
  assert (H2 : exists l, m_drops (mu_map st1) = m_drops (mu_map st) ++ l /\ felt r1 l).
  { destruct ev as [|j w].
    - cbn [dmut_step] in H1. rewrite H0 in H1. injection H1 as <- <-. apply mut_next_log in H0. exists []. rewrite app_nil_r. split; [done|constructor].
    - cbn [dmut_step] in H1. destruct (mu_yielded st !! j) as [[p z]|].
      + destruct (dwrite_value bad p w (mu_map st)) as [r2 m2] eqn:Hw. injection H1 as <- <-. by apply dwrite_log in Hw.
      + injection H1 as <- <-. exists []. rewrite app_nil_r. split; [done|constructor]. }
  destruct H2 as (l1 & Hl1 & Hf1). destruct r1 as [[]|p| |u|]; try (injection Hr as <- <-; by exists l1).
  assert (Hst : st1 = st0).
  { destruct ev as [|j w]; cbn [dmut_step mut_step] in *; [rewrite H0 in H1; by injection H1|].
    destruct (mu_yielded st !! j) as [[p z]|]; [|rewrite H0 in H1; by injection H1].
    destruct (dwrite_value bad p w (mu_map st)) as [r2 m2] eqn:Hw. injection H1 as -> <-.
    destruct (dwrite_ends _ _ _ _ _ Hw) as [Hw'|[? _]]; [|done]. rewrite Hw' in H0. by injection H0. }
  subst st0. destruct (IH _ _ _ Hr) as (l2 & Hl2 & Hf2).
  { intros n. destruct (Hok (S n)) as [s Hs]. cbn [take mut_run] in Hs. rewrite (sbind_eq _ _ _ _ _ H0) in Hs. by exists s. }
  exists (l1 ++ l2). split; [by rewrite Hl2, Hl1, app_assoc|]. by apply calm_felt.
Qed.

Lemma silent_out e c m t fl r m' : map_rep m t fl -> exec e c m = (r, m') -> m_drops m' = m_drops m ->
  exists l, m_drops m' = m_drops m ++ l /\ stops_at_first bad r l.
Proof.
  intros Hrep Hx Hl. exists []. rewrite app_nil_r. split; [done|].
  destruct r as [|[]| | |]; simpl; try (by constructor). by apply (never_drop_panic e c m t fl m') in Hrep.
Qed.

Lemma hushed_get : hushed (sget (S := bstmap K V)).
Proof. by intros m r m' [= _ <-]. Qed.
Lemma hushed_lift {A} (x : res A) : hushed (slift x).
Proof. unfold slift. intros m r m' [= _ <-]. done. Qed.
Lemma hushed_root p : hushed (smod (set_root p)).
Proof. by intros m r m' [= _ <-]. Qed.
Ltac hush := repeat first [apply hushed_nodes | apply hushed_get | apply hushed_lift | apply hushed_root | apply hushed_ret |
  (apply hushed_bind; [|intros]) | match goal with |- hushed (match ?X with _ => _ end) => destruct X end | progress intros].

Lemma replacement_hushed p : hushed (remove_replacement (K := K) (V := V) p).
Proof. unfold remove_replacement, store_left, store_right. hush. Qed.
Lemma remove_entry_hushed e o : hushed (map_remove_entry (K := K) (V := V) e o).
Proof. unfold map_remove_entry, store_left, store_right. hush. all: apply replacement_hushed. Qed.

(** A call that reads, then writes. *)
Lemma write_felt (x : out K V) p w m r m' : sbind (opt_dwrite bad p w) (fun _ => sret x) m = (r, m') ->
  exists l, m_drops m' = m_drops m ++ l /\ stops_at_first bad r l.
Proof.
  destruct (opt_dwrite bad p w m) as [r1 m1] eqn:H1. rewrite (sbind_eq _ _ _ _ _ H1).
  apply opt_dwrite_log in H1 as (l & Hl & Hf). intros H. exists l. destruct r1; injection H as <- <-; done.
Qed.

Lemma dexec_felt e c m t fl r m' : map_rep m t fl -> no_clone c -> c <> OClear ->
  dexec leaky bad e c m = (r, m') -> r <> Abort -> exists l, m_drops m' = m_drops m ++ l /\ stops_at_first bad r l.
Proof.
  intros Hrep Hnc Hncl Hd Hna.
  assert (Hread : hushed (exec e c) -> exec e c m = (r, m') -> exists l, m_drops m' = m_drops m ++ l /\ stops_at_first bad r l).
  { intros Hh Hx. pose proof (Hh _ _ _ Hx). by eapply silent_out. }
  destruct c as [o k v|o|o|o|o|o|o w|o w| | | | |n| |os it|d n|d evs|path|path w| |os ck cv]; try done; cbn [dexec] in Hd;
    try (apply Hread; [cbn [exec]; unfold map_reserve, map_shrink_to_fit; hush; by apply remove_entry_hushed|exact Hd]).
  - destruct (dinsert leaky bad e o k v m) as [r1 m1] eqn:H1. rewrite (sbind_eq _ _ _ _ _ H1) in Hd.
    assert (Hna1 : r1 <> Abort) by (intros ->; by injection Hd as <- _).
    destruct (dinsert_log _ _ _ _ _ _ _ _ _ Hrep H1 Hna1) as (l & Hl & Hf). exists l.
    destruct r1; injection Hd as <- <-; (split; [done|]); try done.
  - unfold dremove in Hd. rewrite <- sbind_assoc in Hd. destruct (map_remove_entry e o m) as [r1 m1] eqn:H1.
    rewrite (sbind_eq _ _ _ _ _ H1) in Hd. pose proof (remove_entry_hushed _ _ _ _ _ H1) as Hl.
    assert (Hnv1 : r1 <> Panic PDrop).
    { intros ->. apply (never_drop_panic e (ORemoveEntry o) m t fl m1 Hrep). cbn [exec]. by rewrite (sbind_eq _ _ _ _ _ H1). }
    destruct r1 as [[[k v]|]|p| |u|]; try (injection Hd as <- <-; exists []; rewrite app_nil_r; split; [done|by constructor]).
    + rewrite <- sbind_assoc in Hd. unfold sbind at 1 in Hd. rewrite return_past_cases in Hd. destruct (bad (inl k)) eqn:Hk.
      * destruct (negb leaky && bad (inr v)) eqn:Hb; injection Hd as <- <-; [done|]. simpl. rewrite Hl.
        exists (inl k :: if leaky then [] else [inr v]). split; [by rewrite <- app_assoc|].
        exists [], (inl k), (if leaky then [] else [inr v]). split_and!; [done|done|]. simpl.
        destruct leaky; [constructor|]. simpl in Hb. constructor; [done|constructor].
      * injection Hd as <- <-. exists [inl k]. simpl. rewrite Hl. split; [done|]. constructor; [done|constructor].
    + injection Hd as <- <-. exists []. rewrite app_nil_r. split; [done|]. destruct p; simpl; try done; by constructor.
  - pose proof (surjective_pairing (exec e (OGetMut o w) m)) as Hx0. set (X := exec e (OGetMut o w) m) in Hx0 at 2 3. assert (Hx : X = exec e (OGetMut o w) m) by done. clearbody X.
    cbn [exec] in Hx. cbv beta iota delta [sbind sget slift sret] in Hx, Hd.
    destruct (map_get_mut m o) as [[p|]| | | |]; try (injection Hd as <- <-; rewrite Hx in Hx0; by eapply silent_out).
    destruct (nodemut_value m p) as [v| | | |]; try (injection Hd as <- <-; rewrite Hx in Hx0; by eapply silent_out).
    eapply write_felt. unfold sbind. exact Hd.
  - pose proof (surjective_pairing (exec e (OGetEntryMut o w) m)) as Hx0. set (X := exec e (OGetEntryMut o w) m) in Hx0 at 2 3. assert (Hx : X = exec e (OGetEntryMut o w) m) by done. clearbody X.
    cbn [exec] in Hx. cbv beta iota delta [sbind sget slift sret] in Hx, Hd.
    destruct (map_get_entry_mut m o) as [[[k p]|]| | | |]; try (injection Hd as <- <-; rewrite Hx in Hx0; by eapply silent_out).
    destruct (nodemut_value m p) as [v| | | |]; try (injection Hd as <- <-; rewrite Hx in Hx0; by eapply silent_out).
    eapply write_felt. unfold sbind. exact Hd.
  - unfold dextend in Hd. rewrite <- sbind_assoc in Hd.
    destruct (map_reserve e (hint_len it) m) as [r1 m1] eqn:H1. rewrite (sbind_eq _ _ _ _ _ H1) in Hd.
    pose proof (on_nodes_log _ _ _ _ H1) as Hl1.
    assert (Hx : exec e (OReserve (hint_len it)) m = (rmap (fun _ => OutUnit) r1, m1)).
    { cbn [exec]. rewrite (sbind_eq _ _ _ _ _ H1). by destruct r1. }
    destruct r1 as [[]|p| |u|]; try (injection Hd as <- <-; by eapply silent_out).
    destruct (dinsert_all leaky bad e os 0 (ui_items it) (ui_panics it) m1) as [r2 m2] eqn:H2.
    rewrite (sbind_eq _ _ _ _ _ H2) in Hd. assert (Hna2 : r2 <> Abort) by (intros ->; by injection Hd as <- _).
    destruct (exec_rep _ _ _ _ _ _ _ Hrep Hx) as [_ (t1 & fl1 & Hrep1)].
    destruct (dinsert_all_log _ _ _ _ _ _ _ _ _ _ Hrep1 H2 Hna2) as (l & Hl & Hf). exists l.
    destruct r2; injection Hd as <- <-; (split; [by rewrite Hl, Hl1|done]).
  - unfold diter_mut in Hd.
    assert (Hex : forall evs', match (exec e (OIterMut d evs') m).1 with Ret _ => True | _ => False end).
    { intros evs'. pose proof (exec_cases e (OIterMut d evs') m t fl Hrep) as H.
      destruct (exec e (OIterMut d evs') m) as [[] ?]; try done; destruct H as (? & ? & _ & H & _); done. }
    assert (Hx : forall evs', exec e (OIterMut d evs') m = match iter_mut_program d evs' m with
       | Ret st => (Ret (OutMut (mu_yielded st).*2 (mu_ended st)), mu_map st)
       | Panic p => (Panic p, m) | Abort => (Abort, m) | UB u => (UB u, m) | Diverge => (Diverge, m) end).
    { intros evs'. cbn [exec]. cbv beta iota delta [sbind sget slift smod sret]. by destruct (iter_mut_program d evs' m). }
    unfold iter_mut_program in Hx. pose proof (Hex evs) as Hex1. rewrite Hx in Hex1.
    destruct (iter_start m d) as [i| | | |]; try done. cbn [rbind] in Hx.
    destruct (dmut_run bad d evs (mkMut m i [] 0)) as [r1 st] eqn:H1.
    destruct (dmut_run_log _ _ _ _ _ H1) as (l & Hl & Hf).
    { intros n. pose proof (Hex (take n evs)) as H. rewrite Hx in H.
      destruct (mut_run d (take n evs) (mkMut m i [] 0)) as [[[]| | | |] s]; try done. by exists s. }
    exists l. destruct r1; injection Hd as <- <-; done.
  - pose proof (surjective_pairing (exec e (OWalkMut path w) m)) as Hx0. set (X := exec e (OWalkMut path w) m) in Hx0 at 2 3. assert (Hx : X = exec e (OWalkMut path w) m) by done. clearbody X.
    cbn [exec] in Hx. cbv beta iota delta [sbind sget slift sret] in Hx, Hd.
    destruct (map_root_mut m) as [rt| | | |]; try (injection Hd as <- <-; rewrite Hx in Hx0; by eapply silent_out).
    destruct (walk_mut m path rt) as [[p|]| | | |]; try (injection Hd as <- <-; rewrite Hx in Hx0; by eapply silent_out).
    destruct (show_nodemut m p) as [v| | | |]; try (injection Hd as <- <-; rewrite Hx in Hx0; by eapply silent_out).
    eapply write_felt. unfold sbind. exact Hd.
Qed.

Lemma dexec_rep e c m t fl r m' : map_rep m t fl -> (c = OClear -> forall y, bad y = false) ->
  dexec leaky bad e c m = (r, m') -> defined r /\ (r <> Abort -> exists t' fl', map_rep m' t' fl').
Proof.
  intros Hrep Hq Hd. assert (Hc : r = Abort \/ r <> Abort) by (destruct r; auto; by right).
  destruct Hc as [->|Hna]; [done|].
  destruct (dexec_acts _ _ _ _ _ _ _ Hrep Hq Hd Hna) as (c' & r' & L & m0 & Hx & Ha & Has & _).
  destruct (exec_rep _ _ _ _ _ _ _ Hrep Hx) as [Hdef (t' & fl' & Hrep')].
  split; [|exists t', fl'; by eapply alike_rep, Hrep'; apply alike_sym].
  destruct Has as [[_ <-]|[-> _]]; done.
Qed.

End bad.

(** ** Histories *)

Section history.
Variable leaky : bool.

Lemma alike_relog m m' : alike m m' -> m = relog (m_drops m) m'.
Proof. destruct m, m'. intros [? ?]. simpl in *. by subst. Qed.
Lemma alike_gone m m' x y : alike m m' -> m_drops m ++ x ≡ₚ m_drops m' ++ y -> gone m ++ x ≡ₚ gone m' ++ y.
Proof. intros [H _] Hp. unfold gone. rewrite H. rewrite <- !app_assoc, !(Permutation_app_comm (owned _)), !app_assoc. by rewrite Hp. Qed.

Lemma part_no_clone (c c' : op K V) : part_of c c' -> no_clone c -> no_clone c'.
Proof. destruct c; simpl; intros H Hn; try done; first [by subst|by destruct H as [? ->]]. Qed.

Lemma part_legal cmp (c c' : op K V) : part_of c c' -> legal cmp c -> legal cmp c'.
Proof.
  destruct c; simpl; intros H Hn; try (by subst); try (by destruct H as [? ->]). by destruct H as [-> | ->].
Qed.

Lemma drun_as_if e cs : forall m t fl rs m', map_rep m t fl -> Forall quiet_clear cs -> alive rs -> drun leaky e cs m = (rs, m') ->
  exists cs' rs' m0 t' fl', run e cs' m = (rs', m0) /\ alike m' m0 /\ all_as_if cs rs cs' rs' /\ map_rep m' t' fl' /\
    (e_nd e = true -> Forall no_clone cs.*2 -> exists L G B, ledger cs' rs' G B /\ leaked leaky (all_panics rs) L /\
       held t' ++ gone m' ++ all_handed cs rs ++ L ≡ₚ held t ++ gone m ++ G).
Proof.
  induction cs as [|[bad c] cs IH]; intros m t fl rs m' Hrep Hq Ha Hrun; cbn [drun] in Hrun.
  - injection Hrun as <- <-. exists [], [], m, t, fl. split_and!; try done. intros _ _. exists [], [], []. rewrite !app_nil_r. split_and!; [done|apply leaked_nil|done].
  - apply Forall_cons in Hq as [Hq1 Hq]. destruct (dexec leaky bad e c m) as [r m1] eqn:Hd.
    destruct (dexec_rep _ _ _ _ _ _ _ _ _ Hrep Hq1 Hd) as [Hdef Hrep1].
    assert (Hgo : exists rs1, r <> Abort /\ rs = r :: rs1 /\ drun leaky e cs m1 = (rs1, m')).
    { destruct r as [x|p| |u|]; try done.
      - destruct (drun leaky e cs m1) as [rs1 m2]. injection Hrun as <- <-. eauto.
      - destruct (drun leaky e cs m1) as [rs1 m2]. injection Hrun as <- <-. eauto.
      - injection Hrun as <- <-. by apply Forall_cons in Ha as [? _]. }
    clear Hrun. destruct Hgo as (rs1 & Hna & -> & Hr1). apply Forall_cons in Ha as [_ Ha].
    destruct (dexec_acts _ _ _ _ _ _ _ _ _ Hrep Hq1 Hd Hna) as (c1 & r1 & L1 & m01 & Hx & Hal & Has & Hdr & HL1).
    destruct (Hrep1 Hna) as (t1 & fl1 & Hrep1').
    destruct (IH _ _ _ _ _ Hrep1' Hq Ha Hr1) as (cs' & rs' & m02 & t' & fl' & Hrun & Hal2 & Has2 & Hrep2 & Hled).
    destruct (blind_run e cs' (m_drops m01) m1) as [d Hbl].
    assert (Heq : relog (m_drops m01) m1 = m01).
    { symmetry. apply alike_relog. destruct Hal. by split. }
    rewrite Heq, Hrun in Hbl. cbn [fst snd] in Hbl.
    assert (Hr1' : r1 = r \/ exists x, r1 = Ret x) by (destruct Has as [[_ ?]|(_ & _ & ?)]; auto).
    exists (c1 :: cs'), (r1 :: rs'), (relog d m02), t', fl'. split_and!.
    + cbn [run]. rewrite Hx. destruct Hr1' as [->|[x ->]]; [destruct r; try done|]; by rewrite Hbl.
    + done.
    + split; done.
    + done.
    + intros Hnd Hnc. rewrite fmap_cons in Hnc. apply Forall_cons in Hnc as [Hnc1 Hnc].
      destruct (Hled Hnd Hnc) as (L & G & B & HG & HL & Hp).
      assert (Hnc1' : no_clone c1).
      { destruct Has as [[-> _]|(_ & Hpart & _)]; [done|]. by eapply part_no_clone. }
      assert (Hna1 : r1 <> Abort) by (destruct Hr1' as [->|[x ->]]; done).
      destruct (exec_taken _ _ _ _ _ _ _ Hnd Hnc1' Hrep Hx Hna1) as (t01 & fl01 & g & Hrep01 & Htk & Hg).
      pose proof (rep_yields _ _ _ In Hrep01) as Hy1. pose proof (rep_yields _ _ _ In (alike_rep _ _ _ _ Hal Hrep1')) as Hy2.
      assert (Hh : held t01 ≡ₚ held t1).
      { rewrite <- (held_owned t01 In), <- (held_owned t1 In). by rewrite (rep_yields_eq _ _ _ _ _ Hrep01 Hy2). }
      exists (L1 ++ L), (g ++ G), (handed c1 r1 ++ B). split_and!; [by exists g, G, B|by apply leaked_app|].
      cbn [all_handed snd].
      pose proof (alike_gone _ _ _ _ Hal Hdr) as Hgo.
      transitivity (held t' ++ gone m' ++ all_handed cs rs1 ++ L ++ L1 ++ handed c r); [solve_Permutation|].
      transitivity ((held t' ++ gone m' ++ all_handed cs rs1 ++ L) ++ L1 ++ handed c r); [solve_Permutation|].
      rewrite Hp. transitivity (held t1 ++ (gone m1 ++ L1 ++ handed c r) ++ G); [solve_Permutation|].
      rewrite Hgo, <- Hh. transitivity ((held t01 ++ gone m01 ++ handed c1 r1) ++ G); [solve_Permutation|].
      rewrite Hg. solve_Permutation.
Qed.

Lemma drun_defined e cs : forall m t fl rs m', map_rep m t fl -> Forall quiet_clear cs -> drun leaky e cs m = (rs, m') ->
  Forall defined rs.
Proof.
  induction cs as [|[bad c] cs IH]; intros m t fl rs m' Hrep Hq Hrun; cbn [drun] in Hrun; [by injection Hrun as <- <-|].
  apply Forall_cons in Hq as [Hq1 Hq]. destruct (dexec leaky bad e c m) as [r m1] eqn:Hd.
  destruct (dexec_rep _ _ _ _ _ _ _ _ _ Hrep Hq1 Hd) as [Hdef Hrep1].
  destruct r as [x|p| |u|]; try done.
  - destruct (Hrep1 ltac:(done)) as (t1 & fl1 & H1). destruct (drun leaky e cs m1) as [rs1 m2] eqn:Hr. injection Hrun as <- <-.
    constructor; [done|]. by eapply IH.
  - destruct (Hrep1 ltac:(done)) as (t1 & fl1 & H1). destruct (drun leaky e cs m1) as [rs1 m2] eqn:Hr. injection Hrun as <- <-.
    constructor; [done|]. by eapply IH.
  - injection Hrun as <- <-. by constructor.
Qed.

Lemma dfrom_iter_ends bad e os it r m : dfrom_iter leaky bad e os it = (r, m) -> r <> Abort ->
  map_from_iter e os it = (r, m) \/ r = Panic PDrop.
Proof.
  unfold dfrom_iter, map_from_iter. apply dbuild_ends. intros m0 t fl r1 m1 Hrep H Hna.
  split; [|by eapply dinsert_all_rep]. destruct (dinsert_all_ends _ _ _ _ _ _ _ _ _ _ H Hna) as [?|[? _]]; auto.
Qed.

Lemma dbegin_ends bad e (s : start K V) r m : dbegin leaky bad e s = (r, m) -> r <> Abort ->
  begin e s = (r, m) \/ r = Panic PDrop.
Proof. destruct s as [|n|os it]; cbn [dbegin begin]; [by left|by left|apply dfrom_iter_ends]. Qed.

Lemma alike_run e cs m m' rs m1 : alike m m' -> run e cs m = (rs, m1) -> exists m1', run e cs m' = (rs, m1') /\ alike m1 m1'.
Proof.
  intros Hal Hr. destruct (blind_run e cs (m_drops m') m) as [d H]. rewrite Hr in H.
  rewrite <- (alike_relog m' m (alike_sym _ _ Hal)) in H. by eexists.
Qed.

(** ** Theorems *)

Lemma drops_as_if e bad (s : start K V) cs rs m : dreached leaky e bad s cs rs m -> Forall quiet_clear cs -> alive rs ->
  exists cs' rs' m', reached e s cs' rs' m' /\ alive rs' /\ alike m m' /\ all_as_if cs rs cs' rs' /\
    forall cmp, Forall (legal cmp) cs.*2 -> Forall (legal cmp) cs'.
Proof.
  intros (m0 & Hb & Hr) Hq Ha. destruct (dbegin_ends _ _ _ _ _ Hb ltac:(done)) as [Hb'|?]; [|done].
  pose proof (begin_rep e s) as H. rewrite Hb' in H. destruct H as (t & fl & Hrep & _).
  destruct (drun_as_if _ _ _ _ _ _ _ Hrep Hq Ha Hr) as (cs' & rs' & m1 & t' & fl' & H1 & H2 & H3 & _).
  exists cs', rs', m1. split_and!; [by exists m0| |done|done|].
  2: { intros cmp Hleg. clear -H3 Hleg. revert rs cs' rs' H3 Hleg. induction cs as [|c cs IH]; intros rs cs' rs' H Hleg; destruct rs, cs', rs'; try done.
    cbn [all_as_if] in H. destruct H as [H1 H2]. rewrite fmap_cons in Hleg. apply Forall_cons in Hleg as [Hl1 Hl]. constructor; [|by eapply IH].
    destruct H1 as [[-> _]|(_ & Hp & _)]; [done|]. by eapply part_legal. }
  clear -H3 Ha. revert rs cs' rs' H3 Ha. induction cs as [|c cs IH]; intros rs cs' rs' H Ha; destruct rs, cs', rs'; try done.
  cbn [all_as_if] in H. destruct H as [H1 H2]. apply Forall_cons in Ha as [Ha1 Ha]. constructor; [|by eapply IH].
  destruct H1 as [[_ ->]|(_ & _ & x & ->)]; done.
Qed.

Lemma drops_sorted cmp : lawful cmp -> forall e bad (s : start K V) cs rs m l, legal_start cmp s -> Forall (legal cmp) cs.*2 ->
  dreached leaky e bad s cs rs m -> Forall quiet_clear cs -> alive rs -> yields m In l -> sorted cmp l.
Proof.
  intros Hlaw e bad s cs rs m l Hls Hlc Hr Hq Ha Hy.
  destruct (drops_as_if _ _ _ _ _ _ Hr Hq Ha) as (cs' & rs' & m' & Hr' & Ha' & Hal & _ & Hleg).
  assert (Ho : ordered_reachable cmp e m') by (exists s, cs', rs'; auto).
  apply (inorder_sorted cmp Hlaw e m' l Ho).
  assert (Hrep : exists t fl, map_rep m' t fl) by (apply (reachable_rep e); by exists s, cs', rs').
  destruct Hrep as (t & fl & Hrep). pose proof (alike_rep _ _ _ _ (alike_sym _ _ Hal) Hrep) as Hrep2.
  rewrite (rep_yields_eq _ _ _ _ _ Hrep2 Hy). by eapply rep_yields.
Qed.

Lemma drops_safe e bad (s : start K V) cs : Forall quiet_clear cs ->
  defined (dbegin leaky bad e s).1 /\
  forall rs m, dreached leaky e bad s cs rs m -> Forall defined rs /\
    (alive rs -> forall bad', defined (map_drop e (bad_node bad') m).1).
Proof.
  intros Hq. split.
  - destruct (dbegin leaky bad e s) as [r m] eqn:Hb. assert (Hc : r = Abort \/ r <> Abort) by (destruct r; auto; by right).
    destruct Hc as [->|Hna]; [done|]. destruct (dbegin_ends _ _ _ _ _ Hb Hna) as [Hb'| ->]; [|done].
    pose proof (begin_rep e s) as H. rewrite Hb' in H. by destruct r.
  - intros rs m (m0 & Hb & Hr). destruct (dbegin_ends _ _ _ _ _ Hb ltac:(done)) as [Hb'|?]; [|done].
    pose proof (begin_rep e s) as H. rewrite Hb' in H. destruct H as (t & fl & Hrep & _). split; [by eapply drun_defined|].
    intros Ha bad'. destruct (drun_as_if _ _ _ _ _ _ _ Hrep Hq Ha Hr) as (cs' & rs' & m1 & t' & fl' & _ & _ & _ & Hrep' & _).
    by destruct (map_drop_any e (bad_node bad') _ _ _ Hrep') as [m2 [->| ->]].
Qed.

Lemma drops_conserved e bad (s : start K V) cs rs m : e_nd e = true -> Forall no_clone cs.*2 -> Forall quiet_clear cs ->
  dreached leaky e bad s cs rs m -> alive rs ->
  exists cs' rs' G B L, all_as_if cs rs cs' rs' /\ ledger cs' rs' G B /\ leaked leaky (all_panics rs) L /\
    forall d l, yields m d l -> owned l ++ dropped m ++ all_handed cs rs ++ L ≡ₚ start_taken s ++ G.
Proof.
  intros Hnd Hnc Hq (m0 & Hb & Hr) Ha. destruct (dbegin_ends _ _ _ _ _ Hb ltac:(done)) as [Hb'|?]; [|done].
  pose proof (begin_rep e s) as H. rewrite Hb' in H. destruct H as (t & fl & Hrep & _ & H).
  destruct (drun_as_if _ _ _ _ _ _ _ Hrep Hq Ha Hr) as (cs' & rs' & m1 & t' & fl' & H1 & H2 & H3 & Hrep' & H4).
  destruct (H4 Hnd Hnc) as (L & G & B & HG & HL & Hac). exists cs', rs', G, B, L. split_and!; try done.
  intros d l Hy. rewrite (rep_yields_eq _ _ _ _ _ Hrep' Hy), held_owned.
  assert (Hq1 : a_drops (s_items (m_nodes m1)) = []) by (apply (arena_silent e) with s cs' rs'; by exists m0).
  rewrite (dropped_gone m) by (destruct H2 as [-> _]; done). rewrite Hac.
  rewrite app_assoc. f_equiv. destruct s as [|n|os it]; simpl.
  - by destruct H as [-> ->].
  - by destruct H as (-> & -> & _).
  - apply H.
Qed.

Lemma drops_felt e bad (s : start K V) cs rs m bad' c r m' : dreached leaky e bad s cs rs m -> Forall quiet_clear cs -> alive rs ->
  no_clone c -> c <> OClear -> dexec leaky bad' e c m = (r, m') -> r <> Abort ->
  exists l, m_drops m' = m_drops m ++ l /\ stops_at_first bad' r l.
Proof.
  intros (m0 & Hb & Hr) Hq Ha Hnc Hncl Hd Hna. destruct (dbegin_ends _ _ _ _ _ Hb ltac:(done)) as [Hb'|?]; [|done].
  pose proof (begin_rep e s) as H. rewrite Hb' in H. destruct H as (t & fl & Hrep & _).
  destruct (drun_as_if _ _ _ _ _ _ _ Hrep Hq Ha Hr) as (cs' & rs' & m1 & t' & fl' & H1 & H2 & _ & Hrep' & _).
  destruct (dexec_felt _ _ _ _ _ _ _ _ _ Hrep' Hnc Hncl Hd Hna) as (l & Hl & Hf). by exists l.
Qed.

Lemma drops_insert e bad o k v m r0 m0 r m' : exec e (OInsert o k v) m = (r0, m0) -> dexec leaky bad e (OInsert o k v) m = (r, m') ->
  match r0 with
  | Ret (OutValue (Some old)) => ends_past leaky bad (inr old) (inl k) r0 m0 r m'
  | Panic p => if bad (inl k) || bad (inr v) then r = Abort else r = r0 /\ m' = m0
  | _ => r = r0 /\ m' = m0
  end.
Proof.
  cbn [exec dexec]. destruct (bstmap_insert e o k v m) as [x y] eqn:Hi. pose proof (dinsert_eq leaky bad e o k v m x y Hi) as H.
  rewrite (sbind_eq _ _ _ _ _ Hi). destruct (dinsert leaky bad e o k v m) as [x1 y1] eqn:H1. rewrite (sbind_eq _ _ _ _ _ H1).
  intros H2 H3. destruct x as [[old|]|p| |u|]; injection H2 as <- <-; try (injection H as -> ->; by injection H3 as <- <-).
  - unfold ends_past. destruct (bad (inl k)); [|injection H as -> ->; by injection H3 as <- <-].
    destruct (negb leaky && bad (inr old)); [cbn [fst] in H; subst; by injection H3 as <- <-|].
    injection H as -> ->. injection H3 as <- <-. split_and!; [done|by destruct leaky|].
    unfold dropped. simpl. solve_Permutation.
  - destruct (bad (inl k) || bad (inr v)); [cbn [fst] in H; subst; by injection H3 as <- <-|].
    injection H as -> ->. by injection H3 as <- <-.
Qed.

Lemma drops_remove e bad o m r0 m0 r m' : exec e (ORemove o) m = (r0, m0) -> dexec leaky bad e (ORemove o) m = (r, m') ->
  match r0 with
  | Ret (OutValue (Some v)) => exists k m1, exec e (ORemoveEntry o) m = (Ret (OutEntry (Some (k, v))), m1) /\
      ends_past leaky bad (inr v) (inl k) r0 m0 r m'
  | _ => r = r0 /\ m' = m0
  end.
Proof.
  cbn [exec dexec]. unfold map_remove, dremove. rewrite <- !sbind_assoc.
  destruct (map_remove_entry e o m) as [x y] eqn:Hi. rewrite !(sbind_eq _ _ _ _ _ Hi).
  destruct x as [[[k v]|]|p| |u|]; try (intros [= <- <-] [= <- <-]; done).
  intros [= <- <-]. rewrite <- sbind_assoc. unfold sbind at 1. rewrite return_past_cases. intros H. exists k, y. split; [done|]. unfold ends_past.
  destruct (bad (inl k)); [|by injection H as <- <-].
  destruct (negb leaky && bad (inr v)); injection H as <- <-; [done|]. split_and!; [done|by destruct leaky|].
  unfold dropped. simpl. solve_Permutation.
Qed.

Lemma drops_write e bad c m r0 m0 r m' : exec e c m = (r0, m0) -> dexec leaky bad e c m = (r, m') ->
  match c with OGetMut _ _ | OGetEntryMut _ _ | OWalkMut _ _ => True | _ => False end ->
  m' = m0 /\ r = match overwritten c r0 with Some v => if bad (inr v) then Panic PDrop else r0 | None => r0 end.
Proof.
  assert (Hw : forall p w v m r1 m1 r2 m2, nodemut_value m p = Ret v -> opt_write p w m = (r1, m1) -> opt_dwrite bad p w m = (r2, m2) ->
    m2 = m1 /\ r2 = match w with Some _ => if bad (inr v) then match r1 with Ret _ => Panic PDrop | _ => r1 end else r1 | None => r1 end).
  { intros p w v m1 r1 m1' r2 m2 Hv. destruct w as [w|]; cbn [opt_write opt_dwrite]; [|by intros [= <- <-] [= <- <-]].
    unfold write_value, dwrite_value, sbind, on_nodes, zoom. unfold nodemut_value in Hv.
    unfold slab_update, sbind, sget, slift. destruct (slab_get (m_nodes m1) p) as [x| | | |]; try done.
    cbn [rmap rbind] in Hv. injection Hv as <-. 
    destruct (on_items _ (m_nodes m1)) as [[] s1]; try (intros [= <- <-] [= <- <-]; by destruct (bad _)).
    unfold sret. cbv beta iota. rewrite ?destroy_log. intros [= <- <-] [= <- <-]. by destruct (bad _). }
  intros Hx Hd Hc. destruct c as [| | | | | |o w|o w| | | | | | | | | | |path w| |]; try done; cbn [exec dexec] in Hx, Hd;
    cbv beta iota delta [sbind sget slift sret] in Hx, Hd.
  - destruct (map_get_mut m o) as [[p|]| | | |]; try (injection Hx as <- <-; injection Hd as <- <-; by destruct w).
    destruct (nodemut_value m p) as [v| | | |] eqn:Hv; try (injection Hx as <- <-; injection Hd as <- <-; by destruct w).
    destruct (opt_write p w m) as [r1 m1] eqn:H1. destruct (opt_dwrite bad p w m) as [r2 m2] eqn:H2.
    destruct (Hw _ _ _ _ _ _ _ _ Hv H1 H2) as [-> ->].
    destruct w as [w|]; destruct r1; try destruct (bad (inr v)) eqn:Hb; injection Hx as <- <-; injection Hd as <- <-; simpl; by rewrite ?Hb.
  - destruct (map_get_entry_mut m o) as [[[k p]|]| | | |]; try (injection Hx as <- <-; injection Hd as <- <-; by destruct w).
    destruct (nodemut_value m p) as [v| | | |] eqn:Hv; try (injection Hx as <- <-; injection Hd as <- <-; by destruct w).
    destruct (opt_write p w m) as [r1 m1] eqn:H1. destruct (opt_dwrite bad p w m) as [r2 m2] eqn:H2.
    destruct (Hw _ _ _ _ _ _ _ _ Hv H1 H2) as [-> ->].
    destruct w as [w|]; destruct r1; try destruct (bad (inr v)) eqn:Hb; injection Hx as <- <-; injection Hd as <- <-; simpl; by rewrite ?Hb.
  - destruct (map_root_mut m) as [rt| | | |]; try (injection Hx as <- <-; injection Hd as <- <-; by destruct w).
    destruct (walk_mut m path rt) as [[p|]| | | |]; try (injection Hx as <- <-; injection Hd as <- <-; by destruct w).
    destruct (show_nodemut m p) as [[[[k v] hl] hr]| | | |] eqn:Hs; try (injection Hx as <- <-; injection Hd as <- <-; by destruct w).
    assert (Hv : nodemut_value m p = Ret v).
    { revert Hs. unfold show_nodemut, nodemut_key, nodemut_value, nodemut_has_left, nodemut_has_right.
      destruct (slab_get (m_nodes m) p) as [x| | | |]; try done. simpl. by intros [= _ <- _ _]. }
    destruct (opt_write p w m) as [r1 m1] eqn:H1. destruct (opt_dwrite bad p w m) as [r2 m2] eqn:H2.
    destruct (Hw _ _ _ _ _ _ _ _ Hv H1 H2) as [-> ->].
    destruct w as [w|]; destruct r1; try destruct (bad (inr v)) eqn:Hb; injection Hx as <- <-; injection Hd as <- <-; simpl; by rewrite ?Hb.
Qed.

(** ** No destructor panics *)

Section quiet.
Variable bad : K + V -> bool.
Hypothesis Hbad : forall x, bad x = false.

Lemma bad_node_quiet n : bad_node bad n = false.
Proof. unfold bad_node. by rewrite !Hbad. Qed.
Lemma dinsert_quiet e o k v m : dinsert leaky bad e o k v m = bstmap_insert e o k v m.
Proof.
  destruct (bstmap_insert e o k v m) as [r m0] eqn:Hi. pose proof (dinsert_eq leaky bad e o k v m r m0 Hi) as H. rewrite !Hbad in H.
  by destruct r as [[]| | | |].
Qed.
Lemma destroy_opt_quiet v m : destroy_opt bad v m = (Ret tt, log_drops (match v with Some v => [inr v] | None => [] end) m).
Proof. destruct v as [v|]; cbn [destroy_opt]; [by rewrite destroy_log, Hbad|by rewrite log_drops_nil]. Qed.
Lemma dinsert_all_quiet e os items b : forall j m, dinsert_all leaky bad e os j items b m = insert_all e os j items b m.
Proof.
  induction items as [|[k v] items IH]; intros j m; [done|]. cbn [dinsert_all insert_all].
  destruct (bstmap_insert e (os j k) k v m) as [r1 m1] eqn:H1. rewrite (sbind_eq _ _ _ _ _ H1).
  rewrite <- dinsert_quiet in H1. rewrite (sbind_eq _ _ _ _ _ H1). destruct r1 as [prev| | | |]; try done.
  rewrite (sbind_eq _ _ _ _ _ (destroy_opt_quiet prev m1)). unfold sbind, smod. apply IH.
Qed.
Lemma map_drop_quiet e m t fl : map_rep m t fl -> exists m', map_drop e (bad_node bad) m = (Ret tt, m') /\ map_drop e (fun _ => false) m = (Ret tt, m').
Proof.
  intros Hrep. destruct (map_drop_spec e (bad_node bad) m t fl Hrep bad_node_quiet) as (m' & _ & H & _).
  exists m'. split; [done|]. by apply map_drop_quietly in H.
Qed.
Lemma dclone_loop_quiet e os ck cv src fuel : forall j st m, dclone_loop leaky bad e os ck cv src fuel j st m = clone_loop e os ck cv src fuel j st m.
Proof.
  induction fuel as [|fuel IH]; intros j st m; [done|]. cbn [dclone_loop clone_loop].
  destruct st as [|n st]; [done|]. destruct (ck j (node_key n)) as [k|]; [|done]. destruct (cv j (node_value n)) as [v|].
  - destruct (bstmap_insert e (os j k) k v m) as [r1 m1] eqn:H1. rewrite (sbind_eq _ _ _ _ _ H1).
    rewrite <- dinsert_quiet in H1. rewrite (sbind_eq _ _ _ _ _ H1). destruct r1 as [prev| | | |]; try done.
    rewrite (sbind_eq _ _ _ _ _ (destroy_opt_quiet prev m1)). unfold sbind, smod, slift.
    destruct (node_right src n) as [rr| | | |]; try done. destruct (node_left src n) as [ll| | | |]; auto.
  - unfold unwinding, sfail, on_panic. simpl. by rewrite Hbad.
Qed.
Lemma dbuild_quiet e n body body' : (forall m, body m = body' m) ->
  (forall m t fl r1 m1, map_rep m t fl -> body m = (r1, m1) -> r1 <> Abort -> exists t' fl', map_rep m1 t' fl') ->
  dbuild bad e (map_with_capacity e n) body = build e (map_with_capacity e n) body'.
Proof.
  intros Hb Hr. unfold dbuild, build. pose proof (with_capacity_rep e n) as Hw.
  destruct (map_with_capacity e n) as [[[]|p| |u|] m0]; try done. destruct Hw as (t & fl & Hrep).
  rewrite <- Hb. destruct (body m0) as [r1 m1] eqn:H1. destruct r1 as [|p| | |]; try done.
  destruct (Hr _ _ _ _ _ Hrep H1 ltac:(done)) as (t' & fl' & Hrep'). destruct (map_drop_quiet e _ _ _ Hrep') as (m2 & -> & ->). done.
Qed.
Lemma dclone_quiet e os ck cv m : dclone leaky bad e os ck cv m = map_clone e os ck cv m.
Proof.
  unfold dclone, map_clone. destruct (map_len e m) as [n| | | |]; try done. apply dbuild_quiet.
  - intros m1. unfold sbind, slift. destruct (map_root m) as [r0| | | |]; try done. apply dclone_loop_quiet.
  - intros m0 t fl r1 m1 Hrep. unfold sbind, slift. destruct (map_root m) as [r0| | | |]; try (intros [= <- <-]; by eauto). by eapply dclone_loop_rep.
Qed.
Lemma dfrom_iter_quiet e os it : dfrom_iter leaky bad e os it = map_from_iter e os it.
Proof.
  unfold dfrom_iter, map_from_iter. apply dbuild_quiet; [intros; apply dinsert_all_quiet|].
  intros m t fl r1 m1 Hrep. by eapply dinsert_all_rep.
Qed.
Lemma dwrite_quiet p v m : dwrite_value bad p v m = write_value p v m.
Proof.
  unfold dwrite_value, write_value, sbind. destruct (on_nodes _ m) as [[x| | | |] m1]; try done. by rewrite destroy_log, Hbad.
Qed.
Lemma opt_dwrite_quiet p w m : opt_dwrite bad p w m = opt_write p w m.
Proof. destruct w; [apply dwrite_quiet|done]. Qed.
Lemma dmut_run_quiet d evs : forall st, dmut_run bad d evs st = mut_run d evs st.
Proof.
  induction evs as [|ev evs IH]; intros st; [done|]. cbn [dmut_run mut_run].
  assert (H1 : dmut_step bad d ev st = mut_step d ev st).
  { destruct ev as [|j w]; [done|]. cbn [dmut_step mut_step]. destruct (mu_yielded st !! j) as [[p z]|]; [|done]. by rewrite dwrite_quiet. }
  unfold sbind. rewrite H1. destruct (mut_step d ev st) as [[] s1]; try done.
Qed.

Lemma dexec_quiet e c m t fl : map_rep m t fl -> dexec leaky bad e c m = exec e c m.
Proof.
  intros Hrep. destruct c as [o k v|o|o|o|o|o|o w|o w| | | | |n| |os it|d n|d evs|path|path w| |os ck cv]; try done; cbn [dexec exec].
  - unfold sbind. by rewrite dinsert_quiet.
  - unfold dremove, map_remove. rewrite <- !sbind_assoc. destruct (map_remove_entry e o m) as [x y] eqn:Hi. rewrite !(sbind_eq _ _ _ _ _ Hi).
    destruct x as [[[k v]|]| | | |]; try done. rewrite <- !sbind_assoc. unfold sbind at 1. rewrite return_past_cases, Hbad. done.
  - cbv beta iota delta [sbind sget slift sret]. destruct (map_get_mut m o) as [[p|]| | | |]; try done.
    destruct (nodemut_value m p); try done. by rewrite opt_dwrite_quiet.
  - cbv beta iota delta [sbind sget slift sret]. destruct (map_get_entry_mut m o) as [[[k p]|]| | | |]; try done.
    destruct (nodemut_value m p); try done. by rewrite opt_dwrite_quiet.
  - destruct (map_clear_spec e (bad_node bad) m t fl Hrep bad_node_quiet) as (m1 & d1 & Hc & _).
    rewrite (sbind_eq _ _ _ _ _ Hc). by rewrite (sbind_eq _ _ _ _ _ (map_clear_quietly _ _ _ _ Hc)).
  - unfold dextend, map_extend. rewrite <- !sbind_assoc. unfold sbind at 1 3. destruct (map_reserve e (hint_len it) m) as [[] m1]; try done.
    unfold sbind. by rewrite dinsert_all_quiet.
  - pose proof (exec_cases e (OIterMut d evs) m t fl Hrep) as H. revert H. unfold diter_mut. cbn [exec].
    cbv beta iota delta [sbind sget slift smod sret]. unfold iter_mut_program.
    destruct (iter_start m d) as [i| | | |]; try done. cbn [rbind]. rewrite dmut_run_quiet.
    destruct (mut_run d evs (mkMut m i [] 0)) as [[[]| | | |] st]; cbn [rbind]; try done; intros (? & ? & _ & H & _); done.
  - cbv beta iota delta [sbind sget slift sret]. destruct (map_root_mut m) as [rt| | | |]; try done.
    destruct (walk_mut m path rt) as [[p|]| | | |]; try done. destruct (show_nodemut m p); try done. by rewrite opt_dwrite_quiet.
  - unfold sbind. unfold dclone_and_replace, clone_and_replace. rewrite dclone_quiet.
    destruct (map_clone e os ck cv m) as [[] m2]; try done. by destruct (map_drop_quiet e m t fl Hrep) as (m3 & -> & ->).
Qed.

End quiet.

Lemma drun_quiet e cs : (forall x y, x ∈ cs -> x.1 y = false) -> forall m t fl, map_rep m t fl -> drun leaky e cs m = run e cs.*2 m.
Proof.
  induction cs as [|[bad c] cs IH]; intros Hb m t fl Hrep; [done|]. rewrite fmap_cons. cbn [drun run snd].
  rewrite (dexec_quiet bad (fun x => Hb (bad, c) x ltac:(left)) e c m t fl Hrep).
  destruct (exec e c m) as [r m1] eqn:Hx. destruct (exec_rep _ _ _ _ _ _ _ Hrep Hx) as [_ (t1 & fl1 & Hrep1)].
  rewrite (IH (fun x y Hin => Hb x y ltac:(by right)) m1 t1 fl1 Hrep1). done.
Qed.

Lemma drops_quiet e bad (s : start K V) cs rs m : (forall y, bad y = false) -> (forall x y, x ∈ cs -> x.1 y = false) ->
  dreached leaky e bad s cs rs m <-> reached e s cs.*2 rs m.
Proof.
  intros Hb Hcs. assert (Hs : dbegin leaky bad e s = begin e s).
  { destruct s; [done|done|]. cbn [dbegin begin]. by apply dfrom_iter_quiet. }
  unfold dreached, reached. rewrite Hs.
  assert (H : forall m0, begin e s = (Ret tt, m0) -> drun leaky e cs m0 = run e cs.*2 m0).
  { intros m0 H0. pose proof (begin_rep e s) as H. rewrite H0 in H. destruct H as (t & fl & Hrep & _). by eapply drun_quiet. }
  split; intros (m0 & H0 & Hr); exists m0; (split; [done|]); [rewrite <- H by done|rewrite H by done]; done.
Qed.

End history.
End drops.
