(** * Histories of SimpleBSTMap *)

From Coq Require Import String.
From Verif Require Export ProofSimpleOps.

Section exec.
Context {K V : Type}.
Implicit Types t : ptree K V.
Implicit Types m : simple K V.

Lemma simple_mut_run_eq (evs : list (mut_event V)) :
  simple_mut_run (K := K) evs = if calls_next evs then Panic PTodo else Ret (OutMut [] 0).
Proof. induction evs as [|[] evs IH]; [done|done|]. apply IH. Qed.

Lemma tat_erase_show path t m : simple_rep m t ->
  match tat path t with
  | Leaf => tree_show (tree_at path (erase t)) = None
  | Bin l p k v r => exists x, simple_show m p = Ret x /\ tree_show (tree_at path (erase t)) = Some x
  end.
Proof.
  intros H. pose proof (tat_sreadable m path t (simple_readable _ _ H)) as Hr. rewrite <- tat_erase.
  destruct (tat path t) as [|l p k v r]; [done|]. eexists. split; [by eapply simple_show_eq|]. done.
Qed.

Definition sdone (c : op K V) t (x : out K V) m' : Prop :=
  exists t', simple_rep m' t' /\ stree_call c (erase t) = Some (Ret x, erase t').
Definition sstop (c : op K V) t (z : option panic_reason) m' : Prop :=
  (z = None /\ allocates c = true) \/
  exists p t', z = Some p /\ simple_rep m' t' /\ stree_call c (erase t) = Some (Panic p, erase t').

Lemma simple_exec_spec e c m t : simple_rep m t -> simple_has c = true ->
  wp (simple_exec e c) (sdone c t) (sstop c t) m.
Proof.
  intros H Hc. pose proof (simple_nodup _ _ H) as Hnd.
  destruct c as [o k v|o|o|o|o|o|o w|o w| | | | |n| |os it|d n|d evs|path|path w| |os ck cv]; try done; cbn [simple_exec].
  - apply wp_bind. eapply wp_mono; [by apply simple_insert_spec| |].
    + intros y m' (q & t' & Hi & Hr). apply wp_ret. exists t'. split; [done|].
      pose proof (tins_otree o k v q t 0) as Ho. rewrite Hi in Ho. cbn. by rewrite Ho.
    + intros z m' [->|(-> & -> & Hp)]; [by left|right]. eexists _, t. split_and!; [done|done|].
      pose proof (tins_otree o k v (0, 0)%N t 0) as Ho. rewrite Hp in Ho. cbn. by rewrite (proj2 Ho).
  - apply wp_bind. eapply wp_mono; [by apply simple_remove_spec| |].
    + intros y m' (t' & t2 & x & Hi & -> & He & Hr). apply wp_ret. exists t'. split; [done|].
      pose proof (trem_otree o t 0) as Ho. rewrite Hi in Ho. cbn. by rewrite Ho, He.
    + intros z m' [->|(-> & -> & Hp)]; [by left|right]. eexists _, t. split_and!; [done|done|].
      pose proof (trem_otree o t 0) as Ho. rewrite Hp in Ho. cbn. by rewrite (proj2 Ho).
  - apply wp_bind. eapply wp_mono; [by apply simple_remove_entry_spec| |].
    + intros y m' (t' & t2 & x & Hi & -> & He & Hr). apply wp_ret. exists t'. split; [done|].
      pose proof (trem_otree o t 0) as Ho. rewrite Hi in Ho. cbn. by rewrite Ho, He.
    + intros z m' [->|(-> & -> & Hp)]; [by left|right]. eexists _, t. split_and!; [done|done|].
      pose proof (trem_otree o t 0) as Ho. rewrite Hp in Ho. cbn. by rewrite (proj2 Ho).
  - apply wp_bind, wp_get, wp_bind. rewrite (simple_get_eq _ _ _ H). pose proof (tget_otree o t 0) as Ho.
    destruct (tget_cases o t 0) as [[y Hy]|Hy]; rewrite Hy in Ho |- *; cbn [rmap].
    + eapply wp_lift_ret; [done|]. apply wp_ret. exists t. split; [done|]. cbn. rewrite Ho. simpl. by destruct y.
    + apply wp_fail. right. eexists _, t. split_and!; [done|done|]. cbn. by rewrite (proj2 Ho).
  - apply wp_bind, wp_get, wp_bind. rewrite (simple_get_entry_eq _ _ _ H). pose proof (tget_otree o t 0) as Ho.
    destruct (tget_cases o t 0) as [[y Hy]|Hy]; rewrite Hy in Ho |- *; cbn [rmap].
    + eapply wp_lift_ret; [done|]. apply wp_ret. exists t. split; [done|]. cbn. by rewrite Ho.
    + apply wp_fail. right. eexists _, t. split_and!; [done|done|]. cbn. by rewrite (proj2 Ho).
  - apply wp_bind, wp_get, wp_bind. rewrite (simple_contains_eq _ _ _ H). pose proof (tget_otree o t 0) as Ho.
    destruct (tget_cases o t 0) as [[y Hy]|Hy]; rewrite Hy in Ho |- *; cbn [rmap].
    + eapply wp_lift_ret; [done|]. apply wp_ret. exists t. split; [done|]. cbn. rewrite Ho. simpl. by destruct y.
    + apply wp_fail. right. eexists _, t. split_and!; [done|done|]. cbn. by rewrite (proj2 Ho).
  - apply wp_bind, wp_get, wp_bind. rewrite (simple_get_mut_eq _ _ _ H). pose proof (tget_otree o t 0) as Ho.
    destruct (tget_cases o t 0) as [[y Hy]|Hy]; rewrite Hy in Ho |- *; cbn [rmap].
    + eapply wp_lift_ret; [done|]. destruct y as [[p [k v]]|]; cbn [fmap option_fmap option_map fst].
      * pose proof (tget_in _ _ _ _ Hy) as Hin. rewrite ppre_nodes in Hin. apply elem_of_list_fmap in Hin as ([q n] & Heq & Hin). simpl in Heq. injection Heq as -> -> ->.
        apply wp_bind. eapply wp_lift_ret; [by apply (simple_readable _ _ H)|]. apply wp_bind.
        assert (Hgo : forall m' t', simple_rep m' t' -> erase t' = (match w with Some w => otree_set o 0 w (erase t) | None => erase t end) ->
          sdone (OGetMut o w) t (OutValue (Some (n_value n))) m').
        { intros m' t' Hr He. exists t'. split; [done|]. cbn. rewrite Ho. cbn. by rewrite He. }
        unfold opt_poke. destruct w as [w|].
        -- eapply wp_mono; [by eapply simple_write| |done]. intros [] m' Hr. apply wp_ret. eapply Hgo; [done|].
           by rewrite <- (tset_otree o w t Hnd 0 _ Hy).
        -- apply wp_ret, wp_ret. by eapply Hgo.
      * apply wp_ret. exists t. split; [done|]. cbn. rewrite Ho. cbn. destruct w as [w|]; [|done].
        pose proof (otree_set_idle o w (erase t) 0) as Hid. rewrite Ho in Hid. cbn in Hid. by rewrite Hid.
    + apply wp_fail. right. eexists _, t. split_and!; [done|done|]. cbn. rewrite (proj2 Ho). destruct w as [w|]; [|done].
      pose proof (otree_set_idle o w (erase t) 0) as Hid. rewrite (proj2 Ho) in Hid. by rewrite Hid.
  - apply wp_bind, wp_get, wp_ret. exists t. split; [done|]. cbn. unfold simple_len.
    destruct H as (_ & _ & _ & -> & _). by rewrite erase_size.
  - apply wp_bind, wp_get, wp_bind. eapply wp_lift_ret; [by eapply simple_is_empty_eq|]. apply wp_ret.
    exists t. split; [done|]. cbn. by destruct t.
  - apply wp_bind. eapply wp_mono; [by eapply simple_clear_spec| |done].
    intros [] m' Hr. apply wp_ret. by exists Leaf.
  - apply wp_bind. unfold simple_extend. eapply wp_mono; [by apply simple_insert_all_spec| |].
    + intros [] m' (Hp & t' & Ho & Hr). apply wp_ret. exists t'. split; [done|]. cbn. by rewrite Ho, Hp.
    + intros z m' [->|(t' & Hr & [(-> & Hp & Ho)|[-> Ho]])]; [by left|right..]; eexists _, t'; split_and!; try done; cbn; rewrite Ho; [by rewrite Hp|done].
  - apply wp_bind, wp_get, wp_bind. destruct (simple_iter_start_spec m t d H) as (stk & Hs & Hok).
    eapply wp_lift_ret; [done|]. apply wp_bind. eapply wp_lift_ret; [by eapply simple_nexts_spec|]. apply wp_ret.
    exists t. split; [done|]. cbn. by rewrite porder_erase.
  - rewrite simple_mut_run_eq. cbn [stree_call]. unfold sdone, sstop. cbn [stree_call]. destruct (calls_next evs).
    + apply wp_fail. right. by eexists _, t.
    + eapply wp_lift_ret; [done|]. by exists t.
  - apply wp_bind, wp_get, wp_bind. rewrite (simple_root_ret _ _ H).
    eapply wp_lift_ret; [apply simple_walk_eq; by apply simple_readable|].
    pose proof (tat_erase_show path t m H) as Hw. destruct (tat path t) as [|l p k v r]; cbn [rootp].
    + apply wp_ret. exists t. split; [done|]. cbn. by rewrite Hw.
    + destruct Hw as (x & Hx & Hw). apply wp_bind. eapply wp_lift_ret; [done|]. apply wp_ret. exists t. split; [done|].
      cbn. by rewrite Hw.
  - apply wp_bind, wp_get, wp_bind. rewrite (simple_root_ret _ _ H).
    eapply wp_lift_ret; [apply simple_walk_eq; by apply simple_readable|].
    pose proof (tat_erase_show path t m H) as Hw.
    pose proof (fun w => tset_erase_at path w t Hnd) as Hset.
    pose proof (fun w => tree_at_inorder path w (erase t)) as Hidle. rewrite <- tat_erase in Hidle.
    pose proof (tat_in path t) as Hin.
    destruct (tat path t) as [|l p k v r] eqn:Hat; cbn [rootp].
    + apply wp_ret. exists t. split; [done|]. cbn. rewrite Hw. destruct w as [w|]; [|done]. by rewrite Hidle.
    + destruct Hw as (x & Hx & Hw). apply wp_bind. eapply wp_lift_ret; [done|]. apply wp_bind.
      unfold opt_poke. destruct w as [w|].
      * eapply wp_mono; [eapply simple_write; [done|]; apply Hin; left| |done].
        intros [] m' Hr. apply wp_ret. exists (tset p w t). split; [done|]. cbn. by rewrite Hw, Hset.
      * apply wp_ret, wp_ret. exists t. split; [done|]. cbn. by rewrite Hw.
  - apply wp_bind, wp_get, wp_bind. eapply wp_lift_ret.
    { unfold simple_debug. rewrite (simple_root_ret _ _ H).
      rewrite (box_debug_eq m t (simple_fuel m) (simple_readable _ _ H) (simple_fuel_height _ _ H)). done. }
    apply wp_ret. exists t. split; [done|]. cbn. destruct H as (_ & _ & _ & -> & _). by rewrite erase_size.
  - unfold wp. pose proof (simple_clone_spec e ck cv m t H) as Hcl.
    pose proof (simple_drop_spec m t H) as Hd. unfold wp in Hd.
    unfold sdone, sstop. cbn [stree_call].
    destruct (simple_clone e ck cv m) as [[[]|p| |u|] m2]; try done.
    + destruct Hcl as (t' & Hr & Ht'). destruct (simple_drop m) as [[[]|p| |u|] m1]; try done.
      exists t'. split; [done|]. by rewrite Ht'.
    + destruct Hcl as [-> Ht']. right. eexists _, t. split_and!; [done|done|]. by rewrite Ht'.
    + by left.
Qed.

(** ** Histories with any comparator *)

Lemma simple_exec_cases e c m t r m' : simple_rep m t -> simple_has c = true -> simple_exec e c m = (r, m') ->
  (r = Abort /\ allocates c = true) \/
  exists t', simple_rep m' t' /\ stree_call c (erase t) = Some (r, erase t') /\ ((exists x, r = Ret x) \/ exists p, r = Panic p).
Proof.
  intros H Hc He. pose proof (simple_exec_spec e c m t H Hc) as Hs. unfold wp in Hs. rewrite He in Hs.
  destruct r as [x|p| |u|]; try done.
  - destruct Hs as (t' & ? & ?). right. exists t'. eauto.
  - destruct Hs as [[? _]|(p' & t' & [= <-] & ? & ?)]; [done|]. right. exists t'. eauto.
  - destruct Hs as [[_ ?]|(p' & t' & ? & _)]; [by left|done].
Qed.

Lemma simple_run_steps e cs : forall m t rs m', simple_rep m t -> Forall (fun c => simple_has c = true) cs ->
  simple_run e cs m = (rs, m') ->
  exists u, steps stree_step (erase t) cs rs u /\ (alive rs -> exists t', simple_rep m' t' /\ erase t' = u).
Proof.
  induction cs as [|c cs IH]; intros m t rs m' H Hcs Hrun; cbn [simple_run] in Hrun.
  - injection Hrun as <- <-. exists (erase t). split; [done|]. intros _. by exists t.
  - apply Forall_cons in Hcs as [Hc Hcs]. destruct (simple_exec e c m) as [r m1] eqn:He.
    destruct (simple_exec_cases e c m t r m1 H Hc He) as [[-> Ha]|(t1 & H1 & Hst & Hr)].
    + injection Hrun as <- <-. exists (erase t). split; [exists (erase t); split; [by right|done]|].
      intros Hal. by apply Forall_cons in Hal as [? _].
    + destruct (simple_run e cs m1) as [rs1 m2] eqn:Hrun1. destruct (IH m1 t1 rs1 m2 H1 Hcs Hrun1) as (u & Hu & Hfin).
      exists u. destruct Hr as [[x ->]|[p ->]]; injection Hrun as <- <-.
      * split; [exists (erase t1); split; [by left|done]|]. intros Hal. apply Forall_cons in Hal as [_ Hal]. by apply Hfin.
      * split; [exists (erase t1); split; [by left|done]|]. intros Hal. apply Forall_cons in Hal as [_ Hal]. by apply Hfin.
Qed.

Lemma simple_new_rep : simple_rep (@simple_new K V) Leaf.
Proof. split_and!; [split; [constructor|done]|by left|set_solver|done|done]. Qed.

Lemma simple_begin_spec e (s : start K V) : simple_has_start s = true ->
  match simple_begin e s with
  | (Ret _, m) => exists t, simple_rep m t /\ otree_start s (erase t)
  | (Panic p, _) => match s with
                    | SFromIter os it => (p = PIter /\ ui_panics it = true /\ (otree_insert_all os 0 (ui_items it) tleaf).2 = true) \/
                                         (p = PCmp /\ (otree_insert_all os 0 (ui_items it) tleaf).2 = false)
                    | _ => False end
  | (Abort, _) => True
  | _ => False
  end.
Proof.
  destruct s as [|n|os it]; intros Hs; [|done|].
  - cbn. exists Leaf. split; [apply simple_new_rep|done].
  - cbn [simple_begin]. unfold simple_from_iter.
    pose proof (simple_insert_all_spec e os (ui_panics it) (ui_items it) 0 simple_new Leaf simple_new_rep) as H.
    unfold wp in H. destruct (simple_insert_all e os 0 (ui_items it) (ui_panics it) simple_new) as [[[]|p| |u|] m]; try done.
    + destruct H as (Hp & t & Ht & Hr). exists t. done.
    + cbn [erase] in H. destruct H as [?|(t & _ & [([= ->] & Hp & Ho)|([= ->] & Ho)])]; [done|left|right]; by rewrite Ho.
Qed.

Lemma simple_any_comparator e (s : start K V) cs rs m : simple_has_start s = true -> Forall (fun c => simple_has c = true) cs ->
  simple_reached e s cs rs m ->
  exists t0 t : tree K V, otree_start s t0 /\ steps stree_step t0 cs rs t /\
    (alive rs -> exists pt, simple_rep m pt /\ erase pt = t).
Proof.
  intros Hs Hcs (m0 & Hb & Hr). pose proof (simple_begin_spec e s Hs) as H. rewrite Hb in H. destruct H as (t & Hrep & Hst).
  destruct (simple_run_steps e cs m0 t rs m Hrep Hcs Hr) as (u & Hu & Hfin). by exists (erase t), u.
Qed.

Lemma simple_reachable_rep e m : simple_reachable e m -> exists t, simple_rep m t.
Proof.
  intros (s & cs & rs & Hs & Hcs & Hr & Hal). destruct (simple_any_comparator e s cs rs m Hs Hcs Hr) as (t0 & t & _ & _ & H).
  destruct (H Hal) as (pt & ? & _). by exists pt.
Qed.

Lemma first_calls_same {A} (l l' : list A) : (forall n, first_calls n l = first_calls n l') -> l = l'.
Proof.
  revert l'. induction l as [|x l IH]; intros [|y l'] H; [done|specialize (H 1); done..|].
  pose proof (H 1) as H1. simpl in H1. injection H1 as ->. f_equal. apply IH. intros n. specialize (H (S n)). by injection H.
Qed.

Lemma simple_yields_fun m t d l : simple_rep m t -> simple_yields m d l -> l = tree_order d (erase t).
Proof.
  intros H Hy. pose proof (simple_rep_yields m t d H) as Ht.
  apply (first_calls_same l (tree_order d (erase t))). intros n.
  destruct (Hy n) as (it & Hi & Hn). destruct (Ht n) as (it' & Hi' & Hn'). rewrite Hi in Hi'. injection Hi' as <-.
  rewrite Hn in Hn'. by injection Hn'.
Qed.

Lemma stree_call_stop c (t t' : tree K V) p : stree_call c t = Some (Panic p, t') -> simple_stop c p.
Proof.
  destruct c as [o k v|o|o|o|o|o|o w|o w| | | | |n| |os it|d n|d evs|path|path w| |os ck cv]; cbn; try done; unfold or_panic.
  - destruct (otree_insert o 0 k v t); naive_solver.
  - destruct (otree_remove o 0 t); naive_solver.
  - destruct (otree_remove o 0 t); naive_solver.
  - destruct (otree_find o 0 t); naive_solver.
  - destruct (otree_find o 0 t); naive_solver.
  - destruct (otree_find o 0 t); naive_solver.
  - destruct (otree_find o 0 t); naive_solver.
  - destruct (otree_insert_all os 0 (ui_items it) t) as [? []], (ui_panics it); naive_solver.
  - destruct (calls_next evs); naive_solver.
  - destruct (tree_clone ck cv 0 t); naive_solver.
Qed.

Lemma simple_step_ends e c m r m' : simple_reachable e m -> simple_has c = true -> simple_exec e c m = (r, m') ->
  (exists x, r = Ret x) \/ (exists p, r = Panic p /\ simple_stop c p) \/ (r = Abort /\ allocates c = true).
Proof.
  intros (t & H)%simple_reachable_rep Hc He.
  destruct (simple_exec_cases e c m t r m' H Hc He) as [Ha|(t' & _ & Hs & [Hr|[p ->]])]; [auto..|].
  right. left. exists p. split; [done|]. by eapply stree_call_stop.
Qed.

Lemma simple_run_app e cs c : forall m rs m1, simple_run e cs m = (rs, m1) -> alive rs ->
  Forall (fun r => (exists x, r = Ret x) \/ exists p, r = Panic p) rs ->
  forall r m2, simple_exec e c m1 = (r, m2) -> simple_run e (cs ++ [c]) m = (rs ++ [r], m2).
Proof.
  induction cs as [|c0 cs IH]; intros m rs m1 Hrun Hal Hok r m2 He.
  - injection Hrun as <- <-. cbn [app simple_run]. rewrite He. by destruct r.
  - cbn [app simple_run] in Hrun |- *. destruct (simple_exec e c0 m) as [r0 m0] eqn:He0.
    destruct (simple_run e cs m0) as [rs1 m3] eqn:Hrun1.
    destruct r0 as [x|p| |u|].
    + injection Hrun as <- <-. apply Forall_cons in Hal as [_ Hal]. apply Forall_cons in Hok as [_ Hok].
      by rewrite (IH m0 rs1 m3 Hrun1 Hal Hok r m2 He).
    + injection Hrun as <- <-. apply Forall_cons in Hal as [_ Hal]. apply Forall_cons in Hok as [_ Hok].
      by rewrite (IH m0 rs1 m3 Hrun1 Hal Hok r m2 He).
    + injection Hrun as <- <-. by apply Forall_cons in Hal as [? _].
    + injection Hrun as <- <-. apply Forall_cons in Hok as [[[? ?]|[? ?]] _]; done.
    + injection Hrun as <- <-. apply Forall_cons in Hok as [[[? ?]|[? ?]] _]; done.
Qed.

Lemma steps_ends {S C X} (step : S -> C -> res X -> S -> Prop) cs : forall s rs s', steps step s cs rs s' -> alive rs ->
  Forall (fun r => (exists x, r = Ret x) \/ exists p, r = Panic p) rs.
Proof.
  induction cs as [|c cs IH]; intros s [|r rs] s'; simpl; try done.
  intros (s1 & _ & H) Hal. apply Forall_cons in Hal as [Hr Hal]. destruct r; try done; constructor; eauto.
Qed.

Lemma simple_reachable_step e c m r m' : simple_reachable e m -> simple_has c = true -> simple_exec e c m = (r, m') ->
  r <> Abort -> simple_reachable e m'.
Proof.
  intros (s & cs & rs & Hs & Hcs & Hr & Hal) Hc He Hna.
  destruct (simple_any_comparator e s cs rs m Hs Hcs Hr) as (t0 & t & _ & Hst & _).
  destruct Hr as (m0 & Hb & Hrun). exists s, (cs ++ [c]), (rs ++ [r]). split_and!; [done| | |].
  - apply Forall_app. split; [done|]. by constructor.
  - exists m0. split; [done|]. eapply simple_run_app; [done|done|by eapply steps_ends|done].
  - apply Forall_app. split; [done|]. by constructor.
Qed.

(** ** Ownership of the nodes *)
Lemma simple_rep_nodes m t : simple_rep m t -> size (s_mem m) = tsize t /\ s_len m = N.of_nat (tsize t).
Proof.
  intros H. split; [|apply H]. pose proof (simple_fuel_size m t H) as Hf. unfold simple_fuel in Hf. lia.
Qed.

Lemma simple_no_leak e m : simple_reachable e m ->
  s_len m = N.of_nat (size (s_mem m)) /\
  (exists l, simple_yields m In l /\ length l = size (s_mem m)) /\
  exists m', simple_drop m = (Ret tt, m') /\ s_mem m' = ∅.
Proof.
  intros (t & H)%simple_reachable_rep. destruct (simple_rep_nodes m t H) as [-> ->]. split; [done|]. split.
  - exists (tree_inorder (erase t)). split; [by apply (simple_rep_yields m t In)|by rewrite erase_size].
  - pose proof (simple_drop_spec m t H) as Hd. unfold wp in Hd.
    destruct (simple_drop m) as [[[]|p| |u|] m']; try done. exists m'. split; [done|]. by destruct Hd as [_ Hd].
Qed.

End exec.
