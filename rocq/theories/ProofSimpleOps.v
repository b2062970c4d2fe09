(** * The other calls of SimpleBSTMap, and its histories *)

From Coq Require Import String.
From Verif Require Export SpecSimple ProofSimple.

Section ops.
Context {K V : Type}.
Implicit Types t s l r x : ptree K V.
Implicit Types m src : simple K V.
Implicit Types ns F : list (Ptr * inner K V).

(** ** Writing a value *)

Lemma hrep_write m t p n (w : V) : hrep m (nodes t) -> (p, n) ∈ nodes t ->
  wp (poke p (with_value w)) (fun _ m' => hrep m' (nodes (tset p w t)) /\ s_len m' = s_len m) (fun _ _ => False) m.
Proof.
  intros H Hin. apply elem_of_Permutation in Hin as [ns Hp].
  eapply wp_mono; [eapply poke_spec; [exact H|exact Hp]| |done].
  intros [] m' [H1 Hl]. split; [|done]. eapply hrep_perm; [|exact H1].
  rewrite nodes_tset, Hp. cbn [fmap list_fmap]. unfold nset at 1. simpl. rewrite decide_True by done.
  f_equiv. apply hrep_nodup in H. rewrite Hp in H. apply NoDup_cons in H as [Hnin _]. simpl in Hnin.
  clear -Hnin. induction ns as [|[q n'] ns IH]; [done|]. cbn [fmap list_fmap] in *. unfold nset at 1. simpl.
  rewrite decide_False by set_solver. f_equiv. apply IH. set_solver.
Qed.

Lemma simple_write m t p n (w : V) : simple_rep m t -> (p, n) ∈ nodes t ->
  wp (poke p (with_value w)) (fun _ m' => simple_rep m' (tset p w t)) (fun _ _ => False) m.
Proof.
  intros (H & Hroot & Hrc & Hlen & Hsz) Hin. eapply wp_mono; [by eapply hrep_write| |done].
  intros [] m' [H1 Hl]. split_and!; [done| |by rewrite ptrs_tset|by rewrite tset_size, Hl|by rewrite tset_size].
  destruct Hroot as [->|Hroot]; [by left|right]. by rewrite tset_rootp.
Qed.

(** ** Destructors *)

Lemma drop_box_spec s : forall fuel m ns F, hrep m ns -> ns ≡ₚ nodes s ++ F -> pheight s < fuel ->
  wp (drop_box fuel (rootp s)) (fun _ m' => hrep m' F /\ s_len m' = s_len m) (fun _ _ => False) m.
Proof.
  induction s as [|l IHl p k v r IHr]; intros [|fuel] m ns F H Hp Hf; simpl in Hf; try lia; cbn [drop_box rootp].
  - apply wp_ret. split; [|done]. by eapply hrep_perm.
  - apply wp_bind, wp_get, wp_bind. cbn [nodes app] in Hp.
    eapply wp_lift_ret; [eapply hrep_peek; [exact H|rewrite Hp; left]|]. cbn [n_left n_right].
    apply wp_bind. eapply wp_mono; [eapply (IHl fuel m ns ((p, mkInner k v (rootp l) (rootp r)) :: nodes r ++ F)); [exact H| |lia]| |done].
    { rewrite Hp. simpl. solve_Permutation. }
    intros [] m1 [H1 Hl1]. apply wp_bind.
    eapply wp_mono; [eapply (IHr fuel m1 _ ((p, mkInner k v (rootp l) (rootp r)) :: F)); [exact H1| |lia]| |done].
    { solve_Permutation. }
    intros [] m2 [H2 Hl2]. apply wp_bind. unfold unbox.
    eapply wp_mono; [eapply move_out_spec; [exact H2|reflexivity]| |done].
    intros y m3 (_ & H3 & Hl3). apply wp_ret. split; [done|]. congruence.
Qed.

Lemma simple_drop_spec m t : simple_rep m t ->
  wp simple_drop (fun _ m' => hrep m' []) (fun _ _ => False) m.
Proof.
  intros H. unfold simple_drop. apply wp_bind, wp_get. rewrite (simple_root_ret _ _ H).
  eapply wp_mono; [eapply (drop_box_spec t _ m _ []); [apply H|by rewrite app_nil_r|by apply simple_fuel_height]| |done].
  by intros [] m' [? _].
Qed.

Lemma simple_clear_spec m t : simple_rep m t ->
  wp simple_clear (fun _ m' => simple_rep m' Leaf) (fun _ _ => False) m.
Proof.
  intros H. unfold simple_clear. apply wp_bind. eapply wp_mono; [by eapply simple_drop_spec| |done].
  intros [] m' Hr. apply wp_mod. split_and!; [by eapply hrep_same; [|exact Hr]|by left|set_solver|done|done].
Qed.

(** ** extend *)

Lemma simple_insert_all_spec e os panics items : forall j m t, simple_rep m t ->
  wp (simple_insert_all e os j items panics)
    (fun _ m' => panics = false /\ exists t', otree_insert_all os j items (erase t) = (erase t', true) /\ simple_rep m' t')
    (fun z m' => z = None \/ exists t', simple_rep m' t' /\
       ((z = Some PIter /\ panics = true /\ otree_insert_all os j items (erase t) = (erase t', true)) \/
        (z = Some PCmp /\ otree_insert_all os j items (erase t) = (erase t', false)))) m.
Proof.
  induction items as [|[k v] items IH]; intros j m t H; cbn [simple_insert_all otree_insert_all].
  - destruct panics; [apply wp_fail; right; exists t; eauto|apply wp_ret; eauto].
  - apply wp_bind. eapply wp_mono; [by apply simple_insert_spec| |].
    + intros y m1 (q & t1 & Hi & H1). pose proof (tins_otree (os j k) k v q t 0) as Ho. rewrite Hi in Ho. rewrite Ho.
      by apply IH.
    + intros z m1 [->|(-> & -> & Hp)]; [by left|right]. exists t. split; [done|]. right. split; [done|].
      pose proof (tins_otree (os j k) k v (0, 0)%N t 0) as Ho. rewrite Hp in Ho. by rewrite (proj2 Ho).
Qed.

(** ** clone *)

Lemma clone_box_spec e src ck cv s : forall fuel j m0 ns, sreadable src s -> pheight s < fuel -> hrep m0 ns ->
  wp (clone_box e src ck cv fuel (rootp s))
    (fun y st => exists x, y = val x /\ tree_clone ck cv j (erase s) = Some (erase x) /\ st.1 = j + tsize s /\
       hrep st.2 (below x ++ ns) /\ forall q, q ∈ (below x).*1 -> q.1 = 0%N)
    (fun z st => z = None \/ (z = Some PClone /\ tree_clone ck cv j (erase s) = None)) (j, m0).
Proof.
  induction s as [|l IHl p k v r IHr]; intros [|fuel] j m0 ns Hr Hf H; simpl in Hf; try lia; cbn [clone_box rootp].
  - apply wp_ret. exists Leaf. unfold tsize. simpl. split_and!; try done. intros q Hq. by apply elem_of_nil in Hq.
  - apply wp_bind. eapply wp_lift_ret; [by eapply sreadable_root|]. cbn [n_key n_value n_left n_right].
    apply wp_bind, wp_get. cbn [erase tree_clone fst snd].
    destruct (ck j k) as [k'|]; [destruct (cv j v) as [v'|]|].
    2:{ apply wp_fail. by right. }
    2:{ apply wp_fail. by right. }
    apply wp_bind, wp_mod. cbn [fst snd].
    apply wp_bind. eapply wp_mono; [eapply (IHl fuel (S j) m0 ns); [by eapply sreadable_l|lia|done]| |].
    2:{ intros z st [->|[-> ->]]; [by left|by right]. }
    intros y [j1 m1] (l' & -> & Hcl & Hj1 & H1 & Hq1). simpl in Hj1, H1. rewrite Hcl.
    apply wp_bind, wp_zoom. cbn [snd fst].
    eapply wp_mono; [eapply (box_opt_spec e m1 _ l' ns); [exact H1|done]| |intros z st ->; by left].
    intros lb m2 (q & Hq & -> & H2 & _).
    apply wp_bind. rewrite erase_size. subst j1.
    eapply wp_mono; [eapply (IHr fuel (S j + tsize l) m2 _); [by eapply sreadable_r|lia|exact H2]| |].
    2:{ intros z st [->|[-> ->]]; [by left|by right]. }
    intros y [j3 m3] (r' & -> & Hcr & Hj3 & H3 & Hq3). simpl in Hj3, H3. rewrite Hcr.
    apply wp_bind, wp_zoom. cbn [snd fst].
    eapply wp_mono; [eapply (box_opt_spec e m3 _ r'); [exact H3|done]| |intros z st ->; by left].
    intros rb m4 (q' & Hq' & -> & H4 & _). apply wp_ret.
    exists (Bin (reloc q l') p k' v' (reloc q' r')). split_and!.
    + done.
    + cbn [erase]. by rewrite !erase_reloc.
    + cbn [fst]. unfold tsize in *. simpl. rewrite app_length. lia.
    + cbn [snd below]. eapply hrep_perm; [|exact H4]. solve_Permutation.
    + cbn [below]. intros q0. rewrite fmap_app, elem_of_app, !nodes_reloc.
      intros [Hin|Hin].
      * destruct (val l'); [|by apply elem_of_nil in Hin]. simpl in Hin. apply elem_of_cons in Hin as [->|Hin]; auto.
      * destruct (val r'); [|by apply elem_of_nil in Hin]. simpl in Hin. apply elem_of_cons in Hin as [->|Hin]; auto.
Qed.

Lemma tree_clone_length (ck : nat -> K -> option K) (cv : nat -> V -> option V) (u : tree K V) : forall j u',
  tree_clone ck cv j u = Some u' -> length (tree_inorder u') = length (tree_inorder u).
Proof.
  induction u as [|ul IHl k v ur IHr]; intros j u'; simpl; [by intros [= <-]|].
  destruct (ck j k), (cv j v); try done. destruct (tree_clone ck cv (S j) ul) as [ul'|] eqn:Hl; [|done].
  destruct (tree_clone ck cv _ ur) as [ur'|] eqn:Hr; [|done]. intros [= <-]. simpl. rewrite !app_length. simpl.
  by rewrite (IHl _ _ Hl), (IHr _ _ Hr).
Qed.

Lemma simple_clone_spec e ck cv m t : simple_rep m t ->
  match simple_clone e ck cv m with
  | (Ret _, m') => exists t', simple_rep m' t' /\ tree_clone ck cv 0 (erase t) = Some (erase t')
  | (Panic p, _) => p = PClone /\ tree_clone ck cv 0 (erase t) = None
  | (Abort, _) => True
  | _ => False
  end.
Proof.
  intros H. unfold simple_clone. rewrite (simple_root_ret _ _ H).
  pose proof (clone_box_spec e m ck cv t (simple_fuel m) 0 simple_new [] (simple_readable _ _ H) (simple_fuel_height _ _ H)) as Hc.
  specialize (Hc ltac:(split; [constructor|done])). unfold wp in Hc.
  destruct (clone_box e m ck cv (simple_fuel m) (rootp t) (0, simple_new)) as [[y|p| |u|] [j m1]]; try done.
  - destruct Hc as (x & -> & Hcl & _ & H1 & Hq). simpl in H1. rewrite app_nil_r in H1.
    assert (Hsz : tsize x = tsize t) by (by rewrite <- !erase_size, (tree_clone_length _ _ _ _ _ Hcl)).
    destruct H as (_ & _ & _ & Hlen & Hmax).
    assert (Hrc : right_child_place ∉ ptrs (reloc root_place x)).
    { unfold ptrs. rewrite nodes_reloc. destruct (val x); [|set_solver]. cbn [fmap list_fmap fst].
      intros [Hc|Hc]%elem_of_cons; [done|]. by apply Hq in Hc. }
    assert (Hgoal : forall m', hrep m' (nodes (reloc root_place x)) -> s_len m' = s_len m ->
      exists t', simple_rep m' t' /\ tree_clone ck cv 0 (erase t) = Some (erase t')).
    { intros m' Hm' Hl'. exists (reloc root_place x). rewrite erase_reloc. split; [|done].
      assert (Hsz' : tsize (reloc root_place x) = tsize t) by (rewrite <- Hsz; apply tsize_erase, erase_reloc).
      split_and!; try done; [by destruct x; [left|right]|by rewrite Hl', Hlen, Hsz'|by rewrite Hsz']. }
    destruct (val x) as [n|] eqn:Hv; apply Hgoal; try done.
    + rewrite nodes_reloc, Hv. destruct H1 as [Hnd Hm1]. split.
      * cbn [fmap list_fmap fst]. constructor; [|done]. intros Hin. by apply Hq in Hin.
      * cbn [set_len_field set_mem s_mem]. by rewrite Hm1.
    + rewrite nodes_reloc, Hv. destruct x; [|done]. done.
  - destruct Hc as [Hc|[[= ->] Hc]]; done.
Qed.

(** ** Iterators *)

Lemma ssub_readable m t s : simple_rep m t -> sub s t -> sreadable m s.
Proof. intros Hrep [H _] p n Hin. apply (simple_readable _ _ Hrep). by apply H. Qed.
Lemma ssub_fuel m t s : simple_rep m t -> sub s t -> pheight s < simple_fuel m.
Proof. intros Hrep (_ & H & _). rewrite (simple_fuel_size _ _ Hrep). lia. Qed.

(** The iterator state of [ProofIter.v] with this stack. *)
Definition sok (d : order) t (stk : siter) (pend : list (Ptr * (K * V))) : Prop := iter_ok d t (mkIter stk []) pend.

Lemma spre_next_spec m t stk pend : simple_rep m t -> sok Pre t stk pend ->
  exists stk', spre_next m stk = (Ret (snd <$> head pend), stk') /\ sok Pre t stk' (tail pend).
Proof.
  intros Hrep (st & Hst & -> & Hsub). simpl in Hst. subst stk. unfold spre_next, sbind, s_pop.
  destruct (pre_stack_cases st) as [[H1 H2]|(l & p & k & v & r & st' & H1 & H2 & H3 & H4)].
  - rewrite H1, H2. eexists. split; [done|]. exists []. done.
  - rewrite H3, H4. assert (Hs : sub (Bin l p k v r) t) by (rewrite Forall_forall in Hsub; by apply Hsub).
    unfold slift. rewrite (sreadable_root _ _ _ _ _ _ (ssub_readable _ _ _ Hrep Hs)).
    unfold s_extend, smod, sret. cbn [n_left n_right]. eexists. split; [done|].
    exists (l :: r :: st'). split_and!.
    + cbn [it_stack]. by rewrite !pre_stack_cons.
    + cbn [ppre app tail]. unfold pre_pend. cbn. by rewrite <- app_assoc.
    + apply sub_bin in Hs as (? & ? & _). apply Forall_cons; split; [done|]. apply Forall_cons; split; [done|].
      apply Forall_forall. intros s Hin. rewrite Forall_forall in Hsub. by apply Hsub, H2.
Qed.

Lemma sin_descend_spec m s : forall fuel st, sreadable m s -> pheight s < fuel ->
  sin_descend m fuel (rootp s) (pre_stack st) = (Ret tt, pre_stack (spine s st)).
Proof.
  induction s as [|l IHl p k v r _]; intros [|fuel] st Hr Hf; simpl in Hf; try lia; [done|].
  cbn [rootp sin_descend]. unfold sbind, s_push, smod, slift.
  rewrite (sreadable_root _ _ _ _ _ _ Hr). cbn [n_left].
  change (p :: pre_stack st) with (pre_stack (Bin l p k v r :: st)).
  rewrite IHl; [done|by eapply sreadable_l|lia].
Qed.

Lemma sin_next_spec m t stk pend : simple_rep m t -> sok In t stk pend ->
  exists stk', sin_next m stk = (Ret (snd <$> head pend), stk') /\ sok In t stk' (tail pend).
Proof.
  intros Hrep (st & Hst & -> & Hsub). simpl in Hst. subst stk. unfold sin_next, sbind, s_pop.
  destruct (in_stack_cases st) as [[H1 H2]|(l & p & k & v & r & st' & H1 & H2 & H3 & H4)].
  - rewrite H1, H2. eexists. split; [done|]. exists []. done.
  - rewrite H3, H4. assert (Hs : sub (Bin l p k v r) t) by (rewrite Forall_forall in Hsub; by apply Hsub).
    pose proof (ssub_readable _ _ _ Hrep Hs) as Hread.
    unfold slift. rewrite (sreadable_root _ _ _ _ _ _ Hread). cbn [n_right].
    apply sub_bin in Hs as (_ & Hr & _).
    rewrite (sin_descend_spec m r (simple_fuel m) st'); [|by eapply sreadable_r|by eapply ssub_fuel].
    eexists. split; [done|]. exists (spine r st'). split_and!; [done|simpl; by rewrite spine_pend|].
    apply spine_sub; [done|]. apply Forall_forall. intros s Hin. rewrite Forall_forall in Hsub. by apply Hsub, H2.
Qed.

Lemma spost_descend_spec m s : forall fuel st, sreadable m s -> pheight s < fuel ->
  spost_descend m fuel (rootp s) (post_raw st) = (Ret tt, post_raw (pspine s st)).
Proof.
  induction s as [|l IHl p k v r _]; intros [|fuel] st Hr Hf; simpl in Hf; try lia; [done|].
  cbn [rootp spost_descend]. unfold sbind, s_push, s_extend, smod, slift.
  rewrite (sreadable_root _ _ _ _ _ _ Hr). cbn [n_left n_right].
  assert (Hraw : p :: push_opt (rootp r) (post_raw st) = post_raw ((Bin l p k v r, true) :: st)).
  { unfold post_raw. cbn. by destruct r. }
  rewrite Hraw, IHl; [done|by eapply sreadable_l|lia].
Qed.

Lemma spost_inner_spec m l p k v r : forall fuel st, sreadable m (Bin l p k v r) -> pheight (Bin l p k v r) < fuel ->
  spost_inner m fuel p (post_raw st) = (Ret tt, post_raw (pspine (Bin l p k v r) st)).
Proof.
  revert p k v r. induction l as [|ll IHll lp lk lv lr _]; intros p k v r [|fuel] st Hr Hf; simpl in Hf; try lia;
    cbn [spost_inner]; unfold sbind, s_push, s_extend, smod, slift; rewrite (sreadable_root _ _ _ _ _ _ Hr);
    cbn [rootp n_left n_right].
  - cbn [pspine]. unfold sret. f_equal. unfold post_raw. cbn. by destruct r.
  - assert (Hraw : p :: push_opt (rootp r) (post_raw st) = post_raw ((Bin (Bin ll lp lk lv lr) p k v r, true) :: st)).
    { unfold post_raw. cbn. by destruct r. }
    rewrite Hraw, (IHll lp lk lv lr); [done|by eapply sreadable_l|simpl; lia].
Qed.

Lemma spost_next_loop_spec m t : simple_rep m t -> forall fuel st, post_wf t st -> post_need st < fuel ->
  exists stk', spost_next_loop m fuel (post_raw st) = (Ret (snd <$> head (post_pend st)), stk') /\
    sok Post t stk' (tail (post_pend st)).
Proof.
  intros Hrep. induction fuel as [|fuel IH]; intros st Hwf Hf; [lia|].
  cbn [spost_next_loop]. unfold sbind, s_pop.
  destruct st as [|[[|l p k v r] b] st]; [|done|].
  { cbn. eexists. split; [done|]. exists []. done. }
  destruct Hwf as (Hs & Hd & Hwf). pose proof (ssub_readable _ _ _ Hrep Hs) as Hread.
  apply sub_bin in Hs as Hs'. destruct Hs' as (Hl & Hr & Hpl & Hpr & Hlr).
  assert (Hraw : post_raw ((Bin l p k v r, b) :: st) = p :: (if b then opt_list (rootp r) else []) ++ post_raw st) by done.
  rewrite Hraw. unfold slift. rewrite (sreadable_root _ _ _ _ _ _ Hread). cbn [n_right n_key n_value].
  assert (Hyield : (r = Leaf \/ b = false) -> post_pend ((Bin l p k v r, b) :: st) = (p, (k, v)) :: post_pend st).
  { intros H. unfold post_pend. cbn. destruct H as [->| ->]; simpl; [by destruct b|done]. }
  assert (Hok : sok Post t (post_raw st) (post_pend st)) by (exists st; done).
  destruct r as [|rl rp rk rv rr].
  { rewrite Hyield by (by left). cbn [rootp].
    assert (Hb : (if b then @opt_list Ptr None else []) = []) by (by destruct b). rewrite Hb.
    unfold sret. cbn [app]. eexists. split; [done|]. apply Hok. }
  cbn [rootp opt_list]. unfold top_eq. destruct b; cbn [app].
  - rewrite bool_decide_eq_true_2 by done. unfold s_push, smod.
    pose proof (sreadable_r _ _ _ _ _ _ Hread) as Hreadr.
    pose proof (spost_inner_spec m rl rp rk rv rr (simple_fuel m) ((Bin l p k v (Bin rl rp rk rv rr), false) :: st)
      Hreadr (ssub_fuel _ _ _ Hrep Hr)) as Heq.
    change (post_raw ((Bin l p k v (Bin rl rp rk rv rr), false) :: st)) with (p :: post_raw st) in Heq. rewrite Heq.
    set (st2 := pspine (Bin rl rp rk rv rr) ((Bin l p k v (Bin rl rp rk rv rr), false) :: st)) in *.
    assert (Hwf2 : post_wf t st2).
    { apply pspine_wf; [done| |].
      - simpl. split_and!; done.
      - intros y Hy. change (y ∉ p :: post_raw st). intros [->|Hin]%elem_of_cons; [done|].
        eapply (Hd y); [|done]. by right. }
    assert (Hneed : post_need st2 < fuel).
    { unfold st2. pose proof (pspine_need (Bin rl rp rk rv rr) ((Bin l p k v (Bin rl rp rk rv rr), false) :: st)) as Hn.
      simpl in Hf. simpl in Hn. simpl. specialize (Hn ltac:(done)). lia. }
    assert (Hpend : post_pend st2 = post_pend ((Bin l p k v (Bin rl rp rk rv rr), true) :: st)).
    { unfold st2. rewrite pspine_pend. unfold post_pend. cbn. by rewrite <- !app_assoc. }
    rewrite <- Hpend. by apply IH.
  - rewrite Hyield by (by right).
    assert (Hne : match post_raw st with [] => false | q :: _ => bool_decide (q = rp) end = false).
    { destruct (post_raw st) as [|q st'] eqn:Hq; [done|]. apply bool_decide_eq_false_2. intros ->.
      apply (Hd rp); [right; rewrite ptrs_bin; left|left]. }
    rewrite Hne. unfold sret. eexists. split; [done|]. apply Hok.
Qed.

Lemma simple_iter_start_spec m t d : simple_rep m t ->
  exists stk, simple_iter_start m d = Ret stk /\ sok d t stk (porder d t).
Proof.
  intros Hrep. assert (Hs : sub t t) by (apply sub_refl; by eapply simple_nodup).
  destruct d; cbn [simple_iter_start].
  - unfold spre_new. rewrite (simple_root_ret _ _ Hrep). eexists. split; [done|]. exists [t]. split_and!.
    + by destruct t.
    + unfold pre_pend. simpl. by rewrite app_nil_r.
    + by constructor.
  - unfold sin_new. rewrite (simple_root_ret _ _ Hrep).
    rewrite (sin_descend_spec m t (simple_fuel m) [] (simple_readable _ _ Hrep) (simple_fuel_height _ _ Hrep) : sin_descend m _ _ [] = _).
    eexists. split; [done|]. exists (spine t []). split_and!; [done| |].
    + rewrite spine_pend. unfold in_pend. simpl. by rewrite app_nil_r.
    + apply spine_sub; [done|constructor].
  - unfold spost_new. rewrite (simple_root_ret _ _ Hrep).
    rewrite (spost_descend_spec m t (simple_fuel m) [] (simple_readable _ _ Hrep) (simple_fuel_height _ _ Hrep) : spost_descend m _ _ [] = _).
    eexists. split; [done|]. exists (pspine t []). split_and!; [done| |].
    + rewrite pspine_pend. unfold post_pend. simpl. by rewrite app_nil_r.
    + apply pspine_wf; [done|done|]. intros y _. unfold post_raw. set_solver.
Qed.

Lemma simple_iter_next_spec m t d stk pend : simple_rep m t -> sok d t stk pend ->
  exists stk', simple_iter_next m d stk = (Ret (snd <$> head pend), stk') /\ sok d t stk' (tail pend).
Proof.
  intros Hrep Hok. destruct d; cbn [simple_iter_next].
  - by apply spre_next_spec.
  - by apply sin_next_spec.
  - destruct Hok as (st & H1 & -> & H3). simpl in H1. subst stk. unfold spost_next.
    apply spost_next_loop_spec; [done|done|].
    destruct st as [|[[|l p k v r] b] st]; simpl; try (unfold simple_fuel; lia).
    destruct H3 as (Hs & _). pose proof (ssub_fuel _ _ _ Hrep Hs) as H. simpl in H. destruct b; lia.
Qed.

Lemma simple_nexts_spec m t d : simple_rep m t -> forall n stk pend, sok d t stk pend ->
  fst (simple_nexts (simple_iter_next m d) n stk) = Ret (first_calls n pend.*2).
Proof.
  intros Hrep. induction n as [|n IH]; intros stk pend Hok; [done|].
  cbn [simple_nexts]. unfold sbind at 1.
  destruct (simple_iter_next_spec m t d stk pend Hrep Hok) as (stk' & -> & Hok').
  specialize (IH stk' (tail pend) Hok'). unfold sbind.
  destruct (simple_nexts (simple_iter_next m d) n stk') as [r0 st0]. cbn [fst] in IH. subst r0.
  destruct pend as [|[q kv] pend]; done.
Qed.

Lemma simple_rep_yields m t d : simple_rep m t -> simple_yields m d (tree_order d (erase t)).
Proof.
  intros Hrep n. destruct (simple_iter_start_spec m t d Hrep) as (stk & Hs & Hok). exists stk. split; [done|].
  rewrite (simple_nexts_spec m t d Hrep n stk _ Hok). by rewrite porder_erase.
Qed.

(** ** Debug and walks *)

Lemma box_debug_eq m s : forall fuel, sreadable m s -> pheight s < fuel ->
  box_debug m fuel (rootp s) = Ret (tree_debug (erase s)).
Proof.
  induction s as [|l IHl p k v r IHr]; intros [|fuel] Hr Hf; simpl in Hf; try lia; [done|].
  cbn [box_debug rootp]. rewrite (sreadable_root _ _ _ _ _ _ Hr). cbn [rbind n_left n_right n_key n_value].
  rewrite IHl; [|by eapply sreadable_l|lia]. cbn [rbind]. rewrite IHr; [|by eapply sreadable_r|lia]. done.
Qed.

Lemma simple_walk_eq m path : forall s, sreadable m s -> simple_walk m path (rootp s) = Ret (rootp (tat path s)).
Proof.
  induction path as [|d path IH]; intros s Hr; [done|].
  destruct s as [|l p k v r]; [by destruct d|]. destruct d; cbn [simple_walk rootp tat];
    rewrite (sreadable_root _ _ _ _ _ _ Hr); cbn [rbind n_left n_right]; apply IH.
  - by eapply sreadable_l.
  - by eapply sreadable_r.
Qed.

Lemma tat_sreadable m path : forall s, sreadable m s -> sreadable m (tat path s).
Proof.
  induction path as [|[] path IH]; intros [|l p k v r] H; simpl; try done; apply IH.
  - by eapply sreadable_l.
  - by eapply sreadable_r.
Qed.

Lemma tat_in path : forall s y, y ∈ nodes (tat path s) -> y ∈ nodes s.
Proof.
  induction path as [|[] path IH]; intros [|l p k v r] y; simpl; try done; intros H%IH; right; apply elem_of_app; eauto.
Qed.

Lemma simple_show_eq m l p k v r : sreadable m (Bin l p k v r) ->
  simple_show m p = Ret (k, v, nonleaf (erase l), nonleaf (erase r)).
Proof.
  intros H. unfold simple_show. rewrite (sreadable_root _ _ _ _ _ _ H). simpl. by destruct l, r.
Qed.

Lemma simple_shows_sub m s : sreadable m s -> simple_exposes m (rootp s) (erase s).
Proof.
  induction s as [|l IHl p k v r IHr]; intros Hr; [constructor|].
  apply (simple_exposes_some m p (mkInner k v (rootp l) (rootp r)) (erase l) (erase r)).
  - by eapply sreadable_root.
  - apply IHl. by eapply sreadable_l.
  - apply IHr. by eapply sreadable_r.
Qed.

Lemma simple_rep_shows m t : simple_rep m t -> simple_shows m (erase t).
Proof.
  intros H. unfold simple_shows. rewrite (simple_root_ret _ _ H). apply simple_shows_sub. by apply simple_readable.
Qed.

Lemma simple_exposes_fun m p (u : tree K V) : simple_exposes m p u -> forall w, simple_exposes m p w -> u = w.
Proof.
  induction 1 as [|p n ul ur Hp Hl IHl Hr IHr]; intros w H2; inversion H2 as [|q n' ul' ur' Hp' Hl' Hr']; subst; [done|].
  rewrite Hp in Hp'. injection Hp' as <-. by rewrite (IHl _ Hl'), (IHr _ Hr').
Qed.

(** ** Equality *)

Lemma simple_eq_loop_spec eqK eqV m1 m2 t1 t2 : simple_rep m1 t1 -> simple_rep m2 t2 ->
  forall fuel i1 i2 p1 p2, sok In t1 i1 p1 -> sok In t2 i2 p2 -> length p1 = length p2 -> length p1 < fuel ->
  simple_eq_loop eqK eqV m1 m2 fuel i1 i2 = Ret (list_eqb eqK eqV p1.*2 p2.*2).
Proof.
  intros H1 H2. induction fuel as [|fuel IH]; intros i1 i2 p1 p2 Ho1 Ho2 Hl Hf; [lia|]. cbn [simple_eq_loop].
  destruct (sin_next_spec m1 t1 i1 p1 H1 Ho1) as (i1' & -> & Ho1').
  destruct p1 as [|[q1 [k1 v1]] p1], p2 as [|[q2 [k2 v2]] p2]; try done. cbn [head fmap option_fmap option_map rbind snd].
  destruct (sin_next_spec m2 t2 i2 _ H2 Ho2) as (i2' & -> & Ho2').
  cbn [head fmap option_fmap option_map rbind snd list_fmap list_eqb].
  destruct (eqK k1 k2 && eqV v1 v2); [|done]. simpl in *. apply IH; try done; lia.
Qed.

Lemma simple_eq_spec eqK eqV m1 m2 t1 t2 : simple_rep m1 t1 -> simple_rep m2 t2 ->
  simple_eq eqK eqV m1 m2 = Ret (list_eqb eqK eqV (tree_inorder (erase t1)) (tree_inorder (erase t2))).
Proof.
  intros H1 H2. unfold simple_eq.
  assert (Hl1 : s_len m1 = N.of_nat (tsize t1)) by apply H1. assert (Hl2 : s_len m2 = N.of_nat (tsize t2)) by apply H2.
  rewrite <- !pin_erase.
  destruct (s_len m1 =? s_len m2)%N eqn:Hl; cbn [negb].
  - apply N.eqb_eq in Hl. assert (Hsz : tsize t1 = tsize t2) by lia.
    destruct (simple_iter_start_spec m1 t1 In H1) as (i1 & Hi1 & Ho1).
    destruct (simple_iter_start_spec m2 t2 In H2) as (i2 & Hi2 & Ho2).
    cbn [simple_iter_start] in Hi1, Hi2. rewrite Hi1, Hi2. cbn [rbind].
    apply (simple_eq_loop_spec eqK eqV m1 m2 t1 t2); try done; simpl; rewrite ?pin_length; [done|].
    rewrite (simple_fuel_size _ _ H1). lia.
  - apply N.eqb_neq in Hl. f_equal. symmetry.
    destruct (list_eqb eqK eqV (pin t1).*2 (pin t2).*2) eqn:He; [|done].
    apply list_eqb_length in He. rewrite !fmap_length, !pin_length in He. lia.
Qed.

End ops.
