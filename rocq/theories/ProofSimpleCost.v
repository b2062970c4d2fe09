(** * Costs of SimpleBSTMap, BSTSet and SimpleBSTSet *)

From Coq Require Import String.
From Verif Require Export SpecCost ProofCost ProofLog ProofSpace ProofSimpleProps ProofSimpleSet ProofSetSafety.
Local Open Scope nat_scope.

Section cost.
Context {K V : Type}.
Implicit Types t l r : ptree K V.
Implicit Types m : simple K V.

(** ** Comparisons of SimpleBSTMap *)
Section cut.
Variables o o' : oracle K.

Lemma simple_insert_loop_alike e k v m t : sreadable m t -> forall fuel i, alike o o' i (pheight t) ->
  simple_insert_loop e o fuel i k v (rootp t) m = simple_insert_loop e o' fuel i k v (rootp t) m.
Proof.
  induction t as [|l IHl p k' v' r IHr]; intros Hr [|fuel] i Ha; cbn [simple_insert_loop rootp]; try done. simpl in Ha.
  unfold sget, slift. unfold sbind at 1 2. symmetry. unfold sbind at 1 2. symmetry.
  rewrite (sreadable_root _ _ _ _ _ _ Hr). cbn [n_key n_left n_right n_value].
  unfold sbind at 1. symmetry. unfold sbind at 1. symmetry.
  rewrite (alike_ask o o' i (S (Nat.max (pheight l) (pheight r))) k' ltac:(lia) Ha). destruct (ask o' i k') as [[]| | | |]; try done.
  - destruct l as [|ll lp lk lv lr]; cbn [rootp]; [done|]. apply (IHl (sreadable_l _ _ _ _ _ _ Hr)).
    eapply alike_sub; [|exact Ha]. lia.
  - destruct r as [|rl rp rk rv rr]; cbn [rootp]; [done|]. apply (IHr (sreadable_r _ _ _ _ _ _ Hr)).
    eapply alike_sub; [|exact Ha]. lia.
Qed.

Lemma simple_remove_entry_alike e m t : simple_rep m t -> alike o o' 0 (pheight t) ->
  simple_remove_entry e o m = simple_remove_entry e o' m.
Proof.
  intros Hrep Ha. unfold simple_remove_entry, sget, slift. unfold sbind at 1 2. symmetry. unfold sbind at 1 2. symmetry.
  rewrite (simple_root_ret _ _ Hrep). pose proof (simple_readable _ _ Hrep) as Hr. pose proof (simple_fuel_height _ _ Hrep) as Hf.
  assert (Hrf : simple_remove_find m o (simple_fuel m) 0 None (rootp t) = simple_remove_find m o' (simple_fuel m) 0 None (rootp t)).
  { pose proof (simple_remove_find_eq m o t [] (simple_fuel m) 0 Hr Hf) as H1.
    pose proof (simple_remove_find_eq m o' t [] (simple_fuel m) 0 Hr Hf) as H2. change (cparent []) with (@None Ptr) in H1, H2.
    rewrite H1, H2. by rewrite (tfind_alike o o'). }
  destruct t as [|l p k v r]; [done|]. cbn [rootp] in *. unfold sbind at 1. symmetry. unfold sbind at 1. symmetry.
  by rewrite Hrf.
Qed.

Lemma simple_search_alike e call m t : simple_rep m t -> alike o o' 0 (pheight t) ->
  search_call (K := K) (V := V) call -> simple_exec e (call o) m = simple_exec e (call o') m.
Proof.
  intros Hrep Ha. pose proof (tget_alike o o' t 0 Ha) as Hg. pose proof (simple_remove_entry_alike e m t Hrep Ha) as Hre.
  intros []; cbn [simple_exec].
  - unfold sbind, sget, slift. by rewrite !(simple_get_eq _ _ _ Hrep), Hg.
  - unfold sbind, sget, slift. by rewrite !(simple_get_entry_eq _ _ _ Hrep), Hg.
  - unfold sbind, sget, slift. by rewrite !(simple_contains_eq _ _ _ Hrep), Hg.
  - unfold sbind, sget, slift. by rewrite !(simple_get_mut_eq _ _ _ Hrep), Hg.
  - done.
  - unfold simple_remove, sbind. by rewrite Hre.
  - unfold sbind. by rewrite Hre.
Qed.

Lemma simple_insert_alike e k v m t : simple_rep m t -> alike o o' 0 (pheight t) ->
  simple_exec e (OInsert o k v) m = simple_exec (K := K) (V := V) e (OInsert o' k v) m.
Proof.
  intros Hrep Ha. cbn [simple_exec].
  assert (Hi : simple_insert e o k v m = simple_insert e o' k v m); [|unfold sbind; by rewrite Hi].
  unfold simple_insert, sget. unfold sbind at 1. symmetry. unfold sbind at 1. symmetry.
  rewrite (simple_root_ret _ _ Hrep). pose proof (simple_readable _ _ Hrep) as Hr.
  destruct t as [|l p k' v' r]; cbn [rootp]; [done|].
  apply (simple_insert_loop_alike e k v m _ Hr (simple_fuel m) 0 Ha).
Qed.

End cut.

Lemma simple_rep_shows_eq m t (u : tree K V) : simple_rep m t -> simple_shows m u -> u = erase t.
Proof. intros Hrep Hu. exact (simple_exposes_fun _ _ _ Hu _ (simple_rep_shows _ _ Hrep)). Qed.

Lemma simple_cost e call m (t : tree K V) o : simple_reachable e m -> simple_shows m t ->
  search_call call \/ (exists k v, call = fun o => OInsert o k v) ->
  simple_exec e (call (first_answers (height t) o)) m = simple_exec e (call o) m.
Proof.
  intros Hr Hs Hc. destruct (simple_reachable_rep e m Hr) as (pt & Hrep).
  rewrite (simple_rep_shows_eq _ _ _ Hrep Hs), ProofCost.erase_height.
  destruct Hc as [Hc|(k & v & ->)].
  - eapply simple_search_alike; [done| |done]. apply alike_first.
  - eapply simple_insert_alike; [done|]. apply alike_first.
Qed.

Lemma simple_height e m (t : tree K V) : simple_reachable e m -> simple_shows m t -> (N.of_nat (height t) <= simple_len m)%N.
Proof.
  intros Hr Hs. destruct (simple_reachable_rep e m Hr) as (pt & Hrep).
  rewrite (simple_rep_shows_eq _ _ _ Hrep Hs), ProofCost.erase_height. unfold simple_len.
  rewrite (proj2 (simple_rep_nodes _ _ Hrep)). pose proof (pheight_size pt). lia.
Qed.

(** ** The stacks of the iterators *)

Definition stack_inv (d : order) t (stk : siter) : Prop :=
  match d with
  | Post => exists pst, stk = post_raw pst /\ post_wf t pst /\ pfits (pheight t) pst
  | _ => exists st, stk = pre_stack st /\ Forall (fun s => sub s t) st /\ fits (pheight t) st
  end.

Lemma stack_inv_bound d t stk : stack_inv d t stk -> length stk <= stack_bound d (pheight t).
Proof. destruct d; intros (st & -> & _ & H); [by apply fits_len..|by apply pfits_len]. Qed.

Lemma stack_start m t d : simple_rep m t -> exists stk, simple_iter_start m d = Ret stk /\ stack_inv d t stk.
Proof.
  intros Hrep. assert (Hs : sub t t) by (apply sub_refl; by eapply simple_nodup).
  destruct d; cbn [simple_iter_start].
  - unfold spre_new. rewrite (simple_root_ret _ _ Hrep). eexists. split; [done|]. exists [t]. split_and!.
    + by destruct t.
    + by constructor.
    + simpl. split; [lia|done].
  - unfold sin_new. rewrite (simple_root_ret _ _ Hrep).
    rewrite (sin_descend_spec m t (simple_fuel m) [] (simple_readable _ _ Hrep) (simple_fuel_height _ _ Hrep) : sin_descend m _ _ [] = _).
    eexists. split; [done|]. exists (spine t []). split_and!; [done| |].
    + apply spine_sub; [done|constructor].
    + apply spine_fits; [simpl; lia|done].
  - unfold spost_new. rewrite (simple_root_ret _ _ Hrep).
    rewrite (spost_descend_spec m t (simple_fuel m) [] (simple_readable _ _ Hrep) (simple_fuel_height _ _ Hrep) : spost_descend m _ _ [] = _).
    eexists. split; [done|]. exists (pspine t []). split_and!; [done| |].
    + apply pspine_wf; [done|done|]. intros x _. unfold post_raw. set_solver.
    + apply pspine_fits; [simpl; lia|done].
Qed.

Lemma spre_stack m t : simple_rep m t -> forall st, Forall (fun s => sub s t) st -> fits (pheight t) st ->
  exists x stk, spre_next m (pre_stack st) = (Ret x, stk) /\ stack_inv Pre t stk.
Proof.
  intros Hrep. induction st as [|[|l p k v r] st IH]; intros H1 H2.
  - eexists _, _. split; [done|]. by exists [].
  - apply Forall_cons in H1 as [_ H1]. destruct H2 as [_ H2]. by apply IH.
  - apply Forall_cons in H1 as [Hs H1]. destruct H2 as [Hh H2]. simpl in Hh.
    rewrite pre_stack_cons. cbn [rootp push_opt]. unfold spre_next, sbind, s_pop, slift.
    rewrite (sreadable_root _ _ _ _ _ _ (ssub_readable _ _ _ Hrep Hs)).
    unfold s_extend, smod, sret. cbn [n_left n_right]. eexists _, _. split; [done|].
    exists (l :: r :: st). apply sub_bin in Hs as (? & ? & _). split_and!.
    + by rewrite !pre_stack_cons.
    + constructor; [done|]. by constructor.
    + cbn [fits]. rewrite !pre_stack_cons.
      assert (length (push_opt (rootp r) (pre_stack st)) <= S (length (pre_stack st))) by (by destruct r; simpl; lia).
      split_and!; [lia|lia|done].
Qed.

Lemma sin_stack m t : simple_rep m t -> forall st, Forall (fun s => sub s t) st -> fits (pheight t) st ->
  exists x stk, sin_next m (pre_stack st) = (Ret x, stk) /\ stack_inv In t stk.
Proof.
  intros Hrep. induction st as [|[|l p k v r] st IH]; intros H1 H2.
  - eexists _, _. split; [done|]. by exists [].
  - apply Forall_cons in H1 as [_ H1]. destruct H2 as [_ H2]. by apply IH.
  - apply Forall_cons in H1 as [Hs H1]. destruct H2 as [Hh H2]. simpl in Hh.
    pose proof (ssub_readable _ _ _ Hrep Hs) as Hread.
    rewrite pre_stack_cons. cbn [rootp push_opt]. unfold sin_next, sbind, s_pop, slift.
    rewrite (sreadable_root _ _ _ _ _ _ Hread). cbn [n_right].
    apply sub_bin in Hs as (_ & Hr & _).
    rewrite (sin_descend_spec m r (simple_fuel m) st); [|by eapply sreadable_r|by eapply ssub_fuel].
    eexists _, _. split; [done|]. exists (spine r st). split_and!; [done|by apply spine_sub|].
    apply spine_fits; [lia|done].
Qed.

Lemma spost_stack m t : simple_rep m t -> forall fuel pst, post_wf t pst -> pfits (pheight t) pst -> post_need pst < fuel ->
  exists x stk, spost_next_loop m fuel (post_raw pst) = (Ret x, stk) /\ stack_inv Post t stk.
Proof.
  intros Hrep. induction fuel as [|fuel IH]; intros pst Hwf Hfit Hf; [lia|].
  cbn [spost_next_loop]. unfold sbind, s_pop.
  destruct pst as [|[[|l p k v r] b] pst]; [|done|].
  { eexists _, _. split; [done|]. by exists []. }
  destruct Hwf as (Hs & Hd & Hwf). destruct Hfit as [Hh Hfit]. cbn [fst] in Hh.
  pose proof (ssub_readable _ _ _ Hrep Hs) as Hread.
  apply sub_bin in Hs as Hs'. destruct Hs' as (Hl & Hr & Hpl & Hpr & Hlr).
  assert (Hraw : post_raw ((Bin l p k v r, b) :: pst) = p :: (if b then opt_list (rootp r) else []) ++ post_raw pst) by done.
  rewrite Hraw. unfold slift. rewrite (sreadable_root _ _ _ _ _ _ Hread). cbn [n_right n_key n_value].
  assert (Hok : stack_inv Post t (post_raw pst)) by (exists pst; done).
  destruct r as [|rl rp rk rv rr].
  { cbn [rootp].
    assert (Hb : (if b then @opt_list Ptr None else []) = []) by (by destruct b). rewrite Hb.
    unfold sret. cbn [app]. eexists _, _. split; [done|]. apply Hok. }
  cbn [rootp opt_list]. unfold top_eq. destruct b; cbn [app].
  - rewrite bool_decide_eq_true_2 by done. unfold s_push, smod.
    pose proof (sreadable_r _ _ _ _ _ _ Hread) as Hreadr.
    pose proof (spost_inner_spec m rl rp rk rv rr (simple_fuel m) ((Bin l p k v (Bin rl rp rk rv rr), false) :: pst)
      Hreadr (ssub_fuel _ _ _ Hrep Hr)) as Heq.
    change (post_raw ((Bin l p k v (Bin rl rp rk rv rr), false) :: pst)) with (p :: post_raw pst) in Heq. rewrite Heq.
    apply IH.
    + apply pspine_wf; [done| |].
      * simpl. split_and!; done.
      * intros y Hy. change (y ∉ p :: post_raw pst). intros [->|Hin]%elem_of_cons; [done|].
        eapply (Hd y); [|done]. by right.
    + apply pspine_fits.
      * rewrite post_raw_cons, app_length. change (length (post_raw1 (Bin l p k v (Bin rl rp rk rv rr), false))) with 1.
        cbn [pheight] in Hh |- *. lia.
      * split; [exact Hh|done].
    + pose proof (pspine_need (Bin rl rp rk rv rr) ((Bin l p k v (Bin rl rp rk rv rr), false) :: pst)) as Hn.
      simpl in Hf. simpl in Hn. simpl. specialize (Hn ltac:(done)). lia.
  - assert (Hne : match post_raw pst with [] => false | q :: _ => bool_decide (q = rp) end = false).
    { destruct (post_raw pst) as [|q st'] eqn:Hq; [done|]. apply bool_decide_eq_false_2. intros ->.
      apply (Hd rp); [right; rewrite ptrs_bin; left|left]. }
    rewrite Hne. unfold sret. eexists _, _. split; [done|]. apply Hok.
Qed.

Lemma stack_next m t d stk : simple_rep m t -> stack_inv d t stk ->
  exists x stk', simple_iter_next m d stk = (Ret x, stk') /\ stack_inv d t stk'.
Proof.
  intros Hrep. destruct d; intros (st & -> & H1 & H2); cbn [simple_iter_next].
  - by apply spre_stack.
  - by apply sin_stack.
  - apply spost_stack; [done..|]. destruct st as [|[[|l p k v r] []] st]; cbn [post_need]; try (unfold simple_fuel; lia).
    destruct H1 as (Hs & _). pose proof (ssub_fuel _ _ _ Hrep Hs) as Hf. simpl in Hf. lia.
Qed.

Lemma stack_nexts m t d : simple_rep m t -> forall n stk, stack_inv d t stk ->
  exists xs stk', simple_nexts (simple_iter_next m d) n stk = (Ret xs, stk') /\ stack_inv d t stk'.
Proof.
  intros Hrep. induction n as [|n IH]; intros stk Hinv; [by eexists _, _|].
  cbn [simple_nexts]. unfold sbind, sret. destruct (stack_next m t d stk Hrep Hinv) as (x & stk1 & -> & H1).
  destruct (IH stk1 H1) as (xs & stk2 & -> & H2). by eexists _, _.
Qed.

Lemma simple_space e m (t : tree K V) d n : simple_reachable e m -> simple_shows m t ->
  exists it xs it', simple_iter_start m d = Ret it /\ simple_nexts (simple_iter_next m d) n it = (Ret xs, it') /\
    length it' <= stack_bound d (height t).
Proof.
  intros Hr Hs. destruct (simple_reachable_rep e m Hr) as (pt & Hrep).
  rewrite (simple_rep_shows_eq _ _ _ Hrep Hs), ProofCost.erase_height.
  destruct (stack_start m pt d Hrep) as (it & Hit & Hinv). destruct (stack_nexts m pt d Hrep n it Hinv) as (xs & it' & Heq & H').
  exists it, xs, it'. split_and!; [done|done|]. by apply stack_inv_bound.
Qed.

End cost.

(** ** Sorted insertion *)
Section sorted.
Context {K V : Type}.
Variable cmp : K -> K -> comparison.
Hypothesis Hlaw : lawful cmp.

Lemma stree_inserts os (l : list (K * V)) : legal_inserts cmp os -> forall j (u u' : tree K V) rs,
  steps stree_step u (imap (fun i kv => OInsert (os (j + i) kv.1) kv.1 kv.2) l) rs u' -> returned_all rs ->
  u' = tree_insert_all cmp l u.
Proof.
  intros Hos. induction l as [|[k v] l IH]; intros j u u' rs Hst Hall.
  - destruct rs; [done|done].
  - destruct rs as [|r rs]; [done|]. cbn [imap] in Hst. destruct Hst as (u1 & Hst & Hsts).
    apply Forall_cons in Hall as [[x ->] Hall]. destruct Hst as [Hc|[? _]]; [|done].
    cbn [stree_call otree_call] in Hc. rewrite Nat.add_0_r in Hc.
    pose proof (otree_insert_answers cmp Hlaw (os j k) k v u (Hos j k) 0) as Ho.
    cbn [fst snd] in Hc. destruct (otree_insert (os j k) 0 k v u) as [y|]; [|done]. subst y.
    simpl in Hc. injection Hc as _ <-. unfold tree_insert_all. cbn [fold_left].
    apply (IH (S j) _ _ rs); [|done]. 
    assert (E : forall i (kv : K * V), OInsert (V := V) (os (S j + i) kv.1) kv.1 kv.2 = OInsert (os (j + S i) kv.1) kv.1 kv.2).
    { intros i kv. by replace (j + S i) with (S j + i) by lia. }
    erewrite imap_ext; [exact Hsts|]. intros i kv _. apply E.
Qed.

Lemma simple_sorted e items k v os rs (m : simple K V) :
  sorted cmp (items ++ [(k, v)]) -> legal_inserts cmp os -> simple_reached e SNew (inserts os (items ++ [(k, v)])) rs m ->
  returned_all rs ->
  simple_shows m (right_spine (items ++ [(k, v)])) /\ simple_len m = N.of_nat (S (length items)) /\
  forall n, n <= length items -> (simple_exec e (OGet (first_answers n (fun _ k' => Some (cmp k k')))) m).1 = Panic PCmp.
Proof.
  intros Hs Hos Hre Hall.
  assert (Hhas : Forall (fun c => simple_has c = true) (inserts os (items ++ [(k, v)]))).
  { unfold inserts. apply Forall_forall. intros c Hc. apply elem_of_lookup_imap in Hc as (i & x & -> & _). done. }
  destruct Hre as (m0 & Hb & Hrun). injection Hb as <-.
  destruct (simple_run_steps e _ _ _ _ _ simple_new_rep Hhas Hrun) as (u & Hst & Hrep).
  assert (Hal : alive rs). { eapply Forall_impl; [exact Hall|]. by intros r [x ->]. }
  destruct (Hrep Hal) as (t & Ht & <-). clear Hrep.
  pose proof (stree_inserts os _ Hos 0 _ _ _ Hst Hall) as Hsp. cbn [erase] in Hsp. rewrite (sorted_spine cmp Hlaw _ Hs) in Hsp.
  pose proof (simple_rep_shows _ _ Ht) as Hsh. rewrite Hsp in Hsh. split_and!; [done| |].
  - unfold simple_len. rewrite (proj2 (simple_rep_nodes _ _ Ht)), <- erase_size, Hsp, spine_inorder, app_length. simpl. f_equal. lia.
  - intros n Hn. pose proof (spine_search_cut k v items (fun _ k' => Some (cmp k k'))) as Hcut.
    specialize (Hcut ltac:(eapply Forall_impl; [by apply (sorted_last cmp Hlaw k v)|]; intros x Hx i; simpl; by rewrite Hx) n 0 Hn).
    rewrite <- Hsp in Hcut. simpl in Hcut.
    destruct (simple_exec e (OGet (first_answers n (fun _ k' => Some (cmp k k')))) m) as [r m'] eqn:Hex.
    pose proof (fun H => simple_exec_cases e _ m t r m' Ht H Hex) as Hx.
    destruct (Hx eq_refl) as [[_ Ha]|(t' & _ & Hc & _)]; [done|].
    cbn [stree_call otree_call] in Hc. rewrite Hcut in Hc. by injection Hc as <- _.
Qed.

End sorted.

(** ** Sets *)
Section sets.
Context {T : Type}.

Lemma vt_height (t : tree T unit) : sheight (values_tree t) = height t.
Proof. induction t as [|l IHl x [] r IHr]; simpl; [done|]. by rewrite IHl, IHr. Qed.

Definition comparing (call : oracle T -> set_op T) : Prop := set_search_call call \/ exists x, call = fun o => SetInsert o x.

Lemma set_search_map call : comparing call ->
  search_call (fun o => to_map (call o)) \/ exists k v, (fun o => to_map (call o)) = fun o => OInsert o k v.
Proof. intros [[]|[x ->]]; cbn [to_map]; try (left; constructor). right. by eexists _, _. Qed.

Lemma from_out_call (t : tree T unit) call (o o' : oracle T) x : comparing call -> from_out t (call o) x = from_out t (call o') x.
Proof. by intros [[]|[y ->]]. Qed.
Lemma sfrom_out_call (t : tree T unit) call (o o' : oracle T) x : comparing call -> sfrom_out t (call o) x = sfrom_out t (call o') x.
Proof. by intros [[]|[y ->]]. Qed.

Lemma set_cost e call (m : bstset T) (t : stree T) o : set_reachable e m -> set_shows m t -> comparing call ->
  set_exec e (call (first_answers (sheight t) o)) m = set_exec e (call o) m.
Proof.
  intros Hm Hs Hc. destruct (set_reachable_rep _ _ Hm) as (Hr & pt & fl & Hrep).
  pose proof (set_shows_fun _ _ _ (set_shows_rep _ _ _ Hrep) Hs) as ->. rewrite vt_height.
  pose proof (height_cost e (fun o => to_map (call o)) m _ o Hr (rep_shows _ _ _ Hrep) (set_search_map _ Hc)) as H. cbn beta in H.
  destruct (exec e (to_map (call o)) m) as [r m'] eqn:He.
  rewrite (set_exec_eq e _ m pt fl r m' Hrep H), (set_exec_eq e _ m pt fl r m' Hrep He).
  f_equal. destruct r; simpl; [|done..]. f_equal. by apply from_out_call.
Qed.

Lemma set_height_count e (m : bstset T) (t : stree T) : set_reachable e m -> set_shows m t -> (N.of_nat (sheight t) <= set_count e m)%N.
Proof.
  intros Hm Hs. destruct (set_reachable_rep _ _ Hm) as (Hr & pt & fl & Hrep).
  pose proof (set_shows_fun _ _ _ (set_shows_rep _ _ _ Hrep) Hs) as ->. rewrite vt_height, set_count_map.
  eapply height_count; [done|by eapply rep_shows].
Qed.

Lemma sset_cost e call (m : sset T) (t : stree T) o : sset_reachable e m -> sset_shows m t -> comparing call ->
  sset_exec e (call (first_answers (sheight t) o)) m = sset_exec e (call o) m.
Proof.
  intros Hm Hs Hc. destruct (sset_reachable_rep _ _ Hm) as (pt & Hrep).
  pose proof (sset_exposes_fun _ _ _ Hs _ (sset_rep_shows _ _ Hrep)) as Ht.
  assert (Hh : sheight t = pheight pt) by (by rewrite <- Ht, vt_height, ProofCost.erase_height).
  assert (H : simple_exec e (to_map (call (first_answers (sheight t) o))) m = simple_exec e (to_map (call o)) m).
  { rewrite Hh. destruct (set_search_map _ Hc) as [H|(k & v & H)].
    - apply (simple_search_alike (first_answers (pheight pt) o) o e (fun o => to_map (call o)) m pt Hrep (alike_first _ _) H).
    - pose proof (f_equal (fun f => f (first_answers (pheight pt) o)) H) as H1. pose proof (f_equal (fun f => f o) H) as H2.
      cbn beta in H1, H2. rewrite H1, H2. apply (simple_insert_alike _ _ e k v m pt Hrep (alike_first _ _)). }
  destruct (simple_exec e (to_map (call o)) m) as [r m'] eqn:He.
  assert (Hhas : forall o, sset_has (call o) = true) by (intros ?; by destruct Hc as [[]|[x ->]]).
  rewrite (sset_exec_eq e _ m pt r m' Hrep (Hhas _) H), (sset_exec_eq e _ m pt r m' Hrep (Hhas _) He).
  f_equal. destruct r; simpl; [|done..]. f_equal. by apply sfrom_out_call.
Qed.

Lemma sset_height_len e (m : sset T) (t : stree T) : sset_reachable e m -> sset_shows m t -> (N.of_nat (sheight t) <= sset_len m)%N.
Proof.
  intros Hm Hs. destruct (sset_reachable_rep _ _ Hm) as (pt & Hrep).
  pose proof (sset_exposes_fun _ _ _ Hs _ (sset_rep_shows _ _ Hrep)) as Ht.
  assert (Hh : sheight t = pheight pt) by (by rewrite <- Ht, vt_height, ProofCost.erase_height).
  unfold sset_len, simple_len. rewrite Hh, (proj2 (simple_rep_nodes _ _ Hrep)). pose proof (pheight_size pt). lia.
Qed.

Lemma set_space e (m : bstset T) (t : stree T) d n : set_reachable e m -> set_shows m t ->
  exists it xs it', set_iter_start m d = Ret it /\ set_nexts (set_iter_next m d) n it = (Ret xs, it') /\
    length (it_stack it') <= stack_bound d (sheight t) /\ forall p, times p (it_reads it') <= read_bound d false.
Proof.
  intros Hm Hs. destruct (set_reachable_rep _ _ Hm) as (Hr & pt & fl & Hrep).
  pose proof (set_shows_fun _ _ _ (set_shows_rep _ _ _ Hrep) Hs) as ->. rewrite vt_height.
  destruct (space_bound e m _ d false n Hr (rep_shows _ _ _ Hrep)) as (it & xs & it' & H1 & H2 & H3).
  exists it. rewrite set_nexts_eq. change (any_next m d false) with (iter_next m d) in H2. rewrite H2. by eexists _, _.
Qed.

Lemma sset_space e (m : sset T) (t : stree T) d n : sset_reachable e m -> sset_shows m t ->
  exists it xs it', sset_iter_start m d = Ret it /\ simple_nexts (sset_iter_next m d) n it = (Ret xs, it') /\
    length it' <= stack_bound d (sheight t).
Proof.
  intros Hm Hs. destruct (sset_reachable_rep _ _ Hm) as (pt & Hrep).
  pose proof (sset_exposes_fun _ _ _ Hs _ (sset_rep_shows _ _ Hrep)) as Ht.
  assert (Hh : sheight t = pheight pt) by (by rewrite <- Ht, vt_height, ProofCost.erase_height). rewrite Hh.
  destruct (stack_start m pt d Hrep) as (it & Hit & Hinv). destruct (stack_nexts m pt d Hrep n it Hinv) as (xs & it' & Heq & H').
  exists it. rewrite sset_nexts_eq, Heq. eexists _, it'. split_and!; [done|done|]. by apply stack_inv_bound.
Qed.

Lemma set_inserts_map os (l : list T) : to_map <$> set_inserts os l = inserts os (units l).
Proof.
  unfold set_inserts, inserts. revert os. induction l as [|x l IH]; intros os; [done|].
  cbn [imap units]. rewrite fmap_cons. f_equal. apply (IH (fun j => os (S j))).
Qed.

Lemma units_sorted cmp (l : list T) : set_sorted cmp l -> sorted cmp (units l).
Proof.
  unfold sorted, set_sorted. induction 1 as [|x l Hl IH Hx]; cbn; constructor; [done|].
  rewrite <- units_fmap. apply Forall_fmap. eapply Forall_impl; [exact Hx|]. done.
Qed.

Lemma vt_spine (l : list T) : values_tree (right_spine (units l)) = set_right_spine l.
Proof. induction l as [|x l IH]; [done|]. cbn. by f_equal. Qed.

Variable cmp : T -> T -> comparison.
Hypothesis Hlaw : lawful cmp.

Lemma aligned_returned cs : forall xs rs, aligned (T := T) cs xs rs -> returned_all xs -> returned_all rs.
Proof.
  induction cs as [|c cs IH]; intros [|x xs] [|r rs]; try done; try (intros; constructor).
  - destruct H as [[t ->] _]. apply Forall_cons in H0 as [[y H1] _]. destruct r; try done. by eexists.
  - destruct H as [_ H]. apply Forall_cons in H0 as [_ H1]. by eapply IH.
Qed.

Lemma set_sorted_insertion e s items x os rs (m : bstset T) : (s = SetNew \/ exists c, s = SetWithCapacity c) ->
  set_sorted cmp (items ++ [x]) -> legal_inserts cmp os -> set_reached e s (set_inserts os (items ++ [x])) rs m -> returned_all rs ->
  set_shows m (set_right_spine (items ++ [x])) /\ set_count e m = N.of_nat (S (length items)) /\
  forall n, n <= length items -> (set_exec e (SetContains (first_answers n (fun _ y => Some (cmp x y)))) m).1 = Panic PCmp.
Proof.
  intros Hst Hs Hos Hre Hall. destruct (set_reached_aligned _ _ _ _ _ Hre) as (rs' & Hre' & Hal).
  rewrite set_inserts_map in Hre'. apply units_sorted in Hs.
  rewrite <- vt_spine. assert (Hu : units (items ++ [x]) = units items ++ [(x, tt)]) by (by rewrite <- !units_fmap, fmap_app).
  rewrite Hu in Hs. rewrite Hu in Hre'. rewrite Hu.
  destruct (sorted_insertion cmp Hlaw e (start_to_map s) (units items) x tt os rs' m) as (Hsh & Hlen & Hn); try done.
  { destruct Hst as [->|[c ->]]; cbn; [by left|right; by eexists]. }
  { by eapply aligned_returned. }
  assert (Hr : reachable e m).
  { eexists _, _, _. split; [exact Hre'|]. eapply Forall_impl; [by eapply aligned_returned|]. by intros r [y ->]. }
  destruct (reachable_rep _ _ Hr) as (pt & fl & Hrep). split_and!.
  - rewrite (rep_shows_eq _ _ _ _ Hrep Hsh). by eapply set_shows_rep.
  - rewrite set_count_map, Hlen. by rewrite units_length.
  - intros n Hle. rewrite units_length in Hn. specialize (Hn n Hle).
    destruct (exec e (to_map (SetContains (first_answers n (fun _ y => Some (cmp x y))))) m) as [r m'] eqn:He.
    rewrite (set_exec_eq e _ m pt fl r m' Hrep He). cbn [to_map] in He.
    destruct (exec_otree e _ m pt fl r m' Hrep He) as (t' & fl' & _ & [Hc|[Hc|Hc]]); try done.
    cbn [otree_call] in Hc.
    destruct (exec e (OGet (first_answers n (fun _ y => Some (cmp x y)))) m) as [r2 m2] eqn:He2. cbn [fst] in Hn. subst r2.
    destruct (exec_otree e _ m pt fl _ m2 Hrep He2) as (t2 & fl2 & _ & [Hc2|[Hc2|Hc2]]); try done.
    cbn [otree_call] in Hc2. destruct (otree_find _ 0 (erase pt)); [done|]. cbn in Hc. by injection Hc as <- _.
Qed.

Lemma sset_steps_map cs : forall (t : tree T unit) xs u, sset_steps t cs xs u -> returned_all xs ->
  exists rs, steps stree_step t (to_map <$> cs) rs u /\ returned_all rs.
Proof.
  induction cs as [|c cs IH]; intros t [|x xs] u; cbn [sset_steps]; try done.
  - intros -> _. exists []. split; [done|constructor].
  - intros [(-> & _)|(r & t1 & -> & Hc & _ & Hst)] Hall; apply Forall_cons in Hall as [[y Hy] Hall]; [done|].
    destruct r as [z| | | |]; try done. destruct (IH _ _ _ Hst Hall) as (rs & H1 & H2).
    exists (Ret z :: rs). split; [|constructor; [by eexists|done]]. exists t1. split; [by left|done].
Qed.

Lemma sset_sorted_insertion e items x os rs (m : sset T) :
  set_sorted cmp (items ++ [x]) -> legal_inserts cmp os -> sset_reached e SetNew (set_inserts os (items ++ [x])) rs m -> returned_all rs ->
  sset_shows m (set_right_spine (items ++ [x])) /\ sset_len m = N.of_nat (S (length items)) /\
  forall n, n <= length items -> (sset_exec e (SetContains (first_answers n (fun _ y => Some (cmp x y)))) m).1 = Panic PCmp.
Proof.
  intros Hs Hos Hre Hall.
  assert (Hhas : Forall (fun c => sset_has c = true) (set_inserts os (items ++ [x]))).
  { unfold set_inserts. apply Forall_forall. intros c Hc. apply elem_of_lookup_imap in Hc as (i & y & -> & _). done. }
  destruct (sset_reached_steps e SetNew _ _ _ eq_refl Hhas Hre) as (t0 & u & Hb & Hst & Hrep). cbn in Hb. subst t0.
  assert (Hal : alive rs). { eapply Forall_impl; [exact Hall|]. by intros r [y ->]. }
  destruct (Hrep Hal) as (t & Ht & <-). clear Hrep.
  destruct (sset_steps_map _ _ _ _ Hst Hall) as (rs' & Hst' & Hall'). rewrite set_inserts_map in Hst'.
  apply units_sorted in Hs.
  assert (Hu : units (items ++ [x]) = units items ++ [(x, tt)]) by (by rewrite <- !units_fmap, fmap_app).
  pose proof (stree_inserts cmp Hlaw os _ Hos 0 _ _ _ Hst' Hall') as Hsp.
  rewrite (sorted_spine cmp Hlaw _ Hs) in Hsp. rewrite <- vt_spine, <- Hsp. rewrite Hu in Hsp. rewrite Hu in Hs. split_and!.
  - by apply sset_rep_shows.
  - unfold sset_len, simple_len. rewrite (proj2 (simple_rep_nodes _ _ Ht)), <- erase_size, Hsp, spine_inorder, app_length, units_length.
    simpl. f_equal. lia.
  - intros n Hn. pose proof (spine_search_cut x tt (units items) (fun _ y => Some (cmp x y))) as Hcut. rewrite units_length in Hcut.
    specialize (Hcut ltac:(eapply Forall_impl; [by apply (sorted_last cmp Hlaw x tt)|]; intros y Hy i; simpl; by rewrite Hy) n 0 Hn).
    rewrite <- Hsp in Hcut. simpl in Hcut.
    destruct (sset_exec e (SetContains (first_answers n (fun _ y => Some (cmp x y)))) m) as [r m'] eqn:Hex.
    pose proof (fun H => sset_exec_cases e _ m t r m' Ht H Hex) as Hx.
    destruct (Hx eq_refl) as [[_ Ha]|(r1 & t' & -> & _ & Hc & _)]; [done|].
    cbn [stree_call otree_call to_map] in Hc. rewrite Hcut in Hc. by injection Hc as <- _.
Qed.

End sets.
