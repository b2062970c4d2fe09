(** * SimpleBSTSet with any comparator, and sets whose destructors panic: proofs *)

From Coq Require Import String.
From Verif Require Export SpecSetDrops ProofSetSafety ProofSimpleSet ProofDropsMore ProofSimpleDrops.
Local Open Scope nat_scope.

(** ** C76 *)
Section any.
Context {T : Type}.
Implicit Types m : sset T.

Lemma vt_clone ck (t : tree T unit) : forall j, stree_clone ck j (values_tree t) =
  option_map values_tree (tree_clone ck (fun _ _ => Some tt) j t).
Proof.
  induction t as [|l IHl x [] r IHr]; intros j; cbn [values_tree stree_clone tree_clone]; [done|].
  destruct (ck j x) as [x'|]; [|done]. rewrite IHl. destruct (tree_clone ck _ (S j) l) as [l'|]; cbn [option_map]; [|done].
  rewrite stree_order_values, fmap_length, IHr. cbn [tree_order].
  by destruct (tree_clone ck _ (S j + length (tree_inorder l)) r).
Qed.

Lemma vt_scall c (t t' : tree T unit) r : stree_call (to_map c) t = Some (r, t') ->
  sstree_call c (values_tree t) = Some (rmap (sfrom_out t c) r, values_tree t').
Proof.
  intros H.
  assert (Hgo : otree_call (to_map c) t = Some (r, t') -> ostree_call c (values_tree t) = Some (rmap (from_out t c) r, values_tree t')).
  { intros H1. pose proof (vt_step t c r t' (or_introl H1)) as H2. unfold ostree_step in H2. destruct H2 as [H2|[H2|H2]]; [done|by destruct H2 as [-> _]|].
    destruct c; try done; cbn [to_map otree_call] in H1; try injection H1 as <- <-; exfalso.
    - destruct H2 as [H2 _]. destruct (otree_insert o 0 x tt t); destruct H2 as [?|[?|?]]; done.
    - destruct H2 as [H2 _]. revert H2. repeat case_match; intros [[?|[?|?]]|?]; done.
    - destruct H2 as [H2 _]. injection H1 as H1. revert H1 H2. repeat case_match; intros [= <- <-] [?|[?|?]]; done. }
  destruct c; try (by apply Hgo); try done; cbn [to_map stree_call sstree_call] in *.
  - injection H as <- <-. done.
  - injection H as H. rewrite vt_clone. destruct (tree_clone ck _ 0 t); injection H as <- <-; done.
Qed.

Lemma sset_call_tree e c m t x m' : simple_rep m t -> sset_has c = true -> sset_exec e c m = (x, m') ->
  (x = Abort /\ set_allocates c = true) \/
  exists t', simple_rep m' t' /\ sstree_call c (values_tree (erase t)) = Some (x, values_tree (erase t')) /\
    ((exists y, x = Ret y) \/ exists p, x = Panic p).
Proof.
  intros H Hc He. destruct (sset_exec_cases _ _ _ _ _ _ H Hc He) as [?|(r & t' & -> & Hr & Hs & Hx)]; [by left|right].
  exists t'. split_and!; [done|by apply vt_scall|]. destruct Hx as [[y ->]|[p ->]]; [left|right]; by eexists.
Qed.

Lemma sset_any_call e c m (t : stree T) x m' : sset_reachable e m -> sset_shows m t -> sset_has c = true ->
  sset_exec e c m = (x, m') ->
  (x = Abort /\ set_allocates c = true) \/ exists t' : stree T, sset_shows m' t' /\ sstree_call c t = Some (x, t').
Proof.
  intros Hm Hs Hc He. destruct (sset_reachable_rep _ _ Hm) as [pt Hr].
  rewrite <- (sset_exposes_fun _ _ _ Hs _ (sset_rep_shows _ _ Hr)).
  destruct (sset_call_tree _ _ _ _ _ _ Hr Hc He) as [?|(t' & Hr' & Hst & _)]; [by left|right].
  exists (values_tree (erase t')). split; [by apply sset_rep_shows|done].
Qed.

Lemma sset_run_tree e cs : forall m t xs m', simple_rep m t -> Forall (fun c => sset_has c = true) cs ->
  sset_run e cs m = (xs, m') ->
  exists u, steps sstree_step (values_tree (erase t)) cs xs u /\ (alive xs -> exists t', simple_rep m' t' /\ values_tree (erase t') = u).
Proof.
  induction cs as [|c cs IH]; intros m t xs m' H Hcs Hrun; cbn [sset_run] in Hrun.
  - injection Hrun as <- <-. exists (values_tree (erase t)). split; [done|]. intros _. by exists t.
  - apply Forall_cons in Hcs as [Hc Hcs]. destruct (sset_exec e c m) as [x m1] eqn:He.
    destruct (sset_call_tree _ _ _ _ _ _ H Hc He) as [[-> Ha]|(t1 & Hr1 & Hst & Hx)].
    + injection Hrun as <- <-. exists (values_tree (erase t)). split.
      * exists (values_tree (erase t)). split; [by right|done].
      * intros Hal. by apply Forall_cons in Hal as [? _].
    + destruct (sset_run e cs m1) as [xs1 m2] eqn:Hr. destruct (IH _ _ _ _ Hr1 Hcs Hr) as (u & Hu & Hal).
      assert (xs = x :: xs1 /\ m' = m2) as [-> ->] by (destruct Hx as [[y ->]|[p ->]]; injection Hrun as <- <-; done).
      exists u. split.
      * exists (values_tree (erase t1)). split; [by left|]. by destruct Hx as [[y ->]|[p ->]].
      * intros Ha. apply Forall_cons in Ha as [_ Ha]. by apply Hal.
Qed.

Lemma sset_any e (s : set_start T) cs xs m : sset_has_start s = true -> Forall (fun c => sset_has c = true) cs ->
  sset_reached e s cs xs m ->
  exists t0 t : stree T, ostree_start s t0 /\ steps sstree_step t0 cs xs t /\
    (alive xs -> sset_shows m t /\ forall d, sset_yields m d (stree_order d t)).
Proof.
  intros Hs Hcs (m0 & Hb & Hr). destruct (sset_reached_steps e s [] [] m0 Hs ltac:(constructor)) as (t0 & u & Ht0 & Hu & Hx).
  { by exists m0. }
  cbn [sset_steps] in Hu. subst u. destruct (Hx ltac:(constructor)) as (t & Hrep & <-).
  destruct (sset_run_tree _ _ _ _ _ _ Hrep Hcs Hr) as (u & Hu & Hal). exists (values_tree (erase t)), u.
  split_and!; [by apply vt_start|done|]. intros Ha. destruct (Hal Ha) as (t' & Hr' & <-).
  split; [by apply sset_rep_shows|]. intros d. by apply sset_rep_yields.
Qed.

End any.

(** ** Calls of the set and of the map *)
Section translate.
Context {T : Type}.

Lemma bads_just bad (l : list (T + unit)) : bads (bad_item bad) l = set_bads bad (just_values l).
Proof. induction l as [|[x|u] l IH]; [done|cbn; by rewrite IH|exact IH]. Qed.

Lemma just_leaked n (L : list (T + unit)) : leaked true n L -> just_values L = [].
Proof. intros [_ H]. induction H as [|x L [u ->] H IH]; [done|exact IH]. Qed.

Lemma units_cut n (it : user_iter T) :
  mkUserIter (ui_lo (with_units it)) (ui_hi (with_units it)) (take n (ui_items (with_units it))) false =
  with_units (mkUserIter (ui_lo it) (ui_hi it) (take n (ui_items it)) false).
Proof. unfold with_units. cbn. f_equal. by rewrite fmap_take. Qed.

Lemma rmap_ret {A B} (f : A -> B) r : (exists x, r = Ret x) -> exists y, rmap f r = Ret y.
Proof. intros [x ->]. by eexists. Qed.

(** [f c]: how the set turns results of the map into its own. *)
Lemma cut_map (f : set_op T -> out T unit -> set_out T) c r c1 r1 : acts_as (to_map c) r c1 r1 ->
  exists c', c1 = to_map c' /\ set_as_if set_cut_of c (rmap (f c) r) c' (rmap (f c') r1).
Proof.
  intros [[-> ->]|(-> & Hp & Hx)]; [exists c; split; [done|by left]|].
  assert (Hc : exists c', c1 = to_map c' /\ set_cut_of c c').
  { destruct c; cbn [to_map cut_of set_cut_of] in *; try (subst c1; eexists; split; [|reflexivity]; reflexivity).
    destruct Hp as (n & ->). exists (SetExtend os (mkUserIter (ui_lo it) (ui_hi it) (take n (ui_items it)) false)). split; [by rewrite units_cut|by exists n]. }
  destruct Hc as (c' & -> & Hc). exists c'. split; [done|]. right. split_and!; [done|done|by apply rmap_ret].
Qed.

Lemma part_map (f : set_op T -> out T unit -> set_out T) c r c1 r1 : as_if (to_map c) r c1 r1 ->
  exists c', c1 = to_map c' /\ set_as_if set_part_of c (rmap (f c) r) c' (rmap (f c') r1).
Proof.
  intros [[-> ->]|(-> & Hp & Hx)]; [exists c; split; [done|by left]|].
  assert (Hc : exists c', c1 = to_map c' /\ set_part_of c c').
  { destruct c; cbn [to_map part_of set_part_of] in *; try (subst c1; eexists; split; [|reflexivity]; reflexivity).
    - destruct Hp as (n & ->). exists (SetExtend os (mkUserIter (ui_lo it) (ui_hi it) (take n (ui_items it)) false)). split; [by rewrite units_cut|by exists n].
    - destruct Hp as [-> | ->]; [exists (SetClone os ck); split; [done|by left]|exists SetCapacity; split; [done|by right]]. }
  destruct Hc as (c' & -> & Hc). exists c'. split; [done|]. right. split_and!; [done|done|by apply rmap_ret].
Qed.

Lemma staken_map (t : tree T unit) (c : set_op T) r g : taken (to_map c) r g -> set_taken c (rmap (sfrom_out t c) r) (just_values g).
Proof. intros H%(set_taken_map t). destruct c, r; exact H. Qed.

Lemma shanded_map (t : tree T unit) (c : set_op T) r : just_values (handed (to_map c) r) = set_handed c (rmap (sfrom_out t c) r).
Proof. rewrite (set_handed_map t). by destruct c. Qed.

Lemma cloned_values ck (l : list (T * unit)) : forall j, just_values (cloned ck (fun _ _ => Some tt) j l) = (value_clones ck j l.*1).1.
Proof.
  induction l as [|[x []] l IH]; intros j; cbn [cloned]; [done|]. rewrite fmap_cons. cbn [value_clones fst].
  destruct (ck j x) as [x'|]; [|done]. specialize (IH (S j)). destruct (value_clones ck (S j) l.*1) as [l' b].
  cbn in IH |- *. f_equal. exact IH.
Qed.

Lemma took_map (t : tree T unit) (c : set_op T) r g (l : list (T * unit)) :
  took l (to_map c) r g -> set_took l.*1 c (rmap (sfrom_out t c) r) (just_values g).
Proof. destruct c; try (by apply staken_map). cbn. intros ->. apply cloned_values. Qed.

End translate.

(** ** SimpleBSTSet *)
Section simple.
Context {T : Type}.
Implicit Types m : simple T unit.
Implicit Types log : list (T + unit).

Lemma wset_exec_eq bad e c log m t r s1 : simple_rep m t -> sset_has c = true ->
  wexec true (bad_item bad) e (to_map c) (log, m) = (r, s1) ->
  wset_exec bad e c (log, m) = (rmap (sfrom_out (erase t) c) r, s1).
Proof.
  intros H Hc He.
  assert (Hm : wexec true (bad_item bad) e (to_map c) = on_map (simple_exec e (to_map c)) ->
    wset_exec bad e c = on_map (sset_exec e c) -> wset_exec bad e c (log, m) = (rmap (sfrom_out (erase t) c) r, s1)).
  { intros H1 H2. rewrite H2. rewrite H1, on_map_eq in He. rewrite (on_map_eq (sset_exec e c)).
    destruct (simple_exec e (to_map c) m) as [r0 m0] eqn:Hs. by rewrite (sset_exec_eq _ _ _ _ _ _ H Hc Hs); injection He as <- <-. }
  destruct c; try (by apply Hm); try done; cbn [to_map wexec] in He; cbn [wset_exec].
  - unfold wset_insert. rewrite <- sbind_assoc.
    destruct (winsert true (bad_item bad) e o x tt (log, m)) as [r1 s2] eqn:H1. rewrite (bind_step _ _ _ _ _ H1). rewrite (bind_step _ _ _ _ _ H1) in He.
    destruct r1; by injection He as <- <-.
  - destruct (simple_remove_entry e o m) as [r0 m1] eqn:Hr.
    assert (Hs : on_map (sset_take e o) (log, m) = (rmap (option_map fst) r0, (log, m1))).
    { rewrite on_map_eq. unfold sset_take. rewrite (bind_step _ _ _ _ _ Hr). by destruct r0. }
    unfold wset_remove. rewrite <- sbind_assoc, (bind_step _ _ _ _ _ Hs).
    unfold wremove in He. rewrite <- sbind_assoc in He.
    rewrite (bind_step (on_map _) _ _ r0 (log, m1)) in He by (by rewrite on_map_eq, Hr).
    destruct r0 as [[[x []]|]|p| |u|]; try (by injection He as <- <-).
    cbn [rmap option_map]. unfold wreturn_past, wdestroy, settle in *. cbv beta iota delta [sbind smod sret sfail slift] in *.
    cbn [fst snd bad_item] in *. destruct (bad x) eqn:Hb; cbn in He |- *; rewrite ?Hb; by injection He as <- <-.
  - unfold wset_clear. destruct (wclear (bad_item bad) (log, m)) as [r1 s2] eqn:H1. rewrite (bind_step _ _ _ _ _ H1). rewrite (bind_step _ _ _ _ _ H1) in He.
    destruct r1; by injection He as <- <-.
  - unfold wset_extend. destruct (wextend true (bad_item bad) e os (with_units it) (log, m)) as [r1 s2] eqn:H1. rewrite (bind_step _ _ _ _ _ H1). rewrite (bind_step _ _ _ _ _ H1) in He.
    destruct r1; by injection He as <- <-.
  - unfold wset_clone_and_replace. destruct (wclone_and_replace (bad_item bad) e ck (fun _ _ => Some tt) (log, m)) as [r1 s2] eqn:H1. rewrite (bind_step _ _ _ _ _ H1). rewrite (bind_step _ _ _ _ _ H1) in He.
    destruct r1; by injection He as <- <-.
Qed.

Definition values (t : ptree T unit) : list T := (tree_preorder (erase t)).*1.
Lemma contents_values (t : ptree T unit) : just_values (contents t) = values t.
Proof. apply just_owned. Qed.

(** What a call did, destroyed and handed back. *)
Lemma wset_exec_spec bad e c log m t x s1 : simple_rep m t -> sset_has c = true -> wset_exec bad e c (log, m) = (x, s1) -> x <> Abort ->
  exists c' x' g t1 d, set_as_if set_cut_of c x c' x' /\ sset_has c' = true /\ sset_exec e c' m = (x', s1.2) /\ set_took (values t) c' x' g /\
    simple_rep s1.2 t1 /\ s1.1 = log ++ d /\
    values t1 ++ just_values d ++ set_handed c x ≡ₚ values t ++ g /\ set_bads bad (just_values d) = drop_panics x /\
    ((exists y, x = Ret y) \/ exists p, x = Panic p).
Proof.
  intros H Hc He Hna. destruct (wexec true (bad_item bad) e (to_map c) (log, m)) as [r s2] eqn:Hw.
  rewrite (wset_exec_eq _ _ _ _ _ _ _ _ H Hc Hw) in He. injection He as <- <-.
  assert (Hna' : r <> Abort) by (by intros ->).
  destruct (wexec_spec true (bad_item bad) e (to_map c) log m t r s2 H (to_map_has _ Hc) Hw Hna')
    as (c1 & r1 & g & Ha & Hs & Htk & t1 & d & L & Hr1 & Hd & HL & Hp & Hb).
  destruct (cut_map (sfrom_out (erase t)) c r c1 r1 Ha) as (c' & -> & Hcut).
  assert (Hc' : sset_has c' = true).
  { destruct Hcut as [[-> _]|(_ & Hcut & _)]; [done|]. destruct c; cbn in Hcut; try (by subst c'). by destruct Hcut as (? & ->). }
  exists c', (rmap (sfrom_out (erase t) c') r1), (just_values g), t1, d. split_and!; try done.
  - by eapply sset_exec_eq.
  - by apply took_map.
  - rewrite <- (shanded_map (erase t) c r), <- !contents_values, <- !just_app. rewrite <- (just_perm _ _ Hp), !just_app.
    by rewrite (just_leaked _ _ HL), app_nil_r.
  - rewrite <- bads_just, Hb. by destruct r as [|[]| | |].
  - destruct (wexec_defined true (bad_item bad) e (to_map c) log m t r _ H (to_map_has _ Hc) Hw) as [_ Hr]. destruct (Hr Hna') as [[y ->]|[p ->]]; [left|right]; by eexists.
Qed.

(** *** Histories *)

Definition to_call (x : set_dcall T) : dcall T unit := (bad_item x.1, to_map x.2).

Lemma to_calls (s : set_start T) cs : sset_calls s cs -> simple_calls (start_to_map s) (to_call <$> cs).
Proof.
  intros [Hs Hcs]. split; [by apply start_to_map_has|]. apply Forall_fmap. eapply Forall_impl; [exact Hcs|].
  intros [bad c] Hc. by apply to_map_has.
Qed.

Lemma wset_begin_eq bad e (s : set_start T) : wset_begin bad e s = wbegin true (bad_item bad) e (start_to_map s).
Proof. by destruct s. Qed.

Lemma wset_run_map e cs : forall log m t xs s1, simple_rep m t -> Forall (fun c => sset_has c.2 = true) cs ->
  wset_run e cs (log, m) = (xs, s1) ->
  exists rs, wrun true e (to_call <$> cs) (log, m) = (rs, s1) /\ (alive xs -> alive rs).
Proof.
  induction cs as [|[bad c] cs IH]; intros log m t xs s1 H Hcs Hrun; cbn [wset_run] in Hrun.
  - injection Hrun as <- <-. exists []. split; [done|]. intros _. constructor.
  - rewrite fmap_cons. unfold to_call at 1. cbn [fst snd wrun].
    apply Forall_cons in Hcs as [Hc Hcs]. cbn [snd] in Hc.
    destruct (wexec true (bad_item bad) e (to_map c) (log, m)) as [r [log1 m1]] eqn:Hw.
    pose proof (wset_exec_eq _ _ _ _ _ _ _ _ H Hc Hw) as Hx. rewrite Hx in Hrun.
    assert (r = Abort \/ r <> Abort) as [->|Hna] by (destruct r; auto).
    { injection Hrun as <- <-. eexists. split; [done|]. intros Hal. by apply Forall_cons in Hal as [? _]. }
    assert (Hna' : rmap (sfrom_out (erase t) c) r <> Abort) by (by destruct r).
    destruct (wset_exec_spec _ _ _ _ _ _ _ _ H Hc Hx Hna') as (_ & _ & _ & t1 & _ & _ & _ & _ & _ & Hr1 & _ & _ & _ & Hret).
    cbn [snd] in Hr1. destruct (wset_run e cs (log1, m1)) as [xs1 s2] eqn:Hrun1.
    destruct (IH _ _ _ _ _ Hr1 Hcs Hrun1) as (rs1 & Hr & Hal). rewrite Hr.
    destruct r as [y|p| |u|]; try (by destruct Hret as [[? ?]|[? ?]]); injection Hrun as <- <-; eexists; (split; [done|]);
      intros Ha; apply Forall_cons in Ha as [_ Ha]; (constructor; [done|by apply Hal]).
Qed.

Lemma wset_reached_map e bad (s : set_start T) cs xs log m : sset_calls s cs -> wset_reached e bad s cs xs log m -> alive xs ->
  exists rs, simple_calls (start_to_map s) (to_call <$> cs) /\
    wreached true e (bad_item bad) (start_to_map s) (to_call <$> cs) rs log m /\ alive rs.
Proof.
  intros Hc ([log0 m0] & Hb & Hrun) Hal. pose proof (to_calls _ _ Hc) as Hc'. rewrite wset_begin_eq in Hb.
  pose proof (wbegin_spec true (bad_item bad) e (start_to_map s) (proj1 Hc')) as Hbs. rewrite Hb in Hbs.
  destruct Hbs as (_ & t & _ & Hr & _). destruct (wset_run_map _ _ _ _ _ _ _ Hr (proj2 Hc) Hrun) as (rs & Hr' & Ha).
  exists rs. split_and!; [done| |by apply Ha]. by exists (log0, m0).
Qed.

Lemma set_cut_legal (cmp : T -> T -> comparison) c x c' x' : set_as_if set_cut_of c x c' x' -> set_legal cmp c -> set_legal cmp c'.
Proof. intros [[-> _]|(_ & Hc & _)] H; [done|]. destruct c; cbn in Hc; try (by subst c'). by destruct Hc as (n & ->). Qed.
Lemma set_cut_clone (c : set_op T) x c' x' : set_as_if set_cut_of c x c' x' -> set_no_clone c -> set_no_clone c'.
Proof. intros [[-> _]|(_ & Hc & _)] H; [done|]. destruct c; cbn in Hc; try (by subst c'). by destruct Hc as (n & ->). Qed.

Lemma wset_run_spec e cs : forall log m t xs log' m', simple_rep m t -> Forall (fun c => sset_has c.2 = true) cs ->
  wset_run e cs (log, m) = (xs, (log', m')) ->
  Forall defined xs /\ (alive xs -> exists cs' xs' t', sset_run e cs' m = (xs', m') /\ set_all_as_if set_cut_of cs xs cs' xs' /\
    alive xs' /\ simple_rep m' t' /\ Forall (fun c => sset_has c = true) cs' /\
    (forall cmp, Forall (set_legal cmp) cs.*2 -> Forall (set_legal cmp) cs') /\
    (Forall set_no_clone cs.*2 -> exists G B, set_ledger cs' xs' G B /\
       values t' ++ just_values log' ++ set_all_back cs xs ≡ₚ values t ++ just_values log ++ G)).
Proof.
  induction cs as [|[bad c] cs IH]; intros log m t xs log' m' H Hcs Hrun; cbn [wset_run] in Hrun.
  - injection Hrun as <- <- <-. split; [constructor|]. intros _. exists [], [], t. split_and!; try done; [by constructor|].
    intros _. exists [], []. split; [done|]. cbn [set_all_back]. by rewrite !app_nil_r.
  - apply Forall_cons in Hcs as [Hc Hcs]. cbn [snd] in Hc.
    destruct (wset_exec bad e c (log, m)) as [x [log1 m1]] eqn:He.
    assert (x = Abort \/ x <> Abort) as [->|Hna] by (destruct x; auto).
    { injection Hrun as <- <- <-. split; [by constructor|]. intros Hal. apply Forall_cons in Hal as [? _]. done. }
    destruct (wset_exec_spec _ _ _ _ _ _ _ _ H Hc He Hna) as (c' & x' & g & t1 & d & Ha & Hc' & Hs & Htk & Hr1 & Hd & Hp & Hb & Hret).
    cbn [fst snd] in *.
    destruct (wset_run e cs (log1, m1)) as [xs1 [log2 m2]] eqn:Hrun1.
    assert (xs = x :: xs1 /\ log' = log2 /\ m' = m2) as (-> & -> & ->).
    { destruct Hret as [[y ->]|[q ->]]; injection Hrun as <- <- <-; done. }
    destruct (IH log1 m1 t1 xs1 log2 m2 Hr1 Hcs Hrun1) as [Hdefs Hrest]. split; [constructor; [|done]; by destruct Hret as [[y ->]|[q ->]]|].
    intros Hal. apply Forall_cons in Hal as [_ Hal].
    destruct (Hrest Hal) as (cs' & xs' & t' & Hs' & Ha' & Hal' & Hr' & Hhas & Hleg & Hled).
    assert (Hx' : (exists y, x' = Ret y) \/ exists p, x' = Panic p).
    { destruct Ha as [[_ ->]|(_ & _ & y & ->)]; [done|by left; eexists]. }
    exists (c' :: cs'), (x' :: xs'), t'. split; [|split; [|split; [|split; [|split; [|split]]]]].
    + cbn [sset_run]. rewrite Hs. destruct Hx' as [[y ->]|[q ->]]; by rewrite Hs'.
    + by split.
    + constructor; [|done]. destruct Hx' as [[y ->]|[q ->]]; done.
    + done.
    + by constructor.
    + intros cmp. rewrite fmap_cons. intros [Hl1 Hl2]%Forall_cons. constructor; [by eapply set_cut_legal|by apply Hleg].
    + rewrite fmap_cons. intros [Hn1 Hn2]%Forall_cons. destruct (Hled Hn2) as (G & B & Hl & Hp2).
      exists (g ++ G), (set_handed c' x' ++ B). split.
      * exists g, G, B. split_and!; try done. pose proof (set_cut_clone _ _ _ _ Ha Hn1). by destruct c'.
      * cbn [set_all_back snd]. transitivity ((values t' ++ just_values log2 ++ set_all_back cs xs1) ++ set_handed c x); [solve_Permutation|].
        rewrite Hp2, Hd, just_app. transitivity ((values t1 ++ just_values d ++ set_handed c x) ++ just_values log ++ G); [solve_Permutation|].
        rewrite Hp. solve_Permutation.
Qed.

Lemma wset_reached_spec e bad (s : set_start T) cs xs log m : sset_calls s cs -> wset_reached e bad s cs xs log m ->
  Forall defined xs /\ (alive xs -> exists cs' xs' t', sset_reached e s cs' xs' m /\ set_all_as_if set_cut_of cs xs cs' xs' /\
    alive xs' /\ simple_rep m t' /\ Forall (fun c => sset_has c = true) cs' /\
    (forall cmp, Forall (set_legal cmp) cs.*2 -> Forall (set_legal cmp) cs') /\
    (Forall set_no_clone cs.*2 -> exists G B, set_ledger cs' xs' G B /\
       values t' ++ just_values log ++ set_all_back cs xs ≡ₚ set_start_taken s ++ G)).
Proof.
  intros Hc ([log0 m0] & Hb & Hrun). pose proof (to_calls _ _ Hc) as [Hs' _]. rewrite wset_begin_eq in Hb.
  pose proof (wbegin_spec true (bad_item bad) e (start_to_map s) Hs') as Hbs. rewrite Hb in Hbs.
  destruct Hbs as (Hsb & t & L & Hr & HL & Hp & _).
  destruct (wset_run_spec e cs log0 m0 t xs log m Hr (proj2 Hc) Hrun) as [Hdef Hrest]. split; [done|]. intros Hal.
  destruct (Hrest Hal) as (cs' & xs' & t' & Hs & Ha & Hal' & Hr' & Hhas & Hleg & Hled).
  exists cs', xs', t'. split_and!; try done; [exists m0; by rewrite sset_begin_eq|]. intros Hn.
  destruct (Hled Hn) as (G & B & Hl & Hp2). exists G, B. split; [done|]. rewrite Hp2, app_assoc.
  rewrite <- start_taken_map, <- (just_perm _ _ Hp), !just_app, (just_leaked _ _ HL), app_nil_r, contents_values. done.
Qed.

Lemma wset_reached_rep e bad (s : set_start T) cs xs log m : sset_calls s cs -> wset_reached e bad s cs xs log m -> alive xs ->
  exists t, simple_rep m t.
Proof. intros Hc Hw Hal. destruct (wset_reached_spec e bad s cs xs log m Hc Hw) as [_ H]. destruct (H Hal) as (_ & _ & t & _ & _ & _ & ? & _). by exists t. Qed.

Lemma sset_yields_rep m t d l : simple_rep m t -> sset_yields m d l -> l = (tree_order d (erase t)).*1.
Proof. intros Hr Hy. rewrite (sset_yields_fun _ _ _ _ Hy (sset_rep_yields m t d Hr)). apply stree_order_values. Qed.

Lemma values_order d (t : ptree T unit) : values t ≡ₚ (tree_order d (erase t)).*1.
Proof. rewrite <- contents_values, <- just_owned. apply just_perm, contents_order. Qed.

(** *** The properties *)

Lemma wset_call e bad (s : set_start T) cs xs log m l bad' c x log' m' : sset_calls s cs -> wset_reached e bad s cs xs log m -> alive xs ->
  sset_has c = true -> sset_yields m Pre l -> wset_exec bad' e c (log, m) = (x, (log', m')) -> x <> Abort ->
  exists c' x' g, set_as_if set_cut_of c x c' x' /\ sset_exec e c' m = (x', m') /\ set_took l c' x' g /\
    forall d l', sset_yields m' d l' -> l' ++ just_values log' ++ set_handed c x ≡ₚ l ++ just_values log ++ g.
Proof.
  intros Hcs Hw Hal Hc Hy He Hna. destruct (wset_reached_rep _ _ _ _ _ _ _ Hcs Hw Hal) as [t Hr].
  rewrite (sset_yields_rep _ _ _ _ Hr Hy).
  destruct (wset_exec_spec _ _ _ _ _ _ _ _ Hr Hc He Hna) as (c' & x' & g & t1 & d & Ha & Hc' & Hs & Htk & Hr1 & Hd & Hp & Hb & Hret).
  cbn [fst snd] in *. exists c', x', g. split_and!; try done. intros d' l' Hy'. rewrite (sset_yields_rep _ _ _ _ Hr1 Hy').
  rewrite <- values_order, Hd, just_app. change ((tree_order Pre (erase t)).*1) with (values t).
  transitivity ((values t1 ++ just_values d ++ set_handed c x) ++ just_values log); [solve_Permutation|]. rewrite Hp. solve_Permutation.
Qed.

Lemma wset_conserved e bad (s : set_start T) cs xs log m : sset_calls s cs -> Forall set_no_clone cs.*2 ->
  wset_reached e bad s cs xs log m -> alive xs ->
  exists cs' xs' G B, set_all_as_if set_cut_of cs xs cs' xs' /\ set_ledger cs' xs' G B /\
    forall d l, sset_yields m d l -> l ++ just_values log ++ set_all_back cs xs ≡ₚ set_start_taken s ++ G.
Proof.
  intros Hc Hn Hw Hal. destruct (wset_reached_spec e bad s cs xs log m Hc Hw) as [_ H].
  destruct (H Hal) as (cs' & xs' & t & Hr & Ha & Hal' & Hrep & Hhas & _ & Hled). destruct (Hled Hn) as (G & B & Hl & Hp).
  exists cs', xs', G, B. split_and!; try done. intros d l Hy. by rewrite (sset_yields_rep _ _ _ _ Hrep Hy), <- values_order.
Qed.

Lemma wset_drop_exact e bad (s : set_start T) cs xs log m l bad' r log' m' : sset_calls s cs -> wset_reached e bad s cs xs log m -> alive xs ->
  sset_yields m Pre l -> wset_drop bad' (log, m) = (r, (log', m')) ->
  (r = match set_bads bad' l with 0 => Ret tt | 1 => Panic PDrop | _ => Abort end) /\
  (r <> Abort -> just_values log' = just_values log ++ l /\ s_mem m' = ∅).
Proof.
  intros Hc Hw Hal Hy He. destruct (wset_reached_rep _ _ _ _ _ _ _ Hc Hw Hal) as [t Hr].
  rewrite (sset_yields_rep _ _ _ _ Hr Hy). destruct (wset_reached_map _ _ _ _ _ _ _ Hc Hw Hal) as (rs & Hc' & Hw' & Hal').
  destruct (wdrop_exact true e _ _ _ _ _ _ _ _ _ _ _ Hc' Hw' Hal' (simple_rep_yields m t Pre Hr) He) as [Hx Hx'].
  rewrite bads_just, just_owned in Hx. split; [done|]. intros Hna. destruct (Hx' Hna) as [-> ?]. by rewrite just_app, just_owned.
Qed.

Lemma wset_clear_exact e bad (s : set_start T) cs xs log m l bad' x log' m' : sset_calls s cs -> wset_reached e bad s cs xs log m -> alive xs ->
  sset_yields m Pre l -> wset_exec bad' e SetClear (log, m) = (x, (log', m')) ->
  (x = match set_bads bad' l with 0 => Ret SetUnit | 1 => Panic PDrop | _ => Abort end) /\
  (x <> Abort -> just_values log' = just_values log ++ l /\ s_mem m' = ∅ /\ sset_len m' = 0%N).
Proof.
  intros Hc Hw Hal Hy He. destruct (wset_reached_rep _ _ _ _ _ _ _ Hc Hw Hal) as [t Hr].
  rewrite (sset_yields_rep _ _ _ _ Hr Hy). destruct (wset_reached_map _ _ _ _ _ _ _ Hc Hw Hal) as (rs & Hc' & Hw' & Hal').
  destruct (wexec true (bad_item bad') e OClear (log, m)) as [r [log1 m1]] eqn:Hex.
  pose proof (wset_exec_eq bad' e SetClear log m t r _ Hr eq_refl Hex) as Hex'. rewrite He in Hex'. injection Hex' as -> -> ->.
  destruct (wclear_exact true e _ _ _ _ _ _ _ _ _ _ _ Hc' Hw' Hal' (simple_rep_yields m t Pre Hr) Hex) as [Hx Hx'].
  rewrite bads_just, just_owned in Hx. split.
  - subst r. by destruct (set_bads bad' _) as [|[]].
  - intros Hna. destruct (Hx' ltac:(by intros ->)) as (-> & ? & ?). by rewrite just_app, just_owned.
Qed.

Lemma wset_whole_life e bad (s : set_start T) cs xs log m bad' r log' m' : sset_calls s cs -> Forall set_no_clone cs.*2 ->
  wset_reached e bad s cs xs log m -> alive xs -> wset_drop bad' (log, m) = (r, (log', m')) -> r <> Abort ->
  s_mem m' = ∅ /\ exists cs' xs' G B, set_all_as_if set_cut_of cs xs cs' xs' /\ set_ledger cs' xs' G B /\
    just_values log' ++ set_all_back cs xs ≡ₚ set_start_taken s ++ G.
Proof.
  intros Hc Hn Hw Hal He Hna. destruct (wset_reached_rep _ _ _ _ _ _ _ Hc Hw Hal) as [t Hr].
  pose proof (sset_rep_yields m t Pre Hr) as Hy.
  destruct (wset_drop_exact e bad s cs xs log m _ bad' r log' m' Hc Hw Hal Hy He) as [_ Hx]. destruct (Hx Hna) as [-> Hm]. split; [done|].
  destruct (wset_conserved e bad s cs xs log m Hc Hn Hw Hal) as (cs' & xs' & G & B & Ha & Hl & Hp).
  exists cs', xs', G, B. split_and!; try done. rewrite <- (Hp _ _ Hy). solve_Permutation.
Qed.

Lemma wset_collect bad e os (it : user_iter T) p log m :
  wset_begin bad e (SetFromIter os it) = (Panic p, (log, m)) ->
  s_mem m = ∅ /\ exists n, just_values log ≡ₚ take n (ui_items it) /\
    set_bads bad (just_values log) = (match p with PDrop => 1 | _ => 0 end) /\
    (p <> PDrop -> set_pulled os it p n /\ (sset_begin e (SetFromIter os it)).1 = Panic p).
Proof.
  rewrite wset_begin_eq, sset_begin_eq. intros Hb.
  destruct (wdrops_collect true (bad_item bad) e os (with_units it) p log m Hb) as (Hm & n & L & HL & Hp & Hbd & Hc).
  split; [done|]. exists n. split_and!.
  - apply just_perm in Hp. by rewrite just_app, (just_leaked _ _ HL), app_nil_r, with_units_items, units_take, just_owned_units in Hp.
  - by rewrite <- bads_just.
  - intros Hne. destruct (Hc Hne) as [H1 H2]. split; [by apply set_pulled_map|done].
Qed.

Lemma wset_as_if e bad (s : set_start T) cs xs log m : sset_calls s cs -> wset_reached e bad s cs xs log m -> alive xs ->
  exists cs' xs', sset_reached e s cs' xs' m /\ alive xs' /\ set_all_as_if set_cut_of cs xs cs' xs' /\
    Forall (fun c => sset_has c = true) cs' /\ forall cmp, Forall (set_legal cmp) cs.*2 -> Forall (set_legal cmp) cs'.
Proof.
  intros Hc Hw Hal. destruct (wset_reached_spec e bad s cs xs log m Hc Hw) as [_ H].
  destruct (H Hal) as (cs' & xs' & t & ? & ? & ? & _ & ? & ? & _). exists cs', xs'. by split_and!.
Qed.

Lemma wset_safe bad e (s : set_start T) cs : sset_calls s cs ->
  defined (wset_begin bad e s).1 /\
  forall xs log m, wset_reached e bad s cs xs log m -> Forall defined xs /\
    (alive xs -> forall bad', defined (wset_drop bad' (log, m)).1).
Proof.
  intros Hc. pose proof (to_calls _ _ Hc) as Hc'. split.
  - rewrite wset_begin_eq. apply (wdrops_safe true (bad_item bad) e (start_to_map s) _ Hc').
  - intros xs log m Hw. split; [by eapply wset_reached_spec|]. intros Hal bad'.
    destruct (wset_reached_map _ _ _ _ _ _ _ Hc Hw Hal) as (rs & _ & Hw' & Hal').
    destruct (wdrops_safe true (bad_item bad) e (start_to_map s) _ Hc') as [_ Hx]. destruct (Hx _ _ _ Hw') as [_ Hy]. by apply Hy.
Qed.

Lemma wset_sorted (cmp : T -> T -> comparison) : lawful cmp -> forall e bad (s : set_start T) cs xs log m l,
  sset_calls s cs -> set_legal_start cmp s -> Forall (set_legal cmp) cs.*2 -> wset_reached e bad s cs xs log m -> alive xs ->
  sset_yields m In l -> set_sorted cmp l.
Proof.
  intros Hlaw e bad s cs xs log m l Hc Hls Hleg Hw Hal Hy.
  destruct (wset_as_if _ _ _ _ _ _ _ Hc Hw Hal) as (cs' & xs' & Hr & Hal' & _ & Hhas & Hl).
  destruct (sset_refines cmp Hlaw e s cs' xs' m (proj1 Hc) Hhas Hls (Hl _ Hleg) Hr) as (l0 & _ & Hx).
  destruct (Hx Hal') as ((l' & _ & Hsort & Hy') & _). by rewrite (sset_yields_fun _ _ _ _ Hy Hy').
Qed.

Lemma wset_panics e bad (s : set_start T) cs xs log m bad' c x log' m' : sset_calls s cs -> wset_reached e bad s cs xs log m -> alive xs ->
  sset_has c = true -> wset_exec bad' e c (log, m) = (x, (log', m')) -> x <> Abort ->
  exists d, log' = log ++ d /\ set_bads bad' (just_values d) = drop_panics x.
Proof.
  intros Hcs Hw Hal Hc He Hna. destruct (wset_reached_rep _ _ _ _ _ _ _ Hcs Hw Hal) as [t Hr].
  destruct (wset_exec_spec _ _ _ _ _ _ _ _ Hr Hc He Hna) as (c' & x' & g & t1 & d & _ & _ & _ & _ & _ & Hd & _ & Hb & _). by exists d.
Qed.

Lemma wset_insert_ends e bad o x log m r0 m0 r log' m' :
  sset_exec e (SetInsert o x) m = (r0, m0) -> wset_exec bad e (SetInsert o x) (log, m) = (r, (log', m')) ->
  match r0 with
  | Ret (SetBool false) => r = (if bad x then Panic PDrop else r0) /\ m' = m0 /\ just_values log' = just_values log ++ [x]
  | Panic _ => if bad x then r = Abort else r = r0 /\ m' = m0 /\ just_values log' = just_values log ++ [x]
  | _ => r = r0 /\ m' = m0 /\ log' = log
  end.
Proof.
  intros Hs Hw. destruct (simple_exec e (OInsert o x tt) m) as [r1 m1] eqn:H1.
  destruct (wexec true (bad_item bad) e (OInsert o x tt) (log, m)) as [r2 [log2 m2]] eqn:H2.
  pose proof (wdrops_insert true e _ o x tt log m r1 m1 r2 log2 m2 H1 H2) as Hd.
  cbn [sset_exec simple_exec wset_exec wexec] in *. unfold sset_insert, wset_insert in *. rewrite <- sbind_assoc in Hs. rewrite <- sbind_assoc in Hw.
  destruct (simple_insert e o x tt m) as [ri mi] eqn:Hi. rewrite (bind_step _ _ _ _ _ Hi) in Hs. rewrite (bind_step _ _ _ _ _ Hi) in H1.
  destruct (winsert true (bad_item bad) e o x tt (log, m)) as [rw sw] eqn:Hwi. rewrite (bind_step _ _ _ _ _ Hwi) in Hw. rewrite (bind_step _ _ _ _ _ Hwi) in H2.
  unfold ends_with in Hd. cbn [bad_item negb andb] in Hd. rewrite orb_false_r in Hd.
  destruct ri as [[[]|]|p| |u|]; injection Hs as <- <-; injection H1 as <- <-; try destruct (bad x);
    destruct rw as [[[]|]|p'| |u'|], sw as [log3 m3]; cbn in H2, Hw; injection H2 as <- <- <-; injection Hw as <- <- <-;
    try (by destruct Hd as (? & ? & ?)); try done; destruct Hd as (Hd & -> & ->); try (injection Hd as ->); by rewrite ?just_app.
Qed.

Lemma wset_remove_ends e bad o log m r0 m0 r log' m' :
  sset_exec e (SetRemove o) m = (r0, m0) -> wset_exec bad e (SetRemove o) (log, m) = (r, (log', m')) ->
  match r0 with
  | Ret (SetBool true) => exists x, sset_exec e (SetTake o) m = (Ret (SetValue (Some x)), m0) /\
      r = (if bad x then Panic PDrop else r0) /\ m' = m0 /\ log' = log ++ [inl x]
  | _ => r = r0 /\ m' = m0 /\ log' = log
  end.
Proof.
  intros Hs Hw. cbn [sset_exec wset_exec] in *. unfold sset_remove, wset_remove in *. rewrite <- sbind_assoc in Hs. rewrite <- sbind_assoc in Hw.
  destruct (sset_take e o m) as [rt mt] eqn:Ht. rewrite (bind_step _ _ _ _ _ Ht) in Hs.
  rewrite (bind_step (on_map _) _ _ rt (log, mt)) in Hw by (by rewrite on_map_eq, Ht).
  destruct rt as [[x|]|p| |u|]; injection Hs as <- <-; try (by injection Hw as <- <- <-).
  exists x. split; [by rewrite (bind_step _ _ _ _ _ Ht)|].
  unfold wdestroy, settle in Hw. cbv beta iota delta [sbind smod sret sfail slift] in Hw. cbn in Hw.
  destruct (bad x) eqn:Hb; cbn in Hw; by injection Hw as <- <- <-.
Qed.

Lemma wset_clone_ends e bad (s : set_start T) cs xs log m l bad' os ck r0 m0 r log' m' :
  sset_calls s cs -> wset_reached e bad s cs xs log m -> alive xs ->
  sset_yields m Pre l -> sset_exec e (SetClone os ck) m = (r0, m0) ->
  wset_exec bad' e (SetClone os ck) (log, m) = (r, (log', m')) ->
  match r0 with
  | Ret _ => r = match set_bads bad' l with 0 => r0 | 1 => Panic PDrop | _ => Abort end /\
      (r <> Abort -> m' = m0 /\ just_values log' = just_values log ++ l)
  | Panic _ => if Nat.eqb (set_bads bad' (value_clones ck 0 l).1) 0
      then r = r0 /\ m' = m0 /\ just_values log' ≡ₚ just_values log ++ (value_clones ck 0 l).1
      else r = Abort
  | _ => r = r0
  end.
Proof.
  intros Hc Hw Hal Hy Hs He. destruct (wset_reached_rep _ _ _ _ _ _ _ Hc Hw Hal) as [t Hr].
  rewrite (sset_yields_rep _ _ _ _ Hr Hy). destruct (wset_reached_map _ _ _ _ _ _ _ Hc Hw Hal) as (rs & Hc' & Hw' & Hal').
  destruct (simple_exec e (to_map (SetClone os ck)) m) as [r1 m1] eqn:H1.
  destruct (wexec true (bad_item bad') e (to_map (SetClone os ck)) (log, m)) as [r2 [log2 m2]] eqn:H2.
  rewrite (sset_exec_eq _ (SetClone os ck) _ _ _ _ Hr eq_refl H1) in Hs. injection Hs as <- <-.
  rewrite (wset_exec_eq _ _ (SetClone os ck) _ _ _ _ _ Hr eq_refl H2) in He. injection He as <- <- <-.
  pose proof (wdrops_clone true e _ _ _ _ _ _ _ _ _ _ _ _ _ _ _ _ Hc' Hw' Hal' (simple_rep_yields m t Pre Hr) H1 H2) as Hd.
  rewrite !bads_just, just_owned, cloned_values in Hd.
  destruct r1 as [y|p| |u|]; cbn [rmap].
  - destruct Hd as [-> Hd]. split; [by destruct (set_bads bad' _) as [|[]]|]. intros Hna.
    destruct (set_bads bad' _) as [|[]]; try done; (destruct Hd as [-> ->]; [done|]; by rewrite just_app, just_owned).
  - destruct (Nat.eqb (set_bads bad' _) 0); [|by subst r2]. destruct Hd as (-> & -> & d & -> & Hd). split_and!; try done.
    apply just_perm in Hd. by rewrite just_app, Hd, cloned_values.
  - by subst r2.
  - by subst r2.
  - by subst r2.
Qed.

Lemma wset_exec_quiet bad e c log m t x m1 : (forall y, bad y = false) -> simple_rep m t -> sset_has c = true ->
  sset_exec e c m = (x, m1) -> exists log', wset_exec bad e c (log, m) = (x, (log', m1)).
Proof.
  intros Hq H Hc Hs. destruct (simple_exec e (to_map c) m) as [r m2] eqn:H1.
  rewrite (sset_exec_eq _ _ _ _ _ _ H Hc H1) in Hs. injection Hs as <- <-.
  assert (Hq' : forall y, bad_item bad y = false) by (intros [y|[]]; [apply Hq|done]).
  destruct (wexec_quiet true (bad_item bad) e (to_map c) log m t r m2 Hq' H (to_map_has _ Hc) H1) as (log' & Hw).
  exists log'. by eapply wset_exec_eq.
Qed.

Lemma wset_run_quiet e cs : (forall x y, x ∈ cs -> x.1 y = false) -> Forall (fun c => sset_has c.2 = true) cs ->
  forall log m t xs m', simple_rep m t -> sset_run e cs.*2 m = (xs, m') ->
  exists log', wset_run e cs (log, m) = (xs, (log', m')).
Proof.
  induction cs as [|[bad c] cs IH]; intros Hq Hcs log m t xs m' H Hrun.
  - injection Hrun as <- <-. by exists log.
  - apply Forall_cons in Hcs as [Hc Hcs]. rewrite fmap_cons in Hrun. cbn [sset_run wset_run snd] in *.
    destruct (sset_exec e c m) as [x m1] eqn:Hs.
    destruct (wset_exec_quiet bad e c log m t x m1) as (log1 & Hw); try done.
    { intros y. apply (Hq (bad, c)). left. }
    rewrite Hw. destruct (sset_exec_cases _ _ _ _ _ _ H Hc Hs) as [[-> _]|(r & t1 & Hx & Hr1 & _ & Hret)].
    { injection Hrun as <- <-. by eexists. }
    destruct (sset_run e cs.*2 m1) as [xs1 m2] eqn:Hrun1.
    destruct (IH ltac:(intros z y Hz; apply Hq; by right) Hcs log1 m1 t1 xs1 m2 Hr1 Hrun1) as (log2 & Hw2). rewrite Hw2.
    destruct Hret as [[y ->]|[p ->]]; cbn [rmap] in Hx; subst x; injection Hrun as <- <-; by eexists.
Qed.

Lemma wset_quiet e bad (s : set_start T) cs xs m : (forall y, bad y = false) -> (forall x y, x ∈ cs -> x.1 y = false) ->
  sset_calls s cs -> (exists log, wset_reached e bad s cs xs log m) <-> sset_reached e s cs.*2 xs m.
Proof.
  intros Hq Hqs Hc. pose proof (to_calls _ _ Hc) as Hc'.
  assert (Hq' : forall y, bad_item bad y = false) by (intros [y|[]]; [apply Hq|done]).
  pose proof (wbegin_spec true (bad_item bad) e (start_to_map s) (proj1 Hc')) as Hbs.
  assert (Hstart : forall m0, sset_begin e s = (Ret tt, m0) <-> exists log0, wset_begin bad e s = (Ret tt, (log0, m0))).
  { intros m0. assert (Hc0 : simple_calls (start_to_map s) []) by (split; [apply Hc'|constructor]).
    pose proof (wdrops_quiet true e (bad_item bad) (start_to_map s) [] [] m0 Hq' ltac:(intros x y Hx; by inversion Hx) Hc0) as Hx. rewrite wset_begin_eq, sset_begin_eq. split.
    - intros H0. apply proj2 in Hx. destruct Hx as (log & w0 & Hw & Hrun); [by exists m0|]. injection Hrun as ->. by eexists.
    - intros (log0 & H0). apply proj1 in Hx. destruct Hx as (m1 & Hm1 & Hrun); [exists log0; by exists (log0, m0)|]. by injection Hrun as ->. }
  split.
  - intros (log & [log0 m0] & Hb & Hrun). exists m0. split; [apply Hstart; by eexists|].
    rewrite wset_begin_eq in Hb. rewrite Hb in Hbs. destruct Hbs as (_ & t & _ & Hr & _).
    destruct (sset_run e cs.*2 m0) as [xs1 m1] eqn:Hr1.
    destruct (wset_run_quiet e cs Hqs (proj2 Hc) log0 m0 t xs1 m1 Hr Hr1) as (log1 & Hr2). rewrite Hrun in Hr2. by injection Hr2 as -> -> ->.
  - intros (m0 & Hb & Hrun). apply Hstart in Hb as (log0 & Hb). pose proof Hb as Hb'. rewrite wset_begin_eq in Hb'. rewrite Hb' in Hbs.
    destruct Hbs as (_ & t & _ & Hr & _). destruct (wset_run_quiet e cs Hqs (proj2 Hc) log0 m0 t xs m Hr Hrun) as (log1 & Hr2).
    exists log1. by exists (log0, m0).
Qed.

End simple.

(** ** BSTSet *)
Section bst.
Context {T : Type}.
Implicit Types m : bstset T.

Lemma dset_exec_eq bad e c m t fl r m1 : map_rep m t fl -> dexec true (bad_item bad) e (to_map c) m = (r, m1) ->
  dset_exec bad e c m = (rmap (from_out (erase t) c) r, m1).
Proof.
  intros H He.
  assert (Hm : dexec true (bad_item bad) e (to_map c) = exec e (to_map c) -> dset_exec bad e c = set_exec e c ->
    dset_exec bad e c m = (rmap (from_out (erase t) c) r, m1)).
  { intros H1 H2. rewrite H2. rewrite H1 in He. by eapply set_exec_eq. }
  destruct c; try (by apply Hm); cbn [to_map dexec] in He; cbn [dset_exec].
  - unfold dset_insert, sbind in *. destruct (dinsert true (bad_item bad) e o x tt m) as [[]]; simpl in *; by injection He as <- <-.
  - unfold dset_remove, set_take, dremove, return_past, unwinding, destroy in *. cbv beta iota delta [sbind smod sret sfail slift] in *.
    destruct (map_remove_entry e o m) as [[[[x []]|]| | | |] m2]; cbn in He |- *; try (by injection He as <- <-).
    destruct (bad x) eqn:Hb; cbn in He |- *; [|by injection He as <- <-]. injection He as <- <-. cbn. f_equal.
    by rewrite log_drops_nil.
  - unfold set_clear, sbind in *. destruct (map_clear e _ m) as [[]]; simpl in *; by injection He as <- <-.
  - unfold dset_extend, sbind in *. destruct (dextend true (bad_item bad) e os _ m) as [[]]; simpl in *; by injection He as <- <-.
  - unfold dset_clone_and_replace, sbind in *. destruct (dclone_and_replace true (bad_item bad) e os ck _ m) as [[]]; simpl in *; by injection He as <- <-.
Qed.

Lemma dset_begin_eq bad e (s : set_start T) : dset_begin bad e s = dbegin true (bad_item bad) e (start_to_map s).
Proof. by destruct s. Qed.

Lemma quiet_clear_map bad (c : set_op T) : set_quiet_clear (bad, c) -> to_map c = OClear -> forall y, bad_item bad y = false.
Proof. intros H Hc [y|[]]; [|done]. apply H. by destruct c. Qed.

Lemma alike_set_run e cs : forall m m' xs m1, (exists t fl, map_rep m t fl) -> alike m m' -> set_run e cs m = (xs, m1) ->
  exists m1', set_run e cs m' = (xs, m1') /\ alike m1 m1'.
Proof.
  induction cs as [|c cs IH]; intros m m' xs m1 (t & fl & Hrep) Hal Hrun; cbn [set_run] in Hrun |- *.
  - injection Hrun as <- <-. by exists m'.
  - pose proof (alike_rep _ _ _ _ Hal Hrep) as Hrep'. destruct (exec e (to_map c) m) as [r m2] eqn:He.
    rewrite (set_exec_eq _ _ _ _ _ _ _ Hrep He) in Hrun.
    assert (Hone : run e [to_map c] m = ([r], m2)) by (cbn [run]; rewrite He; by destruct r).
    destruct (alike_run _ _ _ _ _ _ Hal Hone) as (m2' & Hone' & Hal2). cbn [run] in Hone'.
    destruct (exec e (to_map c) m') as [r' m3] eqn:He'. rewrite (set_exec_eq _ _ _ _ _ _ _ Hrep' He').
    assert (r' = r /\ m3 = m2') as [-> ->] by (destruct r'; by injection Hone' as <- <-).
    destruct (exec_rep _ _ _ _ _ _ _ Hrep He) as [_ Hrep2].
    destruct r as [y|p| |u|]; cbn [rmap] in *; try (injection Hrun as <- <-; by eexists).
    + destruct (set_run e cs m2) as [xs1 m4] eqn:Hr. injection Hrun as <- <-.
      destruct (IH _ _ _ _ Hrep2 Hal2 Hr) as (m5 & -> & ?). by eexists.
    + destruct (set_run e cs m2) as [xs1 m4] eqn:Hr. injection Hrun as <- <-.
      destruct (IH _ _ _ _ Hrep2 Hal2 Hr) as (m5 & -> & ?). by eexists.
Qed.

Lemma set_part_legal (cmp : T -> T -> comparison) c x c' x' : set_as_if set_part_of c x c' x' -> set_legal cmp c -> set_legal cmp c'.
Proof.
  intros [[-> _]|(_ & Hc & _)] H; [done|]. destruct c; cbn in Hc; try (by subst c'); [by destruct Hc as (n & ->)|by destruct Hc as [-> | ->]].
Qed.
Lemma set_part_clone (c : set_op T) x c' x' : set_as_if set_part_of c x c' x' -> set_no_clone c -> set_no_clone c'.
Proof. intros [[-> _]|(_ & Hc & _)] H; [done|]. destruct c; cbn in Hc; try (by subst c'); try done. by destruct Hc as (n & ->). Qed.

Definition just_held (t : ptree T unit) : list T := just_values (held t).

(** What a call did. *)
Lemma dset_exec_spec bad e c m t fl x m1 : map_rep m t fl -> set_quiet_clear (bad, c) -> dset_exec bad e c m = (x, m1) ->
  defined x /\ (x <> Abort -> exists c' x' m0 t1 fl1, set_as_if set_part_of c x c' x' /\ set_exec e c' m = (x', m0) /\ alike m1 m0 /\
    map_rep m1 t1 fl1 /\ (e_nd e = true -> set_no_clone c -> exists g, set_taken c' x' g /\
      just_held t1 ++ just_values (gone m1) ++ set_handed c x ≡ₚ just_held t ++ just_values (gone m) ++ g)).
Proof.
  intros Hrep Hq He. destruct (dexec true (bad_item bad) e (to_map c) m) as [r m2] eqn:Hd.
  rewrite (dset_exec_eq _ _ _ _ _ _ _ _ Hrep Hd) in He. injection He as <- <-.
  destruct (dexec_rep _ _ _ _ _ _ _ _ _ Hrep (quiet_clear_map _ _ Hq) Hd) as [Hdef Hrep1]. split; [by destruct r|].
  intros Hna. assert (Hna' : r <> Abort) by (by intros ->).
  destruct (dexec_acts _ _ _ _ _ _ _ _ _ Hrep (quiet_clear_map _ _ Hq) Hd Hna') as (c1 & r1 & L & m0 & Hx & Hal & Has & Hdr & HL).
  destruct (part_map (from_out (erase t)) c r c1 r1 Has) as (c' & -> & Hpart). destruct (Hrep1 Hna') as (t1 & fl1 & Hr1).
  exists c', (rmap (from_out (erase t) c') r1), m0, t1, fl1. split_and!; try done; [by eapply set_exec_eq|].
  intros Hnd Hnc. assert (Hr1' : r1 <> Abort) by (destruct Has as [[_ ->]|(_ & _ & y & ->)]; done).
  assert (Hnc' : no_clone (to_map c')).
  { pose proof (set_part_clone _ _ _ _ Hpart Hnc). by destruct c'. }
  destruct (exec_taken _ _ _ _ _ _ _ Hnd Hnc' Hrep Hx Hr1') as (t01 & fl01 & g & Hrep01 & Htk & Hg).
  pose proof (rep_yields _ _ _ In (alike_rep _ _ _ _ Hal Hr1)) as Hy2.
  assert (Hh : held t01 ≡ₚ held t1).
  { rewrite <- (held_owned t01 In), <- (held_owned t1 In). by rewrite (rep_yields_eq _ _ _ _ _ Hrep01 Hy2). }
  exists (just_values g). split; [by apply set_taken_map|].
  pose proof (alike_gone _ _ _ _ Hal Hdr) as Hgo. apply just_perm in Hgo, Hg, Hh. rewrite !just_app in *.
  rewrite (just_leaked _ _ HL) in Hgo. cbn [app] in Hgo. unfold just_held. rewrite <- (set_handed_map (erase t)), Hgo, <- Hh. exact Hg.
Qed.

Lemma dset_run_as_if e cs : forall m t fl xs m', map_rep m t fl -> Forall set_quiet_clear cs -> dset_run e cs m = (xs, m') ->
  Forall defined xs /\ (alive xs -> exists cs' xs' m0 t' fl', set_run e cs' m = (xs', m0) /\ alike m' m0 /\
    set_all_as_if set_part_of cs xs cs' xs' /\ map_rep m' t' fl' /\ alive xs' /\
    (forall cmp, Forall (set_legal cmp) cs.*2 -> Forall (set_legal cmp) cs') /\
    (e_nd e = true -> Forall set_no_clone cs.*2 -> exists G B, set_ledger cs' xs' G B /\
       just_held t' ++ just_values (gone m') ++ set_all_back cs xs ≡ₚ just_held t ++ just_values (gone m) ++ G)).
Proof.
  induction cs as [|[bad c] cs IH]; intros m t fl xs m' Hrep Hq Hrun; cbn [dset_run] in Hrun.
  - injection Hrun as <- <-. split; [constructor|]. intros _. exists [], [], m, t, fl. split_and!; try done; [constructor|].
    intros _ _. exists [], []. split; [done|]. cbn [set_all_back]. by rewrite !app_nil_r.
  - apply Forall_cons in Hq as [Hq1 Hq]. destruct (dset_exec bad e c m) as [x m1] eqn:Hd.
    destruct (dset_exec_spec _ _ _ _ _ _ _ _ Hrep Hq1 Hd) as [Hdef Hsp].
    assert (x = Abort \/ x <> Abort) as [->|Hna] by (destruct x; auto).
    { injection Hrun as <- <-. split; [by constructor|]. intros Ha. by apply Forall_cons in Ha as [? _]. }
    destruct (Hsp Hna) as (c1 & x1 & m01 & t1 & fl1 & Has & Hx & Hal & Hrep1 & Hled1).
    destruct (dset_run e cs m1) as [xs1 m2] eqn:Hr1.
    assert (xs = x :: xs1 /\ m' = m2) as [-> ->] by (destruct x; try done; by injection Hrun as <- <-).
    destruct (IH _ _ _ _ _ Hrep1 Hq Hr1) as [Hdefs Hrest]. split; [by constructor|]. intros Ha. apply Forall_cons in Ha as [_ Ha].
    destruct (Hrest Ha) as (cs' & xs' & m02 & t' & fl' & Hrun' & Hal2 & Has2 & Hrep2 & Hal' & Hleg & Hled).
    destruct (alike_set_run e cs' m1 m01 xs' m02 ltac:(by eauto) Hal Hrun') as (m03 & Hr3 & Hal3).
    assert (Hx1 : x1 = x \/ exists y, x1 = Ret y) by (destruct Has as [[_ ?]|(_ & _ & ?)]; auto).
    exists (c1 :: cs'), (x1 :: xs'), m03, t', fl'. split; [|split; [|split; [|split; [|split; [|split]]]]].
    + cbn [set_run]. rewrite Hx. destruct Hx1 as [->|[y ->]]; [destruct x; try done|]; by rewrite Hr3.
    + destruct Hal2 as [H1 H2], Hal3 as [H3 H4]. split; congruence.
    + by split.
    + done.
    + constructor; [|done]. by destruct Hx1 as [->|[y ->]].
    + intros cmp. rewrite fmap_cons. intros [Hl1 Hl2]%Forall_cons. constructor; [by eapply set_part_legal|by apply Hleg].
    + intros Hnd. rewrite fmap_cons. intros [Hn1 Hn2]%Forall_cons. destruct (Hled Hnd Hn2) as (G & B & Hl & Hp).
      destruct (Hled1 Hnd Hn1) as (g & Htk & Hp1). exists (g ++ G), (set_handed c1 x1 ++ B). split; [by exists g, G, B|].
      cbn [set_all_back snd].
      transitivity ((just_held t' ++ just_values (gone m2) ++ set_all_back cs xs1) ++ set_handed c x); [solve_Permutation|].
      rewrite Hp. transitivity ((just_held t1 ++ just_values (gone m1) ++ set_handed c x) ++ G); [solve_Permutation|].
      rewrite Hp1. solve_Permutation.
Qed.

Lemma dset_reached_spec e bad (s : set_start T) cs xs m : Forall set_quiet_clear cs -> dset_reached e bad s cs xs m ->
  Forall defined xs /\ (alive xs -> exists m0 cs' xs' m' t0 fl0 t fl, set_begin e s = (Ret tt, m0) /\ map_rep m0 t0 fl0 /\
    set_run e cs' m0 = (xs', m') /\ alike m m' /\ set_all_as_if set_part_of cs xs cs' xs' /\ map_rep m t fl /\ alive xs' /\
    (forall cmp, Forall (set_legal cmp) cs.*2 -> Forall (set_legal cmp) cs') /\
    (e_nd e = true -> Forall set_no_clone cs.*2 -> exists G B, set_ledger cs' xs' G B /\
       just_held t ++ just_values (gone m) ++ set_all_back cs xs ≡ₚ just_held t0 ++ just_values (gone m0) ++ G)).
Proof.
  intros Hq (m0 & Hb & Hr). rewrite dset_begin_eq in Hb. destruct (dbegin_ends _ _ _ _ _ _ Hb ltac:(done)) as [Hb'|?]; [|done].
  pose proof (begin_rep e (start_to_map s)) as H. rewrite Hb' in H. destruct H as (t0 & fl0 & Hrep & _).
  destruct (dset_run_as_if _ _ _ _ _ _ _ Hrep Hq Hr) as [Hdef Hrest]. split; [done|]. intros Ha.
  destruct (Hrest Ha) as (cs' & xs' & m1 & t' & fl' & H1 & H2 & H3 & H4 & H5 & H6 & H7).
  exists m0, cs', xs', m1, t0, fl0, t', fl'. rewrite set_begin_eq. split_and!; done.
Qed.

Lemma dset_as_if e bad (s : set_start T) cs xs m : dset_reached e bad s cs xs m -> Forall set_quiet_clear cs -> alive xs ->
  exists cs' xs' m', set_reached e s cs' xs' m' /\ alive xs' /\ alike m m' /\ set_all_as_if set_part_of cs xs cs' xs' /\
    forall cmp, Forall (set_legal cmp) cs.*2 -> Forall (set_legal cmp) cs'.
Proof.
  intros Hr Hq Ha. destruct (dset_reached_spec _ _ _ _ _ _ Hq Hr) as [_ H].
  destruct (H Ha) as (m0 & cs' & xs' & m' & t0 & fl0 & t & fl & H1 & H2 & H3 & H4 & H5 & H6 & H7 & H8 & _).
  exists cs', xs', m'. split_and!; try done. by exists m0.
Qed.

Lemma dset_alike e cs m m' xs m1' : set_reachable e m' -> alike m m' -> set_run e cs m' = (xs, m1') ->
  exists m1, set_run e cs m = (xs, m1) /\ alike m1 m1'.
Proof.
  intros Hr Hal Hrun. destruct (set_reachable_rep e m' Hr) as [_ (t & fl & Hrep)].
  destruct (alike_set_run e cs m' m xs m1' ltac:(by eauto) (alike_sym _ _ Hal) Hrun) as (m1 & ? & ?). exists m1. split; [done|]. by apply alike_sym.
Qed.

Lemma dset_safe bad e (s : set_start T) cs : Forall set_quiet_clear cs ->
  defined (dset_begin bad e s).1 /\
  forall xs m, dset_reached e bad s cs xs m -> Forall defined xs /\
    (alive xs -> forall bad', defined (map_drop e (bad_node (bad_item bad')) m).1).
Proof.
  intros Hq. split.
  - rewrite dset_begin_eq. apply (drops_safe true e (bad_item bad) (start_to_map s) []). constructor.
  - intros xs m Hr. destruct (dset_reached_spec _ _ _ _ _ _ Hq Hr) as [Hd H]. split; [done|]. intros Ha bad'.
    destruct (H Ha) as (m0 & cs' & xs' & m' & t0 & fl0 & t & fl & _ & _ & _ & _ & _ & Hrep & _).
    by destruct (map_drop_any e (bad_node (bad_item bad')) _ _ _ Hrep) as [m2 [->| ->]].
Qed.

Lemma dset_sorted (cmp : T -> T -> comparison) : lawful cmp -> forall e bad (s : set_start T) cs xs m l, set_legal_start cmp s ->
  Forall (set_legal cmp) cs.*2 -> dset_reached e bad s cs xs m -> Forall set_quiet_clear cs -> alive xs ->
  set_yields m In l -> set_sorted cmp l.
Proof.
  intros Hlaw e bad s cs xs m l Hls Hlc Hr Hq Ha Hy.
  destruct (dset_as_if _ _ _ _ _ _ Hr Hq Ha) as (cs' & xs' & m' & Hr' & Ha' & Hal & _ & Hleg).
  assert (Ho : set_ordered_reachable cmp e m') by (exists s, cs', xs'; auto).
  apply (set_inorder_sorted cmp Hlaw e m' l Ho).
  destruct (set_reachable_rep e m') as [_ (t & fl & Hrep)]; [by exists s, cs', xs'|].
  pose proof (alike_rep _ _ _ _ (alike_sym _ _ Hal) Hrep) as Hrep2.
  destruct (set_yields_map _ _ _ _ _ Hrep2 Hy) as [-> _]. by eapply set_yields_rep.
Qed.

Lemma dset_conserved e bad (s : set_start T) cs xs m : e_nd e = true -> Forall set_no_clone cs.*2 -> Forall set_quiet_clear cs ->
  dset_reached e bad s cs xs m -> alive xs ->
  exists cs' xs' G B, set_all_as_if set_part_of cs xs cs' xs' /\ set_ledger cs' xs' G B /\
    forall d l, set_yields m d l -> l ++ set_dropped m ++ set_all_back cs xs ≡ₚ set_start_taken s ++ G.
Proof.
  intros Hnd Hnc Hq Hr Ha. destruct (dset_reached_spec _ _ _ _ _ _ Hq Hr) as [_ H].
  destruct (H Ha) as (m0 & cs' & xs' & m' & t0 & fl0 & t & fl & Hb & Hrep0 & Hrun & Hal & Has & Hrep & Ha' & _ & Hled).
  destruct (Hled Hnd Hnc) as (G & B & HG & Hac). exists cs', xs', G, B. split_and!; try done.
  intros d l Hy. destruct (set_yields_map _ _ _ _ _ Hrep Hy) as [-> _]. rewrite <- just_owned.
  rewrite (just_perm _ _ (held_owned t d)).
  assert (Hq1 : a_drops (s_items (m_nodes m')) = []).
  { destruct (set_reached_aligned e s cs' xs' m') as (rs & Hrs & _); [by exists m0|]. by eapply arena_silent. }
  unfold set_dropped. rewrite (dropped_gone m) by (destruct Hal as [-> _]; done). fold (just_held t). rewrite Hac.
  rewrite app_assoc. f_equiv. rewrite set_begin_eq in Hb. pose proof (begin_rep e (start_to_map s)) as Hbr. rewrite Hb in Hbr.
  destruct Hbr as (t2 & fl2 & Hrep2 & _ & Hs).
  assert (Hh : held t2 ≡ₚ held t0).
  { rewrite <- (held_owned t2 In), <- (held_owned t0 In). by rewrite (rep_yields_eq _ _ _ _ _ Hrep2 (rep_yields _ _ _ In Hrep0)). }
  rewrite <- start_taken_map. unfold just_held. rewrite <- just_app. apply just_perm. rewrite <- Hh.
  destruct s as [|n|os it]; cbn [start_to_map] in *; simpl.
  - by destruct Hs as [-> ->].
  - by destruct Hs as (-> & -> & _).
  - apply Hs.
Qed.

Lemma just_bad bad (l : list (T + unit)) : Forall (fun y => bad_item bad y = false) l <-> Forall (fun y => bad y = false) (just_values l).
Proof.
  induction l as [|[y|u] l IH]; [split; constructor|..].
  - change (just_values (inl y :: l)) with (y :: just_values l). rewrite !Forall_cons, IH. done.
  - change (just_values (inr u :: l)) with (just_values l). rewrite Forall_cons, IH. naive_solver.
Qed.

Lemma dset_felt e bad (s : set_start T) cs xs m bad' c x m' : dset_reached e bad s cs xs m -> Forall set_quiet_clear cs -> alive xs ->
  set_no_clone c -> c <> SetClear -> dset_exec bad' e c m = (x, m') -> x <> Abort ->
  exists l, just_values (m_drops m') = just_values (m_drops m) ++ l /\ set_stops_at_first bad' x l.
Proof.
  intros Hr Hq Ha Hnc Hncl Hd Hna. destruct (dset_reached_spec _ _ _ _ _ _ Hq Hr) as [_ H].
  destruct (H Ha) as (m0 & cs' & xs' & m1 & t0 & fl0 & t & fl & _ & _ & _ & _ & _ & Hrep & _).
  destruct (dexec true (bad_item bad') e (to_map c) m) as [r m2] eqn:He.
  rewrite (dset_exec_eq _ _ _ _ _ _ _ _ Hrep He) in Hd. injection Hd as <- <-.
  assert (Hna' : r <> Abort) by (by intros ->).
  destruct (dexec_felt _ _ _ (to_map c) _ _ _ _ _ Hrep ltac:(by destruct c) ltac:(by destruct c) He Hna') as (l & -> & Hf).
  exists (just_values l). split; [apply just_app|].
  destruct r as [y|p| |u|]; cbn [rmap set_stops_at_first stops_at_first] in *; try (by apply just_bad).
  destruct p; try (by apply just_bad). destruct Hf as (l1 & [y|u] & l2 & -> & Hy & Hb); [|done].
  exists (just_values l1), y, (just_values l2). split_and!; [by rewrite just_app|done|]. rewrite <- just_app. by apply just_bad.
Qed.

Lemma dset_insert_ends e bad o x m r0 m0 r m' : set_exec e (SetInsert o x) m = (r0, m0) -> dset_exec bad e (SetInsert o x) m = (r, m') ->
  match r0 with
  | Ret (SetBool false) => r = (if bad x then Panic PDrop else r0) /\ alike m' m0 /\ set_dropped m' = set_dropped m0
  | Panic _ => if bad x then r = Abort else r = r0 /\ m' = m0
  | _ => r = r0 /\ m' = m0
  end.
Proof.
  intros H2 H3. cbn [set_exec dset_exec] in *. unfold set_insert, dset_insert in *. rewrite <- sbind_assoc in H2. rewrite <- sbind_assoc in H3.
  destruct (bstmap_insert e o x tt m) as [xi y] eqn:Hi. pose proof (dinsert_eq true (bad_item bad) e o x tt m xi y Hi) as H.
  rewrite (sbind_eq _ _ _ _ _ Hi) in H2.
  destruct (dinsert true (bad_item bad) e o x tt m) as [x1 y1] eqn:H1. rewrite (sbind_eq _ _ _ _ _ H1) in H3.
  cbn [bad_item negb andb] in H. rewrite ?orb_false_r in H.
  destruct xi as [[[]|]|p| |u|]; injection H2 as <- <-; try (injection H as -> ->; by injection H3 as <- <-).
  - destruct (bad x); injection H as -> ->; injection H3 as <- <-; split_and!; try done.
    unfold set_dropped, dropped. cbn. by rewrite ?app_nil_r.
  - destruct (bad x); [cbn [fst] in H; subst; by injection H3 as <- <-|]. injection H as -> ->. by injection H3 as <- <-.
Qed.

Lemma dset_remove_ends e bad o m r0 m0 r m' : set_exec e (SetRemove o) m = (r0, m0) -> dset_exec bad e (SetRemove o) m = (r, m') ->
  match r0 with
  | Ret (SetBool true) => exists x m1, set_exec e (SetTake o) m = (Ret (SetValue (Some x)), m1) /\
      r = (if bad x then Panic PDrop else r0) /\ m' = m0
  | _ => r = r0 /\ m' = m0
  end.
Proof.
  intros Hs Hw. cbn [set_exec dset_exec] in *. unfold set_remove, dset_remove in *. rewrite <- sbind_assoc in Hs. rewrite <- sbind_assoc in Hw.
  destruct (set_take e o m) as [rt mt] eqn:Ht. rewrite (sbind_eq _ _ _ _ _ Ht) in Hs. rewrite (sbind_eq _ _ _ _ _ Ht) in Hw.
  destruct rt as [[x|]|p| |u|]; try (injection Hs as <- <-; by injection Hw as <- <-).
  cbv beta iota delta [sbind smod sret sfail slift destroy] in *. cbn in Hs, Hw. injection Hs as <- <-.
  exists x, mt. split; [by rewrite Ht|]. destruct (bad x); by injection Hw as <- <-.
Qed.

Lemma dset_run_quiet e cs : (forall x y, x ∈ cs -> x.1 y = false) -> forall m t fl, map_rep m t fl -> dset_run e cs m = set_run e cs.*2 m.
Proof.
  induction cs as [|[bad c] cs IH]; intros Hb m t fl Hrep; [done|]. rewrite fmap_cons. cbn [dset_run set_run snd].
  assert (Hbad : forall y, bad_item bad y = false) by (intros [y|[]]; [apply (Hb (bad, c)); left|done]).
  destruct (exec e (to_map c) m) as [r m1] eqn:Hx. rewrite (set_exec_eq _ _ _ _ _ _ _ Hrep Hx).
  destruct (exec_rep _ _ _ _ _ _ _ Hrep Hx) as [_ (t1 & fl1 & Hrep1)].
  rewrite <- (dexec_quiet true (bad_item bad) Hbad e (to_map c) m t fl Hrep) in Hx. rewrite (dset_exec_eq _ _ _ _ _ _ _ _ Hrep Hx).
  by rewrite (IH (fun x y Hin => Hb x y ltac:(by right)) m1 t1 fl1 Hrep1).
Qed.

Lemma dset_quiet e bad (s : set_start T) cs xs m : (forall y, bad y = false) -> (forall x y, x ∈ cs -> x.1 y = false) ->
  dset_reached e bad s cs xs m <-> set_reached e s cs.*2 xs m.
Proof.
  intros Hb Hcs. assert (Hbad : forall y, bad_item bad y = false) by (intros [y|[]]; [apply Hb|done]).
  assert (Hs : dset_begin bad e s = set_begin e s).
  { rewrite dset_begin_eq, set_begin_eq. destruct s; [done|done|]. cbn [start_to_map dbegin begin]. by apply dfrom_iter_quiet. }
  unfold dset_reached, set_reached. rewrite Hs.
  assert (H : forall m0, set_begin e s = (Ret tt, m0) -> dset_run e cs m0 = set_run e cs.*2 m0).
  { intros m0 Hm0. rewrite set_begin_eq in Hm0. pose proof (begin_rep e (start_to_map s)) as H. rewrite Hm0 in H.
    destruct H as (t & fl & Hrep & _). by eapply dset_run_quiet. }
  split; intros (m0 & Hm0 & Hr); exists m0; (split; [done|]); [by rewrite <- H|by rewrite H].
Qed.

Lemma just_exists bad (l : list (T + unit)) : existsb (bad_item bad) l = existsb bad (just_values l).
Proof.
  induction l as [|[y|u] l IH]; [done|..]; cbn [existsb]; rewrite IH; [done|].
  change (just_values (inr u :: l)) with (just_values l). done.
Qed.

Lemma dset_clone_ends e bad (s : set_start T) cs xs m bad' os ck r0 m0 r m' d l :
  dset_reached e bad s cs xs m -> Forall set_quiet_clear cs -> alive xs -> set_yields m d l ->
  set_exec e (SetClone os ck) m = (r0, m0) -> dset_exec bad' e (SetClone os ck) m = (r, m') ->
  match r0 with
  | Ret _ => Forall (fun y => bad' y = false) (set_dropped m0) ->
      m' = m0 /\ r = if e_nd e && existsb bad' l then Panic PDrop else r0
  | Panic _ => r <> Abort -> m' = m
  | _ => True
  end.
Proof.
  intros Hr Hq Ha Hy Hx Hd. destruct (dset_reached_spec _ _ _ _ _ _ Hq Hr) as [_ H].
  destruct (H Ha) as (_ & _ & _ & _ & _ & _ & t & fl & _ & _ & _ & _ & _ & Hrep & _). clear H.
  destruct (exec e (to_map (SetClone os ck)) m) as [r1 m1] eqn:He. rewrite (set_exec_eq _ _ _ _ _ _ _ Hrep He) in Hx. injection Hx as <- <-.
  destruct (dexec true (bad_item bad') e (to_map (SetClone os ck)) m) as [r2 m2] eqn:He2.
  rewrite (dset_exec_eq _ _ _ _ _ _ _ _ Hrep He2) in Hd. injection Hd as <- <-.
  pose proof (clone_ends true (bad_item bad') e os ck _ m t fl _ _ _ _ Hrep He He2) as H.
  destruct r1 as [x|p| |u|]; cbn [rmap]; try done.
  - intros Hf. apply just_bad, Forall_app in Hf as [Hf _]. destruct (H Hf) as [(_ & _ & k & [] & _ & _ & Hv)|[-> ->]]; [done|].
    split; [done|]. destruct (set_yields_map _ _ _ _ _ Hrep Hy) as [-> _].
    rewrite <- just_owned, <- just_exists, (existsb_perm _ _ _ (held_owned t d)). by destruct (e_nd e && _).
  - intros Hna. apply H. by intros ->.
Qed.

Lemma dset_collect e bad os (it : user_iter T) r m : dset_begin bad e (SetFromIter os it) = (r, m) -> r <> Abort ->
  match set_begin e (SetFromIter os it) with
  | (Ret _, m0) => Forall (fun y => bad y = false) (set_dropped m0) -> r = Ret tt /\ m = m0
  | _ => True
  end /\
  (set_begin e (SetFromIter os it) = (r, m) \/
   r = Panic PDrop /\ blocks m = ∅ /\ exists n,
     (e_nd e = true -> set_dropped m ≡ₚ take n (ui_items it)) /\ exists x, x ∈ set_dropped m /\ bad x = true).
Proof.
  rewrite dset_begin_eq, set_begin_eq. cbn [start_to_map]. intros Hd Hna.
  destruct (drops_collect true e (bad_item bad) os (with_units it) r m Hd Hna) as [H1 H2]. split.
  - destruct (begin e _) as [[] m0]; try done. intros Hf. apply H1. by apply just_bad.
  - destruct H2 as [?|(-> & Hb & n & L & HL & Hp & y & Hy & Hbad)]; [by left|right]. split; [done|]. split; [done|]. exists n. split.
    + intros Hnd. pose proof (just_perm _ _ (Hp Hnd)) as H. rewrite just_app, (just_leaked _ _ HL), app_nil_r in H.
      unfold set_dropped. rewrite H, just_owned, fmap_take. cbn [with_units ui_items]. by rewrite <- list_fmap_compose, list_fmap_id.
    + destruct y as [y|u]; [|done]. exists y. split; [|done]. unfold set_dropped, just_values. apply elem_of_list_omap. by exists (inl y).
Qed.

End bst.
