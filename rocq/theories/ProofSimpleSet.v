(** * SimpleBSTSet: every call is a call of the map *)

From Coq Require Import String.
From Verif Require Export SpecSimpleSet ProofSet ProofSimpleProps.

Section sset.
Context {T : Type}.
Implicit Types m : sset T.

Definition sfrom_out (t : tree T unit) (c : set_op T) (x : out T unit) : set_out T :=
  match c with
  | SetDebug => SetDebugged (DStruct "SimpleBSTSet" [("root", stree_debug (values_tree t))])%string
  | _ => from_out t c x
  end.

Lemma sset_walk_eq m path : forall n, sset_walk m path n = simple_walk m path n.
Proof.
  induction path as [|[] path IH]; intros [p|]; simpl; try done;
    unfold ssetnode_left, ssetnode_right; destruct (peek m p); simpl; done.
Qed.

Lemma sset_show_eq m p : sset_show m p = rmap (fun x : shown T unit => (x.1.1.1, x.1.2, x.2)) (simple_show m p).
Proof.
  unfold sset_show, simple_show, ssetnode_value, ssetnode_has_left, ssetnode_has_right. by destruct (peek m p).
Qed.

Lemma sset_nexts_eq m d n : forall it, simple_nexts (sset_iter_next m d) n it =
  let '(r, it') := simple_nexts (simple_iter_next m d) n it in (rmap (fmap (option_map fst)) r, it').
Proof.
  induction n as [|n IH]; intros it; simpl; [done|].
  unfold sbind, sset_iter_next. unfold sbind. destruct (simple_iter_next m d it) as [[x| | | |] it1]; simpl; try done.
  rewrite IH. destruct (simple_nexts (simple_iter_next m d) n it1) as [[xs| | | |] it2]; simpl; done.
Qed.

Lemma ssetnode_debug_eq m (s : ptree T unit) : forall fuel p, sreadable m s -> pheight s < S fuel -> rootp s = Some p ->
  rmap DSome (ssetnode_debug m (S fuel) p) = Ret (stree_debug (values_tree (erase s))).
Proof.
  induction s as [|l IHl q k v r IHr]; intros fuel p Hr Hf Hn; simpl in Hn; [done|].
  injection Hn as <-. simpl in Hf. cbn [ssetnode_debug]. unfold ssetnode_value, ssetnode_left, ssetnode_right.
  pose proof (sreadable_root _ _ _ _ _ _ Hr) as Hp. rewrite Hp. cbn [rmap rbind n_key n_left n_right].
  assert (Hs : forall s', (forall fuel p, sreadable m s' -> pheight s' < S fuel -> rootp s' = Some p ->
    rmap DSome (ssetnode_debug m (S fuel) p) = Ret (stree_debug (values_tree (erase s')))) -> sreadable m s' -> pheight s' < fuel ->
    match rootp s' with Some c => rmap DSome (ssetnode_debug m fuel c) | None => Ret DNone end =
      Ret (stree_debug (values_tree (erase s')))).
  { intros s' IH Hs' Hh. destruct (rootp s') as [p'|] eqn:Hp'; [|by destruct s'].
    destruct fuel as [|fuel]; [lia|]. by apply IH. }
  rewrite (Hs l IHl) by (first [lia|by eapply sreadable_l]). cbn [rbind].
  rewrite (Hs r IHr) by (first [lia|by eapply sreadable_r]). done.
Qed.

Lemma sset_debug_eq m t : simple_rep m t ->
  sset_debug m = Ret (DStruct "SimpleBSTSet" [("root", stree_debug (values_tree (erase t)))])%string.
Proof.
  intros Hrep. unfold sset_debug, sset_root. rewrite (simple_root_ret _ _ Hrep).
  destruct (rootp t) as [p|] eqn:Hp; [|by destruct t].
  pose proof (simple_fuel_height _ _ Hrep) as Hf. destruct (simple_fuel m) as [|fuel]; [lia|].
  by rewrite (ssetnode_debug_eq m t fuel p (simple_readable _ _ Hrep) Hf Hp).
Qed.

Lemma to_map_has c : sset_has c = true -> simple_has (to_map (T := T) c) = true.
Proof. by destruct c. Qed.
Lemma start_to_map_has s : sset_has_start s = true -> simple_has_start (start_to_map (T := T) s) = true.
Proof. by destruct s. Qed.

Lemma sset_exec_eq e c m t r m' : simple_rep m t -> sset_has c = true -> simple_exec e (to_map c) m = (r, m') ->
  sset_exec e c m = (rmap (sfrom_out (erase t) c) r, m').
Proof.
  intros Hrep Hhas. destruct c; try done; cbn [to_map simple_exec sset_exec].
  - unfold sset_insert, sbind. destruct (simple_insert e o x () m) as [[]] ; simpl; intros [= <- <-]; done.
  - unfold sset_remove, sset_take, simple_remove, sbind. destruct (simple_remove_entry e o m) as [[[[k v]|]| | | |]]; simpl; intros [= <- <-]; done.
  - unfold sset_take, sbind. destruct (simple_remove_entry e o m) as [[]]; simpl; intros [= <- <-]; done.
  - unfold sset_get, sbind, sget, slift. simpl. destruct (simple_get_entry m o); simpl; intros [= <- <-]; done.
  - unfold sset_contains, sbind, sget, slift. simpl. destruct (simple_contains_key m o); simpl; intros [= <- <-]; done.
  - intros [= <- <-]; done.
  - unfold sset_is_empty, sbind, sget, slift. simpl. destruct (simple_is_empty e m); simpl; intros [= <- <-]; done.
  - unfold sset_clear, sbind. destruct (simple_clear m) as [[]]; simpl; intros [= <- <-]; done.
  - unfold sset_extend, sbind. destruct (simple_extend e os _ m) as [[]]; simpl; intros [= <- <-]; done.
  - unfold sbind, sget, slift. cbv beta. unfold sset_iter_start. destruct (simple_iter_start m d) as [it| | | |]; try (intros [= <- <-]; done).
    rewrite sset_nexts_eq. destruct (simple_nexts (simple_iter_next m d) n it) as [[l| | | |] it2]; simpl; intros [= <- <-]; try done.
  - unfold sbind, sget, slift. cbv beta. unfold sset_root. rewrite sset_walk_eq.
    destruct (simple_walk m path (simple_root m)) as [[x|]| | | |]; try (intros [= <- <-]; done).
    rewrite sset_show_eq. destruct (simple_show m x); intros [= <- <-]; done.
  - unfold sbind, sget, slift. cbv beta. rewrite (sset_debug_eq _ _ Hrep).
    unfold simple_debug. rewrite (simple_root_ret _ _ Hrep), (box_debug_eq m t);
      [|by apply simple_readable|by eapply simple_fuel_height]. intros [= <- <-]; done.
  - unfold sset_clone_and_replace, sset_clone, sbind.
    destruct (simple_clone e ck (fun _ _ => Some tt) m) as [[]]; try (intros [= <- <-]; done).
    destruct (simple_drop m) as [[]]; intros [= <- <-]; done.
Qed.

Lemma sset_begin_eq e (s : set_start T) : sset_begin e s = simple_begin e (start_to_map s).
Proof. by destruct s. Qed.

(** ** One call *)

Lemma sset_exec_cases e c m t x m' : simple_rep m t -> sset_has c = true -> sset_exec e c m = (x, m') ->
  (x = Abort /\ set_allocates c = true) \/
  exists r t', x = rmap (sfrom_out (erase t) c) r /\ simple_rep m' t' /\
    stree_call (to_map c) (erase t) = Some (r, erase t') /\ ((exists y, r = Ret y) \/ exists p, r = Panic p).
Proof.
  intros Hrep Hc He. destruct (simple_exec e (to_map c) m) as [r m1] eqn:E.
  rewrite (sset_exec_eq e c m t r m1 Hrep Hc E) in He. injection He as <- <-.
  destruct (simple_exec_cases e (to_map c) m t r m1 Hrep (to_map_has c Hc) E) as [[-> Ha]|(t' & Hrep' & Hst & Hr)].
  - left. split; [done|]. by destruct c.
  - right. by exists r, t'.
Qed.

Lemma sset_call_stop c (t t' : tree T unit) p : stree_call (to_map c) t = Some (Panic p, t') -> sset_stop c p.
Proof. intros H%stree_call_stop. by destruct c. Qed.

(** ** Histories *)

Fixpoint sset_steps (t : tree T unit) (cs : list (set_op T)) (xs : list (res (set_out T))) (t' : tree T unit) : Prop :=
  match cs, xs with
  | [], [] => t' = t
  | c :: cs, x :: xs =>
    (x = Abort /\ set_allocates c = true /\ xs = []) \/
    exists r t1, x = rmap (sfrom_out t c) r /\ stree_call (to_map c) t = Some (r, t1) /\
      ((exists y, r = Ret y) \/ exists p, r = Panic p) /\ sset_steps t1 cs xs t'
  | _, _ => False
  end.

Lemma sset_run_steps e cs : forall m t xs m', simple_rep m t -> Forall (fun c => sset_has c = true) cs ->
  sset_run e cs m = (xs, m') ->
  exists u, sset_steps (erase t) cs xs u /\ (alive xs -> exists t', simple_rep m' t' /\ erase t' = u).
Proof.
  induction cs as [|c cs IH]; intros m t xs m' Hrep Hcs Hrun; cbn [sset_run] in Hrun.
  - injection Hrun as <- <-. exists (erase t). split; [done|]. intros _. by exists t.
  - apply Forall_cons in Hcs as [Hc Hcs]. destruct (sset_exec e c m) as [x m1] eqn:He.
    destruct (sset_exec_cases e c m t x m1 Hrep Hc He) as [[-> Ha]|(r & t1 & -> & Hrep1 & Hst & Hr)].
    { injection Hrun as <- <-. exists (erase t). split; [by left|]. intros Hal. by apply Forall_cons in Hal as [? _]. }
    destruct (sset_run e cs m1) as [xs1 m2] eqn:E1.
    destruct (IH m1 t1 xs1 m2 Hrep1 Hcs E1) as (u & Hu & Hfin).
    assert (xs = rmap (sfrom_out (erase t) c) r :: xs1 /\ m' = m2) as [-> ->].
    { destruct Hr as [[y ->]|[p ->]]; simpl in Hrun; by injection Hrun as <- <-. }
    exists u. split.
    + right. by exists r, (erase t1).
    + intros Hal. apply Forall_cons in Hal as [_ Hal]. auto.
Qed.

Lemma sset_reached_steps e s cs xs m : sset_has_start s = true -> Forall (fun c => sset_has c = true) cs ->
  sset_reached e s cs xs m ->
  exists t0 u, otree_start (start_to_map s) t0 /\ sset_steps t0 cs xs u /\
    (alive xs -> exists t, simple_rep m t /\ erase t = u).
Proof.
  intros Hs Hcs (m0 & Hb & Hrun). rewrite sset_begin_eq in Hb.
  pose proof (simple_begin_spec e (start_to_map s) (start_to_map_has s Hs)) as H. rewrite Hb in H.
  destruct H as (t0 & Hrep0 & Ho). destruct (sset_run_steps e cs m0 t0 xs m Hrep0 Hcs Hrun) as (u & Hu & Hfin).
  by exists (erase t0), u.
Qed.

Lemma sset_reachable_rep e m : sset_reachable e m -> exists t, simple_rep m t.
Proof.
  intros (s & cs & xs & Hs & Hcs & Hr & Hal). destruct (sset_reached_steps e s cs xs m Hs Hcs Hr) as (t0 & u & _ & _ & H).
  destruct (H Hal) as (t & Ht & _). by exists t.
Qed.

Lemma sset_steps_ends cs : forall t xs u, sset_steps t cs xs u -> alive xs ->
  Forall (fun x => (exists y, x = Ret y) \/ exists p, x = Panic p) xs.
Proof.
  induction cs as [|c cs IH]; intros t [|x xs] u; try done. intros [(-> & _ & ->)|(r & t1 & -> & _ & Hr & H)] Hal.
  - by apply Forall_cons in Hal as [? _].
  - apply Forall_cons in Hal as [_ Hal]. constructor; [|by eapply IH].
    destruct Hr as [[y ->]|[p ->]]; simpl; [left; by eexists|right; by eexists].
Qed.

Lemma sset_run_app e cs c : forall m xs m1, sset_run e cs m = (xs, m1) ->
  Forall (fun r => (exists x, r = Ret x) \/ exists p, r = Panic p) xs ->
  forall x m2, sset_exec e c m1 = (x, m2) -> sset_run e (cs ++ [c]) m = (xs ++ [x], m2).
Proof.
  induction cs as [|c0 cs IH]; intros m xs m1 Hrun Hok x m2 He.
  - injection Hrun as <- <-. cbn [app sset_run]. rewrite He. by destruct x.
  - cbn [app sset_run] in Hrun |- *. destruct (sset_exec e c0 m) as [r0 m0] eqn:He0.
    destruct (sset_run e cs m0) as [rs1 m3] eqn:Hrun1.
    destruct r0 as [y|p| |u|].
    + injection Hrun as <- <-. apply Forall_cons in Hok as [_ Hok].
      by rewrite (IH m0 rs1 m3 Hrun1 Hok x m2 He).
    + injection Hrun as <- <-. apply Forall_cons in Hok as [_ Hok].
      by rewrite (IH m0 rs1 m3 Hrun1 Hok x m2 He).
    + injection Hrun as <- <-. apply Forall_cons in Hok as [[[? ?]|[? ?]] _]; done.
    + injection Hrun as <- <-. apply Forall_cons in Hok as [[[? ?]|[? ?]] _]; done.
    + injection Hrun as <- <-. apply Forall_cons in Hok as [[[? ?]|[? ?]] _]; done.
Qed.

Lemma sset_never_fails e c m x m' : sset_reachable e m -> sset_has c = true -> sset_exec e c m = (x, m') ->
  ((exists y, x = Ret y) \/ (exists p, x = Panic p /\ sset_stop c p) \/ (x = Abort /\ set_allocates c = true)) /\
  (x <> Abort -> sset_reachable e m').
Proof.
  intros Hm Hc He. split.
  - destruct (sset_reachable_rep e m Hm) as (t & Hrep).
    destruct (sset_exec_cases e c m t x m' Hrep Hc He) as [?|(r & t1 & -> & _ & Hst & [[y ->]|[p ->]])].
    + auto.
    + left. by eexists.
    + right. left. exists p. split; [done|]. by eapply sset_call_stop.
  - intros Hna. destruct Hm as (s & cs & xs & Hs & Hcs & Hr & Hal).
    destruct (sset_reached_steps e s cs xs m Hs Hcs Hr) as (t0 & u & _ & Hst & _).
    destruct Hr as (m0 & Hb & Hrun). exists s, (cs ++ [c]), (xs ++ [x]). split_and!; [done| | |].
    + apply Forall_app. split; [done|]. by constructor.
    + exists m0. split; [done|]. eapply sset_run_app; [done|by eapply sset_steps_ends|done].
    + apply Forall_app. split; [done|]. by constructor.
Qed.

Lemma sset_begin_never_fails e (s : set_start T) : sset_has_start s = true ->
  match sset_begin e s with
  | (Ret _, m) => sset_reachable e m
  | (Panic p, _) => exists os it, s = SetFromIter os it /\ (p = PCmp \/ (p = PIter /\ ui_panics it = true))
  | (Abort, _) => True
  | _ => False
  end.
Proof.
  intros Hs. pose proof (simple_begin_spec e (start_to_map s) (start_to_map_has s Hs)) as H.
  destruct (sset_begin e s) as [r m] eqn:E. rewrite <- sset_begin_eq, E in H. destruct r as [[]|p| |u|]; try done.
  - exists s, [], []. split_and!; [done|constructor| |constructor]. by exists m.
  - destruct s as [| |os it]; try done. exists os, it. split; [done|]. cbn in H. destruct H as [(-> & H & _)|[-> _]]; auto.
Qed.

(** ** Observations *)

Lemma sset_exposes_values m p (t : tree T unit) : simple_exposes m p t -> sset_exposes m p (values_tree t).
Proof.
  induction 1 as [|p n l r Hp Hl IHl Hr IHr]; [constructor|]. cbn [values_tree].
  econstructor; [..|exact IHl| |exact IHr]; unfold ssetnode_value, ssetnode_left, ssetnode_right; by rewrite Hp.
Qed.

Lemma sset_exposes_fun m p (t : stree T) : sset_exposes m p t -> forall u : stree T, sset_exposes m p u -> u = t.
Proof.
  induction 1 as [|p x nl nr l r Hx Hnl Hl IHl Hnr Hr IHr]; intros u H2; inversion H2 as [|p' x' nl' nr' l' r' Hx' Hnl' Hl' Hnr' Hr']; subst; [done|].
  rewrite Hx in Hx'. rewrite Hnl in Hnl'. rewrite Hnr in Hnr'. injection Hx' as <-. injection Hnl' as <-. injection Hnr' as <-.
  by rewrite (IHl _ Hl'), (IHr _ Hr').
Qed.

Lemma sset_rep_shows m t : simple_rep m t -> sset_shows m (values_tree (erase t)).
Proof. intros H%simple_rep_shows. by apply sset_exposes_values. Qed.

Lemma sset_rep_yields m t d : simple_rep m t -> sset_yields m d (stree_order d (values_tree (erase t))).
Proof.
  intros Hrep n. destruct (simple_rep_yields m t d Hrep n) as (it & Hs & Hn). exists it. split; [done|].
  rewrite sset_nexts_eq. destruct (simple_nexts (simple_iter_next m d) n it) as [r it']. simpl in Hn |- *. subst r. simpl.
  rewrite stree_order_values. f_equal. apply first_calls_fmap.
Qed.

Lemma sset_yields_fun m d l l' : sset_yields m d l -> sset_yields m d l' -> l = l'.
Proof.
  intros H H'. apply first_calls_inj. intros n. destruct (H n) as (it & H1 & H2). destruct (H' n) as (it' & H1' & H2').
  rewrite H1 in H1'. injection H1' as <-. rewrite H2 in H2'. by injection H2'.
Qed.

Lemma sset_traversals e m : sset_reachable e m ->
  exists t, sset_shows m t /\ (forall t', sset_shows m t' -> t' = t) /\ (forall d, sset_yields m d (stree_order d t)) /\
    sset_debug m = Ret (DStruct "SimpleBSTSet" [("root", stree_debug t)])%string /\
    sset_len m = N.of_nat (length (stree_order In t)) /\
    (forall path, exists n, sset_walk m path (sset_root m) = Ret n /\
       match n with None => Ret None | Some p => rmap Some (sset_show m p) end = Ret (stree_show (stree_at path t))).
Proof.
  intros Hm. destruct (sset_reachable_rep e m Hm) as (t & Hrep). exists (values_tree (erase t)).
  pose proof (sset_rep_shows _ _ Hrep) as Hs. split; [done|]. split; [intros t' Ht'; by eapply sset_exposes_fun|].
  split; [intros d; by apply sset_rep_yields|]. split; [by apply sset_debug_eq|]. split.
  - rewrite stree_order_values, fmap_length. cbn [tree_order]. rewrite erase_size. by apply simple_rep_nodes.
  - intros path. exists (rootp (tat path t)). unfold sset_root. rewrite sset_walk_eq, (simple_root_ret _ _ Hrep).
    split; [apply simple_walk_eq; by apply simple_readable|].
    rewrite stree_at_values, <- stree_show_values. pose proof (tat_erase_show path t m Hrep) as H.
    destruct (tat path t) as [|l p k v r]; simpl.
    + by rewrite H.
    + destruct H as (x & H1 & H2). by rewrite sset_show_eq, H1, H2.
Qed.

(** Equality *)
Lemma sset_eq_lists e1 e2 m1 m2 (eqT : T -> T -> bool) l1 l2 :
  sset_reachable e1 m1 -> sset_reachable e2 m2 -> sset_yields m1 In l1 -> sset_yields m2 In l2 ->
  exists b, sset_eq eqT m1 m2 = Ret b /\ (b = true <-> Forall2 (fun a b => eqT a b = true) l1 l2).
Proof.
  intros Hm1 Hm2 Hl1 Hl2. destruct (sset_reachable_rep e1 m1 Hm1) as (t1 & Hr1). destruct (sset_reachable_rep e2 m2 Hm2) as (t2 & Hr2).
  rewrite (sset_yields_fun _ _ _ _ Hl1 (sset_rep_yields _ _ In Hr1)), (sset_yields_fun _ _ _ _ Hl2 (sset_rep_yields _ _ In Hr2)).
  rewrite !stree_order_values. eexists. unfold sset_eq. split; [by apply simple_eq_spec|].
  rewrite list_eqb_iff. cbn [tree_order]. rewrite Forall2_fmap. split; intros H; (eapply Forall2_impl; [exact H|]); [by intros ?? []|done].
Qed.

End sset.

Section lawful.
Context {T : Type} (cmp : T -> T -> comparison).
Hypothesis Hlaw : lawful cmp.

Lemma simple_step_set (t : tree T unit) l c r l' : sset_has c = true -> simple_step cmp (units l) (to_map c) r (units l') ->
  sset_step cmp l c (rmap (sfrom_out t c) r) l'.
Proof.
  intros Hhas.
  assert (Hs : map_step cmp (units l) (to_map c) r (units l') -> c <> SetDebug -> set_step cmp l c (rmap (sfrom_out t c) r) l').
  { intros H Hn. pose proof (map_step_set cmp t l c r l' H) as H1. by destruct c. }
  assert (Hd : map_step cmp (units l) (to_map SetDebug) r (units l') -> set_step cmp l SetDebug (rmap (sfrom_out t SetDebug) r) l').
  { intros H. pose proof (map_step_set cmp t l SetDebug r l' H) as H1. destruct r; try done.
    cbn in H1 |- *. split; [apply H1|]. by eexists. }
  destruct c; try done; destruct r as [y|p| |u|]; cbn [to_map simple_step sset_step rmap] in *; try done; auto.
  all: try (intros [H ?]; split; [|done]; by apply Hs).
  all: try (intros H; exact (Hd H)).
  all: try (intros H; assert (Hn := Hs H ltac:(done)); exact Hn).
  intros (H1 & H2 & j & [x u] & H3 & H4). split; [by apply units_perm|]. split; [done|]. exists j, x.
  apply units_in in H3. split; [done|]. by destruct H4.
Qed.

Lemma sset_steps_list cs : forall (t : tree T unit) xs u l, Forall (set_legal cmp) cs -> Forall (fun c => sset_has c = true) cs ->
  bst cmp t -> units l ≡ₚ tree_inorder t -> sset_steps t cs xs u ->
  exists l', steps (sset_step cmp) l cs xs l' /\ (alive xs -> units l' ≡ₚ tree_inorder u /\ bst cmp u).
Proof.
  induction cs as [|c cs IH]; intros t [|x xs] u l Hleg Hhas Ht Hl; cbn [sset_steps steps]; try done.
  - intros ->. exists l. split; [done|]. auto.
  - apply Forall_cons in Hleg as [Hc Hleg]. apply Forall_cons in Hhas as [Hh Hhas].
    intros [(-> & Ha & ->)|(r & t1 & -> & Hst & Hr & H)].
    + exists l. split; [|intros Hal; by apply Forall_cons in Hal as [? _]]. exists l. split; [|done]. by destruct c.
    + set (l1 := (tree_inorder t1).*1). assert (Hl1 : units l1 = tree_inorder t1) by apply units_fst.
      destruct (stree_call_map cmp Hlaw (to_map c) t r t1 (units l) (units l1)) as [Hms Ht1];
        [by apply to_map_legal|done|done|done|by rewrite Hl1|].
      destruct (IH t1 xs u l1 Hleg Hhas Ht1 ltac:(by rewrite Hl1) H) as (l' & Hs & Hfin).
      exists l'. split.
      * exists l1. split; [by apply (simple_step_set t)|]. by destruct Hr as [[y ->]|[p ->]].
      * intros Hal. apply Forall_cons in Hal as [_ Hal]. auto.
Qed.

Lemma sset_refines e s cs xs (m : sset T) : sset_has_start s = true -> Forall (fun c => sset_has c = true) cs ->
  set_legal_start cmp s -> Forall (set_legal cmp) cs -> sset_reached e s cs xs m ->
  exists l, steps (sset_step cmp) (set_start_list cmp s) cs xs l /\
    (alive xs -> (exists l', l' ≡ₚ l /\ set_sorted cmp l' /\ sset_yields m In l') /\
      sset_len m = N.of_nat (length l) /\ (forall b, sset_is_empty b m = Ret (N.of_nat (length l) =? 0)%N) /\
      forall f o, is_query cmp f -> surely o f ->
        sset_get m o = Ret (set_find f l) /\ sset_contains m o = Ret (found (set_find f l))).
Proof.
  intros Hs Hcs Hls Hlc Hr. destruct (sset_reached_steps e s cs xs m Hs Hcs Hr) as (t0 & u & Ho & Hst & Hfin).
  pose proof (otree_start_tree cmp Hlaw (start_to_map s) t0 (start_to_map_legal _ _ Hls) Ho) as ->.
  destruct (sset_steps_list cs (start_tree cmp (start_to_map s)) xs u (set_start_list cmp s) Hlc Hcs) as (l & Hl & Hal).
  - by apply start_bst.
  - rewrite <- start_to_map_list. by rewrite start_contents.
  - done.
  - exists l. split; [done|]. intros Ha. destruct (Hfin Ha) as (t & Hrep & <-). destruct (Hal Ha) as [Hp Hb].
    assert (Hlen : length l = tsize t) by (by rewrite <- units_length, Hp, erase_size).
    split; [|split; [|split]].
    + exists (stree_order In (values_tree (erase t))). split; [|split].
      * apply units_perm. rewrite stree_order_values, units_fst. by rewrite Hp.
      * apply units_sorted. rewrite stree_order_values, units_fst. by apply (bst_sorted cmp Hlaw).
      * by apply sset_rep_yields.
    + rewrite Hlen. by apply simple_rep_nodes.
    + intros b. unfold sset_is_empty. rewrite (simple_is_empty_eq b m t Hrep), Hlen. f_equal. destruct t as [|? ? ? ? ?]; [done|].
      symmetry. apply N.eqb_neq. unfold tsize. simpl. lia.
    + intros f o Hf Hof. unfold sset_get, sset_contains.
      assert (Hfind : tree_find f (erase t) = (fun x => (x, tt)) <$> set_find f l).
      { rewrite (tree_find_assoc cmp Hlaw f (erase t) (units l) Hf Hb Hp). apply units_find. }
      destruct (surely_tget o f t Hof 0) as (y & Hy & Hy').
      rewrite (simple_get_entry_eq m t o Hrep), (simple_contains_eq m t o Hrep), Hy. simpl. rewrite Hfind in Hy'.
      rewrite Hy'. destruct (set_find f l), y; done.
Qed.
End lawful.

(** ** Comparison with BSTSet *)
Section compare.
Context {T : Type}.

Lemma to_map_shared (c : set_op T) : set_shared c = true -> shared (to_map c) = true.
Proof. by destruct c. Qed.
Lemma to_map_calm (c : set_op T) : set_calm_clone c -> calm_clone (to_map c).
Proof. by destruct c. Qed.
Lemma shared_has (c : set_op T) : set_shared c = true \/ set_calm_clone c -> sset_has c = true.
Proof. destruct c; naive_solver. Qed.

Lemma same_result_set (t : tree T unit) c r1 r2 t' t1 : same_result r1 r2 -> stree_call (to_map c) t = Some (r2, t') ->
  otree_call (to_map c) t = Some (r1, t1) ->
  set_same_result (rmap (from_out t c) r1) (rmap (sfrom_out t c) r2).
Proof.
  intros Hr H2 H1. destruct Hr as [->|(root & n & -> & ->)].
  - destruct c; try by left. destruct r2; try done; try by left. right. by eexists.
  - destruct c; try by left. right. by eexists.
Qed.

Lemma unrefused_rmap {A B} (f : A -> B) r : unrefused (rmap f r) -> unrefused r.
Proof. unfold unrefused. destruct r; simpl; naive_solver. Qed.

Lemma set_lockstep (P : tree T unit -> Prop) (ok : set_op T -> Prop) e b :
  (forall c t x t1 y t2, ok c -> P t -> otree_step t (to_map c) x t1 -> unrefused x -> stree_call (to_map c) t = Some (y, t2) ->
     otree_call (to_map c) t = Some (x, t1) /\ same_result x y /\ t1 = t2 /\ P t1) ->
  (forall c, ok c -> sset_has c = true) ->
  forall cs m1 pt1 fl m2 pt2 xs1 m1' xs2 m2', Forall ok cs -> map_rep m1 pt1 fl -> simple_rep m2 pt2 -> erase pt1 = erase pt2 ->
  P (erase pt1) -> set_run e cs m1 = (xs1, m1') -> sset_run b cs m2 = (xs2, m2') -> Forall unrefused xs1 -> alive xs2 ->
  Forall2 set_same_result xs1 xs2 /\
  exists pt1' fl' pt2', map_rep m1' pt1' fl' /\ simple_rep m2' pt2' /\ erase pt1' = erase pt2'.
Proof.
  intros Hstep Hhas. induction cs as [|c cs IH]; intros m1 pt1 fl m2 pt2 xs1 m1' xs2 m2' Hok Hrep1 Hrep2 Heq HP Hr1 Hr2 Hun Hal;
    cbn [set_run sset_run] in Hr1, Hr2.
  - injection Hr1 as <- <-. injection Hr2 as <- <-. split; [constructor|]. by exists pt1, fl, pt2.
  - apply Forall_cons in Hok as [Hc Hok]. destruct (sset_exec b c m2) as [x2 m2a] eqn:He2.
    destruct (exec e (to_map c) m1) as [r1 m1a] eqn:He1.
    rewrite (set_exec_eq _ _ _ _ _ _ _ Hrep1 He1) in Hr1.
    destruct (exec_otree e (to_map c) m1 pt1 fl r1 m1a Hrep1 He1) as (pt1a & fla & Hrep1a & Hst1).
    pose proof (exec_rep _ _ _ _ _ _ _ Hrep1 He1) as [Hd _].
    destruct (sset_exec_cases b c m2 pt2 x2 m2a Hrep2 (Hhas _ Hc) He2) as [[-> _]|(r2 & pt2a & -> & Hrep2a & Hst2 & Hr)].
    { injection Hr2 as <- <-. by apply Forall_cons in Hal as [? _]. }
    assert (Hun1 : unrefused r1).
    { apply (unrefused_rmap (from_out (erase pt1) c)). destruct (set_run e cs m1a) as [ys1 ?].
      destruct r1; simpl in Hr1 |- *; injection Hr1 as <- <-; by apply Forall_cons in Hun as [? _]. }
    rewrite <- Heq in Hst2. destruct (Hstep c (erase pt1) r1 (erase pt1a) r2 (erase pt2a) Hc HP Hst1 Hun1 Hst2) as (Hcall & Hsame & Heq' & HP').
    pose proof (same_result_set (erase pt1) c r1 r2 _ _ Hsame Hst2 Hcall) as Hss. rewrite Heq in Hss at 2.
    destruct (set_run e cs m1a) as [ys1 m1b] eqn:E1. destruct (sset_run b cs m2a) as [ys2 m2b] eqn:E2.
    assert (xs2 = rmap (sfrom_out (erase pt2) c) r2 :: ys2 /\ m2' = m2b) as [-> ->].
    { destruct Hr as [[y ->]|[p ->]]; simpl in Hr2; by injection Hr2 as <- <-. }
    assert (xs1 = rmap (from_out (erase pt1) c) r1 :: ys1 /\ m1' = m1b) as [-> ->].
    { destruct r1 as [y|p| |u|]; simpl in Hr1; try by injection Hr1 as <- <-.
      by destruct Hun1. }
    apply Forall_cons in Hun as [_ Hun]. apply Forall_cons in Hal as [_ Hal].
    destruct (IH m1a pt1a fla m2a pt2a ys1 m1b ys2 m2b Hok Hrep1a Hrep2a Heq' HP' E1 E2 Hun Hal) as [Hf Hfin].
    split; [|done]. constructor; done.
Qed.

Lemma set_differential_gen (P : tree T unit -> Prop) (ok : set_op T -> Prop) e b s cs xs1 (m1 : bstset T) xs2 (m2 : sset T) :
  (forall c t x t1 y t2, ok c -> P t -> otree_step t (to_map c) x t1 -> unrefused x -> stree_call (to_map c) t = Some (y, t2) ->
     otree_call (to_map c) t = Some (x, t1) /\ same_result x y /\ t1 = t2 /\ P t1) ->
  (forall c, ok c -> sset_has c = true) -> (forall t0, otree_start (start_to_map s) t0 -> P t0) ->
  sset_has_start s = true -> Forall ok cs ->
  set_reached e s cs xs1 m1 -> sset_reached b s cs xs2 m2 -> Forall unrefused xs1 -> alive xs2 ->
  Forall2 set_same_result xs1 xs2 /\
  exists t, set_shows m1 t /\ sset_shows m2 t /\ forall d, exists l, set_yields m1 d l /\ sset_yields m2 d l.
Proof.
  intros Hstep Hhas HP Hs Hok (m01 & Hb1 & Hr1) (m02 & Hb2 & Hr2) Hun Hal.
  rewrite set_begin_eq in Hb1. rewrite sset_begin_eq in Hb2.
  pose proof (begin_rep e (start_to_map s)) as H. rewrite Hb1 in H. destruct H as (pt1 & fl & Hrep1 & _).
  pose proof (simple_begin_spec b (start_to_map s) (start_to_map_has s Hs)) as H. rewrite Hb2 in H. destruct H as (pt2 & Hrep2 & Ho2).
  pose proof (begin_otree _ _ _ _ _ Hb1 Hrep1) as Ho1.
  destruct (set_lockstep P ok e b Hstep Hhas cs m01 pt1 fl m02 pt2 xs1 m1 xs2 m2 Hok Hrep1 Hrep2 (otree_start_fun _ _ _ Ho1 Ho2) (HP _ Ho1) Hr1 Hr2 Hun Hal)
    as (Hf & t1 & fl' & t2 & H1 & H2 & Heq).
  split; [done|]. exists (values_tree (erase t2)). split; [|split].
  - rewrite <- Heq. by eapply set_shows_rep.
  - by apply sset_rep_shows.
  - intros d. exists (stree_order d (values_tree (erase t2))). split; [|by apply sset_rep_yields].
    rewrite stree_order_values, <- Heq. by eapply set_yields_rep.
Qed.

Lemma set_differential e b s cs xs1 (m1 : bstset T) xs2 (m2 : sset T) :
  sset_has_start s = true -> Forall (fun c => set_shared c = true) cs ->
  set_reached e s cs xs1 m1 -> sset_reached b s cs xs2 m2 -> Forall unrefused xs1 -> alive xs2 ->
  Forall2 set_same_result xs1 xs2 /\
  exists t, set_shows m1 t /\ sset_shows m2 t /\ forall d, exists l, set_yields m1 d l /\ sset_yields m2 d l.
Proof.
  apply (set_differential_gen (fun _ => True)); [|by intros []|done].
  intros c t x t1 y t2 Hc%to_map_shared _ H1 Hx H2. apply unrefused_call in H1; [|by left|done].
  destruct (shared_call (to_map c) t x t1 y t2 Hc) as [Hsame ->]; done.
Qed.

Lemma set_differential_lawful (cmp : T -> T -> comparison) : lawful cmp -> forall e b s cs xs1 (m1 : bstset T) xs2 (m2 : sset T),
  sset_has_start s = true -> set_legal_start cmp s -> Forall (set_legal cmp) cs ->
  Forall (fun c => set_shared c = true \/ set_calm_clone c) cs ->
  set_reached e s cs xs1 m1 -> sset_reached b s cs xs2 m2 -> Forall unrefused xs1 -> alive xs2 ->
  Forall2 set_same_result xs1 xs2 /\
  exists t, set_shows m1 t /\ sset_shows m2 t /\ forall d, exists l, set_yields m1 d l /\ sset_yields m2 d l.
Proof.
  intros Hlaw e b s cs xs1 m1 xs2 m2 Hs Hls Hlc Hsh.
  assert (Hboth : Forall (fun c => set_legal cmp c /\ (set_shared c = true \/ set_calm_clone c)) cs) by (by apply Forall_and).
  revert Hs Hboth. apply (set_differential_gen (bst cmp)).
  - intros c t x t1 y t2 [Hc Hsc] Hb H1 Hx H2. apply to_map_legal in Hc.
    assert (Hsc' : shared (to_map c) = true \/ calm_clone (to_map c)).
    { destruct Hsc as [Hsc|Hsc]; [left; by apply to_map_shared|right; by apply to_map_calm]. }
    apply (unrefused_call (to_map c) t x t1 Hsc') in H1; [|done].
    assert (Hb1 : bst cmp t1).
    { eapply (tree_step_map cmp Hlaw t (to_map c) x t1); [done|done| |done|done]. by apply otree_call_tree. }
    split; [done|]. destruct Hsc' as [Hsc'|Hsc'].
    + destruct (shared_call (to_map c) t x t1 y t2 Hsc' H1 H2) as [? ->]. done.
    + pose proof (clone_call cmp Hlaw (to_map c) t x t1 Hsc' Hc Hb H1) as H1'. rewrite H2 in H1'. injection H1' as -> ->.
      split_and!; [by left|done|done].
  - intros c [_ Hc]. by apply shared_has.
  - intros t0 Ht0. rewrite (otree_start_tree cmp Hlaw _ t0 (start_to_map_legal _ _ Hls) Ht0). by apply start_bst.
Qed.

Lemma set_differential_start e b (s : set_start T) r1 m1 r2 m2 : sset_has_start s = true ->
  set_begin e s = (r1, m1) -> sset_begin b s = (r2, m2) -> unrefused r1 -> r2 <> Abort -> r1 = r2.
Proof.
  intros Hs. rewrite set_begin_eq, sset_begin_eq. apply differential_start. by apply start_to_map_has.
Qed.

(** Set and map of the same history free their nodes alike. *)
Lemma sset_no_leak e (m : sset T) : sset_reachable e m ->
  sset_len m = N.of_nat (size (s_mem m)) /\ exists m', simple_drop m = (Ret tt, m') /\ s_mem m' = ∅.
Proof.
  intros Hm. destruct (sset_reachable_rep e m Hm) as (t & Hrep). destruct (simple_rep_nodes _ _ Hrep) as [H1 H2].
  split; [unfold sset_len, simple_len; by rewrite H2, H1|].
  pose proof (simple_drop_spec m t Hrep) as Hd. unfold wp in Hd.
  destruct (simple_drop m) as [[[]|p| |u|] m']; try done. exists m'. split; [done|]. by destruct Hd as [_ Hd].
Qed.
End compare.
