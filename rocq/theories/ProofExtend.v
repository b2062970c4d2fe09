(** * extend, collect and the macros are repeated inserts; borrowed forms *)

From Verif Require Export ProofCost ProofSet.

Section extend.
Context {K V : Type}.
Implicit Types m : bstmap K V.

Lemma inserts_shows e os (items : list (K * V)) m (t : tree K V) rs m' : reachable e m -> shows m t ->
  run e (inserts os items) m = (rs, m') -> returned_all rs ->
  exists t', otree_insert_all os 0 items t = (t', true) /\ shows m' t'.
Proof.
  intros Hm Ht Hr Hall. destruct (reachable_rep _ _ Hm) as (pt & fl & Hrep). rewrite (rep_shows_eq _ _ _ _ Hrep Ht).
  destruct (inserts_tree e os items 0 m pt fl rs m' Hrep Hr Hall) as (t' & fl' & Hrep' & H).
  exists (erase t'). split; [done|by eapply rep_shows].
Qed.

Lemma extend_shows e os it m (t : tree K V) r m' : reachable e m -> shows m t ->
  exec e (OExtend os it) m = (r, m') -> (exists x, r = Ret x) \/ r = Panic PIter ->
  exists t', otree_insert_all os 0 (ui_items it) t = (t', true) /\ shows m' t' /\
    r = if ui_panics it then Panic PIter else Ret OutUnit.
Proof.
  intros Hm Ht He Hr. destruct (any_comparator_call e _ m t r m' Hm Ht He) as (t' & Ht' & Hs).
  destruct Hs as [Hs|[Hs|[[[Hs|[Hs|Hs]]|Hs] _]]]; simpl in Hs; try done; try (by destruct Hr as [[x Hr]|Hr]; subst).
  destruct (otree_insert_all os 0 (ui_items it) t) as [t1 b]. simpl in Hs. injection Hs as <- <-.
  destruct b; [|by destruct Hr as [[x Hr]|Hr]]. exists t1. by destruct (ui_panics it).
Qed.

(** C30 *)
Lemma otree_insert_all_prefix os (items : list (K * V)) : forall j (t t' : tree K V) b, otree_insert_all os j items t = (t', b) ->
  exists n, n <= length items /\ otree_insert_all os j (take n items) t = (t', true).
Proof.
  induction items as [|[k v] items IH]; intros j t t' b; simpl.
  - intros [= <- _]. by exists 0.
  - destruct (otree_insert (os j k) 0 k v t) as [[t1 y]|] eqn:E.
    + intros H. destruct (IH _ _ _ _ H) as (n & Hn & H'). exists (S n). simpl. rewrite E. split; [lia|done].
    + intros [= <- _]. exists 0. split; [lia|done].
Qed.
Lemma extend_stops e os it m (t : tree K V) q m' : reachable e m -> shows m t ->
  exec e (OExtend os it) m = (Panic q, m') ->
  exists n t', n <= length (ui_items it) /\ otree_insert_all os 0 (take n (ui_items it)) t = (t', true) /\ shows m' t'.
Proof.
  intros Hm Ht He. destruct (any_comparator_call e _ m t _ m' Hm Ht He) as (t' & Ht' & Hs).
  destruct Hs as [Hs|[Hs|[_ [n Hs]]]]; simpl in Hs; [|done|].
  - destruct (otree_insert_all os 0 (ui_items it) t) as [t1 b] eqn:E. simpl in Hs. injection Hs as _ <-.
    destruct (otree_insert_all_prefix _ _ _ _ _ _ E) as (n & Hn & H). by exists n, t1.
  - exists (min n (length (ui_items it))), t'. split; [lia|]. split; [|done].
    destruct (decide (n <= length (ui_items it))); [by rewrite Nat.min_l by lia|].
    rewrite Nat.min_r by lia. rewrite take_ge in Hs |- * by lia. done.
Qed.

(** C31 *)
Lemma extend_is_inserts e os it m r m1 rs m2 : reachable e m ->
  exec e (OExtend os it) m = (r, m1) -> (exists x, r = Ret x) \/ r = Panic PIter ->
  run e (inserts os (ui_items it)) m = (rs, m2) -> returned_all rs ->
  exists t : tree K V, shows m1 t /\ shows m2 t.
Proof.
  intros Hm He Hr Hrun Hall. destruct (reachable_rep _ _ Hm) as (pt & fl & Hrep). pose proof (rep_shows _ _ _ Hrep) as Ht.
  destruct (extend_shows _ _ _ _ _ _ _ Hm Ht He Hr) as (t1 & H1 & H2 & _).
  destruct (inserts_shows _ _ _ _ _ _ _ Hm Ht Hrun Hall) as (t2 & H3 & H4).
  rewrite H1 in H3. injection H3 as <-. by exists t1.
Qed.

Lemma new_reachable e : reachable (K:=K) (V:=V) e map_new.
Proof. exists SNew, [], []. split; [by exists map_new|constructor]. Qed.

Lemma new_shows : shows (map_new (K:=K) (V:=V)) tleaf.
Proof. apply (rep_shows _ _ _ map_new_rep). Qed.

Lemma collect_is_inserts e os it (m1 : bstmap K V) rs m2 : map_from_iter e os it = (Ret tt, m1) ->
  run e (inserts os (ui_items it)) map_new = (rs, m2) -> returned_all rs ->
  exists t : tree K V, shows m1 t /\ shows m2 t /\ ui_panics it = false.
Proof.
  intros Hb Hrun Hall. pose proof (begin_rep e (SFromIter os it)) as H. cbn [begin] in H. rewrite Hb in H.
  destruct H as (t & fl & Hrep & _ & Hp & Hr & _). apply ins_rel_otree in Hr.
  destruct (inserts_shows _ _ _ _ _ _ _ (new_reachable e) new_shows Hrun Hall) as (t2 & H3 & H4).
  change (erase Leaf) with (tleaf (K:=K) (V:=V)) in Hr. rewrite Hr in H3. injection H3 as <-.
  exists (erase t). split; [by eapply rep_shows|done].
Qed.

Lemma bstmap_macro_spec e os (items : list (K * V)) panics m : bstmap_macro e os items panics = (Ret tt, m) ->
  panics = false /\ exists t fl, map_rep m t fl /\ otree_insert_all os 0 items tleaf = (erase t, true).
Proof.
  unfold bstmap_macro, build. pose proof (insert_all_spec e os panics items 0 _ _ _ (map_new_rep (K:=K) (V:=V))) as H.
  unfold wp in H. destruct (insert_all e os 0 items panics map_new) as [[[]|p| |u|] m1]; try done.
  - intros [= <-]. destruct H as (-> & t & fl & Hrep & Hr & _). split; [done|]. exists t, fl. split; [done|]. by apply ins_rel_otree in Hr.
  - destruct (map_drop e (fun _ => false) m1) as [[]]; done.
Qed.

Lemma bstmap_macro_is_inserts e os (items : list (K * V)) panics m1 rs m2 : bstmap_macro e os items panics = (Ret tt, m1) ->
  run e (inserts os items) map_new = (rs, m2) -> returned_all rs ->
  exists t : tree K V, shows m1 t /\ shows m2 t.
Proof.
  intros Hb Hrun Hall. destruct (bstmap_macro_spec _ _ _ _ _ Hb) as (_ & t & fl & Hrep & Hr).
  destruct (inserts_shows _ _ _ _ _ _ _ (new_reachable e) new_shows Hrun Hall) as (t2 & H3 & H4).
  rewrite Hr in H3. injection H3 as <-. exists (erase t). split; [by eapply rep_shows|done].
Qed.

(** ** The last value wins, the first key stays *)
Section lawful.
Variable cmp : K -> K -> comparison.
Hypothesis Hlaw : lawful cmp.

Lemma find_app f (l1 l2 : list (K * V)) : assoc_find f (l1 ++ l2) =
  match assoc_find f l1 with Some x => Some x | None => assoc_find f l2 end.
Proof. induction l1 as [|[k v] l1 IH]; simpl; [done|]. by destruct (f k). Qed.

Lemma find_insert f k v (l : list (K * V)) : is_query cmp f -> assoc_find f (assoc_insert cmp k v l) =
  match f k with
  | Eq => match assoc_find f l with Some (k0, _) => Some (k0, v) | None => Some (k, v) end
  | _ => assoc_find f l
  end.
Proof using Hlaw.
  intros Hf. induction l as [|[k' v'] l IH]; simpl; [by destruct (f k)|].
  destruct (f k) eqn:Hfk.
  - rewrite (query_eq cmp f Hf k k' Hfk). destruct (cmp k k') eqn:Hc; simpl.
    + by rewrite (query_eq cmp f Hf k k' Hfk), Hc.
    + by rewrite (query_eq cmp f Hf k k' Hfk), Hc.
    + by rewrite (query_eq cmp f Hf k k' Hfk), Hc.
  - destruct (cmp k k') eqn:Hc; simpl; [|by rewrite IH..]. rewrite <- (query_cong cmp f Hf k k' Hc), Hfk. done.
  - destruct (cmp k k') eqn:Hc; simpl; [|by rewrite IH..]. rewrite <- (query_cong cmp f Hf k k' Hc), Hfk. done.
Qed.

Lemma last_value_first_key f (new : list (K * V)) : is_query cmp f -> forall l,
  assoc_find f (assoc_insert_all cmp new l) =
  match assoc_find f (l ++ new) with
  | None => None
  | Some (k, v) => Some (k, match assoc_find f (rev new) with Some (_, w) => w | None => v end)
  end.
Proof using Hlaw.
  intros Hf. induction new as [|[k v] new IH]; intros l; simpl.
  - rewrite app_nil_r. by destruct (assoc_find f l) as [[]|].
  - unfold assoc_insert_all in *. cbn [fst snd fold_left]. rewrite IH, !find_app, (find_insert f k v l Hf). simpl.
    destruct (f k) eqn:Hk; simpl.
    + destruct (assoc_find f l) as [[k0 v0]|]; by destruct (assoc_find f (rev new)) as [[]|].
    + destruct (assoc_find f l) as [[k0 v0]|]; [by destruct (assoc_find f (rev new)) as [[]|]|].
      destruct (assoc_find f new) as [[]|]; [|done]. by destruct (assoc_find f (rev new)) as [[]|].
    + destruct (assoc_find f l) as [[k0 v0]|]; [by destruct (assoc_find f (rev new)) as [[]|]|].
      destruct (assoc_find f new) as [[]|]; [|done]. by destruct (assoc_find f (rev new)) as [[]|].
Qed.

Lemma extend_lookup e os it m l r m' f o : ordered_reachable cmp e m -> yields m In l -> legal_inserts cmp os ->
  exec e (OExtend os it) m = (r, m') -> (exists x, r = Ret x) \/ r = Panic PIter -> is_query cmp f -> surely o f ->
  map_get_entry m' o = Ret (
    match assoc_find f (l ++ ui_items it) with
    | None => None
    | Some (k, v) => Some (k, match assoc_find f (rev (ui_items it)) with Some (_, w) => w | None => v end)
    end).
Proof using Hlaw.
  intros Hm Hl Hos He Hr Hf Ho. rewrite <- last_value_first_key by done.
  destruct (ordered_rep cmp Hlaw _ _ Hm) as (t & fl & Hrep & Ht).
  rewrite (rep_yields_eq _ _ _ _ _ Hrep Hl). cbn [tree_order].
  assert (Hleg : legal cmp (OExtend os it)) by done.
  destruct (exec_ordered cmp Hlaw _ _ _ _ _ _ _ Hrep Ht Hleg He) as (t' & fl' & Hrep' & Ht' & _ & Hst).
  destruct (get_find _ _ _ o f Hrep' Ho) as (_ & -> & _). f_equal. apply (tree_find_assoc cmp Hlaw); [done|done|].
  symmetry. destruct Hr as [[x ->]| ->]; simpl in Hst; [by destruct Hst as (_ & _ & ?)|].
  destruct Hst as (n & H1 & H2). rewrite H1.
  assert (n >= length (ui_items it)) as Hn.
  { destruct H2 as [[_ [[H2|[H2|H2]]|H2]]|[(-> & _)|(k & v & _ & [[H2 _]|[H2|[H2|H2]]])]]; try done; lia. }
  by rewrite take_ge by lia.
Qed.

(** C37 *)
Lemma borrowed_forms {Q : Type} (cmpQ : Q -> Q -> comparison) (borrow : K -> Q) (p : nat -> K -> bool) q k e call m :
  lawful cmpQ -> (forall a b, cmpQ (borrow a) (borrow b) = cmp a b) -> cmpQ q (borrow k) = Eq -> search_call call ->
  exec (V:=V) e (call (fun i x => if p i x then None else Some (cmpQ q (borrow x)))) m =
  exec e (call (fun i x => if p i x then None else Some (cmp k x))) m.
Proof.
  intros HQ Hb Hq Hc. apply search_call_same; [|done]. intros i x. destruct (p i x); [done|].
  by rewrite <- Hb, (lw_cong _ HQ _ _ _ Hq).
Qed.

End lawful.

(** Histories in which some calls are replaced. *)
Lemma run_same_calls e (cs cs' : list (op K V)) : Forall2 (fun c c' => forall m, exec e c m = exec e c' m) cs cs' -> forall m, run e cs m = run e cs' m.
Proof.
  induction 1 as [|c c' cs cs' Hc _ IH]; intros m; [done|]. cbn [run]. rewrite Hc. destruct (exec e c' m) as [[] m1]; by rewrite ?IH.
Qed.

Lemma borrowed_history {Q : Type} cmp (cmpQ : Q -> Q -> comparison) (borrow : K -> Q) e cs cs' :
  lawful cmpQ -> (forall a b, cmpQ (borrow a) (borrow b) = cmp a b) ->
  Forall2 (borrowed_alike cmp cmpQ borrow) cs cs' -> forall m, run (V:=V) e cs m = run e cs' m.
Proof.
  intros HQ Hb H. apply run_same_calls. eapply Forall2_impl; [exact H|]. intros c c' [c0|call p q k Hc Hq] m; [done|].
  by apply borrowed_forms.
Qed.

End extend.

(** ** Sets *)
Section sets.
Context {T : Type}.
Implicit Types m : bstset T.

(** A list as a tree: the values of [otree_insert_all]. *)
Lemma set_inserts_map os (items : list T) : to_map <$> set_inserts os items = inserts os (units items).
Proof.
  unfold set_inserts, inserts. rewrite <- units_fmap, fmap_imap, imap_fmap. done.
Qed.

Lemma set_borrowed_forms {Q : Type} cmp (cmpQ : Q -> Q -> comparison) (borrow : T -> Q) (p : nat -> T -> bool) q x e call m :
  lawful cmpQ -> (forall a b, cmpQ (borrow a) (borrow b) = cmp a b) -> cmpQ q (borrow x) = Eq ->
  set_search_call call -> set_reachable e m ->
  set_exec e (call (fun i y => if p i y then None else Some (cmpQ q (borrow y)))) m =
  set_exec e (call (fun i y => if p i y then None else Some (cmp x y))) m.
Proof.
  intros HQ Hb Hq Hc (t & fl & Hrep)%set_reachable_map%reachable_rep.
  set (o := fun i y => if p i y then None else Some (cmpQ q (borrow y))).
  set (o' := fun i y => if p i y then None else Some (cmp x y)).
  assert (Hm : exists call', search_call call' /\ forall o, to_map (call o) = call' o).
  { destruct Hc; [exists OContains|exists OGetEntry|exists ORemove|exists ORemoveEntry]; (split; [constructor|done]). }
  destruct Hm as (call' & Hc' & Hm).
  pose proof (borrowed_forms cmp cmpQ borrow p q x e call' m HQ Hb Hq Hc') as H. fold o o' in H.
  destruct (exec e (call' o) m) as [r m'] eqn:E. symmetry in H. rewrite <- Hm in E, H.
  rewrite (set_exec_eq _ _ _ _ _ _ _ Hrep E), (set_exec_eq _ _ _ _ _ _ _ Hrep H). by destruct Hc.
Qed.

Lemma set_returned xs rs : Forall2 (fun (x : res (set_out T)) (r : res (out T unit)) => exists t c, x = rmap (from_out t c) r) xs rs ->
  returned_all xs -> returned_all rs.
Proof.
  induction 1 as [|x r xs rs (t & c & ->) _ IH]; intros Ha; [constructor|]. apply Forall_cons in Ha as [[y H1] H2].
  constructor; [destruct r; try done; by eexists|by apply IH].
Qed.

Lemma shows_set m (t : tree T unit) : shows m t -> set_shows m (values_tree t).
Proof. intros (r & Hr & H). exists r. split; [done|by apply set_exposes_values]. Qed.

Lemma set_inserts_run e os items m xs m' : reachable e m -> set_run e (set_inserts os items) m = (xs, m') -> returned_all xs ->
  exists rs, run e (inserts os (units items)) m = (rs, m') /\ returned_all rs.
Proof.
  intros Hm Hrun Hall. destruct (reachable_rep _ _ Hm) as (t & fl & Hrep).
  destruct (set_run_map _ _ _ _ _ _ _ Hrep Hrun) as (rs & H1 & H2). rewrite set_inserts_map in H1. exists rs.
  split; [done|by eapply set_returned].
Qed.

Lemma set_extend_is_inserts e os it m r m1 xs m2 : set_reachable e m ->
  set_exec e (SetExtend os it) m = (r, m1) -> (exists x, r = Ret x) \/ r = Panic PIter ->
  set_run e (set_inserts os (ui_items it)) m = (xs, m2) -> returned_all xs ->
  exists t, set_shows m1 t /\ set_shows m2 t.
Proof.
  intros Hm%set_reachable_map He Hr Hrun Hall. destruct (reachable_rep _ _ Hm) as (t0 & fl0 & Hrep0).
  destruct (exec e (to_map (SetExtend os it)) m) as [r0 m0] eqn:E0. pose proof (set_exec_eq _ _ _ _ _ _ _ Hrep0 E0) as E1.
  rewrite He in E1. injection E1 as -> ->. destruct (set_inserts_run _ _ _ _ _ _ Hm Hrun Hall) as (rs & H1 & H2).
  rewrite <- with_units_items in H1.
  destruct (extend_is_inserts e os (with_units it) m r0 m0 rs m2 Hm E0) as (t & H3 & H4); [|done|done|].
  - destruct r0; destruct Hr as [[x Hr]|Hr]; try done; [left; by eexists|right; simpl in Hr; congruence].
  - exists (values_tree t). split; by apply shows_set.
Qed.

Lemma set_collect_is_inserts e os it m1 xs m2 : set_from_iter e os it = (Ret tt, m1) ->
  set_run e (set_inserts os (ui_items it)) set_new = (xs, m2) -> returned_all xs ->
  exists t, set_shows m1 t /\ set_shows m2 t /\ ui_panics it = false.
Proof.
  intros Hb Hrun Hall. destruct (set_inserts_run _ _ _ _ _ _ (new_reachable e) Hrun Hall) as (rs & H1 & H2).
  rewrite <- with_units_items in H1.
  destruct (collect_is_inserts e os (with_units it) m1 rs m2 Hb H1 H2) as (t & H3 & H4 & H5).
  exists (values_tree t). split; [by apply shows_set|]. split; [by apply shows_set|done].
Qed.

Lemma bstset_macro_is_inserts e os items later m1 xs m2 : bstset_macro e os items later = (Ret tt, m1) ->
  set_run e (set_inserts os items) set_new = (xs, m2) -> returned_all xs ->
  exists t, set_shows m1 t /\ set_shows m2 t /\ later = 0%N.
Proof.
  intros Hb Hrun Hall.
  set (it := mkUserIter (N.of_nat (length items) + later)%N None items (0 <? later)%N).
  assert (Hb' : set_from_iter e os it = (Ret tt, m1)) by done.
  destruct (set_collect_is_inserts e os it m1 xs m2 Hb' Hrun Hall) as (t & H1 & H2 & H3). exists t.
  split; [done|]. split; [done|]. simpl in H3. apply N.ltb_ge in H3. lia.
Qed.

End sets.
