(** * Whole programs under Stacked Borrows *)

From Verif Require Import ProofIterProps ModelBorrow ProofBorrow.
From Verif Require Import ModelIter.
Local Open Scope nat_scope.

Section proofs.
Context {Ru : rules} {K V : Type}.
Notation ok := (ModelBorrow.ok Ru).
Implicit Types m : bstmap K V.
Implicit Types t : ptree K V.

(** ** The programs without references are defined *)
Definition tidy {A} (f : M (bstmap K V) A) : Prop :=
  forall m t fl, map_rep m t fl -> defined (f m).1 /\ exists t' fl', map_rep (f m).2 t' fl'.

Lemma child_ptrs t : forall p n q, (p, n) ∈ nodes t -> n_left n = Some q \/ n_right n = Some q -> q ∈ ptrs t.
Proof.
  assert (Hroot : forall t q, rootp t = Some q -> q ∈ ptrs t).
  { intros [|l p k v r] q; [done|]. intros [= <-]. unfold ptrs. cbn. left. }
  induction t as [|l IHl p0 k v r IHr]; intros p n q Hin Hq; [by apply elem_of_nil in Hin|].
  unfold ptrs in *. cbn in *. rewrite fmap_app. apply elem_of_cons. right. apply elem_of_app. apply elem_of_cons in Hin as [[= -> ->]|Hin].
  - cbn in Hq. destruct Hq as [Hq|Hq]; [left|right]; by apply Hroot.
  - apply elem_of_app in Hin as [Hin|Hin]; [left; by eapply IHl|right; by eapply IHr].
Qed.
Lemma root_ptrs t q : rootp t = Some q -> q ∈ ptrs t.
Proof. destruct t as [|l p k v r]; [done|]. intros [= <-]. unfold ptrs. cbn. left. Qed.
Lemma ptrs_get m t fl p : map_rep m t fl -> p ∈ ptrs t -> exists n, (p, n) ∈ nodes t /\ slab_get (m_nodes m) p = Ret n.
Proof.
  intros Hrep Hp. apply elem_of_list_fmap in Hp as ([q n] & -> & Hin). exists n. split; [done|]. by eapply rep_readable.
Qed.
Lemma opt_nodemut_in m t fl p : map_rep m t fl -> (forall q, p = Some q -> q ∈ ptrs t) -> opt_nodemut m p = Ret p.
Proof.
  intros Hrep Hp. destruct p as [p|]; [|done]. destruct (ptrs_get m t fl p Hrep (Hp _ eq_refl)) as (n & _ & E).
  cbn. unfold nodemut_new. by rewrite E.
Qed.
Lemma write_in m t fl p w : map_rep m t fl -> p ∈ ptrs t ->
  exists m', write_value p w m = (Ret tt, m') /\ map_rep m' (tset p w t) fl.
Proof.
  intros Hrep Hp. rewrite <- ppre_fst in Hp. apply elem_of_list_fmap in Hp as ([q [k v]] & -> & Hin).
  pose proof (write_value_spec m t fl q k v w Hrep Hin) as H. unfold wp in H. cbn [fst].
  destruct (write_value q w m) as [[[]| | | |] m']; try done. exists m'. split; [done|]. apply H.
Qed.
Lemma uses_in p : forall ws m t fl, map_rep m t fl -> p ∈ ptrs t ->
  exists m' t', uses p ws m = (Ret tt, m') /\ map_rep m' t' fl.
Proof.
  induction ws as [|[w|] ws IH]; intros m t fl Hrep Hp; cbn [uses]; [by exists m, t| |by eapply IH].
  destruct (write_in m t fl p w Hrep Hp) as (m1 & E & Hrep1). unfold sbind. rewrite E.
  eapply IH; [done|]. by rewrite ptrs_tset.
Qed.

Lemma get_mut_tidy o ws : tidy (get_mut_program o ws).
Proof.
  intros m t fl Hrep. unfold get_mut_program, sbind, sget, slift. rewrite (map_get_mut_eq m t fl o Hrep).
  destruct (tget_cases o t 0) as [[x E]|E]; rewrite E; cbn; [|by eauto].
  destruct x as [[p [k v]]|]; cbn; [|by eauto]. apply tget_in in E.
  assert (Hp : p ∈ ptrs t) by (rewrite <- ppre_fst; apply elem_of_list_fmap; by exists (p, (k, v))).
  destruct (uses_in p ws m t fl Hrep Hp) as (m' & t' & -> & Hrep'). cbn. eauto.
Qed.
Lemma get_entry_mut_tidy o ws : tidy (get_entry_mut_program o ws).
Proof.
  intros m t fl Hrep. unfold get_entry_mut_program, sbind, sget, slift. rewrite (map_get_entry_mut_eq m t fl o Hrep).
  destruct (tget_cases o t 0) as [[x E]|E]; rewrite E; cbn; [|by eauto].
  destruct x as [[p [k v]]|]; cbn; [|by eauto]. apply tget_in in E.
  assert (Hp : p ∈ ptrs t) by (rewrite <- ppre_fst; apply elem_of_list_fmap; by exists (p, (k, v))).
  destruct (uses_in p ws m t fl Hrep Hp) as (m' & t' & -> & Hrep'). cbn. eauto.
Qed.
Lemma nw_run_in ws : forall evs m t fl p, map_rep m t fl -> (forall q, p = Some q -> q ∈ ptrs t) ->
  exists m' t', nw_run evs ws p m = (Ret tt, m') /\ map_rep m' t' fl.
Proof.
  induction evs as [|ev evs IH]; intros m t fl p Hrep Hp; (destruct p as [p|]; cbn [nw_run]; [|by exists m, t]).
  - apply (uses_in p ws m t fl Hrep). by apply Hp.
  - destruct (ptrs_get m t fl p Hrep (Hp _ eq_refl)) as (n & Hin & E). unfold sbind at 1, nw_step. unfold sbind at 1, sget. destruct ev.
    + unfold sbind, slift, nodemut_key, nodemut_value, nodemut_has_left, nodemut_has_right. rewrite E. cbn [rmap rbind]. by eapply IH.
    + destruct (write_in m t fl p w Hrep (Hp _ eq_refl)) as (m1 & E1 & Hrep1). unfold sbind. rewrite E1.
      eapply IH; [done|]. by rewrite ptrs_tset.
    + unfold slift, nodemut_left. rewrite E. cbn [rbind].
      assert (Hc : forall q, n_left n = Some q -> q ∈ ptrs t) by (intros; eapply child_ptrs; eauto).
      rewrite (opt_nodemut_in m t fl _ Hrep Hc). by eapply IH.
    + unfold slift, nodemut_right. rewrite E. cbn [rbind].
      assert (Hc : forall q, n_right n = Some q -> q ∈ ptrs t) by (intros; eapply child_ptrs; eauto).
      rewrite (opt_nodemut_in m t fl _ Hrep Hc). by eapply IH.
Qed.
Lemma nw_tidy evs ws : tidy (nw_program evs ws).
Proof.
  intros m t fl Hrep. unfold nw_program, sbind, sget, slift. rewrite (map_root_mut_ret _ _ _ Hrep).
  destruct (nw_run_in ws evs m t fl (rootp t) Hrep (root_ptrs t)) as (m' & t' & -> & Hrep'). cbn. eauto.
Qed.
Lemma insert_tidy e o k v : tidy (bstmap_insert e o k v).
Proof.
  intros m t fl Hrep. pose proof (exec_rep e (OInsert o k v) m t fl) as H. cbn [exec] in H. unfold sbind in H.
  destruct (bstmap_insert e o k v m) as [[x| | | |] m']; cbn [fst snd]; edestruct H as [A B]; try done.
Qed.
Lemma remove_tidy e o : tidy (map_remove_entry e o).
Proof.
  intros m t fl Hrep. pose proof (exec_rep e (ORemoveEntry o) m t fl) as H. cbn [exec] in H. unfold sbind in H.
  destruct (map_remove_entry e o m) as [[x| | | |] m']; cbn [fst snd]; edestruct H as [A B]; try done.
Qed.

(** Programs that read *)
Definition node_in t (n : Node K V) : Prop := (nd_ptr n, nd_inner n) ∈ nodes t.
Definition v_ok t (st : v_state K V) : Prop :=
  Forall (node_in t) (v_nodes st) /\ Forall (fun x => exists pend, iter_ok x.1 t x.2 pend) (v_iters st).
Definition fine {A} (P : A -> Prop) (r : res A) : Prop :=
  match r with Ret x => P x | Panic p => p = PCmp | _ => False end.
Lemma opt_node_in m t fl p : map_rep m t fl -> (forall q, p = Some q -> q ∈ ptrs t) ->
  exists x, opt_node m p = Ret x /\ forall n, x = Some n -> node_in t n.
Proof.
  intros Hrep Hp. destruct p as [p|]; [|by exists None]. destruct (ptrs_get m t fl p Hrep (Hp _ eq_refl)) as (n & Hin & E).
  exists (Some (mkNode p n)). cbn. unfold node_new. rewrite E. cbn. split; [done|]. by intros ? [= <-].
Qed.
Lemma v_step_fine m t fl ev st : map_rep m t fl -> v_ok t st -> fine (v_ok t) (v_step m ev st).
Proof.
  intros Hrep Hv. pose proof Hv as [Hn Hi].
  assert (Hadd : forall x, (exists y, x = Ret y /\ forall n, y = Some n -> node_in t n) ->
    fine (v_ok t) (rmap (fun y => mkV (v_nodes st ++ opt_list y) (v_iters st) (v_refs st)) x)).
  { intros x (y & -> & Hy). cbn. split; [|done]. cbn. apply Forall_app. split; [done|]. destruct y; cbn; [|done].
    constructor; [by apply Hy|done]. }
  destruct ev; cbn [v_step].
  - apply Hadd. unfold map_root. eapply opt_node_in; [done|]. rewrite (proj2 Hrep). apply root_ptrs.
  - destruct (v_nodes st !! j) as [n|] eqn:E; [|done]. apply Hadd. unfold node_left. eapply opt_node_in; [done|].
    intros q Hq. eapply child_ptrs; [|by left]. exact (Forall_lookup_1 _ _ _ _ Hn E).
  - destruct (v_nodes st !! j) as [n|] eqn:E; [|done]. apply Hadd. unfold node_right. eapply opt_node_in; [done|].
    intros q Hq. eapply child_ptrs; [|by right]. exact (Forall_lookup_1 _ _ _ _ Hn E).
  - by destruct (v_nodes st !! j).
  - by destruct (v_nodes st !! j).
  - rewrite (map_contains_key_eq m t fl o Hrep). destruct (tget_cases o t 0) as [[x E]|E]; by rewrite E.
  - rewrite (map_get_ref_eq m t fl o Hrep). destruct (tget_cases o t 0) as [[x E]|E]; rewrite E; cbn; [|done].
    by destruct x as [[p [k v]]|].
  - rewrite (map_get_entry_ref_eq m t fl o Hrep). destruct (tget_cases o t 0) as [[x E]|E]; rewrite E; cbn; [|done].
    by destruct x as [[p [k v]]|].
  - destruct (iter_start_spec m t fl d Hrep) as (it & -> & Hok). cbn. split; cbn; [done|].
    apply Forall_app. split; [done|]. constructor; [|done]. by eexists.
  - destruct (v_iters st !! j) as [[d it]|] eqn:E; [|done]. destruct (Forall_lookup_1 _ _ _ _ Hi E) as [pend Hp]. cbn in Hp.
    destruct (iter_next_spec m t fl d it pend Hrep Hp) as (it' & rs & -> & Hp' & _). cbn. split; cbn; [done|].
    apply Forall_insert; [done|]. by eexists.
  - done.
Qed.
Lemma v_run_fine m t fl : forall evs st, map_rep m t fl -> v_ok t st -> fine (v_ok t) (v_run m evs st).
Proof.
  induction evs as [|ev evs IH]; intros st Hrep Hv; cbn [v_run]; [done|].
  pose proof (v_step_fine m t fl ev st Hrep Hv) as H. destruct (v_step m ev st) as [st'| | | |]; try done. cbn [rbind]. by apply IH.
Qed.

Lemma a_exec_tidy e c : tidy (a_exec e c).
Proof.
  intros m t fl Hrep. destruct c; cbn [a_exec].
  - pose proof (insert_tidy e o k v m t fl Hrep) as H. unfold sbind. by destruct (bstmap_insert e o k v m) as [[]].
  - pose proof (remove_tidy e o m t fl Hrep) as H. unfold sbind. by destruct (map_remove_entry e o m) as [[]].
  - pose proof (get_mut_tidy o ws m t fl Hrep) as H. unfold sbind. by destruct (get_mut_program o ws m) as [[]].
  - pose proof (get_entry_mut_tidy o ws m t fl Hrep) as H. unfold sbind. by destruct (get_entry_mut_program o ws m) as [[]].
  - by eapply nw_tidy.
  - destruct (iter_mut_program_spec d (omap bm_ev evs) m t fl Hrep) as (st & t' & E & H). unfold sbind, sget, slift. rewrite E.
    cbn. destruct (mut_walk _ _ _ _) as [[l' n'] x']. destruct H as (H & _). split; [done|eauto].
  - unfold sbind, sget, slift. pose proof (v_run_fine m t fl evs (mkV [] [] []) Hrep) as H.
    assert (H' : fine (v_ok t) (v_run m evs (mkV [] [] []))) by (apply H; split; constructor).
    destruct (v_run m evs (mkV [] [] [])); cbn in *; try done; eauto.
Qed.

(** ** With references *)
Lemma sim_run {A} (f : M (bstmap K V) A) (g : M (bmap K V) A) m b : sim (fun m' _ => m' = m) eqr f g -> ok b ->
  exists b', ok b' /\ g (m, b) = ((f m).1, ((f m).2, b')).
Proof.
  intros H Hok. destruct (H m b Hok eq_refl) as (b' & Hok' & E). exists b'. split; [done|].
  destruct (f m) as [[x| | | |] m']; cbn [fst snd] in *; try done. destruct E as (y & -> & <-). done.
Qed.
Lemma view_run m evs b : ok b -> exists b', ok b' /\
  match v_run m evs (mkV [] [] []) with
  | Ret st => exists st', bv_run m evs (mkBV [] [] []) b = (Ret st', b') /\ rel_v m st st' b'
  | r => (bv_run m evs (mkBV [] [] []) b).2 = b' /\
         match (bv_run m evs (mkBV [] [] []) b).1, r with
         | Panic p, Panic q => p = q | Abort, Abort => True | UB u, UB w => u = w | Diverge, Diverge => True | _, _ => False end
  end.
Proof.
  intros Hok. assert (Hv : rel_v m (mkV [] [] []) (mkBV [] [] []) b) by (split_and!; constructor).
  destruct (bv_run_spec m evs _ _ b Hv b Hok (keeps_refl b)) as (b' & Hok' & _ & H).
  exists b'. split; [done|]. destruct (v_run m evs (mkV [] [] [])); cbn [outcome] in H; [done|rewrite H; done..].
Qed.

Lemma b_exec_run e c m t fl b : map_rep m t fl -> ok b ->
  exists b', ok b' /\ b_exec e c (m, b) = ((a_exec e c m).1, ((a_exec e c m).2, b')).
Proof.
  intros Hrep Hok. destruct c; cbn [a_exec b_exec].
  - destruct (sim_run _ _ m b (sim_insert e o k v m t fl Hrep) Hok) as (b' & ? & E). exists b'. split; [done|].
    unfold sbind. rewrite E. by destruct (bstmap_insert e o k v m) as [[]].
  - destruct (sim_run _ _ m b (sim_remove_entry e o m) Hok) as (b' & ? & E). exists b'. split; [done|].
    unfold sbind. rewrite E. by destruct (map_remove_entry e o m) as [[]].
  - destruct (sim_run _ _ m b (sim_get_mut_program o ws m) Hok) as (b' & ? & E). exists b'. split; [done|].
    unfold sbind. rewrite E. by destruct (get_mut_program o ws m) as [[]].
  - destruct (sim_run _ _ m b (sim_get_entry_mut_program o ws m) Hok) as (b' & ? & E). exists b'. split; [done|].
    unfold sbind. rewrite E. by destruct (get_entry_mut_program o ws m) as [[]].
  - destruct (sim_run _ _ m b (sim_nw_program evs ws m) Hok) as (b' & ? & E). by exists b'.
  - destruct (bm_program_spec d evs m b t fl Hrep Hok) as (st & st' & E & E' & Hm & _ & _ & Hok'). exists (bm_borrows st). split; [done|].
    cbn [fst snd]. rewrite E. unfold sbind, sget, slift. rewrite E'. cbn. by rewrite Hm.
  - destruct (view_run m evs b Hok) as (b' & Hok' & H). exists b'. split; [done|].
    unfold sbind, sget, slift, on_r, zoom. cbn [fst snd].
    destruct (v_run m evs (mkV [] [] [])) as [st| | | |].
    + destruct H as (st' & -> & _). done.
    + destruct H as [<- H]. destruct (bv_run m evs (mkBV [] [] []) b) as [[] b']; cbn in *; try done. by subst.
    + destruct H as [<- H]. destruct (bv_run m evs (mkBV [] [] []) b) as [[] b']; cbn in *; try done.
    + destruct H as [<- H]. destruct (bv_run m evs (mkBV [] [] []) b) as [[] b']; cbn in *; try done. by subst.
    + destruct H as [<- H]. destruct (bv_run m evs (mkBV [] [] []) b) as [[] b']; cbn in *; try done.
Qed.

Lemma b_runs_spec e : forall cs m t fl b, map_rep m t fl -> ok b ->
  exists rs m' b', runs (a_exec e) cs m = (rs, m') /\ runs (b_exec e) cs (m, b) = (rs, (m', b')) /\ ok b' /\ Forall defined rs.
Proof.
  induction cs as [|c cs IH]; intros m t fl b Hrep Hok; cbn [runs].
  { exists [], m, b. done. }
  destruct (b_exec_run e c m t fl b Hrep Hok) as (b1 & Hok1 & ->). destruct (a_exec_tidy e c m t fl Hrep) as (Hd & t1 & fl1 & Hrep1).
  destruct (a_exec e c m) as [r m1]; cbn [fst snd] in *. destruct (IH m1 t1 fl1 b1 Hrep1 Hok1) as (rs & m2 & b2 & E1 & E2 & Hok2 & Hd2).
  destruct r as [x|q| |u|]; try done; [rewrite E1, E2..|].
  - exists (Ret x :: rs), m2, b2. split_and!; try done. by constructor.
  - exists (Panic q :: rs), m2, b2. split_and!; try done. by constructor.
  - exists [Abort], m1, b1. split_and!; try done. by constructor.
Qed.

Lemma fresh_ok : ok (fresh_borrows Ru).
Proof.
  split; [done| |].
  - intros l. split_and!; cbn; [apply NoDup_singleton| |done]. intros t Ht%elem_of_list_singleton. subst. cbn. unfold base. lia.
  - intros _. split; [done|]. intros l. cbn. split.
    + intros t ->%elem_of_list_singleton. split; [left|]. intros u ->%elem_of_list_singleton. cbn. unfold base. split; [lia|done].
    + split; [done|]. right. split; [|by intros u q ?%elem_of_nil]. intros u ->%elem_of_list_singleton. by left.
Qed.

(** ** Statements *)
Lemma defined_iff {A} (r : res A) : defined r -> (forall u, r <> UB u) /\ r <> Diverge.
Proof. by destruct r. Qed.
Lemma borrow_programs e m cs b : reachable e m -> ok b ->
  exists rs m' b', runs (a_exec e) cs m = (rs, m') /\ runs (b_exec e) cs (m, b) = (rs, (m', b')) /\ ok b' /\
    forall r, r ∈ rs -> (forall u, r <> UB u) /\ r <> Diverge.
Proof.
  intros (t & fl & Hrep)%reachable_rep Hok. destruct (b_runs_spec e cs m t fl b Hrep Hok) as (rs & m' & b' & E & E' & Hok' & Hd).
  exists rs, m', b'. split_and!; try done. intros r Hr. apply defined_iff. by eapply Forall_forall in Hr.
Qed.
Lemma borrow_one {A} (f : M (bstmap K V) A) (g : M (bmap K V) A) e m b : tidy f ->
  (forall t fl, map_rep m t fl -> sim (fun m' _ => m' = m) eqr f g) -> reachable e m -> ok b ->
  exists r m' b', f m = (r, m') /\ g (m, b) = (r, (m', b')) /\ ok b' /\ (forall u, r <> UB u) /\ r <> Diverge.
Proof.
  intros Ht Hs (t & fl & Hrep)%reachable_rep Hok. destruct (sim_run f g m b (Hs t fl Hrep) Hok) as (b' & Hok' & E).
  destruct (Ht m t fl Hrep) as [Hd _]. exists (f m).1, (f m).2, b'. split_and!; try done.
  - by destruct (f m).
  - by apply defined_iff in Hd as [? _].
  - by apply defined_iff in Hd as [_ ?].
Qed.
Lemma borrow_insert e o k v m b : reachable e m -> ok b ->
  exists r m' b', bstmap_insert e o k v m = (r, m') /\ b_insert e o k v (m, b) = (r, (m', b')) /\ ok b' /\
    (forall u, r <> UB u) /\ r <> Diverge.
Proof. apply borrow_one; [apply insert_tidy|]. intros t fl. apply sim_insert. Qed.
Lemma borrow_remove_entry e o m b : reachable e m -> ok b ->
  exists r m' b', map_remove_entry e o m = (r, m') /\ b_remove_entry e o (m, b) = (r, (m', b')) /\ ok b' /\
    (forall u, r <> UB u) /\ r <> Diverge.
Proof. apply borrow_one; [apply remove_tidy|]. intros t fl _. apply sim_remove_entry. Qed.
Lemma borrow_get_mut e o ws m b : reachable e m -> ok b ->
  exists r m' b', get_mut_program o ws m = (r, m') /\ b_get_mut_program o ws (m, b) = (r, (m', b')) /\ ok b' /\
    (forall u, r <> UB u) /\ r <> Diverge.
Proof. apply borrow_one; [apply get_mut_tidy|]. intros t fl _. apply sim_get_mut_program. Qed.
Lemma borrow_get_entry_mut e o ws m b : reachable e m -> ok b ->
  exists r m' b', get_entry_mut_program o ws m = (r, m') /\ b_get_entry_mut_program o ws (m, b) = (r, (m', b')) /\ ok b' /\
    (forall u, r <> UB u) /\ r <> Diverge.
Proof. apply borrow_one; [apply get_entry_mut_tidy|]. intros t fl _. apply sim_get_entry_mut_program. Qed.
Lemma borrow_node_mut e evs ws m b : reachable e m -> ok b ->
  exists m' b', nw_program evs ws m = (Ret tt, m') /\ b_nw_program evs ws (m, b) = (Ret tt, (m', b')) /\ ok b'.
Proof.
  intros (t & fl & Hrep)%reachable_rep Hok. destruct (sim_run _ _ m b (sim_nw_program evs ws m) Hok) as (b' & Hok' & E).
  assert (exists m', nw_program evs ws m = (Ret tt, m')) as [m' E'].
  { unfold nw_program, sbind, sget, slift. rewrite (map_root_mut_ret _ _ _ Hrep).
    destruct (nw_run_in ws evs m t fl (rootp t) Hrep (root_ptrs t)) as (m' & t' & E' & _). eauto. }
  rewrite E' in E. by exists m', b'.
Qed.
Lemma borrow_iter_mut e d evs m b : reachable e m -> ok b ->
  exists st st', bm_program d evs m b = (Ret tt, st) /\ iter_mut_program d (omap bm_ev evs) m = Ret st' /\
    bm_map st = mu_map st' /\ bm_stack st = it_stack (mu_iter st') /\
    rf_node <$> bm_refs st = (mu_yielded st').*1 /\ ok (bm_borrows st).
Proof. intros (t & fl & Hrep)%reachable_rep Hok. by eapply bm_program_spec. Qed.
Lemma Forall2_fmap_eq {A B C} (R : A -> B -> Prop) (f : A -> C) (g : B -> C) l l' :
  (forall x y, R x y -> g y = f x) -> Forall2 R l l' -> g <$> l' = f <$> l.
Proof. intros H. induction 1; cbn; [done|]. f_equal; eauto. Qed.
Lemma borrow_views e evs m b : reachable e m -> ok b ->
  exists b', ok b' /\
  ((exists st st', v_run m evs (mkV [] [] []) = Ret st /\ bv_run m evs (mkBV [] [] []) b = (Ret st', b') /\
      bn_ptr <$> bv_nodes st' = nd_ptr <$> v_nodes st /\
      (bv_refs st').*2 = (fun x => LNode x.1 x.2) <$> v_refs st /\
      (bv_iters st').*2 = (fun x => it_stack x.2) <$> v_iters st) \/
   (v_run m evs (mkV [] [] []) = Panic PCmp /\ bv_run m evs (mkBV [] [] []) b = (Panic PCmp, b'))).
Proof.
  intros (t & fl & Hrep)%reachable_rep Hok. destruct (view_run m evs b Hok) as (b' & Hok' & H). exists b'. split; [done|].
  assert (H' : fine (v_ok t) (v_run m evs (mkV [] [] []))) by (eapply v_run_fine; [done|]; split; constructor).
  destruct (v_run m evs (mkV [] [] [])) as [st|p| | |]; try done.
  - left. destruct H as (st' & E & Hn & Hi & Hr). exists st, st'. split_and!; try done; eapply Forall2_fmap_eq; try done.
    + by intros x y (? & _).
    + by intros x y (? & _).
    + by intros x y (_ & ? & _).
  - right. cbn in H'. subst p. split; [done|]. destruct H as [<- H]. destruct (bv_run m evs (mkBV [] [] []) b) as [[] b']; cbn in *; try done. by subst.
Qed.

End proofs.
