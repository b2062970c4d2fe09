(** * Comparing nodes *)

From Verif Require Export SpecNodes ProofSimpleSet.

Section equality.
Context {K V : Type}.
Implicit Types t s : ptree K V.
Implicit Types m : simple K V.

Fixpoint tree_eqb (eqK : K -> K -> bool) (eqV : V -> V -> bool) (t1 t2 : tree K V) : bool :=
  match t1, t2 with
  | tleaf, tleaf => true
  | tnode l1 k1 v1 r1, tnode l2 k2 v2 r2 =>
    eqK k1 k2 && eqV v1 v2 && tree_eqb eqK eqV l1 l2 && tree_eqb eqK eqV r1 r2
  | _, _ => false
  end.

Lemma tree_eqb_same eqK eqV (t1 : tree K V) : forall t2 : tree K V, tree_eqb eqK eqV t1 t2 = true <-> tree_same eqK eqV t1 t2.
Proof.
  induction t1 as [|l1 IHl k1 v1 r1 IHr]; intros [|l2 k2 v2 r2]; cbn [tree_eqb].
  - split; [constructor|done].
  - split; [done|inversion 1].
  - split; [done|inversion 1].
  - rewrite !andb_true_iff, IHl, IHr. split; [|inversion 1; by subst].
    intros [[[? ?] ?] ?]. by constructor.
Qed.

Lemma box_eq_spec eqK eqV m1 m2 s1 : forall s2 fuel, sreadable m1 s1 -> sreadable m2 s2 -> pheight s1 < fuel ->
  box_eq eqK eqV m1 m2 fuel (rootp s1) (rootp s2) = Ret (tree_eqb eqK eqV (erase s1) (erase s2)).
Proof.
  induction s1 as [|l1 IHl p1 k1 v1 r1 IHr]; intros [|l2 p2 k2 v2 r2] [|fuel] H1 H2 Hf; simpl in Hf; try lia; try done.
  cbn [box_eq rootp]. rewrite (sreadable_root _ _ _ _ _ _ H1). cbn [rbind].
  rewrite (sreadable_root _ _ _ _ _ _ H2). cbn [rbind n_key n_value n_left n_right erase tree_eqb].
  destruct (eqK k1 k2 && eqV v1 v2); [|done].
  rewrite IHl; [|by eapply sreadable_l|by eapply sreadable_l|lia]. cbn [rbind andb].
  destruct (tree_eqb eqK eqV (erase l1) (erase l2)); [|done].
  rewrite IHr; [done|by eapply sreadable_r|by eapply sreadable_r|lia].
Qed.

Lemma simple_handle_rep m t p : sreadable m t -> simple_root m = rootp t -> simple_handle m p ->
  exists path l k v r, tat path t = Bin l p k v r.
Proof.
  intros Hr Hroot (path & Hw). rewrite Hroot, (simple_walk_eq m path t Hr) in Hw. injection Hw as Hw.
  destruct (tat path t) as [|l p' k v r] eqn:E; [done|]. injection Hw as ->. by exists path, l, k, v, r.
Qed.

Lemma simple_handle_exposes m t p (u : tree K V) : simple_rep m t -> simple_handle m p -> simple_exposes m (Some p) u ->
  exists path, rootp (tat path t) = Some p /\ u = erase (tat path t) /\ sreadable m (tat path t) /\
    pheight (tat path t) <= pheight t.
Proof.
  intros H Hh Hu. pose proof (simple_readable _ _ H) as Hr.
  destruct (simple_handle_rep m t p Hr (simple_root_ret _ _ H) Hh) as (path & l & k & v & r & Hat).
  exists path. pose proof (tat_sreadable m path t Hr) as Hr'. rewrite Hat. rewrite Hat in Hr'. split_and!; [done| |done|].
  - eapply simple_exposes_fun; [exact Hu|]. apply (simple_shows_sub m (Bin l p k v r) Hr').
  - rewrite <- Hat. apply tat_height.
Qed.

Lemma simple_node_eq_iff e1 e2 m1 m2 (eqK : K -> K -> bool) (eqV : V -> V -> bool) p1 p2 (t1 t2 : tree K V) :
  simple_reachable e1 m1 -> simple_reachable e2 m2 -> simple_handle m1 p1 -> simple_handle m2 p2 ->
  simple_exposes m1 (Some p1) t1 -> simple_exposes m2 (Some p2) t2 ->
  exists b, simple_node_eq eqK eqV m1 m2 p1 p2 = Ret b /\ (b = true <-> tree_same eqK eqV t1 t2).
Proof.
  intros (u1 & H1)%simple_reachable_rep (u2 & H2)%simple_reachable_rep Hh1 Hh2 Ht1 Ht2.
  destruct (simple_handle_exposes m1 u1 p1 t1 H1 Hh1 Ht1) as (path1 & Hp1 & -> & Hr1 & Hht).
  destruct (simple_handle_exposes m2 u2 p2 t2 H2 Hh2 Ht2) as (path2 & Hp2 & -> & Hr2 & _).
  eexists. split; [|apply tree_eqb_same].
  unfold simple_node_eq. rewrite <- Hp1, <- Hp2. apply box_eq_spec; [done|done|].
  pose proof (simple_fuel_height _ _ H1). lia.
Qed.

(** The address of a node is found again by its key. *)
Lemma sorted_same_entry (cmp : K -> K -> comparison) (Hlaw : lawful cmp) t p1 k1 v1 p2 k2 v2 :
  sorted cmp (tree_inorder (erase t)) -> (p1, (k1, v1)) ∈ ppre t -> (p2, (k2, v2)) ∈ ppre t -> cmp k1 k2 = Eq -> p1 = p2.
Proof.
  intros Hs Hin1 Hin2 Heq. rewrite <- (porder_perm In) in Hin1, Hin2.
  apply elem_of_list_lookup in Hin1 as [i Hi], Hin2 as [j Hj].
  assert (Hi' : tree_inorder (erase t) !! i = Some (k1, v1)).
  { change (tree_order In (erase t) !! i = Some (k1, v1)). rewrite <- porder_erase, list_lookup_fmap, Hi. done. }
  assert (Hj' : tree_inorder (erase t) !! j = Some (k2, v2)).
  { change (tree_order In (erase t) !! j = Some (k2, v2)). rewrite <- porder_erase, list_lookup_fmap, Hj. done. }
  assert (i = j) as ->.
  { destruct (Nat.lt_trichotomy i j) as [H|[H|H]]; [|done|]; exfalso.
    - pose proof (sorted_lookup_lt _ _ _ _ _ _ Hs Hi' Hj' H) as Hlt. simpl in Hlt. congruence.
    - pose proof (sorted_lookup_lt _ _ _ _ _ _ Hs Hj' Hi' H) as Hlt. simpl in Hlt.
      rewrite (cmp_eq_sym cmp Hlaw _ _ Heq) in Hlt. congruence. }
  rewrite Hi in Hj. by injection Hj.
Qed.

Lemma simple_node_eq_same (cmp : K -> K -> comparison) : lawful cmp ->
  forall e m (eqK : K -> K -> bool) (eqV : V -> V -> bool) p1 p2,
  simple_ordered_reachable cmp e m -> (forall a b, eqK a b = true <-> cmp a b = Eq) ->
  simple_handle m p1 -> simple_handle m p2 -> simple_node_eq eqK eqV m m p1 p2 = Ret true -> p1 = p2.
Proof.
  intros Hlaw e m eqK eqV p1 p2 (s & cs & rs & Hs & Hcs & Hls & Hlcs & Hr & Hal) HK Hh1 Hh2 Heq.
  assert (Hreach : simple_reachable e m) by (by exists s, cs, rs).
  destruct (simple_lookups_refine cmp Hlaw e s cs rs m Hs Hcs Hls Hlcs Hr) as (l & _ & Hl).
  destruct (Hl Hal) as ((l' & _ & Hsort & Hy) & _).
  destruct (simple_reachable_rep e m Hreach) as (t & H).
  pose proof (simple_yields_fun m t In l' H Hy) as ->. cbn [tree_order] in Hsort.
  pose proof (simple_readable _ _ H) as Hrd. pose proof (simple_root_ret _ _ H) as Hroot.
  destruct (simple_handle_rep m t p1 Hrd Hroot Hh1) as (path1 & l1 & k1 & v1 & r1 & Ht1).
  destruct (simple_handle_rep m t p2 Hrd Hroot Hh2) as (path2 & l2 & k2 & v2 & r2 & Ht2).
  pose proof (tat_sreadable m path1 t Hrd) as Hr1. rewrite Ht1 in Hr1.
  pose proof (tat_sreadable m path2 t Hrd) as Hr2. rewrite Ht2 in Hr2.
  unfold simple_node_eq in Heq. cbn [box_eq simple_fuel] in Heq. unfold simple_fuel in Heq. cbn [box_eq] in Heq.
  rewrite (sreadable_root _ _ _ _ _ _ Hr1), (sreadable_root _ _ _ _ _ _ Hr2) in Heq. cbn [rbind n_key n_value] in Heq.
  destruct (eqK k1 k2) eqn:Hk; [|done]. apply HK in Hk.
  eapply (sorted_same_entry cmp Hlaw t p1 k1 v1 p2 k2 v2); [done| | |done].
  - apply (tat_nodes path1). rewrite Ht1. left.
  - apply (tat_nodes path2). rewrite Ht2. left.
Qed.

(** Equal nodes of one crate are equal nodes of the other (not conversely). *)
Lemma simple_equal_nodes e b (s : start K V) cs rs1 (m1 : bstmap K V) rs2 m2 :
  simple_has_start s = true -> Forall (fun c => shared c = true) cs ->
  reached e s cs rs1 m1 -> simple_reached b s cs rs2 m2 -> Forall unrefused rs1 -> alive rs2 ->
  forall (eqK : K -> K -> bool) (eqV : V -> V -> bool) path path' r n n' p p',
  map_root m1 = Ret r -> walk m1 path r = Ret (Some n) -> walk m1 path' r = Ret (Some n') ->
  simple_walk m2 path (simple_root m2) = Ret (Some p) -> simple_walk m2 path' (simple_root m2) = Ret (Some p') ->
  simple_node_eq eqK eqV m2 m2 p p' = Ret true -> node_eq eqK eqV true n n' = true.
Proof.
  intros Hs Hsh Hr1 Hr2 Hun Hal eqK eqV path path' r n n' p p' Hr Hn Hn' Hp Hp' Heq.
  destruct (differential e b s cs rs1 m1 rs2 m2 Hs Hsh Hr1 Hr2 Hun Hal) as (_ & (t & Ht1 & Ht2) & _).
  assert (Hal1 : alive rs1) by (eapply Forall_impl; [exact Hun|]; by intros x [? _]).
  assert (Hreach1 : reachable e m1) by (by exists s, cs, rs1).
  assert (Hcs : Forall (fun c => simple_has c = true) cs).
  { eapply Forall_impl; [exact Hsh|]. by intros []. }
  assert (Hreach2 : simple_reachable b m2) by (by exists s, cs, rs2).
  destruct (reachable_rep e m1 Hreach1) as (t1 & fl & Hrep1). destruct (simple_reachable_rep b m2 Hreach2) as (t2 & Hrep2).
  rewrite (map_root_ret _ _ _ Hrep1) in Hr. injection Hr as <-.
  rewrite walk_eq in Hn, Hn' by (by eapply rep_readable).
  pose proof (simple_readable _ _ Hrep2) as Hrd2.
  rewrite (simple_root_ret _ _ Hrep2), simple_walk_eq in Hp, Hp' by done.
  assert (He : erase t1 = erase t2).
  { rewrite <- (simple_exposes_fun _ _ _ Ht2 _ (simple_rep_shows _ _ Hrep2)).
    destruct Ht1 as (r1 & Hr1' & Ht1). rewrite (map_root_ret _ _ _ Hrep1) in Hr1'. injection Hr1' as <-.
    eapply exposes_fun; [exact Ht1|]. apply readable_exposes. by eapply rep_readable. }
  injection Hn as Hn. injection Hn' as Hn'. injection Hp as Hp. injection Hp' as Hp'.
  destruct (tat path t1) as [|l1 q1 k1 v1 r1] eqn:E1; [done|]. injection Hn as <-.
  destruct (tat path' t1) as [|l1' q1' k1' v1' r1'] eqn:E1'; [done|]. injection Hn' as <-.
  pose proof (tat_sreadable m2 path t2 Hrd2) as Hr. pose proof (tat_sreadable m2 path' t2 Hrd2) as Hr'.
  destruct (tat path t2) as [|l2 q2 k2 v2 r2] eqn:E2; [done|]. injection Hp as ->.
  destruct (tat path' t2) as [|l2' q2' k2' v2' r2'] eqn:E2'; [done|]. injection Hp' as ->.
  assert (H1 : erase (Bin l1 q1 k1 v1 r1) = erase (Bin l2 p k2 v2 r2)) by (by rewrite <- E1, <- E2, !tat_erase, He).
  assert (H2 : erase (Bin l1' q1' k1' v1' r1') = erase (Bin l2' p' k2' v2' r2')) by (by rewrite <- E1', <- E2', !tat_erase, He).
  injection H1 as _ -> -> _. injection H2 as _ -> -> _.
  unfold simple_node_eq, simple_fuel in Heq. cbn [box_eq] in Heq.
  rewrite (sreadable_root _ _ _ _ _ _ Hr), (sreadable_root _ _ _ _ _ _ Hr') in Heq. cbn [rbind n_key n_value] in Heq.
  unfold node_eq, node_key, node_value. cbn [nd_inner n_key n_value].
  destruct (eqK k2 k2' && eqV v2 v2'); [|done]. by rewrite orb_true_r.
Qed.

End equality.

Section sets.
Context {T : Type}.

Lemma setnode_eq_iff e1 e2 (m1 m2 : bstset T) (eqT : T -> T -> bool) same n1 n2 :
  set_reachable e1 m1 -> set_reachable e2 m2 -> (same = true -> m1 = m2) -> set_handle m1 n1 -> set_handle m2 n2 ->
  (forall a, eqT a a = true) -> setnode_eq eqT same n1 n2 = eqT (setnode_value n1) (setnode_value n2).
Proof.
  intros H1%set_reachable_map H2%set_reachable_map Hs (path1 & r1 & Hr1 & Hw1) (path2 & r2 & Hr2 & Hw2) Hrefl.
  rewrite set_walk_eq in Hw1, Hw2. unfold setnode_eq, setnode_value, node_eq.
  rewrite andb_true_r. destruct same; cbn [andb orb]; [|done]. rewrite <- (Hs eq_refl) in Hr2, Hw2.
  case_bool_decide as Hp; cbn [orb]; [|done].
  destruct (reachable_rep _ _ H1) as (t & fl & Hrep).
  assert (Hh1 : handle m1 n1) by (by exists path1, r1). assert (Hh2 : handle m1 n2) by (by exists path2, r2).
  destruct (handle_rep m1 t fl n1 Hrep Hh1) as (pa1 & l1 & p1 & k1 & v1 & rr1 & Ht1 & ->).
  destruct (handle_rep m1 t fl n2 Hrep Hh2) as (pa2 & l2 & p2 & k2 & v2 & rr2 & Ht2 & ->).
  pose proof (tat_readable m1 pa1 t (rep_readable _ _ _ Hrep)) as Hrd1. rewrite Ht1 in Hrd1.
  pose proof (tat_readable m1 pa2 t (rep_readable _ _ _ Hrep)) as Hrd2. rewrite Ht2 in Hrd2.
  cbn [nd_ptr] in Hp. subst p2. apply readable_root in Hrd1, Hrd2. rewrite Hrd1 in Hrd2. injection Hrd2 as -> -> _ _.
  unfold node_key. cbn. symmetry. apply Hrefl.
Qed.

Lemma values_tree_same (eqT : T -> T -> bool) (t1 : tree T unit) : forall t2,
  tree_same eqT (fun _ _ => true) t1 t2 <-> stree_same eqT (values_tree t1) (values_tree t2).
Proof.
  induction t1 as [|l1 IHl k1 v1 r1 IHr]; intros [|l2 k2 v2 r2]; cbn [values_tree].
  - split; constructor.
  - split; inversion 1.
  - split; inversion 1.
  - split; inversion 1; subst; constructor; try done; by first [apply IHl|apply IHr].
Qed.

Lemma ssetnode_eq_iff e1 e2 (m1 m2 : sset T) (eqT : T -> T -> bool) p1 p2 (t1 t2 : stree T) :
  sset_reachable e1 m1 -> sset_reachable e2 m2 -> sset_handle m1 p1 -> sset_handle m2 p2 ->
  sset_exposes m1 (Some p1) t1 -> sset_exposes m2 (Some p2) t2 ->
  exists b, ssetnode_eq eqT m1 m2 p1 p2 = Ret b /\ (b = true <-> stree_same eqT t1 t2).
Proof.
  intros (u1 & H1)%sset_reachable_rep (u2 & H2)%sset_reachable_rep Hh1 Hh2 Ht1 Ht2.
  assert (Hc : forall (m : sset T) p, sset_handle m p -> simple_handle m p).
  { intros m p (path & Hw). rewrite sset_walk_eq in Hw. by exists path. }
  destruct (simple_handle_rep m1 u1 p1 (simple_readable _ _ H1) (simple_root_ret _ _ H1) (Hc _ _ Hh1)) as (pa1 & l1 & k1 & v1 & r1 & E1).
  destruct (simple_handle_rep m2 u2 p2 (simple_readable _ _ H2) (simple_root_ret _ _ H2) (Hc _ _ Hh2)) as (pa2 & l2 & k2 & v2 & r2 & E2).
  pose proof (tat_sreadable m1 pa1 u1 (simple_readable _ _ H1)) as Hr1. pose proof (tat_sreadable m2 pa2 u2 (simple_readable _ _ H2)) as Hr2.
  rewrite E1 in Hr1. rewrite E2 in Hr2.
  rewrite <- (sset_exposes_fun m1 _ _ Ht1 _ (sset_exposes_values m1 _ _ (simple_shows_sub m1 _ Hr1))).
  rewrite <- (sset_exposes_fun m2 _ _ Ht2 _ (sset_exposes_values m2 _ _ (simple_shows_sub m2 _ Hr2))).
  eexists. split; [|rewrite <- values_tree_same; apply tree_eqb_same].
  unfold ssetnode_eq, simple_node_eq.
  apply (box_eq_spec eqT (fun _ _ => true) m1 m2 (Bin l1 p1 k1 v1 r1) (Bin l2 p2 k2 v2 r2)); [done|done|].
  rewrite <- E1. pose proof (tat_height pa1 u1). pose proof (simple_fuel_height _ _ H1). lia.
Qed.

End sets.
