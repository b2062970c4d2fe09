(** * Proofs: two updates, in either order *)

From Coq Require Import String.
From Verif Require Import SpecCommute ProofRestore ProofRebuild ProofUpdates SpecUpdates ProofSimpleCost ProofCost ProofSetSafety ProofSetDrops ProofSimpleProps ProofMapProps ProofObs ProofOracle SpecFacts SpecSteps.

(** ** Trees *)
Section trees.
Context {K V : Type}.
Implicit Types t l r : tree K V.
Implicit Types u : update K V.
Variable cmp : K -> K -> comparison.

Definition upd u t : tree K V :=
  match u with UInsert k v => tree_insert cmp k v t | URemove f | URemoveEntry f => tree_remove f t end.
Definition upd_out u t : out K V :=
  match u with
  | UInsert k _ => OutValue (snd <$> tree_find (cmp k) t)
  | URemove f => OutValue (snd <$> tree_find f t)
  | URemoveEntry f => OutEntry (tree_find f t)
  end.
Definition lupd u (a : list (K * V)) : list (K * V) :=
  match u with UInsert k v => assoc_insert cmp k v a | URemove f | URemoveEntry f => assoc_remove f a end.
Definition upd_ok u : Prop := match u with UInsert _ _ => True | URemove f | URemoveEntry f => is_query cmp f end.

Hypothesis Hlaw : lawful cmp.

Lemma target_query u : upd_ok u -> is_query cmp (target cmp u).
Proof using Hlaw. destruct u; cbn; [|done..]. intros _. by apply query_cmp. Qed.

Lemma upd_assoc u t a : upd_ok u -> bst cmp t -> a ≡ₚ tree_inorder t -> tree_inorder (upd u t) ≡ₚ lupd u a.
Proof using Hlaw. destruct u; cbn; intros Hu Hb Ha; [by apply tree_insert_assoc|by apply (tree_remove_assoc cmp)..]. Qed.

Lemma upd_bst u t : bst cmp t -> bst cmp (upd u t).
Proof using Hlaw. destruct u; cbn; [by apply tree_insert_bst|by apply tree_remove_bst..]. Qed.

Lemma insert_insert_comm k v k' v' (a : list (K * V)) : (forall x, cmp k x = Eq -> cmp k' x = Eq -> False) ->
  assoc_insert cmp k' v' (assoc_insert cmp k v a) ≡ₚ assoc_insert cmp k v (assoc_insert cmp k' v' a).
Proof using Hlaw.
  intros Hne. assert (E1 : cmp k k' <> Eq) by (intros E; apply (Hne k' E), Hlaw).
  assert (E2 : cmp k' k <> Eq) by (intros E; apply (Hne k); [apply Hlaw|done]).
  induction a as [|[x w] a IH]; cbn [assoc_insert].
  - destruct (cmp k' k), (cmp k k'); try done; apply perm_swap.
  - destruct (cmp k x) eqn:Ek, (cmp k' x) eqn:Ek'; cbn [assoc_insert]; rewrite ?Ek, ?Ek'; try done; try (exfalso; by apply (Hne x));
      by constructor.
Qed.

Lemma insert_remove_comm k v f (a : list (K * V)) : f k <> Eq -> (forall x, cmp k x = Eq -> f x = Eq -> False) ->
  assoc_remove f (assoc_insert cmp k v a) = assoc_insert cmp k v (assoc_remove f a).
Proof.
  intros Hk Hne. induction a as [|[x w] a IH]; cbn [assoc_insert assoc_remove].
  - by destruct (f k).
  - destruct (cmp k x) eqn:Ek, (f x) eqn:Ef; cbn [assoc_insert assoc_remove]; rewrite ?Ek, ?Ef; try done;
      try (exfalso; by apply (Hne x)); by rewrite IH.
Qed.

Lemma remove_remove_comm f g (a : list (K * V)) : (forall x, f x = Eq -> g x = Eq -> False) ->
  assoc_remove f (assoc_remove g a) = assoc_remove g (assoc_remove f a).
Proof.
  intros Hne. induction a as [|[x w] a IH]; cbn [assoc_remove]; [done|].
  destruct (f x) eqn:Ef, (g x) eqn:Eg; cbn [assoc_remove]; rewrite ?Ef, ?Eg; try done; try (exfalso; by apply (Hne x)); by rewrite IH.
Qed.

Lemma lupd_comm u u' a : apart cmp u u' -> lupd u' (lupd u a) ≡ₚ lupd u (lupd u' a).
Proof using Hlaw.
  intros Hne. destruct u as [k v|f|f], u' as [k' v'|g|g]; cbn [lupd]; unfold apart in Hne; cbn [target] in Hne;
    try (by apply insert_insert_comm);
    try (by rewrite insert_remove_comm; [done|intros E; apply (Hne k); [apply Hlaw|done]|done]);
    try (by rewrite <- insert_remove_comm; [done|intros E; apply (Hne k'); [done|apply Hlaw]|intros x H1 H2; by apply (Hne x)]);
    by rewrite remove_remove_comm; [done|intros x H1 H2; by apply (Hne x)].
Qed.

Lemma upd_comm u u' t : upd_ok u -> upd_ok u' -> apart cmp u u' -> bst cmp t ->
  tree_inorder (upd u' (upd u t)) = tree_inorder (upd u (upd u' t)).
Proof using Hlaw.
  intros Hu Hu' Hne Hb. apply (sorted_unique cmp Hlaw).
  - by apply (bst_sorted cmp Hlaw), upd_bst, upd_bst.
  - by apply (bst_sorted cmp Hlaw), upd_bst, upd_bst.
  - rewrite (upd_assoc u' (upd u t) (lupd u (tree_inorder t))); [|done|by apply upd_bst|symmetry; by apply upd_assoc].
    rewrite (upd_assoc u (upd u' t) (lupd u' (tree_inorder t))); [|done|by apply upd_bst|symmetry; by apply upd_assoc].
    by apply lupd_comm.
Qed.

Lemma remove_find f g (a : list (K * V)) : (forall x, g x = Eq -> f x = Eq -> False) -> assoc_find f (assoc_remove g a) = assoc_find f a.
Proof.
  intros Hne. induction a as [|[x w] b IH]; cbn; [done|]. destruct (g x) eqn:Eg; cbn; destruct (f x) eqn:Ef; try done. exfalso. by apply (Hne x).
Qed.

Lemma lupd_find u f (a : list (K * V)) : (forall x, target cmp u x = Eq -> f x = Eq -> False) -> assoc_find f (lupd u a) = assoc_find f a.
Proof using Hlaw.
  destruct u as [k v|g|g]; cbn [lupd target]; intros Hne; [|by apply remove_find..].
  induction a as [|[x w] b IH]; cbn.
  - destruct (f k) eqn:E; try done. exfalso. apply (Hne k); [apply Hlaw|done].
  - destruct (cmp k x) eqn:Eg; cbn; destruct (f x) eqn:Ef; try done. exfalso. by apply (Hne x).
Qed.

Lemma upd_find u f t : upd_ok u -> is_query cmp f -> (forall x, target cmp u x = Eq -> f x = Eq -> False) -> bst cmp t ->
  tree_find f (upd u t) = tree_find f t.
Proof using Hlaw.
  intros Hu Hf Hne Hb. rewrite (tree_find_assoc cmp Hlaw f (upd u t) (lupd u (tree_inorder t))); [|done|by apply upd_bst|symmetry; by apply upd_assoc].
  rewrite (tree_find_assoc cmp Hlaw f t (tree_inorder t)); [|done..]. by apply lupd_find.
Qed.

Lemma upd_out_comm u u' t : upd_ok u -> upd_ok u' -> apart cmp u u' -> bst cmp t -> upd_out u (upd u' t) = upd_out u t.
Proof using Hlaw.
  intros Hu Hu' Hne Hb. pose proof (upd_find u' (target cmp u) t Hu' (target_query u Hu) (fun x H1 H2 => Hne x H2 H1) Hb) as H.
  destruct u; cbn [upd_out target] in *; by rewrite H.
Qed.

(** Two insertions give the same tree if one of the keys was there or a key lies
    between them. *)
Lemma inserts_lt k v k' v' t : bst cmp t -> cmp k k' = Lt ->
  tree_insert cmp k' v' (tree_insert cmp k v t) = tree_insert cmp k v (tree_insert cmp k' v' t) <->
  tree_find (cmp k) t <> None \/ tree_find (cmp k') t <> None \/ exists x, x ∈ (tree_inorder t).*1 /\ cmp k x = Lt /\ cmp x k' = Lt.
Proof using Hlaw.
  intros Hb Hk. assert (Hk' : cmp k' k = Gt) by (by rewrite (lw_sym _ Hlaw), Hk).
  induction t as [|l IHl x w r IHr].
  { cbn. rewrite Hk, Hk'. split; [done|]. intros [?|[?|(x & Hx & _)]]; [done..|]. by apply elem_of_nil in Hx. }
  destruct Hb as (Hbl & Hbr & Hl & Hr). rewrite Forall_forall in Hl. rewrite Forall_forall in Hr.
  specialize (IHl Hbl). specialize (IHr Hbr).
  assert (Hin : forall z, z ∈ (tree_inorder (tnode l x w r)).*1 <-> z ∈ (tree_inorder l).*1 \/ z = x \/ z ∈ (tree_inorder r).*1).
  { intros z. cbn [tree_inorder]. rewrite fmap_app, fmap_cons, elem_of_app, elem_of_cons. done. }
  cbn [tree_insert tree_find]. destruct (cmp k x) eqn:E, (cmp k' x) eqn:E'; cbn [tree_insert]; rewrite ?E, ?E'; cbn [tree_insert].
  - exfalso. rewrite (lw_sym _ Hlaw) in E'. assert (cmp x k' = Eq) by (by destruct (cmp x k')).
    rewrite (lw_cong _ Hlaw _ _ k' E) in Hk. congruence.
  - split; [intros _; by left|done].
  - split; [intros _; by left|done].
  - split; [intros _; by right; left|done].
  - (* both to the left *)
    assert (Hstep : (exists z, z ∈ (tree_inorder (tnode l x w r)).*1 /\ cmp k z = Lt /\ cmp z k' = Lt) <-> (exists z, z ∈ (tree_inorder l).*1 /\ cmp k z = Lt /\ cmp z k' = Lt)).
    { split; intros (z & Hz & H1 & H2); exists z; [|rewrite Hin; auto]. rewrite Hin in Hz. split; [|done]. destruct Hz as [Hz|[->|Hz]]; [done| |]; exfalso.
      - rewrite (lw_sym _ Hlaw), E' in H2. done.
      - apply elem_of_list_fmap in Hz as (kv & -> & Hz). pose proof (Hr _ Hz) as Hlt.
        pose proof (lw_trans _ Hlaw _ _ _ Hlt H2) as H3. rewrite (lw_sym _ Hlaw), E' in H3. done. }
    rewrite Hstep, <- IHl. split; [by intros [= H]|by intros ->].
  - split; [|done]. intros _. right. right. exists x. rewrite Hin. split_and!; [auto|done|]. rewrite (lw_sym _ Hlaw), E'. done.
  - exfalso. assert (Hxk : cmp x k' = Eq) by (rewrite (lw_sym _ Hlaw), E'; done). rewrite (lw_sym _ Hlaw), (lw_cong _ Hlaw _ _ k Hxk), Hk' in E. done.
  - exfalso. assert (Hc : cmp k x = Lt) by (exact (lw_trans _ Hlaw _ _ _ Hk E')). congruence.
  - assert (Hstep : (exists z, z ∈ (tree_inorder (tnode l x w r)).*1 /\ cmp k z = Lt /\ cmp z k' = Lt) <-> (exists z, z ∈ (tree_inorder r).*1 /\ cmp k z = Lt /\ cmp z k' = Lt)).
    { split; intros (z & Hz & H1 & H2); exists z; [|rewrite Hin; auto]. rewrite Hin in Hz. split; [|done]. destruct Hz as [Hz|[->|Hz]]; [|congruence|done]; exfalso.
      apply elem_of_list_fmap in Hz as (kv & -> & Hz). pose proof (Hl _ Hz) as Hlt.
      pose proof (lw_trans _ Hlaw _ _ _ H1 Hlt) as H3. congruence. }
    rewrite Hstep, <- IHr. split; [by intros [= H]|by intros ->].
Qed.

Lemma inserts_iff k v k' v' t : bst cmp t -> cmp k k' <> Eq ->
  tree_insert cmp k' v' (tree_insert cmp k v t) = tree_insert cmp k v (tree_insert cmp k' v' t) <->
  tree_find (cmp k) t <> None \/ tree_find (cmp k') t <> None \/ separated cmp k k' (tree_inorder t).*1.
Proof using Hlaw.
  intros Hb Hne. destruct (cmp k k') eqn:E; [done| |].
  - rewrite (inserts_lt k v k' v' t Hb E). apply or_iff_compat_l, or_iff_compat_l. split; intros (x & Hx & H); exists x; split; auto.
    destruct H as [H|[H1 H2]]; [done|]. exfalso. pose proof (lw_trans _ Hlaw _ _ _ H1 H2) as H3. rewrite (lw_sym _ Hlaw), E in H3. done.
  - assert (E' : cmp k' k = Lt) by (by rewrite (lw_sym _ Hlaw), E). pose proof (inserts_lt k' v' k v t Hb E') as H.
    assert (Hsep : separated cmp k k' (tree_inorder t).*1 <-> exists x, x ∈ (tree_inorder t).*1 /\ cmp k' x = Lt /\ cmp x k = Lt).
    { split; intros (x & Hx & H'); exists x; split; auto. destruct H' as [[H1 H2]|H']; [|done]. exfalso.
      pose proof (lw_trans _ Hlaw _ _ _ H1 H2) as H3. congruence. }
    rewrite Hsep. split; [intros Heq; symmetry in Heq; apply H in Heq; tauto|intros Hx; symmetry; apply H; tauto].
Qed.

Lemma makes_ok c u : makes cmp c u -> upd_ok u.
Proof. destruct c, u; try done; by intros []. Qed.

Lemma makes_tree c u t x t' : makes cmp c u -> otree_step t c (Ret x) t' -> t' = upd u t /\ x = upd_out u t.
Proof using Hlaw.
  destruct c; try done; destruct u; try done.
  - intros (-> & -> & Ho) Hst. by apply (insert_call_tree cmp Hlaw _ _ _ _ _ _ Ho).
  - intros (_ & Ho) [H|[[]|[]]]. cbn [otree_call] in H.
    pose proof (otree_remove_answers cmp Hlaw o f t Ho 0) as Hi. destruct (otree_remove o 0 t) as [y|]; [|done].
    subst y. cbn in H. by injection H as <- <-.
  - intros (_ & Ho) [H|[[]|[]]]. cbn [otree_call] in H.
    pose proof (otree_remove_answers cmp Hlaw o f t Ho 0) as Hi. destruct (otree_remove o 0 t) as [y|]; [|done].
    subst y. cbn in H. by injection H as <- <-.
Qed.
End trees.

(** ** Maps *)
Section maps.
Context {K V : Type}.
Variable cmp : K -> K -> comparison.
Hypothesis Hlaw : lawful cmp.
Implicit Types t : tree K V.

Lemma map_makes e c u (m : bstmap K V) t x m' : makes cmp c u -> reachable e m -> shows m t -> exec e c m = (Ret x, m') ->
  reachable e m' /\ shows m' (upd cmp u t) /\ x = upd_out cmp u t.
Proof using Hlaw.
  intros Hc Hr Hs He. destruct (any_comparator_call _ _ _ _ _ _ Hr Hs He) as (t1 & Ht1 & Hst).
  destruct (makes_tree cmp Hlaw _ _ _ _ _ Hc Hst) as [-> ->]. split_and!; try done. by eapply reachable_step.
Qed.

Lemma simple_makes e c u (m : simple K V) t x m' : makes cmp c u -> simple_reachable e m -> simple_shows m t -> simple_exec e c m = (Ret x, m') ->
  simple_reachable e m' /\ simple_shows m' (upd cmp u t) /\ x = upd_out cmp u t.
Proof using Hlaw.
  intros Hc Hr Hs He. assert (Hh : simple_has c = true) by (destruct c; done).
  destruct (simple_call_tree _ c _ _ _ _ Hr Hs Hh He ltac:(done)) as (t1 & Ht1 & Hst).
  apply stree_otree in Hst; [|destruct c; try done; [by left|by right; left..]].
  destruct (makes_tree cmp Hlaw _ _ _ _ _ Hc Hst) as [-> ->]. split_and!; try done.
  exact (proj2 (simple_never_fails _ c _ _ _ Hr Hh He) ltac:(done)).
Qed.

Lemma map_commute e (m : bstmap K V) t c1 c2 d1 d2 u1 u2 x1 m1 x2 m2 y2 n1 y1 n2 :
  reachable e m -> shows m t -> sorted cmp (tree_inorder t) -> apart cmp u1 u2 ->
  makes cmp c1 u1 -> makes cmp c2 u2 -> makes cmp d1 u1 -> makes cmp d2 u2 ->
  exec e c1 m = (Ret x1, m1) -> exec e c2 m1 = (Ret x2, m2) ->
  exec e d2 m = (Ret y2, n1) -> exec e d1 n1 = (Ret y1, n2) ->
  x1 = y1 /\ x2 = y2 /\ exists ta tb, shows m2 ta /\ shows n2 tb /\ tree_inorder ta = tree_inorder tb.
Proof using Hlaw.
  intros Hr Hs Hb Hap Hc1 Hc2 Hd1 Hd2 E1 E2 F1 F2. apply (bst_sorted _ Hlaw) in Hb.
  destruct (map_makes _ _ _ _ _ _ _ Hc1 Hr Hs E1) as (R1 & S1 & ->). destruct (map_makes _ _ _ _ _ _ _ Hc2 R1 S1 E2) as (_ & S2 & ->).
  destruct (map_makes _ _ _ _ _ _ _ Hd2 Hr Hs F1) as (R3 & S3 & ->). destruct (map_makes _ _ _ _ _ _ _ Hd1 R3 S3 F2) as (_ & S4 & ->).
  apply makes_ok in Hc1. apply makes_ok in Hc2. split_and!.
  - symmetry. by apply upd_out_comm.
  - apply upd_out_comm; try done. intros z H1 H2. by apply (Hap z).
  - eexists _, _. split; [exact S2|]. split; [exact S4|]. by apply upd_comm.
Qed.

Lemma map_inserts_commute e (m : bstmap K V) t k v k' v' o1 o2 o3 o4 x1 m1 x2 m2 y2 n1 y1 n2 :
  reachable e m -> shows m t -> sorted cmp (tree_inorder t) -> cmp k k' <> Eq ->
  answers o1 (cmp k) -> answers o2 (cmp k') -> answers o3 (cmp k') -> answers o4 (cmp k) ->
  exec e (OInsert o1 k v) m = (Ret x1, m1) -> exec e (OInsert o2 k' v') m1 = (Ret x2, m2) ->
  exec e (OInsert o3 k' v') m = (Ret y2, n1) -> exec e (OInsert o4 k v) n1 = (Ret y1, n2) ->
  (exists u, shows m2 u /\ shows n2 u) <->
  x1 <> OutValue None \/ x2 <> OutValue None \/ separated cmp k k' (tree_inorder t).*1.
Proof using Hlaw.
  intros Hr Hs Hb Hne O1 O2 O3 O4 E1 E2 F1 F2. apply (bst_sorted _ Hlaw) in Hb.
  assert (Hap : apart cmp (UInsert k v) (UInsert k' v')).
  { intros z H1 H2. cbn in H1, H2. apply Hne. rewrite (lw_cong _ Hlaw _ _ k' H1), (lw_sym _ Hlaw), H2. done. }
  destruct (map_makes _ (OInsert o1 k v) (UInsert k v) _ _ _ _ (conj eq_refl (conj eq_refl O1)) Hr Hs E1) as (R1 & S1 & ->).
  destruct (map_makes _ (OInsert o2 k' v') (UInsert k' v') _ _ _ _ (conj eq_refl (conj eq_refl O2)) R1 S1 E2) as (_ & S2 & ->).
  destruct (map_makes _ (OInsert o3 k' v') (UInsert k' v') _ _ _ _ (conj eq_refl (conj eq_refl O3)) Hr Hs F1) as (R3 & S3 & ->).
  destruct (map_makes _ (OInsert o4 k v) (UInsert k v) _ _ _ _ (conj eq_refl (conj eq_refl O4)) R3 S3 F2) as (_ & S4 & _).
  rewrite (upd_out_comm cmp Hlaw (UInsert k' v') (UInsert k v) t I I); [|intros z H1 H2; by apply (Hap z)|done].
  cbn [upd upd_out] in *. transitivity (tree_insert cmp k' v' (tree_insert cmp k v t) = tree_insert cmp k v (tree_insert cmp k' v' t)).
  - split; [intros (u & A & B); by rewrite (shows_fun _ _ _ A S2), (shows_fun _ _ _ B S4)|]. intros H. eexists. split; [exact S2|]. by rewrite H.
  - rewrite (inserts_iff cmp Hlaw k v k' v' t Hb Hne). destruct (tree_find (cmp k) t), (tree_find (cmp k') t); cbn; naive_solver.
Qed.

Lemma simple_commute e (m : simple K V) t c1 c2 d1 d2 u1 u2 x1 m1 x2 m2 y2 n1 y1 n2 :
  simple_reachable e m -> simple_shows m t -> sorted cmp (tree_inorder t) -> apart cmp u1 u2 ->
  makes cmp c1 u1 -> makes cmp c2 u2 -> makes cmp d1 u1 -> makes cmp d2 u2 ->
  simple_exec e c1 m = (Ret x1, m1) -> simple_exec e c2 m1 = (Ret x2, m2) ->
  simple_exec e d2 m = (Ret y2, n1) -> simple_exec e d1 n1 = (Ret y1, n2) ->
  x1 = y1 /\ x2 = y2 /\ exists ta tb, simple_shows m2 ta /\ simple_shows n2 tb /\ tree_inorder ta = tree_inorder tb.
Proof using Hlaw.
  intros Hr Hs Hb Hap Hc1 Hc2 Hd1 Hd2 E1 E2 F1 F2. apply (bst_sorted _ Hlaw) in Hb.
  destruct (simple_makes _ _ _ _ _ _ _ Hc1 Hr Hs E1) as (R1 & S1 & ->). destruct (simple_makes _ _ _ _ _ _ _ Hc2 R1 S1 E2) as (_ & S2 & ->).
  destruct (simple_makes _ _ _ _ _ _ _ Hd2 Hr Hs F1) as (R3 & S3 & ->). destruct (simple_makes _ _ _ _ _ _ _ Hd1 R3 S3 F2) as (_ & S4 & ->).
  apply makes_ok in Hc1. apply makes_ok in Hc2. split_and!.
  - symmetry. by apply upd_out_comm.
  - apply upd_out_comm; try done. intros z H1 H2. by apply (Hap z).
  - eexists _, _. split; [exact S2|]. split; [exact S4|]. by apply upd_comm.
Qed.

Lemma simple_inserts_commute e (m : simple K V) t k v k' v' o1 o2 o3 o4 x1 m1 x2 m2 y2 n1 y1 n2 :
  simple_reachable e m -> simple_shows m t -> sorted cmp (tree_inorder t) -> cmp k k' <> Eq ->
  answers o1 (cmp k) -> answers o2 (cmp k') -> answers o3 (cmp k') -> answers o4 (cmp k) ->
  simple_exec e (OInsert o1 k v) m = (Ret x1, m1) -> simple_exec e (OInsert o2 k' v') m1 = (Ret x2, m2) ->
  simple_exec e (OInsert o3 k' v') m = (Ret y2, n1) -> simple_exec e (OInsert o4 k v) n1 = (Ret y1, n2) ->
  (exists u, simple_shows m2 u /\ simple_shows n2 u) <->
  x1 <> OutValue None \/ x2 <> OutValue None \/ separated cmp k k' (tree_inorder t).*1.
Proof using Hlaw.
  intros Hr Hs Hb Hne O1 O2 O3 O4 E1 E2 F1 F2. apply (bst_sorted _ Hlaw) in Hb.
  assert (Hap : apart cmp (UInsert k v) (UInsert k' v')).
  { intros z H1 H2. cbn in H1, H2. apply Hne. rewrite (lw_cong _ Hlaw _ _ k' H1), (lw_sym _ Hlaw), H2. done. }
  destruct (simple_makes _ (OInsert o1 k v) (UInsert k v) _ _ _ _ (conj eq_refl (conj eq_refl O1)) Hr Hs E1) as (R1 & S1 & ->).
  destruct (simple_makes _ (OInsert o2 k' v') (UInsert k' v') _ _ _ _ (conj eq_refl (conj eq_refl O2)) R1 S1 E2) as (_ & S2 & ->).
  destruct (simple_makes _ (OInsert o3 k' v') (UInsert k' v') _ _ _ _ (conj eq_refl (conj eq_refl O3)) Hr Hs F1) as (R3 & S3 & ->).
  destruct (simple_makes _ (OInsert o4 k v) (UInsert k v) _ _ _ _ (conj eq_refl (conj eq_refl O4)) R3 S3 F2) as (_ & S4 & _).
  rewrite (upd_out_comm cmp Hlaw (UInsert k' v') (UInsert k v) t I I); [|intros z H1 H2; by apply (Hap z)|done].
  cbn [upd upd_out] in *. transitivity (tree_insert cmp k' v' (tree_insert cmp k v t) = tree_insert cmp k v (tree_insert cmp k' v' t)).
  - split; [intros (u & A & B); by rewrite (simple_shows_fun _ _ _ A S2), (simple_shows_fun _ _ _ B S4)|]. intros H. eexists. split; [exact S2|]. by rewrite H.
  - rewrite (inserts_iff cmp Hlaw k v k' v' t Hb Hne). destruct (tree_find (cmp k) t), (tree_find (cmp k') t); cbn; naive_solver.
Qed.
End maps.

(** ** Sets *)
Section sets.
Context {T : Type}.
Variable cmp : T -> T -> comparison.
Hypothesis Hlaw : lawful cmp.
Implicit Types u : update T unit.
Implicit Types t : tree T unit.

Definition set_upd_out u t : set_out T :=
  match u with
  | UInsert x _ => SetBool (match tree_find (cmp x) t with None => true | Some _ => false end)
  | URemove f => SetBool (match tree_find f t with None => false | Some _ => true end)
  | URemoveEntry f => SetValue (fst <$> tree_find f t)
  end.

Lemma set_upd_out_comm u u' t : upd_ok cmp u -> upd_ok cmp u' -> apart cmp u u' -> bst cmp t ->
  set_upd_out u (upd cmp u' t) = set_upd_out u t.
Proof using Hlaw.
  intros Hu Hu' Hne Hb.
  pose proof (upd_find cmp Hlaw u' (target cmp u) t Hu' (target_query cmp Hlaw u Hu) (fun x H1 H2 => Hne x H2 H1) Hb) as H.
  destruct u; cbn [set_upd_out target] in *; by rewrite H.
Qed.

Lemma set_makes_map c u : set_makes cmp c u -> makes cmp (to_map c) u.
Proof. destruct c; try done; destruct u as [z []|f|f]; try done. intros [-> H]. done. Qed.

Lemma set_makes_tree e c u (m : bstset T) t x m' : set_makes cmp c u -> set_reachable e m -> set_shows m (values_tree t) ->
  set_exec e c m = (Ret x, m') -> set_reachable e m' /\ set_shows m' (values_tree (upd cmp u t)) /\ x = set_upd_out u t.
Proof using Hlaw.
  intros Hc Hr Hs He. destruct (set_call_tree _ _ _ _ _ _ Hr Hs He) as (u0 & u' & y & <-%values_tree_inj & Hs' & Hst & Hy).
  destruct y as [y| | | |]; try done. destruct (makes_tree cmp Hlaw _ _ _ _ _ (set_makes_map _ _ Hc) Hst) as [-> ->].
  cbn [rmap] in Hy. injection Hy as ->. split_and!; [by eapply set_reachable_step|done|].
  destruct c; try done; destruct u as [z []|f|f]; try done; cbn.
  - by destruct (tree_find (cmp z) t).
  - by destruct (tree_find f t).
Qed.

Lemma sset_makes_tree e c u (m : sset T) t x m' : set_makes cmp c u -> sset_reachable e m -> sset_shows m (values_tree t) ->
  sset_exec e c m = (Ret x, m') -> sset_reachable e m' /\ sset_shows m' (values_tree (upd cmp u t)) /\ x = set_upd_out u t.
Proof using Hlaw.
  intros Hc Hr Hs He. assert (Hh : sset_has c = true) by (destruct c; done).
  destruct (sset_call_tree2 _ c _ _ _ _ Hr Hs Hh He) as [[? _]|(u0 & u' & y & <-%values_tree_inj & Hs' & Hst & Hy)]; [done|].
  apply stree_otree in Hst; [|destruct c; try done; [by left|by right; left..]].
  destruct y as [y| | | |]; try done. destruct (makes_tree cmp Hlaw _ _ _ _ _ (set_makes_map _ _ Hc) Hst) as [-> ->].
  cbn [rmap] in Hy. injection Hy as ->. split_and!; [|done|].
  - exact (proj2 (sset_never_fails _ c _ _ _ Hr Hh He) ltac:(done)).
  - destruct c; try done; destruct u as [z []|f|f]; try done; cbn.
    + by destruct (tree_find (cmp z) t).
    + by destruct (tree_find f t).
Qed.

Lemma values_inorder t : stree_order In (values_tree t) = (tree_inorder t).*1.
Proof. by rewrite stree_order_values. Qed.

Lemma set_commute e (m : bstset T) (st : stree T) c1 c2 d1 d2 u1 u2 x1 m1 x2 m2 y2 n1 y1 n2 :
  set_reachable e m -> set_shows m st -> set_sorted cmp (stree_order In st) -> apart cmp u1 u2 ->
  set_makes cmp c1 u1 -> set_makes cmp c2 u2 -> set_makes cmp d1 u1 -> set_makes cmp d2 u2 ->
  set_exec e c1 m = (Ret x1, m1) -> set_exec e c2 m1 = (Ret x2, m2) ->
  set_exec e d2 m = (Ret y2, n1) -> set_exec e d1 n1 = (Ret y1, n2) ->
  x1 = y1 /\ x2 = y2 /\ exists ta tb, set_shows m2 ta /\ set_shows n2 tb /\ stree_order In ta = stree_order In tb.
Proof using Hlaw.
  intros Hr Hs Hb Hap Hc1 Hc2 Hd1 Hd2 E1 E2 F1 F2.
  destruct (set_call_tree _ _ _ _ _ _ Hr Hs E1) as (t & _ & _ & -> & _). apply values_sorted, (bst_sorted _ Hlaw) in Hb.
  destruct (set_makes_tree _ _ _ _ _ _ _ Hc1 Hr Hs E1) as (R1 & S1 & ->). destruct (set_makes_tree _ _ _ _ _ _ _ Hc2 R1 S1 E2) as (_ & S2 & ->).
  destruct (set_makes_tree _ _ _ _ _ _ _ Hd2 Hr Hs F1) as (R3 & S3 & ->). destruct (set_makes_tree _ _ _ _ _ _ _ Hd1 R3 S3 F2) as (_ & S4 & ->).
  apply set_makes_map, makes_ok in Hc1. apply set_makes_map, makes_ok in Hc2. split_and!.
  - symmetry. by apply set_upd_out_comm.
  - apply set_upd_out_comm; try done. intros z H1 H2. by apply (Hap z).
  - eexists _, _. split; [exact S2|]. split; [exact S4|]. rewrite !values_inorder. f_equal. by apply upd_comm.
Qed.

Lemma sset_commute e (m : sset T) (st : stree T) c1 c2 d1 d2 u1 u2 x1 m1 x2 m2 y2 n1 y1 n2 :
  sset_reachable e m -> sset_shows m st -> set_sorted cmp (stree_order In st) -> apart cmp u1 u2 ->
  set_makes cmp c1 u1 -> set_makes cmp c2 u2 -> set_makes cmp d1 u1 -> set_makes cmp d2 u2 ->
  sset_exec e c1 m = (Ret x1, m1) -> sset_exec e c2 m1 = (Ret x2, m2) ->
  sset_exec e d2 m = (Ret y2, n1) -> sset_exec e d1 n1 = (Ret y1, n2) ->
  x1 = y1 /\ x2 = y2 /\ exists ta tb, sset_shows m2 ta /\ sset_shows n2 tb /\ stree_order In ta = stree_order In tb.
Proof using Hlaw.
  intros Hr Hs Hb Hap Hc1 Hc2 Hd1 Hd2 E1 E2 F1 F2. assert (Hh : sset_has c1 = true) by (destruct c1; done).
  destruct (sset_call_tree2 _ _ _ _ _ _ Hr Hs Hh E1) as [[? _]|(t & _ & _ & -> & _)]; [done|]. apply values_sorted, (bst_sorted _ Hlaw) in Hb.
  destruct (sset_makes_tree _ _ _ _ _ _ _ Hc1 Hr Hs E1) as (R1 & S1 & ->). destruct (sset_makes_tree _ _ _ _ _ _ _ Hc2 R1 S1 E2) as (_ & S2 & ->).
  destruct (sset_makes_tree _ _ _ _ _ _ _ Hd2 Hr Hs F1) as (R3 & S3 & ->). destruct (sset_makes_tree _ _ _ _ _ _ _ Hd1 R3 S3 F2) as (_ & S4 & ->).
  apply set_makes_map, makes_ok in Hc1. apply set_makes_map, makes_ok in Hc2. split_and!.
  - symmetry. by apply set_upd_out_comm.
  - apply set_upd_out_comm; try done. intros z H1 H2. by apply (Hap z).
  - eexists _, _. split; [exact S2|]. split; [exact S4|]. rewrite !values_inorder. f_equal. by apply upd_comm.
Qed.

Lemma values_sep x x' t : separated cmp x x' (tree_inorder t).*1 <-> separated cmp x x' (stree_order In (values_tree t)).
Proof. by rewrite values_inorder. Qed.

Lemma set_inserts_commute e (m : bstset T) (st : stree T) x x' o1 o2 o3 o4 b1 m1 b2 m2 c2 n1 c1 n2 :
  set_reachable e m -> set_shows m st -> set_sorted cmp (stree_order In st) -> cmp x x' <> Eq ->
  answers o1 (cmp x) -> answers o2 (cmp x') -> answers o3 (cmp x') -> answers o4 (cmp x) ->
  set_exec e (SetInsert o1 x) m = (Ret b1, m1) -> set_exec e (SetInsert o2 x') m1 = (Ret b2, m2) ->
  set_exec e (SetInsert o3 x') m = (Ret c2, n1) -> set_exec e (SetInsert o4 x) n1 = (Ret c1, n2) ->
  (exists u : stree T, set_shows m2 u /\ set_shows n2 u) <->
  b1 = SetBool false \/ b2 = SetBool false \/ separated cmp x x' (stree_order In st).
Proof using Hlaw.
  intros Hr Hs Hb Hne O1 O2 O3 O4 E1 E2 F1 F2.
  destruct (set_call_tree _ _ _ _ _ _ Hr Hs E1) as (t & _ & _ & -> & _). apply values_sorted, (bst_sorted _ Hlaw) in Hb.
  assert (Hap : apart cmp (UInsert x tt) (UInsert x' tt)).
  { intros z H1 H2. cbn in H1, H2. apply Hne. rewrite (lw_cong _ Hlaw _ _ x' H1), (lw_sym _ Hlaw), H2. done. }
  destruct (set_makes_tree _ (SetInsert o1 x) (UInsert x tt) _ _ _ _ (conj eq_refl O1) Hr Hs E1) as (R1 & S1 & ->).
  destruct (set_makes_tree _ (SetInsert o2 x') (UInsert x' tt) _ _ _ _ (conj eq_refl O2) R1 S1 E2) as (_ & S2 & ->).
  destruct (set_makes_tree _ (SetInsert o3 x') (UInsert x' tt) _ _ _ _ (conj eq_refl O3) Hr Hs F1) as (R3 & S3 & ->).
  destruct (set_makes_tree _ (SetInsert o4 x) (UInsert x tt) _ _ _ _ (conj eq_refl O4) R3 S3 F2) as (_ & S4 & _).
  rewrite (set_upd_out_comm (UInsert x' tt) (UInsert x tt) t I I); [|intros z H1 H2; by apply (Hap z)|done]. rewrite <- values_sep.
  cbn [upd set_upd_out] in *. transitivity (tree_insert cmp x' tt (tree_insert cmp x tt t) = tree_insert cmp x tt (tree_insert cmp x' tt t)).
  - split; [|intros H; eexists; split; [exact S2|]; by rewrite H]. intros (u & A & B). apply values_tree_inj.
    by rewrite (set_shows_fun _ _ _ A S2), (set_shows_fun _ _ _ B S4).
  - rewrite (inserts_iff cmp Hlaw x tt x' tt t Hb Hne). destruct (tree_find (cmp x) t), (tree_find (cmp x') t); naive_solver.
Qed.

Lemma sset_inserts_commute e (m : sset T) (st : stree T) x x' o1 o2 o3 o4 b1 m1 b2 m2 c2 n1 c1 n2 :
  sset_reachable e m -> sset_shows m st -> set_sorted cmp (stree_order In st) -> cmp x x' <> Eq ->
  answers o1 (cmp x) -> answers o2 (cmp x') -> answers o3 (cmp x') -> answers o4 (cmp x) ->
  sset_exec e (SetInsert o1 x) m = (Ret b1, m1) -> sset_exec e (SetInsert o2 x') m1 = (Ret b2, m2) ->
  sset_exec e (SetInsert o3 x') m = (Ret c2, n1) -> sset_exec e (SetInsert o4 x) n1 = (Ret c1, n2) ->
  (exists u : stree T, sset_shows m2 u /\ sset_shows n2 u) <->
  b1 = SetBool false \/ b2 = SetBool false \/ separated cmp x x' (stree_order In st).
Proof using Hlaw.
  intros Hr Hs Hb Hne O1 O2 O3 O4 E1 E2 F1 F2.
  destruct (sset_call_tree2 _ (SetInsert o1 x) _ _ _ _ Hr Hs eq_refl E1) as [[? _]|(t & _ & _ & -> & _)]; [done|]. apply values_sorted, (bst_sorted _ Hlaw) in Hb.
  assert (Hap : apart cmp (UInsert x tt) (UInsert x' tt)).
  { intros z H1 H2. cbn in H1, H2. apply Hne. rewrite (lw_cong _ Hlaw _ _ x' H1), (lw_sym _ Hlaw), H2. done. }
  destruct (sset_makes_tree _ (SetInsert o1 x) (UInsert x tt) _ _ _ _ (conj eq_refl O1) Hr Hs E1) as (R1 & S1 & ->).
  destruct (sset_makes_tree _ (SetInsert o2 x') (UInsert x' tt) _ _ _ _ (conj eq_refl O2) R1 S1 E2) as (_ & S2 & ->).
  destruct (sset_makes_tree _ (SetInsert o3 x') (UInsert x' tt) _ _ _ _ (conj eq_refl O3) Hr Hs F1) as (R3 & S3 & ->).
  destruct (sset_makes_tree _ (SetInsert o4 x) (UInsert x tt) _ _ _ _ (conj eq_refl O4) R3 S3 F2) as (_ & S4 & _).
  rewrite (set_upd_out_comm (UInsert x' tt) (UInsert x tt) t I I); [|intros z H1 H2; by apply (Hap z)|done]. rewrite <- values_sep.
  cbn [upd set_upd_out] in *. transitivity (tree_insert cmp x' tt (tree_insert cmp x tt t) = tree_insert cmp x tt (tree_insert cmp x' tt t)).
  - split; [|intros H; eexists; split; [exact S2|]; by rewrite H]. intros (u & A & B). apply values_tree_inj.
    by rewrite (sset_exposes_fun _ _ _ A _ S2), (sset_exposes_fun _ _ _ B _ S4).
  - rewrite (inserts_iff cmp Hlaw x tt x' tt t Hb Hne). destruct (tree_find (cmp x) t), (tree_find (cmp x') t); naive_solver.
Qed.
End sets.
