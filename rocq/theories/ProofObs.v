(** * Observations of maps, in terms of the trees of the proofs *)

From Verif Require Export ProofHistory SpecObs.

Section obs.
Context {K V : Type}.
Implicit Types m : bstmap K V.
Implicit Types t : ptree K V.

Lemma reachable_rep e m : reachable e m -> exists t fl, map_rep m t fl.
Proof. intros (s & cs & rs & H & _). by apply reached_rep in H as [_ H]. Qed.

Lemma exposes_fun m n (t1 : tree K V) : exposes m n t1 -> forall t2 : tree K V, exposes m n t2 -> t2 = t1.
Proof.
  induction 1 as [|n nl nr l r Hl _ IHl Hr _ IHr]; intros t2 H2; inversion H2 as [|? nl' nr' l' r' Hl' El Hr' Er]; subst; [done|].
  rewrite Hl in Hl'. rewrite Hr in Hr'. simplify_eq. by rewrite (IHl _ El), (IHr _ Er).
Qed.

Lemma shows_fun m (t1 t2 : tree K V) : shows m t1 -> shows m t2 -> t2 = t1.
Proof. intros (r & Hr & H1) (r' & Hr' & H2). rewrite Hr in Hr'. injection Hr' as <-. by eapply exposes_fun. Qed.

Lemma readable_exposes m t : readable m t -> exposes m (node_of t) (erase t).
Proof.
  induction t as [|l IHl p k v r IHr]; intros H; simpl; [constructor|].
  apply (exposes_some m (mkNode p (mkInner k v (rootp l) (rootp r))) (node_of l) (node_of r)).
  - apply opt_node_ret. by eapply readable_l.
  - apply IHl. by eapply readable_l.
  - apply opt_node_ret. by eapply readable_r.
  - apply IHr. by eapply readable_r.
Qed.

Lemma rep_shows m t fl : map_rep m t fl -> shows m (erase t).
Proof.
  intros H. exists (node_of t). split; [by eapply map_root_ret|]. apply readable_exposes. by eapply rep_readable.
Qed.

Lemma rep_shows_eq m t fl (t' : tree K V) : map_rep m t fl -> shows m t' -> t' = erase t.
Proof. intros H Hs. eapply shows_fun; [by eapply rep_shows|done]. Qed.

Lemma rep_yields m t fl d : map_rep m t fl -> yields m d (tree_order d (erase t)).
Proof. intros H. exists (porder d t). split; [by eapply iter_collect_spec|apply porder_erase]. Qed.

Lemma rep_yields_eq m t fl d l : map_rep m t fl -> yields m d l -> l = tree_order d (erase t).
Proof.
  intros H (lp & Hlp & <-). rewrite (iter_collect_spec _ _ _ d H) in Hlp. simplify_eq. apply porder_erase.
Qed.

Lemma rep_stored m t fl p k v : map_rep m t fl -> stored m p k v <-> (p, (k, v)) ∈ ppre t.
Proof.
  intros H. unfold stored. rewrite (iter_collect_spec _ _ _ In H). rewrite <- (porder_perm In t). split.
  - intros (lp & [= <-] & Hin). done.
  - intros Hin. eauto.
Qed.

Lemma surely_answers (o : oracle K) f : surely o f -> answers o f.
Proof. intros H i k. left. apply H. Qed.

Lemma surely_tget (o : oracle K) f t : surely o f -> forall i, exists y, tget o i t = Ret y /\ snd <$> y = tree_find f (erase t).
Proof.
  intros H i. destruct (tget_cases o t i) as [[y Hy]|Hy].
  - exists y. split; [done|]. eapply tget_find; [by apply surely_answers|done].
  - destruct (tget_panicked (fun _ _ => Eq) _ _ _ Hy) as (j & kv & _ & Hn). rewrite H in Hn. done.
Qed.

Lemma run_step e cs : forall m rs m1 c r m2, run e cs m = (rs, m1) -> alive rs -> Forall defined rs ->
  exec e c m1 = (r, m2) -> r <> Abort -> defined r -> run e (cs ++ [c]) m = (rs ++ [r], m2).
Proof.
  induction cs as [|c0 cs IH]; intros m rs m1 c r m2 Hrun Ha Hd He Hr Hdr; simpl in *.
  - injection Hrun as <- <-. rewrite He. by destruct r.
  - destruct (exec e c0 m) as [r0 m'] eqn:E0. destruct r0 as [x|p| |u|].
    + destruct (run e cs m') as [rs' m''] eqn:Er. injection Hrun as <- <-. apply Forall_cons in Ha as [_ Ha].
      apply Forall_cons in Hd as [_ Hd]. by rewrite (IH _ _ _ _ _ _ Er Ha Hd He Hr Hdr).
    + destruct (run e cs m') as [rs' m''] eqn:Er. injection Hrun as <- <-. apply Forall_cons in Ha as [_ Ha].
      apply Forall_cons in Hd as [_ Hd]. by rewrite (IH _ _ _ _ _ _ Er Ha Hd He Hr Hdr).
    + injection Hrun as <- <-. by apply Forall_cons in Ha as [? _].
    + injection Hrun as <- <-. by apply Forall_cons in Hd as [? _].
    + injection Hrun as <- <-. by apply Forall_cons in Hd as [? _].
Qed.

(** A map is still reachable after any further call. *)
Lemma reachable_step e c m r m' : reachable e m -> exec e c m = (r, m') -> r <> Abort -> reachable e m'.
Proof.
  intros (s & cs & rs & Hreach & Ha) He Hr. pose proof (reached_rep _ _ _ _ _ Hreach) as [Hd (t & fl & Hrep)].
  destruct Hreach as (m0 & Hm0 & Hrun). destruct (exec_rep _ _ _ _ _ _ _ Hrep He) as [Hdr _].
  exists s, (cs ++ [c]), (rs ++ [r]). split.
  - exists m0. split; [done|]. by eapply run_step.
  - apply Forall_app. split; [done|]. by apply Forall_singleton.
Qed.

(** ** Ordered maps *)
Section ordered.
Variable cmp : K -> K -> comparison.
Hypothesis Hlaw : lawful cmp.

Lemma ordered_rep e m : ordered_reachable cmp e m -> exists t fl, map_rep m t fl /\ bst cmp (erase t).
Proof. intros (s & cs & rs & Hs & Hcs & H & _). by eapply reached_bst. Qed.

Lemma ordered_reachable_reachable e m : ordered_reachable cmp e m -> reachable e m.
Proof. intros (s & cs & rs & Hs & Hcs & H). by exists s, cs, rs. Qed.

Lemma ordered_step e c m r m' : ordered_reachable cmp e m -> legal cmp c -> exec e c m = (r, m') -> r <> Abort ->
  ordered_reachable cmp e m'.
Proof.
  intros (s & cs & rs & Hs & Hcs & Hreach & Ha) Hc He Hr. pose proof (reached_rep _ _ _ _ _ Hreach) as [Hd (t & fl & Hrep)].
  destruct Hreach as (m0 & Hm0 & Hrun). destruct (exec_rep _ _ _ _ _ _ _ Hrep He) as [Hdr _].
  exists s, (cs ++ [c]), (rs ++ [r]). split_and!; [done| | |].
  - apply Forall_app. split; [done|]. by apply Forall_singleton.
  - exists m0. split; [done|]. by eapply run_step.
  - apply Forall_app. split; [done|]. by apply Forall_singleton.
Qed.

(** One call on an ordered map. *)
Lemma exec_ordered e c m t fl r m' : map_rep m t fl -> bst cmp (erase t) -> legal cmp c -> exec e c m = (r, m') ->
  exists t' fl', map_rep m' t' fl' /\ bst cmp (erase t') /\ tree_step cmp (erase t) c r (erase t') /\
    map_step cmp (tree_inorder (erase t)) c r (tree_inorder (erase t')).
Proof.
  intros Hrep Hb Hc He. pose proof (exec_cases e c m t fl Hrep) as H. rewrite He in H.
  assert (Hgo : exists t' fl', map_rep m' t' fl' /\ tree_step cmp (erase t) c r (erase t')).
  { destruct r as [x|p| |u|]; try done.
    - destruct H as (t' & fl' & Hrep' & Hs & _). exists t', fl'. split; [done|].
      apply tstep_tree; try done. by eapply rep_nodup.
    - destruct H as (t' & fl' & Hrep' & Hs & _). exists t', fl'. split; [done|]. by apply (tstop_tree cmp e c m t (Some p) t').
    - destruct H as (t' & fl' & Hrep' & Hs & _). exists t', fl'. split; [done|]. by apply (tstop_tree cmp e c m t None t'). }
  destruct Hgo as (t' & fl' & Hrep' & Hst). exists t', fl'. split; [done|].
  edestruct (tree_step_map cmp Hlaw (erase t) c r (erase t')) as [Hm Hb']; try done.
Qed.


End ordered.
End obs.
