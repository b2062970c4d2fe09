(** * Proofs: the links that a call changes *)

From Coq Require Import String.
From Verif Require Import SpecLinks ProofIterProps ProofSet ProofSetSafety ProofObs ProofOracle.

Section links.
Context {K V : Type}.
Implicit Types t l r : ptree K V.
Implicit Types m : bstmap K V.

Fixpoint plink t (p : Ptr) (k : K) (a b : option Ptr) : Prop :=
  match t with
  | Leaf => False
  | Bin l p' k' _ r => (p = p' /\ k = k' /\ a = rootp l /\ b = rootp r) \/ plink l p k a b \/ plink r p k a b
  end.

Lemma plink_at t p k a b : plink t p k a b <-> exists path l v r, tat path t = Bin l p k v r /\ a = rootp l /\ b = rootp r.
Proof.
  split.
  - induction t as [|l IHl p' k' v r IHr]; cbn; [done|]. intros [(-> & -> & -> & ->)|[H|H]].
    + by exists [], l, v, r.
    + destruct (IHl H) as (path & l0 & v0 & r0 & E & H'). by exists (GoLeft :: path), l0, v0, r0.
    + destruct (IHr H) as (path & l0 & v0 & r0 & E & H'). by exists (GoRight :: path), l0, v0, r0.
  - intros (path & l & v & r & E & Ha & Hb). revert t E. induction path as [|[] path IH]; intros [|l' p' k' v' r'] E; cbn in *; try done.
    + injection E as -> -> -> -> ->. by left.
    + right. left. by apply IH.
    + right. right. by apply IH.
Qed.

Lemma plink_entry t p k a b : plink t p k a b -> exists v, (p, (k, v)) ∈ ppre t.
Proof.
  induction t as [|l IHl p' k' v r IHr]; cbn [plink ppre]; [done|]. intros [(-> & -> & _)|[(w & H)%IHl|(w & H)%IHr]].
  - exists v. by left.
  - exists w. right. apply elem_of_app. by left.
  - exists w. right. apply elem_of_app. by right.
Qed.

Lemma entry_plink t p k v : (p, (k, v)) ∈ ppre t -> exists a b, plink t p k a b.
Proof.
  induction t as [|l IHl p' k' v' r IHr]; cbn [plink ppre]; [by intros ?%elem_of_nil|]. rewrite elem_of_cons, elem_of_app.
  intros [[= -> -> ->]|[(a & b & H)%IHl|(a & b & H)%IHr]]; [exists (rootp l), (rootp r); by left|exists a, b; auto..].
Qed.

Lemma plink_ptrs t p k a b : plink t p k a b -> p ∈ ptrs t.
Proof. intros (v & H)%plink_entry. rewrite <- ppre_fst. apply elem_of_list_fmap. by exists (p, (k, v)). Qed.

Lemma plink_fun t p k a b k' a' b' : NoDup (ptrs t) -> plink t p k a b -> plink t p k' a' b' -> k = k' /\ a = a' /\ b = b'.
Proof.
  induction t as [|l IHl q k0 v r IHr]; [done|]. rewrite ptrs_bin. intros (Hq & Hlr)%NoDup_cons. apply NoDup_app in Hlr as (Hl & Hd & Hr).
  rewrite elem_of_app in Hq. cbn [plink]. intros [(-> & -> & -> & ->)|[H|H]] [(E & -> & -> & ->)|[H'|H']]; try done; subst.
  - exfalso. apply Hq. left. by eapply plink_ptrs.
  - exfalso. apply Hq. right. by eapply plink_ptrs.
  - exfalso. apply Hq. left. by eapply plink_ptrs.
  - by apply IHl.
  - exfalso. eapply Hd; by eapply plink_ptrs.
  - exfalso. apply Hq. right. by eapply plink_ptrs.
  - exfalso. eapply Hd; by eapply plink_ptrs.
  - by apply IHr.
Qed.

Lemma linked_rep m t fl p k a b : map_rep m t fl -> linked m p k a b <-> plink t p k a b.
Proof.
  intros Hrep. rewrite plink_at. split.
  - intros (n & nl & nr & Hh & <- & <- & Hl & Hr & <- & <-). destruct (handle_rep m t fl n Hrep Hh) as (path & l & p & k & v & r & E & ->).
    exists path, l, v, r. split; [done|]. pose proof (tat_readable m path t (rep_readable _ _ _ Hrep)) as Hread. rewrite E in Hread.
    unfold node_left, node_right in Hl, Hr. cbn [nd_inner n_left n_right] in Hl, Hr.
    rewrite (opt_node_ret m l) in Hl by (by eapply readable_l). rewrite (opt_node_ret m r) in Hr by (by eapply readable_r).
    injection Hl as <-. injection Hr as <-. by destruct l, r.
  - intros (path & l & v & r & E & -> & ->). pose proof (tat_readable m path t (rep_readable _ _ _ Hrep)) as Hread. rewrite E in Hread.
    exists (mkNode p (mkInner k v (rootp l) (rootp r))), (node_of l), (node_of r). split_and!; try done.
    + exists path, (node_of t). split; [by eapply map_root_ret|]. rewrite (walk_eq m path t) by (by eapply rep_readable). by rewrite E.
    + unfold node_left. cbn. apply opt_node_ret. by eapply readable_l.
    + unfold node_right. cbn. apply opt_node_ret. by eapply readable_r.
    + by destruct l.
    + by destruct r.
Qed.

Lemma linked_fun e m p k a b k' a' b' : reachable e m -> linked m p k a b -> linked m p k' a' b' -> k = k' /\ a = a' /\ b = b'.
Proof.
  intros (t & fl & Hrep)%reachable_rep. rewrite !(linked_rep _ _ _ _ _ _ _ Hrep). apply plink_fun. by eapply rep_nodup.
Qed.

Lemma root_rep m t fl a : map_rep m t fl -> root_at m a <-> a = rootp t.
Proof.
  intros Hrep. unfold root_at. rewrite (map_root_ret _ _ _ Hrep). split.
  - intros (r & [= <-] & <-). by destruct t.
  - intros ->. exists (node_of t). split; [done|]. by destruct t.
Qed.

(** ** Insertion *)
Lemma tins_links o k v q t : forall i t', tins o i k v q t = Ret (t', None) ->
  plink t' q k None None /\
  ((t = Leaf /\ t' = Bin Leaf q k v Leaf) \/
   (rootp t' = rootp t /\ exists p k' a b a' b', plink t p k' a b /\ plink t' p k' a' b' /\
     ((a = None /\ a' = Some q /\ b' = b) \/ (b = None /\ b' = Some q /\ a' = a)) /\
     forall x z c d, x <> p -> x <> q -> plink t x z c d <-> plink t' x z c d)).
Proof.
  induction t as [|l IHl p k0 v0 r IHr]; intros i t'; cbn [tins].
  { intros [= <-]. split; [by left|by left]. }
  unfold ask. destruct (o i k0) as [[]|]; cbn [rbind]; [done| | |done].
  - destruct (tins o (S i) k v q l) as [[l' y]| | | |] eqn:Hi; cbn; try done. intros [= <- ->].
    destruct (IHl _ _ Hi) as (Hq & Hc). split; [cbn; auto|]. right. split; [done|]. destruct Hc as [[-> ->]|(Hroot & p1 & z1 & a & b & a' & b' & H1 & H2 & H3 & H4)].
    + exists p, k0, None, (rootp r), (Some q), (rootp r). split_and!; [by left|by left|by left|]. intros x z c d Hp Hxq. cbn. tauto.
    + exists p1, z1, a, b, a', b'. split_and!; [cbn; auto|cbn; auto|done|]. intros x z c d Hp Hxq. cbn [plink]. rewrite Hroot, (H4 x z c d Hp Hxq). done.
  - destruct (tins o (S i) k v q r) as [[r' y]| | | |] eqn:Hi; cbn; try done. intros [= <- ->].
    destruct (IHr _ _ Hi) as (Hq & Hc). split; [cbn; auto|]. right. split; [done|]. destruct Hc as [[-> ->]|(Hroot & p1 & z1 & a & b & a' & b' & H1 & H2 & H3 & H4)].
    + exists p, k0, (rootp l), None, (rootp l), (Some q). split_and!; [by left|by left|by right|]. intros x z c d Hp Hxq. cbn. tauto.
    + exists p1, z1, a, b, a', b'. split_and!; [cbn; auto|cbn; auto|done|]. intros x z c d Hp Hxq. cbn [plink]. rewrite Hroot, (H4 x z c d Hp Hxq). done.
Qed.

Lemma tins_replaced o k v q t : forall i t' w, tins o i k v q t = Ret (t', Some w) ->
  rootp t' = rootp t /\ forall x z c d, plink t x z c d <-> plink t' x z c d.
Proof.
  induction t as [|l IHl p k0 v0 r IHr]; intros i t' w; cbn [tins]; [done|].
  unfold ask. destruct (o i k0) as [[]|]; cbn [rbind]; [| | |done].
  - intros [= <- <-]. done.
  - destruct (tins o (S i) k v q l) as [[l' y]| | | |] eqn:Hi; cbn; try done. intros [= <- ->].
    destruct (IHl _ _ _ Hi) as [Hr H]. split; [done|]. intros x z c d. cbn [plink]. by rewrite Hr, H.
  - destruct (tins o (S i) k v q r) as [[r' y]| | | |] eqn:Hi; cbn; try done. intros [= <- ->].
    destruct (IHr _ _ _ Hi) as [Hr H]. split; [done|]. intros x z c d. cbn [plink]. by rewrite Hr, H.
Qed.

(** ** Removal *)
Lemma tmin_links l : forall p k v r x u, tmin l p k v r = (x, u) ->
  (l = Leaf /\ x.1 = p /\ u = r) \/
  (rootp u = Some p /\ exists w, forall y z c d, y <> x.1 -> y <> w -> plink (Bin l p k v r) y z c d <-> plink u y z c d).
Proof.
  induction l as [|ll IHll lp lk lv lr _]; intros p k v r x u; cbn [tmin]; [intros [= <- <-]; by left|].
  destruct (tmin ll lp lk lv lr) as [x' l'] eqn:E. intros [= <- <-]. right. split; [done|].
  destruct (IHll _ _ _ _ _ _ E) as [(-> & Hx & ->)|(Hroot & w & Hw)].
  - exists p. intros y z c d Hy Hp. rewrite Hx in Hy. cbn. tauto.
  - exists w. intros y z c d Hy Hyw. specialize (Hw y z c d Hy Hyw).
    change (plink (Bin (Bin ll lp lk lv lr) p k v r) y z c d) with
      ((y = p /\ z = k /\ c = Some lp /\ d = rootp r) \/ plink (Bin ll lp lk lv lr) y z c d \/ plink r y z c d).
    rewrite Hw. cbn [plink]. by rewrite Hroot.
Qed.

Lemma tjoin_links l p k v r : exists ps, length ps <= 2 /\
  forall y z c d, y <> p -> y ∉ ps -> plink (Bin l p k v r) y z c d <-> plink (tjoin l r) y z c d.
Proof.
  destruct l as [|ll lp lk lv lr].
  { exists []. split; [cbn; lia|]. intros y z c d Hy _. cbn. tauto. }
  destruct r as [|rl rp rk rv rr].
  { exists []. split; [cbn; lia|]. intros y z c d Hy _. cbn. tauto. }
  cbn [tjoin]. destruct (tmin rl rp rk rv rr) as [[mp [mk mv]] r'] eqn:E.
  destruct (tmin_links _ _ _ _ _ _ _ E) as [(-> & Hx & ->)|(Hroot & w & Hw)]; cbn [fst] in *.
  - exists [mp]. split; [cbn; lia|]. intros y z c d Hy Hn. rewrite not_elem_of_cons in Hn. subst mp. cbn. naive_solver.
  - exists [mp; w]. split; [cbn; lia|]. intros y z c d Hy Hn. rewrite !not_elem_of_cons in Hn. destruct Hn as (H1 & H2 & _).
    specialize (Hw y z c d H1 H2). remember (Bin ll lp lk lv lr) as l0. remember (Bin rl rp rk rv rr) as r0. cbn [plink]. rewrite Hw. naive_solver.
Qed.

Lemma trem_links o t : forall i t' q x, trem o i t = Ret (t', Some (q, x)) ->
  (rootp t = Some q /\ exists ps, length ps <= 2 /\ forall y z c d, y <> q -> y ∉ ps -> plink t y z c d <-> plink t' y z c d) \/
  (rootp t' = rootp t /\ exists ps, length ps <= 3 /\ forall y z c d, y <> q -> y ∉ ps -> plink t y z c d <-> plink t' y z c d).
Proof.
  induction t as [|l IHl p k v r IHr]; intros i t' q x; cbn [trem]; [done|].
  unfold ask. destruct (o i k) as [[]|]; cbn [rbind]; [| | |done].
  - intros [= <- -> <-]. left. split; [done|]. apply tjoin_links.
  - destruct (trem o (S i) l) as [[l' y]| | | |] eqn:Hi; cbn; try done. intros [= <- ->]. right. split; [done|].
    destruct (IHl _ _ _ _ Hi) as [(Hroot & ps & Hn & H)|(Hroot & ps & Hn & H)].
    + exists (p :: ps). split; [cbn; lia|]. intros y z c d Hy [Hp Hps]%not_elem_of_cons. cbn [plink]. rewrite (H y z c d Hy Hps). tauto.
    + exists ps. split; [done|]. intros y z c d Hy Hps. cbn [plink]. rewrite Hroot, (H y z c d Hy Hps). tauto.
  - destruct (trem o (S i) r) as [[r' y]| | | |] eqn:Hi; cbn; try done. intros [= <- ->]. right. split; [done|].
    destruct (IHr _ _ _ _ Hi) as [(Hroot & ps & Hn & H)|(Hroot & ps & Hn & H)].
    + exists (p :: ps). split; [cbn; lia|]. intros y z c d Hy [Hp Hps]%not_elem_of_cons. cbn [plink]. rewrite (H y z c d Hy Hps). tauto.
    + exists ps. split; [done|]. intros y z c d Hy Hps. cbn [plink]. rewrite Hroot, (H y z c d Hy Hps). tauto.
Qed.

(** ** Calls *)
Lemma pshape_links t t' : pshape t' = pshape t -> rootp t' = rootp t /\ forall p k a b, plink t p k a b <-> plink t' p k a b.
Proof.
  revert t'. induction t as [|l IHl p k v r IHr]; intros [|l' p' k' v' r']; cbn [pshape]; try done.
  intros [= Hl -> -> Hr]. split; [done|]. intros q z a b. cbn [plink].
  destruct (IHl _ Hl) as [El Hl']. destruct (IHr _ Hr) as [Er Hr']. by rewrite El, Er, Hl', Hr'.
Qed.

Lemma rep_links m t fl m' t' fl' : map_rep m t fl -> map_rep m' t' fl' -> rootp t' = rootp t ->
  (forall p k a b, plink t p k a b <-> plink t' p k a b) -> same_links m m'.
Proof.
  intros Hrep Hrep' Hroot H. split.
  - intros x z c d _. rewrite (linked_rep _ _ _ _ _ _ _ Hrep), (linked_rep _ _ _ _ _ _ _ Hrep'). apply H.
  - intros a. rewrite (root_rep _ _ _ _ Hrep), (root_rep _ _ _ _ Hrep'). by rewrite Hroot.
Qed.

Lemma shape_links m t fl m' t' fl' : map_rep m t fl -> map_rep m' t' fl' -> pshape t' = pshape t -> same_links m m'.
Proof. intros H H' [Hr Hl]%pshape_links. by eapply rep_links. Qed.

Lemma insert_hangs e m t fl o k v m' : map_rep m t fl -> exec e (OInsert o k v) m = (Ret (OutValue None), m') ->
  exists q, hung q k m m'.
Proof.
  intros Hrep He. pose proof (exec_cases e (OInsert o k v) _ _ _ Hrep) as H. rewrite He in H.
  destruct H as (t' & fl' & Hrep' & (q & y & Ht & Hq & [= <-]) & _). specialize (Hq eq_refl). exists q.
  destruct (tins_links _ _ _ _ _ _ _ Ht) as (Hnew & Hc). unfold hung, relinked.
  split; [intros z a b; rewrite (linked_rep _ _ _ _ _ _ _ Hrep); by intros ?%plink_ptrs|].
  split; [by rewrite (linked_rep _ _ _ _ _ _ _ Hrep')|]. destruct Hc as [[-> ->]|(Hroot & p & z1 & a & b & a' & b' & H1 & H2 & H3 & H4)].
  - left. rewrite (root_rep _ _ _ _ Hrep), (root_rep _ _ _ _ Hrep'). split_and!; try done. intros p z a b Hp.
    rewrite (linked_rep _ _ _ _ _ _ _ Hrep), (linked_rep _ _ _ _ _ _ _ Hrep'). cbn. set_solver.
  - right. exists p, z1, a, b, a', b'. rewrite (linked_rep _ _ _ _ _ _ _ Hrep), (linked_rep _ _ _ _ _ _ _ Hrep'). split_and!; try done.
    + intros x. rewrite (root_rep _ _ _ _ Hrep), (root_rep _ _ _ _ Hrep'). by rewrite Hroot.
    + intros x z c d Hx. rewrite (linked_rep _ _ _ _ _ _ _ Hrep), (linked_rep _ _ _ _ _ _ _ Hrep'). apply H4; set_solver.
Qed.

Lemma trem_cut o i t t' q k v m fl m' fl' : map_rep m t fl -> map_rep m' t' fl' -> trem o i t = Ret (t', Some (q, (k, v))) ->
  (exists a b, linked m q k a b) /\ cut q 3 m m'.
Proof.
  intros Hrep Hrep' Ht. pose proof (trem_perm _ _ _ _ _ Ht) as Hp. pose proof (rep_nodup _ _ _ Hrep) as Hnd.
  assert (Hptrs : q :: ptrs t' ≡ₚ ptrs t).
  { rewrite <- !ppre_fst. exact (fmap_Permutation fst _ _ Hp). }
  split; [|split; [|split]].
  - destruct (entry_plink t q k v) as (a & b & H); [rewrite <- Hp; by left|]. exists a, b. by rewrite (linked_rep _ _ _ _ _ _ _ Hrep).
  - intros z a b. rewrite (linked_rep _ _ _ _ _ _ _ Hrep'). intros H%plink_ptrs. rewrite <- Hptrs in Hnd. by apply NoDup_cons in Hnd as [? _].
  - intros p z Hpq. split; intros (a & b & H).
    + rewrite (linked_rep _ _ _ _ _ _ _ Hrep) in H. apply plink_entry in H as (w & H). rewrite <- Hp in H.
      apply elem_of_cons in H as [[= -> _ _]|H]; [done|]. apply entry_plink in H as (c & d & H). exists c, d. by rewrite (linked_rep _ _ _ _ _ _ _ Hrep').
    + rewrite (linked_rep _ _ _ _ _ _ _ Hrep') in H. apply plink_entry in H as (w & H).
      destruct (entry_plink t p z w) as (c & d & H'); [rewrite <- Hp; by right|]. exists c, d. by rewrite (linked_rep _ _ _ _ _ _ _ Hrep).
  - destruct (trem_links _ _ _ _ _ _ Ht) as [(_ & ps & Hn & H)|(_ & ps & Hn & H)]; (exists ps; split; [lia|]);
      intros y z c d [Hy Hps]%not_elem_of_cons; rewrite (linked_rep _ _ _ _ _ _ _ Hrep), (linked_rep _ _ _ _ _ _ _ Hrep'); by apply H.
Qed.

Lemma remove_entry_cuts e m t fl o k v m' : map_rep m t fl -> exec e (ORemoveEntry o) m = (Ret (OutEntry (Some (k, v))), m') -> exists q, (exists a b, linked m q k a b) /\ cut q 3 m m'.
Proof.
  intros Hrep He. pose proof (exec_cases e (ORemoveEntry o) _ _ _ Hrep) as H. rewrite He in H.
  destruct H as (t' & fl' & Hrep' & (y & Ht & E) & _). destruct y as [[q [k' v']]|]; [|done]. injection E as -> ->. exists q. by eapply trem_cut.
Qed.

Lemma remove_cuts e m t fl o v m' : map_rep m t fl -> exec e (ORemove o) m = (Ret (OutValue (Some v)), m') -> exists q k, (exists a b, linked m q k a b) /\ cut q 3 m m'.
Proof.
  intros Hrep He. pose proof (exec_cases e (ORemove o) _ _ _ Hrep) as H. rewrite He in H.
  destruct H as (t' & fl' & Hrep' & (y & Ht & E) & _). destruct y as [[q [k' v']]|]; [|done]. exists q, k'. by eapply trem_cut.
Qed.

Lemma call_links e c m t fl (r : res (out K V)) m' : map_rep m t fl -> exec e c m = (r, m') -> may_relink c r = false -> same_links m m'.
Proof.
  intros Hrep He Hn. pose proof (exec_cases e c _ _ _ Hrep) as H. rewrite He in H. destruct r as [x|p| |u|]; try done.
  - destruct H as (t' & fl' & Hrep' & Ht & _). destruct c; cbn [tstep] in Ht; cbn [may_relink] in Hn; try done.
    + destruct Ht as (q & y & Ht & _ & ->). destruct y as [w|]; [|done]. destruct (tins_replaced _ _ _ _ _ _ _ _ Ht). by eapply rep_links.
    + destruct Ht as (y & Ht & ->). destruct y as [y|]; [done|]. apply trem_perm in Ht as ->. by eapply shape_links.
    + destruct Ht as (y & Ht & ->). destruct y as [y|]; [done|]. apply trem_perm in Ht as ->. by eapply shape_links.
    + destruct Ht as (y & _ & -> & _). by eapply shape_links.
    + destruct Ht as (y & _ & -> & _). by eapply shape_links.
    + destruct Ht as (y & _ & -> & _). by eapply shape_links.
    + destruct Ht as (y & _ & _ & ->). eapply shape_links; [done..|]. destruct y, w; try done. apply pshape_tset.
    + destruct Ht as (y & _ & _ & ->). eapply shape_links; [done..|]. destruct y, w; try done. apply pshape_tset.
    + destruct Ht as [-> _]. by eapply shape_links.
    + destruct Ht as [-> _]. by eapply shape_links.
    + destruct Ht as [-> _]. by eapply shape_links.
    + destruct Ht as [-> _]. by eapply shape_links.
    + destruct Ht as [-> _]. by eapply shape_links.
    + destruct Ht as [-> _]. by eapply shape_links.
    + destruct Ht as [Hs _]. by eapply shape_links.
    + destruct Ht as [-> _]. by eapply shape_links.
    + destruct Ht as [Hs _]. by eapply shape_links.
    + destruct Ht as [-> _]. by eapply shape_links.
  - destruct H as (t' & fl' & Hrep' & Ht & _). destruct c; cbn [tstop] in Ht; cbn [may_relink] in Hn; try done;
      destruct Ht as [-> _]; by eapply shape_links.
  - destruct H as (t' & fl' & Hrep' & Ht & _). destruct c; cbn [tstop] in Ht; cbn [may_relink] in Hn; try done;
      destruct Ht as [-> _]; by eapply shape_links.
Qed.
End links.

Section public.
Context {K V : Type}.
Implicit Types m : bstmap K V.

Lemma map_insert_hangs e m o k v m' : reachable e m -> exec e (OInsert o k v) m = (Ret (OutValue None), m') -> exists q, hung q k m m'.
Proof. intros (t & fl & H)%reachable_rep. by eapply insert_hangs. Qed.
Lemma map_remove_entry_cuts e m o k v m' : reachable e m -> exec e (ORemoveEntry o) m = (Ret (OutEntry (Some (k, v))), m') -> exists q, (exists a b, linked m q k a b) /\ cut q 3 m m'.
Proof. intros (t & fl & H)%reachable_rep. by eapply remove_entry_cuts. Qed.
Lemma map_remove_cuts e m o v m' : reachable e m -> exec e (ORemove o) m = (Ret (OutValue (Some v)), m') -> exists q k, (exists a b, linked m q k a b) /\ cut q 3 m m'.
Proof. intros (t & fl & H)%reachable_rep. by eapply remove_cuts. Qed.
Lemma map_call_links e (c : op K V) m r m' : reachable e m -> exec e c m = (r, m') -> may_relink c r = false -> same_links m m'.
Proof. intros (t & fl & H)%reachable_rep. by eapply call_links. Qed.
End public.

Section sets.
Context {T : Type}.
Implicit Types m : bstset T.

Lemma set_insert_hangs e m o x m' : set_reachable e m -> set_exec e (SetInsert o x) m = (Ret (SetBool true), m') -> exists q, hung q x m m'.
Proof.
  intros [_ (t & fl & H)]%set_reachable_rep He. destruct (set_exec_inv _ _ _ _ _ _ _ H He) as (r & Hx & Hr).
  destruct r as [y|p| |u|]; try done. pose proof (exec_cases e (OInsert o x tt) _ _ _ H) as Hc. cbn [to_map] in Hx. rewrite Hx in Hc.
  destruct Hc as (t' & fl' & _ & (q & y' & _ & _ & ->) & _). destruct y'; [done|]. by eapply insert_hangs.
Qed.

Lemma set_remove_cuts e m o m' : set_reachable e m -> set_exec e (SetRemove o) m = (Ret (SetBool true), m') -> exists q k, (exists a b, linked m q k a b) /\ cut q 3 m m'.
Proof.
  intros [_ (t & fl & H)]%set_reachable_rep He. destruct (set_exec_inv _ _ _ _ _ _ _ H He) as (r & Hx & Hr).
  destruct r as [y|p| |u|]; try done. pose proof (exec_cases e (ORemove o) _ _ _ H) as Hc. cbn [to_map] in Hx. rewrite Hx in Hc.
  destruct Hc as (t' & fl' & _ & (y' & _ & ->) & _). destruct y'; [|done]. by eapply remove_cuts.
Qed.

Lemma set_take_cuts e m o x m' : set_reachable e m -> set_exec e (SetTake o) m = (Ret (SetValue (Some x)), m') -> exists q, (exists a b, linked m q x a b) /\ cut q 3 m m'.
Proof.
  intros [_ (t & fl & H)]%set_reachable_rep He. destruct (set_exec_inv _ _ _ _ _ _ _ H He) as (r & Hx & Hr).
  destruct r as [y|p| |u|]; try done. pose proof (exec_cases e (ORemoveEntry o) _ _ _ H) as Hc. cbn [to_map] in Hx. rewrite Hx in Hc.
  destruct Hc as (t' & fl' & _ & (y' & _ & ->) & _). destruct y' as [[q [k []]]|]; [|done]. cbn in Hr. injection Hr as ->. by eapply remove_entry_cuts.
Qed.

Lemma set_call_links e (c : set_op T) m r m' : set_reachable e m -> set_exec e c m = (r, m') -> set_may_relink c r = false -> same_links m m'.
Proof.
  intros [_ (t & fl & H)]%set_reachable_rep He Hn. destruct (set_exec_inv _ _ _ _ _ _ _ H He) as (r0 & Hx & ->).
  eapply call_links; [exact H|exact Hx|]. pose proof (exec_cases e (to_map c) _ _ _ H) as Hc. rewrite Hx in Hc.
  destruct r0 as [y|p| |u|]; try done; [|by destruct c..]. destruct Hc as (t' & fl' & _ & Ht & _).
  destruct c; cbn [to_map tstep] in *; try done.
  - destruct Ht as (q & y' & _ & _ & ->). by destruct y'.
  - destruct Ht as (y' & _ & ->). by destruct y'.
  - destruct Ht as (y' & _ & ->). by destruct y'.
Qed.
End sets.
