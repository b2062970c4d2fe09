(** * The map refines the search tree with an arbitrary comparator *)

From Verif Require Export SpecOracle ProofObs.

Section oracle.
Context {K V : Type}.
Implicit Types t : ptree K V.
Implicit Types m : bstmap K V.

Lemma tget_otree (o : oracle K) t : forall i,
  match tget o i t with
  | Ret y => otree_find o i (erase t) = Some (snd <$> y)
  | Panic p => p = PCmp /\ otree_find o i (erase t) = None
  | _ => False
  end.
Proof.
  induction t as [|l IHl p k v r IHr]; intros i; simpl; [done|]. unfold ask.
  destruct (o i k) as [[]|]; simpl; [done|apply IHl|apply IHr|done].
Qed.

Lemma tins_otree (o : oracle K) k v q t : forall i,
  match tins o i k v q t with
  | Ret (t', y) => otree_insert o i k v (erase t) = Some (erase t', y)
  | Panic p => p = PCmp /\ otree_insert o i k v (erase t) = None
  | _ => False
  end.
Proof.
  induction t as [|l IHl p k' v' r IHr]; intros i; simpl; [done|]. unfold ask.
  destruct (o i k') as [[]|]; simpl; [done| | |done].
  - specialize (IHl (S i)). destruct (tins o (S i) k v q l) as [[t' y]|p'| |u|]; simpl; try done.
    + by rewrite IHl.
    + destruct IHl as [-> ->]. done.
  - specialize (IHr (S i)). destruct (tins o (S i) k v q r) as [[t' y]|p'| |u|]; simpl; try done.
    + by rewrite IHr.
    + destruct IHr as [-> ->]. done.
Qed.

Lemma trem_otree (o : oracle K) t : forall i,
  match trem o i t with
  | Ret (t', y) => otree_remove o i (erase t) = Some (erase t', snd <$> y)
  | Panic p => p = PCmp /\ otree_remove o i (erase t) = None
  | _ => False
  end.
Proof.
  induction t as [|l IHl p k' v' r IHr]; intros i; simpl; [done|]. unfold ask.
  destruct (o i k') as [[]|]; simpl; [by rewrite tjoin_erase| | |done].
  - specialize (IHl (S i)). destruct (trem o (S i) l) as [[t' y]|p'| |u|]; simpl; try done.
    + by rewrite IHl.
    + destruct IHl as [-> ->]. done.
  - specialize (IHr (S i)). destruct (trem o (S i) r) as [[t' y]|p'| |u|]; simpl; try done.
    + by rewrite IHr.
    + destruct IHr as [-> ->]. done.
Qed.

(** Writing through the pointer that a search found. *)
Lemma tset_otree (o : oracle K) w t : NoDup (ptrs t) -> forall i y, tget o i t = Ret (Some y) ->
  erase (tset y.1 w t) = otree_set o i w (erase t).
Proof.
  induction t as [|l IHl p k v r IHr]; intros Hnd i y; simpl; [done|].
  rewrite ptrs_bin in Hnd. apply NoDup_cons in Hnd as [Hp Hnd]. apply NoDup_app in Hnd as (Hl & Hlr & Hr).
  unfold ask. destruct (o i k) as [[]|]; simpl; [| | |done]; intros Hy.
  - injection Hy as <-. simpl. rewrite !tset_not_in by set_solver. by rewrite decide_True.
  - pose proof (tget_in _ _ _ _ Hy) as Hin.
    assert (Hyl : y.1 ∈ ptrs l) by (rewrite <- ppre_fst; by apply elem_of_list_fmap_1).
    rewrite (IHl Hl _ _ Hy), (tset_not_in _ _ r) by (by apply Hlr).
    rewrite decide_False; [done|]. intros ->. apply Hp, elem_of_app. by left.
  - pose proof (tget_in _ _ _ _ Hy) as Hin.
    assert (Hyl : y.1 ∈ ptrs r) by (rewrite <- ppre_fst; by apply elem_of_list_fmap_1).
    rewrite (IHr Hr _ _ Hy), (tset_not_in _ _ l) by (intros Hc; by apply (Hlr y.1)).
    rewrite decide_False; [done|]. intros ->. apply Hp, elem_of_app. by right.
Qed.

Lemma otree_set_idle (o : oracle K) w (t : tree K V) : forall i,
  match otree_find o i t with Some (Some _) => True | _ => otree_set o i w t = t end.
Proof.
  induction t as [|l IHl k v r IHr]; intros i; simpl; [done|].
  destruct (o i k) as [[]|]; try done.
  - specialize (IHl (S i)). destruct (otree_find o (S i) l) as [[|]|]; [done| |]; by rewrite IHl.
  - specialize (IHr (S i)). destruct (otree_find o (S i) r) as [[|]|]; [done| |]; by rewrite IHr.
Qed.

Lemma ins_rel_otree os items : forall j t t', ins_rel os j items t t' ->
  otree_insert_all os j items (erase t) = (erase t', true).
Proof.
  induction items as [|[k v] items IH]; intros j t t'; simpl; [by intros ->|].
  intros (q & t1 & r & Hi & _ & Hrel). pose proof (tins_otree (os j k) k v q t 0) as H. rewrite Hi in H. rewrite H.
  by apply IH.
Qed.

Lemma otree_insert_all_app os items1 items2 : forall j (t t' : tree K V), otree_insert_all os j items1 t = (t', true) ->
  otree_insert_all os j (items1 ++ items2) t = otree_insert_all os (j + length items1) items2 t'.
Proof.
  induction items1 as [|[k v] items IH]; intros j t t'; simpl.
  - intros [= <-]. by rewrite Nat.add_0_r.
  - destruct (otree_insert (os j k) 0 k v t) as [[t1 y]|]; [|done]. intros H. rewrite (IH _ _ _ H). f_equal. lia.
Qed.

(** [extend] that stopped at item [n] because a comparison panicked. *)
Lemma otree_insert_all_stop os items n k v j (t t' : tree K V) : otree_insert_all os j (take n items) t = (t', true) ->
  items !! n = Some (k, v) -> otree_insert (os (j + n) k) 0 k v t' = None ->
  otree_insert_all os j items t = (t', false).
Proof.
  intros H Hn Hp. pose proof (lookup_lt_Some _ _ _ Hn).
  rewrite <- (take_drop_middle items n (k, v) Hn), (otree_insert_all_app _ _ _ _ _ _ H). simpl.
  rewrite take_length, Nat.min_l by lia. by rewrite Hp.
Qed.

Lemma tstep_otree c t x t' : NoDup (ptrs t) -> tstep c t x t' -> otree_step (erase t) c (Ret x) (erase t').
Proof.
  intros Hnd. unfold otree_step.
  destruct c as [o k v|o|o|o|o|o|o w|o w| | | | |n| |os it|d n|d evs|path|path w| |os ck cv]; cbn [tstep otree_call otree_other].
  - intros (q & r & Hi & _ & ->). pose proof (tins_otree o k v q t 0) as H. rewrite Hi in H. left. rewrite H. done.
  - intros (y & Hi & ->). pose proof (trem_otree o t 0) as H. rewrite Hi in H. left. rewrite H. simpl. by destruct y.
  - intros (y & Hi & ->). pose proof (trem_otree o t 0) as H. rewrite Hi in H. left. rewrite H. done.
  - intros (y & Hi & -> & ->). pose proof (tget_otree o t 0) as H. rewrite Hi in H. left. rewrite H. simpl. by destruct y.
  - intros (y & Hi & -> & ->). pose proof (tget_otree o t 0) as H. rewrite Hi in H. left. rewrite H. done.
  - intros (y & Hi & -> & ->). pose proof (tget_otree o t 0) as H. rewrite Hi in H. left. rewrite H. simpl. by destruct y.
  - intros (y & Hi & -> & ->). pose proof (tget_otree o t 0) as H. rewrite Hi in H. left. rewrite H. simpl.
    destruct w as [w|].
    + pose proof (otree_set_idle o w (erase t) 0) as Hid. rewrite H in Hid. destruct y as [y|]; simpl in *.
      * by rewrite (tset_otree o w t Hnd 0 y Hi).
      * by rewrite Hid.
    + by destruct y.
  - intros (y & Hi & -> & ->). pose proof (tget_otree o t 0) as H. rewrite Hi in H. left. rewrite H. simpl.
    destruct w as [w|].
    + pose proof (otree_set_idle o w (erase t) 0) as Hid. rewrite H in Hid. destruct y as [y|]; simpl in *.
      * by rewrite (tset_otree o w t Hnd 0 y Hi).
      * by rewrite Hid.
    + by destruct y.
  - intros [-> ->]. left. by rewrite erase_size.
  - intros [-> ->]. left. by destruct t.
  - intros [-> [n ->]]. right. left. split; [done|]. by exists n.
  - intros [-> ->]. by left.
  - intros [-> ->]. by left.
  - intros [-> ->]. by left.
  - intros (Hp & Hr & ->). left. rewrite (ins_rel_otree _ _ _ _ _ Hr). simpl. by rewrite Hp.
  - intros [-> ->]. by left.
  - intros [Hs Hw]. right. left. split; [by rewrite <- !pshape_erase, Hs|].
    destruct (mut_walk (tree_order d (erase t)) 0 0 evs) as [[l' n] z]. destruct Hw as [? ->]. done.
  - intros [-> ->]. by left.
  - intros (Hs & -> & ->). by left.
  - intros [-> ->]. by left.
  - intros (Hc & -> & Hr). left. rewrite ppre_erase in Hc, Hr.
    rewrite Hc. apply ins_rel_otree in Hr. simpl in Hr. by rewrite Hr.
Qed.

Lemma tstop_otree e c m t r t' : tstop e c m t r t' -> otree_step (erase t) c (res_of r) (erase t').
Proof.
  unfold otree_step.
  destruct c as [o k v|o|o|o|o|o|o w|o w| | | | |n| |os it|d n|d evs|path|path w| |os ck cv];
    cbn [tstop otree_call otree_other otree_refused]; try done.
  - intros [-> [[-> Hp]|[Ha _]]].
    + left. pose proof (tins_otree o k v (0, 0)%N t 0) as H. rewrite (Hp (0, 0)%N) in H. by rewrite (proj2 H).
    + right. right. split; [by apply alloc_fail_refused|done].
  - intros (-> & -> & Hp). left. pose proof (trem_otree o t 0) as H. rewrite Hp in H. by rewrite (proj2 H).
  - intros (-> & -> & Hp). left. pose proof (trem_otree o t 0) as H. rewrite Hp in H. by rewrite (proj2 H).
  - intros (-> & -> & Hp). left. pose proof (tget_otree o t 0) as H. rewrite Hp in H. by rewrite (proj2 H).
  - intros (-> & -> & Hp). left. pose proof (tget_otree o t 0) as H. rewrite Hp in H. by rewrite (proj2 H).
  - intros (-> & -> & Hp). left. pose proof (tget_otree o t 0) as H. rewrite Hp in H. by rewrite (proj2 H).
  - intros (-> & -> & Hp). left. pose proof (tget_otree o t 0) as H. rewrite Hp in H. rewrite (proj2 H).
    destruct w as [w|]; [|done]. pose proof (otree_set_idle o w (erase t) 0) as Hid. rewrite (proj2 H) in Hid. by rewrite Hid.
  - intros (-> & -> & Hp). left. pose proof (tget_otree o t 0) as H. rewrite Hp in H. rewrite (proj2 H).
    destruct w as [w|]; [|done]. pose proof (otree_set_idle o w (erase t) 0) as Hid. rewrite (proj2 H) in Hid. by rewrite Hid.
  - intros [-> Hw]. right. right. split; [|done]. destruct Hw as [Ha|(-> & _)]; [left; by apply alloc_fail_refused|by right].
  - intros [[-> Hw]|(n & cap & Hr & Hs)].
    + right. right. split; [|by exists 0]. destruct Hw as [Ha|(-> & _)]; [left; by apply alloc_fail_refused|by right].
    + apply ins_rel_otree in Hr. destruct Hs as [(-> & Hp & ->)|(k & v & Hn & [[-> Hp]|[Ha _]])].
      * left. rewrite take_ge in Hr by done. rewrite Hr. simpl. by rewrite Hp.
      * left. pose proof (tins_otree (os (0 + n) k) k v (0, 0)%N t' 0) as H. rewrite (Hp (0, 0)%N) in H.
        rewrite (otree_insert_all_stop _ _ _ _ _ _ _ _ Hr Hn (proj2 H)). done.
      * right. right. split; [left; by apply alloc_fail_refused|]. by exists n.
  - intros [-> Hw]. destruct r as [p|]; [|right; right; split; [right; by right|done]].
    destruct Hw as (_ & _ & [Ha|(t1 & Hw)]); [right; right; split; [by apply alloc_fail_refused|done]|]. left.
    unfold clone_stop in Hw. rewrite ppre_erase in Hw. destruct Hw as [([= ->] & Hc & Hr)|([= ->] & n & k & v & Hn & Hr & Hp)].
    + apply ins_rel_otree in Hr. simpl in Hr. by rewrite Hr, Hc.
    + apply ins_rel_otree in Hr. simpl in Hr. pose proof (tins_otree (os (0 + n) k) k v (0, 0)%N t1 0) as H.
      rewrite (Hp (0, 0)%N) in H. by rewrite (otree_insert_all_stop _ _ _ _ _ _ _ _ Hr Hn (proj2 H)).
Qed.

Theorem exec_otree e c m t fl r m' : map_rep m t fl -> exec e c m = (r, m') ->
  exists t' fl', map_rep m' t' fl' /\ otree_step (erase t) c r (erase t').
Proof.
  intros Hrep Hex. pose proof (exec_spec e c m t fl Hrep) as Hs. unfold wp in Hs. rewrite Hex in Hs.
  pose proof (rep_nodup _ _ _ Hrep) as Hnd.
  destruct r as [x|p| |u|]; try done.
  - destruct Hs as (t' & fl' & Hrep' & Hst & _). exists t', fl'. split; [done|]. by apply tstep_otree.
  - destruct Hs as (t' & fl' & Hrep' & Hst & _). exists t', fl'. split; [done|]. apply (tstop_otree e c m t (Some p) t' Hst).
  - destruct Hs as (t' & fl' & Hrep' & Hst & _). exists t', fl'. split; [done|]. apply (tstop_otree e c m t None t' Hst).
Qed.

(** ** One call, and histories *)

Lemma any_comparator_call e c m (t : tree K V) r m' : reachable e m -> shows m t -> exec e c m = (r, m') ->
  exists t' : tree K V, shows m' t' /\ otree_step t c r t'.
Proof.
  intros Hr Hs Hex. destruct (reachable_rep e m Hr) as (pt & fl & Hrep).
  rewrite (rep_shows_eq _ _ _ _ Hrep Hs). destruct (exec_otree e c m pt fl r m' Hrep Hex) as (pt' & fl' & Hrep' & Hst).
  exists (erase pt'). split; [by eapply rep_shows|done].
Qed.

Lemma run_otree e cs : forall m t fl rs m', map_rep m t fl -> run e cs m = (rs, m') ->
  exists t' fl', map_rep m' t' fl' /\ steps otree_step (erase t) cs rs (erase t').
Proof.
  induction cs as [|c cs IH]; intros m t fl rs m' Hrep Hrun; cbn [run] in Hrun.
  - injection Hrun as <- <-. exists t, fl. done.
  - destruct (exec e c m) as [r m1] eqn:He. pose proof (exec_rep e c m t fl r m1 Hrep He) as [Hd _].
    destruct (exec_otree e c m t fl r m1 Hrep He) as (t1 & fl1 & Hrep1 & Hs).
    destruct r as [x|p| |u|]; try done.
    + destruct (run e cs m1) as [rs1 m2] eqn:Hr. injection Hrun as <- <-.
      destruct (IH m1 t1 fl1 rs1 m2 Hrep1 Hr) as (t' & fl' & Hrep' & Hst). exists t', fl'. split; [done|].
      exists (erase t1). done.
    + destruct (run e cs m1) as [rs1 m2] eqn:Hr. injection Hrun as <- <-.
      destruct (IH m1 t1 fl1 rs1 m2 Hrep1 Hr) as (t' & fl' & Hrep' & Hst). exists t', fl'. split; [done|].
      exists (erase t1). done.
    + injection Hrun as <- <-. exists t1, fl1. split; [done|]. exists (erase t1). done.
Qed.

Lemma begin_otree e (s : start K V) m t fl : begin e s = (Ret tt, m) -> map_rep m t fl -> otree_start s (erase t).
Proof.
  intros Hb Hrep. pose proof (begin_rep e s) as H. rewrite Hb in H. destruct H as (t0 & fl0 & Hrep0 & _ & H).
  rewrite (rep_shows_eq _ _ _ _ Hrep0 (rep_shows _ _ _ Hrep)). destruct s as [|n|os it]; simpl.
  - by destruct H as [-> _].
  - by destruct H as [-> _].
  - destruct H as (Hp & Hr & _). split; [|done]. apply (ins_rel_otree _ _ _ _ _ Hr).
Qed.

Lemma any_comparator e (s : start K V) cs rs m : reached e s cs rs m ->
  exists t0 t : tree K V, otree_start s t0 /\ steps otree_step t0 cs rs t /\ shows m t /\ forall d, yields m d (tree_order d t).
Proof.
  intros (m0 & Hb & Hr). pose proof (begin_rep e s) as H. rewrite Hb in H. destruct H as (t & fl & Hrep & _ & _).
  destruct (run_otree e cs m0 t fl rs m Hrep Hr) as (t' & fl' & Hrep' & Hst).
  exists (erase t), (erase t'). split_and!; [by eapply begin_otree|done|by eapply rep_shows|].
  intros d. by eapply rep_yields.
Qed.

(** ** Insertion of lists *)

Lemma inserts_tree e os items : forall j m t fl rs m', map_rep m t fl ->
  run e (imap (fun i kv => OInsert (os (j + i) kv.1) kv.1 kv.2) items) m = (rs, m') -> returned_all rs ->
  exists t' fl', map_rep m' t' fl' /\ otree_insert_all os j items (erase t) = (erase t', true).
Proof.
  induction items as [|[k v] items IH]; intros j m t fl rs m' Hrep Hrun Hall.
  - injection Hrun as <- <-. exists t, fl. done.
  - rewrite imap_cons in Hrun. cbn [run] in Hrun. rewrite Nat.add_0_r in Hrun. cbn [fst snd] in Hrun.
    destruct (exec e (OInsert (os j k) k v) m) as [r m1] eqn:He.
    destruct (exec_otree e _ m t fl r m1 Hrep He) as (t1 & fl1 & Hrep1 & Hs).
    assert (Hr : exists x, r = Ret x).
    { destruct r; [eauto|..]; try (destruct (run e _ m1) in Hrun); injection Hrun as <- <-;
        apply Forall_cons in Hall as [[x Hx] _]; done. }
    destruct Hr as [x ->]. destruct (run e _ m1) as [rs1 m2] eqn:Hr in Hrun. injection Hrun as <- <-.
    apply Forall_cons in Hall as [_ Hall].
    assert (Hi : exists y, otree_insert (os j k) 0 k v (erase t) = Some (erase t1, y)).
    { destruct Hs as [Hs|[Hs|[[Hs|[Hs|Hs]] _]]]; try done. simpl in Hs.
      destruct (otree_insert (os j k) 0 k v (erase t)) as [[t0 y]|]; [|done]. injection Hs as _ ->. by exists y. }
    destruct Hi as [y Hi]. simpl. rewrite Hi. eapply (IH (S j) m1 t1 fl1 rs1); [done| |done].
    rewrite <- Hr. f_equal. apply imap_ext. intros i [k' v'] _. simpl. by rewrite Nat.add_succ_r.
Qed.

End oracle.
