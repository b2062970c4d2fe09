(** * Equality and clone of maps *)

From Verif Require Export ProofMapProps.

Section eq.
Context {K V : Type}.
Implicit Types m : bstmap K V.
Implicit Types l : list (K * V).
Variables (eqK : K -> K -> bool) (eqV : V -> V -> bool).

Definition eq_entry (x y : K * V) : Prop := eqK x.1 y.1 = true /\ eqV x.2 y.2 = true.

Lemma list_eqb_iff l1 : forall l2, list_eqb eqK eqV l1 l2 = true <-> Forall2 eq_entry l1 l2.
Proof.
  induction l1 as [|[k1 v1] l1 IH]; intros [|[k2 v2] l2]; simpl.
  - by split.
  - split; [done|]. intros H. inversion H.
  - split; [done|]. intros H. inversion H.
  - rewrite !andb_true_iff, IH. unfold eq_entry. rewrite Forall2_cons. done.
Qed.

Lemma map_eq_lists e e1 e2 m1 m2 l1 l2 : reachable e1 m1 -> reachable e2 m2 -> yields m1 In l1 -> yields m2 In l2 ->
  exists b, map_eq e eqK eqV m1 m2 = Ret b /\ (b = true <-> Forall2 eq_entry l1 l2).
Proof.
  intros (t1 & fl1 & Hr1)%reachable_rep (t2 & fl2 & Hr2)%reachable_rep Hl1 Hl2.
  apply (rep_yields_eq _ _ _ _ _ Hr1) in Hl1 as ->. apply (rep_yields_eq _ _ _ _ _ Hr2) in Hl2 as ->.
  eexists. split; [by eapply map_eq_spec|]. apply list_eqb_iff.
Qed.

(** *** Equality of contents *)
Section ordered.
Variable cmp : K -> K -> comparison.
Hypothesis Hlaw : lawful cmp.
Hypothesis HeqK : forall a b, eqK a b = true <-> cmp a b = Eq.

Definition included (l1 l2 : list (K * V)) : Prop := forall x, x ∈ l1 -> exists y, y ∈ l2 /\ eq_entry x y.
Definition included_r (l1 l2 : list (K * V)) : Prop := forall y, y ∈ l2 -> exists x, x ∈ l1 /\ eq_entry x y.

Lemma head_least x l y : sorted cmp (x :: l) -> y ∈ x :: l -> y = x \/ cmp x.1 y.1 = Lt.
Proof.
  rewrite sorted_cons. intros [_ Hf] [->|Hy]%elem_of_cons; [by left|right]. rewrite Forall_forall in Hf. by apply Hf.
Qed.

Lemma lt_eq_lt a b c : cmp a b = Lt -> cmp b c = Eq -> cmp a c = Lt.
Proof. intros H1 H2. rewrite <- H1. symmetry. by apply cmp_cong_r. Qed.

Lemma same_entries_pairs l1 : forall l2, sorted cmp l1 -> sorted cmp l2 ->
  (included l1 l2 /\ included_r l1 l2) <-> Forall2 eq_entry l1 l2.
Proof.
  intros l2 H1 H2. split.
  2:{ intros HF. split.
      - intros x Hx. induction HF as [|a b l1 l2 Hab HF IH]; [by apply elem_of_nil in Hx|].
        apply sorted_cons in H1 as [H1 _], H2 as [H2 _].
        apply elem_of_cons in Hx as [->|Hx]; [exists b; split; [left|done]|].
        destruct (IH H1 H2 Hx) as (y & Hy & Hxy). exists y. split; [by right|done].
      - intros y Hy. induction HF as [|a b l1 l2 Hab HF IH]; [by apply elem_of_nil in Hy|].
        apply sorted_cons in H1 as [H1 _], H2 as [H2 _].
        apply elem_of_cons in Hy as [->|Hy]; [exists a; split; [left|done]|].
        destruct (IH H1 H2 Hy) as (x & Hx & Hxy). exists x. split; [by right|done]. }
  revert l2 H1 H2. induction l1 as [|a l1 IH]; intros [|b l2] H1 H2 [Hi Hr].
  - constructor.
  - destruct (Hr b) as (x & Hx & _); [left|]. by apply elem_of_nil in Hx.
  - destruct (Hi a) as (x & Hx & _); [left|]. by apply elem_of_nil in Hx.
  - assert (Hab : cmp a.1 b.1 = Eq).
    { destruct (Hi a) as (b' & Hb' & [Hab' _]); [left|]. destruct (Hr b) as (a' & Ha' & [Hab'' _]); [left|].
      apply HeqK in Hab', Hab''. destruct (head_least _ _ _ H2 Hb') as [->|Hlt]; [done|].
      destruct (head_least _ _ _ H1 Ha') as [->|Hlt']; [done|]. exfalso.
      (* b < b' = a < a' = b *)
      pose proof (lt_eq_lt _ _ _ Hlt (cmp_eq_sym cmp Hlaw _ _ Hab')) as Hba.
      pose proof (lt_eq_lt _ _ _ Hlt' Hab'') as Hab. by eapply (cmp_lt_irrefl cmp Hlaw). }
    apply sorted_cons in H1 as [H1 Hf1], H2 as [H2 Hf2]. rewrite Forall_forall in Hf1, Hf2.
    assert (Hhead : eq_entry a b).
    { destruct (Hi a) as (b' & Hb' & Hab'); [left|]. apply elem_of_cons in Hb' as [->|Hb']; [done|].
      apply Hf2 in Hb'. destruct Hab' as [Hab' _]. apply HeqK in Hab'. exfalso.
      rewrite <- (lw_cong _ Hlaw _ _ b'.1 Hab) in Hb'. congruence. }
    constructor; [done|]. apply IH; try done. split.
    + intros x Hx. destruct (Hi x) as (y & Hy & Hxy); [by right|]. apply elem_of_cons in Hy as [->|Hy]; [|eauto].
      exfalso. apply Hf1 in Hx. destruct Hxy as [Hxy _]. apply HeqK in Hxy.
      rewrite (cmp_cong_r cmp Hlaw _ _ _ Hxy) in Hx. congruence.
    + intros y Hy. destruct (Hr y) as (x & Hx & Hxy); [by right|]. apply elem_of_cons in Hx as [->|Hx]; [|eauto].
      exfalso. apply Hf2 in Hy. destruct Hxy as [Hxy _]. apply HeqK in Hxy.
      rewrite <- (lw_cong _ Hlaw _ _ y.1 Hab) in Hy. congruence.
Qed.

Lemma map_eq_contents e e1 e2 m1 m2 l1 l2 : ordered_reachable cmp e1 m1 -> ordered_reachable cmp e2 m2 ->
  yields m1 In l1 -> yields m2 In l2 ->
  exists b, map_eq e eqK eqV m1 m2 = Ret b /\
    (b = true <->
     (forall x, x ∈ l1 -> exists y, y ∈ l2 /\ eqK x.1 y.1 = true /\ eqV x.2 y.2 = true) /\
     (forall y, y ∈ l2 -> exists x, x ∈ l1 /\ eqK x.1 y.1 = true /\ eqV x.2 y.2 = true)).
Proof.
  intros Hm1 Hm2 Hl1 Hl2.
  destruct (map_eq_lists e e1 e2 m1 m2 l1 l2) as (b & Hb & Hiff); try done; try by eapply ordered_reachable_reachable.
  exists b. split; [done|]. rewrite Hiff. symmetry. apply same_entries_pairs.
  - by eapply (inorder_sorted cmp Hlaw e1 m1).
  - by eapply (inorder_sorted cmp Hlaw e2 m2).
Qed.
End ordered.

Lemma map_eq_refl e e1 m : reachable e1 m -> (forall a, eqK a a = true) -> (forall a, eqV a a = true) ->
  map_eq e eqK eqV m m = Ret true.
Proof.
  intros Hm HK HV. destruct (reachable_rep _ _ Hm) as (t & fl & Hr). pose proof (rep_yields _ _ _ In Hr) as Hy.
  destruct (map_eq_lists e e1 e1 m m _ _ Hm Hm Hy Hy) as (b & -> & Hb).
  assert (b = true) as ->; [|done]. apply Hb. generalize (tree_order In (erase t)). intros l.
  induction l; constructor; [|done]. by split.
Qed.

Lemma map_eq_sym e e1 e2 m1 m2 b : reachable e1 m1 -> reachable e2 m2 ->
  (forall a b, eqK a b = eqK b a) -> (forall a b, eqV a b = eqV b a) ->
  map_eq e eqK eqV m1 m2 = Ret b -> map_eq e eqK eqV m2 m1 = Ret b.
Proof.
  intros Hm1 Hm2 HK HV Hb. destruct (reachable_rep _ _ Hm1) as (t1 & fl1 & Hr1). destruct (reachable_rep _ _ Hm2) as (t2 & fl2 & Hr2).
  pose proof (rep_yields _ _ _ In Hr1) as Hy1. pose proof (rep_yields _ _ _ In Hr2) as Hy2.
  destruct (map_eq_lists e e1 e2 m1 m2 _ _ Hm1 Hm2 Hy1 Hy2) as (b1 & Hb1 & Hi1).
  destruct (map_eq_lists e e2 e1 m2 m1 _ _ Hm2 Hm1 Hy2 Hy1) as (b2 & -> & Hi2).
  rewrite Hb in Hb1. injection Hb1 as <-. f_equal.
  assert (Hf : forall l1 l2, Forall2 eq_entry l1 l2 -> Forall2 eq_entry l2 l1).
  { induction 1 as [|x y ? ? [Hx Hy]]; constructor; [|done]. split; [by rewrite HK|by rewrite HV]. }
  destruct b, b2; try done.
  - apply Hi2, Hf, Hi1. done.
  - symmetry. apply Hi1, Hf, Hi2. done.
Qed.

Lemma map_eq_trans e e1 e2 e3 m1 m2 m3 : reachable e1 m1 -> reachable e2 m2 -> reachable e3 m3 ->
  (forall a b c, eqK a b = true -> eqK b c = true -> eqK a c = true) ->
  (forall a b c, eqV a b = true -> eqV b c = true -> eqV a c = true) ->
  map_eq e eqK eqV m1 m2 = Ret true -> map_eq e eqK eqV m2 m3 = Ret true -> map_eq e eqK eqV m1 m3 = Ret true.
Proof.
  intros Hm1 Hm2 Hm3 HK HV H12 H23.
  destruct (reachable_rep _ _ Hm1) as (t1 & fl1 & Hr1). destruct (reachable_rep _ _ Hm2) as (t2 & fl2 & Hr2).
  destruct (reachable_rep _ _ Hm3) as (t3 & fl3 & Hr3).
  pose proof (rep_yields _ _ _ In Hr1) as Hy1. pose proof (rep_yields _ _ _ In Hr2) as Hy2. pose proof (rep_yields _ _ _ In Hr3) as Hy3.
  destruct (map_eq_lists e e1 e2 m1 m2 _ _ Hm1 Hm2 Hy1 Hy2) as (b1 & Hb1 & Hi1).
  destruct (map_eq_lists e e2 e3 m2 m3 _ _ Hm2 Hm3 Hy2 Hy3) as (b2 & Hb2 & Hi2).
  destruct (map_eq_lists e e1 e3 m1 m3 _ _ Hm1 Hm3 Hy1 Hy3) as (b3 & -> & Hi3).
  rewrite H12 in Hb1. rewrite H23 in Hb2. injection Hb1 as <-. injection Hb2 as <-. f_equal. apply Hi3.
  pose proof (proj1 Hi1 eq_refl) as F1. pose proof (proj1 Hi2 eq_refl) as F2.
  revert F1 F2. generalize (tree_order In (erase t1)), (tree_order In (erase t2)), (tree_order In (erase t3)).
  intros l1 l2 l3 F1. revert l3. induction F1 as [|x y l1 l2 [Hx Hy] F1 IH]; intros l3 F2; inversion F2 as [|? z ? ? [Hx' Hy']]; subst; constructor.
  - split; eauto.
  - by apply IH.
Qed.

End eq.

Section clone.
Context {K V : Type}.
Implicit Types m : bstmap K V.
Variable cmp : K -> K -> comparison.
Hypothesis Hlaw : lawful cmp.

Lemma clones_tree_shape (ck : nat -> K -> option K) (cv : nat -> V -> option V) (t : tree K V) :
  (forall j k k', ck j k = Some k' -> cmp k' k = Eq) ->
  forall j l, clones ck cv j (tree_preorder t) = (l, true) ->
  exists t', tree_preorder t' = l /\ tree_shape t' = tree_shape t /\ (bst cmp t -> bst cmp t') /\
    Forall2 (fun a b => cmp a.1 b.1 = Eq) (tree_inorder t') (tree_inorder t) /\
    Forall2 (fun a b => (exists i, ck i b.1 = Some a.1) /\ (exists i, cv i b.2 = Some a.2)) (tree_inorder t') (tree_inorder t).
Proof.
  intros Hck. induction t as [|tl IHl k v tr IHr]; intros j l; simpl.
  - intros [= <-]. exists tleaf. split_and!; constructor.
  - destruct (ck j k) as [k'|] eqn:Ek; [|done]. destruct (cv j v) as [v'|] eqn:Ev; [|done].
    rewrite clones_app. destruct (clones ck cv (S j) (tree_preorder tl)) as [a b] eqn:Ea.
    destruct b; [|done]. destruct (clones ck cv (S j + length (tree_preorder tl)) (tree_preorder tr)) as [a' b'] eqn:Ea'.
    intros [= <- ->]. destruct (IHl _ _ Ea) as (tl' & <- & Hs1 & Hb1 & Hf1 & Hg1).
    destruct (IHr _ _ Ea') as (tr' & <- & Hs2 & Hb2 & Hf2 & Hg2).
    exists (tnode tl' k' v' tr'). simpl. rewrite Hs1, Hs2. split_and!; [done|done| | |].
    + intros (B1 & B2 & B3 & B4). split_and!; [by apply Hb1|by apply Hb2| |].
      * rewrite Forall_forall in B3 |- *. intros x Hx. apply elem_of_list_lookup in Hx as [i Hi].
        destruct (Forall2_lookup_l _ _ _ _ _ Hf1 Hi) as (y & Hy & Hxy).
        rewrite (lw_cong _ Hlaw _ _ k' Hxy), (cmp_cong_r cmp Hlaw _ _ _ (Hck _ _ _ Ek)).
        apply B3. by eapply elem_of_list_lookup_2.
      * rewrite Forall_forall in B4 |- *. intros x Hx. apply elem_of_list_lookup in Hx as [i Hi].
        destruct (Forall2_lookup_l _ _ _ _ _ Hf2 Hi) as (y & Hy & Hxy).
        rewrite (lw_cong _ Hlaw _ _ x.1 (Hck _ _ _ Ek)), (cmp_cong_r cmp Hlaw _ _ _ Hxy).
        apply B4. by eapply elem_of_list_lookup_2.
    + apply Forall2_app; [done|]. constructor; [by eapply Hck|done].
    + apply Forall2_app; [done|]. constructor; [|done]. simpl. eauto.
Qed.

Lemma clone_spec e os ck cv m t r m2 : ordered_reachable cmp e m -> legal_inserts cmp os ->
  (forall j k k', ck j k = Some k' -> cmp k' k = Eq) -> shows m t ->
  map_clone e os ck cv m = (r, m2) ->
  match r with
  | Ret _ =>
    exists t2, shows m2 t2 /\ clones ck cv 0 (tree_preorder t) = (tree_preorder t2, true) /\
      tree_shape t2 = tree_shape t /\ bst cmp t2 /\
      Forall2 (fun a b => (exists i, ck i b.1 = Some a.1) /\ (exists i, cv i b.2 = Some a.2)) (tree_inorder t2) (tree_inorder t) /\
      (N.of_nat (length (tree_preorder t)) <= map_capacity m2)%N /\ ordered_reachable cmp e m2
  | _ => alloc_refused r \/ clone_panicked os ck cv (tree_inorder t) r
  end.
Proof.
  intros Hm Hos Hck Ht Hc. destruct (ordered_rep cmp Hlaw _ _ Hm) as (t0 & fl & Hrep & Hb).
  apply (rep_shows_eq _ _ _ _ Hrep) in Ht as ->.
  assert (Hleg : legal cmp (OClone os ck cv)) by done.
  pose proof (map_clone_spec e os ck cv m t0 fl Hrep) as Hspec. rewrite Hc in Hspec.
  destruct (map_drop_spec e (fun _ => false) m t0 fl Hrep ltac:(done)) as (m1 & dr & Hdrop & _).
  assert (Hex : exec e (OClone os ck cv) m = (rmap (fun _ => OutUnit) r, match r with Ret _ => m2 | _ => m end)).
  { cbn [exec]. apply bind_ret. unfold clone_and_replace. rewrite Hc. destruct r as [[]|?| |?|]; try done. by rewrite Hdrop. }
  destruct (exec_ordered cmp Hlaw _ _ _ _ _ _ _ Hrep Hb Hleg Hex) as (t' & fl' & Hrep' & Hb' & Hst & _).
  destruct r as [[]|p| |u|]; simpl in Hst.
  - destruct Hst as (_ & l & Hl & Ht'). destruct (clones_tree_shape ck cv (erase t0) Hck 0 l Hl) as (t2 & <- & Hsh & Hbt & _ & Hg).
    rewrite (tree_rebuild cmp Hlaw t2 (Hbt Hb)) in Ht'. exists t2. rewrite Ht' in *. rewrite <- Ht'. split_and!; try done.
    + by eapply rep_shows.
    + by rewrite Ht'.
    + by rewrite Ht'.
    + by rewrite Ht'.
    + by rewrite Ht'.
    + rewrite tree_pre_in, erase_size. destruct Hspec as (_ & ? & ? & _ & _ & _ & Hcap & _). done.
    + by eapply ordered_step.
  - destruct Hst as [_ [[H|[H|H]]|[[H ?]|[H ?]]]]; unfold alloc_refused, clone_panicked; try done; injection H as ->; tauto.
  - by left; right; right.
  - by destruct Hst as [_ [[H|[H|H]]|[[H _]|[H _]]]].
  - by destruct Hst as [_ [[H|[H|H]]|[[H _]|[H _]]]].
Qed.

Lemma clones_id (l : list (K * V)) : forall j, clones (fun _ k => Some k) (fun _ v => Some v) j l = (l, true).
Proof. induction l as [|[k v] l IH]; intros j; simpl; [done|]. by rewrite IH. Qed.

(** A clone that copies keys and values exactly shows the same tree. *)
Lemma clone_same_tree e os m t m2 : ordered_reachable cmp e m -> legal_inserts cmp os -> shows m t ->
  map_clone e os (fun _ k => Some k) (fun _ v => Some v) m = (Ret tt, m2) ->
  shows m2 t /\ forall d, exists l, yields m d l /\ yields m2 d l.
Proof.
  intros Hm Hos Ht Hc.
  assert (Hck : forall (j : nat) (k k' : K), Some k = Some k' -> cmp k' k = Eq).
  { intros j k k' [= ->]. apply (lw_refl _ Hlaw). }
  destruct (clone_spec e os _ _ m t _ m2 Hm Hos Hck Ht Hc) as (t2 & Hs2 & Hcl & Hsh & Hb2 & Hg & _ & Hm2).
  rewrite clones_id in Hcl. injection Hcl as Hpre.
  destruct (ordered_rep cmp Hlaw _ _ Hm) as (t0 & fl & Hrep & Hb). pose proof (rep_shows_eq _ _ _ _ Hrep Ht) as ->.
  assert (t2 = erase t0) as ->.
  { rewrite <- (tree_rebuild cmp Hlaw t2 Hb2), <- Hpre. by apply tree_rebuild. }
  split; [done|]. intros d. exists (tree_order d (erase t0)). split; [by eapply rep_yields|].
  destruct (ordered_rep cmp Hlaw _ _ Hm2) as (t2 & fl2 & Hrep2 & _). rewrite (rep_shows_eq _ _ _ _ Hrep2 Hs2). by eapply rep_yields.
Qed.

(** A clone is equal to its original if the clones of keys and values are. *)
Lemma clone_equal e os ck cv eqK eqV m m2 : ordered_reachable cmp e m -> legal_inserts cmp os ->
  (forall j k k', ck j k = Some k' -> cmp k' k = Eq) ->
  (forall j k k', ck j k = Some k' -> eqK k' k = true) -> (forall j v v', cv j v = Some v' -> eqV v' v = true) ->
  map_clone e os ck cv m = (Ret tt, m2) -> map_eq e eqK eqV m2 m = Ret true.
Proof.
  intros Hm Hos Hck HK HV Hc. destruct (ordered_rep cmp Hlaw _ _ Hm) as (t & fl & Hrep & Hb).
  destruct (clone_spec e os _ _ m _ _ m2 Hm Hos Hck (rep_shows _ _ _ Hrep) Hc) as (t2 & Hs2 & _ & _ & _ & Hg & _ & Hm2).
  destruct (ordered_rep cmp Hlaw _ _ Hm2) as (t3 & fl3 & Hrep3 & _). rewrite (rep_shows_eq _ _ _ _ Hrep3 Hs2) in Hg.
  destruct (map_eq_lists eqK eqV e e e m2 m _ _ (ordered_reachable_reachable cmp _ _ Hm2) (ordered_reachable_reachable cmp _ _ Hm)
    (rep_yields _ _ _ In Hrep3) (rep_yields _ _ _ In Hrep)) as (b & Hb2 & Hi).
  rewrite Hb2. f_equal. apply Hi. eapply Forall2_impl; [exact Hg|]. intros a b' [[i Hi1] [j Hj]]. split; eauto.
Qed.

End clone.
