(** * The textbook search tree implements the finite map *)

From Coq Require Import String.
From Verif Require Export SpecFacts SpecHistory.

Section tree_facts.
Context {K V : Type}.
Implicit Types t : tree K V.
Implicit Types l : list (K * V).

Lemma tree_order_in d t : tree_order d t ≡ₚ tree_inorder t.
Proof. destruct d; [apply tree_pre_in|done|apply tree_post_in]. Qed.

Lemma tree_keys_inorder t : (tree_inorder (tree_keys t)).*1 = (tree_inorder t).*1.
Proof. induction t as [|l IHl k v r IHr]; cbn [tree_keys tree_inorder]; [done|]. by rewrite !fmap_app, !fmap_cons, IHl, IHr. Qed.

Lemma Forall_fst {A B} (P : A -> Prop) (l : list (A * B)) : Forall (fun kv => P kv.1) l <-> Forall P l.*1.
Proof. by rewrite Forall_fmap. Qed.

Lemma bst_keys cmp t : bst cmp t <-> bst cmp (tree_keys t).
Proof.
  induction t as [|l IHl k v r IHr]; simpl; [done|].
  rewrite IHl, IHr. rewrite !(Forall_fst (fun x => cmp x k = Lt)), !(Forall_fst (fun x => cmp k x = Lt)).
  by rewrite !tree_keys_inorder.
Qed.

Lemma bst_same_keys cmp t t' : tree_keys t' = tree_keys t -> bst cmp t -> bst cmp t'.
Proof. intros Heq. by rewrite (bst_keys _ t), (bst_keys _ t'), Heq. Qed.

(** ** Assignments *)

Lemma tree_set_inorder f w t :
  match tree_find f t with
  | None => tree_set f w t = t
  | Some x => exists l1 l2, tree_inorder t = l1 ++ x :: l2 /\ tree_inorder (tree_set f w t) = l1 ++ (x.1, w) :: l2
  end.
Proof.
  induction t as [|l IHl k v r IHr]; simpl; [done|]. destruct (f k); simpl.
  - by exists (tree_inorder l), (tree_inorder r).
  - destruct (tree_find f l) as [x|].
    + destruct IHl as (l1 & l2 & H1 & H2). exists l1, (l2 ++ (k, v) :: tree_inorder r).
      rewrite H1, H2, <- !app_assoc. done.
    + by rewrite IHl.
  - destruct (tree_find f r) as [x|].
    + destruct IHr as (l1 & l2 & H1 & H2). exists (tree_inorder l ++ (k, v) :: l1), l2.
      rewrite H1, H2, <- !app_assoc. done.
    + by rewrite IHr.
Qed.

Lemma tree_set_keys f w t : tree_keys (tree_set f w t) = tree_keys t.
Proof. induction t as [|l IHl k v r IHr]; simpl; [done|]. destruct (f k); simpl; congruence. Qed.

Lemma tree_write_keys path w : forall t, tree_keys (tree_write_at path w t) = tree_keys t.
Proof. induction path as [|[] path IH]; intros [|l k v r]; simpl; try done; by rewrite IH. Qed.

Lemma tree_at_inorder path w : forall t,
  match tree_at path t with
  | tleaf => tree_write_at path w t = t
  | tnode _ k v _ => exists l1 l2, tree_inorder t = l1 ++ (k, v) :: l2 /\
      tree_inorder (tree_write_at path w t) = l1 ++ (k, w) :: l2
  end.
Proof.
  induction path as [|d path IH]; intros [|l k v r]; simpl.
  - done.
  - by eexists _, _.
  - by destruct d.
  - destruct d; simpl.
    + specialize (IH l). destruct (tree_at path l) as [|l' k' v' r']; [by rewrite IH|].
      destruct IH as (l1 & l2 & H1 & H2). exists l1, (l2 ++ (k, v) :: tree_inorder r).
      rewrite H1, H2, <- !app_assoc. done.
    + specialize (IH r). destruct (tree_at path r) as [|l' k' v' r']; [by rewrite IH|].
      destruct IH as (l1 & l2 & H1 & H2). exists (tree_inorder l ++ (k, v) :: l1), l2.
      rewrite H1, H2, <- !app_assoc. done.
Qed.

(** ** Rebuilding a search tree from its pre-order traversal *)
Section rebuild.
Variable cmp : K -> K -> comparison.
Hypothesis Hlaw : lawful cmp.

Lemma insert_all_app l1 l2 t : tree_insert_all cmp (l1 ++ l2) t = tree_insert_all cmp l2 (tree_insert_all cmp l1 t).
Proof. unfold tree_insert_all. by rewrite fold_left_app. Qed.

Lemma insert_all_left new : forall (l : tree K V) (k : K) (v : V) (r : tree K V), Forall (fun kv => cmp kv.1 k = Lt) new ->
  tree_insert_all cmp new (tnode l k v r) = tnode (tree_insert_all cmp new l) k v r.
Proof.
  induction new as [|[k0 v0] new IH]; intros l k v r H; simpl; [done|].
  apply Forall_cons in H as [H1 H2]. simpl in H1. rewrite H1. by apply IH.
Qed.

Lemma insert_all_right new : forall (l : tree K V) (k : K) (v : V) (r : tree K V), Forall (fun kv => cmp k kv.1 = Lt) new ->
  tree_insert_all cmp new (tnode l k v r) = tnode l k v (tree_insert_all cmp new r).
Proof using Hlaw.
  induction new as [|[k0 v0] new IH]; intros l k v r H; simpl; [done|].
  apply Forall_cons in H as [H1 H2]. simpl in H1. apply (cmp_gt cmp Hlaw) in H1. rewrite H1. by apply IH.
Qed.

Lemma tree_rebuild t : bst cmp t -> tree_insert_all cmp (tree_preorder t) tleaf = t.
Proof using Hlaw.
  induction t as [|l IHl k v r IHr]; simpl; [done|]. intros (H1 & H2 & H3 & H4).
  change (fold_left _ ?a ?b) with (tree_insert_all cmp a b).
  rewrite insert_all_app, insert_all_left by (by rewrite tree_pre_in).
  rewrite insert_all_right by (by rewrite tree_pre_in). by rewrite IHl, IHr.
Qed.

Lemma insert_all_bst new : forall t, bst cmp t -> bst cmp (tree_insert_all cmp new t).
Proof using Hlaw.
  induction new as [|[k v] new IH]; intros t Ht; simpl; [done|]. by apply IH, tree_insert_bst.
Qed.

Lemma insert_all_assoc new : forall t l, bst cmp t -> l ≡ₚ tree_inorder t ->
  tree_inorder (tree_insert_all cmp new t) ≡ₚ assoc_insert_all cmp new l.
Proof using Hlaw.
  induction new as [|[k v] new IH]; intros t l Ht Hl; simpl; [done|].
  apply IH; [by apply tree_insert_bst|]. symmetry. by apply tree_insert_assoc.
Qed.

(** Cloning the entries of a tree one by one. *)
Lemma clones_app (ck : nat -> K -> option K) (cv : nat -> V -> option V) (l1 : list (K * V)) : forall j l2,
  clones ck cv j (l1 ++ l2) =
  let '(a, b) := clones ck cv j l1 in
  if b then let '(a', b') := clones ck cv (j + length l1) l2 in (a ++ a', b') else (a, false).
Proof.
  induction l1 as [|[k v] l1 IH]; intros j l2; simpl.
  - rewrite Nat.add_0_r. by destruct (clones ck cv j l2).
  - destruct (ck j k), (cv j v); try done. rewrite IH.
    destruct (clones ck cv (S j) l1) as [a []]; [|done].
    replace (j + S (length l1)) with (S j + length l1) by lia.
    by destruct (clones ck cv _ l2).
Qed.

(** A list that cannot be cloned has an entry that cannot. *)
Lemma clones_stop (ck : nat -> K -> option K) (cv : nat -> V -> option V) (l : list (K * V)) : forall j,
  (clones ck cv j l).2 = false -> exists i kv, kv ∈ l /\ (ck i kv.1 = None \/ cv i kv.2 = None).
Proof.
  induction l as [|[k v] l IH]; intros j; simpl; [done|].
  destruct (ck j k) as [k'|] eqn:Hk; [destruct (cv j v) as [v'|] eqn:Hv|].
  - specialize (IH (S j)). destruct (clones ck cv (S j) l) as [l' b]. simpl. intros H. destruct (IH H) as (i & kv & Hin & Hw).
    exists i, kv. split; [by right|done].
  - intros _. exists j, (k, v). split; [left|by right].
  - intros _. exists j, (k, v). split; [left|by left].
Qed.

Lemma clones_length (ck : nat -> K -> option K) (cv : nat -> V -> option V) (l : list (K * V)) : forall j l',
  clones ck cv j l = (l', true) -> length l' = length l.
Proof.
  induction l as [|[k v] l IH]; intros j l'; simpl; [by intros [= <-]|].
  destruct (ck j k), (cv j v); try done. destruct (clones ck cv (S j) l) as [a []] eqn:Ha; [|done].
  intros [= <-]. simpl. f_equal. by eapply IH.
Qed.

(** The tree of clones: same shape, keys equal one by one. *)
Lemma clones_tree (ck : nat -> K -> option K) (cv : nat -> V -> option V) t :
  (forall j k k', ck j k = Some k' -> cmp k' k = Eq) -> forall j l,
  clones ck cv j (tree_preorder t) = (l, true) ->
  exists t', tree_preorder t' = l /\
    Forall2 (fun a b => cmp a.1 b.1 = Eq) (tree_inorder t') (tree_inorder t) /\
    (bst cmp t -> bst cmp t') /\ nonleaf t' = nonleaf t.
Proof using Hlaw.
  intros Hck. induction t as [|tl IHl k v tr IHr]; intros j l; simpl.
  - intros [= <-]. exists tleaf. split_and!; [done|constructor|done|done].
  - destruct (ck j k) as [k'|] eqn:Hk, (cv j v) as [v'|]; try done. rewrite clones_app.
    destruct (clones ck cv (S j) (tree_preorder tl)) as [a []] eqn:Ha; [|done].
    destruct (clones ck cv (S j + _) (tree_preorder tr)) as [b []] eqn:Hb; [|done].
    intros [= <-]. apply IHl in Ha as (tl' & <- & Hl1 & Hl2 & _). apply IHr in Hb as (tr' & <- & Hr1 & Hr2 & _).
    apply Hck in Hk. exists (tnode tl' k' v' tr'). split_and!; [done| | |done].
    + simpl. apply Forall2_app; [done|]. by constructor.
    + simpl. intros (B1 & B2 & B3 & B4). split_and!; [by apply Hl2|by apply Hr2| |].
      * apply Forall_forall. intros x Hx. apply elem_of_list_lookup in Hx as [i Hx].
        destruct (Forall2_lookup_l _ _ _ _ _ Hl1 Hx) as (y & Hy & Heq).
        rewrite Forall_forall in B3. specialize (B3 y (elem_of_list_lookup_2 _ _ _ Hy)).
        rewrite (lw_cong _ Hlaw _ _ k' Heq). by rewrite (cmp_cong_r cmp Hlaw _ _ _ Hk).
      * apply Forall_forall. intros x Hx. apply elem_of_list_lookup in Hx as [i Hx].
        destruct (Forall2_lookup_l _ _ _ _ _ Hr1 Hx) as (y & Hy & Heq).
        rewrite Forall_forall in B4. specialize (B4 y (elem_of_list_lookup_2 _ _ _ Hy)).
        rewrite (lw_cong _ Hlaw _ _ x.1 Hk). by rewrite (cmp_cong_r cmp Hlaw _ _ _ Heq).
Qed.

Lemma tree_set_assoc f w t l : is_query cmp f -> bst cmp t -> l ≡ₚ tree_inorder t ->
  tree_inorder (tree_set f w t) ≡ₚ assoc_set f w l.
Proof using Hlaw.
  intros Hf Ht Hp. pose proof (proj1 (bst_sorted cmp Hlaw t) Ht) as Hs.
  rewrite (assoc_set_perm f w l (tree_inorder t)); [| |done].
  2:{ eapply uniq_perm; [done|]. by eapply (sorted_uniq cmp Hlaw). }
  pose proof (tree_set_inorder f w t) as H. destruct (tree_find f t) as [x|] eqn:Hfind.
  - destruct H as (l1 & l2 & H1 & H2). rewrite H1, H2.
    apply tree_find_in in Hfind as Hx. destruct Hx as [_ Hx].
    assert (Hn : nomatch f l1).
    { apply Forall_forall. intros y Hy Heq. rewrite H1 in Hs. apply sorted_app in Hs as (_ & _ & H12).
      assert (cmp y.1 x.1 = Lt) as Hlt by (apply H12; [done|left]).
      rewrite <- (query_eq cmp f Hf _ x.1 Heq), Hx in Hlt. done. }
    rewrite assoc_set_app by done. destruct x as [k v]. simpl in *. by rewrite Hx.
  - rewrite H. rewrite nomatch_set; [done|]. by eapply tree_find_none.
Qed.

(** ** A step of the tree is a step of the map *)

Lemma panicked_perm o l l' (r : res (out K V)) : l ≡ₚ l' -> cmp_panicked o l r -> cmp_panicked o l' r.
Proof. intros Hp [H1 (i & kv & H2 & H3)]. split; [done|]. exists i, kv. by rewrite <- Hp. Qed.

Lemma tree_step_map t c r t' l l' : legal cmp c -> bst cmp t -> tree_step cmp t c r t' ->
  l ≡ₚ tree_inorder t -> l' ≡ₚ tree_inorder t' -> map_step cmp l c r l' /\ bst cmp t'.
Proof using Hlaw.
  intros Hc Ht Hs Hl Hl'.
  assert (Hfind : forall f, is_query cmp f -> tree_find f t = assoc_find f l) by (intros f Hf; by eapply tree_find_assoc).
  assert (Hlen : length l = length (tree_inorder t)) by (by rewrite Hl).
  assert (Hsame : t' = t -> l' ≡ₚ l) by (intros ->; by rewrite Hl, Hl').
  assert (Hpan : forall o, cmp_panicked o (tree_inorder t) r -> cmp_panicked o l r) by (intros o; by apply panicked_perm).
  destruct c as [o k v|o|o|o|o|o|o w|o w| | | | |n| |os it|d n|d evs|path|path w| |os ck cv].
  - (* insert *)
    destruct r as [x|p| |u|]; simpl in *.
    + destruct Hs as [-> ->]. rewrite Hfind by (by apply cmp_is_query). split; [|by apply tree_insert_bst].
      split; [done|]. rewrite Hl'. by apply tree_insert_assoc.
    + destruct Hs as [-> [Hs|Hs]]; (split; [|done]); split; eauto.
    + destruct Hs as [-> [Hs|Hs]]; (split; [|done]); split; eauto.
    + destruct Hs as [-> [Hs|Hs]]; (split; [|done]); split; eauto.
    + destruct Hs as [-> [Hs|Hs]]; (split; [|done]); split; eauto.
  - (* remove *)
    destruct Hc as (f & Hq & Ho).
    destruct r as [x|p| |u|]; simpl in *; try (destruct Hs as [-> Hs]; split; [split; eauto|done]).
    destruct (Hs f Ho) as [_ Heq]. split; [|rewrite Heq; by apply (tree_remove_bst cmp Hlaw)].
    intros g Hg Hog. destruct (Hs g Hog) as [-> ->]. rewrite Hfind by done. split; [done|]. rewrite Hl'. by apply (tree_remove_assoc cmp Hlaw).
  - (* remove_entry *)
    destruct Hc as (f & Hq & Ho).
    destruct r as [x|p| |u|]; simpl in *; try (destruct Hs as [-> Hs]; split; [split; eauto|done]).
    destruct (Hs f Ho) as [_ Heq]. split; [|rewrite Heq; by apply (tree_remove_bst cmp Hlaw)].
    intros g Hg Hog. destruct (Hs g Hog) as [-> ->]. rewrite Hfind by done. split; [done|]. rewrite Hl'. by apply (tree_remove_assoc cmp Hlaw).
  - (* get *)
    destruct r as [x|p| |u|]; simpl in *; destruct Hs as [-> Hs]; (split; [split; eauto|done]).
    intros f Hf Ho. rewrite <- Hfind by done. by apply Hs.
  - destruct r as [x|p| |u|]; simpl in *; destruct Hs as [-> Hs]; (split; [split; eauto|done]).
    intros f Hf Ho. rewrite <- Hfind by done. by apply Hs.
  - destruct r as [x|p| |u|]; simpl in *; destruct Hs as [-> Hs]; (split; [split; eauto|done]).
    intros f Hf Ho. rewrite <- Hfind by done. by apply Hs.
  - (* get_mut *)
    destruct Hc as (f & Hq & Ho).
    destruct r as [x|p| |u|]; simpl in *; try (destruct Hs as [-> Hs]; split; [split; eauto|done]).
    destruct (Hs f Ho) as [_ Heq]. split.
    2:{ rewrite Heq. destruct w; [|done]. eapply bst_same_keys; [apply tree_set_keys|done]. }
    intros g Hg Hog. destruct (Hs g Hog) as [-> ->]. rewrite Hfind by done. split; [done|].
    destruct w; [|eauto]. rewrite Hl'. by apply tree_set_assoc.
  - destruct Hc as (f & Hq & Ho).
    destruct r as [x|p| |u|]; simpl in *; try (destruct Hs as [-> Hs]; split; [split; eauto|done]).
    destruct (Hs f Ho) as [_ Heq]. split.
    2:{ rewrite Heq. destruct w; [|done]. eapply bst_same_keys; [apply tree_set_keys|done]. }
    intros g Hg Hog. destruct (Hs g Hog) as [-> ->]. rewrite Hfind by done. split; [done|].
    destruct w; [|eauto]. rewrite Hl'. by apply tree_set_assoc.
  - destruct r as [x|p| |u|]; simpl in *; try done. destruct Hs as [-> ->]. rewrite Hlen. eauto.
  - destruct r as [x|p| |u|]; simpl in *; try done. destruct Hs as [-> ->]. rewrite Hlen. split; [|done].
    split; [eauto|]. destruct t as [|tl k v tr]; simpl; [done|]. rewrite app_length. simpl. 
    destruct (length (tree_inorder tl) + S (length (tree_inorder tr))) eqn:Hn; [lia|done].
  - destruct r as [x|p| |u|]; simpl in *; try done. destruct Hs as [-> Hs]. eauto.
  - destruct r as [x|p| |u|]; simpl in *; try done. destruct Hs as [-> ->]. simpl in Hl'. 
    apply Permutation_nil_r in Hl'. done.
  - destruct r as [x|p| |u|]; simpl in *; destruct Hs as [-> Hs]; eauto.
  - destruct r as [x|p| |u|]; simpl in *; try done. destruct Hs as [-> Hs]; eauto.
  - (* extend *)
    assert (Hall : forall new, tree_inorder (tree_insert_all cmp new t) ≡ₚ assoc_insert_all cmp new l).
    { intros new. by apply insert_all_assoc. }
    destruct r as [x|p| |u|]; simpl in *.
    { destruct Hs as (-> & Hp & ->). split; [|by apply insert_all_bst]. split_and!; try done. by rewrite Hl', Hall. }
    all: destruct Hs as (n & -> & Hs); split; [|by apply insert_all_bst]; exists n; split; [by rewrite Hl', Hall|];
      destruct Hs as [Hs|[Hs|(k & v & Hi & Hs)]]; [by left|by right; left|right; right; exists k, v; split; [done|]];
      destruct Hs as [Hs|Hs]; [left|by right]; eapply panicked_perm; [|exact Hs]; done.
  - destruct r as [x|p| |u|]; simpl in *; try done. destruct Hs as [-> ->]. split; [|done]. split; [eauto|].
    exists (tree_order d t). split_and!; [by rewrite tree_order_in, Hl| |done]. intros ->. by apply (bst_sorted cmp Hlaw).
  - destruct r as [x|p| |u|]; simpl in *; try done. destruct Hs as [Hk Hs]. split; [|by eapply bst_same_keys].
    exists (tree_order d t). split_and!; [by rewrite tree_order_in, Hl|intros ->; by apply (bst_sorted cmp Hlaw)|].
    destruct (mut_walk (tree_order d t) 0 0 evs) as [[l2 n] z]. destruct Hs as [<- ->]. split; [|done].
    by rewrite tree_order_in.
  - destruct r as [x|p| |u|]; simpl in *; try done. destruct Hs as [-> ->]. split; [|done]. split; [eauto|].
    destruct t as [|tl k0 v0 tr] eqn:Htt; [left; by destruct path as [|[]]|]. rewrite <- Htt in *.
    pose proof (tree_at_inorder path v0 t) as Hin.
    destruct (tree_at path t) as [|l1 k v r1]; [by left|]. destruct Hin as (a & b & Hin & _). right.
    eexists _, _, _, _. split; [done|]. rewrite Hl, Hin. set_solver.
  - destruct r as [x|p| |u|]; simpl in *; try done. destruct Hs as [-> ->]. split.
    2:{ destruct w as [w|]; [|done]. eapply bst_same_keys; [apply tree_write_keys|done]. }
    assert (Hw : forall w0, match tree_at path t with
      | tleaf => tree_write_at path w0 t = t
      | tnode _ k v _ => exists l1 l2, tree_inorder t = l1 ++ (k, v) :: l2 /\
          tree_inorder (tree_write_at path w0 t) = l1 ++ (k, w0) :: l2 end) by (intros; apply tree_at_inorder).
    destruct (tree_at path t) as [|l1 k v r1].
    + left. split; [done|]. destruct w as [w|]; [|eauto]. apply Hsame. by apply (Hw w).
    + right. destruct w as [w|].
      * destruct (Hw w) as (a & b & H1 & H2). eexists _, _, _, _, (a ++ b). split; [done|].
        rewrite Hl, Hl', H1, H2. split; solve_Permutation.
      * destruct (Hw v) as (a & b & H1 & H2). eexists _, _, _, _, (a ++ b). split; [done|].
        rewrite Hl, Hl', H1. split; solve_Permutation.
  - destruct r as [x|p| |u|]; simpl in *; try done. destruct Hs as [-> ->]. eauto.
  - (* clone *)
    destruct Hc as [Hos Hck]. destruct r as [x|p| |u|]; simpl in *.
    { destruct Hs as (-> & l2 & Hcl & ->). split; [|by apply insert_all_bst].
      split; [done|]. exists (tree_preorder t), l2. split_and!; [by rewrite tree_pre_in, Hl|done|].
      destruct (clones_tree ck cv t Hck 0 l2 Hcl) as (t2 & <- & _ & Hb & _). rewrite tree_rebuild in Hl' by auto.
      by rewrite Hl', tree_pre_in. }
    all: destruct Hs as [-> Hs]; split; [|done]; split; [eauto|]; destruct Hs as [Hs|Hs]; [by left|right].
    all: destruct Hs as [Hs|[Hs (j & kv & Hin & Hw)]]; [by left|right; split; [done|]; exists j, kv; by rewrite Hl].
Qed.

Lemma steps_map cs : forall t rs t' l, Forall (legal cmp) cs -> bst cmp t -> steps (tree_step cmp) t cs rs t' ->
  l ≡ₚ tree_inorder t -> (cs = [] -> l = tree_inorder t) ->
  steps (map_step cmp) l cs rs (tree_inorder t') /\ bst cmp t'.
Proof using Hlaw.
  induction cs as [|c cs IH]; intros t rs t' l Hcs Ht Hs Hl Hnil.
  - destruct rs; [|done]. simpl in *. subst. split; [|done]. symmetry. by apply Hnil.
  - destruct rs as [|r rs]; [done|]. apply Forall_cons in Hcs as [Hc Hcs]. simpl in Hs.
    destruct Hs as (t1 & Hs1 & Hs).
    destruct (tree_step_map t c r t1 l (tree_inorder t1) Hc Ht Hs1 Hl (reflexivity _)) as [Hm Ht1].
    destruct r as [x|p| |u|]; try done.
    + destruct (IH t1 rs t' (tree_inorder t1)) as [H1 H2]; try done. split; [|done]. simpl. eauto.
    + destruct (IH t1 rs t' (tree_inorder t1)) as [H1 H2]; try done. split; [|done]. simpl. eauto.
    + destruct Hs as [-> ->]. split; [|done]. simpl. eauto.
Qed.

End rebuild.
End tree_facts.
