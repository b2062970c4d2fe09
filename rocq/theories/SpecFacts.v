(** * Facts about the specification: orders, association lists, search trees *)

From Verif Require Export Spec.
From Coq Require Export Lia.

(** ** Orders *)

Section order_facts.
Context {K : Type} (cmp : K -> K -> comparison) (Hlaw : lawful cmp).

Lemma cmp_cong_r a b c : cmp b c = Eq -> cmp a b = cmp a c.
Proof.
  intros H. rewrite (lw_sym _ Hlaw b a), (lw_sym _ Hlaw c a). f_equal. by apply (lw_cong _ Hlaw).
Qed.

Lemma cmp_gt a b : cmp a b = Gt <-> cmp b a = Lt.
Proof. rewrite (lw_sym _ Hlaw a b). by destruct (cmp a b). Qed.

Lemma cmp_eq_sym a b : cmp a b = Eq -> cmp b a = Eq.
Proof. intros H. by rewrite (lw_sym _ Hlaw a b), H. Qed.

Lemma cmp_lt_irrefl a b : cmp a b = Lt -> cmp b a = Lt -> False.
Proof. intros H1 H2. rewrite (lw_sym _ Hlaw a b), H1 in H2. done. Qed.

Lemma cmp_is_query k : is_query cmp (cmp k).
Proof. exists K, cmp, (fun x => x), k. done. Qed.

Context (f : K -> comparison) (Hf : is_query cmp f).

Lemma query_eq a b : f a = Eq -> f b = cmp a b.
Proof.
  destruct Hf as (Q & cmpQ & br & q & HQ & Hb & Hq). rewrite !Hq, <- Hb. apply HQ.
Qed.
Lemma query_lt a b : f a = Lt -> cmp a b = Lt -> f b = Lt.
Proof.
  destruct Hf as (Q & cmpQ & br & q & HQ & Hb & Hq). rewrite !Hq, <- Hb. apply HQ.
Qed.
Lemma query_gt a b : f a = Gt -> cmp b a = Lt -> f b = Gt.
Proof.
  destruct Hf as (Q & cmpQ & br & q & HQ & Hb & Hq). rewrite !Hq, <- Hb. intros H1 H2.
  rewrite (lw_sym _ HQ) in H1. rewrite (lw_sym _ HQ).
  rewrite (lw_trans _ HQ _ _ _ H2); [done|]. by destruct (cmpQ (br a) q).
Qed.
Lemma query_cong a b : cmp a b = Eq -> f a = f b.
Proof.
  destruct Hf as (Q & cmpQ & br & q & HQ & Hb & Hq). rewrite !Hq, <- Hb. intros H.
  rewrite (lw_sym _ HQ (br a) q), (lw_sym _ HQ (br b) q). f_equal. by apply (lw_cong _ HQ).
Qed.

End order_facts.

(** ** Association lists *)

Section assoc_facts.
Context {K V : Type}.
Implicit Types l : list (K * V).

Definition nomatch (f : K -> comparison) l : Prop := Forall (fun x => f x.1 <> Eq) l.

(** At most one entry matches. *)
Definition uniq (f : K -> comparison) l : Prop :=
  nomatch f l \/ exists x l0, l ≡ₚ x :: l0 /\ f x.1 = Eq /\ nomatch f l0.

Lemma uniq_perm f l l' : l ≡ₚ l' -> uniq f l -> uniq f l'.
Proof.
  intros Hp [H|(x & l0 & H1 & H2 & H3)]; [left|right].
  - unfold nomatch. by rewrite <- Hp.
  - exists x, l0. by rewrite <- Hp.
Qed.

Lemma nomatch_assoc f l : nomatch f l -> assoc_find f l = None.
Proof.
  induction 1 as [|[k v] l H _ IH]; simpl in *; [done|]. by destruct (f k).
Qed.
Lemma nomatch_remove f l : nomatch f l -> assoc_remove f l = l.
Proof.
  induction 1 as [|[k v] l H _ IH]; simpl in *; [done|]. destruct (f k); [done| |]; by rewrite IH.
Qed.
Lemma nomatch_set f w l : nomatch f l -> assoc_set f w l = l.
Proof.
  induction 1 as [|[k v] l H _ IH]; simpl in *; [done|]. destruct (f k); [done| |]; by rewrite IH.
Qed.
Lemma nomatch_insert cmp k w l : nomatch (cmp k) l -> assoc_insert cmp k w l = l ++ [(k, w)].
Proof.
  induction 1 as [|[k' v] l H _ IH]; simpl in *; [done|]. destruct (cmp k k'); [done| |]; by rewrite IH.
Qed.

Lemma assoc_none f l : assoc_find f l = None -> nomatch f l.
Proof.
  induction l as [|[k v] l IH]; simpl; [constructor|]. destruct (f k) eqn:H; [done| |];
    intros Ha; (constructor; [simpl; congruence|by apply IH]).
Qed.

Lemma assoc_some f l x : assoc_find f l = Some x -> x ∈ l /\ f x.1 = Eq.
Proof.
  induction l as [|[k v] l IH]; simpl; [done|]. destruct (f k) eqn:H.
  - intros [= <-]. split; [left|done].
  - intros Ha. apply IH in Ha as [? ?]. split; [by right|done].
  - intros Ha. apply IH in Ha as [? ?]. split; [by right|done].
Qed.

Lemma assoc_app f l1 l2 : nomatch f l1 -> assoc_find f (l1 ++ l2) = assoc_find f l2.
Proof. induction 1 as [|[k v] l H _ IH]; simpl in *; [done|]. by destruct (f k). Qed.
Lemma assoc_remove_app f l1 l2 : nomatch f l1 -> assoc_remove f (l1 ++ l2) = l1 ++ assoc_remove f l2.
Proof. induction 1 as [|[k v] l H _ IH]; simpl in *; [done|]. destruct (f k); [done| |]; by rewrite IH. Qed.
Lemma assoc_set_app f w l1 l2 : nomatch f l1 -> assoc_set f w (l1 ++ l2) = l1 ++ assoc_set f w l2.
Proof. induction 1 as [|[k v] l H _ IH]; simpl in *; [done|]. destruct (f k); [done| |]; by rewrite IH. Qed.
Lemma assoc_insert_app cmp k w l1 l2 : nomatch (cmp k) l1 ->
  assoc_insert cmp k w (l1 ++ l2) = l1 ++ assoc_insert cmp k w l2.
Proof. induction 1 as [|[k' v] l H _ IH]; simpl in *; [done|]. destruct (cmp k k'); [done| |]; by rewrite IH. Qed.

Section matched.
Context (f : K -> comparison) (l : list (K * V)) (x : K * V) (l0 : list (K * V)).
Context (Hp : l ≡ₚ x :: l0) (Hx : f x.1 = Eq) (H0 : nomatch f l0).

Lemma matched_split : exists l1 l2, l = l1 ++ x :: l2 /\ l0 ≡ₚ l1 ++ l2 /\ nomatch f l1 /\ nomatch f l2.
Proof.
  destruct (Permutation_cons_inv_r l0 l x Hp) as (l1 & l2 & -> & Heq).
  exists l1, l2. split_and!; [done|done| |].
  - unfold nomatch in *. rewrite Heq in H0. by apply Forall_app in H0 as [? ?].
  - unfold nomatch in *. rewrite Heq in H0. by apply Forall_app in H0 as [? ?].
Qed.

Lemma matched_assoc : assoc_find f l = Some x.
Proof.
  destruct matched_split as (l1 & l2 & -> & _ & H1 & _). rewrite assoc_app by done.
  destruct x as [k v]. simpl in *. by rewrite Hx.
Qed.
Lemma matched_remove : assoc_remove f l ≡ₚ l0.
Proof.
  destruct matched_split as (l1 & l2 & -> & Heq & H1 & _). rewrite assoc_remove_app by done.
  destruct x as [k v]. simpl in *. by rewrite Hx.
Qed.
Lemma matched_set w : assoc_set f w l ≡ₚ (x.1, w) :: l0.
Proof.
  destruct matched_split as (l1 & l2 & -> & Heq & H1 & _). rewrite assoc_set_app by done.
  destruct x as [k v]. simpl in *. rewrite Hx, Heq. solve_Permutation.
Qed.
End matched.

Lemma matched_insert cmp k l x l0 w : l ≡ₚ x :: l0 -> cmp k x.1 = Eq -> nomatch (cmp k) l0 ->
  assoc_insert cmp k w l ≡ₚ (x.1, w) :: l0.
Proof.
  intros Hp Hx H0. destruct (matched_split (cmp k) l x l0 Hp H0) as (l1 & l2 & -> & Heq & H1 & _).
  rewrite assoc_insert_app by done.
  destruct x as [k' v]. simpl in *. rewrite Hx, Heq. solve_Permutation.
Qed.

(** The operations do not depend on the order of the list. *)
Lemma assoc_perm f l l' : uniq f l -> l ≡ₚ l' -> assoc_find f l = assoc_find f l'.
Proof.
  intros [H|(x & l0 & H1 & H2 & H3)] Hp.
  - rewrite !nomatch_assoc; try done. unfold nomatch. by rewrite <- Hp.
  - rewrite (matched_assoc f l x l0), (matched_assoc f l' x l0); try done. by rewrite <- Hp.
Qed.
Lemma assoc_remove_perm f l l' : uniq f l -> l ≡ₚ l' -> assoc_remove f l ≡ₚ assoc_remove f l'.
Proof.
  intros [H|(x & l0 & H1 & H2 & H3)] Hp.
  - rewrite !nomatch_remove; try done. unfold nomatch. by rewrite <- Hp.
  - rewrite (matched_remove f l x l0), (matched_remove f l' x l0); try done. by rewrite <- Hp.
Qed.
Lemma assoc_set_perm f w l l' : uniq f l -> l ≡ₚ l' -> assoc_set f w l ≡ₚ assoc_set f w l'.
Proof.
  intros [H|(x & l0 & H1 & H2 & H3)] Hp.
  - rewrite !nomatch_set; try done. unfold nomatch. by rewrite <- Hp.
  - rewrite (matched_set f l x l0), (matched_set f l' x l0); try done. by rewrite <- Hp.
Qed.
Lemma assoc_insert_perm cmp k w l l' : uniq (cmp k) l -> l ≡ₚ l' ->
  assoc_insert cmp k w l ≡ₚ assoc_insert cmp k w l'.
Proof.
  intros [H|(x & l0 & H1 & H2 & H3)] Hp.
  - rewrite !nomatch_insert; try done; [by rewrite Hp|]. unfold nomatch. by rewrite <- Hp.
  - rewrite (matched_insert cmp k l x l0), (matched_insert cmp k l' x l0); try done. by rewrite <- Hp.
Qed.

(** ** Sorted lists *)

Context (cmp : K -> K -> comparison) (Hlaw : lawful cmp).

Lemma sorted_app l1 l2 : sorted cmp (l1 ++ l2) <->
  sorted cmp l1 /\ sorted cmp l2 /\ forall a b, a ∈ l1 -> b ∈ l2 -> cmp a.1 b.1 = Lt.
Proof.
  unfold sorted. induction l1 as [|x l1 IH]; simpl.
  - split; [intros H; split_and!; [constructor|done|by intros ?? ?%elem_of_nil]|by intros (_ & ? & _)].
  - split.
    + intros H. apply StronglySorted_inv in H as [H1 H2]. apply IH in H1 as (H3 & H4 & H5).
      apply Forall_app in H2 as [H6 H7]. split_and!; [by constructor|done|].
      intros a b [->|Ha]%elem_of_cons Hb; [|by apply H5].
      rewrite Forall_forall in H7. by apply H7.
    + intros (H1 & H2 & H3). apply StronglySorted_inv in H1 as [H4 H5]. constructor.
      * apply IH. split_and!; try done. intros a b Ha Hb. apply H3; [by right|done].
      * apply Forall_app. split; [done|]. apply Forall_forall. intros b Hb. apply H3; [by left|done].
Qed.

Lemma sorted_cons x l : sorted cmp (x :: l) <-> sorted cmp l /\ Forall (fun y => cmp x.1 y.1 = Lt) l.
Proof.
  split; [apply StronglySorted_inv|]. intros [??]. by constructor.
Qed.

(** In a sorted list a query matches at most one entry. *)
Lemma sorted_uniq f l : is_query cmp f -> sorted cmp l -> uniq f l.
Proof using Hlaw.
  intros Hf Hs. destruct (assoc_find f l) as [x|] eqn:Ha.
  - apply assoc_some in Ha as [Hin Hx]. apply elem_of_list_split in Hin as (l1 & l2 & ->).
    right. exists x, (l1 ++ l2). split_and!; [solve_Permutation|done|].
    apply sorted_app in Hs as (_ & Hs2 & H12). apply sorted_cons in Hs2 as [_ H2].
    apply Forall_app. split.
    + apply Forall_forall. intros y Hy Heq. assert (cmp y.1 x.1 = Lt) as Hlt by (apply H12; [done|left]).
      rewrite <- (query_eq cmp f Hf _ x.1 Heq), Hx in Hlt. done.
    + eapply Forall_impl; [exact H2|]. simpl. intros y Hlt Heq.
      rewrite <- (query_eq cmp f Hf _ y.1 Hx), Heq in Hlt. done.
  - left. by apply assoc_none.
Qed.

(** A sorted list is determined by its set of entries. *)
Lemma sorted_unique l1 l2 : sorted cmp l1 -> sorted cmp l2 -> l1 ≡ₚ l2 -> l1 = l2.
Proof using Hlaw.
  revert l2. induction l1 as [|x l1 IH]; intros l2 H1 H2 Hp.
  - by apply Permutation_nil_l in Hp.
  - destruct l2 as [|y l2]; [by apply Permutation_nil_r in Hp|].
    apply sorted_cons in H1 as [H1 Hx]. apply sorted_cons in H2 as [H2 Hy].
    assert (x = y) as ->.
    { assert (x ∈ y :: l2) as Hin by (rewrite <- Hp; left).
      assert (y ∈ x :: l1) as Hin' by (rewrite Hp; left).
      apply elem_of_cons in Hin as [?|Hin]; [done|]. apply elem_of_cons in Hin' as [?|Hin']; [done|].
      rewrite Forall_forall in Hx, Hy. specialize (Hx y Hin'). specialize (Hy x Hin). simpl in *.
      exfalso. by eapply (cmp_lt_irrefl cmp Hlaw x.1 y.1). }
    f_equal. apply IH; [done|done|]. by apply Permutation_cons_inv in Hp.
Qed.

(** ** Search trees *)

Implicit Types t : tree K V.

Lemma tree_pre_in t : tree_preorder t ≡ₚ tree_inorder t.
Proof. induction t as [|l IHl k v r IHr]; simpl; [done|]. rewrite IHl, IHr. solve_Permutation. Qed.
Lemma tree_post_in t : tree_postorder t ≡ₚ tree_inorder t.
Proof. induction t as [|l IHl k v r IHr]; simpl; [done|]. rewrite IHl, IHr. solve_Permutation. Qed.

Lemma bst_sorted t : bst cmp t <-> sorted cmp (tree_inorder t).
Proof using Hlaw.
  induction t as [|l IHl k v r IHr]; simpl; [split; [constructor|done]|].
  rewrite sorted_app, sorted_cons. rewrite IHl, IHr. split.
  - intros (H1 & H2 & H3 & H4). split_and!; try done. intros a b Ha Hb.
    rewrite Forall_forall in H3, H4. apply elem_of_cons in Hb as [->|Hb]; [by apply H3|].
    eapply (lw_trans _ Hlaw); [by apply H3|by apply H4].
  - intros (H1 & (H2 & H3) & H4). split_and!; try done.
    apply Forall_forall. intros a Ha. apply (H4 a (k, v)); [done|left].
Qed.

Lemma tree_find_in f t x : tree_find f t = Some x -> x ∈ tree_inorder t /\ f x.1 = Eq.
Proof.
  induction t as [|l IHl k v r IHr]; simpl; [done|]. rewrite elem_of_app, elem_of_cons.
  destruct (f k) eqn:Hk; [intros [= <-]; eauto| |]; intros H; [apply IHl in H|apply IHr in H]; naive_solver.
Qed.

Lemma tree_find_none f t : is_query cmp f -> bst cmp t -> tree_find f t = None -> nomatch f (tree_inorder t).
Proof.
  intros Hf. induction t as [|l IHl k v r IHr]; simpl; [constructor|].
  intros (H1 & H2 & H3 & H4) H. destruct (f k) eqn:Hk; [done| |].
  - apply Forall_app. split; [by apply IHl|]. constructor; [simpl; congruence|].
    eapply Forall_impl; [exact H4|]. simpl. intros y Hy.
    rewrite (query_lt cmp f Hf k y.1 Hk Hy). done.
  - apply Forall_app. split; [|constructor; [simpl; congruence|by apply IHr]].
    eapply Forall_impl; [exact H3|]. simpl. intros y Hy.
    rewrite (query_gt cmp f Hf k y.1 Hk Hy). done.
Qed.

(** Searching the tree is searching the list of its entries. *)
Lemma tree_find_assoc f t l : is_query cmp f -> bst cmp t -> l ≡ₚ tree_inorder t ->
  tree_find f t = assoc_find f l.
Proof using Hlaw.
  intros Hf Ht Hp. destruct (tree_find f t) as [x|] eqn:H.
  - apply tree_find_in in H as [Hin Hx].
    apply bst_sorted in Ht as Hs. apply (sorted_uniq f) in Hs as [Hu|(y & l0 & Hu1 & Hu2 & Hu3)]; [| |done].
    + unfold nomatch in Hu. rewrite Forall_forall in Hu. exfalso. by eapply Hu.
    + assert (x = y) as ->.
      { rewrite Hu1 in Hin. apply elem_of_cons in Hin as [?|Hin]; [done|].
        unfold nomatch in Hu3. rewrite Forall_forall in Hu3. exfalso. by eapply Hu3. }
      symmetry. apply (matched_assoc f l y l0); [by rewrite Hp|done|done].
  - apply tree_find_none in H; [|done|done]. symmetry. apply nomatch_assoc.
    unfold nomatch. by rewrite Hp.
Qed.

Lemma tree_insert_perm k w t :
  match tree_find (cmp k) t with
  | None => tree_inorder (tree_insert cmp k w t) ≡ₚ (k, w) :: tree_inorder t
  | Some x => exists l0, tree_inorder t ≡ₚ x :: l0 /\ tree_inorder (tree_insert cmp k w t) ≡ₚ (x.1, w) :: l0
  end.
Proof.
  induction t as [|l IHl k0 v0 r IHr]; simpl; [done|].
  destruct (cmp k k0); simpl.
  - exists (tree_inorder l ++ tree_inorder r). split; solve_Permutation.
  - destruct (tree_find (cmp k) l) as [x|].
    + destruct IHl as (l0 & H1 & H2). exists (l0 ++ (k0, v0) :: tree_inorder r). rewrite H1, H2. done.
    + rewrite IHl. done.
  - destruct (tree_find (cmp k) r) as [x|].
    + destruct IHr as (l0 & H1 & H2). exists (tree_inorder l ++ (k0, v0) :: l0). rewrite H1, H2.
      split; solve_Permutation.
    + rewrite IHr. solve_Permutation.
Qed.

Lemma tree_insert_keys k w t x : x ∈ tree_inorder (tree_insert cmp k w t) ->
  x.1 = k \/ exists y, y ∈ tree_inorder t /\ y.1 = x.1.
Proof.
  intros Hx. pose proof (tree_insert_perm k w t) as H. destruct (tree_find (cmp k) t) as [y|].
  - destruct H as (l0 & H1 & H2). rewrite H2 in Hx. apply elem_of_cons in Hx as [->|Hx].
    + right. exists y. split; [|done]. rewrite H1. left.
    + right. exists x. split; [|done]. rewrite H1. by right.
  - rewrite H in Hx. apply elem_of_cons in Hx as [->|Hx]; [by left|right; eauto].
Qed.

Lemma tree_insert_bst k w t : bst cmp t -> bst cmp (tree_insert cmp k w t).
Proof using Hlaw.
  induction t as [|l IHl k0 v0 r IHr]; simpl; [by intros _; split_and!; constructor|].
  intros (H1 & H2 & H3 & H4). destruct (cmp k k0) eqn:Hk; simpl.
  - done.
  - split_and!; [by apply IHl|done| |done]. apply Forall_forall. intros x Hx.
    apply tree_insert_keys in Hx as [->|(y & Hy & <-)]; [done|].
    rewrite Forall_forall in H3. by apply H3.
  - split_and!; [done|by apply IHr|done|]. apply Forall_forall. intros x Hx.
    apply tree_insert_keys in Hx as [->|(y & Hy & <-)]; [by apply (cmp_gt cmp Hlaw)|].
    rewrite Forall_forall in H4. by apply H4.
Qed.

Lemma tree_insert_assoc k w t l : bst cmp t -> l ≡ₚ tree_inorder t ->
  tree_inorder (tree_insert cmp k w t) ≡ₚ assoc_insert cmp k w l.
Proof using Hlaw.
  intros Ht Hp. pose proof (cmp_is_query cmp Hlaw k) as Hq.
  pose proof (tree_insert_perm k w t) as H. destruct (tree_find (cmp k) t) as [x|] eqn:Hfind.
  - destruct H as (l0 & H1 & H2). rewrite H2. symmetry.
    apply tree_find_in in Hfind as [_ Hx].
    apply matched_insert; [by rewrite Hp|done|].
    apply bst_sorted in Ht. apply (sorted_uniq (cmp k)) in Ht as [Hn|(y & l1 & H3 & H4 & H5)]; [| |done].
    + unfold nomatch in *. rewrite H1 in Hn. by apply Forall_cons in Hn as [_ ?].
    + assert (x ∈ y :: l1) as Hin by (rewrite <- H3, H1; left).
      apply elem_of_cons in Hin as [->|Hin].
      * rewrite H3 in H1. apply Permutation_cons_inv in H1. unfold nomatch in *. by rewrite <- H1.
      * unfold nomatch in H5. rewrite Forall_forall in H5. exfalso. by eapply H5.
  - rewrite H. rewrite nomatch_insert; [rewrite Hp; solve_Permutation|].
    apply tree_find_none in Hfind; [|done|done]. unfold nomatch. by rewrite Hp.
Qed.

Lemma tree_min_inorder (l : tree K V) : forall k v r x r', tree_min l k v r = (x, r') ->
  tree_inorder (tnode l k v r) = x :: tree_inorder r'.
Proof.
  induction l as [|ll IH lk lv lr _]; intros k v r x r'; simpl.
  - by intros [= <- <-].
  - destruct (tree_min ll lk lv lr) as [y l'] eqn:Hm. intros [= <- <-]. apply IH in Hm.
    simpl in Hm. simpl. by rewrite Hm.
Qed.

Lemma tree_join_inorder (l r : tree K V) : tree_inorder (tree_join l r) = tree_inorder l ++ tree_inorder r.
Proof.
  destruct l as [|ll lk lv lr]; [done|]. destruct r as [|rl rk rv rr]; simpl; [by rewrite app_nil_r|].
  destruct (tree_min rl rk rv rr) as [[k v] r'] eqn:Hm. apply tree_min_inorder in Hm. simpl in *.
  by rewrite Hm.
Qed.

(** Removing takes the matched entry out of the in-order list. *)
Lemma tree_remove_inorder f t :
  match tree_find f t with
  | None => tree_remove f t = t
  | Some x => exists l1 l2, tree_inorder t = l1 ++ x :: l2 /\ tree_inorder (tree_remove f t) = l1 ++ l2
  end.
Proof.
  induction t as [|l IHl k v r IHr]; simpl; [done|]. destruct (f k); simpl.
  - exists (tree_inorder l), (tree_inorder r). split; [done|]. apply tree_join_inorder.
  - destruct (tree_find f l) as [x|].
    + destruct IHl as (l1 & l2 & H1 & H2). exists l1, (l2 ++ (k, v) :: tree_inorder r).
      rewrite H1, H2, <- !app_assoc. done.
    + by rewrite IHl.
  - destruct (tree_find f r) as [x|].
    + destruct IHr as (l1 & l2 & H1 & H2). exists (tree_inorder l ++ (k, v) :: l1), l2.
      rewrite H1, H2, <- !app_assoc. done.
    + by rewrite IHr.
Qed.

Lemma tree_remove_bst f t : bst cmp t -> bst cmp (tree_remove f t).
Proof using Hlaw.
  intros Ht. apply bst_sorted. apply bst_sorted in Ht.
  pose proof (tree_remove_inorder f t) as H. destruct (tree_find f t) as [x|]; [|by rewrite H].
  destruct H as (l1 & l2 & H1 & H2). rewrite H1 in Ht. rewrite H2.
  apply sorted_app in Ht as (H3 & H4 & H5). apply sorted_cons in H4 as [H4 _].
  apply sorted_app. split_and!; try done. intros a b Ha Hb. apply H5; [done|by right].
Qed.

Lemma tree_remove_assoc f t l : is_query cmp f -> bst cmp t -> l ≡ₚ tree_inorder t ->
  tree_inorder (tree_remove f t) ≡ₚ assoc_remove f l.
Proof using Hlaw.
  intros Hf Ht Hp. apply bst_sorted in Ht as Hs.
  rewrite (assoc_remove_perm f l (tree_inorder t)); [| |done].
  2:{ eapply uniq_perm; [done|]. by apply sorted_uniq. }
  pose proof (tree_remove_inorder f t) as H. destruct (tree_find f t) as [x|] eqn:Hfind.
  - destruct H as (l1 & l2 & H1 & H2). rewrite H1, H2.
    apply (tree_find_assoc f t (tree_inorder t)) in Ht; [|done|done].
    apply tree_find_in in Hfind as Hx. destruct Hx as [_ Hx].
    assert (Hn : nomatch f l1).
    { apply Forall_forall. intros y Hy Heq. rewrite H1 in Hs. apply sorted_app in Hs as (_ & _ & H12).
      assert (cmp y.1 x.1 = Lt) as Hlt by (apply H12; [done|left]).
      rewrite <- (query_eq cmp f Hf _ x.1 Heq), Hx in Hlt. done. }
    rewrite assoc_remove_app by done. destruct x as [k v]. simpl in *. by rewrite Hx.
  - rewrite H. rewrite nomatch_remove; [done|]. by apply tree_find_none.
Qed.

End assoc_facts.
