(** * The iterators compute the traversals *)

From Verif Require Export ProofOps.

Section iter_proofs.
Context {K V : Type}.
Implicit Types m : bstmap K V.
Implicit Types t s : ptree K V.

(** The entries in the order of the iterator. *)
Definition porder (d : order) t : list (Ptr * (K * V)) :=
  match d with Pre => ppre t | In => pin t | Post => ppost t end.

Lemma porder_erase d t : (porder d t).*2 = tree_order d (erase t).
Proof. destruct d; [apply ppre_erase|apply pin_erase|apply ppost_erase]. Qed.
Lemma porder_perm d t : porder d t ≡ₚ ppre t.
Proof. destruct d; [done|apply pin_ppre|apply ppost_ppre]. Qed.
Lemma porder_length d t : length (porder d t) = tsize t.
Proof. by rewrite porder_perm, ppre_length. Qed.
Lemma porder_tset d q w t : porder d (tset q w t) = iset q w <$> porder d t.
Proof. destruct d; [apply ppre_tset|apply pin_tset|apply ppost_tset]. Qed.
Lemma porder_nodup d t : NoDup (ptrs t) -> NoDup (porder d t).*1.
Proof. intros H. by rewrite porder_perm, ppre_fst. Qed.

(** [s] is made of nodes of [t]. *)
Definition sub s t : Prop := (forall x, x ∈ nodes s -> x ∈ nodes t) /\ pheight s <= tsize t /\ NoDup (ptrs s).

Lemma sub_refl t : NoDup (ptrs t) -> sub t t.
Proof. intros H. split_and!; [done|apply pheight_size|done]. Qed.

Lemma sub_bin l p k v r t : sub (Bin l p k v r) t ->
  sub l t /\ sub r t /\ p ∉ ptrs l /\ p ∉ ptrs r /\ (forall x, x ∈ ptrs l -> x ∉ ptrs r).
Proof.
  intros (H1 & H2 & H3). rewrite ptrs_bin in H3. apply NoDup_cons in H3 as [H3 H4].
  apply NoDup_app in H4 as (H4 & H5 & H6). simpl in *.
  split_and!; try done.
  - split_and!; [|lia|done]. intros x Hx. apply H1. right. apply elem_of_app. by left.
  - split_and!; [|lia|done]. intros x Hx. apply H1. right. apply elem_of_app. by right.
  - set_solver.
  - set_solver.
Qed.

Lemma sub_tset q w s t : sub s t -> sub (tset q w s) (tset q w t).
Proof.
  intros (H1 & H2 & H3). split_and!.
  - intros x. rewrite !nodes_tset. intros (y & -> & Hy)%elem_of_list_fmap.
    apply elem_of_list_fmap. eauto.
  - rewrite pheight_tset. unfold tsize. rewrite nodes_tset, fmap_length. done.
  - by rewrite ptrs_tset.
Qed.

Lemma sub_readable m t fl s : map_rep m t fl -> sub s t -> readable m s.
Proof. intros Hrep [H _] p n Hin. eapply rep_readable; [done|]. by apply H. Qed.
Lemma sub_fuel m t fl s : map_rep m t fl -> sub s t -> pheight s < map_fuel m.
Proof. intros Hrep (_ & H & _). pose proof (rep_fuel _ _ _ Hrep). lia. Qed.

Lemma ptrs_fst s : forall x, x ∈ ptrs s <-> x ∈ (ppre s).*1.
Proof. intros x. by rewrite ppre_fst. Qed.
Lemma ptrs_pin s : forall x, x ∈ (pin s).*1 <-> x ∈ ptrs s.
Proof. intros x. rewrite pin_ppre, ppre_fst. done. Qed.
Lemma ptrs_ppost s : forall x, x ∈ (ppost s).*1 <-> x ∈ ptrs s.
Proof. intros x. rewrite ppost_ppre, ppre_fst. done. Qed.

Lemma it_read_ret m p n st rs : slab_get (m_nodes m) p = Ret n ->
  it_read m p (mkIter st rs) = (Ret n, mkIter st (rs ++ [p])).
Proof. intros H. unfold it_read. by rewrite H. Qed.

(** ** Pre-order *)

Definition pre_stack (st : list (ptree K V)) : list Ptr := omap rootp st.
Definition pre_pend (st : list (ptree K V)) : list (Ptr * (K * V)) := st ≫= ppre.

Lemma pre_stack_cons t st : pre_stack (t :: st) = push_opt (rootp t) (pre_stack st).
Proof. by destruct t. Qed.

Lemma pre_stack_cases st : 
  (pre_stack st = [] /\ pre_pend st = []) \/
  exists l p k v r st', Bin l p k v r ∈ st /\ (forall s, s ∈ st' -> s ∈ st) /\
    pre_stack st = p :: pre_stack st' /\ pre_pend st = ppre (Bin l p k v r) ++ pre_pend st'.
Proof.
  induction st as [|[|l p k v r] st IH]; [by left| |].
  - destruct IH as [[H1 H2]|(l & p & k & v & r & st' & H1 & H2 & H3 & H4)]; [by left|right].
    exists l, p, k, v, r, st'. split_and!; try done; [by right|]. intros s Hs. right. by apply H2.
  - right. exists l, p, k, v, r, st. split_and!; try done; [left|]. intros s Hs. by right.
Qed.

Definition pre_ok t (it : iter) (pend : list (Ptr * (K * V))) : Prop :=
  exists st, it_stack it = pre_stack st /\ pend = pre_pend st /\ Forall (fun s => sub s t) st.

Lemma preorder_next_spec m t fl it pend : map_rep m t fl -> pre_ok t it pend ->
  exists it' rs, preorder_next m it = (Ret (head pend), it') /\ pre_ok t it' (tail pend) /\
    it_reads it' = it_reads it ++ rs /\ (forall x, x ∈ rs -> x ∈ pend.*1).
Proof.
  intros Hrep (st & Hst & -> & Hsub). destruct it as [stk rs0]. simpl in Hst.
  unfold preorder_next, sbind, it_pop. simpl it_stack.
  destruct (pre_stack_cases st) as [[H1 H2]|(l & p & k & v & r & st' & H1 & H2 & H3 & H4)].
  - rewrite Hst, H1, H2. eexists _, []. split_and!; [done| |by rewrite app_nil_r|set_solver].
    exists []. split_and!; done.
  - rewrite Hst, H3. simpl it_reads.
    assert (Hs : sub (Bin l p k v r) t) by (rewrite Forall_forall in Hsub; by apply Hsub).
    rewrite (it_read_ret m p _ _ _ (readable_root _ _ _ _ _ _ (sub_readable _ _ _ _ Hrep Hs))). 
    unfold it_extend, smod. cbn [n_left n_right it_stack it_reads]. rewrite H4.
    eexists _, [p]. split; [done|]. split_and!.
    + exists (l :: r :: st'). split_and!.
      * cbn [it_stack]. by rewrite !pre_stack_cons.
      * cbn [ppre app tail]. unfold pre_pend. cbn. by rewrite <- app_assoc.
      * apply sub_bin in Hs as (? & ? & _). apply Forall_cons; split; [done|]. apply Forall_cons; split; [done|].
        apply Forall_forall. intros s Hin. rewrite Forall_forall in Hsub. by apply Hsub, H2.
    + done.
    + intros x ->%elem_of_list_singleton. left.
Qed.

Lemma preorder_mut_next_eq m : preorder_mut_next m = preorder_next m.
Proof. done. Qed.

Lemma preorder_new_spec m t fl : map_rep m t fl ->
  exists it, preorder_new m = Ret it /\ pre_ok t it (ppre t) /\ it_reads it = [].
Proof.
  intros Hrep. eexists. split; [done|]. split; [|done]. exists [t]. split_and!.
  - simpl. rewrite (proj2 Hrep). by destruct t.
  - unfold pre_pend. simpl. by rewrite app_nil_r.
  - constructor; [|constructor]. apply sub_refl. by eapply rep_nodup.
Qed.

(** ** In-order *)

(** What remains to be yielded for a node on the stack: itself and its right
    subtree. *)
Definition in_head t : list (Ptr * (K * V)) :=
  match t with Leaf => [] | Bin l p k v r => (p, (k, v)) :: pin r end.
Definition in_pend (st : list (ptree K V)) : list (Ptr * (K * V)) := st ≫= in_head.

Fixpoint spine t (st : list (ptree K V)) : list (ptree K V) :=
  match t with Leaf => st | Bin l p k v r => spine l (t :: st) end.

Lemma spine_pend t st : in_pend (spine t st) = pin t ++ in_pend st.
Proof.
  revert st. induction t as [|l IHl p k v r _]; intros st; simpl; [done|].
  rewrite IHl. simpl. unfold in_pend. cbn. by rewrite <- app_assoc.
Qed.

Lemma spine_sub t0 t st : sub t t0 -> Forall (fun s => sub s t0) st -> Forall (fun s => sub s t0) (spine t st).
Proof.
  revert st. induction t as [|l IHl p k v r _]; intros st Ht Hst; simpl; [done|].
  apply sub_bin in Ht as Ht'. destruct Ht' as (Hl & _). apply IHl; [done|]. by constructor.
Qed.

Lemma inorder_descend_spec m t s : forall fuel st rs0, readable m s -> pheight s < fuel ->
  exists rs, inorder_descend m fuel (rootp s) (mkIter (pre_stack st) rs0) =
    (Ret tt, mkIter (pre_stack (spine s st)) (rs0 ++ rs)) /\ (forall x, x ∈ rs -> x ∈ ptrs s) /\
    length rs <= pheight s.
Proof.
  induction s as [|l IHl p k v r _]; intros [|fuel] st rs0 Hr Hf; simpl in Hf; try lia.
  - exists []. rewrite app_nil_r. split_and!; [done|set_solver|simpl; lia].
  - cbn [rootp inorder_descend]. unfold sbind, it_push, smod. cbn [it_stack it_reads].
    rewrite (it_read_ret m p _ _ _ (readable_root _ _ _ _ _ _ Hr)). cbn [n_left].
    change (p :: pre_stack st) with (pre_stack (Bin l p k v r :: st)).
    destruct (IHl fuel (Bin l p k v r :: st) (rs0 ++ [p])) as (rs & Heq & Hrs & Hlen); [by eapply readable_l|lia|].
    exists (p :: rs). rewrite Heq. split_and!.
    + simpl. by rewrite <- app_assoc.
    + intros x. rewrite ptrs_bin. intros [->|Hx]%elem_of_cons; [left|]. right. apply elem_of_app. left. by apply Hrs.
    + simpl. lia.
Qed.

Definition in_ok t (it : iter) (pend : list (Ptr * (K * V))) : Prop :=
  exists st, it_stack it = pre_stack st /\ pend = in_pend st /\ Forall (fun s => sub s t) st.

Lemma in_stack_cases st :
  (pre_stack st = [] /\ in_pend st = []) \/
  exists l p k v r st', Bin l p k v r ∈ st /\ (forall s, s ∈ st' -> s ∈ st) /\
    pre_stack st = p :: pre_stack st' /\ in_pend st = (p, (k, v)) :: pin r ++ in_pend st'.
Proof.
  induction st as [|[|l p k v r] st IH]; [by left| |].
  - destruct IH as [[H1 H2]|(l & p & k & v & r & st' & H1 & H2 & H3 & H4)]; [by left|right].
    exists l, p, k, v, r, st'. split_and!; try done; [by right|]. intros s Hs. right. by apply H2.
  - right. exists l, p, k, v, r, st. split_and!; try done; [left|]. intros s Hs. by right.
Qed.

Lemma inorder_both_next_spec m t fl it pend : map_rep m t fl -> in_ok t it pend ->
  (exists it' rs, inorder_next m it = (Ret (head pend), it') /\ in_ok t it' (tail pend) /\
    it_reads it' = it_reads it ++ rs /\ (forall x, x ∈ rs -> x ∈ pend.*1)) /\
  (exists it' rs, inorder_mut_next m it = (Ret (head pend), it') /\ in_ok t it' (tail pend) /\
    it_reads it' = it_reads it ++ rs /\ (forall x, x ∈ rs -> x ∈ pend.*1)).
Proof.
  intros Hrep (st & Hst & -> & Hsub). destruct it as [stk rs0]. simpl in Hst.
  unfold inorder_next, inorder_mut_next, sbind, it_pop. simpl it_stack.
  destruct (in_stack_cases st) as [[H1 H2]|(l & p & k & v & r & st' & H1 & H2 & H3 & H4)].
  - rewrite Hst, H1, H2. split; (eexists _, []; split_and!; [done| |by rewrite app_nil_r|set_solver];
      exists []; split_and!; done).
  - rewrite Hst, H3. simpl it_reads.
    assert (Hs : sub (Bin l p k v r) t) by (rewrite Forall_forall in Hsub; by apply Hsub).
    pose proof (sub_readable _ _ _ _ Hrep Hs) as Hread.
    rewrite (it_read_ret m p _ _ _ (readable_root _ _ _ _ _ _ Hread)). cbn [n_right].
    apply sub_bin in Hs as Hs'. destruct Hs' as (_ & Hr & _).
    destruct (inorder_descend_spec m t r (map_fuel m) st' (rs0 ++ [p])) as (rs & Heq & Hrs & _).
    { by eapply readable_r. }
    { by eapply sub_fuel. }
    rewrite Heq.
    assert (Hok : Forall (fun s => sub s t) (spine r st')).
    { apply spine_sub; [done|]. apply Forall_forall. intros s Hin. rewrite Forall_forall in Hsub. by apply Hsub, H2. }
    assert (Hin : forall x, x ∈ rs -> x ∈ (in_pend st).*1).
    { intros x Hx. rewrite H4. simpl. right. rewrite fmap_app. apply elem_of_app. left.
      apply ptrs_pin. by apply Hrs. }
    rewrite H4. split.
    + eexists _, (p :: rs). split; [done|]. split_and!.
      * exists (spine r st'). split_and!; [done| |done]. simpl. by rewrite spine_pend.
      * simpl. by rewrite <- app_assoc.
      * intros x [->|Hx]%elem_of_cons; [left|]. rewrite <- H4. by apply Hin.
    + rewrite (it_read_ret m p _ _ _ (readable_root _ _ _ _ _ _ Hread)).
      eexists _, (p :: rs ++ [p]). split; [done|]. split_and!.
      * exists (spine r st'). split_and!; [done| |done]. simpl. by rewrite spine_pend.
      * simpl. by rewrite <- !app_assoc.
      * intros x Hx. assert (x = p \/ x ∈ rs) as [->|Hx'] by set_solver; [left|]. rewrite <- H4. by apply Hin.
Qed.

Lemma inorder_new_spec m t fl : map_rep m t fl ->
  exists it, inorder_new m = (Ret it, it) /\ in_ok t it (pin t).
Proof.
  intros Hrep. unfold inorder_new. rewrite (proj2 Hrep). change (mkIter [] []) with (mkIter (pre_stack []) []).
  destruct (inorder_descend_spec m t t (map_fuel m) [] []) as (rs & Heq & _).
  { by eapply rep_readable. }
  { by eapply rep_fuel_height. }
  rewrite Heq. eexists. split; [done|]. exists (spine t []). split_and!; [done| |].
  - rewrite spine_pend. unfold in_pend. simpl. by rewrite app_nil_r.
  - apply spine_sub; [|constructor]. apply sub_refl. by eapply rep_nodup.
Qed.

(** ** Post-order *)

(** A stack entry: a node, and whether its right subtree is still to be opened
    (its pointer is then the next entry of the stack). *)
Definition post_raw1 (e : ptree K V * bool) : list Ptr :=
  match e.1 with
  | Leaf => []
  | Bin l p k v r => p :: (if e.2 then opt_list (rootp r) else [])
  end.
Definition post_raw (st : list (ptree K V * bool)) : list Ptr := st ≫= post_raw1.
Definition post_pend1 (e : ptree K V * bool) : list (Ptr * (K * V)) :=
  match e.1 with
  | Leaf => []
  | Bin l p k v r => (if e.2 then ppost r else []) ++ [(p, (k, v))]
  end.
Definition post_pend (st : list (ptree K V * bool)) : list (Ptr * (K * V)) := st ≫= post_pend1.

Fixpoint pspine t (st : list (ptree K V * bool)) : list (ptree K V * bool) :=
  match t with Leaf => st | Bin l p k v r => pspine l ((t, true) :: st) end.

Lemma pspine_pend t st : post_pend (pspine t st) = ppost t ++ post_pend st.
Proof.
  revert st. induction t as [|l IHl p k v r _]; intros st; simpl; [done|].
  rewrite IHl. unfold post_pend. cbn. by rewrite <- !app_assoc.
Qed.

(** The right subtree of an entry does not appear below it. *)
Fixpoint post_wf t0 (st : list (ptree K V * bool)) : Prop :=
  match st with
  | [] => True
  | (Leaf, _) :: st => False
  | (Bin l p k v r, b) :: st =>
      sub (Bin l p k v r) t0 /\ (forall x, x ∈ p :: ptrs r -> x ∉ post_raw st) /\ post_wf t0 st
  end.

Lemma pspine_wf t0 t st : sub t t0 -> post_wf t0 st -> (forall x, x ∈ ptrs t -> x ∉ post_raw st) ->
  post_wf t0 (pspine t st).
Proof.
  revert st. induction t as [|l IHl p k v r _]; intros st Ht Hst Hd; simpl; [done|].
  apply sub_bin in Ht as Ht'. destruct Ht' as (Hl & Hr & Hpl & Hpr & Hlr).
  apply IHl; [done| |].
  - simpl. split_and!; [done| |done]. intros x Hx. apply Hd. rewrite ptrs_bin. set_solver.
  - intros x Hx. unfold post_raw. cbn [mbind list_bind]. rewrite elem_of_app. intros [Hin|Hin].
    + unfold post_raw1 in Hin. simpl in Hin. apply elem_of_cons in Hin as [->|Hin]; [done|].
      destruct r as [|rl rp rk rv rr]; simpl in Hin; [by apply elem_of_nil in Hin|].
      apply elem_of_list_singleton in Hin as ->. apply (Hlr rp Hx). rewrite ptrs_bin. left.
    + apply (Hd x); [|done]. rewrite ptrs_bin. set_solver.
Qed.

Lemma postorder_descend_spec m s : forall fuel st rs0, readable m s -> pheight s < fuel ->
  exists rs, postorder_descend m fuel (rootp s) (mkIter (post_raw st) rs0) =
    (Ret tt, mkIter (post_raw (pspine s st)) (rs0 ++ rs)) /\ (forall x, x ∈ rs -> x ∈ ptrs s).
Proof.
  induction s as [|l IHl p k v r _]; intros [|fuel] st rs0 Hr Hf; simpl in Hf; try lia.
  - exists []. rewrite app_nil_r. split_and!; [done|set_solver].
  - cbn [rootp postorder_descend]. unfold sbind, it_push, it_extend, smod.
    rewrite (it_read_ret m p _ _ _ (readable_root _ _ _ _ _ _ Hr)). cbn [n_left n_right it_stack it_reads].
    assert (Hraw : p :: push_opt (rootp r) (post_raw st) = post_raw ((Bin l p k v r, true) :: st)).
    { unfold post_raw. cbn. by destruct r. }
    rewrite Hraw.
    destruct (IHl fuel ((Bin l p k v r, true) :: st) (rs0 ++ [p])) as (rs & Heq & Hrs); [by eapply readable_l|lia|].
    exists (p :: rs). rewrite Heq. split_and!.
    + simpl. by rewrite <- app_assoc.
    + intros x. rewrite ptrs_bin. intros [->|Hx]%elem_of_cons; [left|]. right. apply elem_of_app. left. by apply Hrs.
Qed.

Lemma postorder_inner_spec m l p k v r : forall fuel st rs0, readable m (Bin l p k v r) -> pheight (Bin l p k v r) < fuel ->
  exists rs, postorder_inner m fuel p (mkInner k v (rootp l) (rootp r)) (mkIter (post_raw st) rs0) =
    (Ret tt, mkIter (post_raw (pspine (Bin l p k v r) st)) (rs0 ++ rs)) /\ (forall x, x ∈ rs -> x ∈ ptrs l).
Proof.
  revert p k v r. induction l as [|ll IHll lp lk lv lr _]; intros p k v r [|fuel] st rs0 Hr Hf; simpl in Hf; try lia.
  - exists []. rewrite app_nil_r. split; [|set_solver]. simpl. f_equal. f_equal.
    unfold post_raw. cbn. by destruct r.
  - cbn [postorder_inner rootp n_left n_right]. unfold sbind, it_push, it_extend, smod. cbn [it_stack it_reads].
    rewrite (it_read_ret m lp _ _ _ (readable_root _ _ _ _ _ _ (readable_l _ _ _ _ _ _ Hr))).
    assert (Hraw : p :: push_opt (rootp r) (post_raw st) = post_raw ((Bin (Bin ll lp lk lv lr) p k v r, true) :: st)).
    { unfold post_raw. cbn. by destruct r. }
    rewrite Hraw.
    destruct (IHll lp lk lv lr fuel ((Bin (Bin ll lp lk lv lr) p k v r, true) :: st) (rs0 ++ [lp])) as (rs & Heq & Hrs).
    { by eapply readable_l. }
    { simpl. lia. }
    exists (lp :: rs). rewrite Heq. split_and!.
    + simpl. by rewrite <- app_assoc.
    + intros x. rewrite ptrs_bin. intros [->|Hx]%elem_of_cons; [left|]. right. apply elem_of_app. left. by apply Hrs.
Qed.

Definition post_ok t (it : iter) (pend : list (Ptr * (K * V))) : Prop :=
  exists st, it_stack it = post_raw st /\ pend = post_pend st /\ post_wf t st.

(** How many right subtrees the next call can open. *)
Definition post_need (st : list (ptree K V * bool)) : nat :=
  match st with
  | (Bin l p k v r, true) :: _ => S (pheight r)
  | _ => 0
  end.


Lemma pspine_need t : forall st, t <> Leaf -> post_need (pspine t st) <= pheight t.
Proof.
  induction t as [|l IHl p k v r _]; intros st Ht; [done|].
  destruct l as [|ll lp lk lv lr]; [simpl; lia|].
  change (pspine (Bin (Bin ll lp lk lv lr) p k v r) st) with
    (pspine (Bin ll lp lk lv lr) ((Bin (Bin ll lp lk lv lr) p k v r, true) :: st)).
  etransitivity; [by apply IHl|]. simpl. lia.
Qed.

Lemma postorder_both_loop_spec m t fl : map_rep m t fl -> forall fuel st rs0, post_wf t st -> post_need st < fuel ->
  (exists it' rs, postorder_next_loop m fuel (mkIter (post_raw st) rs0) = (Ret (head (post_pend st)), it') /\
    post_ok t it' (tail (post_pend st)) /\
    it_reads it' = rs0 ++ rs /\ (forall x, x ∈ rs -> x ∈ (post_pend st).*1)) /\
  (exists it' rs, postorder_mut_next_loop m fuel (mkIter (post_raw st) rs0) = (Ret (head (post_pend st)), it') /\
    post_ok t it' (tail (post_pend st)) /\
    it_reads it' = rs0 ++ rs /\ (forall x, x ∈ rs -> x ∈ (post_pend st).*1)).
Proof.
  intros Hrep. induction fuel as [|fuel IH]; intros st rs0 Hwf Hf; [lia|].
  cbn [postorder_next_loop postorder_mut_next_loop]. unfold sbind, it_pop. cbn [it_stack].
  destruct st as [|[[|l p k v r] b] st]; [|done|].
  { cbn. split; (eexists _, []; split_and!; [done| |by rewrite app_nil_r|set_solver]; exists []; done). }
  destruct Hwf as (Hs & Hd & Hwf).
  pose proof (sub_readable _ _ _ _ Hrep Hs) as Hread.
  apply sub_bin in Hs as Hs'. destruct Hs' as (Hl & Hr & Hpl & Hpr & Hlr).
  assert (Hraw : post_raw ((Bin l p k v r, b) :: st) = p :: (if b then opt_list (rootp r) else []) ++ post_raw st) by done.
  rewrite Hraw. cbn [it_stack it_reads].
  rewrite (it_read_ret m p _ _ _ (readable_root _ _ _ _ _ _ Hread)). cbn [n_right].
  (* yielding *)
  assert (Hyield : (r = Leaf \/ b = false) -> 
     post_pend ((Bin l p k v r, b) :: st) = (p, (k, v)) :: post_pend st).
  { intros H. unfold post_pend. cbn. destruct H as [->| ->]; simpl; [by destruct b|done]. }
  assert (Hok : forall rs, post_ok t (mkIter (post_raw st) rs) (post_pend st)).
  { intros rs. exists st. done. }
  destruct r as [|rl rp rk rv rr].
  { rewrite Hyield by (by left). cbn [rootp].
    assert (Hb : (if b then @opt_list Ptr None else []) = []) by (by destruct b). rewrite Hb.
    unfold sret. cbn [app].
    rewrite (it_read_ret m p _ _ _ (readable_root _ _ _ _ _ _ Hread)).
    split.
    - eexists _, [p]. split; [done|]. split_and!; [apply Hok|done|]. intros x ->%elem_of_list_singleton. left.
    - eexists _, [p; p]. split; [done|]. split_and!; [apply Hok|by rewrite <- app_assoc|].
      intros x Hx. assert (x = p) as -> by set_solver. left. }
  cbn [rootp opt_list]. unfold top_is. cbn [it_stack].
  destruct b; cbn [app head].
  - (* open the right subtree *)
    rewrite bool_decide_eq_true_2 by done. unfold it_push, smod. cbn [it_stack it_reads].
    pose proof (readable_r _ _ _ _ _ _ Hread) as Hreadr.
    rewrite (it_read_ret m rp _ _ _ (readable_root _ _ _ _ _ _ Hreadr)).
    destruct (postorder_inner_spec m rl rp rk rv rr (map_fuel m) ((Bin l p k v (Bin rl rp rk rv rr), false) :: st)
      ((rs0 ++ [p]) ++ [rp])) as (rs & Heq & Hrs); [done|by eapply sub_fuel|].
    change (post_raw ((Bin l p k v (Bin rl rp rk rv rr), false) :: st)) with (p :: post_raw st) in Heq.
    rewrite Heq.
    set (st2 := pspine (Bin rl rp rk rv rr) ((Bin l p k v (Bin rl rp rk rv rr), false) :: st)) in *.
    assert (Hwf2 : post_wf t st2).
    { apply pspine_wf; [done| |].
      - simpl. split_and!; done.
      - intros x Hx. change (x ∉ p :: post_raw st). intros [->|Hin]%elem_of_cons; [done|].
        eapply (Hd x); [|done]. by right. }
    assert (Hneed : post_need st2 < fuel).
    { unfold st2. pose proof (pspine_need (Bin rl rp rk rv rr) ((Bin l p k v (Bin rl rp rk rv rr), false) :: st)) as Hn.
      simpl in Hf. simpl in Hn. simpl. specialize (Hn ltac:(done)). lia. }
    assert (Hpend : post_pend st2 = post_pend ((Bin l p k v (Bin rl rp rk rv rr), true) :: st)).
    { unfold st2. rewrite pspine_pend. unfold post_pend. cbn. by rewrite <- !app_assoc. }
    assert (Hcov : forall x, x ∈ [p; rp] ++ rs -> x ∈ (post_pend ((Bin l p k v (Bin rl rp rk rv rr), true) :: st)).*1).
    { intros x Hx. unfold post_pend. cbn [mbind list_bind]. rewrite fmap_app, elem_of_app. left.
      unfold post_pend1. cbn [fst snd]. rewrite fmap_app, elem_of_app, ptrs_ppost, ptrs_bin.
      simpl. specialize (Hrs x). set_solver. }
    destruct (IH st2 (((rs0 ++ [p]) ++ [rp]) ++ rs) Hwf2 Hneed) as [(it1 & rs1 & E1 & O1 & R1 & C1) (it2 & rs2 & E2 & O2 & R2 & C2)].
    rewrite Hpend in *. split.
    + exists it1, ([p; rp] ++ rs ++ rs1). rewrite E1. split_and!; [done|done|rewrite R1; by rewrite <- !app_assoc|].
      intros x. rewrite app_assoc, elem_of_app. intros [Hx|Hx]; [by apply Hcov|by apply C1].
    + exists it2, ([p; rp] ++ rs ++ rs2). rewrite E2. split_and!; [done|done|rewrite R2; by rewrite <- !app_assoc|].
      intros x. rewrite app_assoc, elem_of_app. intros [Hx|Hx]; [by apply Hcov|by apply C2].
  - rewrite Hyield by (by right).
    rewrite bool_decide_eq_false_2.
    2:{ intros Hh. apply (Hd rp); [right; rewrite ptrs_bin; left|].
        destruct (post_raw st); [done|]. simpl in Hh. injection Hh as ->. left. }
    rewrite (it_read_ret m p _ _ _ (readable_root _ _ _ _ _ _ Hread)).
    split.
    + eexists _, [p]. split; [done|]. split_and!; [apply Hok|done|]. intros x ->%elem_of_list_singleton. left.
    + eexists _, [p; p]. split; [done|]. split_and!; [apply Hok|by rewrite <- app_assoc|].
      intros x Hx. assert (x = p) as -> by set_solver. left.
Qed.

Lemma post_need_fuel m t fl st : map_rep m t fl -> post_wf t st -> post_need st < map_fuel m.
Proof.
  intros Hrep Hwf. destruct st as [|[[|l p k v r] b] st]; simpl; try (unfold map_fuel; lia).
  destruct Hwf as (Hs & _). pose proof (sub_fuel _ _ _ _ Hrep Hs) as H. simpl in H.
  destruct b; lia.
Qed.

Lemma postorder_new_spec m t fl : map_rep m t fl ->
  exists it, postorder_new m = (Ret it, it) /\ post_ok t it (ppost t).
Proof.
  intros Hrep. unfold postorder_new. rewrite (proj2 Hrep). change (mkIter [] []) with (mkIter (post_raw []) []).
  destruct (postorder_descend_spec m t (map_fuel m) [] []) as (rs & Heq & _).
  { by eapply rep_readable. }
  { by eapply rep_fuel_height. }
  rewrite Heq. eexists. split; [done|]. exists (pspine t []). split_and!; [done| |].
  - rewrite pspine_pend. unfold post_pend. simpl. by rewrite app_nil_r.
  - apply pspine_wf; [apply sub_refl; by eapply rep_nodup|done|]. intros x _. unfold post_raw. set_solver.
Qed.

(** ** All orders *)

(** The iterator [it] over the tree [t] still has to yield [pend]. *)
Definition iter_ok (d : order) t it pend : Prop :=
  match d with Pre => pre_ok t it pend | In => in_ok t it pend | Post => post_ok t it pend end.

Lemma iter_start_spec m t fl d : map_rep m t fl ->
  exists it, iter_start m d = Ret it /\ iter_ok d t it (porder d t).
Proof.
  intros Hrep. destruct d; simpl.
  - destruct (preorder_new_spec m t fl Hrep) as (it & H1 & H2 & _). eauto.
  - destruct (inorder_new_spec m t fl Hrep) as (it & H1 & H2). exists it. by rewrite H1.
  - destruct (postorder_new_spec m t fl Hrep) as (it & H1 & H2). exists it. by rewrite H1.
Qed.

Lemma iter_next_spec m t fl d it pend : map_rep m t fl -> iter_ok d t it pend ->
  exists it' rs, iter_next m d it = (Ret (head pend), it') /\ iter_ok d t it' (tail pend) /\
    it_reads it' = it_reads it ++ rs /\ (forall x, x ∈ rs -> x ∈ pend.*1).
Proof.
  intros Hrep Hok. destruct d; simpl in *.
  - by eapply preorder_next_spec.
  - by eapply inorder_both_next_spec.
  - destruct Hok as (st & H1 & -> & H3). destruct it as [stk rs0]. simpl in H1. subst stk.
    eapply postorder_both_loop_spec; [done|done|by eapply post_need_fuel].
Qed.

Lemma iter_mut_next_spec m t fl d it pend : map_rep m t fl -> iter_ok d t it pend ->
  exists it' rs, iter_mut_next m d it = (Ret (head pend), it') /\ iter_ok d t it' (tail pend) /\
    it_reads it' = it_reads it ++ rs /\ (forall x, x ∈ rs -> x ∈ pend.*1).
Proof.
  intros Hrep Hok. destruct d; simpl in *.
  - by eapply preorder_next_spec.
  - by eapply inorder_both_next_spec.
  - destruct Hok as (st & H1 & -> & H3). destruct it as [stk rs0]. simpl in H1. subst stk.
    eapply postorder_both_loop_spec; [done|done|by eapply post_need_fuel].
Qed.

(** A write through a yielded reference does not disturb the iterator. *)
Lemma iter_ok_tset d t it pend q w : iter_ok d t it pend -> iter_ok d (tset q w t) it (iset q w <$> pend).
Proof.
  destruct d; simpl.
  - intros (st & H1 & -> & H3). exists (tset q w <$> st). split_and!.
    + rewrite H1. unfold pre_stack. clear. induction st as [|[|l p k v r] st IH]; simpl; [done|done|]. by f_equal.
    + unfold pre_pend. clear. induction st as [|s st IH]; [done|]. cbn. by rewrite fmap_app, ppre_tset, <- IH.
    + apply Forall_fmap. eapply Forall_impl; [exact H3|]. intros s. apply sub_tset.
  - intros (st & H1 & -> & H3). exists (tset q w <$> st). split_and!.
    + rewrite H1. unfold pre_stack. clear. induction st as [|[|l p k v r] st IH]; simpl; [done|done|]. by f_equal.
    + unfold in_pend. clear. induction st as [|s st IH]; [done|]. cbn. rewrite fmap_app, <- IH. f_equal.
      destruct s as [|l p k v r]; simpl; [done|]. rewrite pin_tset. f_equal. unfold iset. simpl. by destruct (decide (p = q)).
    + apply Forall_fmap. eapply Forall_impl; [exact H3|]. intros s. apply sub_tset.
  - intros (st & H1 & -> & H3).
    assert (Hraw1 : forall e, post_raw1 (tset q w e.1, e.2) = post_raw1 e).
    { intros [[|l p k v r] b]; [done|]. unfold post_raw1. simpl. by rewrite tset_rootp. }
    assert (Hraw : forall st, post_raw ((fun e => (tset q w e.1, e.2)) <$> st) = post_raw st).
    { clear -Hraw1. intros st. unfold post_raw. induction st as [|e st IH]; [done|]. cbn. by rewrite Hraw1, IH. }
    exists ((fun e => (tset q w e.1, e.2)) <$> st). split_and!.
    + by rewrite Hraw.
    + unfold post_pend. clear. induction st as [|[s b] st IH]; [done|]. cbn. rewrite fmap_app, <- IH. f_equal.
      destruct s as [|l p k v r]; simpl; [done|]. unfold post_pend1. simpl. rewrite ppost_tset, fmap_app.
      f_equal; [by destruct b|]. simpl. f_equal. unfold iset. simpl. by destruct (decide (p = q)).
    + clear H1. induction st as [|[[|l p k v r] b] st IH]; [done|done|]. destruct H3 as (Hs & Hd & Hwf).
      change (sub (tset q w (Bin l p k v r)) (tset q w t) /\
        (forall x, x ∈ p :: ptrs (tset q w r) -> x ∉ post_raw ((fun e => (tset q w e.1, e.2)) <$> st)) /\
        post_wf (tset q w t) ((fun e => (tset q w e.1, e.2)) <$> st)).
      split; [by apply sub_tset|]. split; [by rewrite Hraw, ptrs_tset|by apply IH].
Qed.

(** ** Draining *)

Lemma drain_spec m t fl d : map_rep m t fl -> forall fuel it pend, iter_ok d t it pend -> length pend < fuel ->
  exists it', drain (iter_next m d) fuel it = (Ret pend, it') /\ iter_ok d t it' [].
Proof.
  intros Hrep. induction fuel as [|fuel IH]; intros it pend Hok Hf; [lia|].
  cbn [drain]. unfold sbind at 1.
  destruct (iter_next_spec m t fl d it pend Hrep Hok) as (it' & rs & -> & Hok' & _).
  destruct pend as [|x pend]; simpl.
  - eauto.
  - simpl in Hok', Hf. unfold sbind. destruct (IH it' pend Hok') as (it'' & -> & Hok''); [lia|]. eauto.
Qed.

Lemma iter_collect_spec m t fl d : map_rep m t fl -> iter_collect m d = Ret (porder d t).
Proof.
  intros Hrep. unfold iter_collect. destruct (iter_start_spec m t fl d Hrep) as (it & -> & Hok). cbn [rbind].
  destruct (drain_spec m t fl d Hrep (S (map_fuel m)) it (porder d t) Hok) as (it' & -> & _); [|done].
  rewrite porder_length. pose proof (rep_fuel _ _ _ Hrep). lia.
Qed.

(** Any number of calls: the entries, then [None] for ever. *)
Lemma nexts_spec m t fl d : map_rep m t fl -> forall n it pend, iter_ok d t it pend ->
  exists it', nexts (iter_next m d) n it = (Ret (take n ((Some <$> pend) ++ replicate n None)), it').
Proof.
  intros Hrep. induction n as [|n IH]; intros it pend Hok; [by eexists|].
  cbn [nexts]. unfold sbind at 1.
  destruct (iter_next_spec m t fl d it pend Hrep Hok) as (it' & rs & -> & Hok' & _).
  unfold sbind. destruct (IH it' (tail pend) Hok') as (it'' & ->). exists it''. unfold sret. do 2 f_equal.
  destruct pend as [|x pend]; simpl; [done|]. f_equal.
  change (None :: replicate n None) with (replicate (S n) (@None (Ptr * (K * V)))).
  rewrite replicate_S_end, app_assoc. symmetry. apply take_app_le.
  rewrite app_length, replicate_length. lia.
Qed.

End iter_proofs.
