(** * Stack space and number of reads of the iterators *)

From Verif Require Export ProofIterProps.

Section space.
Context {K V : Type}.
Implicit Types m : bstmap K V.
Implicit Types t s : ptree K V.
Implicit Types st : list (ptree K V).
Implicit Types pst : list (ptree K V * bool).
Implicit Types rs : list Ptr.

Lemma times_app x l1 l2 : times x (l1 ++ l2) = times x l1 + times x l2.
Proof. unfold times. by rewrite filter_app, app_length. Qed.
Lemma times_nil x : times x [] = 0.
Proof. done. Qed.
Lemma times_cons x y l : times x (y :: l) = times x [y] + times x l.
Proof. apply (times_app x [y]). Qed.
Lemma times_nodup x l : NoDup l -> times x l <= 1.
Proof.
  intros H. unfold times. induction H as [|y l Hy Hl IH]; [simpl; lia|].
  rewrite filter_cons. destruct (decide (y = x)) as [->|]; [|done]. simpl.
  assert (E : filter (fun q => q = x) l = []); [|rewrite E; simpl; lia].
  apply elem_of_nil_inv. intros z [-> Hz]%elem_of_list_filter. done.
Qed.
Lemma times_ptrs x (l : ptree K V) p k v r : times x (ptrs (Bin l p k v r)) = times x [p] + times x (ptrs l) + times x (ptrs r).
Proof. rewrite ptrs_bin, times_cons, times_app. lia. Qed.

(** ** Pre-order and in-order: one stack entry per level *)

Fixpoint fits (h : nat) st : Prop :=
  match st with [] => True | s :: st => pheight s + length (pre_stack st) <= h /\ fits h st end.

Lemma fits_len h st : fits h st -> length (pre_stack st) <= h.
Proof.
  induction st as [|s st IH]; [simpl; lia|]. intros [H1 H2]. destruct s as [|l p k v r]; [by apply IH|].
  simpl in *. lia.
Qed.

(** Pre-order *)
Definition pre_inv t rs st : Prop :=
  Forall (fun s => sub s t) st /\ fits (pheight t) st /\
  forall x, times x rs + list_sum ((fun s => times x (ptrs s)) <$> st) <= times x (ptrs t).

Lemma pre_next_inv m t fl : map_rep m t fl -> forall st rs, pre_inv t rs st ->
  exists r st' rs', preorder_next m (mkIter (pre_stack st) rs) = (Ret r, mkIter (pre_stack st') rs') /\ pre_inv t rs' st'.
Proof.
  intros Hrep. induction st as [|[|l p k v r] st IH]; intros rs (H1 & H2 & H3).
  - exists None, [], rs. split; [done|]. split_and!; done.
  - apply Forall_cons in H1 as [_ H1]. destruct H2 as [_ H2].
    apply IH. split_and!; try done.
  - apply Forall_cons in H1 as [Hs H1]. destruct H2 as [Hh H2]. simpl in Hh.
    rewrite pre_stack_cons. cbn [rootp push_opt]. unfold preorder_next, sbind, it_pop. cbn [it_stack it_reads].
    rewrite (it_read_ret m p _ _ _ (readable_root _ _ _ _ _ _ (sub_readable _ _ _ _ Hrep Hs))).
    unfold it_extend, smod. cbn [n_left n_right it_stack it_reads].
    eexists _, (l :: r :: st), (rs ++ [p]). rewrite !pre_stack_cons. split; [done|].
    apply sub_bin in Hs as (? & ? & _). split_and!.
    + constructor; [done|]. by constructor.
    + cbn [fits]. rewrite !pre_stack_cons.
      assert (length (push_opt (rootp r) (pre_stack st)) <= S (length (pre_stack st))) by (by destruct r; simpl; lia).
      split_and!; [lia|lia|done].
    + intros x. specialize (H3 x). simpl in H3 |- *. rewrite times_app. rewrite times_ptrs in H3. lia.
Qed.

Lemma pre_start_inv m t fl : map_rep m t fl -> pre_inv t [] [t].
Proof.
  intros Hrep. split_and!.
  - constructor; [|constructor]. apply sub_refl. by eapply rep_nodup.
  - simpl. split; [lia|done].
  - intros x. rewrite times_nil. simpl. lia.
Qed.

(** In-order; [c] is the number of reads when a node is popped. *)
Definition in_due (c : nat) (x : Ptr) s : nat :=
  match s with Leaf => 0 | Bin l p k v r => c * times x [p] + S c * times x (ptrs r) end.

Definition in_inv c t rs st : Prop :=
  Forall (fun s => sub s t) st /\ fits (pheight t) st /\
  forall x, times x rs + list_sum (in_due c x <$> st) <= S c * times x (ptrs t).

Lemma spine_fits h s : forall st, pheight s + length (pre_stack st) <= h -> fits h st -> fits h (spine s st).
Proof.
  induction s as [|l IHl p k v r _]; intros st H1 H2; simpl; [done|].
  apply IHl; simpl in *; [lia|]. split; [lia|done].
Qed.

Lemma in_descend_due m c s : forall fuel st rs, readable m s -> pheight s < fuel ->
  exists rs', inorder_descend m fuel (rootp s) (mkIter (pre_stack st) rs) =
    (Ret tt, mkIter (pre_stack (spine s st)) (rs ++ rs')) /\
    forall x, times x rs' + list_sum (in_due c x <$> spine s st) = S c * times x (ptrs s) + list_sum (in_due c x <$> st).
Proof.
  induction s as [|l IHl p k v r _]; intros [|fuel] st rs Hr Hf; simpl in Hf; try lia.
  - exists []. rewrite app_nil_r. split; [done|]. intros x. simpl. change (ptrs Leaf) with (@nil Ptr). rewrite times_nil. lia.
  - cbn [rootp inorder_descend]. unfold sbind, it_push, smod. cbn [it_stack it_reads].
    rewrite (it_read_ret m p _ _ _ (readable_root _ _ _ _ _ _ Hr)). cbn [n_left].
    change (p :: pre_stack st) with (pre_stack (Bin l p k v r :: st)).
    destruct (IHl fuel (Bin l p k v r :: st) (rs ++ [p])) as (rs' & Heq & Hx); [by eapply readable_l|lia|].
    exists (p :: rs'). rewrite Heq. split; [simpl; by rewrite <- app_assoc|].
    intros x. specialize (Hx x). cbn [spine]. rewrite times_cons, times_ptrs.
    change (list_sum (in_due c x <$> Bin l p k v r :: st)) with
      (c * times x [p] + S c * times x (ptrs r) + list_sum (in_due c x <$> st)) in Hx. lia.
Qed.

Lemma in_next_inv m t fl (b : bool) : map_rep m t fl -> forall st rs, in_inv (if b then 2 else 1) t rs st ->
  exists r st' rs', (if b then inorder_mut_next m else inorder_next m) (mkIter (pre_stack st) rs) =
    (Ret r, mkIter (pre_stack st') rs') /\ in_inv (if b then 2 else 1) t rs' st'.
Proof.
  intros Hrep. induction st as [|[|l p k v r] st IH]; intros rs (H1 & H2 & H3).
  - exists None, [], rs. split; [by destruct b|]. split_and!; done.
  - apply Forall_cons in H1 as [_ H1]. destruct H2 as [_ H2].
    apply IH. split_and!; try done.
  - apply Forall_cons in H1 as [Hs H1]. destruct H2 as [Hh H2]. simpl in Hh.
    pose proof (sub_readable _ _ _ _ Hrep Hs) as Hread.
    apply sub_bin in Hs as Hs'. destruct Hs' as (_ & Hr & _).
    set (c := if b then 2 else 1) in *.
    destruct (in_descend_due m c r (map_fuel m) st (rs ++ [p])) as (rs' & Heq & Hx).
    { by eapply readable_r. }
    { by eapply sub_fuel. }
    assert (Hok : Forall (fun s => sub s t) (spine r st)) by (by apply spine_sub).
    assert (Hfit : fits (pheight t) (spine r st)) by (apply spine_fits; [lia|done]).
    rewrite pre_stack_cons. cbn [rootp push_opt]. unfold inorder_next, inorder_mut_next, sbind, it_pop. cbn [it_stack it_reads].
    assert (H3' : forall x, times x rs + (c * times x [p] + S c * times x (ptrs r) + list_sum (in_due c x <$> st)) <= S c * times x (ptrs t)) by apply H3.
    exists (Some (item_of p (mkInner k v (rootp l) (rootp r)))), (spine r st).
    destruct b; subst c; cbn [it_stack it_reads]; rewrite (it_read_ret m p _ _ _ (readable_root _ _ _ _ _ _ Hread)); cbn [n_right]; rewrite Heq;
      [rewrite (it_read_ret m p _ _ _ (readable_root _ _ _ _ _ _ Hread))|]; (eexists; split; [done|]); (split_and!; [done|done|]); intros x; specialize (H3' x); specialize (Hx x);
      rewrite !times_app; lia.
Qed.

Lemma in_start_inv m t fl c : map_rep m t fl ->
  exists st rs, iter_start m In = Ret (mkIter (pre_stack st) rs) /\ in_inv c t rs st.
Proof.
  intros Hrep. simpl. unfold inorder_new. rewrite (proj2 Hrep). change (mkIter [] []) with (mkIter (@pre_stack K V []) []).
  destruct (in_descend_due m c t (map_fuel m) [] []) as (rs & Heq & Hx).
  { by eapply rep_readable. }
  { by eapply rep_fuel_height. }
  rewrite Heq. exists (spine t []), rs. split; [done|]. split_and!.
  - apply spine_sub; [|constructor]. apply sub_refl. by eapply rep_nodup.
  - apply spine_fits; [simpl; lia|done].
  - intros x. specialize (Hx x). simpl in Hx |- *. lia.
Qed.

(** ** Post-order: two stack entries per level *)

Fixpoint pfits (h : nat) pst : Prop :=
  match pst with [] => True | e :: pst => 2 * pheight e.1 + length (post_raw pst) <= 2 * h /\ pfits h pst end.

Lemma post_raw_cons (e : ptree K V * bool) pst : post_raw (e :: pst) = post_raw1 e ++ post_raw pst.
Proof. done. Qed.
Lemma post_raw1_len (e : ptree K V * bool) : length (post_raw1 e) <= 2 * pheight e.1.
Proof. destruct e as [[|l p k v r] b]; [done|]. simpl. destruct b; simpl; [|lia]. destruct r; simpl; lia. Qed.

Lemma pfits_len h pst : pfits h pst -> length (post_raw pst) <= 2 * h.
Proof.
  destruct pst as [|e pst]; [simpl; lia|]. intros [H1 H2]. rewrite post_raw_cons, app_length.
  pose proof (post_raw1_len e). lia.
Qed.

(** [c] is the number of reads when a node is yielded. *)
Definition post_due (c : nat) (x : Ptr) (e : ptree K V * bool) : nat :=
  match e with
  | (Leaf, _) => 0
  | (Bin l p k v r, true) => S c * times x [p] + (2 + c) * times x (ptrs r)
  | (Bin l p k v r, false) => c * times x [p]
  end.

Definition post_inv c t rs pst : Prop :=
  post_wf t pst /\ pfits (pheight t) pst /\
  forall x, times x rs + list_sum (post_due c x <$> pst) <= (2 + c) * times x (ptrs t).

Lemma pspine_fits h s : forall pst, 2 * pheight s + length (post_raw pst) <= 2 * h -> pfits h pst -> pfits h (pspine s pst).
Proof.
  induction s as [|l IHl p k v r _]; intros pst H1 H2; simpl; [done|].
  apply IHl; [|split; [simpl in *; lia|done]].
  rewrite post_raw_cons, app_length. unfold post_raw1. simpl in *. destruct r; simpl in *; lia.
Qed.

Lemma post_descend_due m c s : forall fuel pst rs, readable m s -> pheight s < fuel ->
  exists rs', postorder_descend m fuel (rootp s) (mkIter (post_raw pst) rs) =
    (Ret tt, mkIter (post_raw (pspine s pst)) (rs ++ rs')) /\
    forall x, times x rs' + list_sum (post_due c x <$> pspine s pst) = (2 + c) * times x (ptrs s) + list_sum (post_due c x <$> pst).
Proof.
  induction s as [|l IHl p k v r _]; intros [|fuel] pst rs Hr Hf; simpl in Hf; try lia.
  - exists []. rewrite app_nil_r. split; [done|]. intros x. simpl. change (ptrs Leaf) with (@nil Ptr). rewrite times_nil. lia.
  - cbn [rootp postorder_descend]. unfold sbind, it_push, it_extend, smod.
    rewrite (it_read_ret m p _ _ _ (readable_root _ _ _ _ _ _ Hr)). cbn [n_left n_right it_stack it_reads].
    assert (Hraw : p :: push_opt (rootp r) (post_raw pst) = post_raw ((Bin l p k v r, true) :: pst)).
    { unfold post_raw. cbn. by destruct r. }
    rewrite Hraw.
    destruct (IHl fuel ((Bin l p k v r, true) :: pst) (rs ++ [p])) as (rs' & Heq & Hx); [by eapply readable_l|lia|].
    exists (p :: rs'). rewrite Heq. split; [simpl; by rewrite <- app_assoc|].
    intros x. specialize (Hx x). cbn [pspine]. rewrite times_cons, times_ptrs.
    change (list_sum (post_due c x <$> (Bin l p k v r, true) :: pst)) with
      (S c * times x [p] + (2 + c) * times x (ptrs r) + list_sum (post_due c x <$> pst)) in Hx. lia.
Qed.

Lemma post_inner_due m c l p k v r : forall fuel pst rs, readable m (Bin l p k v r) -> pheight (Bin l p k v r) < fuel ->
  exists rs', postorder_inner m fuel p (mkInner k v (rootp l) (rootp r)) (mkIter (post_raw pst) rs) =
    (Ret tt, mkIter (post_raw (pspine (Bin l p k v r) pst)) (rs ++ rs')) /\
    forall x, times x [p] + times x rs' + list_sum (post_due c x <$> pspine (Bin l p k v r) pst) =
      (2 + c) * times x (ptrs (Bin l p k v r)) + list_sum (post_due c x <$> pst).
Proof.
  revert p k v r. induction l as [|ll IHll lp lk lv lr _]; intros p k v r [|fuel] pst rs Hr Hf; simpl in Hf; try lia.
  - exists []. rewrite app_nil_r. split.
    + simpl. f_equal. f_equal. unfold post_raw. cbn. by destruct r.
    + intros x. rewrite times_ptrs. change (ptrs Leaf) with (@nil Ptr). rewrite times_nil.
      change (list_sum (post_due c x <$> pspine (Bin Leaf p k v r) pst)) with
        (S c * times x [p] + (2 + c) * times x (ptrs r) + list_sum (post_due c x <$> pst)). lia.
  - cbn [postorder_inner rootp n_left n_right]. unfold sbind, it_push, it_extend, smod. cbn [it_stack it_reads].
    rewrite (it_read_ret m lp _ _ _ (readable_root _ _ _ _ _ _ (readable_l _ _ _ _ _ _ Hr))).
    assert (Hraw : p :: push_opt (rootp r) (post_raw pst) = post_raw ((Bin (Bin ll lp lk lv lr) p k v r, true) :: pst)).
    { unfold post_raw. cbn. by destruct r. }
    rewrite Hraw.
    destruct (IHll lp lk lv lr fuel ((Bin (Bin ll lp lk lv lr) p k v r, true) :: pst) (rs ++ [lp])) as (rs' & Heq & Hx).
    { by eapply readable_l. }
    { simpl. lia. }
    exists (lp :: rs'). rewrite Heq. split; [simpl; by rewrite <- app_assoc|].
    intros x. specialize (Hx x). rewrite (times_cons x lp rs'), (times_ptrs _ (Bin _ _ _ _ _)).
    change (pspine (Bin (Bin ll lp lk lv lr) p k v r) pst) with (pspine (Bin ll lp lk lv lr) ((Bin (Bin ll lp lk lv lr) p k v r, true) :: pst)).
    change (list_sum (post_due c x <$> (Bin (Bin ll lp lk lv lr) p k v r, true) :: pst)) with
      (S c * times x [p] + (2 + c) * times x (ptrs r) + list_sum (post_due c x <$> pst)) in Hx. lia.
Qed.

Lemma if_fun {A B} (b : bool) (f g : A -> B) x : (if b then f else g) x = if b then f x else g x.
Proof. by destruct b. Qed.

Lemma post_loop_inv m t fl (b : bool) : map_rep m t fl -> forall fuel pst rs,
  post_inv (if b then 2 else 1) t rs pst -> post_need pst < fuel ->
  exists r pst' rs', (if b then postorder_mut_next_loop m fuel else postorder_next_loop m fuel) (mkIter (post_raw pst) rs) =
    (Ret r, mkIter (post_raw pst') rs') /\ post_inv (if b then 2 else 1) t rs' pst'.
Proof.
  intros Hrep. set (c := if b then 2 else 1).
  induction fuel as [|fuel IH]; intros pst rs (Hwf & Hfit & Hx) Hf; [lia|].
  rewrite (if_fun b (postorder_mut_next_loop m (S fuel)) (postorder_next_loop m (S fuel))). cbn [postorder_next_loop postorder_mut_next_loop]. unfold sbind, it_pop. cbn [it_stack].
  destruct pst as [|[[|l p k v r] bb] pst]; [|done|].
  { exists None, [], rs. split; [by destruct b|]. split_and!; done. }
  destruct Hwf as (Hs & Hd & Hwf). destruct Hfit as [Hh Hfit]. cbn [fst] in Hh.
  pose proof (sub_readable _ _ _ _ Hrep Hs) as Hread.
  apply sub_bin in Hs as Hs'. destruct Hs' as (Hl & Hr & Hpl & Hpr & Hlr).
  assert (Hraw : post_raw ((Bin l p k v r, bb) :: pst) = p :: (if bb then opt_list (rootp r) else []) ++ post_raw pst) by done.
  rewrite Hraw. cbn [it_stack it_reads].
  rewrite (it_read_ret m p _ _ _ (readable_root _ _ _ _ _ _ Hread)). cbn [n_right].
  assert (Hx' : forall x, times x rs + (post_due c x (Bin l p k v r, bb) + list_sum (post_due c x <$> pst)) <= (2 + c) * times x (ptrs t)) by apply Hx.
  assert (Hdue : forall x, c * times x [p] <= post_due c x (Bin l p k v r, bb)).
  { intros x. destruct bb; simpl; lia. }
  destruct r as [|rl rp rk rv rr].
  { cbn [rootp].
    assert (Hb : (if bb then @opt_list Ptr None else []) = []) by (by destruct bb). rewrite Hb.
    unfold sret. cbn [app].
    rewrite (it_read_ret m p _ _ _ (readable_root _ _ _ _ _ _ Hread)).
    exists (Some (item_of p (mkInner k v (rootp l) None))), pst.
    destruct b; (eexists; split; [done|]); (split_and!; [done|done|]); intros x; specialize (Hx' x); specialize (Hdue x);
      rewrite !times_app; subst c; lia. }
  cbn [rootp opt_list]. unfold top_is. cbn [it_stack].
  destruct bb; cbn [app head].
  - rewrite bool_decide_eq_true_2 by done. unfold it_push, smod. cbn [it_stack it_reads].
    pose proof (readable_r _ _ _ _ _ _ Hread) as Hreadr.
    rewrite (it_read_ret m rp _ _ _ (readable_root _ _ _ _ _ _ Hreadr)).
    destruct (post_inner_due m c rl rp rk rv rr (map_fuel m) ((Bin l p k v (Bin rl rp rk rv rr), false) :: pst)
      ((rs ++ [p]) ++ [rp])) as (rs1 & Heq & Hd1); [done|by eapply sub_fuel|].
    change (post_raw ((Bin l p k v (Bin rl rp rk rv rr), false) :: pst)) with (p :: post_raw pst) in Heq.
    rewrite Heq.
    set (st2 := pspine (Bin rl rp rk rv rr) ((Bin l p k v (Bin rl rp rk rv rr), false) :: pst)) in *.
    rewrite <- (if_fun b (postorder_mut_next_loop m fuel) (postorder_next_loop m fuel)). apply IH.
    + split_and!.
      * apply pspine_wf; [done| |].
        -- simpl. split_and!; done.
        -- intros x Hin. change (x ∉ p :: post_raw pst). intros [->|Hin']%elem_of_cons; [done|].
           eapply (Hd x); [|done]. by right.
      * apply pspine_fits.
        -- rewrite post_raw_cons, app_length. change (length (post_raw1 (Bin l p k v (Bin rl rp rk rv rr), false))) with 1.
           cbn [pheight] in Hh |- *. lia.
        -- split; [exact Hh|done].
      * intros x. specialize (Hx' x). specialize (Hd1 x). rewrite !times_app.
        change (post_due c x (Bin l p k v (Bin rl rp rk rv rr), true)) with
          (S c * times x [p] + (2 + c) * times x (ptrs (Bin rl rp rk rv rr))) in Hx'.
        change (list_sum (post_due c x <$> (Bin l p k v (Bin rl rp rk rv rr), false) :: pst)) with
          (c * times x [p] + list_sum (post_due c x <$> pst)) in Hd1. lia.
    + unfold st2. pose proof (pspine_need (Bin rl rp rk rv rr) ((Bin l p k v (Bin rl rp rk rv rr), false) :: pst)) as Hn.
      simpl in Hf. simpl in Hn. simpl. specialize (Hn ltac:(done)). lia.
  - rewrite bool_decide_eq_false_2.
    2:{ intros Hhd. apply (Hd rp); [right; rewrite ptrs_bin; left|].
        destruct (post_raw pst); [done|]. simpl in Hhd. injection Hhd as ->. left. }
    rewrite (it_read_ret m p _ _ _ (readable_root _ _ _ _ _ _ Hread)).
    exists (Some (item_of p (mkInner k v (rootp l) (Some rp)))), pst.
    destruct b; (eexists; split; [done|]); (split_and!; [done|done|]); intros x; specialize (Hx' x); specialize (Hdue x);
      rewrite !times_app; subst c; lia.
Qed.

Lemma post_start_inv m t fl c : map_rep m t fl ->
  exists pst rs, iter_start m Post = Ret (mkIter (post_raw pst) rs) /\ post_inv c t rs pst.
Proof.
  intros Hrep. simpl. unfold postorder_new. rewrite (proj2 Hrep). change (mkIter [] []) with (mkIter (@post_raw K V []) []).
  destruct (post_descend_due m c t (map_fuel m) [] []) as (rs & Heq & Hx).
  { by eapply rep_readable. }
  { by eapply rep_fuel_height. }
  rewrite Heq. exists (pspine t []), rs. split; [done|]. split_and!.
  - apply pspine_wf; [apply sub_refl; by eapply rep_nodup|done|]. intros x _. unfold post_raw. set_solver.
  - apply pspine_fits; [simpl; lia|done].
  - intros x. specialize (Hx x). simpl in Hx |- *. lia.
Qed.

(** ** All together *)

Definition space_inv (d : order) (b : bool) t (it : iter) : Prop :=
  match d with
  | Pre => exists st rs, it = mkIter (pre_stack st) rs /\ pre_inv t rs st
  | In => exists st rs, it = mkIter (pre_stack st) rs /\ in_inv (if b then 2 else 1) t rs st
  | Post => exists pst rs, it = mkIter (post_raw pst) rs /\ post_inv (if b then 2 else 1) t rs pst
  end.

Lemma space_inv_bound d b t it : NoDup (ptrs t) -> space_inv d b t it ->
  length (it_stack it) <= stack_bound d (pheight t) /\ forall x, times x (it_reads it) <= read_bound d b.
Proof.
  intros Hnd. destruct d; intros (st & rs & -> & H1 & H2 & H3); simpl.
  - split; [by apply fits_len|]. intros x. specialize (H3 x). pose proof (times_nodup x _ Hnd). lia.
  - split; [by apply fits_len|]. intros x. specialize (H3 x). pose proof (times_nodup x _ Hnd). destruct b; lia.
  - split; [by apply pfits_len|]. intros x. specialize (H3 x). pose proof (times_nodup x _ Hnd). destruct b; lia.
Qed.

Definition any_next m (d : order) (b : bool) : M iter (option (item K V)) :=
  if b then iter_mut_next m d else iter_next m d.

Lemma any_next_inv m t fl d b it : map_rep m t fl -> space_inv d b t it ->
  exists r it', any_next m d b it = (Ret r, it') /\ space_inv d b t it'.
Proof.
  intros Hrep. destruct d; intros (st & rs & -> & H).
  - destruct (pre_next_inv m t fl Hrep st rs H) as (r & st' & rs' & Heq & H').
    exists r, (mkIter (pre_stack st') rs'). split; [destruct b; exact Heq|]. by exists st', rs'.
  - destruct (in_next_inv m t fl b Hrep st rs H) as (r & st' & rs' & Heq & H').
    exists r, (mkIter (pre_stack st') rs'). split; [destruct b; exact Heq|]. by exists st', rs'.
  - destruct (post_loop_inv m t fl b Hrep (map_fuel m) st rs H) as (r & st' & rs' & Heq & H').
    { destruct H as [Hwf _]. by eapply post_need_fuel. }
    exists r, (mkIter (post_raw st') rs'). split; [destruct b; exact Heq|]. by exists st', rs'.
Qed.

Lemma start_space_inv m t fl d b : map_rep m t fl ->
  exists it, iter_start m d = Ret it /\ space_inv d b t it.
Proof.
  intros Hrep. destruct d.
  - exists (mkIter (pre_stack [t]) []). split; [|exists [t], []; split; [done|by eapply pre_start_inv]].
    simpl. unfold preorder_new. rewrite (proj2 Hrep). by destruct t.
  - destruct (in_start_inv m t fl (if b then 2 else 1) Hrep) as (st & rs & H1 & H2). eexists. split; [done|]. by exists st, rs.
  - destruct (post_start_inv m t fl (if b then 2 else 1) Hrep) as (st & rs & H1 & H2). eexists. split; [done|]. by exists st, rs.
Qed.

Lemma erase_height t : height (erase t) = pheight t.
Proof. induction t as [|l IHl p k v r IHr]; simpl; [done|]. by rewrite IHl, IHr. Qed.

Lemma space_bound e m (t : tree K V) d b n : reachable e m -> shows m t ->
  exists it xs it', iter_start m d = Ret it /\ nexts (any_next m d b) n it = (Ret xs, it') /\
    length (it_stack it') <= stack_bound d (height t) /\ forall p, times p (it_reads it') <= read_bound d b.
Proof.
  intros (t0 & fl & Hrep)%reachable_rep Ht. rewrite (rep_shows_eq _ _ _ _ Hrep Ht), erase_height.
  destruct (start_space_inv m t0 fl d b Hrep) as (it & Hit & Hinv).
  assert (H : forall n it, space_inv d b t0 it -> exists xs it', nexts (any_next m d b) n it = (Ret xs, it') /\ space_inv d b t0 it').
  { clear it Hit Hinv n. induction n as [|n IH]; intros it Hinv; [by eexists _, _|].
    cbn [nexts]. unfold sbind, sret. destruct (any_next_inv m t0 fl d b it Hrep Hinv) as (r & it1 & -> & H1).
    destruct (IH it1 H1) as (xs & it2 & -> & H2). by eexists _, _. }
  destruct (H n it Hinv) as (xs & it' & Heq & Hinv'). exists it, xs, it'. split; [done|]. split; [done|].
  apply space_inv_bound; [by eapply rep_nodup|done].
Qed.

End space.
