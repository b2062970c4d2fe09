(** * Histories of calls *)

From Coq Require Import String.
From Verif Require Export ProofExec SpecSteps.

Section history_proofs.
Context {K V : Type}.
Implicit Types m : bstmap K V.
Implicit Types t : ptree K V.

(** ** Safety: any order, any history *)

Definition defined {A} (r : res A) : Prop := match r with UB _ | Diverge => False | _ => True end.

Lemma begin_rep e (s : start K V) :
  match begin e s with
  | (Ret _, m) => exists t fl, map_rep m t fl /\ a_len (mem m) = N.of_nat (tsize t) /\
      match s with
      | SNew => t = Leaf /\ gone m = []
      | SWithCapacity n => t = Leaf /\ gone m = [] /\ (n <= map_capacity m)%N
      | SFromIter os it => ui_panics it = false /\ ins_rel os 0 (ui_items it) Leaf t /\
          held t ++ gone m ≡ₚ owned (ui_items it) /\ (hint_len it <= map_capacity m)%N
      end
  | (Panic p, _) => build_stop p
  | (Abort, _) => True
  | _ => False
  end.
Proof.
  destruct s as [|n|os it]; simpl.
  - exists Leaf, []. split_and!; try done. apply map_new_rep.
  - pose proof (map_with_capacity_spec (K:=K) (V:=V) e n) as H.
    destruct (map_with_capacity e n) as [[u|p| |u|] m]; try done.
    + destruct H as (H1 & H2 & H3 & H4 & H5 & _). exists Leaf, []. split_and!; try done. unfold gone. by rewrite H4, H5.
    + left. apply H.
  - pose proof (map_from_iter_spec e os it) as H.
    destruct (map_from_iter e os it) as [[u|p| |u|] m]; try done.
    + destruct H as (H1 & t & fl & H2 & H3 & H4 & H5 & H6). exists t, fl. done.
    + destruct H as (_ & [[H _]|(n & t & cap & _ & H & _)]); [by left|by eapply stopped_why].
Qed.

Definition res_of {A} (r : option panic_reason) : res A :=
  match r with Some p => Panic p | None => Abort end.

(** One call, without the weakest-precondition wrapping. *)
Lemma exec_cases e (c : op K V) m t fl : map_rep m t fl ->
  match exec e c m with
  | (Ret x, m') => exec_ret e c m t x m'
  | (Panic p, m') => exec_stop e c m t (Some p) m'
  | (Abort, m') => exec_stop e c m t None m'
  | _ => False
  end.
Proof. intros Hrep. pose proof (exec_spec e c m t fl Hrep) as H. unfold wp in H. by destruct (exec e c m) as [[] ?]. Qed.

Lemma exec_rep e (c : op K V) m t fl r m' : map_rep m t fl -> exec e c m = (r, m') ->
  defined r /\ exists t' fl', map_rep m' t' fl'.
Proof.
  intros Hrep Heq. pose proof (exec_cases e c m t fl Hrep) as H. rewrite Heq in H.
  destruct r; try done; (split; [done|]); destruct H as (t' & fl' & H & _); eauto.
Qed.

Lemma run_rep e cs : forall m t fl rs m', map_rep m t fl -> run e cs m = (rs, m') ->
  Forall defined rs /\ exists t' fl', map_rep m' t' fl'.
Proof.
  induction cs as [|c cs IH]; intros m t fl rs m' Hrep Hrun; simpl in Hrun.
  - injection Hrun as <- <-. eauto.
  - destruct (exec e c m) as [r m1] eqn:He. destruct (exec_rep e c m t fl r m1 Hrep He) as (Hd & t1 & fl1 & Hrep1).
    destruct r as [x|p| |u|]; try done.
    + destruct (run e cs m1) as [rs1 m2] eqn:Hr. injection Hrun as <- <-.
      destruct (IH m1 t1 fl1 rs1 m2 Hrep1 Hr) as [H1 H2]. split; [by constructor|done].
    + destruct (run e cs m1) as [rs1 m2] eqn:Hr. injection Hrun as <- <-.
      destruct (IH m1 t1 fl1 rs1 m2 Hrep1 Hr) as [H1 H2]. split; [by constructor|done].
    + injection Hrun as <- <-. split; [by constructor|eauto].
Qed.

Lemma reached_rep e s cs rs m : reached e s cs rs m -> Forall defined rs /\ exists t fl, map_rep m t fl.
Proof.
  intros (m0 & Hb & Hr). pose proof (begin_rep e s) as H. rewrite Hb in H. destruct H as (t & fl & Hrep & _).
  by eapply run_rep.
Qed.

Lemma begin_defined e (s : start K V) r m : begin e s = (r, m) -> defined r.
Proof. intros Hb. pose proof (begin_rep e s) as H. rewrite Hb in H. by destruct r. Qed.

(** A history can be split. *)
Lemma run_app e cs1 cs2 : forall m rs m1, run e cs1 m = (rs, m1) -> length rs = length cs1 ->
  Forall (fun r => r <> Abort) rs -> (exists t fl, map_rep m t fl) ->
  run e (cs1 ++ cs2) m = let '(rs2, m2) := run e cs2 m1 in (rs ++ rs2, m2).
Proof.
  induction cs1 as [|c cs1 IH]; intros m rs m1 Hr Hl Ha (t & fl & Hrep); simpl in Hr.
  - injection Hr as <- <-. simpl. by destruct (run e cs2 m).
  - simpl. destruct (exec e c m) as [r m0] eqn:He. destruct (exec_rep e c m t fl r m0 Hrep He) as (Hd & Hrep0).
    destruct r as [x|p| |u|]; try done.
    + destruct (run e cs1 m0) as [rs1 m2] eqn:Hrr. injection Hr as <- <-. simpl in Hl.
      rewrite (IH m0 rs1 m2); try done; [|lia|by apply Forall_cons in Ha as [_ Ha]]. by destruct (run e cs2 m2).
    + destruct (run e cs1 m0) as [rs1 m2] eqn:Hrr. injection Hr as <- <-. simpl in Hl.
      rewrite (IH m0 rs1 m2); try done; [|lia|by apply Forall_cons in Ha as [_ Ha]]. by destruct (run e cs2 m2).
    + injection Hr as <- <-. apply Forall_cons in Ha as [Ha _]. done.
Qed.

(** ** Lawful orders: the tree is the textbook tree *)
Section lawful_history.
Variable cmp : K -> K -> comparison.

Lemma is_some_find (o : oracle K) f t i y : answers o f -> tget o i t = Ret y ->
  is_some y = match tree_find f (erase t) with Some _ => true | None => false end.
Proof. intros Ho Hy. rewrite <- (tget_find o f t Ho i y Hy). by destruct y. Qed.

Lemma tget_set o f t w : answers o f -> NoDup (ptrs t) -> forall i y, tget o i t = Ret (Some y) ->
  erase (tset y.1 w t) = tree_set f w (erase t).
Proof.
  intros Ho. induction t as [|l IHl p k v r IHr]; intros Hnd i y; simpl; [done|].
  rewrite ptrs_bin in Hnd. apply NoDup_cons in Hnd as [Hp Hnd]. apply NoDup_app in Hnd as (Hl & Hlr & Hr).
  unfold ask. destruct (Ho i k) as [->| ->]; simpl; [|done]. destruct (f k); intros Hy.
  - injection Hy as <-. simpl. rewrite !tset_not_in by set_solver. by rewrite decide_True.
  - pose proof (tget_in _ _ _ _ Hy) as Hin. 
    assert (Hyl : y.1 ∈ ptrs l) by (rewrite <- ppre_fst; by apply elem_of_list_fmap_1).
    rewrite (IHl Hl _ _ Hy), (tset_not_in _ _ r) by (by apply Hlr).
    rewrite decide_False; [done|]. intros ->. apply Hp, elem_of_app. by left.
  - pose proof (tget_in _ _ _ _ Hy) as Hin. 
    assert (Hyl : y.1 ∈ ptrs r) by (rewrite <- ppre_fst; by apply elem_of_list_fmap_1).
    rewrite (IHr Hr _ _ Hy), (tset_not_in _ _ l) by (intros Hc; by apply (Hlr y.1)).
    rewrite decide_False; [done|]. intros ->. apply Hp, elem_of_app. by right.
Qed.

Lemma tget_nothing o f t w i : answers o f -> tget o i t = Ret None -> tree_set f w (erase t) = erase t.
Proof.
  intros Ho Hy. apply (tget_find o f t Ho) in Hy. simpl in Hy.
  pose proof (tree_set_inorder f w (erase t)) as H. by rewrite <- Hy in H.
Qed.

Lemma tget_panicked (o : oracle K) t : forall i, tget o i t = Panic PCmp ->
  exists j kv, kv ∈ tree_inorder (erase t) /\ o j kv.1 = None.
Proof.
  induction t as [|l IHl p k v r IHr]; intros i; simpl; [done|].
  unfold ask. destruct (o i k) as [[]|] eqn:Ho; simpl.
  - done.
  - intros (j & kv & H1 & H2)%IHl. exists j, kv. set_solver.
  - intros (j & kv & H1 & H2)%IHr. exists j, kv. set_solver.
  - intros _. exists i, (k, v). set_solver.
Qed.

Lemma tget_search o t : forall i, tget o i t = Panic PCmp <-> trem o i t = Panic PCmp.
Proof.
  induction t as [|l IHl p k v r IHr]; intros i; simpl; [done|].
  unfold ask. destruct (o i k) as [[]|] eqn:Ho; simpl; try done.
  - rewrite IHl. destruct (trem o (S i) l) as [[]|[]| | |]; simpl; naive_solver.
  - rewrite IHr. destruct (trem o (S i) r) as [[]|[]| | |]; simpl; naive_solver.
Qed.

Lemma tget_insert o k v q t : forall i, tget o i t = Panic PCmp <-> tins o i k v q t = Panic PCmp.
Proof.
  induction t as [|l IHl p k0 v0 r IHr]; intros i; simpl; [done|].
  unfold ask. destruct (o i k0) as [[]|] eqn:Ho; simpl; try done.
  - rewrite IHl. destruct (tins o (S i) k v q l) as [[]|[]| | |]; simpl; naive_solver.
  - rewrite IHr. destruct (tins o (S i) k v q r) as [[]|[]| | |]; simpl; naive_solver.
Qed.

Lemma ins_rel_tree os items : legal_inserts cmp os -> forall j t t', ins_rel os j items t t' ->
  erase t' = tree_insert_all cmp items (erase t).
Proof.
  intros Hos. induction items as [|[k v] items IH]; intros j t t'; simpl; [by intros ->|].
  intros (q & t1 & r & H1 & H2 & H3). apply IH in H3. rewrite H3.
  destruct (tins_insert _ cmp k v q t (Hos j k) _ _ _ H1) as [-> _]. done.
Qed.

Lemma alloc_fail_refused (r : option panic_reason) : alloc_fail r -> alloc_refused (res_of (A:=out K V) r).
Proof. unfold alloc_fail, alloc_refused. destruct r as [[]|]; naive_solver. Qed.

Lemma erase_size t : length (tree_inorder (erase t)) = tsize t.
Proof. rewrite <- pin_erase, fmap_length. apply pin_length. Qed.

Lemma tstep_tree c t x t' : NoDup (ptrs t) -> legal cmp c -> tstep c t x t' ->
  tree_step cmp (erase t) c (Ret x) (erase t').
Proof.
  intros Hnd Hc Hs. destruct c as [o k v|o|o|o|o|o|o w|o w| | | | |n| |os it|d n|d evs|path|path w| |os ck cv]; simpl in *.
  - destruct Hs as (q & r & H1 & _ & ->). by destruct (tins_insert o cmp k v q t Hc _ _ _ H1) as [-> ->].
  - destruct Hs as (y & H1 & ->). intros f Hf. destruct (trem_remove o f t Hf _ _ _ H1) as [-> <-]. by destruct y.
  - destruct Hs as (y & H1 & ->). intros f Hf. destruct (trem_remove o f t Hf _ _ _ H1) as [-> <-]. by destruct y.
  - destruct Hs as (y & H1 & -> & ->). split; [done|]. intros f Hf. rewrite <- (tget_find o f t Hf _ _ H1). by destruct y.
  - destruct Hs as (y & H1 & -> & ->). split; [done|]. intros f Hf. rewrite <- (tget_find o f t Hf _ _ H1). by destruct y.
  - destruct Hs as (y & H1 & -> & ->). split; [done|]. intros f Hf. by rewrite (is_some_find o f t _ _ Hf H1).
  - destruct Hs as (y & H1 & -> & ->). intros f Hf. rewrite <- (tget_find o f t Hf _ _ H1).
    destruct y as [y|]; simpl; (split; [done|]); destruct w; try done.
    + by eapply tget_set.
    + symmetry. by eapply tget_nothing.
  - destruct Hs as (y & H1 & -> & ->). intros f Hf. rewrite <- (tget_find o f t Hf _ _ H1).
    destruct y as [y|]; simpl; (split; [done|]); destruct w; try done.
    + by eapply tget_set.
    + symmetry. by eapply tget_nothing.
  - destruct Hs as [-> ->]. by rewrite erase_size.
  - destruct Hs as [-> ->]. by destruct t.
  - destruct Hs as [-> Hs]. done.
  - destruct Hs as [-> ->]. done.
  - destruct Hs as [-> ->]. done.
  - destruct Hs as [-> ->]. done.
  - destruct Hs as (H1 & H2 & ->). split_and!; try done. by eapply ins_rel_tree.
  - destruct Hs as [-> ->]. done.
  - destruct Hs as [H1 H2]. split; [|done]. rewrite <- !pshape_erase. by rewrite H1.
  - destruct Hs as [-> ->]. done.
  - destruct Hs as (H1 & -> & ->). done.
  - destruct Hs as [-> ->]. done.
  - destruct Hs as (H1 & -> & H2). split; [done|]. destruct Hc as [Hos Hck].
    rewrite ppre_erase in H1, H2. exists (clones ck cv 0 (tree_preorder (erase t))).1. split.
    + by rewrite (surjective_pairing (clones ck cv 0 _)) at 1; rewrite H1.
    + by eapply ins_rel_tree in H2.
Qed.

Lemma tstop_tree e c m t r t' : legal cmp c -> tstop e c m t r t' ->
  tree_step cmp (erase t) c (res_of r) (erase t').
Proof.
  intros Hc Hs.
  assert (Hins : forall o k v t r, (forall q, tins o 0 k v q t = Panic PCmp) -> r = Some PCmp ->
            cmp_panicked (V:=V) o (tree_inorder (erase t)) (res_of r)).
  { intros o k v t1 r1 H ->. split; [done|]. apply (tget_panicked o t1 0).
    apply (tget_insert o k v (0%N, 0%N) t1). apply H. }
  destruct c as [o k v|o|o|o|o|o|o w|o w| | | | |n| |os it|d n|d evs|path|path w| |os ck cv]; simpl in Hs; try done.
  - destruct Hs as [-> Hs]. assert (Hgoal : cmp_panicked (V:=V) o (tree_inorder (erase t)) (res_of r) \/ alloc_refused (res_of (A:=out K V) r)).
    { destruct Hs as [[Hr H]|[H _]]; [left; by eapply Hins|right; by apply alloc_fail_refused]. }
    destruct r; simpl; done.
  - destruct Hs as (-> & -> & H). simpl. split; [done|]. split; [done|]. apply (tget_panicked o t 0). by apply tget_search.
  - destruct Hs as (-> & -> & H). simpl. split; [done|]. split; [done|]. apply (tget_panicked o t 0). by apply tget_search.
  - destruct Hs as (-> & -> & H). simpl. split; [done|]. split; [done|]. by apply (tget_panicked o t 0).
  - destruct Hs as (-> & -> & H). simpl. split; [done|]. split; [done|]. by apply (tget_panicked o t 0).
  - destruct Hs as (-> & -> & H). simpl. split; [done|]. split; [done|]. by apply (tget_panicked o t 0).
  - destruct Hs as (-> & -> & H). simpl. split; [done|]. split; [done|]. by apply (tget_panicked o t 0).
  - destruct Hs as (-> & -> & H). simpl. split; [done|]. split; [done|]. by apply (tget_panicked o t 0).
  - destruct Hs as (-> & Hs). assert (Hgoal : alloc_refused (res_of (A:=out K V) r) \/ res_of (A:=out K V) r = Panic POverflow).
    { destruct Hs as [H|[-> _]]; [left; by apply alloc_fail_refused|by right]. }
    destruct r; simpl; done.
  - assert (Hgoal : exists n, erase t' = tree_insert_all cmp (take n (ui_items it)) (erase t) /\
      ((n = 0 /\ (alloc_refused (res_of (A:=out K V) r) \/ res_of (A:=out K V) r = Panic POverflow)) \/
       (n = length (ui_items it) /\ res_of (A:=out K V) r = Panic PIter /\ ui_panics it = true) \/
       (exists k v, ui_items it !! n = Some (k, v) /\
          (cmp_panicked (os n k) (tree_inorder (erase t')) (res_of (A:=out K V) r) \/ alloc_refused (res_of (A:=out K V) r))))).
    { destruct Hs as [[-> Hs]|(n & cap & Hi & Hst)].
      - exists 0. split; [done|]. left. split; [done|]. destruct Hs as [H|[-> _]]; [left; by apply alloc_fail_refused|by right].
      - exists n. split; [by eapply ins_rel_tree|]. right. destruct Hst as [(-> & H1 & H2)|(k & v & H1 & H2)]; [by left|].
        right. exists k, v. split; [done|]. destruct H2 as [[Hr H]|[H _]]; [left; by eapply Hins|right; by apply alloc_fail_refused]. }
    destruct r; simpl; done.
  - destruct Hs as [-> Hs]. destruct r as [p|]; simpl; split; try done; [|left; right; by right].
    destruct Hs as (_ & _ & [Ha|(t1 & Hs)]); [left; by apply (alloc_fail_refused (Some p))|right].
    unfold clone_stop in Hs. rewrite ppre_erase in Hs.
    destruct Hs as [([= ->] & Hcl & _)|([= ->] & n & k & v & _ & _ & Hp)].
    + right. split; [done|]. destruct (clones_stop _ _ _ _ Hcl) as (j & kv & Hin & Hw). exists j, kv.
      by rewrite tree_pre_in in Hin.
    + left. split; [done|]. destruct (Hins _ _ _ _ (Some PCmp) Hp eq_refl) as [_ (i & kv & _ & Hi)]. by exists (0 + n), k, i, kv.1.
Qed.

Lemma run_tree e cs : forall m t fl rs m', map_rep m t fl -> Forall (legal cmp) cs -> run e cs m = (rs, m') ->
  exists t' fl', map_rep m' t' fl' /\ steps (tree_step cmp) (erase t) cs rs (erase t').
Proof.
  induction cs as [|c cs IH]; intros m t fl rs m' Hrep Hcs Hrun; simpl in Hrun.
  - injection Hrun as <- <-. exists t, fl. done.
  - apply Forall_cons in Hcs as [Hc Hcs]. pose proof (exec_cases e c m t fl Hrep) as H.
    destruct (exec e c m) as [[x|p| |u|] m1] eqn:He; try done.
    + destruct (run e cs m1) as [rs1 m2] eqn:Hr. injection Hrun as <- <-.
      destruct H as (t1 & fl1 & Hrep1 & Hs & _).
      destruct (IH m1 t1 fl1 rs1 m2 Hrep1 Hcs Hr) as (t' & fl' & Hrep' & Hst). exists t', fl'. split; [done|].
      simpl. exists (erase t1). split; [|done]. eapply tstep_tree; [by eapply rep_nodup|done|done].
    + destruct (run e cs m1) as [rs1 m2] eqn:Hr. injection Hrun as <- <-.
      destruct H as (t1 & fl1 & Hrep1 & Hs & _).
      destruct (IH m1 t1 fl1 rs1 m2 Hrep1 Hcs Hr) as (t' & fl' & Hrep' & Hst). exists t', fl'. split; [done|].
      simpl. exists (erase t1). split; [|done]. by apply (tstop_tree e c m t (Some p)).
    + injection Hrun as <- <-. destruct H as (t1 & fl1 & Hrep1 & Hs & _). exists t1, fl1. split; [done|].
      simpl. exists (erase t1). split; [|done]. by apply (tstop_tree e c m t None).
Qed.

Lemma reached_tree e s cs rs m : legal_start cmp s -> Forall (legal cmp) cs -> reached e s cs rs m ->
  exists t fl, map_rep m t fl /\ steps (tree_step cmp) (start_tree cmp s) cs rs (erase t).
Proof.
  intros Hs Hcs (m0 & Hb & Hr). pose proof (begin_rep e s) as H. rewrite Hb in H. destruct H as (t & fl & Hrep & _ & H).
  destruct (run_tree e cs m0 t fl rs m Hrep Hcs Hr) as (t' & fl' & Hrep' & Hst). exists t', fl'. split; [done|].
  assert (erase t = start_tree cmp s) as <-; [|done].
  destruct s as [|n|os it]; simpl.
  - by destruct H as [-> _].
  - by destruct H as [-> _].
  - destruct H as (_ & H & _). by eapply ins_rel_tree in H.
Qed.

Hypothesis Hlaw : lawful cmp.

Lemma start_bst (s : start K V) : bst cmp (start_tree cmp s).
Proof using Hlaw. destruct s; simpl; try done. by apply insert_all_bst. Qed.

Lemma start_contents (s : start K V) : tree_inorder (start_tree cmp s) ≡ₚ start_map cmp s.
Proof using Hlaw. destruct s; simpl; try done. by apply insert_all_assoc. Qed.

Lemma reached_bst e s cs rs m : legal_start cmp s -> Forall (legal cmp) cs -> reached e s cs rs m ->
  exists t fl, map_rep m t fl /\ bst cmp (erase t).
Proof using Hlaw.
  intros Hs Hcs Hr. destruct (reached_tree e s cs rs m Hs Hcs Hr) as (t & fl & Hrep & Hst). exists t, fl. split; [done|].
  eapply (steps_map cmp Hlaw cs); [done|apply start_bst|done|done|done].
Qed.

Lemma steps_start cs : forall (t : tree K V) rs (t' : tree K V) (l : list (K * V)), Forall (legal cmp) cs -> bst cmp t -> steps (tree_step cmp) t cs rs t' ->
  l ≡ₚ tree_inorder t -> exists l', l' ≡ₚ tree_inorder t' /\ steps (map_step cmp) l cs rs l'.
Proof using Hlaw.
  intros t rs t' l Hcs Ht Hst Hl. destruct cs as [|c cs].
  - destruct rs; [|done]. simpl in Hst. subst. by exists l.
  - exists (tree_inorder t'). split; [done|]. by eapply (steps_map cmp Hlaw).
Qed.

Lemma reached_map e s cs rs m : legal_start cmp s -> Forall (legal cmp) cs -> reached e s cs rs m ->
  exists l t fl, steps (map_step cmp) (start_map cmp s) cs rs l /\
    map_rep m t fl /\ bst cmp (erase t) /\ l ≡ₚ tree_inorder (erase t).
Proof using Hlaw.
  intros Hs Hcs Hr. destruct (reached_tree e s cs rs m Hs Hcs Hr) as (t & fl & Hrep & Hst).
  destruct (steps_start cs _ _ _ (start_map cmp s) Hcs (start_bst s) Hst) as (l & Hl & Hst'); [by rewrite start_contents|].
  exists l, t, fl. split_and!; try done.
  eapply (steps_map cmp Hlaw cs); [done|apply start_bst|done|done|done].
Qed.

End lawful_history.
End history_proofs.
