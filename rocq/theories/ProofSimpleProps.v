(** * SimpleBSTMap: the finite map, and the comparison with BSTMap *)

From Coq Require Import String.
From Verif Require Export ProofSimpleExec ProofMapProps ProofEqClone.

(** ** The tree with an arbitrary comparator, when the comparator is an order *)
Section lawful.
Context {K V : Type} (cmp : K -> K -> comparison).
Hypothesis Hlaw : lawful cmp.
Implicit Types t : tree K V.
Implicit Types o : oracle K.

Lemma otree_find_answers o f t : answers o f -> forall i,
  match otree_find o i t with
  | Some y => y = tree_find f t
  | None => exists j kv, kv ∈ tree_inorder t /\ o j kv.1 = None
  end.
Proof.
  intros Ho. induction t as [|l IHl k v r IHr]; intros i; simpl; [done|].
  destruct (Ho i k) as [->|Hn]; [destruct (f k)|].
  - done.
  - specialize (IHl (S i)). destruct (otree_find o (S i) l); [done|]. destruct IHl as (j & kv & ? & ?). exists j, kv. set_solver.
  - specialize (IHr (S i)). destruct (otree_find o (S i) r); [done|]. destruct IHr as (j & kv & ? & ?). exists j, kv. set_solver.
  - rewrite Hn. exists i, (k, v). set_solver.
Qed.

Lemma otree_insert_answers o k v t : answers o (cmp k) -> forall i,
  match otree_insert o i k v t with
  | Some y => y = (tree_insert cmp k v t, snd <$> tree_find (cmp k) t)
  | None => exists j kv, kv ∈ tree_inorder t /\ o j kv.1 = None
  end.
Proof.
  intros Ho. induction t as [|l IHl k' v' r IHr]; intros i; simpl; [done|].
  destruct (Ho i k') as [->|Hn]; [destruct (cmp k k')|].
  - done.
  - specialize (IHl (S i)). destruct (otree_insert o (S i) k v l); simpl; [by subst|]. destruct IHl as (j & kv & ? & ?). exists j, kv. set_solver.
  - specialize (IHr (S i)). destruct (otree_insert o (S i) k v r); simpl; [by subst|]. destruct IHr as (j & kv & ? & ?). exists j, kv. set_solver.
  - rewrite Hn. exists i, (k', v'). set_solver.
Qed.

Lemma otree_remove_answers o f t : answers o f -> forall i,
  match otree_remove o i t with
  | Some y => y = (tree_remove f t, tree_find f t)
  | None => exists j kv, kv ∈ tree_inorder t /\ o j kv.1 = None
  end.
Proof.
  intros Ho. induction t as [|l IHl k v r IHr]; intros i; simpl; [done|].
  destruct (Ho i k) as [->|Hn]; [destruct (f k)|].
  - done.
  - specialize (IHl (S i)). destruct (otree_remove o (S i) l); simpl; [by subst|]. destruct IHl as (j & kv & ? & ?). exists j, kv. set_solver.
  - specialize (IHr (S i)). destruct (otree_remove o (S i) r); simpl; [by subst|]. destruct IHr as (j & kv & ? & ?). exists j, kv. set_solver.
  - rewrite Hn. exists i, (k, v). set_solver.
Qed.

Lemma otree_set_answers o f w t : answers o f -> forall i, is_Some (otree_find o i t) -> otree_set o i w t = tree_set f w t.
Proof.
  intros Ho. induction t as [|l IHl k v r IHr]; intros i; simpl; [done|].
  destruct (Ho i k) as [->| ->]; [destruct (f k)|by intros []].
  - done.
  - intros H. by rewrite IHl.
  - intros H. by rewrite IHr.
Qed.

Lemma otree_insert_all_answers os items : legal_inserts cmp os -> forall j t,
  match otree_insert_all os j items t with
  | (t', true) => t' = tree_insert_all cmp items t
  | (t', false) => exists n k v, items !! n = Some (k, v) /\ t' = tree_insert_all cmp (take n items) t /\
      exists i kv, kv ∈ tree_inorder t' /\ os (j + n) k i kv.1 = None
  end.
Proof.
  intros Hos. induction items as [|[k v] items IH]; intros j t; simpl; [done|].
  pose proof (otree_insert_answers (os j k) k v t (Hos j k) 0) as Hi.
  destruct (otree_insert (os j k) 0 k v t) as [[t1 y]|].
  - injection Hi as -> ->. specialize (IH (S j) (tree_insert cmp k v t)).
    destruct (otree_insert_all os (S j) items (tree_insert cmp k v t)) as [t' []]; [done|].
    destruct IH as (n & k0 & v0 & Hn & Ht & i & kv & Hin & Hp). exists (S n), k0, v0. split_and!; [done|done|].
    exists i, kv. split; [done|]. rewrite <- Hp. f_equal. lia.
  - destruct Hi as (i & kv & Hin & Hp). exists 0, k, v. split_and!; [done|done|]. exists i, kv. rewrite Nat.add_0_r. done.
Qed.

Lemma otree_call_tree c t r t' : legal cmp c -> otree_call c t = Some (r, t') -> tree_step cmp t c r t'.
Proof.
  destruct c as [o k v|o|o|o|o|o|o w|o w| | | | |n| |os it|d n|d evs|path|path w| |os ck cv]; cbn [otree_call legal]; intros Hc Hs;
    try (injection Hs as <- <-); try done.
  - pose proof (otree_insert_answers o k v t Hc 0) as Hi. destruct (otree_insert o 0 k v t); simpl; [by subst|].
    split; [done|]. by left.
  - destruct Hc as (f0 & Hq0 & Hc). pose proof (otree_remove_answers o f0 t Hc 0) as Hi.
    destruct (otree_remove o 0 t) as [y|] eqn:He; simpl; [|done].
    intros f Hf. pose proof (otree_remove_answers o f t Hf 0) as Hi'. rewrite He in Hi'. clear Hi. by subst.
  - destruct Hc as (f0 & Hq0 & Hc). pose proof (otree_remove_answers o f0 t Hc 0) as Hi.
    destruct (otree_remove o 0 t) as [y|] eqn:He; simpl; [|done].
    intros f Hf. pose proof (otree_remove_answers o f t Hf 0) as Hi'. rewrite He in Hi'. clear Hi. by subst.
  - destruct Hc as (f0 & Hq0 & Hc). pose proof (otree_find_answers o f0 t Hc 0) as Hi.
    destruct (otree_find o 0 t) as [y|] eqn:He; simpl; [|done]. split; [done|].
    intros f Hf. pose proof (otree_find_answers o f t Hf 0) as Hi'. rewrite He in Hi'. clear Hi. by subst.
  - destruct Hc as (f0 & Hq0 & Hc). pose proof (otree_find_answers o f0 t Hc 0) as Hi.
    destruct (otree_find o 0 t) as [y|] eqn:He; simpl; [|done]. split; [done|].
    intros f Hf. pose proof (otree_find_answers o f t Hf 0) as Hi'. rewrite He in Hi'. clear Hi. by subst.
  - destruct Hc as (f0 & Hq0 & Hc). pose proof (otree_find_answers o f0 t Hc 0) as Hi.
    destruct (otree_find o 0 t) as [y|] eqn:He; simpl; [|done]. split; [done|].
    intros f Hf. pose proof (otree_find_answers o f t Hf 0) as Hi'. rewrite He in Hi'. clear Hi. by subst.
  - destruct Hc as (f0 & Hq0 & Hc). pose proof (otree_find_answers o f0 t Hc 0) as Hi.
    destruct (otree_find o 0 t) as [y|] eqn:He; simpl.
    + intros f Hf. pose proof (otree_find_answers o f t Hf 0) as Hi'. rewrite He in Hi'. clear Hi. subst y. split; [done|].
      destruct w as [w|]; [|done]. apply otree_set_answers; [done|]. by rewrite He.
    + split; [|done]. destruct w as [w|]; [|done]. pose proof (otree_set_idle o w t 0) as Hid. by rewrite He in Hid.
  - destruct Hc as (f0 & Hq0 & Hc). pose proof (otree_find_answers o f0 t Hc 0) as Hi.
    destruct (otree_find o 0 t) as [y|] eqn:He; simpl.
    + intros f Hf. pose proof (otree_find_answers o f t Hf 0) as Hi'. rewrite He in Hi'. clear Hi. subst y. split; [done|].
      destruct w as [w|]; [|done]. apply otree_set_answers; [done|]. by rewrite He.
    + split; [|done]. destruct w as [w|]; [|done]. pose proof (otree_set_idle o w t 0) as Hid. by rewrite He in Hid.
  - pose proof (otree_insert_all_answers os (ui_items it) Hc 0 t) as Hi.
    destruct (otree_insert_all os 0 (ui_items it) t) as [t1 []]; simpl.
    + destruct (ui_panics it) eqn:Hp; simpl; [|done]. exists (length (ui_items it)). rewrite take_ge by done. split; [done|].
      right. left. done.
    + destruct Hi as (n & k & v & Hn & Ht & i & kv & Hin & Hp). exists n. split; [done|]. right. right. exists k, v.
      split; [done|]. left. split; [done|]. by exists i, kv.
  - destruct Hc as [Hos Hck]. destruct (clones ck cv 0 (tree_preorder t)) as [l b] eqn:Hcl. cbn [fst snd] in Hs.
    pose proof (otree_insert_all_answers os l Hos 0 tleaf) as Hi.
    destruct (otree_insert_all os 0 l tleaf) as [t1 []]; cbn [fst snd] in Hs; [destruct b|]; injection Hs as <- <-; simpl.
    + split; [done|]. by exists l.
    + split; [done|]. right. right. split; [done|].
      destruct (clones_stop ck cv (tree_preorder t) 0) as (j & kv & Hin & Hw); [by rewrite Hcl|].
      exists j, kv. split; [|done]. by rewrite <- tree_pre_in.
    + split; [done|]. right. left. split; [done|].
      destruct Hi as (n & k & v & Hn & Ht & i & kv & Hin & Hp). by exists n, k, i, kv.1.
Qed.

(** ** The derived clone *)
Lemma tree_clone_clones (ck : nat -> K -> option K) (cv : nat -> V -> option V) t : forall j,
  match tree_clone ck cv j t with
  | Some t' => clones ck cv j (tree_preorder t) = (tree_preorder t', true)
  | None => (clones ck cv j (tree_preorder t)).2 = false
  end.
Proof.
  induction t as [|l IHl k v r IHr]; intros j; cbn [tree_clone tree_preorder clones]; [done|].
  destruct (ck j k) as [k'|]; [destruct (cv j v) as [v'|]|]; [|done..].
  rewrite clones_app. specialize (IHl (S j)). specialize (IHr (S j + length (tree_preorder l))).
  rewrite <- (Permutation_length (tree_pre_in l)).
  destruct (tree_clone ck cv (S j) l) as [l'|].
  - rewrite IHl. destruct (tree_clone ck cv (S j + length (tree_preorder l)) r) as [r'|].
    + by rewrite IHr.
    + destruct (clones ck cv (S j + _) (tree_preorder r)) as [a b]. simpl in *. by subst.
  - destruct (clones ck cv (S j) (tree_preorder l)) as [a b]. simpl in *. by subst.
Qed.

Lemma tree_clone_bst (ck : nat -> K -> option K) (cv : nat -> V -> option V) t :
  (forall j k k', ck j k = Some k' -> cmp k' k = Eq) -> forall j t', tree_clone ck cv j t = Some t' ->
  Forall2 (fun a b => cmp a.1 b.1 = Eq) (tree_inorder t') (tree_inorder t) /\ (bst cmp t -> bst cmp t').
Proof using Hlaw.
  intros Hck. induction t as [|l IHl k v r IHr]; intros j t'; simpl.
  - intros [= <-]. split; [constructor|done].
  - destruct (ck j k) as [k'|] eqn:Hk; [destruct (cv j v) as [v'|]|]; [|done..].
    destruct (tree_clone ck cv (S j) l) as [l'|] eqn:Hl; [|done].
    destruct (tree_clone ck cv _ r) as [r'|] eqn:Hr; [|done]. intros [= <-].
    apply IHl in Hl as [Hl1 Hl2]. apply IHr in Hr as [Hr1 Hr2]. apply Hck in Hk. split.
    + simpl. apply Forall2_app; [done|]. by constructor.
    + simpl. intros (B1 & B2 & B3 & B4). split_and!; [by apply Hl2|by apply Hr2| |].
      * apply Forall_forall. intros x Hx. apply elem_of_list_lookup in Hx as [i Hx].
        destruct (Forall2_lookup_l _ _ _ _ _ Hl1 Hx) as (y & Hy & Heq).
        rewrite Forall_forall in B3. specialize (B3 y (elem_of_list_lookup_2 _ _ _ Hy)).
        rewrite (lw_cong _ Hlaw _ _ k' Heq). by rewrite (cmp_cong_r cmp Hlaw _ _ _ Hk).
      * apply Forall_forall. intros x Hx. apply elem_of_list_lookup in Hx as [i Hx].
        destruct (Forall2_lookup_l _ _ _ _ _ Hr1 Hx) as (y & Hy & Heq).
        rewrite Forall_forall in B4. specialize (B4 y (elem_of_list_lookup_2 _ _ _ Hy)).
        rewrite (lw_cong _ Hlaw _ _ x.1 Hk). by rewrite (cmp_cong_r cmp Hlaw _ _ _ Heq).
Qed.

(** ** One call *)
Lemma stree_call_map c t r t' l l' : legal cmp c -> bst cmp t -> stree_call c t = Some (r, t') ->
  l ≡ₚ tree_inorder t -> l' ≡ₚ tree_inorder t' -> simple_step cmp l c r l' /\ bst cmp t'.
Proof using Hlaw.
  intros Hc Ht Hs Hl Hl'.
  assert (Hgo : otree_call c t = Some (r, t') -> (forall p, r = Panic p -> p = PCmp \/ p = PIter) ->
    match c with OIterMut _ _ | OClone _ _ _ => False | _ => True end -> r <> Abort -> simple_step cmp l c r l' /\ bst cmp t').
  { intros Ho Hp Hk Ha. destruct (tree_step_map cmp Hlaw t c r t' l l' Hc Ht (otree_call_tree _ _ _ _ Hc Ho) Hl Hl') as [Hm Hb].
    split; [|done]. destruct c, r; try done; split; auto. }
  destruct c as [o k v|o|o|o|o|o|o w|o w| | | | |n| |os it|d n|d evs|path|path w| |os ck cv];
    try (apply Hgo; [exact Hs| |done|]; clear Hgo; cbn in Hs; injection Hs as <- <-; unfold or_panic;
      [intros p|]; repeat case_match; naive_solver); try done.
  - cbn [stree_call] in Hs. injection Hs as <- <-. split; [|done]. destruct (calls_next evs) eqn:Hn; (split; [by rewrite Hl, Hl'|by rewrite Hn]).
  - cbn [stree_call] in Hs. injection Hs as <- <-. split; [|done]. split; [by rewrite Hl, Hl'|]. eauto.
  - cbn [stree_call] in Hs. destruct Hc as [Hos Hck]. pose proof (tree_clone_clones ck cv t 0) as Hcl.
    destruct (tree_clone ck cv 0 t) as [t1|] eqn:Ht1; injection Hs as <- <-.
    + split; [|by eapply tree_clone_bst]. split; [done|]. exists (tree_preorder t), (tree_preorder t1).
      split_and!; [by rewrite tree_pre_in, Hl|done|by rewrite tree_pre_in, Hl'].
    + split; [|done]. split_and!; [by rewrite Hl, Hl'|done|].
      destruct (clones_stop ck cv (tree_preorder t) 0 Hcl) as (j & kv & Hin & Hw). exists j, kv. split; [|done].
      by rewrite Hl, <- tree_pre_in.
Qed.

Lemma simple_steps_map cs : forall t rs t' l, Forall (legal cmp) cs -> bst cmp t -> steps stree_step t cs rs t' ->
  l ≡ₚ tree_inorder t ->
  exists l', steps (simple_step cmp) l cs rs l' /\ (alive rs -> l' ≡ₚ tree_inorder t' /\ bst cmp t').
Proof using Hlaw.
  induction cs as [|c cs IH]; intros t rs t' l Hcs Ht Hs Hl.
  - destruct rs; [|done]. simpl in *. subst. exists l. done.
  - destruct rs as [|r rs]; [done|]. apply Forall_cons in Hcs as [Hc Hcs]. simpl in Hs.
    destruct Hs as (t1 & [Hs1|[-> Ha]] & Hs).
    + destruct (stree_call_map c t r t1 l (tree_inorder t1) Hc Ht Hs1 Hl (reflexivity _)) as [Hm Ht1].
      destruct r as [x|p| |u|]; try done.
      * destruct (IH t1 rs t' (tree_inorder t1)) as (l' & H1 & H2); try done. exists l'. split; [simpl; eauto|].
        intros Hal. apply Forall_cons in Hal as [_ Hal]. auto.
      * destruct (IH t1 rs t' (tree_inorder t1)) as (l' & H1 & H2); try done. exists l'. split; [simpl; eauto|].
        intros Hal. apply Forall_cons in Hal as [_ Hal]. auto.
      * exists l. split; [|intros Hal; by apply Forall_cons in Hal as [? _]]. exists l. split; [|by destruct Hs].
        destruct c; done.
    + exists l. split; [|intros Hal; by apply Forall_cons in Hal as [? _]]. exists l. split; [|by destruct Hs].
      destruct c; done.
Qed.

Lemma otree_start_tree s t : legal_start cmp s -> otree_start s t -> t = start_tree cmp s.
Proof.
  destruct s as [|n|os it]; cbn; [done|done|]. intros Hos [Ho _].
  pose proof (otree_insert_all_answers os (ui_items it) Hos 0 tleaf) as H. by rewrite Ho in H.
Qed.

Lemma simple_refines e (s : start K V) cs rs (m : simple K V) : simple_has_start s = true ->
  Forall (fun c => simple_has c = true) cs -> legal_start cmp s -> Forall (legal cmp) cs -> simple_reached e s cs rs m ->
  exists l, steps (simple_step cmp) (start_map cmp s) cs rs l /\
    (alive rs -> exists pt, simple_rep m pt /\ bst cmp (erase pt) /\ l ≡ₚ tree_inorder (erase pt)).
Proof using Hlaw.
  intros Hs Hcs Hls Hlc Hr. destruct (simple_any_comparator e s cs rs m Hs Hcs Hr) as (t0 & t & Ht0 & Hst & Hfin).
  apply (otree_start_tree _ _ Hls) in Ht0 as ->.
  destruct (simple_steps_map cs _ rs t (start_map cmp s) Hlc (start_bst cmp Hlaw s) Hst) as (l & Hl & Hal).
  { by rewrite (start_contents cmp Hlaw s). }
  exists l. split; [done|]. intros H. destruct (Hfin H) as (pt & Hrep & <-). destruct (Hal H) as [H1 H2]. by exists pt.
Qed.

(** C38 *)
Lemma simple_lookups_refine e (s : start K V) cs rs (m : simple K V) : simple_has_start s = true ->
  Forall (fun c => simple_has c = true) cs -> legal_start cmp s -> Forall (legal cmp) cs -> simple_reached e s cs rs m ->
  exists l, steps (simple_step cmp) (start_map cmp s) cs rs l /\
    (alive rs -> (exists l', l' ≡ₚ l /\ sorted cmp l' /\ simple_yields m In l') /\
      simple_len m = N.of_nat (length l) /\ (forall b, simple_is_empty b m = Ret (N.of_nat (length l) =? 0)%N) /\
      forall f o, is_query cmp f -> surely o f ->
        simple_get m o = Ret (snd <$> assoc_find f l) /\
        simple_get_entry m o = Ret (assoc_find f l) /\
        simple_contains_key m o = Ret (match assoc_find f l with Some _ => true | None => false end)).
Proof using Hlaw.
  intros Hs Hcs Hls Hlc Hr. destruct (simple_refines e s cs rs m Hs Hcs Hls Hlc Hr) as (l & Hl & Hal).
  exists l. split; [done|]. intros (pt & Hrep & Hb & Hp)%Hal.
  assert (Hlen : length l = tsize pt) by (by rewrite Hp, erase_size).
  split_and!.
  - exists (tree_inorder (erase pt)). split_and!; [done|by apply bst_sorted|by apply (simple_rep_yields m pt In)].
  - unfold simple_len. rewrite Hlen. apply Hrep.
  - intros b. rewrite (simple_is_empty_eq b m pt Hrep), Hlen. f_equal. destruct pt as [|? ? ? ? ?]; [done|].
    symmetry. apply N.eqb_neq. unfold tsize. simpl. lia.
  - intros f o Hf Ho. rewrite <- (tree_find_assoc cmp Hlaw f (erase pt) l Hf Hb Hp).
    destruct (surely_tget o f pt Ho 0) as (y & Hy & Hy').
    rewrite (simple_get_eq m pt o Hrep), (simple_get_entry_eq m pt o Hrep), (simple_contains_eq m pt o Hrep), Hy, <- Hy'.
    split_and!; simpl; by destruct y as [[? []]|].
Qed.

End lawful.

(** ** Comparison with BSTMap *)
Section compare.
Context {K V : Type}.
Implicit Types t : tree K V.

Lemma unrefused_call c t x t' : shared c = true \/ calm_clone c -> otree_step t c x t' -> unrefused x ->
  otree_call c t = Some (x, t').
Proof.
  intros Hc [H|[H|H]] (Ha & Hcap & Has & Hov); [done|exfalso..].
  - destruct c; try done; by destruct Hc.
  - assert (Hn : ~ alloc_refused x) by (by intros [?|[?|?]]).
    destruct c; try done; cbn in H; try (destruct H as [? _]; done); destruct H as [[?|?] _]; done.
Qed.

Lemma shared_call c t x t1 y t2 : shared c = true -> otree_call c t = Some (x, t1) -> stree_call c t = Some (y, t2) ->
  same_result x y /\ t1 = t2.
Proof.
  intros Hc Hx Hy.
  assert (Hgo : stree_call c t = otree_call c t -> same_result x y /\ t1 = t2).
  { intros H. rewrite H, Hx in Hy. injection Hy as <- <-. split; [by left|done]. }
  destruct c; try done; try (by apply Hgo). cbn in Hx, Hy. injection Hx as <- <-. injection Hy as <- <-. split; [|done].
  right. eauto.
Qed.

Lemma same_ends (x y : res (out K V)) : same_result x y -> unrefused x -> y <> Abort ->
  (exists a b, x = Ret a /\ y = Ret b) \/ (exists p, x = Panic p /\ y = Panic p) \/ ((x = Diverge \/ exists u, x = UB u) /\ y = x).
Proof.
  intros [->|(root & n & -> & ->)] (Ha & _) Hb; [|left; eauto]. destruct y; naive_solver.
Qed.

(** Two histories in lockstep; [P] is kept by both. *)
Lemma lockstep (P : tree K V -> Prop) (ok : op K V -> Prop) :
  (forall c t x t1 y t2, ok c -> P t -> otree_step t c x t1 -> unrefused x -> stree_step t c y t2 -> y <> Abort ->
     same_result x y /\ t1 = t2 /\ P t1) ->
  forall cs t rs1 u1 rs2 u2, Forall ok cs -> P t -> steps otree_step t cs rs1 u1 -> steps stree_step t cs rs2 u2 ->
  Forall unrefused rs1 -> alive rs2 -> Forall2 same_result rs1 rs2 /\ u1 = u2.
Proof.
  intros Hstep. induction cs as [|c cs IH]; intros t rs1 u1 rs2 u2 Hok HP H1 H2 Hr Hal.
  - destruct rs1, rs2; try done. simpl in *. subst. split; [constructor|done].
  - destruct rs1 as [|x rs1], rs2 as [|y rs2]; try done. apply Forall_cons in Hok as [Hc Hok].
    apply Forall_cons in Hr as [Hx Hr]. apply Forall_cons in Hal as [Hy Hal].
    destruct H1 as (v1 & H1 & H1'), H2 as (v2 & H2 & H2').
    destruct (Hstep c t x v1 y v2 Hc HP H1 Hx H2 Hy) as (Hs & <- & HP').
    assert (Hgo : steps otree_step v1 cs rs1 u1 /\ steps stree_step v1 cs rs2 u2).
    { destruct (same_ends x y Hs Hx Hy) as [(a & b & -> & ->)|[(p & -> & ->)|[[->|[u ->]] ->]]]; done. }
    destruct (IH v1 rs1 u1 rs2 u2 Hok HP' (proj1 Hgo) (proj2 Hgo) Hr Hal) as [Hf ->]. split; [by constructor|done].
Qed.

Lemma otree_start_fun s t1 t2 : otree_start s t1 -> otree_start s t2 -> t1 = t2.
Proof. destruct s; cbn; [by intros -> ->..|]. intros [H _] [H' _]. rewrite H in H'. by injection H'. Qed.

Lemma differential_gen (P : tree K V -> Prop) (ok : op K V -> Prop) e b (s : start K V) cs rs1 (m1 : bstmap K V) rs2 m2 :
  (forall c t x t1 y t2, ok c -> P t -> otree_step t c x t1 -> unrefused x -> stree_step t c y t2 -> y <> Abort ->
     same_result x y /\ t1 = t2 /\ P t1) ->
  (forall t0, otree_start s t0 -> P t0) -> (forall c, ok c -> simple_has c = true) ->
  simple_has_start s = true -> Forall ok cs ->
  reached e s cs rs1 m1 -> simple_reached b s cs rs2 m2 -> Forall unrefused rs1 -> alive rs2 ->
  Forall2 same_result rs1 rs2 /\
  (exists t, shows m1 t /\ simple_shows m2 t) /\ forall d, exists l, yields m1 d l /\ simple_yields m2 d l.
Proof.
  intros Hstep HP Hhas Hs Hok H1 H2 Hr Hal.
  destruct (any_comparator e s cs rs1 m1 H1) as (t0 & t & Ht0 & Hst & Hsh & Hy).
  assert (Hcs : Forall (fun c => simple_has c = true) cs) by (eapply Forall_impl; [exact Hok|done]).
  destruct (simple_any_comparator b s cs rs2 m2 Hs Hcs H2) as (t0' & t' & Ht0' & Hst' & Hfin).
  assert (t0' = t0) as -> by (by eapply otree_start_fun).
  destruct (lockstep P ok Hstep cs t0 rs1 t rs2 t' Hok (HP _ Ht0) Hst Hst' Hr Hal) as [Hf <-].
  destruct (Hfin Hal) as (pt & Hrep & <-). split; [done|]. split.
  - exists (erase pt). split; [done|]. by apply simple_rep_shows.
  - intros d. exists (tree_order d (erase pt)). split; [done|]. by apply simple_rep_yields.
Qed.

(** C39, any comparator *)
Lemma differential e b (s : start K V) cs rs1 (m1 : bstmap K V) rs2 m2 :
  simple_has_start s = true -> Forall (fun c => shared c = true) cs ->
  reached e s cs rs1 m1 -> simple_reached b s cs rs2 m2 -> Forall unrefused rs1 -> alive rs2 ->
  Forall2 same_result rs1 rs2 /\
  (exists t, shows m1 t /\ simple_shows m2 t) /\ forall d, exists l, yields m1 d l /\ simple_yields m2 d l.
Proof.
  apply (differential_gen (fun _ => True)); [|done|by intros []].
  intros c t x t1 y t2 Hc _ H1 Hx [H2|[H2 _]] Hy; [|done].
  destruct (shared_call c t x t1 y t2 Hc) as [Hs ->]; [|done|done]. by apply unrefused_call; [left|..].
Qed.

(** C39, with clones *)
Lemma clone_call (cmp : K -> K -> comparison) (Hlaw : lawful cmp) c t x t1 : calm_clone c -> legal cmp c -> bst cmp t ->
  otree_call c t = Some (x, t1) -> stree_call c t = Some (x, t1).
Proof.
  intros Hcalm Hc Ht. destruct c; try done. cbn in Hcalm. destruct Hc as [Hos Hck]. cbn [otree_call stree_call].
  pose proof (tree_clone_clones ck cv t 0) as Hcl.
  pose proof (otree_insert_all_answers cmp Hlaw os (clones ck cv 0 (tree_preorder t)).1 Hos 0 tleaf) as Hi.
  destruct (otree_insert_all os 0 (clones ck cv 0 (tree_preorder t)).1 tleaf) as [u []]; cbn [fst snd].
  2:{ destruct Hi as (n & k & v & _ & _ & i & kv & _ & Hn). by apply Hcalm in Hn. }
  destruct (tree_clone ck cv 0 t) as [t'|] eqn:Ht'.
  - rewrite Hcl in Hi |- *. cbn [fst snd] in *. subst u. rewrite tree_rebuild; [done|done|].
    by eapply (tree_clone_bst cmp Hlaw ck cv t Hck).
  - rewrite Hcl. done.
Qed.

Lemma differential_lawful (cmp : K -> K -> comparison) : lawful cmp -> forall e b (s : start K V) cs rs1 (m1 : bstmap K V) rs2 m2,
  simple_has_start s = true -> legal_start cmp s -> Forall (legal cmp) cs ->
  Forall (fun c => shared c = true \/ calm_clone c) cs ->
  reached e s cs rs1 m1 -> simple_reached b s cs rs2 m2 -> Forall unrefused rs1 -> alive rs2 ->
  Forall2 same_result rs1 rs2 /\
  (exists t, shows m1 t /\ simple_shows m2 t) /\ forall d, exists l, yields m1 d l /\ simple_yields m2 d l.
Proof.
  intros Hlaw e b s cs rs1 m1 rs2 m2 Hs Hls Hlc Hsh.
  assert (Hboth : Forall (fun c => legal cmp c /\ (shared c = true \/ calm_clone c)) cs) by (by apply Forall_and).
  revert Hs Hboth.
  apply (differential_gen (bst cmp)).
  - intros c t x t1 y t2 [Hc Hsc] Hb H1 Hx [H2|[H2 _]] Hy; [|done].
    apply (unrefused_call c t x t1 Hsc) in H1; [|done].
    assert (Hb1 : bst cmp t1).
    { eapply (tree_step_map cmp Hlaw t c x t1); [done|done| |done|done]. by apply otree_call_tree. }
    destruct Hsc as [Hsc|Hsc].
    + destruct (shared_call c t x t1 y t2 Hsc H1 H2) as [? ->]. done.
    + pose proof (clone_call cmp Hlaw c t x t1 Hsc Hc Hb H1) as H1'. rewrite H2 in H1'. injection H1' as -> ->.
      split_and!; [by left|done|done].
  - intros t0 Ht0. rewrite (otree_start_tree cmp Hlaw s t0 Hls Ht0). by apply start_bst.
  - intros c [_ [Hc|Hc]]; by destruct c.
Qed.

(** The starts *)
Lemma differential_start e b (s : start K V) r1 m1 r2 m2 : simple_has_start s = true ->
  begin e s = (r1, m1) -> simple_begin b s = (r2, m2) -> unrefused r1 -> r2 <> Abort -> r1 = r2.
Proof.
  intros Hs H1 H2 (Ha & Hcap & Has & Hov) Hal. pose proof (simple_begin_spec b s Hs) as H. rewrite H2 in H.
  destruct s as [|n|os it]; [|done|].
  { cbn in H1. injection H1 as <- _. destruct r2 as [[]|p| |u|]; try done. }
  cbn in H1. pose proof (map_from_iter_spec e os it) as Hf. rewrite H1 in Hf.
  assert (Hout : match r1 with
    | Ret _ => ui_panics it = false /\ (otree_insert_all os 0 (ui_items it) tleaf).2 = true
    | Panic p => (p = PIter /\ ui_panics it = true /\ (otree_insert_all os 0 (ui_items it) tleaf).2 = true) \/
                 (p = PCmp /\ (otree_insert_all os 0 (ui_items it) tleaf).2 = false)
    | _ => False end).
  { destruct r1 as [u|p| |u|]; try done.
    - destruct Hf as (Hp & t & fl & _ & Hr & _). apply ins_rel_otree in Hr. cbn [erase] in Hr. by rewrite Hr.
    - destruct Hf as (_ & [[Hf _]|(n & t & cap & Hr & Hst & _)]).
      { unfold alloc_fail in Hf. naive_solver. }
      apply ins_rel_otree in Hr. cbn [erase] in Hr. destruct Hst as [([= ->] & Hp & ->)|(k & v & Hn & [[[= ->] Hp]|[Hf _]])].
      + left. rewrite take_ge in Hr by done. by rewrite Hr.
      + right. split; [done|]. pose proof (tins_otree (os (0 + n) k) k v (0, 0)%N t 0) as H'. rewrite (Hp (0, 0)%N) in H'.
        by rewrite (otree_insert_all_stop _ _ _ _ _ _ _ _ Hr Hn (proj2 H')).
      + unfold alloc_fail in Hf. naive_solver. }
  destruct r2 as [[]|p2| |u2|]; try done.
  - destruct H as (t & _ & [Ho Hp]). rewrite Ho in Hout. destruct r1 as [[]|p1| |u1|]; try done.
    destruct Hout as [(_ & ? & _)|[_ ?]]; simpl in *; congruence.
  - destruct r1 as [[]|p1| |u1|]; try done.
    + destruct Hout as [Hp Ho]. destruct H as [(_ & ? & _)|[_ ?]]; congruence.
    + destruct Hout as [(-> & _ & ?)|[-> ?]], H as [(-> & _ & ?)|[-> ?]]; congruence.
Qed.

End compare.

(** ** Statements of the property file *)
Section finals.
Context {K V : Type}.
Implicit Types m : simple K V.

Lemma simple_any_comparator_shows e (s : start K V) cs rs m :
  simple_has_start s = true -> Forall (fun c => simple_has c = true) cs -> simple_reached e s cs rs m ->
  exists t0 t, otree_start s t0 /\ steps stree_step t0 cs rs t /\
    (alive rs -> simple_shows m t /\ forall d, simple_yields m d (tree_order d t)).
Proof.
  intros Hs Hcs Hr. destruct (simple_any_comparator e s cs rs m Hs Hcs Hr) as (t0 & t & H0 & Hst & Hfin).
  exists t0, t. split_and!; [done..|]. intros (pt & Hrep & <-)%Hfin. split; [by apply simple_rep_shows|].
  intros d. by apply simple_rep_yields.
Qed.

Lemma simple_never_fails e c m r m' :
  simple_reachable e m -> simple_has c = true -> simple_exec e c m = (r, m') ->
  ((exists x, r = Ret x) \/ (exists p, r = Panic p /\ simple_stop c p) \/ (r = Abort /\ allocates c = true)) /\
  (r <> Abort -> simple_reachable e m').
Proof. intros H Hc He. split; [by eapply simple_step_ends|]. intros. by eapply simple_reachable_step. Qed.

Lemma simple_begin_never_fails e (s : start K V) : simple_has_start s = true ->
  match simple_begin e s with
  | (Ret _, m) => simple_reachable e m
  | (Panic p, _) => exists os it, s = SFromIter os it /\ (p = PCmp \/ (p = PIter /\ ui_panics it = true))
  | (Abort, _) => True
  | _ => False
  end.
Proof.
  intros Hs. pose proof (simple_begin_spec e s Hs) as H. destruct (simple_begin e s) as [[[]|p| |u|] m] eqn:Hb; try done.
  - exists s, [], []. split_and!; [done|done|by exists m|constructor].
  - destruct s as [|n|os it]; [done..|]. exists os, it. split; [done|]. naive_solver.
Qed.

Lemma simple_eq_lists e1 e2 m1 m2 (eqK : K -> K -> bool) (eqV : V -> V -> bool) l1 l2 :
  simple_reachable e1 m1 -> simple_reachable e2 m2 -> simple_yields m1 In l1 -> simple_yields m2 In l2 ->
  exists b, simple_eq eqK eqV m1 m2 = Ret b /\
    (b = true <-> Forall2 (fun a b => eqK a.1 b.1 = true /\ eqV a.2 b.2 = true) l1 l2).
Proof.
  intros (t1 & H1)%simple_reachable_rep (t2 & H2)%simple_reachable_rep Hy1 Hy2.
  rewrite (simple_yields_fun m1 t1 In l1 H1 Hy1), (simple_yields_fun m2 t2 In l2 H2 Hy2). cbn [tree_order].
  eexists. split; [by apply simple_eq_spec|]. apply list_eqb_iff.
Qed.

Lemma simple_iter_mut_panics e m d (evs : list (mut_event V)) :
  calls_next evs = true -> simple_exec e (OIterMut d evs) m = (Panic PTodo, m).
Proof. intros H. cbn [simple_exec]. rewrite simple_mut_run_eq, H. done. Qed.

Lemma simple_listing e m : simple_reachable e m -> exists l, simple_yields m In l /\ length l = size (s_mem m).
Proof. intros H. by apply (simple_no_leak e m H). Qed.

End finals.
