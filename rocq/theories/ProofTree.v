(** * Trees carrying node addresses, contexts, and the memory they describe *)

From Verif Require Export Spec ProofSlab ModelMap.

Inductive ptree (K V : Type) :=
| Leaf
| Bin (l : ptree K V) (p : Ptr) (k : K) (v : V) (r : ptree K V).
Arguments Leaf {K V}.
Arguments Bin {K V} l p k v r.

Section ptree.
Context {K V : Type}.
Implicit Types t : ptree K V.

Definition rootp t : option Ptr := match t with Leaf => None | Bin _ p _ _ _ => Some p end.

(** The nodes of the tree, as they are in memory. *)
Fixpoint nodes t : list (Ptr * inner K V) :=
  match t with
  | Leaf => []
  | Bin l p k v r => (p, mkInner k v (rootp l) (rootp r)) :: nodes l ++ nodes r
  end.

Definition ptrs t : list Ptr := (nodes t).*1.

Fixpoint erase t : tree K V :=
  match t with
  | Leaf => tleaf
  | Bin l p k v r => tnode (erase l) k v (erase r)
  end.

(** Entries with addresses, in the three orders. *)
Fixpoint ppre t : list (Ptr * (K * V)) :=
  match t with
  | Leaf => []
  | Bin l p k v r => (p, (k, v)) :: ppre l ++ ppre r
  end.
Fixpoint pin t : list (Ptr * (K * V)) :=
  match t with
  | Leaf => []
  | Bin l p k v r => pin l ++ (p, (k, v)) :: pin r
  end.
Fixpoint ppost t : list (Ptr * (K * V)) :=
  match t with
  | Leaf => []
  | Bin l p k v r => ppost l ++ ppost r ++ [(p, (k, v))]
  end.

Definition tsize t : nat := length (nodes t).

Fixpoint pheight t : nat :=
  match t with Leaf => 0 | Bin l _ _ _ r => S (Nat.max (pheight l) (pheight r)) end.

Lemma pheight_size t : pheight t <= tsize t.
Proof.
  unfold tsize. induction t as [|l IHl p k v r IHr]; simpl; [lia|].
  rewrite app_length. lia.
Qed.

Lemma ptrs_bin l p k v r : ptrs (Bin l p k v r) = p :: ptrs l ++ ptrs r.
Proof. unfold ptrs. simpl. by rewrite fmap_app. Qed.

Lemma ppre_fst t : (ppre t).*1 = ptrs t.
Proof.
  induction t as [|l IHl p k v r IHr]; [done|]. rewrite ptrs_bin. simpl.
  by rewrite fmap_app, IHl, IHr.
Qed.

Lemma pin_ppre t : pin t ≡ₚ ppre t.
Proof.
  induction t as [|l IHl p k v r IHr]; simpl; [done|].
  rewrite IHl, IHr. solve_Permutation.
Qed.
Lemma ppost_ppre t : ppost t ≡ₚ ppre t.
Proof.
  induction t as [|l IHl p k v r IHr]; simpl; [done|].
  rewrite IHl, IHr. solve_Permutation.
Qed.

Lemma ppre_erase t : (ppre t).*2 = tree_preorder (erase t).
Proof. induction t as [|l IHl p k v r IHr]; simpl; [done|]. by rewrite fmap_app, IHl, IHr. Qed.
Lemma pin_erase t : (pin t).*2 = tree_inorder (erase t).
Proof. induction t as [|l IHl p k v r IHr]; simpl; [done|]. rewrite fmap_app, fmap_cons, IHl, IHr. done. Qed.
Lemma ppost_erase t : (ppost t).*2 = tree_postorder (erase t).
Proof. induction t as [|l IHl p k v r IHr]; simpl; [done|]. by rewrite !fmap_app, IHl, IHr. Qed.

Lemma ppre_nodes t : ppre t = (fun x => (x.1, (n_key x.2, n_value x.2))) <$> nodes t.
Proof. induction t as [|l IHl p k v r IHr]; simpl; [done|]. by rewrite fmap_app, IHl, IHr. Qed.

Lemma ppre_length t : length (ppre t) = tsize t.
Proof. unfold tsize. by rewrite ppre_nodes, fmap_length. Qed.
Lemma pin_length t : length (pin t) = tsize t.
Proof. by rewrite pin_ppre, ppre_length. Qed.
Lemma ppost_length t : length (ppost t) = tsize t.
Proof. by rewrite ppost_ppre, ppre_length. Qed.

(** ** Contexts *)

Inductive frame := FL (p : Ptr) (k : K) (v : V) (r : ptree K V) | FR (l : ptree K V) (p : Ptr) (k : K) (v : V).

Definition fptr (f : frame) : Ptr := match f with FL p _ _ _ => p | FR _ p _ _ => p end.
Definition fkey (f : frame) : K := match f with FL _ k _ _ => k | FR _ _ k _ => k end.
Definition fsib (f : frame) : ptree K V := match f with FL _ _ _ r => r | FR l _ _ _ => l end.
Definition plug1 (f : frame) t : ptree K V :=
  match f with FL p k v r => Bin t p k v r | FR l p k v => Bin l p k v t end.
Fixpoint plug (C : list frame) t : ptree K V :=
  match C with [] => t | f :: C => plug C (plug1 f t) end.

(** The memory of a frame whose hole is [h]. *)
Definition fnode (f : frame) (h : option Ptr) : Ptr * inner K V :=
  match f with
  | FL p k v r => (p, mkInner k v h (rootp r))
  | FR l p k v => (p, mkInner k v (rootp l) h)
  end.
Fixpoint cnodes (C : list frame) (h : option Ptr) : list (Ptr * inner K V) :=
  match C with
  | [] => []
  | f :: C => fnode f h :: nodes (fsib f) ++ cnodes C (Some (fptr f))
  end.
Definition cparent (C : list frame) : option Ptr := fptr <$> head C.

Lemma nodes_plug C t : nodes (plug C t) ≡ₚ nodes t ++ cnodes C (rootp t).
Proof.
  revert t. induction C as [|f C IH]; intros t; simpl; [by rewrite app_nil_r|].
  rewrite IH. destruct f; simpl; solve_Permutation.
Qed.

Lemma plug_app C D t : plug (C ++ D) t = plug D (plug C t).
Proof. revert t. induction C as [|f C IH]; intros t; simpl; [done|]. by rewrite IH. Qed.

Lemma rootp_plug1 f t : rootp (plug1 f t) = Some (fptr f).
Proof. by destruct f. Qed.

Lemma rootp_plug_cong C t t' : C <> [] \/ rootp t = rootp t' -> rootp (plug C t) = rootp (plug C t').
Proof.
  revert t t'. induction C as [|f C IH]; intros t t' H; simpl; [naive_solver|].
  apply IH. right. by rewrite !rootp_plug1.
Qed.

(** ** The operations on trees, driven by a comparison oracle *)

Fixpoint tget (o : oracle K) (i : nat) t : res (option (Ptr * (K * V))) :=
  match t with
  | Leaf => Ret None
  | Bin l p k v r =>
    let* c := ask o i k in
    match c with
    | Lt => tget o (S i) l
    | Gt => tget o (S i) r
    | Eq => Ret (Some (p, (k, v)))
    end
  end.

Fixpoint tins (o : oracle K) (i : nat) (k : K) (v : V) (q : Ptr) t : res (ptree K V * option V) :=
  match t with
  | Leaf => Ret (Bin Leaf q k v Leaf, None)
  | Bin l p k0 v0 r =>
    let* c := ask o i k0 in
    match c with
    | Lt => let* '(l', x) := tins o (S i) k v q l in Ret (Bin l' p k0 v0 r, x)
    | Gt => let* '(r', x) := tins o (S i) k v q r in Ret (Bin l p k0 v0 r', x)
    | Eq => Ret (Bin l p k0 v r, Some v0)
    end
  end.

(** Smallest entry of a non-empty tree and the rest. *)
Fixpoint tmin (l : ptree K V) (p : Ptr) (k : K) (v : V) (r : ptree K V) : (Ptr * (K * V)) * ptree K V :=
  match l with
  | Leaf => ((p, (k, v)), r)
  | Bin ll lp lk lv lr => let '(x, l') := tmin ll lp lk lv lr in (x, Bin l' p k v r)
  end.

Definition tjoin (l r : ptree K V) : ptree K V :=
  match l, r with
  | Leaf, _ => r
  | _, Leaf => l
  | _, Bin rl rp rk rv rr =>
    let '((p, (k, v)), r') := tmin rl rp rk rv rr in Bin l p k v r'
  end.

Fixpoint trem (o : oracle K) (i : nat) t : res (ptree K V * option (Ptr * (K * V))) :=
  match t with
  | Leaf => Ret (Leaf, None)
  | Bin l p k v r =>
    let* c := ask o i k in
    match c with
    | Lt => let* '(l', x) := trem o (S i) l in Ret (Bin l' p k v r, x)
    | Gt => let* '(r', x) := trem o (S i) r in Ret (Bin l p k v r', x)
    | Eq => Ret (tjoin l r, Some (p, (k, v)))
    end
  end.

(** Change the value of the node at address [q]. *)
Fixpoint tset (q : Ptr) (w : V) t : ptree K V :=
  match t with
  | Leaf => Leaf
  | Bin l p k v r => Bin (tset q w l) p k (if decide (p = q) then w else v) (tset q w r)
  end.

(** Search with a context, as [remove_entry] does. *)
Fixpoint tfind (o : oracle K) (i : nat) (C : list frame) t : res (list frame * ptree K V) :=
  match t with
  | Leaf => Ret (C, Leaf)
  | Bin l p k v r =>
    let* c := ask o i k in
    match c with
    | Lt => tfind o (S i) (FL p k v r :: C) l
    | Gt => tfind o (S i) (FR l p k v :: C) r
    | Eq => Ret (C, t)
    end
  end.

Lemma tfind_trem o t : forall i C,
  match tfind o i C t with
  | Ret (C', Leaf) => trem o i t = Ret (t, None) /\ plug C' Leaf = plug C t
  | Ret (C', Bin l p k v r) =>
      exists t', trem o i t = Ret (t', Some (p, (k, v))) /\ plug C' (tjoin l r) = plug C t' /\
        plug C' (Bin l p k v r) = plug C t
  | Panic x => trem o i t = Panic x /\ x = PCmp
  | _ => False
  end.
Proof.
  induction t as [|l IHl p k v r IHr]; intros i C; simpl; [done|].
  unfold ask. destruct (o i k) as [[]|]; simpl; [| | |done].
  - eauto.
  - specialize (IHl (S i) (FL p k v r :: C)).
    destruct (tfind _ _ _ l) as [[C' [|l' p' k' v' r']]|x| | |]; try done; simpl in *.
    + destruct IHl as [-> ?]. done.
    + destruct IHl as (t' & -> & ? & ?). eexists. split_and!; [done|done|done].
    + destruct IHl as [-> ?]. done.
  - specialize (IHr (S i) (FR l p k v :: C)).
    destruct (tfind _ _ _ r) as [[C' [|l' p' k' v' r']]|x| | |]; try done; simpl in *.
    + destruct IHr as [-> ?]. done.
    + destruct IHr as (t' & -> & ? & ?). eexists. split_and!; [done|done|done].
    + destruct IHr as [-> ?]. done.
Qed.

(** The path to the smallest node, as [remove_entry] walks it. *)
Fixpoint tmin_ctx (C : list frame) (l : ptree K V) (p : Ptr) (k : K) (v : V) (r : ptree K V)
  : list frame * (Ptr * (K * V)) * ptree K V :=
  match l with
  | Leaf => (C, (p, (k, v)), r)
  | Bin ll lp lk lv lr => tmin_ctx (FL p k v r :: C) ll lp lk lv lr
  end.

Lemma tmin_ctx_spec l : forall C p k v r C' mp mk mv mr,
  tmin_ctx C l p k v r = (C', (mp, (mk, mv)), mr) ->
  plug C' (Bin Leaf mp mk mv mr) = plug C (Bin l p k v r) /\
  exists r', tmin l p k v r = ((mp, (mk, mv)), r') /\ plug C' mr = plug C r' /\
    exists D, C' = D ++ C.
Proof.
  induction l as [|ll IHll lp lk lv lr _]; intros C p k v r C' mp mk mv mr; simpl.
  - intros [= -> -> -> -> ->]. split; [done|]. eexists. split_and!; try done. by exists [].
  - intros H. apply IHll in H as (H1 & r' & H2 & H3 & D & HD). split; [done|].
    rewrite H2. eexists. split_and!; [done|done|]. exists (D ++ [FL p k v r]).
    by rewrite <- app_assoc.
Qed.

(** ** Basic facts *)

Lemma tmin_nodes_perm l p k v r x r' : tmin l p k v r = (x, r') ->
  x :: ppre r' ≡ₚ ppre (Bin l p k v r).
Proof.
  revert p k v r x r'. induction l as [|ll IH lp lk lv lr _]; intros p k v r x r'; simpl.
  - intros [= <- <-]. done.
  - destruct (tmin ll lp lk lv lr) as [y l'] eqn:Hm. intros [= <- <-].
    apply IH in Hm. simpl in Hm. simpl.
    transitivity ((p, (k, v)) :: (y :: ppre l') ++ ppre r); [solve_Permutation|].
    rewrite Hm. done.
Qed.

Lemma tjoin_perm l r : ppre (tjoin l r) ≡ₚ ppre l ++ ppre r.
Proof.
  destruct l as [|ll lp lk lv lr]; [done|].
  destruct r as [|rl rp rk rv rr]; simpl; [by rewrite app_nil_r|].
  destruct (tmin rl rp rk rv rr) as [[p [k v]] r'] eqn:Hm. apply tmin_nodes_perm in Hm. simpl in *.
  transitivity ((lp, (lk, lv)) :: (ppre ll ++ ppre lr) ++ ((p, (k, v)) :: ppre r')); [solve_Permutation|].
  rewrite Hm. solve_Permutation.
Qed.

Lemma trem_perm o t : forall i t' x, trem o i t = Ret (t', x) ->
  match x with
  | None => t' = t
  | Some y => y :: ppre t' ≡ₚ ppre t
  end.
Proof.
  induction t as [|l IHl p k v r IHr]; intros i t' x; simpl; [by intros [= <- <-]|].
  unfold ask. destruct (o i k) as [[]|]; simpl; [| | |done].
  - intros [= <- <-]. constructor. apply tjoin_perm.
  - destruct (trem o (S i) l) as [[l' y]| | | |] eqn:Ht; simpl; try done.
    intros [= <- <-]. apply IHl in Ht. destruct y as [y|]; [|by subst].
    rewrite <- Ht. simpl. solve_Permutation.
  - destruct (trem o (S i) r) as [[r' y]| | | |] eqn:Ht; simpl; try done.
    intros [= <- <-]. apply IHr in Ht. destruct y as [y|]; [|by subst].
    rewrite <- Ht. simpl. solve_Permutation.
Qed.

Lemma tget_in o t : forall i x, tget o i t = Ret (Some x) -> x ∈ ppre t.
Proof.
  induction t as [|l IHl p k v r IHr]; intros i x; simpl; [done|].
  unfold ask. destruct (o i k) as [[]|]; simpl; [| | |done].
  - intros [= <-]. left.
  - intros H. apply IHl in H. right. apply elem_of_app. by left.
  - intros H. apply IHr in H. right. apply elem_of_app. by right.
Qed.

(** Whatever happens in a search, it is a return or a comparator panic. *)
Lemma tget_cases o t i : (exists x, tget o i t = Ret x) \/ tget o i t = Panic PCmp.
Proof.
  revert i. induction t as [|l IHl p k v r IHr]; intros i; simpl; [eauto|].
  unfold ask. destruct (o i k) as [[]|]; simpl; eauto.
Qed.
Lemma tins_cases o k v q t i : (exists x, tins o i k v q t = Ret x) \/ tins o i k v q t = Panic PCmp.
Proof.
  revert i. induction t as [|l IHl p k0 v0 r IHr]; intros i; simpl; [eauto|].
  unfold ask. destruct (o i k0) as [[]|]; simpl; eauto.
  - destruct (IHl (S i)) as [[[l' x] ->]| ->]; simpl; eauto.
  - destruct (IHr (S i)) as [[[r' x] ->]| ->]; simpl; eauto.
Qed.
Lemma trem_cases o t i : (exists x, trem o i t = Ret x) \/ trem o i t = Panic PCmp.
Proof.
  revert i. induction t as [|l IHl p k0 v0 r IHr]; intros i; simpl; [eauto|].
  unfold ask. destruct (o i k0) as [[]|]; simpl; eauto.
  - destruct (IHl (S i)) as [[[l' x] ->]| ->]; simpl; eauto.
  - destruct (IHr (S i)) as [[[r' x] ->]| ->]; simpl; eauto.
Qed.

Lemma tset_rootp q w t : rootp (tset q w t) = rootp t.
Proof. by destruct t. Qed.

Definition nset (q : Ptr) (w : V) (x : Ptr * inner K V) : Ptr * inner K V :=
  if decide (x.1 = q) then (x.1, with_value w x.2) else x.

Lemma nodes_tset q w t : nodes (tset q w t) = nset q w <$> nodes t.
Proof.
  induction t as [|l IHl p k v r IHr]; simpl; [done|].
  rewrite fmap_app, IHl, IHr, !tset_rootp. f_equal.
  unfold nset. simpl. by destruct (decide (p = q)).
Qed.

Lemma ptrs_tset q w t : ptrs (tset q w t) = ptrs t.
Proof.
  unfold ptrs. rewrite nodes_tset, <- list_fmap_compose. apply list_fmap_ext.
  intros i x _. simpl. unfold nset. by destruct (decide (x.1 = q)).
Qed.

Lemma pheight_tset q w t : pheight (tset q w t) = pheight t.
Proof. induction t; simpl; congruence. Qed.

Lemma tset_not_in q w t : q ∉ ptrs t -> tset q w t = t.
Proof.
  induction t as [|l IHl p k v r IHr]; [done|]. rewrite ptrs_bin. intros Hq.
  simpl. rewrite IHl, IHr by set_solver. rewrite decide_False by set_solver. done.
Qed.

(** ** Memory described by a list of nodes *)

Definition srep (s : slab (inner K V)) (ns : list (Ptr * inner K V)) (fl : list Ptr) : Prop :=
  NoDup ns.*1 /\ slab_rep s (list_to_map ns) fl.

Implicit Types s : slab (inner K V).

Lemma srep_perm s ns ns' fl : ns ≡ₚ ns' -> srep s ns fl -> srep s ns' fl.
Proof.
  intros Hp [Hnd Hr]. split; [by rewrite <- Hp|].
  by rewrite <- (list_to_map_proper ns ns').
Qed.

Lemma srep_get s ns fl p n : srep s ns fl -> (p, n) ∈ ns -> slab_get s p = Ret n.
Proof.
  intros [Hnd Hr] Hin. eapply slab_get_ret; [done|]. by apply elem_of_list_to_map_1.
Qed.

Lemma srep_size s ns fl : srep s ns fl -> size (list_to_map ns : gmap Ptr (inner K V)) = length ns.
Proof.
  intros [Hnd _]. rewrite <- (map_to_list_to_map ns Hnd) at 2. done.
Qed.

Lemma srep_len s ns fl : srep s ns fl ->
  a_len (s_items s) = (N.of_nat (length fl) + N.of_nat (length ns))%N.
Proof.
  intros H. rewrite <- (srep_size s ns fl H). apply slab_rep_count, H.
Qed.

Lemma srep_fuel s ns fl : srep s ns fl -> length ns < S (N.to_nat (a_len (s_items s))).
Proof. intros H. rewrite (srep_len s ns fl H). lia. Qed.

Lemma srep_free s ns fl p : srep s ns fl -> p ∈ fl -> p ∉ ns.*1.
Proof.
  intros [Hnd Hr] Hp. eapply slab_rep_free_not_live in Hp; [|done].
  by apply not_elem_of_list_to_map in Hp.
Qed.

Lemma srep_update s p n ns fl f : srep s ((p, n) :: ns) fl ->
  wp (slab_update p f)
    (fun r s' => r = n /\ srep s' ((p, f n) :: ns) fl /\ same_room s s' /\ s_drops s' = s_drops s)
    (fun _ _ => False) s.
Proof.
  intros [Hnd Hr]. eapply wp_mono; [eapply (slab_update_spec _ _ _ _ _ _ (fun _ _ => False)); [done|]| |done].
  - simpl. apply lookup_insert.
  - intros r s' (-> & Hr' & Hsame & Hd). split_and!; try done. split; [done|].
    simpl in *. by rewrite insert_insert in Hr'.
Qed.

Lemma srep_push e s ns fl x : srep s ns fl ->
  wp (slab_push e x)
    (fun p s' => p ∉ ns.*1 /\ srep s' ((p, x) :: ns) (tail fl) /\
       s_drops s' = s_drops s /\
       (fl = [] \/ head fl = Some p) /\
       ((N.of_nat (length ns) < a_cap (s_items s))%N -> same_room s s') /\
       (fl <> [] -> a_len (s_items s') = a_len (s_items s)) /\
       (a_cap (s_items s) <= a_cap (s_items s'))%N)
    (fun r s' => alloc_fail r /\ srep s' ns fl /\ s_drops s' = s_drops s /\
       fl = [] /\ N.of_nat (length ns) = a_cap (s_items s) /\
       s' = set_items (set_next (a_next (s_items s')) (s_items s)) s) s.
Proof.
  intros Hs. pose proof (srep_size _ _ _ Hs) as Hsz. destruct Hs as [Hnd Hr].
  eapply wp_mono; [by apply slab_push_spec| |].
  - intros p s' (Hp & Hr' & Hd & Hfl & Hroom & Hlen & Hcap). apply not_elem_of_list_to_map in Hp.
    rewrite Hsz in Hroom. split_and!; try done. split; [|done].
    simpl. by apply NoDup_cons.
  - intros r s' (Hf & Hr' & Hd & Hfl & Hcap & Heq). rewrite Hsz in Hcap. split_and!; done.
Qed.

Lemma srep_remove e s p n ns fl : srep s ((p, n) :: ns) fl ->
  wp (slab_remove e p)
    (fun r s' => r = n /\ srep s' ns (p :: fl) /\ same_room s s' /\ s_drops s' = s_drops s /\
       a_len (s_items s') = a_len (s_items s))
    (fun _ _ => False) s.
Proof.
  intros [Hnd Hr]. eapply wp_mono; [eapply (slab_remove_spec _ _ _ _ _ _ (fun _ _ => False)); [done|]| |done].
  - simpl. apply lookup_insert.
  - intros r s' (-> & Hr' & Hsame & Hd & Hlen). split_and!; try done.
    simpl in *. apply NoDup_cons in Hnd as [Hp Hnd]. split; [done|].
    rewrite delete_insert in Hr'; [done|]. by apply not_elem_of_list_to_map.
Qed.

End ptree.

Arguments frame : clear implicits.
