(** * BSTSet: every call is a call of the map *)

From Coq Require Import String.
From Verif Require Export SpecSet ProofObs ProofMapProps ProofIterProps ProofEqClone.

Section set.
Context {T : Type}.
Implicit Types m : bstset T.

Definition to_map (c : set_op T) : op T unit :=
  match c with
  | SetInsert o x => OInsert o x tt
  | SetRemove o => ORemove o
  | SetTake o => ORemoveEntry o
  | SetGet o => OGetEntry o
  | SetContains o => OContains o
  | SetLen => OLen
  | SetIsEmpty => OIsEmpty
  | SetCapacity => OCapacity
  | SetClear => OClear
  | SetReserve n => OReserve n
  | SetShrink => OShrink
  | SetExtend os it => OExtend os (with_units it)
  | SetIter d n => OIter d n
  | SetWalk path => OWalk path
  | SetDebug => ODebug
  | SetClone os ck => OClone os ck (fun _ _ => Some tt)
  end.

Definition start_to_map (s : set_start T) : start T unit :=
  match s with
  | SetNew => SNew
  | SetWithCapacity n => SWithCapacity n
  | SetFromIter os it => SFromIter os (with_units it)
  end.

Fixpoint values_tree (t : tree T unit) : stree T :=
  match t with tleaf => sleaf | tnode l x _ r => snode (values_tree l) x (values_tree r) end.

Fixpoint values_shape (t : tree unit unit) : stree unit :=
  match t with tleaf => sleaf | tnode l _ _ r => snode (values_shape l) tt (values_shape r) end.

(** How the set's result comes from the map's; [t] is the tree. *)
Definition from_out (t : tree T unit) (c : set_op T) (x : out T unit) : set_out T :=
  match c, x with
  | SetInsert _ _, OutValue r => SetBool (match r with None => true | Some _ => false end)
  | SetRemove _, OutValue r => SetBool (match r with None => false | Some _ => true end)
  | SetDebug, _ => SetDebugged (DStruct "BSTSet" [("root", stree_debug (values_tree t))])%string
  | _, OutUnit => SetUnit
  | _, OutBool b => SetBool b
  | _, OutEntry r => SetValue (option_map fst r)
  | _, OutNum n => SetNum n
  | _, OutSeq l => SetSeq (option_map fst <$> l)
  | _, OutNode n => SetNodeShown (option_map (fun x : shown T unit => (x.1.1.1, x.1.2, x.2)) n)
  | _, _ => SetUnit
  end.

Lemma set_walk_eq m path : forall n, set_walk m path n = walk m path n.
Proof. done. Qed.

Lemma set_nexts_eq m d n : forall it, set_nexts (set_iter_next m d) n it =
  let '(r, it') := nexts (iter_next m d) n it in (rmap (fmap (option_map (fun x => x.2.1))) r, it').
Proof.
  induction n as [|n IH]; intros it; simpl; [done|].
  unfold sbind, set_iter_next. destruct (iter_next m d it) as [[x| | | |] it1]; simpl; try done.
  rewrite IH. destruct (nexts (iter_next m d) n it1) as [[xs| | | |] it2]; simpl; done.
Qed.

Lemma setnode_debug_eq m t : forall fuel n, readable m t -> pheight t < S fuel -> node_of t = Some n ->
  rmap DSome (setnode_debug m (S fuel) n) = Ret (stree_debug (values_tree (erase t))).
Proof.
  induction t as [|l IHl p k v r IHr]; intros fuel n Hr Hf Hn; simpl in Hn; [done|].
  injection Hn as <-. simpl in Hf. cbn [setnode_debug].
  unfold setnode_left, setnode_right, node_left, node_right. cbn [nd_inner n_left n_right].
  rewrite (opt_node_ret m l) by (by eapply readable_l). cbn [rbind].
  rewrite (opt_node_ret m r) by (by eapply readable_r).
  assert (Hl' : match (node_of l : option (SetNode T)) with Some c => rmap DSome (setnode_debug m fuel c) | None => Ret DNone end =
    Ret (stree_debug (values_tree (erase l)))).
  { destruct (node_of l) as [nl|] eqn:Hnl; [|by destruct l].
    destruct fuel as [|fuel]; [destruct l; simpl in Hf; [done|lia]|].
    apply IHl; [by eapply readable_l|lia|done]. }
  assert (Hr' : match (node_of r : option (SetNode T)) with Some c => rmap DSome (setnode_debug m fuel c) | None => Ret DNone end =
    Ret (stree_debug (values_tree (erase r)))).
  { destruct (node_of r) as [nr|] eqn:Hnr; [|by destruct r].
    destruct fuel as [|fuel]; [destruct r; simpl in Hf; [done|lia]|].
    apply IHr; [by eapply readable_r|lia|done]. }
  change (option (SetNode T)) with (option (Node T unit)) in *. rewrite Hl'. cbn [rbind]. rewrite Hr'. done.
Qed.

Lemma set_debug_eq m t fl : map_rep m t fl ->
  set_debug m = Ret (DStruct "BSTSet" [("root", stree_debug (values_tree (erase t)))])%string.
Proof.
  intros Hrep. unfold set_debug, bstset_root. rewrite (map_root_ret _ _ _ Hrep). cbn [rbind].
  destruct (node_of t) as [n|] eqn:Hn; [|by destruct t].
  unfold map_fuel. erewrite (setnode_debug_eq m t _ n); try done.
  - by eapply rep_readable.
  - by eapply rep_fuel_height.
Qed.

Lemma set_exec_eq e c m t fl r m' : map_rep m t fl -> exec e (to_map c) m = (r, m') ->
  set_exec e c m = (rmap (from_out (erase t) c) r, m').
Proof.
  intros Hrep. destruct c; cbn [to_map exec set_exec].
  - unfold set_insert, sbind. destruct (bstmap_insert e o x () m) as [[]] ; simpl; intros [= <- <-]; done.
  - unfold set_remove, set_take, map_remove, sbind. destruct (map_remove_entry e o m) as [[[[k v]|]| | | |]]; simpl; intros [= <- <-]; done.
  - unfold set_take, sbind. destruct (map_remove_entry e o m) as [[]]; simpl; intros [= <- <-]; done.
  - unfold set_get, sbind, sget, slift. simpl. destruct (map_get_entry m o); simpl; intros [= <- <-]; done.
  - unfold set_contains, sbind, sget, slift. simpl. destruct (map_contains_key m o); simpl; intros [= <- <-]; done.
  - unfold set_len, sbind, sget, slift. simpl. destruct (map_len e m); simpl; intros [= <- <-]; done.
  - unfold set_is_empty, sbind, sget, slift. simpl. destruct (map_is_empty e m); simpl; intros [= <- <-]; done.
  - intros [= <- <-]. done.
  - unfold set_clear, sbind. destruct (map_clear e _ m) as [[]]; simpl; intros [= <- <-]; done.
  - unfold set_reserve, sbind. destruct (map_reserve e n m) as [[]]; simpl; intros [= <- <-]; done.
  - unfold set_shrink_to_fit, sbind. destruct (map_shrink_to_fit e m) as [[]]; simpl; intros [= <- <-]; done.
  - unfold set_extend, sbind. destruct (map_extend e os _ m) as [[]]; simpl; intros [= <- <-]; done.
  - unfold sbind, sget, slift. cbv beta. unfold set_iter_start. destruct (iter_start m d) as [it| | | |]; try (intros [= <- <-]; done).
    rewrite set_nexts_eq. destruct (nexts (iter_next m d) n it) as [[l| | | |] it2]; simpl; intros [= <- <-]; try done.
    unfold sret. simpl. do 3 f_equal. rewrite <- list_fmap_compose. apply list_fmap_ext. by intros _ [[? []]|] _.
  - unfold sbind, sget, slift. cbv beta. unfold bstset_root. destruct (map_root m) as [n| | | |]; try (intros [= <- <-]; done).
    rewrite set_walk_eq. destruct (walk m path n) as [[x|]| | | |]; intros [= <- <-]; done.
  - unfold sbind, sget, slift. cbv beta. rewrite (set_debug_eq _ _ _ Hrep), (map_debug_eq _ _ _ Hrep). intros [= <- <-]; done.
  - unfold set_clone_and_replace, clone_and_replace, set_clone, sbind.
    destruct (map_clone e os ck (fun _ _ => Some tt) m) as [[]]; try (intros [= <- <-]; done).
    destruct (map_drop e _ m) as [[]]; intros [= <- <-]; done.
Qed.

(** ** Lists of values as association lists *)

Fixpoint units (l : list T) : list (T * unit) := match l with [] => [] | x :: l => (x, tt) :: units l end.

Lemma units_fmap l : (fun x => (x, tt)) <$> l = units l.
Proof. induction l as [|x l IH]; [done|]. by f_equal/=. Qed.

Lemma with_units_items (it : user_iter T) : ui_items (with_units it) = units (ui_items it).
Proof. apply units_fmap. Qed.

Lemma with_units_panics (it : user_iter T) : ui_panics (with_units it) = ui_panics it.
Proof. done. Qed.

Lemma units_fst (l : list (T * unit)) : units l.*1 = l.
Proof. induction l as [|[x []] l IH]; [done|]. by f_equal/=. Qed.

Lemma fst_units l : (units l).*1 = l.
Proof. induction l as [|x l IH]; [done|]. by f_equal/=. Qed.

Lemma units_length l : length (units l) = length l.
Proof. induction l as [|x l IH]; [done|]. by f_equal/=. Qed.

Lemma units_perm l l' : units l ≡ₚ units l' <-> l ≡ₚ l'.
Proof.
  split; intros H; [|rewrite <- !units_fmap; by apply fmap_Permutation].
  rewrite <- (fst_units l), <- (fst_units l'). by apply fmap_Permutation.
Qed.

Lemma units_in x u l : (x, u) ∈ units l <-> x ∈ l.
Proof.
  destruct u. rewrite <- units_fmap, elem_of_list_fmap. split; [by intros (y & [= ->] & ?)|]. intros H. by exists x.
Qed.

Lemma units_lookup l n : units l !! n = (fun x => (x, tt)) <$> l !! n.
Proof. by rewrite <- units_fmap, list_lookup_fmap. Qed.

Lemma units_find f l : assoc_find f (units l) = (fun x => (x, tt)) <$> set_find f l.
Proof. induction l as [|x l IH]; simpl; [done|]. by destruct (f x). Qed.

Lemma units_find_fst f l : option_map fst (assoc_find f (units l)) = set_find f l.
Proof. rewrite units_find. by destruct (set_find f l). Qed.

Lemma units_app l l' : units (l ++ l') = units l ++ units l'.
Proof. induction l as [|x l IH]; [done|]. by f_equal/=. Qed.

Lemma units_add cmp x l : assoc_insert cmp x tt (units l) = units (set_add cmp x l).
Proof.
  unfold set_add. induction l as [|y l IH]; simpl; [done|]. destruct (cmp x y); simpl; [done| |];
  rewrite IH; by destruct (set_find (cmp x) l).
Qed.

Lemma units_add_all cmp new : forall l, assoc_insert_all cmp (units new) (units l) = units (set_add_all cmp new l).
Proof.
  unfold assoc_insert_all, set_add_all. induction new as [|x new IH]; intros l; [done|]. simpl. rewrite units_add. apply IH.
Qed.

Lemma units_del f l : assoc_remove f (units l) = units (set_del f l).
Proof. induction l as [|x l IH]; simpl; [done|]. destruct (f x); simpl; [done| |]; by rewrite IH. Qed.

Lemma units_take n l : take n (units l) = units (take n l).
Proof. revert n. induction l as [|x l IH]; intros [|n]; [done..|]. simpl. by rewrite IH. Qed.

Lemma units_sorted cmp l : sorted cmp (units l) <-> set_sorted cmp l.
Proof.
  unfold sorted, set_sorted. induction l as [|x l IH]; simpl; split; intros H; try constructor.
  - apply IH. by inversion H.
  - inversion H as [|? ? _ Hf]; subst. clear -Hf. induction l; [constructor|]. inversion Hf; subst. constructor; [done|auto].
  - apply IH. by inversion H.
  - inversion H as [|? ? _ Hf]; subst. clear -Hf. induction l; [constructor|]. inversion Hf; subst. constructor; [done|auto].
Qed.

Lemma units_first_calls n : forall l, option_map fst <$> first_calls n (units l) = first_calls n l.
Proof. induction n as [|n IH]; intros [|x l]; [done..| |]; cbn [units first_calls]; f_equal/=; [apply (IH [])|apply IH]. Qed.

Lemma units_clones ck l : forall j, clones ck (fun _ _ => Some tt) j (units l) =
  let '(l', b) := value_clones ck j l in (units l', b).
Proof.
  induction l as [|x l IH]; intros j; simpl; [done|]. destruct (ck j x); [|done]. rewrite IH.
  by destruct (value_clones ck (S j) l).
Qed.

Lemma perm_units (l : list (T * unit)) l' : l ≡ₚ units l' -> exists l1, l = units l1 /\ l1 ≡ₚ l'.
Proof. intros H. exists l.*1. rewrite units_fst. split; [done|]. rewrite <- (fst_units l'). by apply fmap_Permutation. Qed.

Lemma alloc_refused_rmap {A B} (f : A -> B) r : alloc_refused r -> alloc_refused (rmap f r).
Proof. unfold alloc_refused. destruct r; simpl; naive_solver. Qed.

(** ** Calls *)

Lemma map_step_set_ret cmp (t : tree T unit) l c y l' : map_step cmp (units l) (to_map c) (Ret y) (units l') ->
  set_step cmp l c (Ret (from_out t c y)) l'.
Proof.
  destruct c; cbn [to_map map_step set_step]; rewrite ?units_perm.
  - rewrite units_add, units_find, units_perm. intros [-> H]. split; [|done]. cbn. by destruct (set_find (cmp x) l).
  - intros H f Hf Ho. destruct (H f Hf Ho) as [-> H']. rewrite units_del, units_perm in H'. split; [|done].
    rewrite units_find. cbn. by destruct (set_find f l).
  - intros H f Hf Ho. destruct (H f Hf Ho) as [-> H']. rewrite units_del, units_perm in H'. split; [|done].
    rewrite units_find. cbn. by destruct (set_find f l).
  - intros [H1 H2]. split; [done|]. intros f Hf Ho. rewrite (H2 f Hf Ho), units_find. cbn. by destruct (set_find f l).
  - intros [H1 H2]. split; [done|]. intros f Hf Ho. rewrite (H2 f Hf Ho), units_find. cbn. by destruct (set_find f l).
  - intros [H1 ->]. by rewrite units_length.
  - intros [H1 ->]. by rewrite units_length.
  - intros [H1 [n ->]]. split; [done|]. by exists n.
  - intros [H1 ->]. split; [|done]. by destruct l'.
  - by intros [H1 ->].
  - by intros [H1 ->].
  - rewrite with_units_panics, with_units_items, units_add_all, units_perm. by intros (-> & H1 & H2).
  - intros [H1 (l1 & H2 & H3 & ->)]. split; [done|]. apply perm_units in H2 as (l2 & -> & H2). exists l2. split; [done|].
    split; [intros Hd; by apply units_sorted, H3|]. cbn. by rewrite units_first_calls.
  - intros [H1 [->|(k & v & a & b & -> & Hin)]]; (split; [done|]); [by left|right]. apply units_in in Hin. by exists k, a, b.
  - intros [H1 [d ->]]. split; [done|]. by eexists.
  - intros [-> (l1 & l2 & H1 & H2 & H3)]. split; [done|]. apply perm_units in H1 as (l0 & -> & H1).
    rewrite units_clones in H2. destruct (value_clones ck 0 l0) as [l3 b] eqn:Hvc. injection H2 as <- ->.
    apply units_perm in H3. exists l0, l3. rewrite Hvc. done.
Qed.

Lemma map_step_set_stop cmp (t : tree T unit) l c r l' : (forall y, r <> Ret y) -> map_step cmp (units l) (to_map c) r (units l') ->
  set_step cmp l c (rmap (from_out t c) r) l'.
Proof.
  intros Hr.
  assert (Hcp : forall o l r, cmp_panicked o (units l) r -> set_cmp_panicked o l (rmap (from_out t c) r)).
  { intros o l0 r0 [-> (i & [x u] & H1 & H2)]. split; [done|]. exists i, x. by apply units_in in H1. }
  assert (Har : forall r, alloc_refused r -> alloc_refused (rmap (from_out t c) r)) by (intros; by apply alloc_refused_rmap).
  assert (Hp : forall r p, r = Panic p -> rmap (from_out t c) r = Panic p) by (by intros ? ? ->).
  destruct r as [y|p| |u|]; [by destruct (Hr y)|..]; clear Hr; destruct c; cbn [to_map map_step set_step rmap]; try done; rewrite ?units_perm.
  all: try (intros [H1 H2]; split; [done|]; by apply (Hcp _ _ _ H2)).
  all: try (intros [H1 [H2|H2]]; (split; [done|]); [left; by apply (Hcp _ _ _ H2)|right; by apply (Har _ H2)]).
  all: try (intros [H1 [H2|H2]]; (split; [done|]); [left; by apply (Har _ H2)|right; by apply (Hp _ _ H2)]).
  all: try (intros [H1 [H2|[[H2 H3]|[H2 (j & [x u0] & H3 & [H4|H4])]]]]; (split; [done|]);
    [left; by apply (Har _ H2)|right; left; split; [by apply (Hp _ _ H2)|done]
    |right; right; split; [by apply (Hp _ _ H2)|]; exists j, x; by apply units_in in H3|done]).
  all: rewrite with_units_panics, with_units_items; intros (n & H1 & H2); exists n;
    rewrite units_take, units_add_all, units_perm in H1; (split; [done|]);
    destruct H2 as [[H2 [H3|H3]]|[(H2 & H3 & H4)|(k & v & H2 & [H3|H3])]].
  all: try (left; split; [done|]; left; by apply (Har _ H3)).
  all: try (left; split; [done|]; right; by apply (Hp _ _ H3)).
  all: try (right; left; rewrite units_length in H2; split; [done|]; split; [by apply (Hp _ _ H3)|done]).
  all: right; right; rewrite units_lookup in H2; destruct (ui_items it !! n) as [x|]; [|done]; injection H2 as -> _; exists k;
    split; [done|].
  all: try (left; by apply (Hcp _ _ _ H3)).
  all: right; by apply (Har _ H3).
Qed.

Lemma map_step_set cmp (t : tree T unit) l c r l' : map_step cmp (units l) (to_map c) r (units l') ->
  set_step cmp l c (rmap (from_out t c) r) l'.
Proof.
  intros H. destruct r as [y|p| |u|]; [by apply map_step_set_ret|apply map_step_set_stop; done..].
Qed.

Lemma to_map_legal cmp c : set_legal cmp c -> legal cmp (to_map c).
Proof. destruct c; try done. Qed.

Lemma start_to_map_legal cmp s : set_legal_start cmp s -> legal_start cmp (start_to_map s).
Proof. by destruct s. Qed.

Lemma set_begin_eq e s : set_begin e s = begin e (start_to_map s).
Proof. by destruct s. Qed.

Lemma start_to_map_list cmp s : start_map cmp (start_to_map s) = units (set_start_list cmp s).
Proof. destruct s; try done. cbn [start_map start_to_map set_start_list]. rewrite with_units_items. apply (units_add_all cmp _ []). Qed.

(** ** Histories *)

Lemma set_run_map e cs : forall m t fl xs m', map_rep m t fl -> set_run e cs m = (xs, m') ->
  exists rs, run e (to_map <$> cs) m = (rs, m') /\ Forall2 (fun x r => exists t c, x = rmap (from_out t c) r) xs rs.
Proof.
  induction cs as [|c cs IH]; intros m t fl xs m' Hrep Hrun; cbn [set_run] in Hrun.
  - injection Hrun as <- <-. by exists [].
  - rewrite fmap_cons. cbn [run]. destruct (exec e (to_map c) m) as [r m1] eqn:He.
    rewrite (set_exec_eq _ _ _ _ _ _ _ Hrep He) in Hrun.
    destruct (exec_rep _ _ _ _ _ _ _ Hrep He) as [Hd (t1 & fl1 & Hrep1)].
    destruct r as [y|p| | |]; simpl in Hrun; try (injection Hrun as <- <-; eexists; split; [done|]; constructor; [by exists (erase t), c|constructor]).
    + destruct (set_run e cs m1) as [xs1 m2] eqn:H1. injection Hrun as <- <-.
      destruct (IH _ _ _ _ _ Hrep1 H1) as (rs & -> & H2). eexists. split; [done|]. constructor; [by exists (erase t), c|done].
    + destruct (set_run e cs m1) as [xs1 m2] eqn:H1. injection Hrun as <- <-.
      destruct (IH _ _ _ _ _ Hrep1 H1) as (rs & -> & H2). eexists. split; [done|]. constructor; [by exists (erase t), c|done].
Qed.

Lemma set_alive xs rs : Forall2 (fun (x : res (set_out T)) (r : res (out T unit)) => exists t c, x = rmap (from_out t c) r) xs rs ->
  alive xs -> alive rs.
Proof.
  induction 1 as [|x r xs rs (t & c & ->) _ IH]; intros Ha; [constructor|]. apply Forall_cons in Ha as [H1 H2].
  constructor; [by destruct r|by apply IH].
Qed.

Lemma set_reached_map e s cs xs m : set_reached e s cs xs m -> exists rs, reached e (start_to_map s) (to_map <$> cs) rs m /\
  (alive xs -> alive rs).
Proof.
  intros (m0 & Hb & Hr). rewrite set_begin_eq in Hb. pose proof (begin_rep e (start_to_map s)) as H. rewrite Hb in H.
  destruct H as (t & fl & Hrep & _). destruct (set_run_map _ _ _ _ _ _ _ Hrep Hr) as (rs & H1 & H2).
  exists rs. split; [by exists m0|]. by apply set_alive.
Qed.

Lemma set_reachable_map e m : set_reachable e m -> reachable e m.
Proof. intros (s & cs & xs & H & Ha). apply set_reached_map in H as (rs & H1 & H2). exists (start_to_map s), (to_map <$> cs), rs. auto. Qed.

Lemma set_ordered_map cmp e m : set_ordered_reachable cmp e m -> ordered_reachable cmp e m.
Proof.
  intros (s & cs & xs & Hs & Hcs & H & Ha). apply set_reached_map in H as (rs & H1 & H2).
  exists (start_to_map s), (to_map <$> cs), rs. split; [by apply start_to_map_legal|]. split; [|auto].
  apply Forall_fmap. eapply Forall_impl; [done|]. apply to_map_legal.
Qed.

Lemma set_step_other_tree cmp l c r l' t t' :
  set_step cmp l c (rmap (from_out t c) r) l' -> c <> SetDebug -> set_step cmp l c (rmap (from_out t' c) r) l'.
Proof. by destruct c. Qed.

Section lawful.
Context (cmp : T -> T -> comparison) (Hlaw : lawful cmp).

Lemma set_run_steps e cs : forall m t fl xs m' l, map_rep m t fl -> bst cmp (erase t) -> Forall (set_legal cmp) cs ->
  units l ≡ₚ tree_inorder (erase t) -> set_run e cs m = (xs, m') ->
  exists l' t' fl', steps (set_step cmp) l cs xs l' /\ map_rep m' t' fl' /\ bst cmp (erase t') /\ units l' ≡ₚ tree_inorder (erase t').
Proof using Hlaw.
  induction cs as [|c cs IH]; intros m t fl xs m' l Hrep Ht Hcs Hl Hrun; cbn [set_run] in Hrun.
  - injection Hrun as <- <-. by exists l, t, fl.
  - apply Forall_cons in Hcs as [Hc Hcs]. destruct (exec e (to_map c) m) as [r m1] eqn:He.
    rewrite (set_exec_eq _ _ _ _ _ _ _ Hrep He) in Hrun.
    destruct (exec_rep _ _ _ _ _ _ _ Hrep He) as [Hd _].
    destruct (exec_ordered cmp Hlaw _ _ _ _ _ _ _ Hrep Ht (to_map_legal _ _ Hc) He) as (t1 & fl1 & Hrep1 & Ht1 & Hst & _).
    set (l1 := (tree_inorder (erase t1)).*1).
    assert (Hl1 : units l1 = tree_inorder (erase t1)) by apply units_fst.
    destruct (tree_step_map cmp Hlaw (erase t) (to_map c) r (erase t1) (units l) (units l1)) as [Hms _];
      [by apply to_map_legal|done|done|done|by rewrite Hl1|].
    apply (map_step_set cmp (erase t)) in Hms.
    destruct r as [y|p| |u|]; simpl in Hrun, Hms.
    + destruct (set_run e cs m1) as [xs1 m2] eqn:H1. injection Hrun as <- <-.
      destruct (IH _ _ _ _ _ l1 Hrep1 Ht1 Hcs ltac:(by rewrite Hl1) H1) as (l' & t' & fl' & H2 & H3).
      exists l', t', fl'. split; [|done]. exists l1. done.
    + destruct (set_run e cs m1) as [xs1 m2] eqn:H1. injection Hrun as <- <-.
      destruct (IH _ _ _ _ _ l1 Hrep1 Ht1 Hcs ltac:(by rewrite Hl1) H1) as (l' & t' & fl' & H2 & H3).
      exists l', t', fl'. split; [|done]. exists l1. done.
    + injection Hrun as <- <-. exists l1, t1, fl1. split; [by exists l1|]. split; [done|]. split; [done|by rewrite Hl1].
    + by destruct Hd.
    + by destruct Hd.
Qed.

Lemma set_start_rep e s m : set_legal_start cmp s -> set_begin e s = (Ret tt, m) ->
  exists t fl, map_rep m t fl /\ bst cmp (erase t) /\ units (set_start_list cmp s) ≡ₚ tree_inorder (erase t).
Proof using Hlaw.
  intros Hs Hb. rewrite set_begin_eq in Hb.
  destruct (reached_map cmp Hlaw e (start_to_map s) [] [] m) as (l & t & fl & Hst & Hrep & Hbst & Hl);
    [by apply start_to_map_legal|constructor|by exists m|].
  simpl in Hst. subst l. exists t, fl. rewrite <- start_to_map_list. done.
Qed.

Lemma first_calls_fmap {A B} (f : A -> B) n : forall l, option_map f <$> first_calls n l = first_calls n (f <$> l).
Proof. induction n as [|n IH]; intros [|x l]; [done..| |]; rewrite ?fmap_cons; cbn [first_calls]; rewrite fmap_cons; f_equal; [apply (IH [])|apply IH]. Qed.

Lemma first_calls_inj {A} (l l' : list A) : (forall n, first_calls n l = first_calls n l') -> l = l'.
Proof.
  revert l'. induction l as [|x l IH]; intros [|y l'] H; [done|specialize (H 1); done..|].
  pose proof (H 1) as H1. simpl in H1. injection H1 as ->. f_equal. apply IH. intros n. specialize (H (S n)). by injection H.
Qed.

Lemma set_yields_rep m t fl d : map_rep m t fl -> set_yields m d (tree_order d (erase t)).*1.
Proof.
  intros Hrep. destruct (iter_start_spec m t fl d Hrep) as (it & Hit & Hok). exists it. split; [done|].
  intros n. rewrite set_nexts_eq. destruct (nexts_spec m t fl d Hrep n it _ Hok) as (it' & ->). simpl.
  f_equal. rewrite first_calls_take, first_calls_fmap. f_equal. rewrite <- porder_erase, <- !list_fmap_compose. done.
Qed.

Lemma set_yields_fun m d l l' : set_yields m d l -> set_yields m d l' -> l = l'.
Proof.
  intros (it & Hit & H) (it' & Hit' & H'). rewrite Hit in Hit'. injection Hit' as <-. apply first_calls_inj.
  intros n. specialize (H n). rewrite H' in H. by injection H.
Qed.

(** C34 *)
Lemma set_refines e s cs rs m : set_legal_start cmp s -> Forall (set_legal cmp) cs -> set_reached e s cs rs m ->
  exists l, steps (set_step cmp) (set_start_list cmp s) cs rs l /\
    (exists l', l' ≡ₚ l /\ set_sorted cmp l' /\ set_yields m In l') /\
    set_len e m = Ret (N.of_nat (length l)) /\ set_is_empty e m = Ret (N.of_nat (length l) =? 0)%N /\
    forall f o, is_query cmp f -> surely o f ->
      set_get m o = Ret (set_find f l) /\ set_contains m o = Ret (found (set_find f l)).
Proof using Hlaw.
  intros Hs Hcs (m0 & Hb & Hr). destruct (set_start_rep _ _ _ Hs Hb) as (t0 & fl0 & Hrep0 & Ht0 & Hl0).
  destruct (set_run_steps _ _ _ _ _ _ _ _ Hrep0 Ht0 Hcs Hl0 Hr) as (l & t & fl & Hst & Hrep & Ht & Hl).
  exists l. split; [done|].
  assert (Hlen : length (tree_inorder (erase t)) = length l) by (by rewrite <- Hl, units_length).
  split; [|split; [|split]].
  - exists (tree_inorder (erase t)).*1. split; [|split].
    + apply units_perm. by rewrite units_fst, Hl.
    + apply units_sorted. rewrite units_fst. by apply (bst_sorted cmp Hlaw).
    + by apply (set_yields_rep m t fl In).
  - unfold set_len. rewrite (map_len_ret _ _ _ _ Hrep). by rewrite <- Hlen, erase_size.
  - unfold set_is_empty. rewrite (map_is_empty_ret _ _ _ _ Hrep). rewrite <- Hlen, erase_size. by destruct t.
  - intros f o Hf Ho. unfold set_get, set_contains.
    destruct (get_find _ _ _ o f Hrep Ho) as (_ & -> & ->).
    rewrite (tree_find_assoc cmp Hlaw f (erase t) (units l) Hf Ht Hl), units_find. by destruct (set_find f l).
Qed.


(** C35 *)
Lemma set_inorder_sorted e m l : set_ordered_reachable cmp e m -> set_yields m In l -> set_sorted cmp l.
Proof using Hlaw.
  intros Hm%set_ordered_map Hy. destruct (ordered_rep cmp Hlaw _ _ Hm) as (t & fl & Hrep & Ht).
  rewrite (set_yields_fun _ _ _ _ Hy (set_yields_rep _ _ _ In Hrep)). apply units_sorted. rewrite units_fst.
  by apply (bst_sorted cmp Hlaw).
Qed.
End lawful.

Lemma stree_order_values d (t : tree T unit) : stree_order d (values_tree t) = (tree_order d t).*1.
Proof.
  induction t as [|l IHl x [] r IHr]; [by destruct d|]. cbn [values_tree stree_order]. rewrite IHl, IHr.
  destruct d; cbn [tree_order tree_preorder tree_inorder tree_postorder]; by rewrite ?fmap_cons, ?fmap_app, ?fmap_app.
Qed.

Lemma stree_shape_values (t : tree T unit) : stree_shape (values_tree t) = values_shape (tree_shape t).
Proof. induction t as [|l IHl x [] r IHr]; simpl; congruence. Qed.
End set.

Section views.
Context {T : Type}.
Implicit Types m : bstset T.

Lemma set_exposes_values m n (t : tree T unit) : exposes m n t -> set_exposes m n (values_tree t).
Proof. induction 1; simpl; econstructor; eauto. Qed.

Lemma set_exposes_fun m n (t1 : stree T) : set_exposes m n t1 -> forall t2 : stree T, set_exposes m n t2 -> t2 = t1.
Proof.
  induction 1 as [|n nl nr l r Hl _ IHl Hr _ IHr]; intros t2 H2; inversion H2 as [|? nl' nr' l' r' Hl' El Hr' Er]; subst; [done|].
  rewrite Hl in Hl'. rewrite Hr in Hr'. injection Hl' as <-. injection Hr' as <-. by rewrite (IHl _ El), (IHr _ Er).
Qed.

Lemma set_shows_rep m t fl : map_rep m t fl -> set_shows m (values_tree (erase t)).
Proof. intros H. apply rep_shows in H as (r & Hr & H). exists r. split; [done|]. by apply set_exposes_values. Qed.

Lemma set_shows_fun m t1 t2 : set_shows m t1 -> set_shows m t2 -> t2 = t1.
Proof.
  intros (r & Hr & H1) (r' & Hr' & H2). rewrite Hr in Hr'. injection Hr' as <-. by eapply set_exposes_fun.
Qed.

Lemma stree_at_values path : forall t : tree T unit, stree_at path (values_tree t) = values_tree (tree_at path t).
Proof. induction path as [|[] path IH]; intros [|l x u r]; simpl; done. Qed.

Lemma stree_show_values (t : tree T unit) :
  option_map (fun x : shown T unit => (x.1.1.1, x.1.2, x.2)) (tree_show t) = stree_show (values_tree t).
Proof. destruct t as [|l x [] r]; [done|]. simpl. by destruct l, r. Qed.

(** C35 *)
Lemma set_traversals e m : set_reachable e m ->
  exists t, set_shows m t /\ (forall t', set_shows m t' -> t' = t) /\ (forall d, set_yields m d (stree_order d t)) /\
    set_debug m = Ret (DStruct "BSTSet" [("root", stree_debug t)])%string /\
    (forall path, exists r n, bstset_root m = Ret r /\ set_walk m path r = Ret n /\
       option_map set_show n = stree_show (stree_at path t)).
Proof.
  intros Hm%set_reachable_map. destruct (reachable_rep _ _ Hm) as (t & fl & Hrep). exists (values_tree (erase t)).
  pose proof (set_shows_rep _ _ _ Hrep) as Hs. split; [done|]. split; [intros t' Ht'; by eapply set_shows_fun|].
  split; [intros d; rewrite stree_order_values; by eapply set_yields_rep|].
  split; [by eapply set_debug_eq|]. intros path.
  destruct (walk_mut_agrees e m (erase t) path Hm (rep_shows _ _ _ Hrep)) as (r & n & H1 & H2 & H3 & _).
  exists r, n. split; [done|]. split; [done|]. rewrite stree_at_values, <- stree_show_values, <- H3. by destruct n.
Qed.

Lemma debug_set e m t : set_reachable e m -> set_shows m t ->
  set_debug m = Ret (DStruct "BSTSet" [("root", stree_debug t)])%string.
Proof. intros Hm Ht. destruct (set_traversals e m Hm) as (t' & _ & H & _ & -> & _). by rewrite (H t Ht). Qed.

Section clone.
Variable cmp : T -> T -> comparison.
Hypothesis Hlaw : lawful cmp.

Lemma set_eq_values (eqT : T -> T -> bool) : (forall a b, eqT a b = true <-> cmp a b = Eq) ->
  forall e e1 e2 m1 m2 l1 l2, set_ordered_reachable cmp e1 m1 -> set_ordered_reachable cmp e2 m2 ->
  set_yields m1 In l1 -> set_yields m2 In l2 ->
  exists b, bstset_eq e eqT m1 m2 = Ret b /\
    (b = true <-> (forall x, x ∈ l1 -> exists y, y ∈ l2 /\ eqT x y = true) /\
                  (forall y, y ∈ l2 -> exists x, x ∈ l1 /\ eqT x y = true)).
Proof.
  intros Heq e e1 e2 m1 m2 l1 l2 H1%set_ordered_map H2%set_ordered_map Hl1 Hl2.
  destruct (ordered_rep cmp Hlaw _ _ H1) as (t1 & fl1 & Hrep1 & _). destruct (ordered_rep cmp Hlaw _ _ H2) as (t2 & fl2 & Hrep2 & _).
  rewrite (set_yields_fun _ _ _ _ Hl1 (set_yields_rep _ _ _ In Hrep1)).
  rewrite (set_yields_fun _ _ _ _ Hl2 (set_yields_rep _ _ _ In Hrep2)).
  destruct (map_eq_contents eqT (fun _ _ => true) cmp Hlaw Heq e e1 e2 m1 m2 _ _ H1 H2 (rep_yields _ _ _ In Hrep1) (rep_yields _ _ _ In Hrep2))
    as (b & Hb & Hiff).
  exists b. split; [done|]. rewrite Hiff. clear. generalize (tree_order In (erase t1)), (tree_order In (erase t2)). intros l1 l2.
  split; intros [Ha Hb]; split.
  - intros x ([x' u] & -> & Hx)%elem_of_list_fmap. destruct (Ha _ Hx) as (y & Hy & H1 & _). exists y.1. split; [|done].
    apply elem_of_list_fmap. by exists y.
  - intros x ([x' u] & -> & Hx)%elem_of_list_fmap. destruct (Hb _ Hx) as (y & Hy & H1 & _). exists y.1. split; [|done].
    apply elem_of_list_fmap. by exists y.
  - intros x Hx. destruct (Ha x.1) as (y & (y' & -> & Hy)%elem_of_list_fmap & H); [apply elem_of_list_fmap; by exists x|]. by exists y'.
  - intros x Hx. destruct (Hb x.1) as (y & (y' & -> & Hy)%elem_of_list_fmap & H); [apply elem_of_list_fmap; by exists x|]. by exists y'.
Qed.

Lemma set_run_step e cs : forall m rs m1 c r m2, set_run e cs m = (rs, m1) -> alive rs -> Forall defined rs ->
  set_exec e c m1 = (r, m2) -> r <> Abort -> defined r -> set_run e (cs ++ [c]) m = (rs ++ [r], m2).
Proof.
  induction cs as [|c0 cs IH]; intros m rs m1 c r m2 Hrun Ha Hd He Hr Hdr; simpl in *.
  - injection Hrun as <- <-. rewrite He. by destruct r.
  - destruct (set_exec e c0 m) as [r0 m'] eqn:E0. destruct r0 as [x|p| |u|].
    + destruct (set_run e cs m') as [rs' m''] eqn:Er. injection Hrun as <- <-. apply Forall_cons in Ha as [_ Ha].
      apply Forall_cons in Hd as [_ Hd]. by rewrite (IH _ _ _ _ _ _ Er Ha Hd He Hr Hdr).
    + destruct (set_run e cs m') as [rs' m''] eqn:Er. injection Hrun as <- <-. apply Forall_cons in Ha as [_ Ha].
      apply Forall_cons in Hd as [_ Hd]. by rewrite (IH _ _ _ _ _ _ Er Ha Hd He Hr Hdr).
    + injection Hrun as <- <-. by apply Forall_cons in Ha as [? _].
    + injection Hrun as <- <-. by apply Forall_cons in Hd as [? _].
    + injection Hrun as <- <-. by apply Forall_cons in Hd as [? _].
Qed.

Lemma defined_rmap {A B} (f : A -> B) (r : res A) : defined r -> defined (rmap f r).
Proof. by destruct r. Qed.

Lemma set_reached_defined e s cs xs m : set_reached e s cs xs m -> Forall defined xs.
Proof.
  intros (m0 & Hb & Hr). rewrite set_begin_eq in Hb. pose proof (begin_rep e (start_to_map s)) as H. rewrite Hb in H.
  destruct H as (t & fl & Hrep & _). destruct (set_run_map _ _ _ _ _ _ _ Hrep Hr) as (rs & H1 & H2).
  destruct (reached_rep e (start_to_map s) (to_map <$> cs) rs m) as [Hd _]; [by exists m0|].
  clear -H2 Hd. induction H2 as [|x r xs rs (t & c & ->) _ IH]; [constructor|]. apply Forall_cons in Hd as [H1 H2].
  constructor; [by apply defined_rmap|by apply IH].
Qed.

Lemma set_ordered_step e c m r m' : set_ordered_reachable cmp e m -> set_legal cmp c -> set_exec e c m = (r, m') -> r <> Abort ->
  set_ordered_reachable cmp e m'.
Proof.
  intros (s & cs & rs & Hs & Hcs & Hreach & Ha) Hc He Hr. pose proof (set_reached_defined _ _ _ _ _ Hreach) as Hd.
  destruct (set_reached_map _ _ _ _ _ Hreach) as (rs0 & [_ (t & fl & Hrep)]%reached_rep & _).
  destruct (exec e (to_map c) m) as [r0 m0] eqn:E0.
  pose proof (exec_rep _ _ _ _ _ _ _ Hrep E0) as [Hdr _].
  pose proof (set_exec_eq _ _ _ _ _ _ _ Hrep E0) as E1. rewrite He in E1. injection E1 as -> ->.
  destruct Hreach as (m1 & Hm1 & Hrun).
  exists s, (cs ++ [c]), (rs ++ [rmap (from_out (erase t) c) r0]). split_and!; [done| | |].
  - apply Forall_app. split; [done|]. by apply Forall_singleton.
  - exists m1. split; [done|]. eapply set_run_step; try done. by apply defined_rmap.
  - apply Forall_app. split; [done|]. by apply Forall_singleton.
Qed.

Lemma values_tree_inj (t1 t2 : tree T unit) : values_tree t1 = values_tree t2 -> t1 = t2.
Proof.
  revert t2. induction t1 as [|l IHl x [] r IHr]; intros [|l' x' [] r']; simpl; intros H; try done.
  injection H as H1 -> H2. by rewrite (IHl _ H1), (IHr _ H2).
Qed.

Lemma values_shape_tree (t1 t2 : tree T unit) : tree_shape t1 = tree_shape t2 -> stree_shape (values_tree t1) = stree_shape (values_tree t2).
Proof. intros H. by rewrite !stree_shape_values, H. Qed.

Lemma set_clone_spec e os ck m t r m2 : set_ordered_reachable cmp e m -> legal_inserts cmp os ->
  (forall j x x', ck j x = Some x' -> cmp x' x = Eq) -> set_shows m t ->
  set_clone e os ck m = (r, m2) ->
  match r with
  | Ret _ =>
    exists t2, set_shows m2 t2 /\ value_clones ck 0 (stree_order Pre t) = (stree_order Pre t2, true) /\
      stree_shape t2 = stree_shape t /\
      (N.of_nat (length (stree_order Pre t)) <= set_capacity m2)%N /\ set_ordered_reachable cmp e m2 /\
      forall eqT : T -> T -> bool, (forall j x x', ck j x = Some x' -> eqT x' x = true) -> bstset_eq e eqT m2 m = Ret true
  | _ => alloc_refused r \/ set_clone_panicked os ck (stree_order In t) r
  end.
Proof.
  intros Hm Hos Hck Ht Hc. pose proof (set_ordered_map _ _ _ Hm) as Hm'.
  destruct (ordered_rep cmp Hlaw _ _ Hm') as (t0 & fl & Hrep & Hb).
  pose proof (set_shows_fun _ _ _ (set_shows_rep _ _ _ Hrep) Ht) as ->.
  pose proof (clone_spec cmp Hlaw e os ck (fun _ _ => Some tt) m _ r m2 Hm' Hos Hck (rep_shows _ _ _ Hrep) Hc) as H.
  assert (Hcp : alloc_refused r \/ clone_panicked os ck (fun _ _ => Some tt) (tree_inorder (erase t0)) r ->
    alloc_refused r \/ set_clone_panicked os ck (stree_order In (values_tree (erase t0))) r).
  { intros [H1|[H1|[H1 (j & kv & H2 & [H3|H3])]]]; [by left|by right; left|right; right|done]. split; [done|].
    exists j, kv.1. split; [|done]. rewrite (stree_order_values In). by apply elem_of_list_fmap_1. }
  destruct r as [[]|p| |u|]; try by apply Hcp. destruct H as (t2 & Hs2 & Hcl & Hsh & Hb2 & _ & Hcap & Hm2).
  exists (values_tree t2). destruct Hs2 as (r2 & Hr2 & Hs2).
  split; [exists r2; split; [done|by apply set_exposes_values]|].
  assert (Hpre : forall t : tree T unit, tree_preorder t = units (stree_order Pre (values_tree t))).
  { intros t. rewrite (stree_order_values Pre). symmetry. apply units_fst. }
  split.
  { rewrite (Hpre (erase t0)), units_clones in Hcl. destruct (value_clones ck 0 _) as [l' b]. injection Hcl as H1 ->. f_equal.
    rewrite (stree_order_values Pre t2). cbn [tree_order]. by rewrite <- H1, fst_units. }
  split; [by apply values_shape_tree|].
  split; [rewrite Hpre, units_length in Hcap; done|]. split.
  - eapply (set_ordered_step e (SetClone os ck) m (Ret SetUnit)); [done|done| |done].
    cbn [set_exec]. unfold sbind, set_clone_and_replace. rewrite Hc.
    destruct (map_drop_spec e (fun _ => false) m t0 fl Hrep) as (m3 & ds & -> & _); done.
  - intros eqT HeqT. unfold bstset_eq. by eapply (clone_equal cmp Hlaw e os ck (fun _ _ => Some tt)).
Qed.
End clone.
End views.
