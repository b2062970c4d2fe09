(** * What [==] asks *)

From Verif Require Export SpecEq ProofNodes ProofSet ProofArenaRun ProofEqClone ProofIterProps.
From Verif Require Import ModelIter.
Local Open Scope nat_scope.

Section asks.
Context {Q : Type} (u : list Q -> Q -> res bool).

Lemma asks_bound last log qs r log' : asks u last log qs r log' -> exists n, n <= length qs /\ log' = log ++ take n qs.
Proof.
  induction 1 as [log|log q qs r log' _ _ (n & Hn & ->)|log q qs r _ _].
  - exists 0. split; [lia|]. by rewrite app_nil_r.
  - exists (S n). split; [simpl; lia|]. simpl. by rewrite <- app_assoc.
  - exists 1. split; [simpl; lia|]. done.
Qed.

Lemma asks_length last log qs r log' : asks u last log qs r log' -> length log' <= length log + length qs.
Proof. intros (n & Hn & ->)%asks_bound. rewrite app_length, take_length. lia. Qed.

Lemma asks_false log qs r log' : asks u false log qs r log' -> r <> Ret true.
Proof. by induction 1. Qed.

Lemma asks_app_true b log ql log1 qr r log2 : asks u true log ql (Ret true) log1 -> asks u b log1 qr r log2 ->
  asks u b log (ql ++ qr) r log2.
Proof.
  intros H. remember (Ret true) as x eqn:Hx. induction H as [log|log q qs r' log' Hu _ IH|log q qs r' Hu Hr]; intros H2; simplify_eq.
  - done.
  - apply asks_next; [done|]. by apply IH.
Qed.

Lemma asks_app_stop b b' log ql r log1 qr : asks u b' log ql r log1 -> r <> Ret b' -> r <> Ret true ->
  asks u b log (ql ++ qr) r log1.
Proof.
  induction 1 as [log|log q qs r' log' Hu _ IH|log q qs r' Hu Hr]; intros Hx Ht; simplify_eq.
  - apply asks_next; [done|]. by apply IH.
  - by apply asks_stop.
Qed.

(** User code that only answers or panics. *)
Lemma asks_answers last log qs r log' : asks u last log qs r log' ->
  (forall log q, q ∈ qs -> (exists b, u log q = Ret b) \/ exists p, u log q = Panic p) ->
  (exists b, r = Ret b) \/ exists p, r = Panic p.
Proof.
  induction 1 as [log|log q qs r log' _ _ IH|log q qs r <- _]; intros Hu.
  - by left; eexists.
  - apply IH. intros. apply Hu. by right.
  - apply Hu. by left.
Qed.
End asks.

(** ** Lists of entries and trees *)
Section lists.
Context {K V S : Type}.
Implicit Types eqK : K -> K -> M S bool.
Implicit Types eqV : V -> V -> M S bool.

Fixpoint compare_list eqK eqV (l1 l2 : list (K * V)) : M S bool :=
  match l1, l2 with
  | (k1, v1) :: l1, (k2, v2) :: l2 =>
    let! b := entry_eq eqK eqV k1 k2 v1 v2 in
    if b then compare_list eqK eqV l1 l2 else sret false
  | _, _ => sret true
  end.

Fixpoint compare_tree eqK eqV (t1 t2 : tree K V) : M S bool :=
  match t1, t2 with
  | tleaf, tleaf => sret true
  | tnode l1 k1 v1 r1, tnode l2 k2 v2 r2 =>
    let! b := entry_eq eqK eqV k1 k2 v1 v2 in
    if b then
      let! l := compare_tree eqK eqV l1 l2 in
      if l then compare_tree eqK eqV r1 r2 else sret false
    else sret false
  | _, _ => sret false
  end.

Lemma lift_ret {A B} (a : A) (k : A -> M S B) s : (let! x := slift (Ret a) in k x) s = k a s.
Proof. done. Qed.

Lemma bind_ext {A B} (m : M S A) (k k' : A -> M S B) s : (forall a s', k a s' = k' a s') -> (let! x := m in k x) s = (let! x := m in k' x) s.
Proof. intros H. unfold sbind. destruct (m s) as [[] s']; [apply H|done..]. Qed.

Lemma map_eq_loop_with_spec eqK eqV (m1 m2 : bstmap K V) t1 t2 fl1 fl2 : map_rep m1 t1 fl1 -> map_rep m2 t2 fl2 ->
  forall fuel i1 i2 p1 p2 s, iter_ok In t1 i1 p1 -> iter_ok In t2 i2 p2 -> length p1 = length p2 -> length p1 < fuel ->
  map_eq_loop_with eqK eqV m1 m2 fuel i1 i2 s = compare_list eqK eqV p1.*2 p2.*2 s.
Proof.
  intros H1 H2. induction fuel as [|fuel IH]; intros i1 i2 p1 p2 s Ho1 Ho2 Hl Hf; [lia|].
  cbn [map_eq_loop_with].
  destruct (iter_next_spec m1 t1 fl1 In i1 p1 H1 Ho1) as (i1' & rs1 & E1 & Ho1' & _).
  destruct (iter_next_spec m2 t2 fl2 In i2 p2 H2 Ho2) as (i2' & rs2 & E2 & Ho2' & _).
  cbn [iter_next] in E1, E2. rewrite E1, lift_ret.
  destruct p1 as [|[q1 [k1 v1]] p1], p2 as [|[q2 [k2 v2]] p2]; try done.
  cbn [head tail] in *. rewrite E2, lift_ret. simpl in Hl, Hf.
  change (((q1, (k1, v1)) :: p1).*2) with ((k1, v1) :: p1.*2). change (((q2, (k2, v2)) :: p2).*2) with ((k2, v2) :: p2.*2).
  cbn [compare_list]. apply bind_ext. intros [] s'; [|done]. apply IH; try done; lia.
Qed.

Lemma map_eq_with_spec e eqK eqV (m1 m2 : bstmap K V) t1 t2 fl1 fl2 s : map_rep m1 t1 fl1 -> map_rep m2 t2 fl2 ->
  map_eq_with e eqK eqV m1 m2 s =
  if bool_decide (length (tree_inorder (erase t1)) = length (tree_inorder (erase t2)))
  then compare_list eqK eqV (tree_inorder (erase t1)) (tree_inorder (erase t2)) s else (Ret false, s).
Proof.
  intros H1 H2. unfold map_eq_with. rewrite (map_len_ret e _ _ _ H1), (map_len_ret e _ _ _ H2), !lift_ret.
  rewrite <- !pin_erase, !fmap_length, !pin_length.
  destruct (N.eqb_spec (N.of_nat (tsize t1)) (N.of_nat (tsize t2))) as [Heq|Hne]; cbn [negb].
  - rewrite bool_decide_eq_true_2 by lia.
    destruct (iter_start_spec m1 t1 fl1 In H1) as (i1 & -> & Ho1).
    destruct (iter_start_spec m2 t2 fl2 In H2) as (i2 & -> & Ho2). rewrite !lift_ret.
    eapply map_eq_loop_with_spec; try done; rewrite !pin_length; [lia|]. by eapply rep_fuel.
  - by rewrite bool_decide_eq_false_2 by lia.
Qed.

Lemma simple_eq_loop_with_spec eqK eqV (m1 m2 : simple K V) t1 t2 : simple_rep m1 t1 -> simple_rep m2 t2 ->
  forall fuel i1 i2 p1 p2 s, sok In t1 i1 p1 -> sok In t2 i2 p2 -> length p1 = length p2 -> length p1 < fuel ->
  simple_eq_loop_with eqK eqV m1 m2 fuel i1 i2 s = compare_list eqK eqV p1.*2 p2.*2 s.
Proof.
  intros H1 H2. induction fuel as [|fuel IH]; intros i1 i2 p1 p2 s Ho1 Ho2 Hl Hf; [lia|]. cbn [simple_eq_loop_with].
  destruct (sin_next_spec m1 t1 i1 p1 H1 Ho1) as (i1' & -> & Ho1'). rewrite lift_ret.
  destruct p1 as [|[q1 [k1 v1]] p1], p2 as [|[q2 [k2 v2]] p2]; try done. cbn [head fmap option_fmap option_map snd].
  destruct (sin_next_spec m2 t2 i2 _ H2 Ho2) as (i2' & -> & Ho2'). rewrite lift_ret.
  cbn [head fmap option_fmap option_map snd]. simpl in Hl, Hf.
  change (((q1, (k1, v1)) :: p1).*2) with ((k1, v1) :: p1.*2). change (((q2, (k2, v2)) :: p2).*2) with ((k2, v2) :: p2.*2).
  cbn [compare_list]. apply bind_ext. intros [] s'; [|done]. apply IH; try done; lia.
Qed.

Lemma simple_eq_with_spec eqK eqV (m1 m2 : simple K V) t1 t2 s : simple_rep m1 t1 -> simple_rep m2 t2 ->
  simple_eq_with eqK eqV m1 m2 s =
  if bool_decide (length (tree_inorder (erase t1)) = length (tree_inorder (erase t2)))
  then compare_list eqK eqV (tree_inorder (erase t1)) (tree_inorder (erase t2)) s else (Ret false, s).
Proof.
  intros H1 H2. unfold simple_eq_with.
  assert (Hl1 : s_len m1 = N.of_nat (tsize t1)) by apply H1. assert (Hl2 : s_len m2 = N.of_nat (tsize t2)) by apply H2.
  rewrite <- !pin_erase, !fmap_length, !pin_length, Hl1, Hl2.
  destruct (N.eqb_spec (N.of_nat (tsize t1)) (N.of_nat (tsize t2))) as [Heq|Hne]; cbn [negb].
  - rewrite bool_decide_eq_true_2 by lia.
    destruct (simple_iter_start_spec m1 t1 In H1) as (i1 & Hi1 & Ho1).
    destruct (simple_iter_start_spec m2 t2 In H2) as (i2 & Hi2 & Ho2).
    cbn [simple_iter_start] in Hi1, Hi2. rewrite Hi1, Hi2, !lift_ret.
    apply (simple_eq_loop_with_spec eqK eqV m1 m2 t1 t2); try done; simpl; rewrite ?pin_length; [lia|].
    rewrite (simple_fuel_size _ _ H1). lia.
  - by rewrite bool_decide_eq_false_2 by lia.
Qed.

Lemma box_eq_with_spec eqK eqV (m1 m2 : simple K V) s1 : forall s2 fuel s, sreadable m1 s1 -> sreadable m2 s2 -> pheight s1 < fuel ->
  box_eq_with eqK eqV m1 m2 fuel (rootp s1) (rootp s2) s = compare_tree eqK eqV (erase s1) (erase s2) s.
Proof.
  induction s1 as [|l1 IHl p1 k1 v1 r1 IHr]; intros [|l2 p2 k2 v2 r2] [|fuel] s H1 H2 Hf; simpl in Hf; try lia; try done.
  cbn [box_eq_with rootp]. rewrite (sreadable_root _ _ _ _ _ _ H1), lift_ret.
  rewrite (sreadable_root _ _ _ _ _ _ H2), lift_ret. cbn [n_key n_value n_left n_right erase compare_tree].
  apply bind_ext. intros [] s'; [|done]. unfold sbind.
  rewrite IHl; [|by eapply sreadable_l|by eapply sreadable_l|lia].
  destruct (compare_tree eqK eqV (erase l1) (erase l2) s') as [[[]| | | |] s'']; try done.
  apply IHr; [by eapply sreadable_r|by eapply sreadable_r|lia].
Qed.

(** Without state it is the equality of the other files. *)
Section pure.
Variable (eqK : K -> K -> bool) (eqV : V -> V -> bool).
Let pK : K -> K -> M S bool := fun a b => sret (eqK a b).
Let pV : V -> V -> M S bool := fun a b => sret (eqV a b).

Lemma entry_pure k1 k2 v1 v2 s : entry_eq pK pV k1 k2 v1 v2 s = (Ret (eqK k1 k2 && eqV v1 v2), s).
Proof. unfold entry_eq, sbind, pK, sret. by destruct (eqK k1 k2). Qed.

Lemma bind_entry {A} k1 k2 v1 v2 (k : bool -> M S A) s :
  (let! b := entry_eq pK pV k1 k2 v1 v2 in k b) s = k (eqK k1 k2 && eqV v1 v2) s.
Proof. unfold sbind. by rewrite entry_pure. Qed.

Lemma map_eq_with_pure e (m1 m2 : bstmap K V) s : map_eq_with e pK pV m1 m2 s = (map_eq e eqK eqV m1 m2, s).
Proof.
  unfold map_eq_with, map_eq.
  destruct (map_len e m1) as [l1| | | |]; try done. destruct (map_len e m2) as [l2| | | |]; try done. rewrite !lift_ret. cbn [rbind].
  destruct (negb _); [done|].
  destruct (iter_start m1 In) as [i1| | | |]; try done. destruct (iter_start m2 In) as [i2| | | |]; try done. rewrite !lift_ret. cbn [rbind].
  generalize (map_fuel m1). intros fuel. revert i1 i2. induction fuel as [|fuel IH]; intros i1 i2; [done|]. cbn [map_eq_loop_with map_eq_loop].
  destruct (inorder_next m1 i1) as [[[[p1 [k1 v1]]|]| | | |] i1']; try done. rewrite lift_ret. cbn [rbind].
  destruct (inorder_next m2 i2) as [[[[p2 [k2 v2]]|]| | | |] i2']; try done. rewrite lift_ret. cbn [rbind].
  rewrite bind_entry. destruct (eqK k1 k2 && eqV v1 v2); [apply IH|done].
Qed.

Lemma simple_eq_with_pure (m1 m2 : simple K V) s : simple_eq_with pK pV m1 m2 s = (simple_eq eqK eqV m1 m2, s).
Proof.
  unfold simple_eq_with, simple_eq. destruct (negb _); [done|].
  destruct (sin_new m1) as [i1| | | |]; try done. destruct (sin_new m2) as [i2| | | |]; try done. rewrite !lift_ret. cbn [rbind].
  generalize (simple_fuel m1). intros fuel. revert i1 i2. induction fuel as [|fuel IH]; intros i1 i2; [done|]. cbn [simple_eq_loop_with simple_eq_loop].
  destruct (sin_next m1 i1) as [[[[k1 v1]|]| | | |] i1']; try done. rewrite lift_ret. cbn [rbind].
  destruct (sin_next m2 i2) as [[[[k2 v2]|]| | | |] i2']; try done. rewrite lift_ret. cbn [rbind].
  rewrite bind_entry. destruct (eqK k1 k2 && eqV v1 v2); [apply IH|done].
Qed.

Lemma box_eq_with_pure (m1 m2 : simple K V) : forall fuel b1 b2 s, box_eq_with pK pV m1 m2 fuel b1 b2 s = (box_eq eqK eqV m1 m2 fuel b1 b2, s).
Proof.
  induction fuel as [|fuel IH]; intros [p1|] [p2|] s; try done. cbn [box_eq_with box_eq].
  destruct (peek m1 p1) as [n1| | | |]; try done. destruct (peek m2 p2) as [n2| | | |]; try done. rewrite !lift_ret. cbn [rbind].
  rewrite bind_entry. destruct (_ && _); [|done]. unfold sbind at 1. rewrite IH.
  destruct (box_eq eqK eqV m1 m2 fuel (n_left n1) (n_left n2)) as [[]| | | |]; try done. apply IH.
Qed.

Lemma node_eq_with_pure same (n1 n2 : Node K V) s : node_eq_with pK pV same n1 n2 s = (Ret (node_eq eqK eqV same n1 n2), s).
Proof. unfold node_eq_with, node_eq. destruct (same && _); [done|]. apply entry_pure. Qed.

Lemma nodemut_eq_with_pure same (m1 m2 : bstmap K V) n1 n2 s :
  nodemut_eq_with pK pV same m1 m2 n1 n2 s = (nodemut_eq eqK eqV same m1 m2 n1 n2, s).
Proof.
  unfold nodemut_eq_with, nodemut_eq. destruct (same && _); [done|].
  destruct (nodemut_key m1 n1) as [k1| | | |]; try done. destruct (nodemut_key m2 n2) as [k2| | | |]; try done. rewrite !lift_ret. cbn [rbind].
  unfold sbind at 1, pK, sret. destruct (eqK k1 k2); [|done].
  destruct (nodemut_value m1 n1) as [v1| | | |]; try done. destruct (nodemut_value m2 n2) as [v2| | | |]; done.
Qed.
End pure.
End lists.

Lemma arena_eq_with_pure {T S : Type} (eqT : T -> T -> bool) e (a1 a2 : arena T) (s : S) :
  arena_eq_with (fun a b => sret (eqT a b)) e a1 a2 s = (arena_eq eqT e a1 a2, s).
Proof.
  unfold arena_eq_with, arena_eq. destruct (negb _); [done|].
  generalize (Datatypes.S (N.to_nat (arena_len a1))), (iter_new a1), (iter_new a2). intros fuel.
  induction fuel as [|fuel IH]; intros r1 r2; [done|]. cbn [arena_eq_loop_with arena_eq_loop].
  destruct (next_ptr e a1 r1) as [[[[p1 v1]|]| | | |] r1']; try done. rewrite lift_ret. cbn [rbind].
  destruct (next_ptr e a2 r2) as [[[[p2 v2]|]| | | |] r2']; try done. rewrite lift_ret. cbn [rbind].
  unfold sbind at 1, sret. destruct (eqT v1 v2); [apply IH|done].
Qed.

(** ** Asking *)
Section maps.
Context {K V : Type} (u : list (question K V) -> question K V -> res bool).
Notation aK := (ask_key u). Notation aV := (ask_value u).

Lemma entry_asks k1 k2 v1 v2 (k : M (list (question K V)) bool) b qs log :
  (forall log1, asks u b log1 qs (k log1).1 (k log1).2) ->
  asks u b log (QKey k1 k2 :: QValue v1 v2 :: qs)
    ((let! b := entry_eq aK aV k1 k2 v1 v2 in if b then k else sret false) log).1
    ((let! b := entry_eq aK aV k1 k2 v1 v2 in if b then k else sret false) log).2.
Proof.
  intros H. unfold entry_eq, sbind, ask_key, ask_value, inquire.
  destruct (u log (QKey k1 k2)) as [[]| | | |] eqn:E; try by apply asks_stop.
  apply asks_next; [done|]. destruct (u (log ++ [QKey k1 k2]) (QValue v1 v2)) as [[]| | | |] eqn:E2; try by apply asks_stop.
  apply asks_next; [done|]. apply H.
Qed.

Lemma compare_list_asks : forall l1 l2 log,
  asks u true log (questions l1 l2) (compare_list aK aV l1 l2 log).1 (compare_list aK aV l1 l2 log).2.
Proof.
  induction l1 as [|[k1 v1] l1 IH]; intros [|[k2 v2] l2] log; try by constructor.
  cbn [questions compare_list]. apply entry_asks. intros log1. apply IH.
Qed.

Lemma compare_tree_asks : forall t1 t2 log,
  asks u (tree_questions t1 t2).2 log (tree_questions t1 t2).1 (compare_tree aK aV t1 t2 log).1 (compare_tree aK aV t1 t2 log).2.
Proof.
  induction t1 as [|l1 IHl k1 v1 r1 IHr]; intros [|l2 k2 v2 r2] log; try by constructor.
  cbn [tree_questions compare_tree fst snd]. apply entry_asks. intros log1.
  specialize (IHl l2 log1). unfold sbind. destruct (compare_tree aK aV l1 l2 log1) as [x log2] eqn:E. cbn [fst snd] in IHl.
  destruct (tree_questions l1 l2) as [ql []]; cbn [fst snd andb] in *.
  - destruct x as [[]| | | |]; try by eapply asks_app_stop.
    eapply asks_app_true; [done|]. apply IHr.
  - rewrite app_nil_r. pose proof (asks_false _ _ _ _ _ IHl). by destruct x as [[]| | | |].
Qed.

Lemma questions_length (l1 l2 : list (K * V)) : length (questions l1 l2) = 2 * Nat.min (length l1) (length l2).
Proof. revert l2. induction l1 as [|[k1 v1] l1 IH]; intros [|[k2 v2] l2]; simpl; try lia. rewrite IH. lia. Qed.

Lemma map_asks e e1 e2 (m1 m2 : bstmap K V) l1 l2 r log : reachable e1 m1 -> reachable e2 m2 -> yields m1 In l1 -> yields m2 In l2 ->
  map_eq_with e aK aV m1 m2 [] = (r, log) ->
  if bool_decide (length l1 = length l2) then asks u true [] (questions l1 l2) r log /\ length log <= 2 * length l1
  else r = Ret false /\ log = [].
Proof.
  intros (t1 & fl1 & Hr1)%reachable_rep (t2 & fl2 & Hr2)%reachable_rep Hl1 Hl2.
  apply (rep_yields_eq _ _ _ _ _ Hr1) in Hl1 as ->. apply (rep_yields_eq _ _ _ _ _ Hr2) in Hl2 as ->. cbn [tree_order].
  erewrite map_eq_with_spec by done. case_bool_decide as Hl; intros E; [|by simplify_eq].
  pose proof (compare_list_asks (tree_inorder (erase t1)) (tree_inorder (erase t2)) []) as Ha. rewrite E in Ha. split; [done|].
  apply asks_length in Ha. rewrite questions_length in Ha. cbn [length snd] in Ha. lia.
Qed.

Lemma simple_asks e1 e2 (m1 m2 : simple K V) l1 l2 r log : simple_reachable e1 m1 -> simple_reachable e2 m2 ->
  simple_yields m1 In l1 -> simple_yields m2 In l2 -> simple_eq_with aK aV m1 m2 [] = (r, log) ->
  if bool_decide (length l1 = length l2) then asks u true [] (questions l1 l2) r log /\ length log <= 2 * length l1
  else r = Ret false /\ log = [].
Proof.
  intros (t1 & H1)%simple_reachable_rep (t2 & H2)%simple_reachable_rep Hy1 Hy2.
  rewrite (simple_yields_fun m1 t1 In l1 H1 Hy1), (simple_yields_fun m2 t2 In l2 H2 Hy2). cbn [tree_order].
  erewrite simple_eq_with_spec by done. case_bool_decide as Hl; intros E; [|by simplify_eq].
  pose proof (compare_list_asks (tree_inorder (erase t1)) (tree_inorder (erase t2)) []) as Ha. rewrite E in Ha. split; [done|].
  apply asks_length in Ha. rewrite questions_length in Ha. cbn [length snd] in Ha. lia.
Qed.

Lemma node_asks (same : bool) (n1 n2 : Node K V) r log :
  node_eq_with aK aV same n1 n2 [] = (r, log) ->
  if same && bool_decide (nd_ptr n1 = nd_ptr n2) then r = Ret true /\ log = []
  else asks u true [] [QKey (node_key n1) (node_key n2); QValue (node_value n1) (node_value n2)] r log.
Proof.
  unfold node_eq_with. destruct (same && _); [intros [= <- <-]; done|]. intros E.
  pose proof (compare_list_asks [(node_key n1, node_value n1)] [(node_key n2, node_value n2)] []) as Ha.
  cbn [compare_list] in Ha. unfold sbind in Ha. rewrite E in Ha. destruct r as [[]| | | |]; exact Ha.
Qed.

Lemma nodemut_asks e1 e2 (m1 m2 : bstmap K V) same n1 n2 r log : reachable e1 m1 -> reachable e2 m2 ->
  handle m1 n1 -> handle m2 n2 -> nodemut_eq_with aK aV same m1 m2 (nd_ptr n1) (nd_ptr n2) [] = (r, log) ->
  if same && bool_decide (nd_ptr n1 = nd_ptr n2) then r = Ret true /\ log = []
  else asks u true [] [QKey (node_key n1) (node_key n2); QValue (node_value n1) (node_value n2)] r log.
Proof.
  intros (t1 & fl1 & Hrep1)%reachable_rep (t2 & fl2 & Hrep2)%reachable_rep H1 H2 E.
  apply (node_asks same n1 n2). rewrite <- E. clear E.
  destruct (handle_rep m1 t1 fl1 n1 Hrep1 H1) as (path1 & l1 & p1 & k1 & v1 & r1 & Htat1 & ->).
  destruct (handle_rep m2 t2 fl2 n2 Hrep2 H2) as (path2 & l2 & p2 & k2 & v2 & r2 & Htat2 & ->).
  pose proof (tat_readable m1 path1 t1 (rep_readable _ _ _ Hrep1)) as Hr1. rewrite Htat1 in Hr1.
  pose proof (tat_readable m2 path2 t2 (rep_readable _ _ _ Hrep2)) as Hr2. rewrite Htat2 in Hr2.
  apply readable_root in Hr1, Hr2.
  unfold node_eq_with, nodemut_eq_with, nodemut_key, nodemut_value, node_key, node_value, NodeMut. cbn [nd_ptr nd_inner].
  rewrite Hr1, Hr2. cbn. by destruct (same && _).
Qed.

Lemma simple_node_asks e1 e2 (m1 m2 : simple K V) p1 p2 (t1 t2 : tree K V) r log :
  simple_reachable e1 m1 -> simple_reachable e2 m2 -> simple_handle m1 p1 -> simple_handle m2 p2 ->
  simple_exposes m1 (Some p1) t1 -> simple_exposes m2 (Some p2) t2 ->
  simple_node_eq_with aK aV m1 m2 p1 p2 [] = (r, log) ->
  asks u (tree_questions t1 t2).2 [] (tree_questions t1 t2).1 r log.
Proof.
  intros (u1 & H1)%simple_reachable_rep (u2 & H2)%simple_reachable_rep Hh1 Hh2 Ht1 Ht2.
  destruct (simple_handle_exposes m1 u1 p1 t1 H1 Hh1 Ht1) as (path1 & Hp1 & -> & Hr1 & Hht).
  destruct (simple_handle_exposes m2 u2 p2 t2 H2 Hh2 Ht2) as (path2 & Hp2 & -> & Hr2 & _).
  unfold simple_node_eq_with. rewrite <- Hp1, <- Hp2. rewrite box_eq_with_spec; [|done|done|pose proof (simple_fuel_height _ _ H1); lia].
  intros E. pose proof (compare_tree_asks (erase (tat path1 u1)) (erase (tat path2 u2)) []) as Ha. by rewrite E in Ha.
Qed.
End maps.

Section sets.
Context {T : Type} (u : list (T * T) -> T * T -> res bool).
Notation aT := (ask_item u).

Lemma item_asks x1 x2 (y1 y2 : unit) (k : M (list (T * T)) bool) b qs log :
  (forall log1, asks u b log1 qs (k log1).1 (k log1).2) ->
  asks u b log ((x1, x2) :: qs)
    ((let! b := entry_eq aT unit_eq x1 x2 y1 y2 in if b then k else sret false) log).1
    ((let! b := entry_eq aT unit_eq x1 x2 y1 y2 in if b then k else sret false) log).2.
Proof.
  intros H. unfold entry_eq, sbind, ask_item, inquire, unit_eq, sret.
  destruct (u log (x1, x2)) as [[]| | | |] eqn:E; try by apply asks_stop.
  apply asks_next; [done|]. apply H.
Qed.

Lemma compare_items_asks : forall l1 l2 log,
  asks u true log (zip l1.*1 l2.*1) (compare_list aT unit_eq l1 l2 log).1 (compare_list aT unit_eq l1 l2 log).2.
Proof.
  induction l1 as [|[k1 v1] l1 IH]; intros [|[k2 v2] l2] log; try by constructor.
  cbn [compare_list]. apply item_asks. intros log1. apply IH.
Qed.

Lemma compare_stree_asks : forall t1 t2 log,
  asks u (stree_questions (values_tree t1) (values_tree t2)).2 log (stree_questions (values_tree t1) (values_tree t2)).1
    (compare_tree aT unit_eq t1 t2 log).1 (compare_tree aT unit_eq t1 t2 log).2.
Proof.
  induction t1 as [|l1 IHl k1 v1 r1 IHr]; intros [|l2 k2 v2 r2] log; try by constructor.
  cbn [values_tree stree_questions compare_tree fst snd]. apply item_asks. intros log1.
  specialize (IHl l2 log1). unfold sbind. destruct (compare_tree aT unit_eq l1 l2 log1) as [x log2] eqn:E. cbn [fst snd] in IHl.
  destruct (stree_questions (values_tree l1) (values_tree l2)) as [ql []]; cbn [fst snd andb] in *.
  - destruct x as [[]| | | |]; try by eapply asks_app_stop.
    eapply asks_app_true; [done|]. apply IHr.
  - rewrite app_nil_r. pose proof (asks_false _ _ _ _ _ IHl). by destruct x as [[]| | | |].
Qed.

Lemma set_asks e e1 e2 (m1 m2 : bstset T) l1 l2 r log : set_reachable e1 m1 -> set_reachable e2 m2 -> set_yields m1 In l1 -> set_yields m2 In l2 ->
  bstset_eq_with e aT m1 m2 [] = (r, log) ->
  if bool_decide (length l1 = length l2) then asks u true [] (zip l1 l2) r log /\ length log <= length l1
  else r = Ret false /\ log = [].
Proof.
  intros (t1 & fl1 & Hr1)%set_reachable_map%reachable_rep (t2 & fl2 & Hr2)%set_reachable_map%reachable_rep Hl1 Hl2.
  rewrite (set_yields_fun _ _ _ _ Hl1 (set_yields_rep _ _ _ In Hr1)).
  rewrite (set_yields_fun _ _ _ _ Hl2 (set_yields_rep _ _ _ In Hr2)). cbn [tree_order]. unfold bstset_eq_with.
  erewrite map_eq_with_spec by done. rewrite !fmap_length. case_bool_decide as Hl; intros E; [|by simplify_eq].
  pose proof (compare_items_asks (tree_inorder (erase t1)) (tree_inorder (erase t2)) []) as Ha. rewrite E in Ha. split; [done|].
  apply asks_length in Ha. rewrite zip_with_length, !fmap_length in Ha. cbn [length snd] in Ha. lia.
Qed.

Lemma sset_asks e1 e2 (m1 m2 : sset T) l1 l2 r log : sset_reachable e1 m1 -> sset_reachable e2 m2 -> sset_yields m1 In l1 -> sset_yields m2 In l2 ->
  sset_eq_with aT m1 m2 [] = (r, log) ->
  if bool_decide (length l1 = length l2) then asks u true [] (zip l1 l2) r log /\ length log <= length l1
  else r = Ret false /\ log = [].
Proof.
  intros Hm1 Hm2 Hl1 Hl2. destruct (sset_reachable_rep e1 m1 Hm1) as (t1 & Hr1). destruct (sset_reachable_rep e2 m2 Hm2) as (t2 & Hr2).
  rewrite (sset_yields_fun _ _ _ _ Hl1 (sset_rep_yields _ _ In Hr1)), (sset_yields_fun _ _ _ _ Hl2 (sset_rep_yields _ _ In Hr2)).
  rewrite !stree_order_values. cbn [tree_order]. unfold sset_eq_with.
  erewrite simple_eq_with_spec by done. rewrite !fmap_length. case_bool_decide as Hl; intros E; [|by simplify_eq].
  pose proof (compare_items_asks (tree_inorder (erase t1)) (tree_inorder (erase t2)) []) as Ha. rewrite E in Ha. split; [done|].
  apply asks_length in Ha. rewrite zip_with_length, !fmap_length in Ha. cbn [length snd] in Ha. lia.
Qed.

Lemma setnode_asks (same : bool) (n1 n2 : SetNode T) r log :
  setnode_eq_with aT same n1 n2 [] = (r, log) ->
  if same && bool_decide (nd_ptr n1 = nd_ptr n2) then r = Ret true /\ log = []
  else asks u true [] [(setnode_value n1, setnode_value n2)] r log.
Proof.
  unfold setnode_eq_with, node_eq_with. destruct (same && _); [intros [= <- <-]; done|]. intros E.
  pose proof (compare_items_asks [(node_key n1, node_value n1)] [(node_key n2, node_value n2)] []) as Ha.
  cbn [compare_list] in Ha. unfold sbind in Ha. rewrite E in Ha. destruct r as [[]| | | |]; exact Ha.
Qed.

Lemma ssetnode_asks e1 e2 (m1 m2 : sset T) p1 p2 (t1 t2 : stree T) r log :
  sset_reachable e1 m1 -> sset_reachable e2 m2 -> sset_handle m1 p1 -> sset_handle m2 p2 ->
  sset_exposes m1 (Some p1) t1 -> sset_exposes m2 (Some p2) t2 ->
  ssetnode_eq_with aT m1 m2 p1 p2 [] = (r, log) ->
  asks u (stree_questions t1 t2).2 [] (stree_questions t1 t2).1 r log.
Proof.
  intros (u1 & H1)%sset_reachable_rep (u2 & H2)%sset_reachable_rep Hh1 Hh2 Ht1 Ht2.
  assert (Hc : forall (m : sset T) p, sset_handle m p -> simple_handle m p).
  { intros m p (path & Hw). rewrite sset_walk_eq in Hw. by exists path. }
  destruct (simple_handle_rep m1 u1 p1 (simple_readable _ _ H1) (simple_root_ret _ _ H1) (Hc _ _ Hh1)) as (pa1 & l1 & k1 & v1 & r1 & E1).
  destruct (simple_handle_rep m2 u2 p2 (simple_readable _ _ H2) (simple_root_ret _ _ H2) (Hc _ _ Hh2)) as (pa2 & l2 & k2 & v2 & r2 & E2).
  pose proof (tat_sreadable m1 pa1 u1 (simple_readable _ _ H1)) as Hr1. pose proof (tat_sreadable m2 pa2 u2 (simple_readable _ _ H2)) as Hr2.
  rewrite E1 in Hr1. rewrite E2 in Hr2.
  rewrite <- (sset_exposes_fun m1 _ _ Ht1 _ (sset_exposes_values m1 _ _ (simple_shows_sub m1 _ Hr1))).
  rewrite <- (sset_exposes_fun m2 _ _ Ht2 _ (sset_exposes_values m2 _ _ (simple_shows_sub m2 _ Hr2))).
  unfold ssetnode_eq_with, simple_node_eq_with.
  change (Some p1) with (rootp (Bin l1 p1 k1 v1 r1)). change (Some p2) with (rootp (Bin l2 p2 k2 v2 r2)).
  rewrite box_eq_with_spec; [|done|done|].
  - intros E. pose proof (compare_stree_asks (erase (Bin l1 p1 k1 v1 r1)) (erase (Bin l2 p2 k2 v2 r2)) []) as Ha. by rewrite E in Ha.
  - pose proof (simple_fuel_height _ _ H1). pose proof (tat_height pa1 u1) as Hle. rewrite E1 in Hle. lia.
Qed.
End sets.

(** ** Arenas *)
Section arenas.
Context {T : Type} (u : list (T * T) -> T * T -> res bool).
Notation aT := (ask_item u).
Local Open Scope N_scope.

Lemma arena_eq_loop_asks e (a1 a2 : arena T) l1 l2 : arena_rep a1 l1 -> arena_rep a2 l2 -> length l1 = length l2 ->
  forall fuel i log, (length l1 - i < fuel)%nat -> (i <= length l1)%nat ->
  forall r log', arena_eq_loop_with aT e fuel a1 a2 (mkRange (N.of_nat i) (N.of_nat (length l1))) (mkRange (N.of_nat i) (N.of_nat (length l2))) log = (r, log') ->
  asks u true log (zip (drop i l1.*2) (drop i l2.*2)) r log'.
Proof.
  intros H1 H2 Hlen. induction fuel as [|fuel IH]; intros i log Hf Hi r log'; [lia|]. cbn [arena_eq_loop_with].
  destruct (decide (i = length l1)) as [->|Hne].
  { rewrite next_ptr_none by (simpl; lia). rewrite lift_ret.
    rewrite !drop_ge by (rewrite fmap_length; lia). intros [= <- <-]. constructor. }
  assert (Hi1 : (i < length l1)%nat) by lia. assert (Hi2 : (i < length l2)%nat) by lia.
  apply lookup_lt_is_Some in Hi1 as [[p1 x1] Hl1]. apply lookup_lt_is_Some in Hi2 as [[p2 x2] Hl2].
  destruct (arena_rep_lookup _ _ _ _ _ H1 Hl1) as [Hp1 Hc1]. destruct (arena_rep_lookup _ _ _ _ _ H2 Hl2) as [Hp2 Hc2].
  destruct (next_ptr_some e a1 (mkRange (N.of_nat i) (N.of_nat (length l1))) (rp_inv _ _ H1) (arena_rep_full _ _ H1))
    as (y1 & Hy1 & ->); [simpl; lia|simpl; rewrite (arena_rep_len _ _ H1); lia|].
  destruct (next_ptr_some e a2 (mkRange (N.of_nat i) (N.of_nat (length l2))) (rp_inv _ _ H2) (arena_rep_full _ _ H2))
    as (y2 & Hy2 & ->); [simpl; lia|simpl; rewrite (arena_rep_len _ _ H2); lia|].
  cbn [r_start r_end] in *. rewrite <- Hp1, Hc1 in Hy1. rewrite <- Hp2, Hc2 in Hy2. injection Hy1 as <-. injection Hy2 as <-.
  rewrite !lift_ret. rewrite (drop_S l1.*2 x1 i) by by rewrite list_lookup_fmap, Hl1.
  rewrite (drop_S l2.*2 x2 i) by by rewrite list_lookup_fmap, Hl2. cbn [zip_with].
  unfold sbind, ask_item, inquire. destruct (u log (x1, x2)) as [[]| | | |] eqn:E; try (intros [= <- <-]; by apply asks_stop).
  replace (N.of_nat i + 1) with (N.of_nat (S i)) by lia. intros Hx. apply asks_next; [done|]. eapply IH; [| |exact Hx]; lia.
Qed.

Lemma arena_asks e n1 n2 cs1 cs2 rs1 rs2 (a1 a2 : arena T) r log :
  arena_reached e n1 cs1 rs1 a1 -> arena_contract [] cs1 rs1 -> Forall process_on rs1 ->
  arena_reached e n2 cs2 rs2 a2 -> arena_contract [] cs2 rs2 -> Forall process_on rs2 ->
  arena_eq_with aT e a1 a2 [] = (r, log) ->
  let l1 := (arena_contents [] cs1 rs1).*2 in let l2 := (arena_contents [] cs2 rs2).*2 in
  if bool_decide (length l1 = length l2) then asks u true [] (zip l1 l2) r log /\ (length log <= length l1)%nat
  else r = Ret false /\ log = [].
Proof.
  intros H1 H2 H3 H4 H5 H6. destruct (arena_final _ _ _ _ _ H1 H2 H3) as [Hr1 _]. destruct (arena_final _ _ _ _ _ H4 H5 H6) as [Hr2 _].
  cbn zeta. revert Hr1 Hr2. generalize (arena_contents [] cs1 rs1), (arena_contents [] cs2 rs2). intros l1 l2 Hr1 Hr2.
  unfold arena_eq_with, iter_new, arena_len. rewrite (arena_rep_len _ _ Hr1), (arena_rep_len _ _ Hr2), !fmap_length.
  destruct (N.eqb_spec (N.of_nat (length l1)) (N.of_nat (length l2))) as [Heq|Hne]; cbn [negb].
  - rewrite bool_decide_eq_true_2 by lia. rewrite Nat2N.id. change 0 with (N.of_nat 0). intros Hx.
    apply (arena_eq_loop_asks e a1 a2 l1 l2 Hr1 Hr2) in Hx; [|lia..]. rewrite !drop_0 in Hx. split; [done|].
    apply asks_length in Hx. rewrite zip_with_length, !fmap_length in Hx. cbn [length] in Hx. lia.
  - rewrite bool_decide_eq_false_2 by lia. by intros [= <- <-].
Qed.
End arenas.
