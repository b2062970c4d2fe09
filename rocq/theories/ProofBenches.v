(** * Proofs: the client programs *)

From Coq Require Import String ZArith.
From Verif Require Import ModelBenches SpecBenches SpecCommute ProofExtend ProofStack ProofCommute ProofRestore ProofUpdates ProofSimpleCost ProofCost ProofSimpleProps ProofMapProps ProofObs ProofOracle SpecFacts SpecSteps.

(** ** Trees *)
Section trees.
Context {K V : Type}.
Implicit Types t : tree K V.
Variable cmp : K -> K -> comparison.
Hypothesis Hlaw : lawful cmp.

Lemma surely_answers (o : oracle K) f : surely o f -> answers o f.
Proof. intros H i k. left. apply H. Qed.

Lemma otree_find_surely (o : oracle K) f t i : surely o f -> otree_find o i t = Some (tree_find f t).
Proof.
  intros Ho. revert i. induction t as [|l IHl k v r IHr]; intros i; cbn; [done|]. rewrite Ho. by destruct (f k).
Qed.

Lemma otree_set_surely (o : oracle K) f w t i : surely o f -> otree_set o i w t = tree_set f w t.
Proof.
  intros Ho. revert i. induction t as [|l IHl k v r IHr]; intros i; cbn; [done|]. rewrite Ho. destruct (f k); by rewrite ?IHl, ?IHr.
Qed.

Lemma otree_insert_surely (o : oracle K) k v t i : surely o (cmp k) -> otree_insert o i k v t = Some (tree_insert cmp k v t, snd <$> tree_find (cmp k) t).
Proof.
  intros Ho. revert i. induction t as [|l IHl x w r IHr]; intros i; cbn; [done|]. rewrite Ho. destruct (cmp k x); rewrite ?IHl, ?IHr; done.
Qed.

Lemma find_insert k k' v t : snd <$> tree_find (cmp k) (tree_insert cmp k' v t) = match cmp k k' with Eq => Some v | _ => snd <$> tree_find (cmp k) t end.
Proof using Hlaw.
  induction t as [|l IHl x w r IHr]; cbn [tree_insert tree_find].
  { by destruct (cmp k k'). }
  destruct (cmp k' x) eqn:E; cbn [tree_find].
  - assert (Hx : cmp k x = cmp k k').
    { rewrite (lw_sym _ Hlaw x k), (lw_sym _ Hlaw k' k). f_equal. symmetry. by apply (lw_cong _ Hlaw). }
    rewrite <- Hx. by destruct (cmp k x).
  - destruct (cmp k x) eqn:Ex; [|done|].
    + destruct (cmp k k') eqn:Ek; [|done..]. rewrite (lw_cong _ Hlaw _ _ x Ek) in Ex. congruence.
    + destruct (cmp k k') eqn:Ek; [|done..]. rewrite (lw_cong _ Hlaw _ _ x Ek) in Ex. congruence.
  - destruct (cmp k x) eqn:Ex; [| |done].
    + destruct (cmp k k') eqn:Ek; [|done..]. rewrite (lw_cong _ Hlaw _ _ x Ek) in Ex. congruence.
    + destruct (cmp k k') eqn:Ek; [|done..]. rewrite (lw_cong _ Hlaw _ _ x Ek) in Ex. congruence.
Qed.

Lemma find_set k k' v t : tree_find (cmp k') t <> None ->
  snd <$> tree_find (cmp k) (tree_set (cmp k') v t) = match cmp k k' with Eq => Some v | _ => snd <$> tree_find (cmp k) t end.
Proof using Hlaw.
  induction t as [|l IHl x w r IHr]; cbn [tree_set tree_find]; [done|].
  destruct (cmp k' x) eqn:E; cbn [tree_find]; intros Hf.
  - assert (Hx : cmp k x = cmp k k').
    { rewrite (lw_sym _ Hlaw x k), (lw_sym _ Hlaw k' k). f_equal. symmetry. by apply (lw_cong _ Hlaw). }
    rewrite <- Hx. by destruct (cmp k x).
  - specialize (IHl Hf). destruct (cmp k x) eqn:Ex; [|done|];
      (destruct (cmp k k') eqn:Ek; [|done..]; rewrite (lw_cong _ Hlaw _ _ x Ek) in Ex; congruence).
  - specialize (IHr Hf). destruct (cmp k x) eqn:Ex; [| |done];
      (destruct (cmp k k') eqn:Ek; [|done..]; rewrite (lw_cong _ Hlaw _ _ x Ek) in Ex; congruence).
Qed.

(** ** The methods *)
Lemma map_get_tree e (m : bstmap K V) t o f : reachable e m -> shows m t -> surely o f ->
  (let! m := sget in slift (map_get m o)) m = (Ret (snd <$> tree_find f t), m).
Proof.
  intros Hr Hs Ho. destruct (exec e (OGet o) m) as [r m'] eqn:He.
  destruct (any_comparator_call _ _ _ _ _ _ Hr Hs He) as (t' & _ & [H|[[]|[]]]).
  cbn [otree_call] in H. rewrite (otree_find_surely o f t 0 Ho) in H. cbn in H. injection H as <- _.
  revert He. cbn [exec]. unfold sbind, sget, slift, sret. destruct (map_get m o); by intros [= -> _].
Qed.

Lemma map_insert_step e (m : bstmap K V) t o k v r m' : reachable e m -> shows m t -> surely o (cmp k) ->
  bstmap_insert e o k v m = (r, m') ->
  match r with Ret _ => reachable e m' /\ shows m' (tree_insert cmp k v t) | _ => alloc_refused r end.
Proof using Hlaw.
  intros Hr Hs Ho Hi. assert (He : exec e (OInsert o k v) m = (rmap OutValue r, m')).
  { cbn [exec]. unfold sbind, sret. rewrite Hi. by destruct r. }
  destruct r as [x|p| | |]; cbn [rmap rbind] in He;
    [destruct (map_makes cmp Hlaw e (OInsert o k v) (UInsert k v) m t _ _ (conj eq_refl (conj eq_refl (surely_answers _ _ Ho))) Hr Hs He) as (? & ? & _); done|..];
    destruct (any_comparator_call _ _ _ _ _ _ Hr Hs He) as (t' & _ & [H|[[]|[H _]]]);
    try (cbn [otree_call] in H; rewrite (otree_insert_surely o k v t 0 Ho) in H; done).
  all: unfold alloc_refused in *; naive_solver.
Qed.

Lemma map_get_mut_exec e (m : bstmap K V) t o f w : reachable e m -> shows m t -> surely o f ->
  exists m', exec e (OGetMut o w) m = (Ret (OutValue (snd <$> tree_find f t)), m') /\ reachable e m' /\
    shows m' (match w with Some w => tree_set f w t | None => t end).
Proof.
  intros Hr Hs Ho. destruct (exec e (OGetMut o w) m) as [r m'] eqn:He.
  destruct (any_comparator_call _ _ _ _ _ _ Hr Hs He) as (t' & Ht' & [H|[[]|[]]]).
  cbn [otree_call] in H. rewrite (otree_find_surely o f t 0 Ho) in H. cbn in H.
  destruct w as [w|]; [rewrite (otree_set_surely o f w t 0 Ho) in H|]; injection H as <- <-; exists m'; split_and!; try done;
    by eapply reachable_step.
Qed.

Lemma map_get_mut_tree e (m : bstmap K V) t o f : reachable e m -> shows m t -> surely o f ->
  match tree_find f t with
  | None => (let! m := sget in slift (map_get_mut m o)) m = (Ret None, m)
  | Some (_, v) => exists p, (let! m := sget in slift (map_get_mut m o)) m = (Ret (Some p), m) /\
      (let! m := sget in slift (nodemut_value m p)) m = (Ret v, m) /\
      forall w, exists m', write_value p w m = (Ret tt, m') /\ reachable e m' /\ shows m' (tree_set f w t)
  end.
Proof.
  intros Hr Hs Ho. destruct (map_get_mut_exec e m t o f None Hr Hs Ho) as (m0 & H0 & _).
  pose proof (fun w => map_get_mut_exec e m t o f (Some w) Hr Hs Ho) as Hw.
  cbn [exec opt_write] in H0, Hw. unfold sbind, sget, slift, sret in *.
  destruct (map_get_mut m o) as [[p|]| | | |]; try done.
  - destruct (nodemut_value m p) as [v'| | | |] eqn:Ev; try done. destruct (tree_find f t) as [[k v]|]; [|done].
    injection H0 as -> _. exists p. split_and!; [done|by rewrite Ev|]. intros w. destruct (Hw w) as (m1 & H1 & R & H).
    destruct (write_value p w m) as [[[]| | | |] m2] eqn:Ew; try done. injection H1 as <-. by exists m2.
  - injection H0 as Hf _. by destruct (tree_find f t).
Qed.

Lemma simple_step e c (m : simple K V) t r m' : simple_reachable e m -> simple_shows m t -> simple_has c = true ->
  simple_exec e c m = (r, m') -> (r = Abort /\ allocates c = true) \/ (simple_reachable e m' /\ exists t', simple_shows m' t' /\ stree_call c t = Some (r, t')).
Proof.
  intros Hr Hs Hh He. destruct (simple_never_fails _ c _ _ _ Hr Hh He) as [Ha Hb].
  assert (D : r = Abort \/ r <> Abort) by (destruct r; auto). destruct D as [->|D].
  - left. split; [done|]. by destruct Ha as [[? ?]|[(? & ? & _)|[_ ?]]].
  - right. split; [auto|]. by eapply simple_call_tree.
Qed.

Lemma simple_get_tree e (m : simple K V) t o f : simple_reachable e m -> simple_shows m t -> surely o f ->
  (let! m := sget in slift (simple_get m o)) m = (Ret (snd <$> tree_find f t), m).
Proof.
  intros Hr Hs Ho. destruct (simple_exec e (OGet o) m) as [r m'] eqn:He.
  destruct (simple_step e (OGet o) m t r m' Hr Hs eq_refl He) as [[_ H]|(_ & t' & _ & H)]; [done|].
  cbn [stree_call otree_call] in H. rewrite (otree_find_surely o f t 0 Ho) in H. cbn in H. injection H as <- _.
  revert He. cbn [simple_exec]. unfold sbind, sget, slift, sret. destruct (simple_get m o); by intros [= -> _].
Qed.

Lemma simple_insert_step e (m : simple K V) t o k v r m' : simple_reachable e m -> simple_shows m t -> surely o (cmp k) ->
  simple_insert e o k v m = (r, m') ->
  match r with Ret _ => simple_reachable e m' /\ simple_shows m' (tree_insert cmp k v t) | _ => alloc_refused r end.
Proof.
  intros Hr Hs Ho Hi. assert (He : simple_exec e (OInsert o k v) m = (rmap OutValue r, m')).
  { cbn [simple_exec]. unfold sbind, sret. rewrite Hi. by destruct r. }
  destruct (simple_step e (OInsert o k v) m t _ m' Hr Hs eq_refl He) as [[H _]|(R & t' & Ht' & H)].
  - destruct r; try done. by right; right.
  - cbn [stree_call otree_call] in H. rewrite (otree_insert_surely o k v t 0 Ho) in H. cbn in H. destruct r; try done.
    injection H as _ <-. done.
Qed.

Lemma simple_get_mut_exec e (m : simple K V) t o f w : simple_reachable e m -> simple_shows m t -> surely o f ->
  exists m', simple_exec e (OGetMut o w) m = (Ret (OutValue (snd <$> tree_find f t)), m') /\ simple_reachable e m' /\
    simple_shows m' (match w with Some w => tree_set f w t | None => t end).
Proof.
  intros Hr Hs Ho. destruct (simple_exec e (OGetMut o w) m) as [r m'] eqn:He.
  destruct (simple_step e (OGetMut o w) m t r m' Hr Hs eq_refl He) as [[_ H]|(R & t' & Ht' & H)]; [done|].
  cbn [stree_call otree_call] in H. rewrite (otree_find_surely o f t 0 Ho) in H. cbn in H.
  destruct w as [w|]; [rewrite (otree_set_surely o f w t 0 Ho) in H|]; injection H as <- <-; exists m'; by split_and!.
Qed.

Lemma simple_get_mut_tree e (m : simple K V) t o f : simple_reachable e m -> simple_shows m t -> surely o f ->
  match tree_find f t with
  | None => (let! m := sget in slift (simple_get_mut m o)) m = (Ret None, m)
  | Some (_, v) => exists p, (let! m := sget in slift (simple_get_mut m o)) m = (Ret (Some p), m) /\
      (let! m := sget in let! n := slift (peek m p) in sret (n_value n)) m = (Ret v, m) /\
      forall w, exists m', poke p (with_value w) m = (Ret tt, m') /\ simple_reachable e m' /\ simple_shows m' (tree_set f w t)
  end.
Proof.
  intros Hr Hs Ho. destruct (simple_get_mut_exec e m t o f None Hr Hs Ho) as (m0 & H0 & _).
  pose proof (fun w => simple_get_mut_exec e m t o f (Some w) Hr Hs Ho) as Hw.
  cbn [simple_exec opt_poke] in H0, Hw. unfold sbind, sget, slift, sret in *.
  destruct (simple_get_mut m o) as [[p|]| | | |]; try done.
  - destruct (peek m p) as [v'| | | |] eqn:Ev; try done. destruct (tree_find f t) as [[k v]|]; [|done].
    injection H0 as <- _. exists p. split_and!; [done|by rewrite Ev|]. intros w. destruct (Hw w) as (m1 & H1 & R & H).
    destruct (poke p (with_value w) m) as [[[]| | | |] m2] eqn:Ew; try done. injection H1 as <-. by exists m2.
  - injection H0 as Hf _. by destruct (tree_find f t).
Qed.
End trees.

(** ** two_sum *)
Section two_sum.
Context {S : Type}.
Variable chk : bool.
Variable get : oracle Z -> M S (option N).
Variable insert : oracle Z -> Z -> N -> M S (option N).
Variable R : S -> tree Z N -> Prop.
Hypothesis Hget : forall s t o f, R s t -> surely o f -> get o s = (Ret (snd <$> tree_find f t), s).
Hypothesis Hins : forall s t o k v r s', R s t -> surely o (Z.compare k) -> insert o k v s = (r, s') ->
  match r with Ret _ => R s' (tree_insert Z.compare k v t) | _ => alloc_refused r end.

Lemma zcmp_lawful : lawful Z.compare.
Proof.
  constructor.
  - apply Z.compare_refl.
  - intros. apply Z.compare_antisym.
  - intros a b c H1 H2. rewrite Z.compare_lt_iff in *. lia.
  - intros a b c H. apply Z.compare_eq in H. by subst.
Qed.

Lemma i64_sub_adds target a b c : is_i64 b -> i64_sub chk target a = Ret c -> b = c <-> adds_up chk target a b.
Proof.
  unfold is_i64, i64_sub, adds_up, I64_HALF. intros Hb.
  replace (2 * 2 ^ 63)%Z with (2 ^ 64)%Z by done.
  assert (Hcong : forall c, (- 2 ^ 63 <= c < 2 ^ 63)%Z -> (c mod 2 ^ 64 = (target - a) mod 2 ^ 64)%Z -> b = c <-> ((a + b) mod 2 ^ 64 = target mod 2 ^ 64)%Z).
  { intros c' Hc Hm. split.
    - intros ->. rewrite Z.add_mod, Hm, <- Z.add_mod by done. f_equal. lia.
    - intros H. assert (Hbm : (b mod 2 ^ 64 = c' mod 2 ^ 64)%Z).
      { rewrite Hm. replace b with (a + b - a)%Z by lia. rewrite Zminus_mod, H, <- Zminus_mod. done. }
      assert (Hx : ((b + 2 ^ 63) mod 2 ^ 64 = (c' + 2 ^ 63) mod 2 ^ 64)%Z) by (by rewrite Z.add_mod, Hbm, <- Z.add_mod).
      rewrite !Z.mod_small in Hx by lia. lia. }
  destruct ((- 2 ^ 63 <=? target - a) && (target - a <? 2 ^ 63))%Z eqn:E.
  - intros [= <-]. apply andb_true_iff in E as [E1 E2]. apply Z.leb_le in E1. apply Z.ltb_lt in E2.
    destruct chk; [lia|]. by apply Hcong.
  - destruct chk; [done|]. intros [= <-]. apply Hcong.
    + pose proof (Z.mod_pos_bound (target - a + 2 ^ 63) (2 ^ 64) ltac:(done)). lia.
    + rewrite Zminus_mod, Z.mod_mod, <- Zminus_mod by done. f_equal. lia.
Qed.

Definition remembers (t : tree Z N) (pre : list Z) : Prop :=
  forall k, match snd <$> tree_find (Z.compare k) t with
    | Some j => pre !! N.to_nat j = Some k /\ forall j', (j < j')%N -> pre !! N.to_nat j' <> Some k
    | None => k ∉ pre
    end.

Lemma remembers_snoc t pre num : remembers t pre -> remembers (tree_insert Z.compare num (N.of_nat (length pre)) t) (pre ++ [num]).
Proof.
  intros H k. rewrite (find_insert _ zcmp_lawful). destruct (Z.compare_spec k num) as [->|Hk|Hk].
  { rewrite Nat2N.id. split; [by rewrite lookup_app_r, Nat.sub_diag|]. intros j' Hj. rewrite lookup_ge_None_2; [done|].
    rewrite app_length. cbn. lia. }
  all: specialize (H k); destruct (snd <$> tree_find _ t) as [j|]; [|rewrite elem_of_app, elem_of_list_singleton; intros [?|?]; [done|lia]].
  all: destruct H as [Hj Hl]; split; [by apply lookup_app_l_Some|]; intros j' Hj' Hx; apply lookup_app_Some in Hx as [Hx|[_ Hx]];
    [by apply (Hl j')|apply list_lookup_singleton_Some in Hx as [_ Hx]; lia].
Qed.

Lemma no_pair_snoc target pre num c : Forall is_i64 pre -> i64_sub chk target num = Ret c -> c ∉ pre ->
  no_pair chk target pre -> no_pair chk target (pre ++ [num]).
Proof.
  intros Hp Hc Hn Hpre i j a b Hij Ha Hb. apply lookup_app_Some in Ha as [Ha|[Hi Ha]].
  - apply (Hpre i j a b Hij Ha). apply lookup_lt_Some in Ha. rewrite lookup_app_l in Hb by lia. done.
  - apply list_lookup_singleton_Some in Ha as [Hi' <-]. rewrite lookup_app_l in Hb by lia.
    apply elem_of_list_lookup_2 in Hb. rewrite Forall_forall in Hp. rewrite <- (i64_sub_adds target num b c); [|by apply Hp|done].
    by intros ->.
Qed.

Lemma two_sum_loop_ok target numbers : forall pre s t, R s t -> Forall is_i64 (pre ++ numbers) ->
  remembers t pre -> no_pair chk target pre ->
  two_sum_spec chk (pre ++ numbers) target (two_sum_loop chk get insert target (N.of_nat (length pre)) numbers s).1.
Proof using Hget Hins.
  induction numbers as [|num numbers IH]; intros pre s t Hs Hall Hrem Hno; cbn [two_sum_loop].
  { by rewrite app_nil_r. }
  unfold sbind at 1, slift. destruct (i64_sub chk target num) as [c|p| | |] eqn:Hc; cbn [fst].
  2: { right. revert Hc. unfold i64_sub. destruct (_ && _) eqn:E; [done|]. destruct chk eqn:Echk; [|done]. intros [= <-].
       split_and!; [done..|]. exists (length pre), num. split_and!; [by rewrite lookup_app_r, Nat.sub_diag| |by rewrite take_app].
       intros [H1 H2]. apply andb_false_iff in E as [E|E]; unfold I64_HALF in E; [apply Z.leb_gt in E|apply Z.ltb_ge in E]; lia. }
  2-4: revert Hc; unfold i64_sub; destruct (_ && _); [done|]; by destruct chk.
  unfold sbind at 1. rewrite (Hget s t (i64_oracle c) (Z.compare c) Hs (fun _ _ => eq_refl)).
  pose proof (Hrem c) as Hrc. apply Forall_app in Hall as [Hpre Hall].
  destruct (snd <$> tree_find (Z.compare c) t) as [j|] eqn:Hf.
  - destruct Hrc as [Hj Hl]. pose proof (lookup_lt_Some _ _ _ Hj) as Hlt. cbn. exists num, c.
    assert (Hadd : forall b, b ∈ pre -> b = c <-> adds_up chk target num b).
    { intros b Hb. apply i64_sub_adds; [|done]. rewrite Forall_forall in Hpre. auto. }
    rewrite !Nat2N.id. split_and!.
    + lia.
    + by rewrite lookup_app_r, Nat.sub_diag.
    + by apply lookup_app_l_Some.
    + apply Hadd; [|done]. by eapply elem_of_list_lookup_2.
    + by rewrite take_app.
    + intros j' Hj' b' Hb' Ha. rewrite lookup_app_l in Hb' by lia. apply Hadd in Ha; [|by eapply elem_of_list_lookup_2].
      subst. apply (Hl j'); [lia|done].
  - unfold sbind at 1. destruct (insert (i64_oracle num) num (N.of_nat (length pre)) s) as [r s'] eqn:Hi.
    pose proof (Hins _ _ _ _ _ _ _ Hs (fun _ _ => eq_refl) Hi) as Hr.
    destruct r as [x|p| | |]; cbn [fst]; [|by left; destruct Hr as [[=]|[[=]|[=]]]; subst; unfold alloc_refused; auto..].
    replace (N.of_nat (length pre) + 1)%N with (N.of_nat (length (pre ++ [num]))) by (rewrite app_length; cbn; lia).
    replace (pre ++ num :: numbers) with ((pre ++ [num]) ++ numbers) by (by rewrite <- app_assoc).
    eapply IH; [exact Hr| | |].
    + rewrite <- app_assoc. by apply Forall_app.
    + by apply remembers_snoc.
    + by eapply no_pair_snoc.
Qed.
End two_sum.

Lemma map_two_sum_ok e numbers target : Forall is_i64 numbers -> two_sum_spec (e_chk e) numbers target (map_two_sum e numbers target).
Proof.
  intros H. unfold map_two_sum.
  apply (two_sum_loop_ok (e_chk e) _ _ (fun m t => reachable e m /\ shows m t)) with (pre := []) (t := tleaf).
  - intros s t o f [Hr Hs] Ho. by apply (map_get_tree e).
  - intros s t o k v r s' [Hr Hs] Ho Hi. by apply (map_insert_step _ zcmp_lawful e s t o k v r s').
  - split; [apply new_reachable|apply new_shows].
  - done.
  - intros k. apply not_elem_of_nil.
  - by intros i j a b _ ?.
Qed.

Lemma simple_new_shows {K V} : simple_shows (simple_new (K:=K) (V:=V)) tleaf.
Proof. apply (simple_rep_shows _ _ simple_new_rep). Qed.

Lemma simple_two_sum_ok e numbers target : Forall is_i64 numbers -> two_sum_spec (b_chk e) numbers target (simple_two_sum e numbers target).
Proof.
  intros H. unfold simple_two_sum.
  apply (two_sum_loop_ok (b_chk e) _ _ (fun m t => simple_reachable e m /\ simple_shows m t)) with (pre := []) (t := tleaf).
  - intros s t o f [Hr Hs] Ho. by apply (simple_get_tree e).
  - intros s t o k v r s' [Hr Hs] Ho Hi. by apply (simple_insert_step _ e s t o k v r s').
  - split; [apply simple_reachable_new|apply simple_new_shows].
  - done.
  - intros k. apply not_elem_of_nil.
  - by intros i j a b _ ?.
Qed.

(** ** tabulate_requests *)
Section counters.
Context {S K : Type}.
Variable chk : bool.
Variable cmp : K -> K -> comparison.
Hypothesis Hlaw : lawful cmp.
Variable get_mut : oracle K -> M S (option Ptr).
Variable read : Ptr -> M S N.
Variable write : Ptr -> N -> M S unit.
Variable insert : oracle K -> K -> N -> M S (option N).
Variable R : S -> tree K N -> Prop.
Hypothesis Hgm : forall s t o f, R s t -> surely o f ->
  match tree_find f t with
  | None => get_mut o s = (Ret None, s)
  | Some (_, v) => exists p, get_mut o s = (Ret (Some p), s) /\ read p s = (Ret v, s) /\
      forall w, exists s', write p w s = (Ret tt, s') /\ R s' (tree_set f w t)
  end.
Hypothesis Hins : forall s t o k v r s', R s t -> surely o (cmp k) -> insert o k v s = (r, s') ->
  match r with Ret _ => R s' (tree_insert cmp k v t) | _ => alloc_refused r end.

Definition counts (t : tree K N) (names : list K) : Prop := forall k, snd <$> tree_find (cmp k) t = times_requested cmp k names.

Lemma requests_cong k n names : cmp k n = Eq -> times_requested cmp k names = times_requested cmp n names.
Proof using Hlaw.
  intros E. unfold times_requested. rewrite (list_filter_iff (fun x => cmp k x = Eq) (fun x => cmp n x = Eq)); [done|].
  intros x. by rewrite (lw_cong _ Hlaw _ _ x E).
Qed.

Lemma requests_snoc k n names :
  times_requested cmp k (names ++ [n]) = match cmp k n with Eq => Some (default 0 (times_requested cmp k names) + 1)%N | _ => times_requested cmp k names end.
Proof.
  unfold times_requested. rewrite filter_app, app_length, filter_cons. destruct (decide (cmp k n = Eq)) as [E|E].
  - rewrite E, filter_nil. cbn [length]. rewrite Nat.add_1_r. destruct (length _) eqn:L; cbn [default]; unfold default, id; f_equal; lia.
  - rewrite filter_nil. cbn [length]. rewrite Nat.add_0_r. by destruct (cmp k n).
Qed.

Lemma requests_le k names v : times_requested cmp k names = Some v -> (v <= N.of_nat (length names))%N.
Proof.
  unfold times_requested. pose proof (filter_length (fun x => cmp k x = Eq) names) as H. destruct (length (filter _ _)); [done|].
  intros [= <-]. lia.
Qed.

Lemma increment_ok names name s t : R s t -> counts t names -> (N.of_nat (length names) + 1 < USIZE)%N ->
  match increment_counter chk cmp get_mut read write insert name s with
  | (Ret _, s') => exists t', R s' t' /\ counts t' (names ++ [name])
  | (r, _) => alloc_refused r
  end.
Proof using Hlaw Hgm Hins.
  intros Hs Hc Hlen. unfold increment_counter, sbind, sret, slift.
  pose proof (Hgm s t (name_oracle cmp name) (cmp name) Hs (fun _ _ => eq_refl)) as Hg. pose proof (Hc name) as Hn.
  destruct (tree_find (cmp name) t) as [[k0 v]|] eqn:Hf.
  - destruct Hg as (p & -> & -> & Hw). cbn in Hn. symmetry in Hn. pose proof (requests_le _ _ _ Hn) as Hv.
    unfold uadd. rewrite (proj2 (N.ltb_lt _ _)) by lia. destruct (Hw (v + 1)%N) as (s' & -> & Hs').
    eexists. split; [exact Hs'|]. intros k. rewrite (find_set _ Hlaw) by congruence. rewrite requests_snoc.
    destruct (cmp k name) eqn:E; [|apply Hc..]. by rewrite (requests_cong _ _ _ E), Hn.
  - rewrite Hg. destruct (insert (name_oracle cmp name) name 1%N s) as [r s'] eqn:Hi.
    pose proof (Hins _ _ _ _ _ _ _ Hs (fun _ _ => eq_refl) Hi) as Hr.
    destruct r as [x|p| | |]; [|unfold alloc_refused in *; naive_solver..].
    eexists. split; [exact Hr|]. intros k. rewrite (find_insert _ Hlaw), requests_snoc.
    destruct (cmp k name) eqn:E; [|apply Hc..]. rewrite (requests_cong _ _ _ E), <- Hn. done.
Qed.

Lemma tabulate_loop_ok reqs : forall ts gs s1 s2 t1 t2, R s1 t1 -> R s2 t2 -> counts t1 ts -> counts t2 gs ->
  (N.of_nat (length ts + length reqs) < USIZE)%N -> (N.of_nat (length gs + length reqs) < USIZE)%N ->
  match tabulate_loop chk cmp get_mut read write insert reqs (s1, s2) with
  | (Ret _, (s1', s2')) => exists t1' t2', R s1' t1' /\ R s2' t2' /\ counts t1' (ts ++ reqs.*1) /\ counts t2' (gs ++ reqs.*2)
  | (r, _) => alloc_refused r
  end.
Proof using Hlaw Hgm Hins.
  induction reqs as [|[ti ge] reqs IH]; intros ts gs s1 s2 t1 t2 H1 H2 C1 C2 L1 L2; cbn [tabulate_loop fmap list_fmap fst snd].
  { cbn. rewrite !app_nil_r. by exists t1, t2. }
  cbn [length] in L1, L2. unfold sbind at 1. unfold on_titles, zoom. cbn [fst snd].
  pose proof (increment_ok ts ti s1 t1 H1 C1 ltac:(lia)) as I1.
  destruct (increment_counter chk cmp get_mut read write insert ti s1) as [[[]|p| | |] s1']; [|unfold alloc_refused in *; naive_solver..].
  destruct I1 as (t1' & H1' & C1'). unfold sbind at 1. unfold on_genres, zoom. cbn [fst snd].
  pose proof (increment_ok gs ge s2 t2 H2 C2 ltac:(lia)) as I2.
  destruct (increment_counter chk cmp get_mut read write insert ge s2) as [[[]|p| | |] s2']; [|unfold alloc_refused in *; naive_solver..].
  destruct I2 as (t2' & H2' & C2').
  specialize (IH (ts ++ [ti]) (gs ++ [ge]) s1' s2' t1' t2' H1' H2' C1' C2').
  rewrite !app_length, <- !app_assoc in IH. cbn [length app] in IH. apply IH; lia.
Qed.
End counters.

Lemma requests_nil {K} (cmp : K -> K -> comparison) : counts cmp tleaf [].
Proof. by intros k. Qed.

Lemma map_tabulate_ok {K} e (cmp : K -> K -> comparison) (reqs : list (K * K)) : lawful cmp -> (N.of_nat (length reqs) < USIZE)%N ->
  match map_tabulate e cmp reqs with
  | (Ret _, (titles, genres)) => reachable e titles /\ reachable e genres /\ forall k o, surely o (cmp k) ->
      exec e (OGet o) titles = (Ret (OutValue (times_requested cmp k reqs.*1)), titles) /\
      exec e (OGet o) genres = (Ret (OutValue (times_requested cmp k reqs.*2)), genres)
  | (r, _) => alloc_refused r
  end.
Proof.
  intros Hlaw Hl. unfold map_tabulate.
  pose proof (tabulate_loop_ok (e_chk e) cmp Hlaw
    (fun o => let! m := sget in slift (map_get_mut m o)) (fun p => let! m := sget in slift (nodemut_value m p))
    write_value (bstmap_insert e) (fun m t => reachable e m /\ shows m t)) as H.
  specialize (H ltac:(intros s t o f [Hr Hs] Ho; by apply (map_get_mut_tree e))).
  specialize (H ltac:(intros s t o k v r s' [Hr Hs] Ho Hi; by apply (map_insert_step _ Hlaw e s t o k v r s'))).
  specialize (H reqs [] [] map_new map_new tleaf tleaf).
  specialize (H ltac:(split; [apply new_reachable|apply new_shows]) ltac:(split; [apply new_reachable|apply new_shows])).
  specialize (H (requests_nil cmp) (requests_nil cmp) Hl Hl).
  destruct (tabulate_loop _ _ _ _ _ _ reqs _) as [[[]|p| | |] [m1 m2]]; [|done..].
  destruct H as (t1 & t2 & [R1 S1] & [R2 S2] & C1 & C2). split_and!; [done..|]. intros k o Ho. rewrite !app_nil_l in *.
  split.
  - rewrite <- C1. pose proof (map_get_tree e m1 t1 o (cmp k) R1 S1 Ho) as G. revert G. cbn [exec]. unfold sbind, sget, slift, sret.
    by intros [= ->].
  - rewrite <- C2. pose proof (map_get_tree e m2 t2 o (cmp k) R2 S2 Ho) as G. revert G. cbn [exec]. unfold sbind, sget, slift, sret.
    by intros [= ->].
Qed.

Lemma simple_tabulate_ok {K} e (cmp : K -> K -> comparison) (reqs : list (K * K)) : lawful cmp -> (N.of_nat (length reqs) < USIZE)%N ->
  match simple_tabulate e cmp reqs with
  | (Ret _, (titles, genres)) => simple_reachable e titles /\ simple_reachable e genres /\ forall k o, surely o (cmp k) ->
      simple_exec e (OGet o) titles = (Ret (OutValue (times_requested cmp k reqs.*1)), titles) /\
      simple_exec e (OGet o) genres = (Ret (OutValue (times_requested cmp k reqs.*2)), genres)
  | (r, _) => alloc_refused r
  end.
Proof.
  intros Hlaw Hl. unfold simple_tabulate.
  pose proof (tabulate_loop_ok (b_chk e) cmp Hlaw
    (fun o => let! m := sget in slift (simple_get_mut m o)) (fun p => let! m := sget in let! n := slift (peek m p) in sret (n_value n))
    (fun p c => poke p (with_value c)) (simple_insert e) (fun m t => simple_reachable e m /\ simple_shows m t)) as H.
  specialize (H ltac:(intros s t o f [Hr Hs] Ho; by apply (simple_get_mut_tree e))).
  specialize (H ltac:(intros s t o k v r s' [Hr Hs] Ho Hi; by apply (simple_insert_step _ e s t o k v r s'))).
  specialize (H reqs [] [] simple_new simple_new tleaf tleaf).
  specialize (H ltac:(split; [apply simple_reachable_new|apply simple_new_shows]) ltac:(split; [apply simple_reachable_new|apply simple_new_shows])).
  specialize (H (requests_nil cmp) (requests_nil cmp) Hl Hl).
  destruct (tabulate_loop _ _ _ _ _ _ reqs _) as [[[]|p| | |] [m1 m2]]; [|done..].
  destruct H as (t1 & t2 & [R1 S1] & [R2 S2] & C1 & C2). split_and!; [done..|]. intros k o Ho. rewrite !app_nil_l in *.
  split.
  - rewrite <- C1. pose proof (simple_get_tree e m1 t1 o (cmp k) R1 S1 Ho) as G. revert G. cbn [simple_exec]. unfold sbind, sget, slift, sret.
    by intros [= ->].
  - rewrite <- C2. pose proof (simple_get_tree e m2 t2 o (cmp k) R2 S2 Ho) as G. revert G. cbn [simple_exec]. unfold sbind, sget, slift, sret.
    by intros [= ->].
Qed.
