(** * How the calls depend on the comparisons: cost, borrowed keys, lists of
      insertions *)

From Verif Require Export ProofOracle ProofMem.

Section cost.
Context {K V : Type}.
Implicit Types t : ptree K V.
Implicit Types m : bstmap K V.

(** ** Comparators with the same answers give the same calls *)

Section same.
Variables o o' : oracle K.
Hypothesis Hsame : forall i k, o i k = o' i k.

Lemma ask_same i k : ask o i k = ask o' i k.
Proof. unfold ask. by rewrite Hsame. Qed.

Ltac loop_same IH :=
  repeat (first [ done | rewrite !ask_same | progress cbn [rbind]
                | apply IH
                | match goal with |- rbind ?x _ = rbind ?x _ => destruct x; cbn [rbind]; try done end
                | match goal with |- (match ?x with _ => _ end) = (match ?x with _ => _ end) => destruct x; try done end ]).

Lemma contains_loop_same m fuel : forall i cur, contains_loop m o fuel i cur = contains_loop m o' fuel i cur.
Proof. induction fuel as [|fuel IH]; intros i [node|]; cbn [contains_loop]; loop_same IH. Qed.
Lemma get_loop_same m fuel : forall i cur, get_loop m o fuel i cur = get_loop m o' fuel i cur.
Proof. induction fuel as [|fuel IH]; intros i [node|]; cbn [get_loop]; loop_same IH. Qed.
Lemma get_entry_loop_same m fuel : forall i cur, get_entry_loop m o fuel i cur = get_entry_loop m o' fuel i cur.
Proof. induction fuel as [|fuel IH]; intros i [node|]; cbn [get_entry_loop]; loop_same IH. Qed.
Lemma get_mut_loop_same m fuel : forall i cur, get_mut_loop m o fuel i cur = get_mut_loop m o' fuel i cur.
Proof. induction fuel as [|fuel IH]; intros i [node|]; cbn [get_mut_loop]; loop_same IH. Qed.
Lemma get_entry_mut_loop_same m fuel : forall i cur, get_entry_mut_loop m o fuel i cur = get_entry_mut_loop m o' fuel i cur.
Proof. induction fuel as [|fuel IH]; intros i [node|]; cbn [get_entry_mut_loop]; loop_same IH. Qed.
Lemma remove_find_same m fuel : forall i p cur, remove_find m o fuel i p cur = remove_find m o' fuel i p cur.
Proof. induction fuel as [|fuel IH]; intros i p [ptr|]; cbn [remove_find]; loop_same IH. Qed.

Lemma search_call_same e call m : search_call (K := K) (V := V) call -> exec e (call o) m = exec e (call o') m.
Proof.
  assert (Hre : forall m, map_remove_entry (V := V) e o m = map_remove_entry e o' m).
  { intros m0. unfold map_remove_entry, sget, slift. unfold sbind at 1 2. symmetry. unfold sbind at 1 2. symmetry.
    by rewrite remove_find_same. }
  intros []; cbn [exec].
  - unfold map_get, map_get_ref, sbind, sget, slift. destruct (map_root m); cbn [rbind]; try done. by rewrite get_loop_same.
  - unfold map_get_entry, map_get_entry_ref, sbind, sget, slift. destruct (map_root m); cbn [rbind]; try done.
    by rewrite get_entry_loop_same.
  - unfold map_contains_key, sbind, sget, slift. destruct (map_root m); cbn [rbind]; try done. by rewrite contains_loop_same.
  - unfold map_get_mut, sbind, sget, slift. destruct (map_root_mut m); cbn [rbind]; try done. by rewrite get_mut_loop_same.
  - unfold map_get_entry_mut, sbind, sget, slift. destruct (map_root_mut m); cbn [rbind]; try done.
    by rewrite get_entry_mut_loop_same.
  - unfold sbind at 1. symmetry. unfold sbind at 1. symmetry. unfold map_remove. unfold sbind at 1. symmetry.
    unfold sbind at 1. symmetry. by rewrite Hre.
  - unfold sbind. by rewrite Hre.
Qed.

End same.

(** ** A search makes at most as many comparisons as the tree is high *)

Section cut.
Variables o o' : oracle K.

Definition alike (i n : nat) : Prop := forall j k, i <= j < i + n -> o j k = o' j k.

Lemma alike_sub i n n' : S n' <= n -> alike i n -> alike (S i) n'.
Proof. intros Hn H j k Hj. apply H. lia. Qed.

Lemma alike_ask i n k : 0 < n -> alike i n -> ask o i k = ask o' i k.
Proof. intros Hn H. unfold ask. rewrite H; [done|lia]. Qed.

Lemma tget_alike t : forall i, alike i (pheight t) -> tget o i t = tget o' i t.
Proof.
  induction t as [|l IHl p k v r IHr]; intros i Ha; simpl in *; [done|].
  rewrite (alike_ask i (S (Nat.max (pheight l) (pheight r))) k ltac:(lia) Ha). destruct (ask o' i k) as [[]| | | |]; cbn [rbind]; try done.
  - apply IHl. eapply alike_sub; [|exact Ha]. lia.
  - apply IHr. eapply alike_sub; [|exact Ha]. lia.
Qed.

Lemma tfind_alike t : forall i C, alike i (pheight t) -> tfind o i C t = tfind o' i C t.
Proof.
  induction t as [|l IHl p k v r IHr]; intros i C Ha; simpl in *; [done|].
  rewrite (alike_ask i (S (Nat.max (pheight l) (pheight r))) k ltac:(lia) Ha). destruct (ask o' i k) as [[]| | | |]; cbn [rbind]; try done.
  - apply IHl. eapply alike_sub; [|exact Ha]. lia.
  - apply IHr. eapply alike_sub; [|exact Ha]. lia.
Qed.

Lemma insert_loop_alike e k v m t : readable m t -> forall fuel i, alike i (pheight t) ->
  insert_loop e o fuel i k v (rootp t) m = insert_loop e o' fuel i k v (rootp t) m.
Proof.
  induction t as [|l IHl p k' v' r IHr]; intros Hr [|fuel] i Ha; cbn [insert_loop rootp]; try done. simpl in Ha.
  unfold sget, slift. unfold sbind at 1 2. symmetry. unfold sbind at 1 2. symmetry.
  rewrite (nodemut_key_ret _ _ _ _ _ _ Hr). unfold sbind at 1. symmetry. unfold sbind at 1. symmetry.
  rewrite (alike_ask i (S (Nat.max (pheight l) (pheight r))) k' ltac:(lia) Ha). destruct (ask o' i k') as [[]| | | |]; try done.
  - unfold sbind at 1. symmetry. unfold sbind at 1. symmetry.
    destruct (nodemut_has_left m p) as [[]| | | |]; cbn [negb]; try done.
    unfold sbind at 1. symmetry. unfold sbind at 1. symmetry. rewrite (nodemut_left_ret _ _ _ _ _ _ Hr).
    apply IHl; [by eapply readable_l|]. eapply alike_sub; [|exact Ha]. lia.
  - unfold sbind at 1. symmetry. unfold sbind at 1. symmetry.
    destruct (nodemut_has_right m p) as [[]| | | |]; cbn [negb]; try done.
    unfold sbind at 1. symmetry. unfold sbind at 1. symmetry. rewrite (nodemut_right_ret _ _ _ _ _ _ Hr).
    apply IHr; [by eapply readable_r|]. eapply alike_sub; [|exact Ha]. lia.
Qed.

Lemma search_call_alike e call m t fl : map_rep m t fl -> alike 0 (pheight t) ->
  search_call (K := K) (V := V) call -> exec e (call o) m = exec e (call o') m.
Proof.
  intros Hrep Ha. pose proof (tget_alike t 0 Ha) as Hg.
  assert (Hre : map_remove_entry (V := V) e o m = map_remove_entry e o' m).
  { unfold map_remove_entry, sget, slift. unfold sbind at 1 2. symmetry. unfold sbind at 1 2. symmetry.
    rewrite (proj2 Hrep). pose proof (rep_readable _ _ _ Hrep) as Hr. pose proof (rep_fuel_height _ _ _ Hrep) as Hf.
    assert (Hrf : remove_find m o (map_fuel m) 0 None (rootp t) = remove_find m o' (map_fuel m) 0 None (rootp t)).
    { pose proof (remove_find_eq m o t [] (map_fuel m) 0 Hr Hf) as H1.
      pose proof (remove_find_eq m o' t [] (map_fuel m) 0 Hr Hf) as H2. change (cparent []) with (@None Ptr) in H1, H2.
      rewrite H1, H2. by rewrite tfind_alike. }
    by rewrite Hrf. }
  intros []; cbn [exec].
  - unfold sbind, sget, slift. by rewrite !(map_get_eq _ _ _ _ Hrep), Hg.
  - unfold sbind, sget, slift. by rewrite !(map_get_entry_eq _ _ _ _ Hrep), Hg.
  - unfold sbind, sget, slift. by rewrite !(map_contains_key_eq _ _ _ _ Hrep), Hg.
  - unfold sbind, sget, slift. by rewrite !(map_get_mut_eq _ _ _ _ Hrep), Hg.
  - unfold sbind, sget, slift. by rewrite !(map_get_entry_mut_eq _ _ _ _ Hrep), Hg.
  - unfold sbind at 1. symmetry. unfold sbind at 1. symmetry. unfold map_remove. unfold sbind at 1. symmetry.
    unfold sbind at 1. symmetry. by rewrite Hre.
  - unfold sbind. by rewrite Hre.
Qed.

Lemma insert_alike e k v m t fl : map_rep m t fl -> alike 0 (pheight t) ->
  exec e (OInsert o k v) m = exec (K := K) (V := V) e (OInsert o' k v) m.
Proof.
  intros Hrep Ha. cbn [exec]. unfold sbind at 1. symmetry. unfold sbind at 1. symmetry.
  assert (Hi : bstmap_insert e o k v m = bstmap_insert e o' k v m); [|by rewrite Hi].
  unfold bstmap_insert, on_panic, sget, slift. unfold sbind at 1 2. symmetry. unfold sbind at 1 2. symmetry.
  rewrite (map_root_mut_ret _ _ _ Hrep). pose proof (rep_readable _ _ _ Hrep) as Hr.
  destruct t as [|l p k' v' r]; [done|]. cbn [rootp].
  pose proof (insert_loop_alike e k v m _ Hr (map_fuel m) 0 Ha) as Hil.
  change (insert_loop e o (map_fuel m) 0 k v (@Some NodeMut p) m = insert_loop e o' (map_fuel m) 0 k v (@Some NodeMut p) m) in Hil.
  by rewrite Hil.
Qed.

End cut.

Lemma erase_height t : height (erase t) = pheight t.
Proof. induction t as [|l IHl p k v r IHr]; simpl; [done|]. by rewrite IHl, IHr. Qed.

Lemma alike_first n (o : oracle K) : alike (first_answers n o) o 0 n.
Proof. intros j k Hj. unfold first_answers. destruct (Nat.ltb_spec j n); [done|lia]. Qed.

Lemma height_cost e call m (t : tree K V) o : reachable e m -> shows m t ->
  search_call call \/ (exists k v, call = fun o => OInsert o k v) ->
  exec e (call (first_answers (height t) o)) m = exec e (call o) m.
Proof.
  intros Hr Hs Hc. destruct (reachable_rep e m Hr) as (pt & fl & Hrep). rewrite (rep_shows_eq _ _ _ _ Hrep Hs), erase_height.
  destruct Hc as [Hc|(k & v & ->)].
  - eapply search_call_alike; [done| |done]. apply alike_first.
  - eapply insert_alike; [done|]. apply alike_first.
Qed.

Lemma height_count e m (t : tree K V) : reachable e m -> shows m t -> (N.of_nat (height t) <= entry_count e m)%N.
Proof.
  intros Hr Hs. destruct (reachable_rep e m Hr) as (pt & fl & Hrep). rewrite (rep_shows_eq _ _ _ _ Hrep Hs), erase_height.
  rewrite (rep_entry_count _ _ _ _ Hrep). pose proof (pheight_size pt). lia.
Qed.

End cost.
