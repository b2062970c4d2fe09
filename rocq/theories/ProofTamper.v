(** * Assigning nodes of SimpleBSTMap: only the length is lost

    Everything but [len], [is_empty], [Debug] and the updates of the length
    ignores the field [len]. *)

From Verif Require Export ProofNodes.

Section ignore.
Context {K V : Type}.
Implicit Types t : ptree K V.
Implicit Types m : simple K V.
Local Notation "m ⟨ n ⟩" := (set_len_field n m) (at level 9).

Lemma relen_relen a b m : m ⟨ a ⟩ ⟨ b ⟩ = m ⟨ b ⟩.
Proof. done. Qed.
Lemma relen_same m : m ⟨ s_len m ⟩ = m.
Proof. by destruct m. Qed.

(** Reading loops *)

Lemma contains_len n m o : forall fuel i cur, simple_contains_loop (m ⟨ n ⟩) o fuel i cur = simple_contains_loop m o fuel i cur.
Proof.
  induction fuel as [|fuel IH]; intros i [p|]; cbn [simple_contains_loop]; try done.
  change (peek m ⟨ n ⟩ p) with (peek m p). destruct (peek m p); cbn [rbind]; try done.
  destruct (ask o i _) as [[]| | | |]; cbn [rbind]; done.
Qed.
Lemma get_len n m o : forall fuel i cur, simple_get_loop (m ⟨ n ⟩) o fuel i cur = simple_get_loop m o fuel i cur.
Proof.
  induction fuel as [|fuel IH]; intros i [p|]; cbn [simple_get_loop]; try done.
  change (peek m ⟨ n ⟩ p) with (peek m p). destruct (peek m p); cbn [rbind]; try done.
  destruct (ask o i _) as [[]| | | |]; cbn [rbind]; done.
Qed.
Lemma get_entry_len n m o : forall fuel i cur, simple_get_entry_loop (m ⟨ n ⟩) o fuel i cur = simple_get_entry_loop m o fuel i cur.
Proof.
  induction fuel as [|fuel IH]; intros i [p|]; cbn [simple_get_entry_loop]; try done.
  change (peek m ⟨ n ⟩ p) with (peek m p). destruct (peek m p); cbn [rbind]; try done.
  destruct (ask o i _) as [[]| | | |]; cbn [rbind]; done.
Qed.
Lemma get_mut_len n m o : forall fuel i cur, simple_get_mut_loop (m ⟨ n ⟩) o fuel i cur = simple_get_mut_loop m o fuel i cur.
Proof.
  induction fuel as [|fuel IH]; intros i [p|]; cbn [simple_get_mut_loop]; try done.
  change (peek m ⟨ n ⟩ p) with (peek m p). destruct (peek m p); cbn [rbind]; try done.
  destruct (ask o i _) as [[]| | | |]; cbn [rbind]; done.
Qed.
Lemma remove_find_len n m o : forall fuel i par cur, simple_remove_find (m ⟨ n ⟩) o fuel i par cur = simple_remove_find m o fuel i par cur.
Proof.
  induction fuel as [|fuel IH]; intros i par [p|]; cbn [simple_remove_find]; try done.
  change (peek m ⟨ n ⟩ p) with (peek m p). destruct (peek m p); cbn [rbind]; try done.
  destruct (ask o i _) as [[]| | | |]; cbn [rbind]; done.
Qed.
Lemma succ_len n m : forall fuel q p, simple_succ_loop (m ⟨ n ⟩) fuel q p = simple_succ_loop m fuel q p.
Proof.
  induction fuel as [|fuel IH]; intros q p; cbn [simple_succ_loop]; try done.
  change (peek m ⟨ n ⟩ p) with (peek m p). destruct (peek m p) as [x| | | |]; cbn [rbind]; try done. by destruct (n_left x).
Qed.
Lemma walk_len n m path : forall b, simple_walk (m ⟨ n ⟩) path b = simple_walk m path b.
Proof.
  induction path as [|[] path IH]; intros [p|]; cbn [simple_walk]; try done;
    change (peek m ⟨ n ⟩ p) with (peek m p); destruct (peek m p); cbn [rbind]; done.
Qed.
Lemma clone_len n e m ck cv : forall fuel b s, clone_box e (m ⟨ n ⟩) ck cv fuel b s = clone_box e m ck cv fuel b s.
Proof.
  induction fuel as [|fuel IH]; intros [p|] s; cbn [clone_box]; try done.
  unfold sbind, slift, sget. change (peek m ⟨ n ⟩ p) with (peek m p). destruct (peek m p) as [x| | | |]; try done.
  destruct (ck s.1 (n_key x)), (cv s.1 (n_value x)); try done. cbn [smod].
  rewrite IH. destruct (clone_box e m ck cv fuel (n_left x) _) as [[l| | | |] s1]; try done.
  destruct (zoom snd _ (box_opt e l) s1) as [[lb| | | |] s2]; try done.
  rewrite IH. done.
Qed.
Lemma sin_descend_len n m : forall fuel b s, sin_descend (m ⟨ n ⟩) fuel b s = sin_descend m fuel b s.
Proof.
  induction fuel as [|fuel IH]; intros [p|] s; cbn [sin_descend]; try done.
  unfold sbind, slift, s_push, smod. change (peek m ⟨ n ⟩ p) with (peek m p). destruct (peek m p) as [x| | | |]; done.
Qed.
Lemma spost_descend_len n m : forall fuel b s, spost_descend (m ⟨ n ⟩) fuel b s = spost_descend m fuel b s.
Proof.
  induction fuel as [|fuel IH]; intros [p|] s; cbn [spost_descend]; try done.
  unfold sbind, slift, s_push, s_extend, smod. change (peek m ⟨ n ⟩ p) with (peek m p). destruct (peek m p) as [x| | | |]; done.
Qed.
Lemma spost_inner_len n m : forall fuel p s, spost_inner (m ⟨ n ⟩) fuel p s = spost_inner m fuel p s.
Proof.
  induction fuel as [|fuel IH]; intros p s; cbn [spost_inner]; try done.
  unfold sbind, slift, s_push, s_extend, smod. change (peek m ⟨ n ⟩ p) with (peek m p). destruct (peek m p) as [x| | | |]; try done.
  by destruct (n_left x).
Qed.
Lemma spost_next_len n m : forall fuel s, spost_next_loop (m ⟨ n ⟩) fuel s = spost_next_loop m fuel s.
Proof.
  induction fuel as [|fuel IH]; intros [|p s]; cbn [spost_next_loop]; try done.
  unfold sbind, slift, s_push, s_pop, smod. change (peek m ⟨ n ⟩ p) with (peek m p). destruct (peek m p) as [x| | | |]; try done.
  destruct (n_right x) as [q|]; [|done]. unfold top_eq. destruct s as [|p' s]; [done|].
  destruct (bool_decide (p' = q)); [|done].
  rewrite spost_inner_len. change (simple_fuel m ⟨ n ⟩) with (simple_fuel m).
  destruct (spost_inner m (simple_fuel m) q _) as [[[]| | | |] s']; done.
Qed.
Lemma iter_next_len n m d s : simple_iter_next (m ⟨ n ⟩) d s = simple_iter_next m d s.
Proof.
  destruct d; cbn [simple_iter_next].
  - done.
  - unfold sin_next, sbind, slift, s_pop. destruct s as [|p s]; [done|].
    change (peek m ⟨ n ⟩ p) with (peek m p). destruct (peek m p) as [x| | | |]; try done.
    by rewrite sin_descend_len.
  - apply spost_next_len.
Qed.
Lemma nexts_len n m d k : forall s, simple_nexts (simple_iter_next (m ⟨ n ⟩) d) k s = simple_nexts (simple_iter_next m d) k s.
Proof.
  induction k as [|k IH]; intros s; cbn [simple_nexts]; [done|]. unfold sbind.
  rewrite iter_next_len. destruct (simple_iter_next m d s) as [[x| | | |] s']; try done. by rewrite IH.
Qed.
Lemma iter_start_len n m d : simple_iter_start (m ⟨ n ⟩) d = simple_iter_start m d.
Proof.
  destruct d; cbn [simple_iter_start]; [done| |].
  - unfold sin_new. by rewrite sin_descend_len.
  - unfold spost_new. by rewrite spost_descend_len.
Qed.
Lemma box_debug_len n m : forall fuel b, box_debug (m ⟨ n ⟩) fuel b = box_debug m fuel b.
Proof.
  induction fuel as [|fuel IH]; intros [p|]; cbn [box_debug]; try done.
  change (peek m ⟨ n ⟩ p) with (peek m p). destruct (peek m p) as [x| | | |]; cbn [rbind]; try done. by rewrite !IH.
Qed.
Lemma simple_exposes_len n m b (u : tree K V) : simple_exposes m b u -> simple_exposes (m ⟨ n ⟩) b u.
Proof. induction 1; [constructor|]. by econstructor. Qed.
Lemma yields_len n m d l : simple_yields (m ⟨ n ⟩) d l -> simple_yields m d l.
Proof.
  intros H k. destruct (H k) as (it & Hs & Hn). exists it. by rewrite iter_start_len in Hs; rewrite nexts_len in Hn.
Qed.

(** ** Updates *)

(** [f] neither reads nor writes the length. *)
Definition lenfree {A} (f : M (simple K V) A) : Prop := forall n m, f (m ⟨ n ⟩) = ((f m).1, (f m).2 ⟨ n ⟩).

Lemma lf_ret {A} (x : A) : lenfree (sret x).
Proof. by intros n m. Qed.
Lemma lf_lift {A} (x : res A) : lenfree (slift x).
Proof. by intros n m. Qed.
Lemma lf_bind {A B} (f : M (simple K V) A) (g : A -> M (simple K V) B) : lenfree f -> (forall x, lenfree (g x)) -> lenfree (sbind f g).
Proof.
  intros Hf Hg n m. unfold sbind. rewrite Hf. destruct (f m) as [[x| | | |] m']; try done. apply Hg.
Qed.
Lemma lf_get {A} (g : simple K V -> M (simple K V) A) : (forall m, lenfree (g m)) -> (forall n m m', g (m ⟨ n ⟩) m' = g m m') ->
  lenfree (sbind sget g).
Proof. intros H1 H2 n m. unfold sbind, sget. rewrite H2. apply H1. Qed.
Lemma lf_mod (h : simple K V -> simple K V) : (forall n m, h (m ⟨ n ⟩) = (h m) ⟨ n ⟩) -> lenfree (smod h).
Proof. intros H n m. unfold smod. by rewrite H. Qed.

Local Ltac lf := repeat first
  [ apply lf_ret | apply lf_lift | apply lf_mod; done
  | lazymatch goal with |- lenfree (sbind sget _) => apply lf_get; [intros ?|done] end
  | lazymatch goal with |- lenfree (sbind _ _) => apply lf_bind; [|intros ?] end
  | lazymatch goal with |- lenfree (match ?x with _ => _ end) => destruct x end ].

Lemma lf_poke p f : lenfree (poke p f).
Proof. unfold poke. lf. Qed.
Lemma lf_place p x : lenfree (place p x).
Proof. unfold place. lf. Qed.
Lemma lf_move_out p : lenfree (move_out p).
Proof. unfold move_out. lf. Qed.
Lemma lf_box_new e x : lenfree (box_new e x).
Proof. unfold box_new. lf. Qed.
Lemma lf_box_opt e x : lenfree (box_opt e x).
Proof. unfold box_opt. lf. apply lf_box_new. Qed.
Lemma lf_unbox_opt x : lenfree (unbox_opt x).
Proof. unfold unbox_opt, unbox. lf. apply lf_move_out. Qed.
Lemma lf_take_left p : lenfree (take_left p).
Proof. unfold take_left. lf; [apply lf_poke|apply lf_unbox_opt]. Qed.
Lemma lf_take_right p : lenfree (take_right p).
Proof. unfold take_right. lf; [apply lf_poke|apply lf_unbox_opt]. Qed.
Lemma lf_set_left e p x : lenfree (set_left e p x).
Proof. unfold set_left. lf; [apply lf_box_new|apply lf_poke]. Qed.
Lemma lf_set_right e p x : lenfree (set_right e p x).
Proof. unfold set_right. lf; [apply lf_box_new|apply lf_poke]. Qed.
Lemma lf_set_left_val e n x : lenfree (set_left_val e n x).
Proof. unfold set_left_val. lf. apply lf_box_new. Qed.
Lemma lf_set_right_val e n x : lenfree (set_right_val e n x).
Proof. unfold set_right_val. lf. apply lf_box_new. Qed.
Lemma lf_replace_left e p x : lenfree (replace_left e p x).
Proof. unfold replace_left. lf; [apply lf_box_opt|apply lf_poke|apply lf_unbox_opt]. Qed.
Lemma lf_replace_right e p x : lenfree (replace_right e p x).
Proof. unfold replace_right. lf; [apply lf_box_opt|apply lf_poke|apply lf_unbox_opt]. Qed.
Lemma lf_unwrap {A} (x : option A) : lenfree (unwrap x).
Proof. unfold unwrap, sfail. lf. Qed.
Lemma lf_opt_poke p (w : option V) : lenfree (opt_poke p w).
Proof. unfold opt_poke. lf. apply lf_poke. Qed.

Lemma lf_replacement e p : lenfree (simple_replacement e p).
Proof.
  unfold simple_replacement. apply lf_bind; [apply lf_take_left|intros l]. apply lf_bind; [apply lf_take_right|intros r].
  destruct l, r; try apply lf_ret. apply lf_bind; [apply lf_place|intros _].
  apply lf_bind; [|intros x; apply lf_bind; [apply lf_set_left_val|intros ?; apply lf_ret]].
  destruct (n_left _); [|apply lf_move_out].
  apply lf_get.
  - intros m. apply lf_bind; [apply lf_lift|intros [q1 q2]]. apply lf_bind; [apply lf_take_right|intros ?].
    apply lf_bind; [apply lf_replace_left|intros ?]. apply lf_bind; [apply lf_unwrap|intros ?].
    apply lf_bind; [apply lf_move_out|intros ?]. apply lf_set_right_val.
  - intros n m m'. by rewrite succ_len.
Qed.

Lemma lf_drop_box fuel : forall b, lenfree (drop_box fuel b).
Proof.
  induction fuel as [|fuel IH]; intros [p|]; cbn [drop_box]; lf; try apply IH. apply lf_move_out.
Qed.
Lemma lf_drop : lenfree simple_drop.
Proof. unfold simple_drop. lf. apply lf_drop_box. Qed.

(** With another length an insertion does the same to the tree, but may panic at
    the end; a removal may panic before it changes anything. *)
Definition insert_alike {A} (x y : res A * simple K V) : Prop :=
  (exists p, x.1 = Panic p /\ length_panic p) \/
  ((exists n, y.2 = x.2 ⟨ n ⟩) /\ (y.1 = x.1 \/ ((exists z, x.1 = Ret z) /\ exists p, y.1 = Panic p /\ length_panic p))).

Lemma add_one_alike e m n : insert_alike (len_add_one e m) (len_add_one e m ⟨ n ⟩).
Proof.
  unfold len_add_one, sbind, sget, slift, smod. unfold uadd. cbn [set_len_field s_len].
  destruct (s_len m + 1 <? USIZE)%N.
  - right. destruct (n + 1 <? USIZE)%N; [|destruct (b_chk e)].
    + split; [by eexists|by left].
    + split; [by exists n|]. right. split; [by eexists|]. exists POverflow. split; [done|by left].
    + split; [by eexists|by left].
  - destruct (b_chk e); [left; exists POverflow; split; [done|by left]|].
    right. destruct (n + 1 <? USIZE)%N; (split; [by eexists|by left]).
Qed.

Lemma alike_bind {A B} (f : M (simple K V) A) (g : A -> M (simple K V) B) m n : lenfree f ->
  (forall x m' n, insert_alike (g x m') (g x (m' ⟨ n ⟩))) -> insert_alike (sbind f g m) (sbind f g (m ⟨ n ⟩)).
Proof.
  intros Hf Hg. unfold sbind. rewrite Hf. destruct (f m) as [[x| | | |] m']; try apply Hg; right; (split; [by eexists|by left]).
Qed.
Lemma alike_last {B} (f : M (simple K V) unit) (x : B) m n : insert_alike (f m) (f (m ⟨ n ⟩)) ->
  insert_alike (sbind f (fun _ => sret x) m) (sbind f (fun _ => sret x) (m ⟨ n ⟩)).
Proof.
  intros H. unfold sbind. unfold insert_alike in *.
  destruct (f m) as [r1 m1], (f (m ⟨ n ⟩)) as [r2 m2]. cbn [fst snd] in H.
  destruct H as [(p & -> & Hp)|[[n' ->] H]]; [left; by exists p|]. right.
  destruct H as [->|[[z ->] (p & -> & Hp)]].
  - destruct r1; (split; [by eexists|by left]).
  - split; [by eexists|]. right. split; [by eexists|]. by exists p.
Qed.
Lemma alike_free {A} (f : M (simple K V) A) m n : lenfree f -> insert_alike (f m) (f (m ⟨ n ⟩)).
Proof. intros H. rewrite H. right. split; [by eexists|by left]. Qed.

Lemma alike_get {A} (g : simple K V -> M (simple K V) A) m n : (forall m', g (m ⟨ n ⟩) m' = g m m') ->
  insert_alike (g m m) (g m (m ⟨ n ⟩)) -> insert_alike (sbind sget g m) (sbind sget g (m ⟨ n ⟩)).
Proof. intros H1 H2. unfold sbind, sget. by rewrite H1. Qed.

Lemma insert_loop_alike e o k v : forall fuel i cur m n,
  insert_alike (simple_insert_loop e o fuel i k v cur m) (simple_insert_loop e o fuel i k v cur (m ⟨ n ⟩)).
Proof.
  induction fuel as [|fuel IH]; intros i [p|] m n; cbn [simple_insert_loop]; try (apply alike_free; apply lf_lift).
  apply alike_get; [done|]. apply alike_bind; [apply lf_lift|]. clear m n. intros x m n.
  apply alike_bind; [apply lf_lift|]. clear m n. intros c m n. destruct c.
  - apply alike_free. apply lf_bind; [apply lf_poke|intros ?; apply lf_ret].
  - destruct (n_left x); [apply IH|]. apply alike_bind; [apply lf_set_left|]. intros _ m' n'.
    apply alike_last. apply add_one_alike.
  - destruct (n_right x); [apply IH|]. apply alike_bind; [apply lf_set_right|]. intros _ m' n'.
    apply alike_last. apply add_one_alike.
Qed.

Lemma insert_alike_spec e o k v m n : insert_alike (simple_insert e o k v m) (simple_insert e o k v (m ⟨ n ⟩)).
Proof.
  unfold simple_insert. apply alike_get; [done|].
  destruct (simple_root m) as [p|]; [apply insert_loop_alike|].
  apply alike_bind; [apply lf_place|]. clear m n. intros _ m n.
  unfold sbind, sget, slift, smod, sret. cbn [set_len_field s_len]. unfold dassert.
  destruct (b_chk e); cbn [andb].
  - destruct (s_len m =? 0)%N; cbn [negb].
    + right. destruct (n =? 0)%N; cbn [negb].
      * split; [|by left]. by exists 1%N.
      * split; [by exists n|]. right. split; [by eexists|]. exists PDebugAssert. split; [done|by right].
    + left. exists PDebugAssert. split; [done|by right].
  - right. split; [|by left]. by exists 1%N.
Qed.

Definition remove_alike {A} m (n : N) (x y : res A * simple K V) : Prop :=
  x.1 = Panic POverflow \/ y = (Panic POverflow, m ⟨ n ⟩) \/ (y.1 = x.1 /\ exists n', y.2 = x.2 ⟨ n' ⟩).

Lemma sub_one_alike e {A} (g : M (simple K V) A) m n : lenfree g ->
  remove_alike m n (sbind (len_sub_one e) (fun _ => g) m) (sbind (len_sub_one e) (fun _ => g) (m ⟨ n ⟩)).
Proof.
  intros Hg. unfold len_sub_one. unfold sbind, sget, slift, smod, usub. cbn [set_len_field s_len].
  assert (Hgo : forall a b, remove_alike m n (g (m ⟨ a ⟩)) (g (m ⟨ b ⟩))).
  { intros a b. right. right. rewrite (Hg a m), (Hg b m). split; [done|]. by exists b. }
  destruct (1 <=? s_len m)%N.
  - destruct (1 <=? n)%N; [apply Hgo|]. destruct (b_chk e); [by right; left|apply Hgo].
  - destruct (b_chk e); [by left|]. destruct (1 <=? n)%N; apply Hgo.
Qed.

Lemma rem_same {A} m n (r : res A) : remove_alike m n (r, m) (r, m ⟨ n ⟩).
Proof. right. right. split; [done|by exists n]. Qed.
Lemma rem_get {A} (g : simple K V -> M (simple K V) A) m n : (forall m', g (m ⟨ n ⟩) m' = g m m') ->
  remove_alike m n (g m m) (g m (m ⟨ n ⟩)) -> remove_alike m n (sbind sget g m) (sbind sget g (m ⟨ n ⟩)).
Proof. intros H1 H2. unfold sbind, sget. by rewrite H1. Qed.
Lemma rem_lift {A B} (r : res A) (g : A -> M (simple K V) B) m n : (forall x, remove_alike m n (g x m) (g x (m ⟨ n ⟩))) ->
  remove_alike m n (sbind (slift r) g m) (sbind (slift r) g (m ⟨ n ⟩)).
Proof. intros H. unfold sbind, slift. destruct r; [apply H|apply rem_same..]. Qed.

Lemma remove_alike_spec e o m n : remove_alike m n (simple_remove_entry e o m) (simple_remove_entry e o (m ⟨ n ⟩)).
Proof.
  unfold simple_remove_entry. apply rem_get.
  { intros m'. change (simple_root m ⟨ n ⟩) with (simple_root m). change (simple_fuel m ⟨ n ⟩) with (simple_fuel m).
    destruct (simple_root m); [|done]. by rewrite remove_find_len. }
  destruct (simple_root m) as [root|]; [|apply rem_same].
  apply rem_lift. intros [parent [cur|]]; [|apply rem_same].
  apply sub_one_alike.
  apply lf_bind; [apply lf_replacement|intros x]. destruct parent as [par|].
  - apply lf_get; [|done]. intros m0. apply lf_bind; [apply lf_lift|intros y].
    apply lf_bind; [destruct (bool_decide _); [apply lf_replace_left|apply lf_replace_right]|intros z].
    apply lf_bind; [apply lf_unwrap|intros w]. apply lf_ret.
  - apply lf_get; [|done]. intros m0. apply lf_bind; [apply lf_unwrap|intros y].
    apply lf_bind; [by apply lf_mod|intros ?]. apply lf_ret.
Qed.

(** ** Maps with any length *)
Definition loose m t : Prop := simple_rep (m ⟨ N.of_nat (tsize t) ⟩) t.

Lemma loose_of m t n : simple_rep m t -> loose (m ⟨ n ⟩) t.
Proof.
  intros H. unfold loose. rewrite relen_relen. destruct H as (H1 & H2 & H3 & H4 & H5).
  split_and!; try done.
Qed.
Lemma loose_rep m t : simple_rep m t -> loose m t.
Proof. intros H. rewrite <- (relen_same m). by apply loose_of. Qed.
Lemma loose_self m t : m = (m ⟨ N.of_nat (tsize t) ⟩) ⟨ s_len m ⟩.
Proof. by rewrite relen_relen, relen_same. Qed.

(** Calls that ignore the length: the result on the map with the right length. *)
Lemma exec_lenfree e c : simple_has c = true -> counts c = false -> tells_length c = false ->
  (forall os ck cv, c <> OClone os ck cv) -> c <> OClear -> lenfree (simple_exec e c).
Proof.
  intros Hc Hn Ht Hcl Hclr.
  destruct c as [o k v|o|o|o|o|o|o w|o w| | | | |n| |os it|d n|d evs|path|path w| |os ck cv]; try done; cbn [simple_exec].
  - apply lf_get; [intros m; lf|]. intros n m m'. unfold simple_get. by rewrite get_len.
  - apply lf_get; [intros m; lf|]. intros n m m'. unfold simple_get_entry. by rewrite get_entry_len.
  - apply lf_get; [intros m; lf|]. intros n m m'. unfold simple_contains_key. by rewrite contains_len.
  - apply lf_get.
    + intros m. apply lf_bind; [apply lf_lift|intros [p|]; [|apply lf_ret]].
      apply lf_bind; [apply lf_lift|intros x]. apply lf_bind; [apply lf_opt_poke|intros ?; apply lf_ret].
    + intros n m m'. unfold simple_get_mut. rewrite get_mut_len. done.
  - apply lf_get; [intros m; lf|]. intros k m m'. rewrite iter_start_len. unfold sbind, slift.
    destruct (simple_iter_start m d); try done. by rewrite nexts_len.
  - apply lf_get.
    + intros m. apply lf_bind; [apply lf_lift|intros [p|]; [|apply lf_ret]]. lf.
    + intros n m m'. rewrite walk_len. done.
  - apply lf_get.
    + intros m. apply lf_bind; [apply lf_lift|intros [p|]; [|apply lf_ret]].
      apply lf_bind; [apply lf_lift|intros x]. apply lf_bind; [apply lf_opt_poke|intros ?; apply lf_ret].
    + intros n m m'. rewrite walk_len. done.
  - by destruct (Hcl os ck cv).
Qed.

Lemma loose_insert e o k v m t r m' : loose m t -> simple_insert e o k v m = (r, m') ->
  (r = Abort) \/
  (exists q t' y, (r = Ret y \/ exists p, r = Panic p /\ length_panic p) /\ tins o 0 k v q t = Ret (t', y) /\ loose m' t') \/
  (r = Panic PCmp /\ loose m' t /\ forall q, tins o 0 k v q t = Panic PCmp).
Proof.
  intros H He. pose proof (insert_alike_spec e o k v (m ⟨ N.of_nat (tsize t) ⟩) (s_len m)) as Ha.
  rewrite <- loose_self, He in Ha. pose proof (simple_insert_spec e o k v _ t H) as Hs. unfold wp in Hs.
  destruct (simple_insert e o k v (m ⟨ N.of_nat (tsize t) ⟩)) as [r1 m1]. unfold insert_alike in Ha. cbn [fst snd] in Ha.
  destruct Ha as [(p & -> & Hp)|[[n ->] Ha]].
  { destruct Hs as [Hs|([= Hs] & _)]; [done|]. subst p. by destruct Hp. }
  destruct r1 as [y|p| |u|]; try done.
  - destruct Hs as (q & t' & Hi & Hr). pose proof (loose_of m1 t' n Hr) as Hl. right. left.
    exists q, t', y. split_and!; [|done|done]. destruct Ha as [->|(_ & p & -> & Hp)]; [by left|right]. by exists p.
  - destruct Hs as [?|(Hz & -> & Hi)]; [done|]. injection Hz as ->. right. right.
    destruct Ha as [->|([z ?] & _)]; [|done]. split_and!; [done|by apply loose_of|done].
  - destruct Ha as [->|([z ?] & _)]; [by left|done].
Qed.

Lemma loose_remove_entry e o m t r m' : loose m t -> simple_remove_entry e o m = (r, m') ->
  (r = Abort) \/ (r = Panic POverflow /\ loose m' t) \/
  (exists t' t2 x, r = Ret (snd <$> x) /\ trem o 0 t = Ret (t2, x) /\ erase t' = erase t2 /\ loose m' t') \/
  (r = Panic PCmp /\ loose m' t /\ trem o 0 t = Panic PCmp).
Proof.
  intros H He. pose proof (remove_alike_spec e o (m ⟨ N.of_nat (tsize t) ⟩) (s_len m)) as Ha.
  rewrite <- loose_self, He in Ha. pose proof (simple_remove_entry_spec e o _ t H) as Hs. unfold wp in Hs.
  destruct (simple_remove_entry e o (m ⟨ N.of_nat (tsize t) ⟩)) as [r1 m1]. unfold remove_alike in Ha. cbn [fst snd] in Ha.
  destruct Ha as [->|[Ha|[-> [n ->]]]].
  - destruct Hs as [?|(? & _)]; done.
  - injection Ha as -> ->. right. left. split; [done|]. rewrite <- loose_self. done.
  - destruct r1 as [y|p| |u|]; try done.
    + destruct Hs as (t' & t2 & x & Hi & -> & Hx & Hr). right. right. left. exists t', t2, x. auto using loose_of.
    + destruct Hs as [?|(Hz & -> & Hi)]; [done|]. injection Hz as ->. right. right. right. auto using loose_of.
    + by left.
Qed.

Lemma loose_insert_all e os panics items : forall j m t r m', loose m t -> simple_insert_all e os j items panics m = (r, m') ->
  r = Abort \/
  exists t', loose m' t' /\
    ((exists p n, r = Panic p /\ length_panic p /\ otree_insert_all os j (take n items) (erase t) = (erase t', true)) \/
     (r = Ret tt /\ panics = false /\ otree_insert_all os j items (erase t) = (erase t', true)) \/
     (r = Panic PIter /\ panics = true /\ otree_insert_all os j items (erase t) = (erase t', true)) \/
     (r = Panic PCmp /\ otree_insert_all os j items (erase t) = (erase t', false))).
Proof.
  induction items as [|[k v] items IH]; intros j m t r m' H He; cbn [simple_insert_all otree_insert_all] in He |- *.
  - right. exists t. destruct panics; injection He as <- <-; (split; [done|]); auto 6.
  - unfold sbind in He. destruct (simple_insert e (os j k) k v m) as [r1 m1] eqn:Hi.
    destruct (loose_insert e (os j k) k v m t r1 m1 H Hi) as [->|[(q & t' & y & Hy & Hins & Ht)|(-> & Ht & Hins)]].
    + injection He as <- <-. by left.
    + pose proof (tins_otree (os j k) k v q t 0) as Ho. rewrite Hins in Ho. rewrite Ho.
      destruct Hy as [->|(p & -> & Hp)].
      * destruct (IH _ _ _ _ _ Ht He) as [?|(t1 & H1 & [(p & n & -> & Hp & Hn)|Hrest])]; [by left|right..]; exists t1; (split; [done|]).
        -- left. exists p, (S n). cbn [take otree_insert_all]. by rewrite Ho.
        -- by right.
      * injection He as <- <-. right. exists t'. split; [done|]. left. exists p, 1. cbn [take otree_insert_all]. rewrite Ho.
        split_and!; [done|done|]. by destruct items.
    + injection He as <- <-. pose proof (tins_otree (os j k) k v (0, 0)%N t 0) as Ho. rewrite Hins in Ho. rewrite (proj2 Ho).
      right. exists t. auto 6.
Qed.

Lemma loose_clone e ck cv m t : loose m t ->
  match simple_clone e ck cv m with
  | (Ret _, m') => exists t', loose m' t' /\ tree_clone ck cv 0 (erase t) = Some (erase t')
  | (Panic p, _) => p = PClone /\ tree_clone ck cv 0 (erase t) = None
  | (Abort, _) => True
  | _ => False
  end.
Proof.
  intros H. pose proof (simple_clone_spec e ck cv _ t H) as Hs. unfold simple_clone in *.
  rewrite clone_len in Hs. cbn [simple_fuel simple_root set_len_field s_mem s_len] in Hs.
  change (simple_fuel m ⟨ N.of_nat (tsize t) ⟩) with (simple_fuel m) in Hs.
  change (simple_root m ⟨ N.of_nat (tsize t) ⟩) with (simple_root m) in Hs.
  destruct (clone_box e m ck cv (simple_fuel m) (simple_root m) (0, simple_new)) as [[[n|]|p| |u|] [j m1]]; try done.
  - destruct Hs as (t' & Hr & Ht). exists t'. split; [|done]. rewrite <- (relen_relen (N.of_nat (tsize t)) (s_len m)). by apply loose_of.
  - destruct Hs as (t' & Hr & Ht). exists t'. split; [|done]. rewrite <- (relen_relen (N.of_nat (tsize t)) (s_len m)). by apply loose_of.
Qed.

Lemma loose_drop m t : loose m t -> exists m', simple_drop m = (Ret tt, m') /\ hrep m' [].
Proof.
  intros H. pose proof (simple_drop_spec _ t H) as Hs. unfold wp in Hs.
  rewrite (loose_self m t), lf_drop. destruct (simple_drop (m ⟨ N.of_nat (tsize t) ⟩)) as [[[]|p| |u|] m1]; try done.
  eexists. split; [done|]. by eapply hrep_same; [|exact Hs].
Qed.

Lemma loose_exec e c m t r m' : loose m t -> simple_has c = true -> simple_exec e c m = (r, m') ->
  (r = Abort /\ allocates c = true) \/
  exists t', loose m' t' /\ tampered_step (erase t) c r (erase t') /\ ((exists x, r = Ret x) \/ exists p, r = Panic p).
Proof.
  intros H Hc He.
  assert (Hgen : lenfree (simple_exec e c) -> (r = Abort /\ allocates c = true) \/
    exists t', loose m' t' /\ tampered_step (erase t) c r (erase t') /\ ((exists x, r = Ret x) \/ exists p, r = Panic p)).
  { intros Hlf. rewrite (loose_self m t), Hlf in He.
    destruct (simple_exec e c (m ⟨ N.of_nat (tsize t) ⟩)) as [r1 m1] eqn:He1. cbn [fst snd] in He. injection He as -> <-.
    destruct (simple_exec_cases e c _ t _ _ H Hc He1) as [?|(t' & Hr & Hst & Hx)]; [by left|right].
    exists t'. split_and!; [by apply loose_of|by left|done]. }
  destruct (counts c) eqn:Hcnt; [|destruct (tells_length c) eqn:Htl].
  - clear Hgen. destruct c as [o k v|o|o|o|o|o|o w|o w| | | | |n| |os it|d n|d evs|path|path w| |os ck cv]; try done; cbn [simple_exec] in He;
      unfold sbind at 1 in He.
    + destruct (simple_insert e o k v m) as [r1 m1] eqn:Hi.
      destruct (loose_insert e o k v m t r1 m1 H Hi) as [->|[(q & t' & y & Hy & Hins & Ht)|(-> & Ht & Hins)]].
      * injection He as <- <-. by left.
      * pose proof (tins_otree o k v q t 0) as Ho. rewrite Hins in Ho. right. exists t'.
        destruct Hy as [->|(p & -> & Hp)]; injection He as <- <-; (split; [done|]); (split; [|by eauto]).
        -- left. cbn. by rewrite Ho.
        -- right. right. left. split; [done|]. split; [by exists p|]. eexists. cbn. by rewrite Ho.
      * pose proof (tins_otree o k v (0, 0)%N t 0) as Ho. rewrite Hins in Ho. injection He as <- <-. right. exists t.
        split_and!; [done| |by eauto]. left. cbn. by rewrite (proj2 Ho).
    + unfold simple_remove in He. unfold sbind at 1 in He. destruct (simple_remove_entry e o m) as [r1 m1] eqn:Hi.
      pose proof (trem_otree o t 0) as Ho.
      destruct (loose_remove_entry e o m t r1 m1 H Hi) as [->|[[-> Ht]|[(t' & t2 & x & -> & Hx & Her & Ht)|(-> & Ht & Hx)]]].
      * injection He as <- <-. by left.
      * injection He as <- <-. right. exists t. split_and!; [done| |by eauto]. right. right. left. split_and!; [done| |done].
        exists POverflow. split; [done|by left].
      * rewrite Hx in Ho. injection He as <- <-. right. exists t'. split_and!; [done| |by eauto]. left. cbn. rewrite Ho, Her. by destruct x as [[? []]|].
      * rewrite Hx in Ho. injection He as <- <-. right. exists t. split_and!; [done| |by eauto]. left. cbn. by rewrite (proj2 Ho).
    + destruct (simple_remove_entry e o m) as [r1 m1] eqn:Hi.
      pose proof (trem_otree o t 0) as Ho.
      destruct (loose_remove_entry e o m t r1 m1 H Hi) as [->|[[-> Ht]|[(t' & t2 & x & -> & Hx & Her & Ht)|(-> & Ht & Hx)]]].
      * injection He as <- <-. by left.
      * injection He as <- <-. right. exists t. split_and!; [done| |by eauto]. right. right. left. split_and!; [done| |done].
        exists POverflow. split; [done|by left].
      * rewrite Hx in Ho. injection He as <- <-. right. exists t'. split_and!; [done| |by eauto]. left. cbn. by rewrite Ho, Her.
      * rewrite Hx in Ho. injection He as <- <-. right. exists t. split_and!; [done| |by eauto]. left. cbn. by rewrite (proj2 Ho).
    + cbn [sget] in He. unfold simple_is_empty, dassert, sbind, slift, sret in He. right. exists t.
      destruct (b_chk e && negb _); cbn [rbind] in He; injection He as <- <-; (split_and!; [done| |by eauto]); right; right.
      * left. split_and!; [done| |done]. exists PDebugAssert. split; [done|by right].
      * right. split_and!; [done|done|by eexists].
    + unfold simple_extend in He. destruct (simple_insert_all e os 0 (ui_items it) (ui_panics it) m) as [r1 m1] eqn:Hi.
      destruct (loose_insert_all e os _ _ 0 m t r1 m1 H Hi) as [->|(t' & Ht & Hx)].
      * injection He as <- <-. by left.
      * right. exists t'. destruct Hx as [(p & n & -> & Hp & Hn)|[(-> & Hpn & Hn)|[(-> & Hpn & Hn)|(-> & Hn)]]]; injection He as <- <-; (split_and!; [done| |by eauto]).
        -- right. right. left. split; [done|]. split; [by exists p|]. by exists n.
        -- left. cbn. by rewrite Hn, Hpn.
        -- left. cbn. by rewrite Hn, Hpn.
        -- left. cbn. by rewrite Hn.
  - clear Hgen. right. exists t. destruct c as [o k v|o|o|o|o|o|o w|o w| | | | |n| |os it|d n|d evs|path|path w| |os ck cv]; try done; cbn [simple_exec] in He.
    + injection He as <- <-. split_and!; [done| |by eauto]. right. right. right. split_and!; [done|done|by eexists].
    + unfold sbind, sget, slift, simple_debug in He.
      pose proof (box_debug_eq _ t (simple_fuel m) (simple_readable _ _ H) (simple_fuel_height _ _ H)) as Hd.
      rewrite box_debug_len, <- (simple_root_ret _ _ H) in Hd. change (simple_root m ⟨ N.of_nat (tsize t) ⟩) with (simple_root m) in Hd.
      rewrite Hd in He. injection He as <- <-. split_and!; [done| |by eauto]. right. right. right. split_and!; [done|done|by eexists].
  - destruct c as [o k v|o|o|o|o|o|o w|o w| | | | |n| |os it|d n|d evs|path|path w| |os ck cv]; try (apply Hgen; by apply exec_lenfree); cbn [simple_exec] in He.
    + destruct (loose_drop m t H) as (m1 & Hd & Hh). unfold simple_clear, sbind, smod, sret in He. rewrite Hd in He. injection He as <- <-.
      right. exists Leaf. split_and!; [|by left|by eauto]. unfold loose. split_and!; [by eapply hrep_same; [|exact Hh]|by left|set_solver|done|done].
    + pose proof (loose_clone e ck cv m t H) as Hcl. destruct (loose_drop m t H) as (m1 & Hd & Hh).
      destruct (simple_clone e ck cv m) as [[[]|p| |u|] m2]; try done.
      * destruct Hcl as (t' & Hr & Ht'). rewrite Hd in He. injection He as <- <-. right. exists t'. split_and!; [done| |by eauto].
        left. cbn. by rewrite Ht'.
      * destruct Hcl as [-> Ht']. injection He as <- <-. right. exists t. split_and!; [done| |by eauto]. left. cbn. by rewrite Ht'.
      * injection He as <- <-. by left.
Qed.

(** ** Assigning a node *)

Fixpoint tput (path : list dir) (u t : ptree K V) : ptree K V :=
  match path, t with
  | [], _ => u
  | GoLeft :: path, Bin l p k v r => Bin (tput path u l) p k v r
  | GoRight :: path, Bin l p k v r => Bin l p k v (tput path u r)
  | _, Leaf => Leaf
  end.
Lemma erase_tput path u : forall t, erase (tput path u t) = tree_put path (erase u) (erase t).
Proof. induction path as [|[] path IH]; intros [|l p k v r]; simpl; try done; by rewrite IH. Qed.
Lemma tat_plug path : forall t l p k v r, tat path t = Bin l p k v r ->
  exists C, t = plug C (Bin l p k v r) /\ forall u, tput path u t = plug C u.
Proof.
  induction path as [|d path IH]; intros t l p k v r H.
  - exists []. simpl in H. by subst t.
  - destruct t as [|tl q tk tv tr]; [by destruct d|]. destruct d; simpl in H.
    + destruct (IH _ _ _ _ _ _ H) as (C & HC & Hu). exists (C ++ [FL q tk tv tr]). split; [by rewrite plug_app, <- HC|].
      intros u. by rewrite plug_app, <- Hu.
    + destruct (IH _ _ _ _ _ _ H) as (C & HC & Hu). exists (C ++ [FR tl q tk tv]). split; [by rewrite plug_app, <- HC|].
      intros u. by rewrite plug_app, <- Hu.
Qed.

(** What boxing keeps. *)
Definition keeps {S A : Type} (I : S -> Prop) (f : M S A) : Prop := forall s y s', I s -> f s = (Ret y, s') -> I s'.
Lemma keeps_bind {S A B : Type} (I : S -> Prop) (f : M S A) (g : A -> M S B) : keeps I f -> (forall x, keeps I (g x)) -> keeps I (sbind f g).
Proof. intros Hf Hg s y s' Hs H. unfold sbind in H. destruct (f s) as [[x| | | |] s1] eqn:E; try done. by eapply Hg; [eapply Hf|]. Qed.
Lemma keeps_ret {S A : Type} (I : S -> Prop) (x : A) : keeps I (sret x).
Proof. intros s y s' Hs [= _ <-]. done. Qed.
Lemma keeps_lift {S A : Type} (I : S -> Prop) (x : res A) : keeps I (slift x).
Proof. intros s y s' Hs [= _ <-]. done. Qed.
Lemma keeps_get {S : Type} (I : S -> Prop) : keeps I sget.
Proof. intros s y s' Hs [= _ <-]. done. Qed.

Definition fits (n : N) m : Prop := (N.of_nat (size (s_mem m)) <= 2 ^ 60)%N /\ s_len m = n.
Lemma fits_box_opt n e x : keeps (fits n) (box_opt (K := K) (V := V) e x).
Proof.
  destruct x as [x|]; [|apply keeps_ret]. cbn [box_opt]. apply keeps_bind; [|intros; apply keeps_ret].
  intros m y m' [H1 H2] H. unfold box_new, sbind, sget in H.
  destruct (2 ^ 60 <=? N.of_nat (size (s_mem m)))%N eqn:Hsz; [done|]. apply N.leb_gt in Hsz.
  destruct (b_addr e (s_boxes m)) as [a|]; [|done]. cbv zeta in H. unfold smod, sret in H. injection H as _ <-.
  split; [|done]. cbn [s_mem]. rewrite map_size_insert. destruct (_ !! _); unfold id; lia.
Qed.
Lemma fits_clone n e src ck cv : forall fuel b, keeps (fun s => fits n s.2) (clone_box (K := K) (V := V) e src ck cv fuel b).
Proof.
  assert (Hz : forall x, keeps (fun s : nat * simple K V => fits n s.2) (zoom snd (fun m s => (s.1, m)) (box_opt e x))).
  { intros x [j m] y s' H He. unfold zoom in He. cbn [snd fst] in He. destruct (box_opt e x m) as [r m1] eqn:E. injection He as -> <-.
    by eapply fits_box_opt. }
  induction fuel as [|fuel IH]; intros b; cbn [clone_box]; [apply keeps_lift|].
  destruct b as [p|]; [|apply keeps_ret]. apply keeps_bind; [apply keeps_lift|intros x]. apply keeps_bind; [apply keeps_get|intros s].
  destruct (ck s.1 (n_key x)), (cv s.1 (n_value x)); try apply keeps_lift.
  apply keeps_bind; [by intros ? ? ? ? [= _ <-]|intros ?].
  apply keeps_bind; [apply IH|intros ?]. apply keeps_bind; [apply Hz|intros ?].
  apply keeps_bind; [apply IH|intros ?]. apply keeps_bind; [apply Hz|intros ?]. apply keeps_ret.
Qed.

Lemma loose_readable m t : loose m t -> sreadable m t.
Proof. intros H p n Hin. by apply (simple_readable _ _ H). Qed.
Lemma loose_root m t : loose m t -> simple_root m = rootp t.
Proof. intros H. apply (simple_root_ret _ _ H). Qed.
Lemma loose_fuel m t : loose m t -> pheight t < simple_fuel m.
Proof. intros H. apply (simple_fuel_height _ _ H). Qed.

Lemma loose_handle m t path p : loose m t -> simple_walk m path (simple_root m) = Ret (Some p) ->
  exists l k v r, tat path t = Bin l p k v r.
Proof.
  intros H Hw. rewrite (loose_root _ _ H), (simple_walk_eq m path t (loose_readable _ _ H)) in Hw. injection Hw as Hw.
  destruct (tat path t) as [|l p' k v r]; [done|]. injection Hw as ->. eauto.
Qed.

Lemma assign_spec e ck cv src u q pathq m t p path r m' : loose m t -> loose src u ->
  simple_walk m path (simple_root m) = Ret (Some p) -> simple_walk src pathq (simple_root src) = Ret (Some q) ->
  simple_assign e ck cv src q p m = (r, m') ->
  s_len m' = s_len m /\
  (r = Abort \/
   (r = Panic PClone /\ m' = m /\ tree_clone ck cv 0 (tree_at pathq (erase u)) = None) \/
   (r = Ret tt /\ exists t' c, loose m' t' /\ tree_clone ck cv 0 (tree_at pathq (erase u)) = Some c /\
      erase t' = tree_put path c (erase t))).
Proof.
  intros H Hu Hp Hq He. destruct (loose_handle _ _ _ _ H Hp) as (l & k & v & r0 & Hat).
  destruct (loose_handle _ _ _ _ Hu Hq) as (ql & qk & qv & qr & Hqat).
  destruct (tat_plug path t _ _ _ _ _ Hat) as (C & HC & Hput). rewrite <- (tat_erase pathq u), Hqat.
  pose proof (tat_sreadable src pathq u (loose_readable _ _ Hu)) as Hrd. rewrite Hqat in Hrd.
  assert (Hfu : pheight (Bin ql q qk qv qr) < simple_fuel src).
  { rewrite <- Hqat. pose proof (tat_height pathq u). pose proof (loose_fuel _ _ Hu). lia. }
  assert (Hm : hrep m (nodes t)) by (by eapply hrep_same; [|exact (proj1 H)]).
  assert (Hfit : fits (s_len m) m).
  { split; [|done]. rewrite (hrep_size _ _ Hm). destruct H as (_ & _ & _ & _ & Hb).
      unfold tsize in Hb. lia. }
  pose proof (clone_box_spec e src ck cv (Bin ql q qk qv qr) (simple_fuel src) 0 m (nodes t) Hrd Hfu Hm) as Hs.
  pose proof (fits_clone (s_len m) e src ck cv (simple_fuel src) (Some q) (0, m)) as Hk. cbn [snd] in Hk.
  cbn [rootp] in Hs. unfold simple_assign in He. unfold wp in Hs.
  destruct (clone_box e src ck cv (simple_fuel src) (Some q) (0, m)) as [[y|z| |z|] [j m1]]; try done.
  2:{ injection He as <- <-. destruct Hs as [?|[[= ->] Hs]]; [done|]. split; [done|]. right. left. done. }
  2:{ injection He as <- <-. split; [done|]. by left. }
  specialize (Hk y (j, m1) Hfit eq_refl). destruct Hk as [Hk1 Hk2]. cbn [snd] in Hk1, Hk2.
  destruct Hs as (x & -> & Hcl & _ & H1 & Hbox). cbn [snd] in H1.
  destruct x as [|xl xp xk xv xr].
  { exfalso. cbn [erase tree_clone] in Hcl. destruct (ck 0 qk), (cv 0 qv); try done.
    destruct (tree_clone ck cv 1 (erase ql)); [|done]. by destruct (tree_clone ck cv _ (erase qr)). }
  cbn [val] in He. set (x := Bin xl xp xk xv xr) in *.
  assert (Hperm : below x ++ nodes t ≡ₚ nodes l ++ (p, mkInner k v (rootp l) (rootp r0)) :: nodes r0 ++ below x ++ cnodes C (Some p)).
  { rewrite HC, nodes_plug. cbn [nodes rootp]. solve_Permutation. }
  assert (Hfuel : pheight l < simple_fuel m1 /\ pheight r0 < simple_fuel m1).
  { unfold simple_fuel. rewrite (hrep_size _ _ H1), Hperm, app_length. cbn [length]. rewrite app_length.
    pose proof (pheight_size l). pose proof (pheight_size r0). unfold tsize in *. lia. }
  assert (Hwp : wp (let! old := slift (peek m1 p) in let! _ := drop_box (simple_fuel m1) (n_left old) in
       let! _ := drop_box (simple_fuel m1) (n_right old) in poke p (fun _ => mkInner xk xv (rootp xl) (rootp xr)))
     (fun _ m' => hrep m' ((p, mkInner xk xv (rootp xl) (rootp xr)) :: below x ++ cnodes C (Some p)) /\ s_len m' = s_len m1) (fun _ _ => False) m1).
  { apply wp_bind. eapply wp_lift_ret; [eapply hrep_peek; [exact H1|]; rewrite Hperm; apply elem_of_app; right; left|].
    cbn [n_left n_right]. apply wp_bind. eapply wp_mono; [eapply (drop_box_spec l); [exact H1|exact Hperm|apply Hfuel]| |done].
    intros [] m2 [H2 Hl2]. apply wp_bind.
    eapply wp_mono; [eapply (drop_box_spec r0 _ m2 _ ((p, mkInner k v (rootp l) (rootp r0)) :: below x ++ cnodes C (Some p))); [exact H2| |apply Hfuel]| |done].
    { solve_Permutation. }
    intros [] m3 [H3 Hl3]. eapply wp_mono; [eapply poke_spec; [exact H3|reflexivity]| |done].
    intros [] m4 [H4 Hl4]. split; [exact H4|congruence]. }
  unfold wp in Hwp. rewrite He in Hwp. destruct r as [[]|z| |z|]; try done. destruct Hwp as [H4 Hl4].
  split; [congruence|]. right. right. split; [done|].
  assert (Ht' : nodes (tput path (reloc p x) t) ≡ₚ (p, mkInner xk xv (rootp xl) (rootp xr)) :: below x ++ cnodes C (Some p)).
  { rewrite Hput, nodes_plug. done. }
  exists (tput path (reloc p x) t), (erase x). split_and!; [|done|by rewrite erase_tput, erase_reloc].
  destruct H as (_ & Hroot & Hrc & _ & Hb). unfold loose. split_and!.
  - eapply hrep_same; [reflexivity|]. eapply hrep_perm; [|exact H4]. by rewrite Ht'.
  - right. destruct Hroot as [->|Hroot]; [by rewrite tat_leaf in Hat|]. rewrite <- Hroot. rewrite Hput, HC at 1.
    apply rootp_plug_cong. by right.
  - unfold ptrs in *. rewrite Ht'. rewrite HC, nodes_plug in Hrc. cbn [rootp nodes fmap list_fmap fst] in Hrc |- *.
    rewrite fmap_app in *. intros [Hc|Hc]%elem_of_cons.
    + apply Hrc. rewrite Hc. left.
    + apply elem_of_app in Hc as [Hc|Hc]; [by apply Hbox in Hc|]. apply Hrc. right. apply elem_of_app. by right.
  - done.
  - unfold tsize. rewrite Ht'. rewrite (hrep_size _ _ H1), Hperm in Hk1. rewrite !app_length in Hk1. cbn [length] in Hk1 |- *.
    rewrite !app_length in *. lia.
Qed.

(** ** Programs that assign nodes *)

Lemma tampered_loose e m : tampered e m -> exists t, loose m t.
Proof.
  induction 1 as [s m Hs Hb|m c x m' _ (t & Ht) Hc He Hx|m src ck cv p q x m' _ (t & Ht) _ (u & Hu) (path & Hp) (pathq & Hq) He Hx].
  - pose proof (simple_begin_spec e s Hs) as H. rewrite Hb in H. destruct H as (t & Hr & _). exists t. by apply loose_rep.
  - destruct (loose_exec e c m t x m' Ht Hc He) as [[? _]|(t' & Ht' & _)]; [done|]. by exists t'.
  - destruct (assign_spec e ck cv src u q pathq m t p path x m' Ht Hu Hp Hq He) as [_ [?|[(_ & -> & _)|(_ & t' & c & Ht' & _)]]]; [done|by exists t|by exists t'].
Qed.

Lemma loose_shows m t : loose m t -> simple_shows m (erase t).
Proof. intros H. unfold simple_shows. rewrite (loose_root _ _ H). apply simple_shows_sub. by apply loose_readable. Qed.
Lemma loose_yields m t d : loose m t -> simple_yields m d (tree_order d (erase t)).
Proof. intros H. eapply yields_len. by apply (simple_rep_yields _ t d H). Qed.

Lemma tampered_views e m : tampered e m ->
  exists t : tree K V, simple_shows m t /\ (forall d, simple_yields m d (tree_order d t)) /\
    length (tree_inorder t) = size (s_mem m) /\
    exists m', simple_drop m = (Ret tt, m') /\ s_mem m' = ∅.
Proof.
  intros (t & H)%tampered_loose. exists (erase t). split_and!; [by apply loose_shows|intros d; by apply loose_yields| |].
  - rewrite erase_size. destruct (simple_rep_nodes _ _ H) as [Hs _]. done.
  - destruct (loose_drop _ _ H) as (m' & Hd & _ & Hm). by exists m'.
Qed.

Lemma tampered_calls e m (t : tree K V) c x m' : tampered e m -> simple_has c = true -> simple_shows m t ->
  simple_exec e c m = (x, m') ->
  (x = Abort /\ allocates c = true) \/
  (((exists y, x = Ret y) \/ exists p, x = Panic p) /\ tampered e m' /\
   exists t' : tree K V, simple_shows m' t' /\ tampered_step t c x t').
Proof.
  intros Ht Hc Hs He. destruct (tampered_loose e m Ht) as (u & Hu).
  pose proof (simple_exposes_fun _ _ _ Hs _ (loose_shows _ _ Hu)) as ->.
  destruct (loose_exec e c m u x m' Hu Hc He) as [?|(t' & Ht' & Hst & Hx)]; [by left|right]. split_and!; [done| |].
  - eapply tampered_call; [done|done|done|]. by destruct Hx as [[? ->]|[? ->]].
  - exists (erase t'). split; [by apply loose_shows|done].
Qed.

Lemma tampered_assigns e ck cv src (u : tree K V) q pathq m (t : tree K V) p path x m' : tampered e m -> tampered e src ->
  simple_shows m t -> simple_shows src u ->
  simple_walk m path (simple_root m) = Ret (Some p) -> simple_walk src pathq (simple_root src) = Ret (Some q) ->
  simple_assign e ck cv src q p m = (x, m') ->
  x = Abort \/
  (tampered e m' /\ s_len m' = s_len m /\
   ((x = Panic PClone /\ m' = m /\ tree_clone ck cv 0 (tree_at pathq u) = None) \/
    (x = Ret tt /\ exists c, tree_clone ck cv 0 (tree_at pathq u) = Some c /\ simple_shows m' (tree_put path c t)))).
Proof.
  intros Htm Htu Hs Hsu Hp Hq He. destruct (tampered_loose e m Htm) as (t1 & H1). destruct (tampered_loose e src Htu) as (u1 & H2).
  pose proof (simple_exposes_fun _ _ _ Hs _ (loose_shows _ _ H1)) as ->. pose proof (simple_exposes_fun _ _ _ Hsu _ (loose_shows _ _ H2)) as ->.
  destruct (assign_spec e ck cv src u1 q pathq m t1 p path x m' H1 H2 Hp Hq He) as [Hl Hcases].
  assert (Ha : x <> Abort -> tampered e m').
  { intros Hx. eapply tampered_assign; [exact Htm|exact Htu|by exists path|by exists pathq|exact He|exact Hx]. }
  destruct Hcases as [->|[(-> & -> & Hc)|(-> & t' & c & Ht' & Hc & Her)]]; [by left|right..].
  - split_and!; [by apply Ha|done|]. by left.
  - split_and!; [by apply Ha|done|]. right. split; [done|]. exists c. split; [done|]. rewrite <- Her. by apply loose_shows.
Qed.

End ignore.
