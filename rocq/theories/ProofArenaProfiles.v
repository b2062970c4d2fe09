(** * Debug and release builds of the two private containers *)

From Verif Require Export ProofProfiles ProofArenaRun SpecEq.
Local Open Scope N_scope.

Section arena.
Context {T : Type} (e : env).
Notation e' := (release e).
Implicit Types a : arena T.

Lemma next_back_agree a r : ragree (next_back_ptr e a r).1 (next_back_ptr e' a r).1.
Proof. unfold next_back_ptr. case_match; simpl; ag. Qed.
Lemma next_back_range a r : (next_back_ptr e' a r).2 = (next_back_ptr e a r).2.
Proof. unfold next_back_ptr. by case_match. Qed.
Lemma end_ptr_agree a d r : ragree (end_ptr e a d r).1 (end_ptr e' a d r).1 /\ (end_ptr e' a d r).2 = (end_ptr e a d r).2.
Proof.
  destruct d; cbn [end_ptr].
  - split; [apply next_ptr_agree|apply next_ptr_range].
  - split; [apply next_back_agree|apply next_back_range].
Qed.

Lemma arena_iter_calls_agree a ds : forall r, ragree (arena_iter_calls e a ds r) (arena_iter_calls e' a ds r).
Proof.
  induction ds as [|d ds IH]; intros r; cbn [arena_iter_calls]; [ag|].
  pose proof (end_ptr_agree a d r) as [H1 H2]. destruct (end_ptr e a d r) as [x r1], (end_ptr e' a d r) as [x' r1']. simpl in *. subst r1'.
  apply ragree_bind; [done|intros y]. apply ragree_bind; [apply IH|intros l]. ag.
Qed.

Lemma arena_iter_mut_calls_agree ds : forall r, agree (arena_iter_mut_calls (T := T) e ds r) (arena_iter_mut_calls e' ds r).
Proof.
  induction ds as [|[d w] ds IH]; intros r; cbn [arena_iter_mut_calls]; [ag|].
  apply agree_bind; [ag|intros a].
  pose proof (end_ptr_agree a d r) as [H1 H2]. destruct (end_ptr e a d r) as [x r1], (end_ptr e' a d r) as [x' r1']. simpl in *. subst r1'.
  apply agree_bind; [by apply agree_lift|intros y]. apply agree_bind; [ag|intros _]. apply agree_bind; [apply IH|intros l]. ag.
Qed.

Lemma arena_exec_agree c : agree (arena_exec (T := T) e c) (arena_exec e' c).
Proof.
  destruct c; cbn [arena_exec]; change (e_nd e') with (e_nd e); ag.
  - apply arena_iter_calls_agree.
  - apply arena_iter_mut_calls_agree.
Qed.

Lemma arena_run_agree cs : forall a, Forall quiet (arena_run e cs a).1 -> arena_run e' cs a = arena_run e cs a.
Proof.
  induction cs as [|c cs IH]; intros a Hq; cbn [arena_run] in *; [done|].
  pose proof (arena_exec_agree c a) as Ha. destruct (arena_exec e c a) as [r a1]. simpl in Ha.
  destruct r as [x|p| |u|].
  - rewrite Ha by done. specialize (IH a1). destruct (arena_run e cs a1) as [rs a2]. rewrite IH; [done|]. by apply Forall_cons in Hq as [_ Hq].
  - specialize (IH a1). destruct (arena_run e cs a1) as [rs a2]. apply Forall_cons in Hq as [Hp Hq]. rewrite Ha by done. by rewrite IH.
  - by rewrite Ha.
  - by apply Forall_cons in Hq as [[] _].
  - by apply Forall_cons in Hq as [[] _].
Qed.
End arena.

Section arena.
Context {T : Type}.
Implicit Types a : arena T.

Lemma answers_quiet (l : list (Ptr * T)) c r : arena_answers l c r -> r <> Panic POverflow -> quiet r.
Proof.
  destruct c; cbn [arena_answers]; unfold reserve_answers, no_room; intros H Hn; naive_solver.
Qed.

Lemma results_quiet : forall cs rs (l : list (Ptr * T)), arena_results l cs rs -> Forall (fun r => r <> Panic POverflow) rs -> Forall quiet rs.
Proof.
  induction cs as [|c cs IH]; intros [|r rs] l; cbn [arena_results]; try done.
  intros [Ha [[Hp Hr]|[Hp ->]]] [Hn Hns]%Forall_cons; constructor.
  - by eapply answers_quiet.
  - by eapply IH.
  - by eapply answers_quiet.
  - done.
Qed.

Lemma arena_begin_profiles e n : arena_begin (T := T) (release e) n = arena_begin e n.
Proof.
  destruct n as [n|]; cbn [arena_begin]; [|done]. apply arena_with_capacity_agree.
  pose proof (arena_begin_cases (T := T) e (Some n)) as H. cbn [arena_begin] in H.
  destruct (arena_with_capacity e n) as [[x|p| |u|] a]; simpl; unfold no_room in H; naive_solver.
Qed.

Lemma arena_call_profiles e n cs rs a c : arena_reached e n cs rs a -> arena_contract [] cs rs -> Forall process_on rs ->
  arena_legal (arena_contents [] cs rs) c ->
  (match c with AReserve k => N.of_nat (length (arena_contents [] cs rs)) + k < 2 ^ 64 | _ => True end) ->
  arena_exec (release e) c a = arena_exec e c a.
Proof.
  intros H1 H2 H3 Hleg Hk. destruct (arena_final _ _ _ _ _ H1 H2 H3) as [Hrep _].
  apply arena_exec_agree. pose proof (arena_exec_spec e c a _ Hrep Hleg) as H. destruct (arena_exec e c a) as [r a'].
  destruct H as [Hans _]. eapply answers_quiet; [done|]. cbn [fst]. intros ->.
  destruct c; cbn [arena_answers] in Hans; unfold reserve_answers, no_room in Hans; try naive_solver.
  destruct Hans as [?|[[?|[?|?]]|[_ ?]]]; try done. lia.
Qed.

Lemma arena_profiles e n cs rs a : arena_reached e n cs rs a -> arena_contract [] cs rs ->
  Forall (fun r => r <> Panic POverflow) rs -> arena_reached (release e) n cs rs a.
Proof.
  intros Hr Hct Hno. pose proof (arena_history _ _ _ _ _ Hr Hct) as Hres. pose proof (results_quiet _ _ _ Hres Hno) as Hq.
  destruct Hr as (a0 & Hb & Hrun). exists a0. split; [by rewrite arena_begin_profiles|]. by rewrite arena_run_agree; rewrite Hrun.
Qed.

(** The uses that end the life of an arena, and the other observers. *)
Lemma arena_ends_profiles e n cs rs a pn : arena_reached e n cs rs a -> arena_contract [] cs rs -> Forall process_on rs ->
  Forall (fun x => pn x = false) (arena_contents [] cs rs).*2 ->
  arena_drop (release e) (e_nd e) pn a = arena_drop e (e_nd e) pn a /\
  arena_into_iter (release e) pn a = arena_into_iter e pn a /\
  arena_debug (release e) a = arena_debug e a.
Proof.
  intros H1 H2 H3 Hpn. destruct (arena_final _ _ _ _ _ H1 H2 H3) as [Hrep _].
  destruct (arena_history_drop e n cs rs a pn H1 H2 H3 Hpn) as (a' & Hd & _).
  assert (Heq : arena_drop (release e) (e_nd e) pn a = arena_drop e (e_nd e) pn a).
  { apply arena_drop_agree. by rewrite Hd. }
  split; [done|]. split.
  - unfold arena_into_iter, sbind. change (e_nd (release e)) with (e_nd e). by rewrite Heq.
  - by rewrite !(arena_debug_spec _ a _ Hrep).
Qed.

Lemma arena_eq_profiles {S : Type} e (eqT : T -> T -> M S bool) n1 n2 cs1 cs2 rs1 rs2 a1 a2 s :
  arena_reached e n1 cs1 rs1 a1 -> arena_contract [] cs1 rs1 -> Forall process_on rs1 ->
  arena_reached e n2 cs2 rs2 a2 -> arena_contract [] cs2 rs2 -> Forall process_on rs2 ->
  arena_eq_with eqT (release e) a1 a2 s = arena_eq_with eqT e a1 a2 s.
Proof.
  intros H1 H2 H3 H4 H5 H6. destruct (arena_final _ _ _ _ _ H1 H2 H3) as [Hr1 _]. destruct (arena_final _ _ _ _ _ H4 H5 H6) as [Hr2 _].
  unfold arena_eq_with. destruct (negb _) eqn:Hl; [done|]. apply negb_false_iff, N.eqb_eq in Hl. unfold arena_len, iter_new in *.
  rewrite (arena_rep_len _ _ Hr1), (arena_rep_len _ _ Hr2) in *. rewrite Nat2N.id.
  revert Hr1 Hr2 Hl. generalize (arena_contents [] cs1 rs1), (arena_contents [] cs2 rs2). intros l1 l2 Hr1 Hr2 Hlen%Nat2N.inj.
  assert (Hloop : forall fuel i s, (i <= length l1)%nat ->
    arena_eq_loop_with eqT (release e) fuel a1 a2 (mkRange (N.of_nat i) (N.of_nat (length l1))) (mkRange (N.of_nat i) (N.of_nat (length l2))) s =
    arena_eq_loop_with eqT e fuel a1 a2 (mkRange (N.of_nat i) (N.of_nat (length l1))) (mkRange (N.of_nat i) (N.of_nat (length l2))) s).
  { clear s. induction fuel as [|fuel IH]; intros i s Hi; [done|]. cbn [arena_eq_loop_with].
    destruct (decide (i = length l1)) as [->|Hne]; [by rewrite !next_ptr_none by (simpl; lia)|].
    assert (Hget : forall a l ee, arena_rep a l -> length l = length l1 -> exists y,
      next_ptr ee a (mkRange (N.of_nat i) (N.of_nat (length l))) = (Ret (Some y), mkRange (N.of_nat (Datatypes.S i)) (N.of_nat (length l))) /\ l !! i = Some y).
    { intros a l ee Hr Hll. destruct (lookup_lt_is_Some_2 l i) as [[p x] Hp]; [lia|].
      destruct (next_ptr_some ee a (mkRange (N.of_nat i) (N.of_nat (length l))) (rp_inv _ _ Hr) (arena_rep_full _ _ Hr))
        as (y & Hy & ->); [simpl; lia|simpl; rewrite (arena_rep_len _ _ Hr); lia|].
      cbn [r_start r_end] in *. destruct (arena_rep_lookup _ _ _ _ _ Hr Hp) as [Hpos Hc]. rewrite <- Hpos, Hc in Hy. injection Hy as <-.
      eexists. split; [|exact Hp]. rewrite <- Hpos. do 2 f_equal. lia. }
    destruct (Hget a1 l1 e Hr1 eq_refl) as (y1 & E1 & Hy1). destruct (Hget a1 l1 (release e) Hr1 eq_refl) as (y1' & E1' & Hy1').
    destruct (Hget a2 l2 e Hr2 (eq_sym Hlen)) as (y2 & E2 & Hy2). destruct (Hget a2 l2 (release e) Hr2 (eq_sym Hlen)) as (y2' & E2' & Hy2').
    rewrite Hy1 in Hy1'. rewrite Hy2 in Hy2'. injection Hy1' as <-. injection Hy2' as <-. rewrite E1, E1', E2, E2'.
    destruct y1 as [p1 v1], y2 as [p2 v2]. unfold sbind, slift. destruct (eqT v1 v2 s) as [[[]| | | |] s']; try done. apply IH. lia. }
  unfold arena_len. rewrite (arena_rep_len _ _ Hr1), (arena_rep_len _ _ Hr2). apply (Hloop _ 0%nat). lia.
Qed.
End arena.

Section slab.
Context {T : Type}.
Implicit Types s : slab T.

Lemma slab_exec_agree e c : agree (slab_exec (T := T) e c) (slab_exec (release e) c).
Proof. destruct c; cbn [slab_exec]; ag. Qed.

Lemma slab_run_agree e cs : forall s, Forall quiet (slab_run e cs s).1 -> slab_run (release e) cs s = slab_run e cs s.
Proof.
  induction cs as [|c cs IH]; intros s Hq; cbn [slab_run] in *; [done|].
  pose proof (slab_exec_agree e c s) as Ha. destruct (slab_exec e c s) as [r s1]. simpl in Ha.
  destruct r as [x|p| |u|].
  - rewrite Ha by done. specialize (IH s1). destruct (slab_run e cs s1) as [rs s2]. rewrite IH; [done|]. by apply Forall_cons in Hq as [_ Hq].
  - specialize (IH s1). destruct (slab_run e cs s1) as [rs s2]. apply Forall_cons in Hq as [Hp Hq]. rewrite Ha by done. by rewrite IH.
  - by rewrite Ha.
  - by apply Forall_cons in Hq as [[] _].
  - by apply Forall_cons in Hq as [[] _].
Qed.

Lemma slab_answers_quiet (L : gmap Ptr T) c r : slab_answers L c r -> r <> Panic POverflow -> quiet r.
Proof. destruct c; cbn [slab_answers]; unfold no_room; intros H Hn; naive_solver. Qed.

Lemma slab_results_quiet : forall cs rs (L : gmap Ptr T), slab_results L cs rs -> Forall (fun r => r <> Panic POverflow) rs -> Forall quiet rs.
Proof.
  induction cs as [|c cs IH]; intros [|r rs] L; cbn [slab_results]; try done.
  intros [Ha [[Hp Hr]|[Hp ->]]] [Hn Hns]%Forall_cons; constructor.
  - by eapply slab_answers_quiet.
  - by eapply IH.
  - by eapply slab_answers_quiet.
  - done.
Qed.

Lemma slab_begin_profiles e n : slab_begin (T := T) (release e) n = slab_begin e n.
Proof.
  destruct n as [n|]; cbn [slab_begin]; [|done]. unfold slab_with_capacity.
  pose proof (arena_begin_profiles (T := entry T) e (Some n)) as H. cbn [arena_begin] in H. by rewrite H.
Qed.

Lemma slab_call_profiles e n cs rs s c : slab_reached e n cs rs s -> slab_contract ∅ cs rs -> Forall process_on rs ->
  slab_legal (slab_contents ∅ cs rs) c ->
  (match c with SReserve k => k < 2 ^ 63 | _ => True end) ->
  slab_exec (release e) c s = slab_exec e c s.
Proof.
  intros H1 H2 H3 Hleg Hk. destruct (slab_final _ _ _ _ _ H1 H2 H3) as [Hrep _].
  apply slab_exec_agree. pose proof (slab_exec_spec e c s _ Hrep Hleg) as H. destruct (slab_exec e c s) as [r s'].
  destruct H as [Hans _]. eapply slab_answers_quiet; [done|]. cbn [fst]. intros ->.
  destruct c; cbn [slab_answers] in Hans; unfold no_room in Hans; try naive_solver.
  destruct Hans as [?|[[?|[?|?]]|[_ ?]]]; try done. lia.
Qed.

Lemma slab_profiles e n cs rs s : slab_reached e n cs rs s -> slab_contract ∅ cs rs ->
  Forall (fun r => r <> Panic POverflow) rs -> slab_reached (release e) n cs rs s.
Proof.
  intros Hr Hct Hno. pose proof (slab_history _ _ _ _ _ Hr Hct) as Hres. pose proof (slab_results_quiet _ _ _ Hres Hno) as Hq.
  destruct Hr as (s0 & Hb & Hrun). exists s0. split; [by rewrite slab_begin_profiles|]. by rewrite slab_run_agree; rewrite Hrun.
Qed.

Lemma slab_drop_profiles e n cs rs s : slab_reached e n cs rs s -> slab_contract ∅ cs rs -> Forall process_on rs ->
  slab_drop (release e) (fun _ => false) s = slab_drop e (fun _ => false) s.
Proof.
  intros H1 H2 H3. destruct (slab_drops_all e n cs rs s (fun _ => false) H1 H2 H3 (fun _ => eq_refl)) as (s' & Hd & _).
  apply slab_drop_agree. by rewrite Hd.
Qed.
End slab.
