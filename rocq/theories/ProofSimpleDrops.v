(** * What SimpleBSTMap destroys: proofs *)

From Coq Require Import String.
From Verif Require Export SpecSimpleDrops ProofSimpleProps.
From Verif Require Import ProofLedger.
From Verif Require ProofDrops.

#[local] Hint Resolve ProofDrops.leaked_nil : core.

(** Stepping through a bind whose first part is known. *)
Lemma bind_step {S A B} (f : M S A) (g : A -> M S B) s r s1 : f s = (r, s1) ->
  sbind f g s = match r with Ret a => g a s1 | Panic p => (Panic p, s1) | Abort => (Abort, s1) | UB u => (UB u, s1) | Diverge => (Diverge, s1) end.
Proof. intros H. unfold sbind. rewrite H. by destruct r. Qed.

Section drops.
Context {K V : Type}.
Implicit Types t : ptree K V.
Implicit Types m src : simple K V.
Implicit Types log : list (K + V).
Variable leaky : bool.
Variable bad : K + V -> bool.

Notation bads := (bads bad).
Notation b2n := Nat.b2n.

Lemma bads_app (a b : list (K + V)) : bads (a ++ b) = bads a + bads b.
Proof. induction a as [|y a IH]; simpl; [done|]. rewrite IH. lia. Qed.
Lemma bads_perm (a b : list (K + V)) : a ≡ₚ b -> bads a = bads b.
Proof. induction 1; simpl; lia. Qed.

Lemma on_map_eq {A} (f : M (simple K V) A) log m : on_map f (log, m) = ((f m).1, (log, (f m).2)).
Proof. unfold on_map, zoom. cbn [snd fst]. by destruct (f m). Qed.

(** Destroying the list [l]: from the flag [u] to the flag [u']. *)
Definition destroyed (u : bool) (l : list (K + V)) log (r : res bool) log' : Prop :=
  match r with
  | Ret u' => log' = log ++ l /\ b2n u' = b2n u + bads l
  | Abort => 2 <= b2n u + bads l
  | _ => False
  end.

Lemma destroyed_nil u log : destroyed u [] log (Ret u) log.
Proof. simpl. rewrite app_nil_r. split; [done|lia]. Qed.

Lemma wdestroy_eq u y log m : exists r log', wdestroy bad u y (log, m) = (r, (log', m)) /\ destroyed u [y] log r log'.
Proof.
  unfold wdestroy. cbv beta iota delta [sbind smod]. cbn [fst snd]. unfold destroyed. simpl.
  destruct (bad y), u; (eexists _, _; split; [reflexivity|]; simpl; try (split; [done|]); lia).
Qed.

Lemma wdestroy_all_eq l : forall u log m,
  exists r log', wdestroy_all bad u l (log, m) = (r, (log', m)) /\ destroyed u l log r log'.
Proof.
  induction l as [|y l IH]; intros u log m; cbn [wdestroy_all].
  - eexists _, _. split; [reflexivity|apply destroyed_nil].
  - destruct (wdestroy_eq u y log m) as (r & log1 & He & Hd). rewrite (bind_step _ _ _ _ _ He).
    destruct r as [u1|p| |ub|]; try done.
    + destruct Hd as [-> Hu]. destruct (IH u1 (log ++ [y]) m) as (r2 & log2 & He2 & Hd2). exists r2, log2.
      split; [done|]. unfold destroyed in *. destruct r2 as [u2|p| |ub|]; try done.
      * destruct Hd2 as [-> Hu2]. rewrite <- app_assoc. simpl in Hu |- *. split; [done|lia].
      * simpl in *. lia.
    + eexists _, _. split; [reflexivity|]. simpl in *. lia.
Qed.

Lemma destroyed_app u l1 l2 log u1 log1 r log2 : destroyed u l1 log (Ret u1) log1 -> destroyed u1 l2 log1 r log2 ->
  destroyed u (l1 ++ l2) log r log2.
Proof.
  intros [-> H1]. unfold destroyed. destruct r as [u2|p| |ub|]; try done; rewrite bads_app.
  - intros [-> H2]. rewrite <- app_assoc. split; [done|lia].
  - lia.
Qed.
Lemma destroyed_stop u l1 l2 log log1 log2 : destroyed u l1 log Abort log1 -> destroyed u (l1 ++ l2) log Abort log2.
Proof. unfold destroyed. rewrite bads_app. lia. Qed.

(** ** The destructor of a tree *)

Definition contents s : list (K + V) := owned (tree_preorder (erase s)).

Lemma contents_bin l p k v r : contents (Bin l p k v r) = [inl k; inr v] ++ contents l ++ contents r.
Proof. unfold contents. cbn [erase tree_preorder]. change ((k, v) :: ?a) with ([(k, v)] ++ a). by rewrite !owned_app. Qed.

Lemma wglue_spec s : forall fuel u log m ns F, hrep m ns -> ns ≡ₚ nodes s ++ F -> pheight s < fuel ->
  exists r log' m', wglue bad fuel u (rootp s) (log, m) = (r, (log', m')) /\ destroyed u (contents s) log r log' /\
    (forall b, r = Ret b -> drop_box fuel (rootp s) m = (Ret tt, m')).
Proof.
  induction s as [|l IHl p k v r IHr]; intros [|fuel] u log m ns F H Hp Hf; simpl in Hf; try lia; cbn [wglue rootp].
  - eexists _, _, _. split; [reflexivity|]. split; [apply destroyed_nil|]. intros b _. done.
  - cbn [nodes app] in Hp.
    assert (Hpk : peek m p = Ret (mkInner k v (rootp l) (rootp r))) by (eapply hrep_peek; [exact H|rewrite Hp; left]).
    rewrite (bind_step sget _ _ (Ret (log, m)) (log, m)) by done. cbn [snd].
    rewrite (bind_step (slift (peek m p)) _ _ (Ret (mkInner k v (rootp l) (rootp r))) (log, m)) by (by rewrite Hpk).
    cbn [n_key n_value n_left n_right drop_box].
    destruct (wdestroy_all_eq [inl k; inr v] u log m) as (r1 & log1 & He1 & Hd1). rewrite (bind_step _ _ _ _ _ He1).
    rewrite contents_bin. destruct r1 as [u1|q| |ub|]; try done.
    2:{ eexists _, _, _. split; [reflexivity|]. split; [by eapply destroyed_stop|done]. }
    destruct (IHl fuel u1 log1 m ns ((p, mkInner k v (rootp l) (rootp r)) :: nodes r ++ F) H) as (r2 & log2 & m2 & He2 & Hd2 & Hm2); [|lia|].
    { rewrite Hp. simpl. solve_Permutation. }
    rewrite (bind_step _ _ _ _ _ He2). rewrite app_assoc.
    destruct r2 as [u2|q| |ub|]; try done.
    2:{ eexists _, _, _. split; [reflexivity|]. split; [|done]. eapply destroyed_stop, destroyed_app; [exact Hd1|exact Hd2]. }
    pose proof (drop_box_spec l fuel m ns ((p, mkInner k v (rootp l) (rootp r)) :: nodes r ++ F) H) as Hdb.
    specialize (Hdb ltac:(rewrite Hp; simpl; solve_Permutation) ltac:(lia)). unfold wp in Hdb. rewrite (Hm2 _ eq_refl) in Hdb. destruct Hdb as [H2 _].
    destruct (IHr fuel u2 log2 m2 _ ((p, mkInner k v (rootp l) (rootp r)) :: F) H2) as (r3 & log3 & m3 & He3 & Hd3 & Hm3); [solve_Permutation|lia|].
    rewrite (bind_step _ _ _ _ _ He3).
    assert (Hd12 := destroyed_app _ _ _ _ _ _ _ _ Hd1 Hd2).
    destruct r3 as [u3|q| |ub|]; try done.
    2:{ eexists _, _, _. split; [reflexivity|]. split; [|done]. eapply destroyed_app; [exact Hd12|exact Hd3]. }
    pose proof (drop_box_spec r fuel m2 _ ((p, mkInner k v (rootp l) (rootp r)) :: F) H2) as Hdb.
    specialize (Hdb ltac:(solve_Permutation) ltac:(lia)). unfold wp in Hdb. rewrite (Hm3 _ eq_refl) in Hdb. destruct Hdb as [H3 _].
    pose proof (move_out_spec m3 _ p _ F H3 (reflexivity _)) as Hmo. unfold wp in Hmo. unfold unbox.
    destruct (move_out p m3) as [[y|q| |ub|] m4] eqn:Hmv; try done.
    rewrite (bind_step (on_map (move_out p)) _ _ (Ret y) (log3, m4)) by (by rewrite on_map_eq, Hmv).
    eexists _, _, _. split; [reflexivity|]. split; [eapply destroyed_app; [exact Hd12|exact Hd3]|]. intros b _.
    rewrite (bind_step sget _ _ (Ret m) m) by done.
    rewrite (bind_step (slift (peek m p)) _ _ (Ret (mkInner k v (rootp l) (rootp r))) m) by (by rewrite Hpk).
    cbn [n_left n_right].
    rewrite (bind_step _ _ _ _ _ (Hm2 _ eq_refl)), (bind_step _ _ _ _ _ (Hm3 _ eq_refl)).
    unfold unbox. by rewrite (bind_step _ _ _ _ _ Hmv).
Qed.

Lemma wdrop_map_spec u log m t : simple_rep m t ->
  exists r log' m', wdrop_map bad u (log, m) = (r, (log', m')) /\ destroyed u (contents t) log r log' /\
    (forall b, r = Ret b -> simple_drop m = (Ret tt, m') /\ s_mem m' = ∅ /\ s_len m' = s_len m).
Proof.
  intros H. unfold wdrop_map. rewrite (bind_step sget _ _ (Ret (log, m)) (log, m)) by done. cbn [snd].
  rewrite (simple_root_ret _ _ H).
  destruct (wglue_spec t (simple_fuel m) u log m (nodes t) [] ltac:(apply H) ltac:(by rewrite app_nil_r) ltac:(by apply simple_fuel_height)) as (r & log' & m' & He & Hd & Hm).
  exists r, log', m'. split_and!; [done|done|]. intros b Hb. specialize (Hm b Hb).
  assert (Hdr : simple_drop m = (Ret tt, m')).
  { unfold simple_drop. rewrite (bind_step sget _ _ (Ret m) m) by done. by rewrite (simple_root_ret _ _ H). }
  split; [done|]. pose proof (drop_box_spec t (simple_fuel m) m (nodes t) [] ltac:(apply H) ltac:(by rewrite app_nil_r) ltac:(by apply simple_fuel_height)) as Hs.
  unfold wp in Hs. rewrite Hm in Hs. destruct Hs as [[_ Hs] Hl]. split; [|done]. rewrite Hs. done.
Qed.

(** ** insert, remove, writes *)

Lemma contents_in t : contents t ≡ₚ owned (tree_inorder (erase t)).
Proof. unfold contents. apply owned_perm, tree_pre_in. Qed.

Lemma wreturn_past_eq y z log m : exists r log', wreturn_past leaky bad y z (log, m) = (r, (log', m)) /\
  if bad z then
    if negb leaky && bad y then r = Abort
    else r = Panic PDrop /\ log' = log ++ z :: (if leaky then [] else [y])
  else r = Ret tt /\ log' = log ++ [z].
Proof.
  unfold wreturn_past, wdestroy. cbv beta iota delta [sbind smod sret slift]. cbn [fst snd].
  destruct (bad z); [|by eexists _, _]. destruct leaky; simpl; [by eexists _, _|].
  destruct (bad y); [by eexists _, _|]. eexists _, _. split; [reflexivity|]. by rewrite <- app_assoc.
Qed.

Lemma winsert_eq e o k v log m r m1 : simple_insert e o k v m = (r, m1) ->
  exists r' log', winsert leaky bad e o k v (log, m) = (r', (log', m1)) /\
  match r with
  | Ret (Some old) =>
    if bad (inl k) then
      if negb leaky && bad (inr old) then r' = Abort
      else r' = Panic PDrop /\ log' = log ++ inl k :: (if leaky then [] else [inr old])
    else r' = r /\ log' = log ++ [inl k]
  | Panic p => if Nat.eqb (bads [inr v; inl k]) 0 then r' = Panic p /\ log' = log ++ [inr v; inl k] else r' = Abort
  | _ => r' = r /\ log' = log
  end.
Proof.
  intros H. unfold winsert, wunwinding.
  assert (Hm : on_map (simple_insert e o k v) (log, m) = (r, (log, m1))) by (by rewrite on_map_eq, H).
  destruct r as [[old|]|p| |u|].
  - cbv beta iota delta [sbind]. rewrite Hm.
    destruct (wreturn_past_eq (inr old) (inl k) log m1) as (r' & log' & He & Hc). rewrite He.
    destruct (bad (inl k)); [destruct (negb leaky && bad (inr old))|].
    + subst r'. by eexists _, _.
    + destruct Hc as [-> ->]. by eexists _, _.
    + destruct Hc as [-> ->]. by eexists _, _.
  - cbv beta iota delta [sbind]. rewrite Hm. by eexists _, _.
  - cbv beta iota delta [sbind]. rewrite Hm.
    destruct (wdestroy_all_eq [inr v; inl k] true log m1) as (r' & log' & He & Hc). rewrite He.
    destruct r' as [u'|q| |ub|]; try done.
    + destruct Hc as [-> Hu]. assert (Hb : bads [inr v; inl k] = 0).
      { destruct u'; simpl in Hu |- *; lia. }
      rewrite Hb. by eexists _, _.
    + eexists _, _. split; [reflexivity|]. unfold destroyed in Hc. simpl in Hc |- *.
      destruct (bad (inr v)), (bad (inl k)); simpl in *; try done. lia.
  - cbv beta iota delta [sbind]. rewrite Hm. by eexists _, _.
  - cbv beta iota delta [sbind]. rewrite Hm. by eexists _, _.
  - cbv beta iota delta [sbind]. rewrite Hm. by eexists _, _.
Qed.

(** What an insert took, destroyed and handed over; [L] was leaked. *)
Lemma winsert_spec e o k v log m t r s1 : simple_rep m t -> winsert leaky bad e o k v (log, m) = (r, s1) -> r <> Abort ->
  exists r0 t' d L, simple_insert e o k v m = (r0, s1.2) /\ simple_rep s1.2 t' /\ s1.1 = log ++ d /\
    leaked leaky (drop_panics r) L /\
    contents t' ++ d ++ (match r with Ret (Some old) => [inr old] | _ => [] end) ++ L ≡ₚ contents t ++ [inl k; inr v] /\
    bads d = drop_panics r /\
    match r with
    | Ret _ => r0 = r
    | Panic PDrop => exists y, r0 = Ret y
    | Panic p => r0 = r /\ p = PCmp /\ s1.2 = m /\ t' = t /\ exists i k0, o i k0 = None
    | _ => False
    end.
Proof.
  intros H He Hna. destruct (simple_insert e o k v m) as [r0 m1] eqn:Hi.
  destruct (winsert_eq e o k v log m r0 m1 Hi) as (r' & log' & He' & Hc). rewrite He in He'. injection He' as <- ->. cbn [fst snd].
  pose proof (simple_insert_spec e o k v m t H) as Hs. unfold wp in Hs. rewrite Hi in Hs.
  destruct r0 as [y|p| |u|]; try done.
  - destruct Hs as (q & t' & Hins & Hr). pose proof (tins_loose _ _ _ _ _ _ _ _ Hins) as Hl.
    assert (Hcon : match y with None => contents t' ≡ₚ contents t ++ [inl k; inr v]
                   | Some old => contents t' ++ [inl k; inr old] ≡ₚ contents t ++ [inl k; inr v] end).
    { destruct y as [old|]; simpl in Hl; rewrite (contents_in t), (contents_in t').
      - destruct Hl as (k0 & l0 & H1 & H2). rewrite (owned_perm _ _ H1), (owned_perm _ _ H2). simpl. solve_Permutation.
      - rewrite (owned_perm _ _ Hl). simpl. solve_Permutation. }
    destruct y as [old|].
    + destruct (bad (inl k)) eqn:Hk; [destruct (negb leaky && bad (inr old)) eqn:Hb|].
      * done.
      * destruct Hc as [-> ->]. exists (Ret (Some old)), t', (inl k :: (if leaky then [] else [inr old])), (if leaky then [inr old] else []).
        split_and!; try done; [apply ProofDrops.leaked_value| | |by eexists].
        -- cbn [app]. rewrite <- Hcon. destruct leaky; simpl; solve_Permutation.
        -- simpl. rewrite Hk. destruct leaky; simpl in *; [done|]. by rewrite Hb.
      * destruct Hc as [-> ->]. exists (Ret (Some old)), t', [inl k], []. split_and!; try done.
        simpl. by rewrite Hk.
    + destruct Hc as [-> ->]. exists (Ret None), t', [], []. split_and!; try done; [by rewrite app_nil_r|]. by rewrite app_nil_r.
  - destruct Hs as [?|(Hp & -> & Hins)]; [done|]. injection Hp as ->.
    destruct (Nat.eqb (bads [inr v; inl k]) 0) eqn:Hb; [|done]. destruct Hc as [-> ->]. apply Nat.eqb_eq in Hb.
    exists (Panic PCmp), t, [inr v; inl k], []. split_and!; try done; [simpl; solve_Permutation|].
    pose proof (tins_otree o k v (0, 0)%N t 0) as Ho. rewrite Hins in Ho. destruct Ho as [_ Ho].
    clear -Ho. revert Ho. generalize 0 at 1. generalize (erase t) as u. induction u as [|ul IHl k1 v1 ur IHr]; intros i; simpl; [done|].
    destruct (o i k1) as [[]|] eqn:Hk; [done| | |by eauto].
    + intros Hx. destruct (otree_insert o (S i) k v ul) eqn:Hy; [done|]. by eapply IHl.
    + intros Hx. destruct (otree_insert o (S i) k v ur) eqn:Hy; [done|]. by eapply IHr.
  - destruct Hc as [-> _]. done.
Qed.

(** From [t] and [log] to [t'] and the state [s1], having taken [gave], handed back
    [back] and met [n] destructors that panic. *)
Definition outcome t log (s1 : watched K V) (back gave : list (K + V)) (n : nat) : Prop :=
  exists t' d L, simple_rep s1.2 t' /\ s1.1 = log ++ d /\ leaked leaky n L /\
    contents t' ++ d ++ back ++ L ≡ₚ contents t ++ gave /\ bads d = n.

Lemma outcome_idle t log m : simple_rep m t -> outcome t log (log, m) [] [] 0.
Proof. intros H. exists t, [], []. split_and!; try done. simpl. by rewrite app_nil_r. Qed.

Lemma outcome_seq t log s1 g1 t1 s2 b g2 n :
  simple_rep s1.2 t1 -> (exists d L, s1.1 = log ++ d /\ leaked leaky 0 L /\ contents t1 ++ d ++ L ≡ₚ contents t ++ g1 /\ bads d = 0) ->
  outcome t1 s1.1 s2 b g2 n -> outcome t log s2 b (g1 ++ g2) n.
Proof.
  intros _ (d1 & L1 & Hd1 & HL1 & Hp1 & Hb1) (t2 & d2 & L2 & Hr & Hd2 & HL2 & Hp2 & Hb2).
  exists t2, (d1 ++ d2), (L1 ++ L2). split_and!; [done|by rewrite Hd2, Hd1, app_assoc| | |by rewrite bads_app, Hb1, Hb2].
  - by apply (ProofDrops.leaked_app leaky 0 n).
  - transitivity ((contents t2 ++ d2 ++ b ++ L2) ++ d1 ++ L1); [solve_Permutation|]. rewrite Hp2.
    transitivity ((contents t1 ++ d1 ++ L1) ++ g2); [solve_Permutation|]. rewrite Hp1. solve_Permutation.
Qed.

Lemma wremove_eq e o log m r m1 : simple_remove_entry e o m = (r, m1) ->
  exists r' log', wremove leaky bad e o (log, m) = (r', (log', m1)) /\
  match r with
  | Ret (Some (k, v)) =>
    if bad (inl k) then
      if negb leaky && bad (inr v) then r' = Abort
      else r' = Panic PDrop /\ log' = log ++ inl k :: (if leaky then [] else [inr v])
    else r' = Ret (Some v) /\ log' = log ++ [inl k]
  | _ => r' = rmap (option_map snd) r /\ log' = log
  end.
Proof.
  intros H. unfold wremove.
  rewrite (bind_step (on_map _) _ _ r (log, m1)) by (by rewrite on_map_eq, H).
  destruct r as [[[k v]|]|p| |u|]; try by eexists _, _.
  destruct (wreturn_past_eq (inr v) (inl k) log m1) as (r' & log' & He & Hc). unfold sbind. rewrite He.
  destruct (bad (inl k)); [destruct (negb leaky && bad (inr v))|].
  - subst r'. by eexists _, _.
  - destruct Hc as [-> ->]. by eexists _, _.
  - destruct Hc as [-> ->]. by eexists _, _.
Qed.

Lemma remove_contents o t t2 x : trem o 0 t = Ret (t2, x) ->
  contents t2 ++ (match x with Some (_, (k, v)) => [inl k; inr v] | None => [] end) ≡ₚ contents t.
Proof.
  intros H%trem_perm. rewrite (contents_in t), (contents_in t2). destruct x as [[p [k v]]|]; [|subst; by rewrite app_nil_r].
  rewrite <- (owned_perm _ _ (pre_in t)), <- (owned_perm _ _ (pre_in t2)), <- (owned_perm _ _ (fmap_Permutation snd _ _ H)).
  simpl. solve_Permutation.
Qed.

Lemma wremove_spec e o log m t r s1 : simple_rep m t -> wremove leaky bad e o (log, m) = (r, s1) -> r <> Abort ->
  exists r0, simple_remove e o m = (r0, s1.2) /\
    outcome t log s1 (match r with Ret (Some v) => [inr v] | _ => [] end) [] (drop_panics r) /\
    match r with
    | Ret _ => r0 = r
    | Panic PDrop => exists y, r0 = Ret y
    | Panic _ => r0 = r
    | _ => False
    end.
Proof.
  intros H He Hna. destruct (simple_remove_entry e o m) as [r0 m1] eqn:Hi.
  destruct (wremove_eq e o log m r0 m1 Hi) as (r' & log' & He' & Hc). rewrite He in He'. injection He' as <- ->. cbn [fst snd].
  assert (Hrm : simple_remove e o m = (rmap (option_map snd) r0, m1)).
  { unfold simple_remove. rewrite (bind_step _ _ _ _ _ Hi). by destruct r0. }
  exists (rmap (option_map snd) r0). split; [done|].
  pose proof (simple_remove_entry_spec e o m t H) as Hs. unfold wp in Hs. rewrite Hi in Hs.
  destruct r0 as [y|p| |u|]; try done.
  - destruct Hs as (t' & t2 & x & Htr & -> & Het & Hr). apply remove_contents in Htr.
    assert (Hct : contents t2 = contents t') by (unfold contents; by rewrite Het). rewrite Hct in Htr.
    destruct x as [[q [k v]]|]; cbn in *.
    + destruct (bad (inl k)) eqn:Hk; [destruct (negb leaky && bad (inr v)) eqn:Hb|].
      * done.
      * destruct Hc as [-> ->]. split; [|by eexists].
        exists t', (inl k :: (if leaky then [] else [inr v])), (if leaky then [inr v] else []). split_and!; try done; [apply ProofDrops.leaked_value| |].
        -- rewrite <- Htr. destruct leaky; simpl; solve_Permutation.
        -- simpl. rewrite Hk. destruct leaky; simpl in *; [done|]. by rewrite Hb.
      * destruct Hc as [-> ->]. split; [|done]. exists t', [inl k], []. split_and!; try done.
        -- rewrite <- Htr. simpl. solve_Permutation.
        -- simpl. by rewrite Hk.
    + destruct Hc as [-> ->]. split; [|done]. exists t', [], []. split_and!; try done; [by rewrite app_nil_r|].
      rewrite <- Htr. simpl. by rewrite !app_nil_r.
  - destruct Hs as [?|(Hp & -> & Hins)]; [done|]. injection Hp as ->. destruct Hc as [-> ->]. split; [|done]. by apply outcome_idle.
  - by destruct Hc as [-> _].
Qed.

Lemma wwrite_spec p k v (w : option V) log m t : simple_rep m t -> (p, (k, v)) ∈ ppre t ->
  exists m1 log', opt_poke p w m = (Ret tt, m1) /\
    let r := match w with Some _ => if bad (inr v) then Panic PDrop else Ret tt | None => Ret tt end in
    wwrite bad p w (log, m) = (r, (log', m1)) /\
    log' = log ++ (match w with Some _ => [inr v] | None => [] end) /\
    outcome t log (log', m1) [] (match w with Some w => [inr w] | None => [] end) (drop_panics r).
Proof.
  intros H Hin. pose proof Hin as Hn. rewrite ppre_nodes in Hn. apply elem_of_list_fmap in Hn as ([q n] & Heq & Hn).
  simpl in Heq. injection Heq as -> -> ->.
  destruct w as [w|]; cbn [opt_poke].
  - pose proof (simple_write m t q n w H Hn) as Hs. unfold wp in Hs.
    destruct (poke q (with_value w) m) as [[[]|pr| |u|] m1] eqn:Hp; try done. exists m1.
    exists (log ++ [inr (n_value n)]). split; [done|].
    assert (He : wwrite bad q (Some w) (log, m) = (if bad (inr (n_value n)) then Panic PDrop else Ret tt, (log ++ [inr (n_value n)], m1))).
    { unfold wwrite. rewrite (bind_step sget _ _ (Ret (log, m)) (log, m)) by done. cbn [snd].
      rewrite (bind_step (slift (peek m q)) _ _ (Ret n) (log, m)) by (by rewrite (simple_readable _ _ H _ _ Hn)).
      rewrite (bind_step (on_map _) _ _ (Ret tt) (log, m1)) by (by rewrite on_map_eq, Hp).
      unfold wdestroy, settle. cbv beta iota delta [sbind smod sret slift sfail]. cbn [fst snd]. by destruct (bad (inr (n_value n))). }
    split; [by rewrite He|]. split; [done|].
    exists (tset q w t), [inr (n_value n)], []. split_and!; try done.
    + pose proof (tset_loose q (n_key n) (n_value n) w t (simple_nodup _ _ H) Hin) as (l0 & H1 & H2).
      rewrite (contents_in t), (contents_in (tset q w t)), (owned_perm _ _ H1), (owned_perm _ _ H2). simpl. solve_Permutation.
    + simpl. by destruct (bad (inr (n_value n))).
  - exists m, log. split_and!; try done; [by rewrite app_nil_r|by apply outcome_idle].
Qed.

Lemma wclear_spec log m t : simple_rep m t ->
  exists r log' m', wclear bad (log, m) = (r, (log', m')) /\
    match r with
    | Ret _ => bads (contents t) = 0 /\ log' = log ++ contents t /\ simple_clear m = (Ret tt, m') /\ simple_rep m' Leaf
    | Panic p => p = PDrop /\ bads (contents t) = 1 /\ log' = log ++ contents t /\ simple_clear m = (Ret tt, m') /\ simple_rep m' Leaf
    | Abort => 2 <= bads (contents t)
    | _ => False
    end.
Proof.
  intros H. unfold wclear. destruct (wdrop_map_spec false log m t H) as (r & log' & m' & He & Hd & Hm).
  rewrite (bind_step _ _ _ _ _ He). destruct r as [u|p| |ub|]; try done.
  2:{ eexists _, _, _. by split; [reflexivity|]. }
  destruct Hd as [-> Hu]. cbn [Nat.b2n] in Hu. destruct (Hm u eq_refl) as (Hdr & _ & _).
  rewrite (bind_step (on_map _) _ _ (Ret tt) (log ++ contents t, set_len_field 0 m')) by (by rewrite on_map_eq).
  assert (Hcl : simple_clear m = (Ret tt, set_len_field 0 m')) by (unfold simple_clear; by rewrite (bind_step _ _ _ _ _ Hdr)).
  pose proof (simple_clear_spec m t H) as Hs. unfold wp in Hs. rewrite Hcl in Hs.
  unfold settle. destruct u; cbn in Hu; (eexists _, _, _; split; [reflexivity|]; split_and!; try done; lia).
Qed.

(** ** extend *)

Lemma settle_eq {A} (u : bool) (a : A) (s : watched K V) : settle u a s = (if u then Panic PDrop else Ret a, s).
Proof. by destruct u. Qed.

Lemma winsert_all_spec e os panics items : forall j log m t r s1, simple_rep m t ->
  winsert_all leaky bad e os j items panics (log, m) = (r, s1) -> r <> Abort ->
  exists n, outcome t log s1 [] (owned (take n items)) (drop_panics r) /\
  match r with
  | Ret _ => panics = false /\ n = length items /\ simple_insert_all e os j items panics m = (Ret tt, s1.2)
  | Panic PDrop => simple_insert_all e os j (take n items) false m = (Ret tt, s1.2)
  | Panic p => simple_insert_all e os j items panics m = (Panic p, s1.2) /\
      ((p = PIter /\ panics = true /\ n = length items) \/
       (p = PCmp /\ exists i k v a k0, items !! i = Some (k, v) /\ os (j + i) k a k0 = None /\ n = S i))
  | _ => False
  end.
Proof.
  induction items as [|[k v] items IH]; intros j log m t r s1 H He Hna; cbn [winsert_all] in He.
  - exists 0. destruct panics; injection He as <- <-; (split; [by apply outcome_idle|]); [split; [done|by left]|done].
  - destruct (winsert leaky bad e (os j k) k v (log, m)) as [r1 [log1 m1]] eqn:Hw.
    rewrite (bind_step _ _ _ _ _ Hw) in He.
    assert (Hna1 : r1 <> Abort) by (intros ->; injection He as <- <-; done).
    destruct (winsert_spec e (os j k) k v log m t r1 _ H Hw Hna1) as (r0 & t1 & d & L & Hi & Hr & Hd & HL & Hp & Hb & Hc).
    cbn [fst snd] in *. cbn [simple_insert_all].
    destruct r1 as [prev|p| |u|]; try done.
    + subst r0.
      assert (Hdes : exists u, (match prev with Some v => wdestroy bad false (inr v) | None => sret false end) (log1, m1)
          = (Ret u, (log1 ++ (match prev with Some v => [inr v] | None => [] end), m1)) /\
          b2n u = bads (match prev with Some v => [inr v] | None => [] end)).
      { destruct prev as [old|]; [|exists false; by rewrite app_nil_r].
        unfold wdestroy. cbv beta iota delta [sbind smod]. cbn [fst snd]. simpl. destruct (bad (inr old)); by eexists. }
      destruct Hdes as (u & Hdu & Hu). rewrite (bind_step _ _ _ _ _ Hdu) in He.
      rewrite (bind_step _ _ _ _ _ (settle_eq u tt _)) in He.
      set (pl := match prev with Some v => [inr v] | None => [] end) in *.
      destruct u.
      * injection He as <- <-. exists 1. split.
        -- exists t1, (d ++ pl), L. split_and!; [done|by rewrite Hd, app_assoc|apply (ProofDrops.leaked_le leaky 0); [done|simpl; lia]| |].
           ++ rewrite <- app_assoc. simpl. rewrite Hp. done.
           ++ rewrite bads_app, Hb. cbn [drop_panics]. cbn in Hu. lia.
        -- cbn [take simple_insert_all drop_panics]. rewrite (bind_step _ _ _ _ _ Hi). done.
      * destruct (IH (S j) _ m1 t1 r s1 Hr He Hna) as (n & Ho & Hcase). exists (S n). split.
        -- change (take (S n) ((k, v) :: items)) with ([(k, v)] ++ take n items). rewrite owned_app.
           eapply (outcome_seq t log (log1 ++ pl, m1)); [exact Hr| |exact Ho].
           exists (d ++ pl), L. cbn [fst]. split_and!; [by rewrite Hd, app_assoc|done| |].
           ++ rewrite <- app_assoc, Hp. done.
           ++ rewrite bads_app, Hb. cbn [drop_panics]. cbn in Hu. lia.
        -- destruct r as [[]|p| |ub|]; try done.
           ++ destruct Hcase as (Hpp & -> & Hs). split_and!; [done|done|]. by rewrite (bind_step _ _ _ _ _ Hi).
           ++ assert (Hstep : p <> PDrop -> simple_insert_all e os (S j) items panics m1 = (Panic p, s1.2) /\
                ((p = PIter /\ panics = true /\ n = length items) \/
                 (p = PCmp /\ exists i k v a k0, items !! i = Some (k, v) /\ os (S j + i) k a k0 = None /\ n = S i)) ->
                sbind (simple_insert e (os j k) k v) (fun _ => simple_insert_all e os (S j) items panics) m = (Panic p, s1.2) /\
                ((p = PIter /\ panics = true /\ S n = length ((k, v) :: items)) \/
                 (p = PCmp /\ exists i k1 v1 a k0, ((k, v) :: items) !! i = Some (k1, v1) /\ os (j + i) k1 a k0 = None /\ S n = S i))).
              { intros _ [Hs Hq]. rewrite (bind_step _ _ _ _ _ Hi). split; [done|].
                destruct Hq as [(-> & -> & ->)|(-> & i & k1 & v1 & a & k0 & H1 & H2 & ->)]; [by left|right]. split; [done|].
                exists (S i), k1, v1, a, k0. split_and!; [done| |done]. by rewrite Nat.add_succ_r. }
              destruct p; try (by apply Hstep).
              cbn [take simple_insert_all]. by rewrite (bind_step _ _ _ _ _ Hi).
    + injection He as <- <-. exists 1. split.
      * exists t1, d, L. by split_and!.
      * destruct p; try (by destruct Hc as (? & ? & _)).
        -- destruct Hc as (-> & _ & _ & _ & a & k0 & Ho). rewrite (bind_step _ _ _ _ _ Hi). split; [done|]. right. split; [done|].
           exists 0, k, v, a, k0. by rewrite Nat.add_0_r.
        -- destruct Hc as (y & ->). cbn [take simple_insert_all]. by rewrite (bind_step _ _ _ _ _ Hi).
Qed.

(** ** clone *)

Lemma cloned_all (ck : nat -> K -> option K) (cv : nat -> V -> option V) (l : list (K * V)) : forall j l',
  clones ck cv j l = (l', true) -> cloned ck cv j l = owned l' /\
  forall l2, cloned ck cv j (l ++ l2) = owned l' ++ cloned ck cv (j + length l) l2.
Proof.
  induction l as [|[k v] l IH]; intros j l' Hc; cbn [clones] in Hc.
  - injection Hc as <-. split; [done|]. intros l2. simpl. by rewrite Nat.add_0_r.
  - cbn [cloned app]. destruct (ck j k) as [k'|]; [|done]. destruct (cv j v) as [v'|]; [|done].
    destruct (clones ck cv (S j) l) as [l1 b] eqn:H1. injection Hc as <- ->. destruct (IH _ _ H1) as [H2 H3]. split.
    + by rewrite H2.
    + intros l2. rewrite H3. cbn [length]. by rewrite Nat.add_succ_r.
Qed.
Lemma cloned_part (ck : nat -> K -> option K) (cv : nat -> V -> option V) (l l2 : list (K * V)) : forall j,
  (clones ck cv j l).2 = false -> cloned ck cv j (l ++ l2) = cloned ck cv j l.
Proof.
  induction l as [|[k v] l IH]; intros j Hc; [done|]. cbn [clones cloned app] in *.
  destruct (ck j k) as [k'|]; [|done]. destruct (cv j v) as [v'|]; [|done].
  specialize (IH (S j)). destruct (clones ck cv (S j) l) as [l1 b]. simpl in Hc. by rewrite IH.
Qed.

Lemma on_watched_eq {A} (f : M (watched K V) A) (j : nat) s : on_watched f (j, s) = ((f s).1, (j, (f s).2)).
Proof. unfold on_watched, zoom. cbn [snd fst]. by destruct (f s). Qed.

Lemma wclone_box_spec e src ck cv s : forall fuel j log m0 ns, sreadable src s -> pheight s < fuel -> hrep m0 ns ->
  exists r j' log' m', wclone_box bad e src ck cv fuel (rootp s) (j, (log, m0)) = (r, (j', (log', m'))) /\
  let c := cloned ck cv j (tree_preorder (erase s)) in
  match r with
  | Ret y => clone_box e src ck cv fuel (rootp s) (j, m0) = (Ret y, (j', m')) /\ log' = log
  | Panic p => p = PClone /\ tree_clone ck cv j (erase s) = None /\ (clone_box e src ck cv fuel (rootp s) (j, m0)).1 = Panic PClone /\
      hrep m' ns /\ bads c = 0 /\ exists d, log' = log ++ d /\ d ≡ₚ c
  | Abort => (clone_box e src ck cv fuel (rootp s) (j, m0)).1 = Abort \/
             (tree_clone ck cv j (erase s) = None /\ 0 < bads c)
  | _ => False
  end.
Proof.
  induction s as [|l IHl p k v r IHr]; intros [|fuel] j log m0 ns Hrd Hf H; simpl in Hf; try lia; cbn [wclone_box clone_box rootp].
  { eexists _, _, _, _. by split; [reflexivity|]. }
  assert (Hpk : peek src p = Ret (mkInner k v (rootp l) (rootp r))) by (by eapply sreadable_root).
  rewrite (bind_step (slift (peek src p)) _ _ (Ret (mkInner k v (rootp l) (rootp r))) (j, (log, m0))) by (by rewrite Hpk).
  rewrite (bind_step (slift (peek src p)) _ _ (Ret (mkInner k v (rootp l) (rootp r))) (j, m0)) by (by rewrite Hpk).
  rewrite (bind_step sget _ (j, (log, m0)) (Ret (j, (log, m0))) (j, (log, m0))) by done.
  rewrite (bind_step sget _ (j, m0) (Ret (j, m0)) (j, m0)) by done.
  cbn [fst snd n_key n_value n_left n_right erase tree_clone tree_preorder cloned].
  destruct (ck j k) as [k'|].
  2:{ eexists _, _, _, _. split; [reflexivity|]. cbn. split_and!; try done. exists []. by rewrite app_nil_r. }
  destruct (cv j v) as [v'|].
  2:{ unfold wunwinding. cbn [sfail]. rewrite on_watched_eq.
      destruct (wdestroy_eq true (inl k') log m0) as (r1 & log1 & He & Hd). rewrite He. cbn [fst snd].
      destruct r1 as [u|q| |ub|]; try done.
      - destruct Hd as [-> Hu]. eexists _, _, _, _. split; [reflexivity|]. cbn [fst]. split_and!; try done.
        + destruct u; cbn in Hu |- *; lia.
        + by exists [inl k'].
      - eexists _, _, _, _. split; [reflexivity|]. right. split; [done|]. cbn in Hd |- *. lia. }
  rewrite (bind_step (smod _) _ (j, (log, m0)) (Ret tt) (S j, (log, m0))) by done.
  rewrite (bind_step (smod _) _ (j, m0) (Ret tt) (S j, m0)) by done.
  pose proof (tree_clone_clones ck cv (erase l) (S j)) as Hcl.
  destruct (IHl fuel (S j) log m0 ns ltac:(by eapply sreadable_l) ltac:(lia) H) as (r1 & j1 & log1 & m1 & He1 & Hc1).
  clear IHl. unfold wunwinding at 1. rewrite (bind_step _ _ _ _ _ He1). cbn zeta in Hc1.
  pose proof (clone_box_spec e src ck cv l fuel (S j) m0 ns ltac:(by eapply sreadable_l) ltac:(lia) H) as Hs1. unfold wp in Hs1.
  destruct r1 as [y1|q1| |ub1|]; try done.
  2:{ destruct Hc1 as (-> & Htc & Hcb & Hh & Hb & d & -> & Hd). rewrite Htc in *. rewrite (cloned_part _ _ _ _ _ Hcl).
      rewrite on_watched_eq. destruct (wdestroy_all_eq [inr v'; inl k'] true (log ++ d) m1) as (r2 & log2 & He2 & Hd2). rewrite He2. cbn [fst snd].
      destruct (clone_box e src ck cv fuel (rootp l) (S j, m0)) as [rc sc] eqn:Hcbe. cbn [fst] in Hcb. subst rc.
      rewrite (bind_step _ _ _ _ _ Hcbe).
      destruct r2 as [u|q| |ub|]; try done.
      - destruct Hd2 as [-> Hu]. eexists _, _, _, _. split; [reflexivity|]. split_and!; try done.
        + cbn in Hu |- *. destruct u; cbn in Hu; lia.
        + exists (d ++ [inr v'; inl k']). split; [by rewrite app_assoc|]. rewrite Hd. solve_Permutation.
      - eexists _, _, _, _. split; [reflexivity|]. right. split; [done|]. cbn in Hd2 |- *. lia. }
  2:{ destruct (clone_box e src ck cv fuel (rootp l) (S j, m0)) as [rc sc] eqn:Hcbe.
      eexists _, _, _, _. split; [reflexivity|]. destruct Hc1 as [Ha|[Htc Hb]].
      - left. cbn [fst] in Ha. subst rc. by rewrite (bind_step _ _ _ _ _ Hcbe).
      - right. rewrite Htc in *. split; [done|]. rewrite (cloned_part _ _ _ _ _ Hcl). cbn. lia. }
  destruct Hc1 as [Hcb1 ->]. rewrite Hcb1 in Hs1. rewrite (bind_step _ _ _ _ _ Hcb1).
  destruct Hs1 as (l' & -> & Htc1 & Hj1 & H1 & Hq1). cbn [fst snd] in Hj1, H1, Hq1. rewrite Htc1 in Hcl |- *.
  destruct (cloned_all _ _ _ _ _ Hcl) as [_ Hca]. rewrite Hca.
  assert (Hlen : S j + length (tree_preorder (erase l)) = j1).
  { rewrite Hj1, <- erase_size. f_equal. apply Permutation_length, tree_pre_in. }
  rewrite Hlen.
  pose proof (box_opt_spec e m1 _ l' ns H1 (reflexivity _)) as Hbx. unfold wp in Hbx.
  destruct (box_opt e (val l') m1) as [rb1 m2] eqn:Hb1.
  assert (Hz1 : zoom snd (fun (m : simple K V) (s : nat * simple K V) => (s.1, m)) (box_opt e (val l')) (j1, m1) = (rb1, (j1, m2))).
  { unfold zoom. cbn [snd fst]. by rewrite Hb1. }
  rewrite (bind_step _ _ _ _ _ Hz1).
  rewrite (bind_step (on_watched (on_map (box_opt e (val l')))) _ _ rb1 (j1, (log, m2))).
  2:{ by rewrite on_watched_eq, on_map_eq, Hb1. }
  destruct rb1 as [lb|pb| |ub|]; try done.
  2:{ eexists _, _, _, _. split; [reflexivity|]. by left. }
  destruct Hbx as (q & Hq & -> & H2 & _).
  destruct (IHr fuel j1 log m2 _ ltac:(by eapply sreadable_r) ltac:(lia) H2) as (r3 & j3 & log3 & m3 & He3 & Hc3).
  clear IHr. cbn zeta in Hc3.
  pose proof (clone_box_spec e src ck cv r fuel j1 m2 _ ltac:(by eapply sreadable_r) ltac:(lia) H2) as Hs3. unfold wp in Hs3.
  assert (Hlen2 : S j + length (tree_inorder (erase l)) = j1) by (by rewrite Hj1, <- erase_size).
  rewrite Hlen2.
  destruct r3 as [y3|q3| |ub3|]; try done.
  - rewrite (bind_step _ _ _ (Ret y3) (j3, (log3, m3))).
    2:{ unfold wunwinding. by rewrite He3. }
    destruct Hc3 as [Hcb3 ->]. rewrite Hcb3 in Hs3. rewrite (bind_step _ _ _ _ _ Hcb3).
    destruct Hs3 as (r' & -> & Htc3 & Hj3 & H3 & Hq3). cbn [fst snd] in Hj3, H3.
    pose proof (box_opt_spec e m3 _ r' _ H3 (reflexivity _)) as Hbx. unfold wp in Hbx.
    destruct (box_opt e (val r') m3) as [rb3 m4] eqn:Hb3.
    assert (Hz3 : zoom snd (fun (m : simple K V) (s : nat * simple K V) => (s.1, m)) (box_opt e (val r')) (j3, m3) = (rb3, (j3, m4))).
    { unfold zoom. cbn [snd fst]. by rewrite Hb3. }
    rewrite (bind_step _ _ _ _ _ Hz3).
    rewrite (bind_step (on_watched (on_map (box_opt e (val r')))) _ _ rb3 (j3, (log, m4))).
    2:{ by rewrite on_watched_eq, on_map_eq, Hb3. }
    destruct rb3 as [rb|pb| |ub|]; try done.
    + eexists _, _, _, _. by split; [reflexivity|].
    + eexists _, _, _, _. split; [reflexivity|]. by left.
  - destruct Hc3 as (-> & Htc & Hcb & Hh & Hb & d & -> & Hd).
    destruct (clone_box e src ck cv fuel (rootp r) (j1, m2)) as [rc sc] eqn:Hcbe. cbn [fst] in Hcb. subst rc.
    rewrite (bind_step _ _ _ _ _ Hcbe).
    assert (Hfuel : pheight (reloc q l') < simple_fuel m3).
    { unfold simple_fuel. rewrite (hrep_size _ _ Hh), app_length. pose proof (pheight_size (reloc q l')). unfold tsize in *. lia. }
    destruct (wglue_spec (reloc q l') (simple_fuel m3) true (log ++ d) m3 _ ns Hh (reflexivity _) Hfuel) as (r4 & log4 & m4 & He4 & Hd4 & Hm4).
    assert (Hw : wunwinding (on_watched (let! s := sget in wglue bad (simple_fuel s.2) true (rootp (reloc q l'))))
       (wclone_box bad e src ck cv fuel (rootp r)) (j1, (log, m2)) =
       (match r4 with Ret _ => Panic PClone | Panic p => Panic p | Abort => Abort | UB u => UB u | Diverge => Diverge end, (j3, (log4, m4)))).
    { unfold wunwinding. rewrite He3, on_watched_eq. rewrite (bind_step sget _ _ (Ret (log ++ d, m3)) (log ++ d, m3)) by done.
      cbn [fst snd]. rewrite He4. by destruct r4. }
    rewrite (bind_step _ _ _ _ _ Hw). clear Hw.
    assert (Hcon : contents (reloc q l') = owned (tree_preorder (erase l'))) by (unfold contents; by rewrite erase_reloc).
    rewrite Hcon in Hd4.
    destruct r4 as [u4|q4| |ub4|]; try done.
    + destruct Hd4 as [-> Hu4].
      pose proof (drop_box_spec (reloc q l') (simple_fuel m3) m3 _ ns Hh (reflexivity _) Hfuel) as Hdb. unfold wp in Hdb.
      rewrite (Hm4 _ eq_refl) in Hdb. destruct Hdb as [H4 _].
      rewrite on_watched_eq. destruct (wdestroy_all_eq [inr v'; inl k'] true ((log ++ d) ++ owned (tree_preorder (erase l'))) m4) as (r5 & log5 & He5 & Hd5).
      rewrite He5. cbn [fst snd].
      destruct r5 as [u|q5| |ub|]; try done.
      * destruct Hd5 as [-> Hu]. eexists _, _, _, _. split; [reflexivity|]. cbn [fst]. split_and!; try done.
        -- rewrite Htc. done.
        -- cbn [bads]. rewrite bads_app, Hb. destruct u, u4; cbn in Hu, Hu4 |- *; lia.
        -- exists (d ++ owned (tree_preorder (erase l')) ++ [inr v'; inl k']). split; [by rewrite <- !app_assoc|].
           rewrite Hd. solve_Permutation.
      * eexists _, _, _, _. split; [reflexivity|]. right. rewrite Htc. split; [done|]. cbn in Hd5 |- *. lia.
    + eexists _, _, _, _. split; [reflexivity|]. right. rewrite Htc. split; [done|]. cbn in Hd4. cbn [bads]. rewrite bads_app. lia.
  - destruct (clone_box e src ck cv fuel (rootp r) (j1, m2)) as [rc sc] eqn:Hcbe.
    rewrite (bind_step _ _ _ Abort (j3, (log3, m3))).
    2:{ unfold wunwinding. by rewrite He3. }
    eexists _, _, _, _. split; [reflexivity|]. destruct Hc3 as [Ha|[Htc Hb]].
    + left. cbn [fst] in Ha. subst rc. by rewrite (bind_step _ _ _ _ _ Hcbe).
    + right. rewrite Htc. split; [done|]. cbn [bads]. rewrite bads_app. lia.
Qed.

Lemma wclone_spec e ck cv log m t : simple_rep m t ->
  exists r log' m', wclone bad e ck cv m log = (r, (log', m')) /\
  let c := cloned ck cv 0 (tree_preorder (erase t)) in
  match r with
  | Ret _ => simple_clone e ck cv m = (Ret tt, m') /\ log' = log
  | Panic p => p = PClone /\ (simple_clone e ck cv m).1 = Panic PClone /\ s_mem m' = ∅ /\ bads c = 0 /\
      exists d, log' = log ++ d /\ d ≡ₚ c
  | Abort => (simple_clone e ck cv m).1 = Abort \/ ((simple_clone e ck cv m).1 = Panic PClone /\ 0 < bads c)
  | _ => False
  end.
Proof.
  intros H. unfold wclone, simple_clone. rewrite (simple_root_ret _ _ H).
  destruct (wclone_box_spec e m ck cv t (simple_fuel m) 0 log simple_new [] (simple_readable _ _ H) (simple_fuel_height _ _ H)
    ltac:(split; [constructor|done])) as (r & j & log' & m' & He & Hc). rewrite He. cbn zeta in Hc.
  pose proof (clone_box_spec e m ck cv t (simple_fuel m) 0 simple_new [] (simple_readable _ _ H) (simple_fuel_height _ _ H)
    ltac:(split; [constructor|done])) as Hs. unfold wp in Hs.
  eexists _, _, _. split; [reflexivity|]. cbn zeta. cbn [fst snd].
  destruct r as [y|p| |u|]; cbn [rmap]; try done.
  - destruct Hc as [-> ->]. by destruct y.
  - destruct Hc as (-> & _ & Hcb & Hh & Hb & Hd). split; [done|].
    destruct (clone_box e m ck cv (simple_fuel m) (rootp t) (0, simple_new)) as [rc [jc mc]]. cbn [fst] in Hcb. subst rc.
    split_and!; try done. destruct Hh as [_ Hh]. cbn [set_len_field s_mem]. by rewrite Hh.
  - destruct (clone_box e m ck cv (simple_fuel m) (rootp t) (0, simple_new)) as [rc [jc mc]]. cbn [fst] in *.
    destruct Hc as [->|[Htc Hb]]; [by left|]. destruct rc as [y|p| |u|]; try done.
    + destruct Hs as (x & _ & Hx & _). by rewrite Htc in Hx.
    + destruct Hs as [?|[[= ->] _]]; [done|]. by right.
    + by left.
Qed.

(** ** Calls *)

Lemma outcome_done t log s1 b g n t' d : simple_rep s1.2 t' -> s1.1 = log ++ d -> contents t' ++ d ++ b ≡ₚ contents t ++ g ->
  bads d = n -> outcome t log s1 b g n.
Proof. intros ? ? ? ?. exists t', d, []. split_and!; try done. by rewrite app_nil_r. Qed.

Lemma wexec_spec e c log m t r s1 : simple_rep m t -> simple_has c = true ->
  wexec leaky bad e c (log, m) = (r, s1) -> r <> Abort ->
  exists c' r' g, acts_as c r c' r' /\ simple_exec e c' m = (r', s1.2) /\ took (tree_preorder (erase t)) c' r' g /\
    outcome t log s1 (handed c r) g (drop_panics r).
Proof.
  intros H Hc He Hna. pose proof (simple_nodup _ _ H) as Hnd.
  destruct c as [o k v|o|o|o|o|o|o w|o w| | | | |n| |os it|d n|d evs|path|path w| |os ck cv]; try done; cbn [wexec] in He.
  - (* insert *)
    destruct (winsert leaky bad e o k v (log, m)) as [r1 s2] eqn:Hw. rewrite (bind_step _ _ _ _ _ Hw) in He.
    assert (Hna1 : r1 <> Abort) by (intros ->; injection He as <- <-; done).
    destruct (winsert_spec e o k v log m t r1 _ H Hw Hna1) as (r0 & t1 & d & L & Hi & Hr & Hd & HL & Hp & Hb & Hcase).
    exists (OInsert o k v), (rmap OutValue r0), [inl k; inr v].
    assert (Hex : simple_exec e (OInsert o k v) m = (rmap OutValue r0, s2.2)).
    { cbn [simple_exec]. rewrite (bind_step _ _ _ _ _ Hi). by destruct r0. }
    assert (Hs : s1 = s2) by (destruct r1; by injection He as <- <-). subst s1.
    destruct r1 as [prev|p| |u|]; try done; injection He as <-.
    + subst r0. split_and!; [by left|done|done|]. exists t1, d, L. by split_and!.
    + split_and!; try done.
      * destruct p; try (destruct Hcase as (-> & _); by left). destruct Hcase as (y & ->). right. split_and!; try done. by eexists.
      * exists t1, d, L. by split_and!.
  - (* remove *)
    destruct (wremove leaky bad e o (log, m)) as [r1 s2] eqn:Hw. rewrite (bind_step _ _ _ _ _ Hw) in He.
    assert (Hna1 : r1 <> Abort) by (intros ->; injection He as <- <-; done).
    destruct (wremove_spec e o log m t r1 _ H Hw Hna1) as (r0 & Hi & Ho & Hcase).
    assert (Hex : simple_exec e (ORemove o) m = (rmap OutValue r0, s2.2)).
    { cbn [simple_exec]. rewrite (bind_step _ _ _ _ _ Hi). by destruct r0. }
    assert (Hs : s1 = s2) by (destruct r1; by injection He as <- <-). subst s1.
    exists (ORemove o), (rmap OutValue r0), []. destruct r1 as [prev|p| |u|]; try done; injection He as <-.
    + subst r0. split_and!; [by left|done|done|]. by destruct prev.
    + split_and!; [|done| |done].
      * destruct p; try (rewrite Hcase; by left). destruct Hcase as (y & ->). right. split_and!; try done. by eexists.
      * by destruct r0.
  - (* remove_entry *)
    rewrite on_map_eq in He. destruct (simple_exec e (ORemoveEntry o) m) as [r1 m1] eqn:Hex. injection He as <- <-.
    exists (ORemoveEntry o), r1, []. cbn [fst snd]. split_and!; [by left|done|by destruct r1|].
    cbn [simple_exec] in Hex. pose proof (simple_remove_entry_spec e o m t H) as Hs. unfold wp in Hs.
    destruct (simple_remove_entry e o m) as [r0 m2] eqn:Hi. rewrite (bind_step _ _ _ _ _ Hi) in Hex.
    destruct r0 as [y|p| |u|]; try done; injection Hex as <- <-.
    + destruct Hs as (t' & t2 & x & Htr & -> & Het & Hr). apply remove_contents in Htr.
      assert (Hct : contents t2 = contents t') by (unfold contents; by rewrite Het). rewrite Hct in Htr.
      eapply (outcome_done _ _ _ _ _ _ t' []); try done; [by rewrite app_nil_r|]. rewrite <- Htr.
      destruct x as [[q [k v]]|]; simpl; by rewrite !app_nil_r.
    + destruct Hs as [?|([= ->] & -> & _)]; [done|]. by apply outcome_idle.
    + done.
  - (* get *)
    rewrite on_map_eq in He. destruct (simple_exec e (OGet o) m) as [r1 m1] eqn:Hex. injection He as <- <-.
    exists (OGet o), r1, []. cbn [fst snd]. split_and!; [by left|done|by destruct r1|].
    destruct (simple_exec_cases e _ m t _ _ H Hc Hex) as [[-> _]|(t' & Hr & Hst & Hret)]; [done|].
    assert (m1 = m) by (revert Hex; clear; cbv beta iota delta [simple_exec sbind sget slift sret]; case_match; congruence). subst m1.
    cbn in Hst. assert (Hd0 : handed (OGet o) r1 = [] /\ drop_panics r1 = 0).
    { injection Hst as <- _. by destruct (otree_find o 0 (erase t)). }
    destruct Hd0 as [-> ->]. by apply outcome_idle.
  - rewrite on_map_eq in He. destruct (simple_exec e (OGetEntry o) m) as [r1 m1] eqn:Hex. injection He as <- <-.
    exists (OGetEntry o), r1, []. cbn [fst snd]. split_and!; [by left|done|by destruct r1|].
    destruct (simple_exec_cases e _ m t _ _ H Hc Hex) as [[-> _]|(t' & Hr & Hst & Hret)]; [done|].
    assert (m1 = m) by (revert Hex; clear; cbv beta iota delta [simple_exec sbind sget slift sret]; case_match; congruence). subst m1.
    cbn in Hst. assert (Hd0 : handed (OGetEntry o) r1 = [] /\ drop_panics r1 = 0).
    { injection Hst as <- _. by destruct (otree_find o 0 (erase t)). }
    destruct Hd0 as [-> ->]. by apply outcome_idle.
  - rewrite on_map_eq in He. destruct (simple_exec e (OContains o) m) as [r1 m1] eqn:Hex. injection He as <- <-.
    exists (OContains o), r1, []. cbn [fst snd]. split_and!; [by left|done|by destruct r1|].
    destruct (simple_exec_cases e _ m t _ _ H Hc Hex) as [[-> _]|(t' & Hr & Hst & Hret)]; [done|].
    assert (m1 = m) by (revert Hex; clear; cbv beta iota delta [simple_exec sbind sget slift sret]; case_match; congruence). subst m1.
    cbn in Hst. assert (Hd0 : handed (OContains o) r1 = [] /\ drop_panics r1 = 0).
    { injection Hst as <- _. by destruct (otree_find o 0 (erase t)). }
    destruct Hd0 as [-> ->]. by apply outcome_idle.
  - (* get_mut *)
    rewrite (bind_step sget _ _ (Ret (log, m)) (log, m)) in He by done. cbn [snd] in He.
    destruct (simple_exec e (OGetMut o w) m) as [rx mx] eqn:Hsx0. pose proof Hsx0 as Hsx. cbn [simple_exec] in Hsx.
    rewrite (bind_step sget _ _ (Ret m) m) in Hsx by done. rewrite (simple_get_mut_eq _ _ _ H) in He, Hsx.
    destruct (tget_cases o t 0) as [[y Hy]|Hy]; rewrite Hy in He, Hsx.
    + rewrite (bind_step (slift (rmap (fmap fst) (Ret y))) _ _ (Ret (fst <$> y)) (log, m)) in He by done.
      rewrite (bind_step (slift (rmap (fmap fst) (Ret y))) _ _ (Ret (fst <$> y)) m) in Hsx by done.
      destruct y as [[p [k v]]|]; cbn [fmap option_fmap option_map fst] in He, Hsx.
      * pose proof (tget_in _ _ _ _ Hy) as Hin. pose proof Hin as Hn. rewrite ppre_nodes in Hn.
        apply elem_of_list_fmap in Hn as ([q n] & Heq & Hn). simpl in Heq. injection Heq as -> -> ->.
        assert (Hpk : peek m q = Ret n) by (by apply (simple_readable _ _ H)).
        rewrite (bind_step (slift (peek m q)) _ _ (Ret n) (log, m)) in He by (by rewrite Hpk).
        rewrite (bind_step (slift (peek m q)) _ _ (Ret n) m) in Hsx by (by rewrite Hpk).
        destruct (wwrite_spec q (n_key n) (n_value n) w log m t H Hin) as (m1 & log' & Hpo & Hww & Hlg & Ho). cbn zeta in Hww, Ho.
        rewrite (bind_step _ _ _ _ _ Hww) in He. rewrite (bind_step _ _ _ _ _ Hpo) in Hsx.
        exists (OGetMut o w), (Ret (OutValue (Some (n_value n)))), (match w with Some w => [inr w] | None => [] end).
        assert (s1 = (log', m1)) as -> by (destruct w; [destruct (bad (inr (n_value n)))|]; by injection He as <- <-).
        split_and!; [| |by destruct w|].
        -- destruct w as [w|]; [destruct (bad (inr (n_value n)))|]; injection He as <-; [right|by left|by left]. split_and!; try done. by eexists.
        -- by rewrite Hsx0, <- Hsx.
        -- destruct w as [w|]; [destruct (bad (inr (n_value n)))|]; injection He as <-; done.
      * injection He as <- <-. exists (OGetMut o w), (Ret (OutValue None)), []. split_and!; [by left|by rewrite Hsx0, <- Hsx|by destruct w|by apply outcome_idle].
    + rewrite (bind_step (slift (rmap (fmap fst) (Panic PCmp))) _ _ (Panic PCmp) (log, m)) in He by done.
      rewrite (bind_step (slift (rmap (fmap fst) (Panic PCmp))) _ _ (Panic PCmp) m) in Hsx by done. injection He as <- <-.
      exists (OGetMut o w), (Panic PCmp), []. split_and!; [by left|by rewrite Hsx0, <- Hsx|done|by apply outcome_idle].
  - injection He as <- <-. exists OLen, (Ret (OutNum (simple_len m))), []. split_and!; [by left|done|done|by apply outcome_idle].
  - rewrite on_map_eq in He. cbn [simple_exec] in He. rewrite (bind_step sget _ _ (Ret m) m) in He by done.
    rewrite (simple_is_empty_eq e _ _ H) in He. injection He as <- <-.
    eexists OIsEmpty, _, []. split_and!; [left; done| |done|by apply outcome_idle].
    cbn [simple_exec]. rewrite (bind_step sget _ _ (Ret m) m) by done. by rewrite (simple_is_empty_eq e _ _ H).
  - (* clear *)
    destruct (wclear_spec log m t H) as (r1 & log' & m' & Hw & Hcl). rewrite (bind_step _ _ _ _ _ Hw) in He.
    exists OClear, (Ret OutUnit), []. destruct r1 as [[]|p| |u|]; try done; injection He as <- <-.
    + destruct Hcl as (Hb & -> & Hcl & Hr). split_and!; [by left|cbn [simple_exec]; by rewrite (bind_step _ _ _ _ _ Hcl)|done|].
      by eapply (outcome_done _ _ _ _ _ _ Leaf (contents t)).
    + destruct Hcl as (-> & Hb & -> & Hcl & Hr). split_and!; [right; split_and!; try done; by eexists|cbn [simple_exec]; by rewrite (bind_step _ _ _ _ _ Hcl)|done|].
      by eapply (outcome_done _ _ _ _ _ _ Leaf (contents t)).
    + done.
  - (* extend *)
    unfold wextend in He. destruct (winsert_all leaky bad e os 0 (ui_items it) (ui_panics it) (log, m)) as [r1 s2] eqn:Hw.
    rewrite (bind_step _ _ _ _ _ Hw) in He.
    assert (Hna1 : r1 <> Abort) by (intros ->; injection He as <- <-; done).
    destruct (winsert_all_spec e os (ui_panics it) (ui_items it) 0 log m t r1 s2 H Hw Hna1) as (n & Ho & Hcase).
    assert (s1 = s2) as -> by (destruct r1; by injection He as <- <-).
    destruct r1 as [[]|p| |u|]; try done; injection He as <-.
    + destruct Hcase as (Hpan & -> & Hs). rewrite firstn_all in Ho.
      exists (OExtend os it), (Ret OutUnit), (owned (ui_items it)). split_and!; [by left| |done|done].
      cbn [simple_exec]. unfold simple_extend. by rewrite (bind_step _ _ _ _ _ Hs).
    + assert (Hgo : (simple_insert_all e os 0 (ui_items it) (ui_panics it) m = (Panic p, s2.2) /\
        ((p = PIter /\ ui_panics it = true /\ n = length (ui_items it)) \/
         (p = PCmp /\ exists i k v a k0, ui_items it !! i = Some (k, v) /\ os (0 + i) k a k0 = None /\ n = S i))) ->
        exists c' r' g, acts_as (OExtend os it) (Panic p) c' r' /\ simple_exec e c' m = (r', s2.2) /\ took (tree_preorder (erase t)) c' r' g /\
          outcome t log s2 (handed (OExtend os it) (Panic p)) g (drop_panics (Panic (A := out K V) p))).
      { intros [Hs Hp]. exists (OExtend os it), (Panic p), (owned (take n (ui_items it))). split_and!; [by left| | |done].
        - cbn [simple_exec]. unfold simple_extend. by rewrite (bind_step _ _ _ _ _ Hs).
        - cbn [took taken]. exists n. split; [|done]. destruct Hp as [(-> & ? & ?)|(-> & i & k & v & a & k0 & ? & ? & ?)]; [done|].
          exists i, k, v, a, k0. done. }
      destruct p; try (by apply Hgo). clear Hgo.
      exists (OExtend os (mkUserIter (ui_lo it) (ui_hi it) (take n (ui_items it)) false)), (Ret OutUnit), (owned (take n (ui_items it))).
      split_and!; [right; split_and!; [done|by exists n|by eexists]| |done|done].
      cbn [simple_exec]. unfold simple_extend. cbn [ui_items ui_panics]. by rewrite (bind_step _ _ _ _ _ Hcase).
  - (* iter *)
    rewrite on_map_eq in He. destruct (simple_exec e (OIter d n) m) as [r1 m1] eqn:Hex. injection He as <- <-.
    exists (OIter d n), r1, []. cbn [fst snd]. split_and!; [by left|done|by destruct r1|].
    destruct (simple_exec_cases e _ m t _ _ H Hc Hex) as [[-> _]|(t' & Hr & Hst & Hret)]; [done|].
    cbn in Hst. injection Hst as <- Het. eapply (outcome_done _ _ _ _ _ _ t' []); try done; [by rewrite app_nil_r|].
    unfold contents. by rewrite Het.
  - (* iter_mut *)
    rewrite on_map_eq in He. cbn [simple_exec] in He. unfold slift in He. cbn [fst snd] in He. rewrite simple_mut_run_eq in He.
    destruct (calls_next evs) eqn:Hn; injection He as <- <-.
    + exists (OIterMut d evs), (Panic PTodo), []. split_and!; [by left|cbn [simple_exec]; unfold slift; by rewrite simple_mut_run_eq, Hn|done|by apply outcome_idle].
    + exists (OIterMut d evs), (Ret (OutMut [] 0%nat)), []. split_and!; [by left|cbn [simple_exec]; unfold slift; by rewrite simple_mut_run_eq, Hn| |by apply outcome_idle].
      cbn. revert Hn. clear. induction evs as [|[|j v] evs IH]; intros Hn; [done|done|]. cbn in Hn |- *. by apply IH.
  - (* walk *)
    rewrite on_map_eq in He. destruct (simple_exec e (OWalk path) m) as [r1 m1] eqn:Hex. injection He as <- <-.
    exists (OWalk path), r1, []. cbn [fst snd]. split_and!; [by left|done|by destruct r1|].
    destruct (simple_exec_cases e _ m t _ _ H Hc Hex) as [[-> _]|(t' & Hr & Hst & Hret)]; [done|].
    cbn in Hst. injection Hst as <- Het. eapply (outcome_done _ _ _ _ _ _ t' []); try done; [by rewrite app_nil_r|].
    unfold contents. by rewrite Het.
  - (* walk_mut *)
    rewrite (bind_step sget _ _ (Ret (log, m)) (log, m)) in He by done. cbn [snd] in He.
    destruct (simple_exec e (OWalkMut path w) m) as [rx mx] eqn:Hsx0. pose proof Hsx0 as Hsx. cbn [simple_exec] in Hsx.
    rewrite (bind_step sget _ _ (Ret m) m) in Hsx by done. rewrite (simple_root_ret _ _ H) in He, Hsx.
    rewrite (simple_walk_eq m path t (simple_readable _ _ H)) in He, Hsx.
    rewrite (bind_step (slift (Ret _)) _ _ (Ret (rootp (tat path t))) (log, m)) in He by done.
    rewrite (bind_step (slift (Ret _)) _ _ (Ret (rootp (tat path t))) m) in Hsx by done.
    pose proof (tat_sreadable m path t (simple_readable _ _ H)) as Hrd.
    assert (Hin : forall z, z ∈ ppre (tat path t) -> z ∈ ppre t).
    { clear. revert t. induction path as [|[] path IH]; intros [|l p k v r] z; simpl; try done; intros Hz%IH; right; apply elem_of_app; auto. }
    destruct (tat path t) as [|l p k v r0] eqn:Hat; cbn [rootp] in He, Hsx.
    + injection He as <- <-. exists (OWalkMut path w), (Ret (OutNode None)), []. split_and!; [by left|by rewrite Hsx0, <- Hsx|by destruct w|by apply outcome_idle].
    + pose proof (simple_show_eq _ _ _ _ _ _ Hrd) as Hsh.
      rewrite (bind_step (slift (simple_show m p)) _ _ (Ret (k, v, nonleaf (erase l), nonleaf (erase r0))) (log, m)) in He by (by rewrite Hsh).
      rewrite (bind_step (slift (simple_show m p)) _ _ (Ret (k, v, nonleaf (erase l), nonleaf (erase r0))) m) in Hsx by (by rewrite Hsh).
      assert (Hinp : (p, (k, v)) ∈ ppre t) by (apply Hin; left).
      destruct (wwrite_spec p k v w log m t H Hinp) as (m1 & log' & Hpo & Hww & Hlg & Ho). cbn zeta in Hww, Ho.
      rewrite (bind_step _ _ _ _ _ Hww) in He. rewrite (bind_step _ _ _ _ _ Hpo) in Hsx.
      exists (OWalkMut path w), (Ret (OutNode (Some (k, v, nonleaf (erase l), nonleaf (erase r0))))), (match w with Some w => [inr w] | None => [] end).
      assert (s1 = (log', m1)) as -> by (destruct w; [destruct (bad (inr v))|]; by injection He as <- <-).
      split_and!; [| |by destruct w|].
      * destruct w as [w|]; [destruct (bad (inr v))|]; injection He as <-; [right|by left|by left]. split_and!; try done. by eexists.
      * by rewrite Hsx0, <- Hsx.
      * destruct w as [w|]; [destruct (bad (inr v))|]; injection He as <-; done.
  - (* debug *)
    rewrite on_map_eq in He. destruct (simple_exec e ODebug m) as [r1 m1] eqn:Hex. injection He as <- <-.
    exists ODebug, r1, []. cbn [fst snd]. split_and!; [by left|done|by destruct r1|].
    destruct (simple_exec_cases e _ m t _ _ H Hc Hex) as [[-> _]|(t' & Hr & Hst & Hret)]; [done|].
    cbn in Hst. injection Hst as <- Het. eapply (outcome_done _ _ _ _ _ _ t' []); try done; [by rewrite app_nil_r|].
    unfold contents. by rewrite Het.
  - (* clone *)
    unfold sbind, wclone_and_replace in He. cbn [fst snd] in He.
    destruct (wclone_spec e ck cv log m t H) as (r1 & log1 & m2 & Hw & Hcase). rewrite Hw in He. cbn zeta in Hcase.
    pose proof (simple_clone_spec e ck cv m t H) as Hs.
    set (c0 := cloned ck cv 0 (tree_preorder (erase t))) in *.
    pose proof (tree_clone_clones ck cv (erase t) 0) as Hcl.
    exists (OClone os ck cv).
    destruct r1 as [[]|p| |u|]; try done.
    + destruct Hcase as [Hcn ->]. rewrite Hcn in Hs. destruct Hs as (t2 & Hr2 & Htc). rewrite Htc in Hcl.
      destruct (cloned_all _ _ _ _ _ Hcl) as [Hc0 _].
      destruct (wdrop_map_spec false log m t H) as (r3 & log3 & m3 & Hwd & Hd & Hm3). rewrite Hwd in He.
      destruct r3 as [u|p| |ub|]; try done.
      2:{ by injection He as <- <-. }
      rewrite settle_eq in He. destruct Hd as [-> Hu]. destruct (Hm3 u eq_refl) as (Hdr & _ & _).
      exists (Ret OutUnit), c0.
      assert (s1 = (log ++ contents t, m2)) as -> by (destruct u; by injection He as <- <-).
      split_and!; [|cbn [simple_exec snd]; by rewrite Hcn, Hdr|done|].
      * destruct u; injection He as <-; [right|by left]. split_and!; try done. by eexists.
      * eapply (outcome_done _ _ _ _ _ _ t2 (contents t)); try done.
        -- unfold contents at 1. rewrite <- Hc0. fold c0. destruct u; injection He as <-; cbn [handed returned]; rewrite app_nil_r; apply Permutation_app_comm.
        -- destruct u; injection He as <-; cbn in Hu |- *; lia.
    + destruct Hcase as (-> & Hcn & _ & Hb & d & -> & Hd). injection He as <- <-.
      exists (Panic PClone), c0. split_and!; [by left| |done|].
      * cbn [simple_exec]. destruct (simple_clone e ck cv m) as [rc mc]. cbn [fst] in Hcn. by subst rc.
      * eapply (outcome_done _ _ _ _ _ _ t d); try done; [cbn [handed]; by rewrite app_nil_r, Hd|].
        rewrite (bads_perm _ _ Hd). done.
    + by injection He as <- <-.
Qed.

End drops.

(** ** Histories *)

Section history.
Context {K V : Type}.
Variable leaky : bool.
Implicit Types t : ptree K V.
Implicit Types m : simple K V.
Implicit Types log : list (K + V).

Lemma acts_has (c c' : op K V) r r' : acts_as c r c' r' -> simple_has c = true -> simple_has c' = true.
Proof. intros [[-> _]|(_ & Hc & _)] H; [done|]. destruct c; cbn in Hc; try (by subst c'). by destruct Hc as (n & ->). Qed.
Lemma acts_legal (cmp : K -> K -> comparison) (c c' : op K V) r r' : acts_as c r c' r' -> legal cmp c -> legal cmp c'.
Proof. intros [[-> _]|(_ & Hc & _)] H; [done|]. destruct c; cbn in Hc; try (by subst c'). by destruct Hc as (n & ->). Qed.
Lemma acts_clone (c c' : op K V) r r' : acts_as c r c' r' -> no_clone c -> no_clone c'.
Proof. intros [[-> _]|(_ & Hc & _)] H; [done|]. destruct c; cbn in Hc; try (by subst c'). by destruct Hc as (n & ->). Qed.

Lemma wexec_defined bad e c log m t r s1 : simple_rep m t -> simple_has c = true -> wexec leaky bad e c (log, m) = (r, s1) ->
  defined r /\ (r <> Abort -> (exists x, r = Ret x) \/ exists p, r = Panic p).
Proof.
  intros H Hc He. assert (r = Abort \/ r <> Abort) as [->|Hna] by (destruct r; auto); [done|].
  destruct (wexec_spec leaky bad e c log m t r s1 H Hc He Hna) as (c' & r' & g & Ha & Hs & _).
  destruct (simple_exec_cases e c' m t r' _ H (acts_has _ _ _ _ Ha Hc) Hs) as [[-> _]|(t' & _ & _ & Hr)].
  - destruct Ha as [[-> <-]|(_ & _ & x & Hx)]; done.
  - destruct Ha as [[-> <-]|(-> & _)]; [|split; [done|eauto]]. split; [|done]. by destruct Hr as [[x ->]|[q ->]].
Qed.

Lemma wrun_spec e cs : forall log m t rs log' m', simple_rep m t -> Forall (fun c => simple_has c.2 = true) cs ->
  wrun leaky e cs (log, m) = (rs, (log', m')) ->
  Forall defined rs /\ (alive rs -> exists cs' rs' t', simple_run e cs' m = (rs', m') /\ all_act_as cs rs cs' rs' /\ alive rs' /\
    simple_rep m' t' /\ Forall (fun c => simple_has c = true) cs' /\
    (forall cmp, Forall (legal cmp) cs.*2 -> Forall (legal cmp) cs') /\
    (Forall no_clone cs.*2 -> exists G B L, ledger cs' rs' G B /\ leaked leaky (all_panics rs) L /\
       contents t' ++ log' ++ all_back cs rs ++ L ≡ₚ contents t ++ log ++ G)).
Proof.
  induction cs as [|[bad c] cs IH]; intros log m t rs log' m' H Hcs Hrun; cbn [wrun] in Hrun.
  - injection Hrun as <- <- <-. split; [constructor|]. intros _. exists [], [], t. split_and!; try done; [by constructor|].
    intros _. exists [], [], []. by split_and!.
  - apply Forall_cons in Hcs as [Hc Hcs]. cbn [snd] in Hc.
    destruct (wexec leaky bad e c (log, m)) as [r [log1 m1]] eqn:He.
    destruct (wexec_defined bad e c log m t r _ H Hc He) as [Hdef Hret].
    assert (r = Abort \/ r <> Abort) as [->|Hna] by (destruct r; auto).
    { injection Hrun as <- <- <-. split; [by constructor|]. intros Hal. apply Forall_cons in Hal as [? _]. done. }
    destruct (wexec_spec leaky bad e c log m t r _ H Hc He Hna) as (c' & r' & g & Ha & Hs & Htk & t1 & d & L & Hr1 & Hd & HL & Hp & Hb).
    cbn [fst snd] in *.
    destruct (wrun leaky e cs (log1, m1)) as [rs1 [log2 m2]] eqn:Hrun1.
    assert (rs = r :: rs1 /\ log' = log2 /\ m' = m2) as (-> & -> & ->).
    { destruct (Hret Hna) as [[x ->]|[q ->]]; injection Hrun as <- <- <-; done. }
    destruct (IH log1 m1 t1 rs1 log2 m2 Hr1 Hcs Hrun1) as [Hdefs Hrest]. split; [by constructor|].
    intros Hal. apply Forall_cons in Hal as [_ Hal].
    destruct (Hrest Hal) as (cs' & rs' & t' & Hs' & Ha' & Hal' & Hr' & Hhas & Hleg & Hled).
    assert (Hr'1 : (exists x, r' = Ret x) \/ exists p, r' = Panic p).
    { destruct Ha as [[_ ->]|(_ & _ & x & ->)]; [by apply Hret|by left; eexists]. }
    exists (c' :: cs'), (r' :: rs'), t'. split; [|split; [|split; [|split; [|split; [|split]]]]].
    + cbn [simple_run]. rewrite Hs. destruct Hr'1 as [[x ->]|[q ->]]; by rewrite Hs'.
    + by split.
    + constructor; [|done]. destruct Hr'1 as [[x ->]|[q ->]]; done.
    + done.
    + constructor; [by eapply acts_has|done].
    + intros cmp. rewrite fmap_cons. intros [Hl1 Hl2]%Forall_cons. constructor; [by eapply acts_legal|by apply Hleg].
    + rewrite fmap_cons. intros [Hn1 Hn2]%Forall_cons. destruct (Hled Hn2) as (G & B & L2 & Hl & HL2 & Hp2).
      exists (g ++ G), (handed c' r' ++ B), (L ++ L2). split_and!.
      * exists g, G, B. split_and!; try done. pose proof (acts_clone _ _ _ _ Ha Hn1). by destruct c'.
      * by apply ProofDrops.leaked_app.
      * cbn [all_back snd]. transitivity ((contents t' ++ log2 ++ all_back cs rs1 ++ L2) ++ handed c r ++ L); [solve_Permutation|].
        rewrite Hp2, Hd. transitivity ((contents t1 ++ d ++ handed c r ++ L) ++ log ++ G); [solve_Permutation|]. rewrite Hp. solve_Permutation.
Qed.

Lemma wbegin_spec bad e (s : start K V) : simple_has_start s = true ->
  match wbegin leaky bad e s with
  | (Ret _, (log, m)) => simple_begin e s = (Ret tt, m) /\ exists t L, simple_rep m t /\ leaked leaky 0 L /\
      contents t ++ log ++ L ≡ₚ start_taken s /\ bads bad log = 0
  | (Panic p, (log, m)) => exists os it, s = SFromIter os it /\ s_mem m = ∅ /\
      exists n L, leaked leaky (match p with PDrop => 1 | _ => 0 end) L /\ log ++ L ≡ₚ owned (take n (ui_items it)) /\
        bads bad log = (match p with PDrop => 1 | _ => 0 end) /\
        match p with PDrop => True | _ => pulled os it p n /\ (simple_begin e s).1 = Panic p end
  | (Abort, _) => True
  | _ => False
  end.
Proof.
  destruct s as [|n|os it]; intros Hs; try done; cbn [wbegin].
  { split; [done|]. exists Leaf, []. split_and!; [apply simple_new_rep|done|done|done]. }
  unfold wfrom_iter, wunwinding.
  destruct (winsert_all leaky bad e os 0 (ui_items it) (ui_panics it) ([], simple_new)) as [r [log m]] eqn:Hw.
  assert (r = Abort \/ r <> Abort) as [->|Hna] by (destruct r; auto); [done|].
  destruct (winsert_all_spec leaky bad e os (ui_panics it) (ui_items it) 0 [] simple_new Leaf r _ (simple_new_rep) Hw Hna) as (n & Ho & Hcase).
  destruct Ho as (t' & d & L & Hr & Hd & HL & Hp & Hb). cbn [fst snd] in *. simpl in Hd. subst d.
  destruct r as [[]|p| |u|]; try done.
  - destruct Hcase as (_ & -> & Hsi). split; [done|]. exists t', L. split_and!; try done. rewrite firstn_all in Hp. done.
  - destruct (wdrop_map_spec bad true log m t' Hr) as (r1 & log1 & m1 & Hwd & Hdd & Hm). rewrite Hwd.
    destruct r1 as [u|q| |ub|]; try done. destruct Hdd as [-> Hu].
    destruct (Hm u eq_refl) as (_ & Hmem & _).
    exists os, it. split_and!; [done|done|]. exists n, L. split_and!; try done.
    + rewrite <- app_assoc. simpl in Hp. rewrite <- Hp. solve_Permutation.
    + rewrite bads_app, Hb. assert (bads bad (contents t') = 0) as -> by (destruct u; cbn in Hu; lia). destruct p; done.
    + destruct p; try done; (destruct Hcase as (Hsi & [(Hx & ? & ?)|(Hx & i & k & v & a & k0 & ? & ? & ?)]); try done);
        (split; [|cbn [simple_begin]; unfold simple_from_iter; by rewrite Hsi]); [|done]. by exists i, k, v, a, k0.
Qed.

Lemma wreached_spec e bad (s : start K V) cs rs log m : simple_calls s cs -> wreached leaky e bad s cs rs log m ->
  Forall defined rs /\ (alive rs -> exists cs' rs' t', simple_reached e s cs' rs' m /\ all_act_as cs rs cs' rs' /\ alive rs' /\
    simple_rep m t' /\ Forall (fun c => simple_has c = true) cs' /\
    (forall cmp, Forall (legal cmp) cs.*2 -> Forall (legal cmp) cs') /\
    (Forall no_clone cs.*2 -> exists G B L, ledger cs' rs' G B /\ leaked leaky (all_panics rs) L /\
       contents t' ++ log ++ all_back cs rs ++ L ≡ₚ start_taken s ++ G)).
Proof.
  intros [Hs Hcs] ([log0 m0] & Hb & Hrun). pose proof (wbegin_spec bad e s Hs) as Hbs. rewrite Hb in Hbs.
  destruct Hbs as (Hsb & t & L & Hr & HL & Hp & _).
  destruct (wrun_spec e cs log0 m0 t rs log m Hr Hcs Hrun) as [Hdef Hrest]. split; [done|]. intros Hal.
  destruct (Hrest Hal) as (cs' & rs' & t' & Hs' & Ha & Hal' & Hr' & Hhas & Hleg & Hled).
  exists cs', rs', t'. split_and!; try done; [by exists m0|]. intros Hn.
  destruct (Hled Hn) as (G & B & L2 & Hl & HL2 & Hp2). exists G, B, (L ++ L2). split_and!; [done| |].
  - by apply (ProofDrops.leaked_app leaky 0).
  - rewrite <- Hp. transitivity ((contents t' ++ log ++ all_back cs rs ++ L2) ++ L); [solve_Permutation|]. rewrite Hp2. solve_Permutation.
Qed.

Lemma wreached_rep e bad (s : start K V) cs rs log m : simple_calls s cs -> wreached leaky e bad s cs rs log m -> alive rs ->
  exists t, simple_rep m t.
Proof. intros Hc Hw Hal. destruct (wreached_spec e bad s cs rs log m Hc Hw) as [_ H]. destruct (H Hal) as (_ & _ & t & _ & _ & _ & ? & _). by exists t. Qed.

Lemma contents_order d t : contents t ≡ₚ owned (tree_order d (erase t)).
Proof.
  destruct d; [done|apply contents_in|]. rewrite contents_in. apply owned_perm. symmetry. apply tree_post_in.
Qed.

(** ** The properties *)

Lemma wdrops_as_if e bad (s : start K V) cs rs log m : simple_calls s cs -> wreached leaky e bad s cs rs log m -> alive rs ->
  exists cs' rs', simple_reached e s cs' rs' m /\ alive rs' /\ all_act_as cs rs cs' rs' /\
    Forall (fun c => simple_has c = true) cs' /\ forall cmp, Forall (legal cmp) cs.*2 -> Forall (legal cmp) cs'.
Proof.
  intros Hc Hw Hal. destruct (wreached_spec e bad s cs rs log m Hc Hw) as [_ H].
  destruct (H Hal) as (cs' & rs' & t & ? & ? & ? & _ & ? & ? & _). exists cs', rs'. by split_and!.
Qed.

Lemma wdrops_safe bad e (s : start K V) cs : simple_calls s cs ->
  defined (wbegin leaky bad e s).1 /\
  forall rs log m, wreached leaky e bad s cs rs log m -> Forall defined rs /\
    (alive rs -> forall bad', defined (wdrop bad' (log, m)).1).
Proof.
  intros Hc. split.
  - pose proof (wbegin_spec bad e s (proj1 Hc)) as Hb. by destruct (wbegin leaky bad e s) as [[] []].
  - intros rs log m Hw. split; [by eapply wreached_spec|]. intros Hal bad'. destruct (wreached_rep _ _ _ _ _ _ _ Hc Hw Hal) as [t Hr].
    unfold wdrop. destruct (wdrop_map_spec bad' false log m t Hr) as (r & log' & m' & He & Hd & _). rewrite (bind_step _ _ _ _ _ He).
    destruct r as [u|p| |ub|]; try done. rewrite settle_eq. by destruct u.
Qed.

Lemma wdrops_sorted (cmp : K -> K -> comparison) : lawful cmp -> forall e bad (s : start K V) cs rs log m l,
  simple_calls s cs -> legal_start cmp s -> Forall (legal cmp) cs.*2 -> wreached leaky e bad s cs rs log m -> alive rs ->
  simple_yields m In l -> sorted cmp l.
Proof.
  intros Hlaw e bad s cs rs log m l Hc Hls Hleg Hw Hal Hy.
  destruct (wreached_spec e bad s cs rs log m Hc Hw) as [_ H].
  destruct (H Hal) as (cs' & rs' & t & Hr & _ & Hal' & Hrep & Hhas & Hl & _).
  destruct (simple_lookups_refine cmp Hlaw e s cs' rs' m (proj1 Hc) Hhas Hls (Hl _ Hleg) Hr) as (l0 & _ & Hx).
  destruct (Hx Hal') as ((l' & _ & Hsort & Hy') & _).
  rewrite (simple_yields_fun m t In l Hrep Hy), <- (simple_yields_fun m t In l' Hrep Hy'). done.
Qed.

Lemma wdrops_call e bad (s : start K V) cs rs log m l bad' c r log' m' : simple_calls s cs -> wreached leaky e bad s cs rs log m -> alive rs ->
  simple_has c = true -> simple_yields m Pre l -> wexec leaky bad' e c (log, m) = (r, (log', m')) -> r <> Abort ->
  exists c' r' g L, acts_as c r c' r' /\ simple_exec e c' m = (r', m') /\ took l c' r' g /\ leaked leaky (drop_panics r) L /\
    forall d l', simple_yields m' d l' -> owned l' ++ log' ++ handed c r ++ L ≡ₚ owned l ++ log ++ g.
Proof.
  intros Hcs Hw Hal Hc Hy He Hna. destruct (wreached_rep _ _ _ _ _ _ _ Hcs Hw Hal) as [t Hr].
  rewrite (simple_yields_fun m t Pre l Hr Hy).
  destruct (wexec_spec leaky bad' e c log m t r _ Hr Hc He Hna) as (c' & r' & g & Ha & Hs & Htk & t1 & d & L & Hr1 & Hd & HL & Hp & Hb).
  cbn [fst snd] in *. exists c', r', g, L. split_and!; try done. intros d' l' Hy'. rewrite (simple_yields_fun m' t1 d' l' Hr1 Hy').
  rewrite <- contents_order, Hd. change (owned (tree_order Pre (erase t))) with (contents t).
  transitivity ((contents t1 ++ d ++ handed c r ++ L) ++ log); [solve_Permutation|]. rewrite Hp. solve_Permutation.
Qed.

Lemma wdrops_conserved e bad (s : start K V) cs rs log m : simple_calls s cs -> Forall no_clone cs.*2 ->
  wreached leaky e bad s cs rs log m -> alive rs ->
  exists cs' rs' G B L, all_act_as cs rs cs' rs' /\ ledger cs' rs' G B /\ leaked leaky (all_panics rs) L /\
    forall d l, simple_yields m d l -> owned l ++ log ++ all_back cs rs ++ L ≡ₚ start_taken s ++ G.
Proof.
  intros Hc Hn Hw Hal. destruct (wreached_spec e bad s cs rs log m Hc Hw) as [_ H].
  destruct (H Hal) as (cs' & rs' & t & Hr & Ha & Hal' & Hrep & Hhas & _ & Hled). destruct (Hled Hn) as (G & B & L & Hl & HL & Hp).
  exists cs', rs', G, B, L. split_and!; try done. intros d l Hy. rewrite (simple_yields_fun m t d l Hrep Hy), <- contents_order. done.
Qed.

Lemma wdrop_exact e bad (s : start K V) cs rs log m l bad' r log' m' : simple_calls s cs -> wreached leaky e bad s cs rs log m -> alive rs ->
  simple_yields m Pre l -> wdrop bad' (log, m) = (r, (log', m')) ->
  (r = match bads bad' (owned l) with 0 => Ret tt | 1 => Panic PDrop | _ => Abort end) /\
  (r <> Abort -> log' = log ++ owned l /\ s_mem m' = ∅).
Proof.
  intros Hc Hw Hal Hy He. destruct (wreached_rep _ _ _ _ _ _ _ Hc Hw Hal) as [t Hr]. rewrite (simple_yields_fun m t Pre l Hr Hy).
  change (owned (tree_order Pre (erase t))) with (contents t).
  unfold wdrop in He. destruct (wdrop_map_spec bad' false log m t Hr) as (r1 & log1 & m1 & Hwd & Hd & Hm). rewrite (bind_step _ _ _ _ _ Hwd) in He.
  destruct r1 as [u|p| |ub|]; try done.
  - rewrite (settle_eq (K := K) (V := V)) in He. injection He as <- <- <-. destruct Hd as [-> Hu]. destruct (Hm u eq_refl) as (_ & Hmem & _). cbn [Nat.b2n Nat.add] in Hu.
    rewrite <- Hu. by destruct u.
  - injection He as <- <- <-. cbn in Hd. by destruct (bads bad' (contents t)) as [|[|n]]; [lia|lia|].
Qed.

Lemma wclear_exact e bad (s : start K V) cs rs log m l bad' r log' m' : simple_calls s cs -> wreached leaky e bad s cs rs log m -> alive rs ->
  simple_yields m Pre l -> wexec leaky bad' e OClear (log, m) = (r, (log', m')) ->
  (r = match bads bad' (owned l) with 0 => Ret OutUnit | 1 => Panic PDrop | _ => Abort end) /\
  (r <> Abort -> log' = log ++ owned l /\ s_mem m' = ∅ /\ simple_len m' = 0%N).
Proof.
  intros Hc Hw Hal Hy He. destruct (wreached_rep _ _ _ _ _ _ _ Hc Hw Hal) as [t Hr]. rewrite (simple_yields_fun m t Pre l Hr Hy).
  change (owned (tree_order Pre (erase t))) with (contents t). cbn [wexec] in He.
  destruct (wclear_spec bad' log m t Hr) as (r1 & log1 & m1 & Hwd & Hd). rewrite (bind_step _ _ _ _ _ Hwd) in He.
  destruct r1 as [[]|p| |ub|]; try done; injection He as <- <- <-.
  - destruct Hd as (-> & -> & _ & [_ Hm] & _ & _ & Hlen & _). split_and!; try done.
  - destruct Hd as (-> & -> & -> & _ & [_ Hm] & _ & _ & Hlen & _). split_and!; try done.
  - cbn in Hd. by destruct (bads bad' (contents t)) as [|[|n]]; [lia|lia|].
Qed.

Lemma wdrops_whole_life e bad (s : start K V) cs rs log m bad' r log' m' : simple_calls s cs -> Forall no_clone cs.*2 ->
  wreached leaky e bad s cs rs log m -> alive rs -> wdrop bad' (log, m) = (r, (log', m')) -> r <> Abort ->
  s_mem m' = ∅ /\ exists cs' rs' G B L, all_act_as cs rs cs' rs' /\ ledger cs' rs' G B /\ leaked leaky (all_panics rs) L /\
    log' ++ all_back cs rs ++ L ≡ₚ start_taken s ++ G.
Proof.
  intros Hc Hn Hw Hal He Hna. destruct (wreached_rep _ _ _ _ _ _ _ Hc Hw Hal) as [t Hr].
  pose proof (simple_rep_yields m t Pre Hr) as Hy.
  destruct (wdrop_exact e bad s cs rs log m _ bad' r log' m' Hc Hw Hal Hy He) as [_ Hx]. destruct (Hx Hna) as [-> Hm]. split; [done|].
  destruct (wdrops_conserved e bad s cs rs log m Hc Hn Hw Hal) as (cs' & rs' & G & B & L & Ha & Hl & HL & Hp).
  exists cs', rs', G, B, L. split_and!; try done. rewrite <- (Hp _ _ Hy). solve_Permutation.
Qed.

Lemma wdrops_collect bad e os (it : user_iter (K * V)) p log m :
  wbegin leaky bad e (SFromIter os it) = (Panic p, (log, m)) ->
  s_mem m = ∅ /\ exists n L, leaked leaky (match p with PDrop => 1 | _ => 0 end) L /\ log ++ L ≡ₚ owned (take n (ui_items it)) /\
    bads bad log = (match p with PDrop => 1 | _ => 0 end) /\ (p <> PDrop -> pulled os it p n /\ (simple_begin e (SFromIter os it)).1 = Panic p).
Proof.
  intros Hb. pose proof (wbegin_spec bad e (SFromIter os it) eq_refl) as H. rewrite Hb in H.
  destruct H as (os' & it' & [= <- <-] & Hm & n & L & HL & Hp & Hbd & Hc). split; [done|]. exists n, L. split_and!; try done.
  intros Hne. by destruct p.
Qed.

Lemma wdrops_panics e bad (s : start K V) cs rs log m bad' c r log' m' : simple_calls s cs -> wreached leaky e bad s cs rs log m -> alive rs ->
  simple_has c = true -> wexec leaky bad' e c (log, m) = (r, (log', m')) -> r <> Abort ->
  exists d, log' = log ++ d /\ bads bad' d = drop_panics r.
Proof.
  intros Hcs Hw Hal Hc He Hna. destruct (wreached_rep _ _ _ _ _ _ _ Hcs Hw Hal) as [t Hr].
  destruct (wexec_spec leaky bad' e c log m t r _ Hr Hc He Hna) as (c' & r' & g & _ & _ & _ & t1 & d & L & _ & Hd & _ & _ & Hb). by exists d.
Qed.

Lemma wdrops_insert e bad o k v log m r0 m0 r log' m' :
  simple_exec e (OInsert o k v) m = (r0, m0) -> wexec leaky bad e (OInsert o k v) (log, m) = (r, (log', m')) ->
  match r0 with
  | Ret (OutValue (Some old)) => ends_with leaky bad (inr old) (inl k) r0 log m0 r log' m'
  | Panic p => if bad (inl k) || bad (inr v) then r = Abort else r = r0 /\ m' = m0 /\ log' = log ++ [inr v; inl k]
  | _ => r = r0 /\ m' = m0 /\ log' = log
  end.
Proof.
  intros Hs Hw. cbn [simple_exec wexec] in *. destruct (simple_insert e o k v m) as [ri mi] eqn:Hi. rewrite (bind_step _ _ _ _ _ Hi) in Hs.
  destruct (winsert_eq leaky bad e o k v log m ri mi Hi) as (r' & log1 & He & Hc). rewrite (bind_step _ _ _ _ _ He) in Hw.
  destruct ri as [[old|]|p| |u|]; injection Hs as <- <-.
  - unfold ends_with. destruct (bad (inl k)); [destruct (negb leaky && bad (inr old))|].
    + subst r'. by injection Hw as <- <- <-.
    + destruct Hc as [-> ->]. by injection Hw as <- <- <-.
    + destruct Hc as [-> ->]. by injection Hw as <- <- <-.
  - destruct Hc as [-> ->]. by injection Hw as <- <- <-.
  - cbn [bads] in Hc. destruct (bad (inl k)), (bad (inr v)); cbn in Hc |- *; try (subst r'; by injection Hw as <- <- <-).
    destruct Hc as [-> ->]. by injection Hw as <- <- <-.
  - destruct Hc as [-> ->]. by injection Hw as <- <- <-.
  - destruct Hc as [-> ->]. by injection Hw as <- <- <-.
  - destruct Hc as [-> ->]. by injection Hw as <- <- <-.
Qed.

Lemma wdrops_remove e bad o log m r0 m0 r log' m' :
  simple_exec e (ORemove o) m = (r0, m0) -> wexec leaky bad e (ORemove o) (log, m) = (r, (log', m')) ->
  match r0 with
  | Ret (OutValue (Some v)) => exists k m1, simple_exec e (ORemoveEntry o) m = (Ret (OutEntry (Some (k, v))), m1) /\
      ends_with leaky bad (inr v) (inl k) r0 log m0 r log' m'
  | _ => r = r0 /\ m' = m0 /\ log' = log
  end.
Proof.
  intros Hs Hw. cbn [simple_exec wexec] in *. destruct (simple_remove_entry e o m) as [ri mi] eqn:Hi.
  assert (Hrm : simple_remove e o m = (rmap (option_map snd) ri, mi)).
  { unfold simple_remove. rewrite (bind_step _ _ _ _ _ Hi). by destruct ri. }
  rewrite (bind_step _ _ _ _ _ Hrm) in Hs.
  destruct (wremove_eq leaky bad e o log m ri mi Hi) as (r' & log1 & He & Hc). rewrite (bind_step _ _ _ _ _ He) in Hw.
  destruct ri as [[[k v]|]|p| |u|]; injection Hs as <- <-.
  - exists k, mi. split; [by rewrite (bind_step _ _ _ _ _ Hi)|].
    unfold ends_with. destruct (bad (inl k)); [destruct (negb leaky && bad (inr v))|].
    + subst r'. by injection Hw as <- <- <-.
    + destruct Hc as [-> ->]. by injection Hw as <- <- <-.
    + destruct Hc as [-> ->]. by injection Hw as <- <- <-.
  - destruct Hc as [-> ->]. by injection Hw as <- <- <-.
  - destruct Hc as [-> ->]. by injection Hw as <- <- <-.
  - destruct Hc as [-> ->]. by injection Hw as <- <- <-.
  - destruct Hc as [-> ->]. by injection Hw as <- <- <-.
  - destruct Hc as [-> ->]. by injection Hw as <- <- <-.
Qed.

Lemma wdrops_write e bad c log m r0 m0 r log' m' :
  simple_exec e c m = (r0, m0) -> wexec leaky bad e c (log, m) = (r, (log', m')) ->
  match c with OGetMut _ _ | OWalkMut _ _ => True | _ => False end ->
  m' = m0 /\ match replaced c r0 with
             | Some v => log' = log ++ [inr v] /\ r = if bad (inr v) then Panic PDrop else r0
             | None => log' = log /\ r = r0
             end.
Proof.
  intros Hs Hw Hc.
  assert (Hwr : forall p (w : option V) n, peek m p = Ret n -> exists m1, opt_poke p w m = (Ret tt, m1) /\
    wwrite bad p w (log, m) = match w with
      | Some _ => (if bad (inr (n_value n)) then Panic PDrop else Ret tt, (log ++ [inr (n_value n)], m1))
      | None => (Ret tt, (log, m1)) end).
  { intros p w n Hp. destruct w as [w|]; [|by exists m].
    exists (set_mem (<[p := with_value w n]> (s_mem m)) m).
    assert (Hpo : opt_poke p (Some w) m = (Ret tt, set_mem (<[p := with_value w n]> (s_mem m)) m)).
    { cbn [opt_poke]. unfold poke. rewrite (bind_step sget _ _ (Ret m) m) by done.
      rewrite (bind_step (slift (peek m p)) _ _ (Ret n) m) by (by rewrite Hp). done. }
    split; [done|]. unfold wwrite. rewrite (bind_step sget _ _ (Ret (log, m)) (log, m)) by done. cbn [snd].
    rewrite (bind_step (slift (peek m p)) _ _ (Ret n) (log, m)) by (by rewrite Hp).
    cbn [opt_poke] in Hpo.
    rewrite (bind_step (on_map _) _ _ (Ret tt) (log, set_mem (<[p := with_value w n]> (s_mem m)) m)) by (by rewrite on_map_eq, Hpo).
    unfold wdestroy, settle. cbv beta iota delta [sbind smod sret slift sfail]. cbn [fst snd]. by destruct (bad (inr (n_value n))). }
  destruct c as [o k v|o|o|o|o|o|o w|o w| | | | |n| |os it|d n|d evs|path|path w| |os ck cv]; try done; cbn [simple_exec wexec] in *; clear Hc.
  - rewrite (bind_step sget _ _ (Ret m) m) in Hs by done. rewrite (bind_step sget _ _ (Ret (log, m)) (log, m)) in Hw by done. cbn [snd] in Hw.
    destruct (simple_get_mut m o) as [[p|]|q| |u|] eqn:Hg;
      (rewrite (bind_step (slift _) _ _ _ m eq_refl) in Hs; rewrite (bind_step (slift _) _ _ _ (log, m) eq_refl) in Hw);
      try (injection Hs as <- <-; injection Hw as <- <- <-; by destruct w).
    destruct (peek m p) as [n|q| |u|] eqn:Hp;
      (rewrite (bind_step (slift _) _ _ _ m eq_refl) in Hs; rewrite (bind_step (slift _) _ _ _ (log, m) eq_refl) in Hw);
      try (injection Hs as <- <-; injection Hw as <- <- <-; by destruct w).
    destruct (Hwr p w n Hp) as (m1 & Hpo & Hww). rewrite (bind_step _ _ _ _ _ Hpo) in Hs. injection Hs as <- <-.
    destruct w as [w|]; rewrite (bind_step _ _ _ _ _ Hww) in Hw; [destruct (bad (inr (n_value n))) eqn:Hb|]; injection Hw as <- <- <-; cbn; by rewrite ?Hb.
  - rewrite (bind_step sget _ _ (Ret m) m) in Hs by done. rewrite (bind_step sget _ _ (Ret (log, m)) (log, m)) in Hw by done. cbn [snd] in Hw.
    destruct (simple_walk m path (simple_root m)) as [[p|]|q| |u|] eqn:Hg;
      (rewrite (bind_step (slift _) _ _ _ m eq_refl) in Hs; rewrite (bind_step (slift _) _ _ _ (log, m) eq_refl) in Hw);
      try (injection Hs as <- <-; injection Hw as <- <- <-; by destruct w).
    destruct (simple_show m p) as [x|q| |u|] eqn:Hp;
      (rewrite (bind_step (slift _) _ _ _ m eq_refl) in Hs; rewrite (bind_step (slift _) _ _ _ (log, m) eq_refl) in Hw);
      try (injection Hs as <- <-; injection Hw as <- <- <-; by destruct w).
    unfold simple_show in Hp. destruct (peek m p) as [n|q| |u|] eqn:Hpk; try done. cbn [rbind] in Hp.
    destruct x as [[[k0 v0] a0] b0]. assert (v0 = n_value n) as -> by (by injection Hp).
    destruct (Hwr p w n Hpk) as (m1 & Hpo & Hww). rewrite (bind_step _ _ _ _ _ Hpo) in Hs. injection Hs as <- <-.
    destruct w as [w|]; rewrite (bind_step _ _ _ _ _ Hww) in Hw; [destruct (bad (inr (n_value n))) eqn:Hb|]; injection Hw as <- <- <-; cbn; by rewrite ?Hb.
Qed.

Lemma wdrops_clone e bad (s : start K V) cs rs log m l bad' os ck cv r0 m0 r log' m' :
  simple_calls s cs -> wreached leaky e bad s cs rs log m -> alive rs ->
  simple_yields m Pre l -> simple_exec e (OClone os ck cv) m = (r0, m0) -> wexec leaky bad' e (OClone os ck cv) (log, m) = (r, (log', m')) ->
  match r0 with
  | Ret _ => r = match bads bad' (owned l) with 0 => r0 | 1 => Panic PDrop | _ => Abort end /\
      (r <> Abort -> m' = m0 /\ log' = log ++ owned l)
  | Panic _ => if Nat.eqb (bads bad' (cloned ck cv 0 l)) 0
      then r = r0 /\ m' = m0 /\ exists d, log' = log ++ d /\ d ≡ₚ cloned ck cv 0 l
      else r = Abort
  | _ => r = r0
  end.
Proof.
  intros Hc Hw Hal Hy Hs He. destruct (wreached_rep _ _ _ _ _ _ _ Hc Hw Hal) as [t Hr]. rewrite (simple_yields_fun m t Pre l Hr Hy).
  change (owned (tree_order Pre (erase t))) with (contents t). cbn [tree_order]. cbn [wexec simple_exec] in *.
  unfold sbind, wclone_and_replace in He. cbn [fst snd] in He.
  destruct (wclone_spec bad' e ck cv log m t Hr) as (r1 & log1 & m2 & Hwc & Hcase). rewrite Hwc in He. cbn zeta in Hcase.
  pose proof (simple_clone_spec e ck cv m t Hr) as Hsp.
  destruct r1 as [[]|p| |u|]; try done.
  - destruct Hcase as [Hcn ->]. rewrite Hcn in Hs.
    destruct (wdrop_map_spec bad' false log m t Hr) as (r3 & log3 & m3 & Hwd & Hd & Hm3). rewrite Hwd in He.
    assert (Hdr : exists md, simple_drop m = (Ret tt, md)).
    { pose proof (simple_drop_spec m t Hr) as Hds. unfold wp in Hds. destruct (simple_drop m) as [[[]|q| |ub|] md]; try done. by exists md. }
    destruct Hdr as [md Hdr]. rewrite Hdr in Hs. injection Hs as <- <-.
    destruct r3 as [u|p| |ub|]; try done.
    + rewrite (settle_eq (K := K) (V := V)) in He. destruct Hd as [-> Hu]. cbn [Nat.b2n Nat.add] in Hu. rewrite <- Hu.
      destruct u; injection He as <- <- <-; done.
    + injection He as <- <- <-. cbn in Hd. split; [|done]. by destruct (bads bad' (contents t)) as [|[|n]]; [lia|lia|].
  - destruct Hcase as (-> & Hcn & _ & Hb & d & -> & Hd). injection He as <- <- <-.
    destruct (simple_clone e ck cv m) as [rc mc]. cbn [fst] in Hcn. subst rc. injection Hs as <- <-. rewrite Hb. cbn. split_and!; try done. by exists d.
  - injection He as <- <- <-. destruct Hcase as [Hcn|[Hcn Hb]]; destruct (simple_clone e ck cv m) as [rc mc]; cbn [fst] in Hcn; subst rc; injection Hs as <- <-.
    + done.
    + destruct (Nat.eqb_spec (bads bad' (cloned ck cv 0 (tree_preorder (erase t)))) 0); [lia|done].
Qed.

(** A clone that panics leaves no boxes behind. *)
Lemma wdrops_clone_frees e bad (s : start K V) cs rs log m bad' ck cv p log' m' :
  simple_calls s cs -> wreached leaky e bad s cs rs log m -> alive rs ->
  wclone bad' e ck cv m log = (Panic p, (log', m')) -> s_mem m' = ∅.
Proof.
  intros Hc Hw Hal He. destruct (wreached_rep _ _ _ _ _ _ _ Hc Hw Hal) as [t Hr].
  destruct (wclone_spec bad' e ck cv log m t Hr) as (r1 & log1 & m2 & Hwc & Hcase). rewrite He in Hwc. injection Hwc as <- <- <-.
  by destruct Hcase as (_ & _ & ? & _).
Qed.

(** ** Nothing panics *)

Lemma bads_none bad (l : list (K + V)) : (forall y, bad y = false) -> bads bad l = 0.
Proof. intros H. induction l as [|y l IH]; simpl; [done|]. by rewrite H. Qed.

Lemma winsert_all_quiet bad e os panics items : (forall y, bad y = false) -> forall j log m r m1,
  simple_insert_all e os j items panics m = (r, m1) -> exists log', winsert_all leaky bad e os j items panics (log, m) = (r, (log', m1)).
Proof.
  intros Hq. induction items as [|[k v] items IH]; intros j log m r m1 Hs; cbn [simple_insert_all winsert_all] in *.
  - destruct panics; injection Hs as <- <-; by exists log.
  - destruct (simple_insert e (os j k) k v m) as [ri mi] eqn:Hi. rewrite (bind_step _ _ _ _ _ Hi) in Hs.
    destruct (winsert_eq leaky bad e (os j k) k v log m ri mi Hi) as (r' & log1 & He & Hc).
    rewrite (bads_none _ _ Hq), (Hq (inl k)) in Hc. cbn [Nat.eqb] in Hc. rewrite (bind_step _ _ _ _ _ He).
    destruct ri as [prev|p| |u|].
    + assert (r' = Ret prev) as -> by (by destruct prev; destruct Hc).
      assert (Hdes : exists log2, (match prev with Some v => wdestroy bad false (inr v) | None => sret false end) (log1, mi) = (Ret false, (log2, mi))).
      { destruct prev as [old|]; [|by exists log1]. unfold wdestroy. cbv beta iota delta [sbind smod]. cbn [fst snd]. rewrite Hq. by eexists. }
      destruct Hdes as (log2 & Hd). rewrite (bind_step _ _ _ _ _ Hd), (bind_step _ _ _ _ _ (settle_eq (K := K) (V := V) _ _ _)). by apply IH.
    + destruct Hc as [-> ->]. injection Hs as <- <-. by eexists.
    + destruct Hc as [-> ->]. injection Hs as <- <-. by eexists.
    + destruct Hc as [-> ->]. injection Hs as <- <-. by eexists.
    + destruct Hc as [-> ->]. injection Hs as <- <-. by eexists.
Qed.

Lemma wexec_quiet bad e c log m t r m1 : (forall y, bad y = false) -> simple_rep m t -> simple_has c = true ->
  simple_exec e c m = (r, m1) -> exists log', wexec leaky bad e c (log, m) = (r, (log', m1)).
Proof.
  intros Hq H Hc Hs. destruct (wexec leaky bad e c (log, m)) as [r' [log' m']] eqn:He. exists log'.
  assert (r' = Abort \/ r' <> Abort) as [->|Hna] by (destruct r'; auto).
  2:{ destruct (wexec_spec leaky bad e c log m t r' _ H Hc He Hna) as (c' & r2 & g & Ha & Hs' & _ & t1 & d & L & _ & _ & _ & _ & Hb).
      rewrite (bads_none _ _ Hq) in Hb. cbn [snd] in *.
      destruct Ha as [[-> ->]|(-> & _)]; [|done]. rewrite Hs in Hs'. by injection Hs' as -> ->. }
  destruct c as [o k v|o|o|o|o|o|o w|o w| | | | |n| |os it|d n|d evs|path|path w| |os ck cv]; try done;
    try (cbn [wexec] in He; rewrite on_map_eq, Hs in He; by injection He as <- <- <-).
  - pose proof (wdrops_insert e bad o k v log m r m1 _ _ _ Hs He) as Hx. unfold ends_with in Hx. rewrite !Hq in Hx. cbn [orb] in Hx.
    destruct r as [x|p| |u|]; try (by destruct Hx as (? & -> & _)). repeat case_match; by destruct Hx as (? & -> & _).
  - pose proof (wdrops_remove e bad o log m r m1 _ _ _ Hs He) as Hx. unfold ends_with in Hx.
    destruct r as [x|p| |u|]; try (by destruct Hx as (? & -> & _)). repeat case_match; try (by destruct Hx as (? & -> & _));
      destruct Hx as (k & m2 & _ & Hx); rewrite Hq in Hx; by destruct Hx as [? _].
  - destruct (wdrops_write e bad _ log m r m1 _ _ _ Hs He I) as [-> Hx]. destruct (replaced _ r) as [v|]; [rewrite Hq in Hx|]; destruct Hx as [_ Hx]; by rewrite Hx.
  - destruct (wclear_spec bad log m t H) as (r1 & log1 & m2 & Hwd & Hd). cbn [wexec] in He. rewrite (bind_step _ _ _ _ _ Hwd) in He.
    rewrite (bads_none _ _ Hq) in Hd. destruct r1 as [[]|p| |ub|]; try done. lia.
  - cbn [simple_exec wexec] in *. unfold simple_extend, wextend in *.
    destruct (simple_insert_all e os 0 (ui_items it) (ui_panics it) m) as [ri mi] eqn:Hi.
    destruct (winsert_all_quiet bad e os _ _ Hq 0 log m ri mi Hi) as (log1 & Hw). rewrite (bind_step _ _ _ _ _ Hi) in Hs. rewrite (bind_step _ _ _ _ _ Hw) in He.
    destruct ri as [[]|p| |u|]; injection Hs as <- <-; try done. by injection He as <- <-.
  - destruct (wdrops_write e bad _ log m r m1 _ _ _ Hs He I) as [-> Hx]. destruct (replaced _ r) as [v|]; [rewrite Hq in Hx|]; destruct Hx as [_ Hx]; by rewrite Hx.
  - cbn [wexec simple_exec] in *. unfold sbind, wclone_and_replace in He. cbn [fst snd] in He.
    destruct (wclone_spec bad e ck cv log m t H) as (r1 & log1 & m2 & Hwc & Hcase). rewrite Hwc in He. cbn zeta in Hcase. rewrite (bads_none _ _ Hq) in Hcase.
    destruct r1 as [[]|p| |u|]; try done.
    + destruct (wdrop_map_spec bad false log1 m t H) as (r3 & log3 & m3 & Hwd & Hd & Hm3). rewrite Hwd in He.
      destruct r3 as [u|p| |ub|]; try done; [rewrite (settle_eq (K := K) (V := V)) in He; by destruct u|]. cbn in Hd. rewrite (bads_none _ _ Hq) in Hd. lia.
    + injection He as _ <-. destruct Hcase as [Hcn|[_ ?]]; [|lia].
      destruct (simple_clone e ck cv m) as [rc mc]. cbn [fst] in Hcn. subst rc. by injection Hs as <- <-.
Qed.

Lemma wrun_quiet e cs : (forall x y, x ∈ cs -> x.1 y = false) -> Forall (fun c => simple_has c.2 = true) cs ->
  forall log m t rs m', simple_rep m t -> simple_run e cs.*2 m = (rs, m') ->
  exists log', wrun leaky e cs (log, m) = (rs, (log', m')).
Proof.
  induction cs as [|[bad c] cs IH]; intros Hq Hcs log m t rs m' H Hrun; cbn [wrun fmap list_fmap snd simple_run] in *.
  - injection Hrun as <- <-. by exists log.
  - apply Forall_cons in Hcs as [Hc Hcs]. cbn [snd] in Hc.
    destruct (simple_exec e c m) as [r m1] eqn:Hs.
    destruct (wexec_quiet bad e c log m t r m1 (fun y => Hq (bad, c) y ltac:(left)) H Hc Hs) as (log1 & He). rewrite He.
    destruct (simple_exec_cases e c m t r m1 H Hc Hs) as [[-> _]|(t1 & H1 & _ & Hr)].
    { injection Hrun as <- <-. by exists log1. }
    destruct (simple_run e cs.*2 m1) as [rs1 m2] eqn:Hrun1.
    destruct (IH ltac:(intros x y Hx; apply Hq; by right) Hcs log1 m1 t1 rs1 m2 H1 Hrun1) as (log2 & Hw).
    destruct Hr as [[x ->]|[q ->]]; injection Hrun as <- <-; rewrite Hw; by exists log2.
Qed.

Lemma wdrops_quiet e bad (s : start K V) cs rs m : (forall y, bad y = false) -> (forall x y, x ∈ cs -> x.1 y = false) ->
  simple_calls s cs -> (exists log, wreached leaky e bad s cs rs log m) <-> simple_reached e s cs.*2 rs m.
Proof.
  intros Hq Hqs [Hst Hcs].
  assert (Hb : forall m0, simple_begin e s = (Ret tt, m0) -> exists log0, wbegin leaky bad e s = (Ret tt, (log0, m0))).
  { intros m0 Hb. destruct s as [|n|os it]; try done; cbn [simple_begin wbegin] in *; [injection Hb as <-; by exists []|].
    unfold simple_from_iter in Hb. destruct (winsert_all_quiet bad e os _ _ Hq 0 [] _ _ _ Hb) as (log1 & Hw).
    unfold wfrom_iter, wunwinding. rewrite Hw. by exists log1. }
  assert (Hback : forall m0, simple_begin e s = (Ret tt, m0) -> exists t, simple_rep m0 t).
  { intros m0 Hb0. pose proof (simple_begin_spec e s Hst) as Hsb. rewrite Hb0 in Hsb. destruct Hsb as (t & ? & _). by exists t. }
  split.
  - intros (log & [log0 m0] & Hw0 & Hrun). pose proof (wbegin_spec bad e s Hst) as Hbs. rewrite Hw0 in Hbs. destruct Hbs as (Hsb & _).
    exists m0. split; [done|]. destruct (Hback _ Hsb) as [t Ht].
    destruct (simple_run e cs.*2 m0) as [rs1 m1] eqn:Hr. destruct (wrun_quiet e cs Hqs Hcs log0 m0 t rs1 m1 Ht Hr) as (log' & Hw). rewrite Hrun in Hw.
    by injection Hw as -> _ ->.
  - intros (m0 & Hsb & Hr). destruct (Hback _ Hsb) as [t Ht]. destruct (Hb _ Hsb) as (log0 & Hw0).
    destruct (wrun_quiet e cs Hqs Hcs log0 m0 t rs m Ht Hr) as (log' & Hw). exists log', (log0, m0). done.
Qed.

End history.
