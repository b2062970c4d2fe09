(** * Proofs about ModelSimpleBorrow.v *)

From Verif Require Import ProofSimpleProps ProofBorrow ModelSimpleBorrow.
Local Open Scope nat_scope.

Section rules.
Context {Ru : rules}.
Notation ok := (ModelBorrow.ok Ru).

(** ** References to a node *)

(** The stacks of the node [p] end in [S]. *)
Definition has (p : Ptr) (S : field -> stack) (b : borrows) : Prop :=
  forall f, S f `suffix_of` b_at b (LNode p f).
Definition tops (t : nat) (q : perm) (S : field -> stack) : field -> stack := fun f => (t, q) :: S f.
Definition bottom : field -> stack := tops base SharedRW (fun _ => []).

(** The stacks of the nodes [F] and of [len] have not changed. *)
Definition kept (F : list Ptr) (b b' : borrows) : Prop :=
  (forall q f, q ∈ F -> b_at b' (LNode q f) = b_at b (LNode q f)) /\ b_at b' len_loc = b_at b len_loc.

Lemma kept_refl F b : kept F b b.
Proof. done. Qed.
Lemma kept_trans F b b' b'' : kept F b b' -> kept F b' b'' -> kept F b b''.
Proof.
  intros [H1 H2] [H1' H2']. split; [|congruence]. intros q f Hq. by rewrite H1', H1.
Qed.
Lemma kept_has F b b' p S : kept F b b' -> p ∈ F -> has p S b -> has p S b'.
Proof. intros [H _] Hp Hh f. rewrite H by done. apply Hh. Qed.
Lemma kept_sub F F' b b' : F ⊆ F' -> kept F' b b' -> kept F b b'.
Proof. intros Hs [H1 H2]. split; [|done]. intros q f Hq. apply H1. by apply Hs. Qed.

Lemma kept_tail x F b b' : kept (x :: F) b b' -> kept F b b'.
Proof. apply kept_sub. set_solver. Qed.

Lemma has_bottom p b : ok b -> has p bottom b.
Proof. intros Hok f. by apply ok_base. Qed.
Lemma has_below p t q S b : has p (tops t q S) b -> has p S b.
Proof. intros H f. specialize (H f). etrans; [|exact H]. unfold tops. by apply suffix_cons_r. Qed.
Lemma has_weaken p (S S' : field -> stack) b : (forall f, S f `suffix_of` S' f) -> has p S' b -> has p S b.
Proof. intros H Hh f. etrans; [apply H|apply Hh]. Qed.

Lemma other_node p q f : q <> p -> LNode q f ∉ node_locs p.
Proof. rewrite node_locs_elem. naive_solver. Qed.
Lemma len_not_node p : len_loc ∉ node_locs p.
Proof. rewrite node_locs_elem. naive_solver. Qed.

Lemma retag_node Q t q S p b F : ok b -> has p (tops t q S) b -> grants (writes Q) q -> p ∉ F ->
  exists b' S', retag_as Q t (node_locs p) b = (Ret (b_next b), b') /\ ok b' /\ kept F b b' /\
    has p (tops (b_next b) Q S') b' /\ (forall f, tops t q S f `suffix_of` S' f) /\
    (writes Q = true -> forall f, S' f = tops t q S f).
Proof.
  intros Hok Hh Hq HF.
  destruct (retag_as_spec Q t (node_locs p) b Hok (node_locs_nodup p)) as (b' & Hrun & Hok' & Hn & Hout & Hin).
  { intros l (f & ->)%node_locs_elem. exists q, (S f). split; [apply Hh|done]. }
  assert (Hat : forall f, exists above, b_at b' (LNode p f) = (b_next b, Q) :: used (writes Q) above ++ tops t q S f).
  { intros f. destruct (Hin (LNode p f) q (S f)) as (above & _ & H); [rewrite node_locs_elem; eauto|apply Hh|done|eauto]. }
  exists b', (fun f => tail (b_at b' (LNode p f))). split_and!; try done.
  - split.
    + intros r f Hr. apply Hout, other_node. by intros ->.
    + apply Hout, len_not_node.
  - intros f. destruct (Hat f) as (above & H). unfold tops at 1. rewrite H. done.
  - intros f. destruct (Hat f) as (above & ->). cbn [tail]. by apply suffix_app_r.
  - intros Hw f. destruct (Hat f) as (above & ->). rewrite Hw. done.
Qed.

Lemma retag_node_mut Q t q S p b F : ok b -> has p (tops t q S) b -> writes Q = true -> grants true q -> p ∉ F ->
  exists n b', retag_as Q t (node_locs p) b = (Ret n, b') /\ ok b' /\ kept F b b' /\ has p (tops n Q (tops t q S)) b'.
Proof.
  intros Hok Hh Hw Hq HF. destruct (retag_node Q t q S p b F Hok Hh) as (b' & S' & Hrun & Hok' & Hk & Hh' & _ & HS); [by rewrite Hw|done|].
  exists (b_next b), b'. split_and!; try done. intros f. specialize (Hh' f). unfold tops at 1 in Hh'. rewrite HS in Hh' by done. done.
Qed.

Lemma retag_node_shr t q S p b F : ok b -> has p (tops t q S) b -> grants false q -> p ∉ F ->
  exists n b' S', retag_shr t (node_locs p) b = (Ret n, b') /\ ok b' /\ kept F b b' /\ has p (tops n SharedRO S') b' /\
    (forall f, tops t q S f `suffix_of` S' f).
Proof.
  intros Hok Hh Hq HF. destruct (retag_node SharedRO t q S p b F Hok Hh) as (b' & S' & Hrun & Hok' & Hk & Hh' & Hs & _); try done.
  exists (b_next b), b', S'. done.
Qed.

(** A reference to one field, on top of everything else there. *)
Definition top_at (n : nat) (q : perm) (p : Ptr) (f : field) (b : borrows) : Prop :=
  exists s, b_at b (LNode p f) = (n, q) :: s.

Lemma retag_field Q t q S p f0 b F : ok b -> has p (tops t q S) b -> grants (writes Q) q -> p ∉ F ->
  exists n b', retag_as Q t [LNode p f0] b = (Ret n, b') /\ ok b' /\ kept F b b' /\ has p (tops t q S) b' /\
    top_at n Q p f0 b'.
Proof.
  intros Hok Hh Hq HF.
  destruct (retag_as_spec Q t [LNode p f0] b Hok (NoDup_singleton _)) as (b' & Hrun & Hok' & Hn & Hout & Hin).
  { intros l ->%elem_of_list_singleton. exists q, (S f0). split; [apply Hh|done]. }
  destruct (Hin (LNode p f0) q (S f0)) as (above & _ & Hb'); [left|apply Hh|done|].
  exists (b_next b), b'. split_and!; try done.
  - split.
    + intros r f Hr. apply Hout. rewrite elem_of_list_singleton. naive_solver.
    + apply Hout. by rewrite elem_of_list_singleton.
  - intros f. destruct (decide (f = f0)) as [->|Hf].
    + rewrite Hb'. apply suffix_cons_r, suffix_app_r. done.
    + rewrite Hout; [apply Hh|]. rewrite elem_of_list_singleton. naive_solver.
  - eexists. exact Hb'.
Qed.

Lemma access_field wr n q p f0 S b F : ok b -> top_at n q p f0 b -> grants wr q -> has p S b ->
  exists b', access wr n (LNode p f0) b = (Ret tt, b') /\ ok b' /\ kept F b b' /\ has p S b'.
Proof.
  intros Hok [s Hs] Hq Hh. destruct (access_top wr n q s _ b Hok Hs Hq) as (b' & Hrun & Hok' & Ha & Hn).
  exists b'. split_and!; try done.
  intros f. rewrite Ha. apply Hh.
Qed.

Lemma access_node wr t q S p b F : ok b -> has p (tops t q S) b -> grants wr q -> p ∉ F ->
  exists b', access_all wr t (node_locs p) b = (Ret tt, b') /\ ok b' /\ kept F b b' /\ has p (tops t q S) b'.
Proof.
  intros Hok Hh Hq HF.
  destruct (access_all_spec wr t (node_locs p) b Hok (node_locs_nodup p)) as (b' & Hrun & Hok' & Hn & Hout & Hin).
  { intros l (f & ->)%node_locs_elem. exists q, (S f). split; [apply Hh|done]. }
  exists b'. split_and!; try done.
  - split.
    + intros r f Hr. apply Hout, other_node. by intros ->.
    + apply Hout, len_not_node.
  - intros f. destruct (Hin (LNode p f) q (S f)) as (above & _ & ->); [rewrite node_locs_elem; eauto|apply Hh|done|].
    by apply suffix_app_r.
Qed.

Lemma new_memory_spec p b F : ok b -> p ∉ F ->
  exists b', new_memory p b = (Ret tt, b') /\ ok b' /\ kept F b b' /\ (forall q S, q <> p -> has q S b -> has q S b') /\
    (forall q n r f, q <> p -> top_at n r q f b -> top_at n r q f b').
Proof.
  intros Hok HF. eexists. split; [reflexivity|]. split_and!.
  - assert (Hbase : base < b_next b).
    { destruct (ok_at Ru b Hok LSlab) as (_ & Hlt & Hlast). apply Hlt. apply last_Some in Hlast as [l' ->]. rewrite fmap_app. set_solver. }
    split.
    + apply (ok_rules Ru b Hok).
    + intros l. cbn [b_at b_next]. case_decide; [|apply (ok_at Ru b Hok)].
      split_and!; [apply NoDup_singleton| |done]. by intros t ->%elem_of_list_singleton.
    + intros HR. destruct (ok_tree Ru b Hok HR) as [Hp Hl]. cbn [b_at b_next b_path b_perm]. split; [done|].
      intros l. case_decide; [|apply Hl]. split.
      * intros t ->%elem_of_list_singleton. cbn [fst]. split; rewrite Hp; [left|]. intros u ->%elem_of_list_singleton. by rewrite Hp.
      * split; [done|]. right. rewrite Hp. split; [|by intros u q ?%elem_of_nil]. intros u ->%elem_of_list_singleton. by left.
  - split.
    + intros q f Hq. cbn [b_at]. rewrite decide_False; [done|]. apply other_node. by intros ->.
    + cbn [b_at]. rewrite decide_False; [done|]. apply len_not_node.
  - intros q S Hq Hh f. cbn [b_at]. rewrite decide_False by (by apply other_node). apply Hh.
  - intros q n r f Hq [s Hs]. exists s. cbn [b_at]. by rewrite decide_False by (by apply other_node).
Qed.

Section proofs.
Context {K V : Type}.
Implicit Types t l r : ptree K V.
Implicit Types m : simple K V.

Lemma bind_br {A B} (f : M borrows A) (g : A -> M (bsimple K V) B) m b y b' :
  f b = (Ret y, b') -> sbind (on_br f) g (m, b) = g y (m, b').
Proof. intros H. unfold sbind, on_br, zoom. cbn [snd fst]. by rewrite H. Qed.
Lemma bind_peek {B} p n (g : inner K V -> M (bsimple K V) B) m b :
  peek m p = Ret n -> sbind (bs_peek p) g (m, b) = g n (m, b).
Proof. intros H. unfold sbind at 1, bs_peek, sbind, sget, slift. cbn [fst]. by rewrite H. Qed.
Lemma bind_run {S A B} (f : M S A) (g : A -> M S B) s y s' : f s = (Ret y, s') -> sbind f g s = g y s'.
Proof. intros H. unfold sbind. by rewrite H. Qed.

(** [g] does what [f] does; the nodes [F] keep their stacks. *)
Definition follows {A} (f : M (simple K V) A) (g : M (bsimple K V) A) m b (F : list Ptr) (Q : A -> simple K V -> borrows -> Prop) : Prop :=
  exists b', g (m, b) = ((f m).1, ((f m).2, b')) /\ ok b' /\ kept F b b' /\ (forall y, (f m).1 = Ret y -> Q y (f m).2 b').

Lemma follows_bind {A B} (f : M (simple K V) A) (g : M (bsimple K V) A) (f' : A -> M (simple K V) B) g' m b F P E Q Q' :
  follows f g m b F Q -> wp f P E m ->
  (forall y m1 b1, P y m1 -> ok b1 -> kept F b b1 -> Q y m1 b1 -> follows (f' y) (g' y) m1 b1 F Q') ->
  follows (sbind f f') (sbind g g') m b F Q'.
Proof.
  intros (b1 & Hg & Hok1 & Hk1 & HQ) Hwp Hnext. unfold follows, sbind, wp in *. rewrite Hg.
  destruct (f m) as [[y| | | |] m1] eqn:Ef; cbn [fst snd] in *; try by (exists b1).
  destruct (Hnext y m1 b1) as (b2 & Hg2 & Hok2 & Hk2 & HQ2); [done|done|done|by apply HQ|].
  exists b2. split_and!; try done. by eapply kept_trans.
Qed.

(** Steps of one side only. *)
Lemma follows_br {A B} (f : M (simple K V) B) (h : M borrows A) g m b F Q y b1 :
  h b = (Ret y, b1) -> kept F b b1 -> follows f (g y) m b1 F Q -> follows f (sbind (on_br h) g) m b F Q.
Proof.
  intros Hh Hk (b' & Hg & Hok & Hk' & HQ). exists b'. split_and!; try done.
  - by rewrite (bind_br _ _ _ _ _ _ Hh).
  - by eapply kept_trans.
Qed.
Lemma follows_left {A B} (f : M (simple K V) A) (f' : A -> M (simple K V) B) g m b F Q y m1 :
  f m = (Ret y, m1) -> m1 = m -> follows (f' y) g m b F Q -> follows (sbind f f') g m b F Q.
Proof. intros Hf -> (b' & Hg & H). exists b'. by rewrite (bind_run _ _ _ _ _ Hf). Qed.
Lemma follows_peek {B} p n (f : M (simple K V) B) g m b F Q :
  peek m p = Ret n -> follows f (g n) m b F Q -> follows f (sbind (bs_peek p) g) m b F Q.
Proof. intros Hp (b' & Hg & H). exists b'. by rewrite (bind_peek _ _ _ _ _ Hp). Qed.
Lemma follows_h {A} (f : M (simple K V) A) m b F (Q : A -> simple K V -> borrows -> Prop) : ok b -> (forall y m1, Q y m1 b) ->
  follows f (on_h f) m b F Q.
Proof. intros Hok HQ. exists b. unfold on_h, zoom. cbn [fst snd]. by destruct (f m). Qed.
Lemma follows_ret {A} (x : A) m b F (Q : A -> simple K V -> borrows -> Prop) : ok b -> Q x m b -> follows (sret x) (sret x) m b F Q.
Proof. intros Hok HQ. exists b. split_and!; try done. intros y [= <-]. done. Qed.
Lemma follows_lift {A} (x : res A) m b F (Q : A -> simple K V -> borrows -> Prop) : ok b -> (forall y, x = Ret y -> Q y m b) ->
  follows (slift x) (slift x) m b F Q.
Proof. intros Hok HQ. by exists b. Qed.
Lemma follows_bind' {A B} (f : M (simple K V) A) (g : M (bsimple K V) A) (f' : A -> M (simple K V) B) g' m b F Q Q' :
  follows f g m b F Q ->
  (forall y m1 b1, f m = (Ret y, m1) -> ok b1 -> kept F b b1 -> Q y m1 b1 -> follows (f' y) (g' y) m1 b1 F Q') ->
  follows (sbind f f') (sbind g g') m b F Q'.
Proof.
  intros (b1 & Hg & Hok1 & Hk1 & HQ) Hnext. unfold follows, sbind in *. rewrite Hg.
  destruct (f m) as [[y| | | |] m1] eqn:Ef; cbn [fst snd] in *; try by (exists b1).
  destruct (Hnext y m1 b1) as (b2 & Hg2 & Hok2 & Hk2 & HQ2); [done|done|done|by apply HQ|].
  exists b2. split_and!; try done. by eapply kept_trans.
Qed.


Lemma follows_wp {A} (f : M (simple K V) A) g m b F (Q : A -> simple K V -> borrows -> Prop) P E :
  follows f g m b F Q -> wp f P E m -> follows f g m b F (fun y m' b' => Q y m' b' /\ P y m').
Proof.
  intros (b' & Hg & Hok & Hk & HQ) Hwp. exists b'. split_and!; try done. intros y Hy. split; [by apply HQ|].
  unfold wp in Hwp. destruct (f m) as [? m1]. cbn in *. by subst.
Qed.

(** ** node.rs *)

(** The references that [left_mut] and the others make first. *)
Lemma field_ref Q n q S p f0 b F : ok b -> has p (tops n q S) b -> grants (writes Q) q -> grants (writes Q) Q -> p ∉ F ->
  exists s b1 x b2, retag_as Q n (node_locs p) b = (Ret s, b1) /\ retag_as Q s [LNode p f0] b1 = (Ret x, b2) /\
    ok b2 /\ kept F b b1 /\ kept F b1 b2 /\ has p (tops n q S) b2 /\ top_at x Q p f0 b2.
Proof.
  intros Hok Hh Hq HQ HF.
  destruct (retag_node Q n q S p b F Hok Hh Hq HF) as (b1 & S' & Hrun1 & Hok1 & Hk1 & Hh1 & Hs & _).
  destruct (retag_field Q (b_next b) Q S' p f0 b1 F Hok1 Hh1 HQ HF) as (x & b2 & Hrun2 & Hok2 & Hk2 & Hh2 & Ht).
  exists (b_next b), b1, x, b2. split_and!; try done. eapply has_weaken; [exact Hs|]. by eapply has_below.
Qed.

Lemma bs_key_spec n q S p x m b F : ok b -> has p (tops n q S) b -> grants false q -> p ∉ F -> peek m p = Ret x ->
  exists b', bs_key n p (m, b) = (Ret (n_key x), (m, b')) /\ ok b' /\ kept F b b' /\ has p S b' /\
    (q = SharedRO -> has p (tops n q S) b') /\ (q <> SharedRO -> has p (tops n q S) b').
Proof.
  intros Hok Hh Hq HF Hx. unfold bs_key, retag_shr.
  destruct (field_ref SharedRO n q S p FKey b F Hok Hh Hq ltac:(done) HF) as (s & b1 & k & b2 & Hr1 & Hr2 & Hok2 & Hk1 & Hk2 & Hh2 & Ht).
  rewrite (bind_br _ _ _ _ _ _ Hr1), (bind_br _ _ _ _ _ _ Hr2).
  destruct (access_field false k SharedRO p FKey _ b2 F Hok2 Ht ltac:(done) Hh2) as (b3 & Hr3 & Hok3 & Hk3 & Hh3).
  rewrite (bind_br _ _ _ _ _ _ Hr3), (bind_peek _ _ _ _ _ Hx). exists b3. split_and!; try done.
  - eapply kept_trans; [|exact Hk3]. by eapply kept_trans.
  - by eapply has_below.
Qed.

Lemma bs_child_left_spec n q S p x m b F : ok b -> has p (tops n q S) b -> grants false q -> p ∉ F -> peek m p = Ret x ->
  (forall c, n_left x = Some c -> c ∉ F /\ c <> p) ->
  exists b', bs_child_left n p (m, b) = (Ret (n_left x), (m, b')) /\ ok b' /\ kept F b b' /\ has p (tops n q S) b'.
Proof.
  intros Hok Hh Hq HF Hx Hc. unfold bs_child_left, retag_shr.
  destruct (field_ref SharedRO n q S p FLeft b F Hok Hh Hq ltac:(done) HF) as (s & b1 & k & b2 & Hr1 & Hr2 & Hok2 & Hk1 & Hk2 & Hh2 & Ht).
  rewrite (bind_br _ _ _ _ _ _ Hr1), (bind_br _ _ _ _ _ _ Hr2).
  destruct (access_field false k SharedRO p FLeft _ b2 F Hok2 Ht ltac:(done) Hh2) as (b3 & Hr3 & Hok3 & Hk3 & Hh3).
  rewrite (bind_br _ _ _ _ _ _ Hr3), (bind_peek _ _ _ _ _ Hx).
  assert (Hk : kept F b b3) by (eapply kept_trans; [|exact Hk3]; by eapply kept_trans).
  destruct (n_left x) as [c|]; [|by exists b3].
  destruct (Hc c eq_refl) as [HcF Hcp].
  destruct (retag_node_shr base SharedRW (fun _ => []) c b3 (p :: F) Hok3 (has_bottom _ _ Hok3) ltac:(done)) as (y & b4 & S' & Hr4 & Hok4 & Hk4 & _ & _).
  { rewrite not_elem_of_cons. done. }
  unfold retag_shr in Hr4. rewrite (bind_br _ _ _ _ _ _ Hr4). exists b4. split_and!; try done.
  - eapply kept_trans; [exact Hk|]. eapply kept_sub; [|exact Hk4]. set_solver.
  - eapply kept_has; [exact Hk4|left|done].
Qed.

Lemma bs_left_mut_spec n q S p x m b F : ok b -> has p (tops n q S) b -> grants true q -> p ∉ F -> peek m p = Ret x ->
  (forall c, n_left x = Some c -> c ∉ F /\ c <> p) ->
  exists y b', bs_left_mut n p (m, b) = (Ret y, (m, b')) /\ ok b' /\ kept F b b' /\ has p (tops n q S) b' /\
    snd <$> y = n_left x /\ (forall tc c, y = Some (tc, c) -> has c (tops tc Unique bottom) b').
Proof.
  intros Hok Hh Hq HF Hx Hc. unfold bs_left_mut, retag_mut.
  destruct (field_ref Unique n q S p FLeft b F Hok Hh Hq (or_introl eq_refl) HF) as (s & b1 & k & b2 & Hr1 & Hr2 & Hok2 & Hk1 & Hk2 & Hh2 & Ht).
  rewrite (bind_br _ _ _ _ _ _ Hr1), (bind_br _ _ _ _ _ _ Hr2).
  destruct (access_field false k Unique p FLeft _ b2 F Hok2 Ht ltac:(done) Hh2) as (b3 & Hr3 & Hok3 & Hk3 & Hh3).
  rewrite (bind_br _ _ _ _ _ _ Hr3), (bind_peek _ _ _ _ _ Hx).
  assert (Hk : kept F b b3) by (eapply kept_trans; [|exact Hk3]; by eapply kept_trans).
  destruct (n_left x) as [c|].
  2:{ exists None, b3. split_and!; try done. }
  destruct (Hc c eq_refl) as [HcF Hcp].
  destruct (retag_node_mut Unique base SharedRW (fun _ => []) c b3 (p :: F) Hok3 (has_bottom _ _ Hok3) ltac:(done)) as (y & b4 & Hr4 & Hok4 & Hk4 & Hh4).
  { right. done. }
  { rewrite not_elem_of_cons. done. }
  rewrite (bind_br _ _ _ _ _ _ Hr4). exists (Some (y, c)), b4. split_and!; try done.
  - eapply kept_trans; [exact Hk|]. eapply kept_sub; [|exact Hk4]. set_solver.
  - eapply kept_has; [exact Hk4|left|done].
  - intros ? ? [= <- <-]. exact Hh4.
Qed.
Lemma bs_right_mut_spec n q S p x m b F : ok b -> has p (tops n q S) b -> grants true q -> p ∉ F -> peek m p = Ret x ->
  (forall c, n_right x = Some c -> c ∉ F /\ c <> p) ->
  exists y b', bs_right_mut n p (m, b) = (Ret y, (m, b')) /\ ok b' /\ kept F b b' /\ has p (tops n q S) b' /\
    snd <$> y = n_right x /\ (forall tc c, y = Some (tc, c) -> has c (tops tc Unique bottom) b').
Proof.
  intros Hok Hh Hq HF Hx Hc. unfold bs_right_mut, retag_mut.
  destruct (field_ref Unique n q S p FRight b F Hok Hh Hq (or_introl eq_refl) HF) as (s & b1 & k & b2 & Hr1 & Hr2 & Hok2 & Hk1 & Hk2 & Hh2 & Ht).
  rewrite (bind_br _ _ _ _ _ _ Hr1), (bind_br _ _ _ _ _ _ Hr2).
  destruct (access_field false k Unique p FRight _ b2 F Hok2 Ht ltac:(done) Hh2) as (b3 & Hr3 & Hok3 & Hk3 & Hh3).
  rewrite (bind_br _ _ _ _ _ _ Hr3), (bind_peek _ _ _ _ _ Hx).
  assert (Hk : kept F b b3) by (eapply kept_trans; [|exact Hk3]; by eapply kept_trans).
  destruct (n_right x) as [c|].
  2:{ exists None, b3. split_and!; try done. }
  destruct (Hc c eq_refl) as [HcF Hcp].
  destruct (retag_node_mut Unique base SharedRW (fun _ => []) c b3 (p :: F) Hok3 (has_bottom _ _ Hok3) ltac:(done)) as (y & b4 & Hr4 & Hok4 & Hk4 & Hh4).
  { right. done. }
  { rewrite not_elem_of_cons. done. }
  rewrite (bind_br _ _ _ _ _ _ Hr4). exists (Some (y, c)), b4. split_and!; try done.
  - eapply kept_trans; [exact Hk|]. eapply kept_sub; [|exact Hk4]. set_solver.
  - eapply kept_has; [exact Hk4|left|done].
  - intros ? ? [= <- <-]. exact Hh4.
Qed.

Lemma follows_unbox p m b F : ok b -> p ∉ F -> follows (unbox p) (bs_unbox p) m b F (fun _ _ _ => True).
Proof.
  intros Hok HF. unfold bs_unbox.
  destruct (access_node true base SharedRW (fun _ => []) p b F Hok (has_bottom _ _ Hok) (grants_rw _) HF) as (b1 & Hr & Hok1 & Hk1 & _).
  eapply follows_br; [exact Hr|done|]. by apply follows_h.
Qed.

Lemma follows_unbox_opt o m b F : ok b -> (forall c, o = Some c -> c ∉ F) ->
  follows (unbox_opt o) (bs_unbox_opt o) m b F (fun _ _ _ => True).
Proof.
  intros Hok HF. destruct o as [c|]; cbn [unbox_opt bs_unbox_opt]; [|by apply follows_ret].
  eapply follows_bind'; [by apply follows_unbox, HF|]. intros y m1 b1 _ Hok1 _ _. by apply follows_ret.
Qed.

Lemma follows_mono {A} (f : M (simple K V) A) g m b F F' (Q Q' : A -> simple K V -> borrows -> Prop) :
  follows f g m b F' Q -> F ⊆ F' -> (forall y m' b', kept F' b b' -> Q y m' b' -> Q' y m' b') -> follows f g m b F Q'.
Proof.
  intros (b' & Hg & Hok & Hk & HQ) HF HQ'. exists b'. split_and!; try done; [by eapply kept_sub|].
  intros y Hy. by apply HQ', HQ.
Qed.

Lemma follows_take_left n q S p x m b F : ok b -> has p (tops n q S) b -> grants true q -> p ∉ F -> peek m p = Ret x ->
  (forall c, n_left x = Some c -> c ∉ F /\ c <> p) ->
  follows (take_left p) (bs_take_left n p) m b F (fun _ _ b' => has p (tops n q S) b').
Proof.
  intros Hok Hh Hq HF Hx Hc. unfold bs_take_left, take_left, retag_mut.
  destruct (field_ref Unique n q S p FLeft b F Hok Hh Hq (or_introl eq_refl) HF) as (s & b1 & k & b2 & Hr1 & Hr2 & Hok2 & Hk1 & Hk2 & Hh2 & Ht).
  eapply follows_br; [exact Hr1|done|]. eapply follows_br; [exact Hr2|done|].
  destruct (access_field true k Unique p FLeft _ b2 F Hok2 Ht (or_introl eq_refl) Hh2) as (b3 & Hr3 & Hok3 & Hk3 & Hh3).
  eapply follows_br; [exact Hr3|done|]. eapply follows_left; [reflexivity|done|].
  eapply follows_left; [unfold slift; rewrite Hx; reflexivity|done|]. eapply follows_peek; [exact Hx|].
  eapply follows_bind'; [by apply (follows_h _ _ _ _ (fun _ _ b' => b' = b3))|]. intros [] m1 ? _ _ _ ->.
  eapply follows_mono; [apply (follows_unbox_opt _ _ _ (p :: F))| |].
  - done.
  - intros c Hcc. destruct (Hc c Hcc). rewrite not_elem_of_cons. done.
  - set_solver.
  - intros y ? b' Hk _. eapply kept_has; [exact Hk|left|done].
Qed.
Lemma follows_take_right n q S p x m b F : ok b -> has p (tops n q S) b -> grants true q -> p ∉ F -> peek m p = Ret x ->
  (forall c, n_right x = Some c -> c ∉ F /\ c <> p) ->
  follows (take_right p) (bs_take_right n p) m b F (fun _ _ b' => has p (tops n q S) b').
Proof.
  intros Hok Hh Hq HF Hx Hc. unfold bs_take_right, take_right, retag_mut.
  destruct (field_ref Unique n q S p FRight b F Hok Hh Hq (or_introl eq_refl) HF) as (s & b1 & k & b2 & Hr1 & Hr2 & Hok2 & Hk1 & Hk2 & Hh2 & Ht).
  eapply follows_br; [exact Hr1|done|]. eapply follows_br; [exact Hr2|done|].
  destruct (access_field true k Unique p FRight _ b2 F Hok2 Ht (or_introl eq_refl) Hh2) as (b3 & Hr3 & Hok3 & Hk3 & Hh3).
  eapply follows_br; [exact Hr3|done|]. eapply follows_left; [reflexivity|done|].
  eapply follows_left; [unfold slift; rewrite Hx; reflexivity|done|]. eapply follows_peek; [exact Hx|].
  eapply follows_bind'; [by apply (follows_h _ _ _ _ (fun _ _ b' => b' = b3))|]. intros [] m1 ? _ _ _ ->.
  eapply follows_mono; [apply (follows_unbox_opt _ _ _ (p :: F))| |].
  - done.
  - intros c Hcc. destruct (Hc c Hcc). rewrite not_elem_of_cons. done.
  - set_solver.
  - intros y ? b' Hk _. eapply kept_has; [exact Hk|left|done].
Qed.

(** All addresses of [F] are in use. *)
Definition live m (F : list Ptr) : Prop := forall q, q ∈ F -> is_Some (s_mem m !! q).

Lemma box_new_fresh e n m y m1 : box_new e n m = (Ret y, m1) ->
  s_mem m !! y = None /\ s_mem m1 = <[y := n]> (s_mem m).
Proof.
  unfold box_new, sbind, sget. destruct (2 ^ 60 <=? _)%N; [done|]. destruct (b_addr e (s_boxes m)) as [a|]; [|done].
  unfold smod, sret. intros [= <- <-]. split; [|done].
  destruct (s_mem m !! boxed a) eqn:Ha; [apply unused_fresh|done].
Qed.

(** A new box is away from everything in use. *)
Lemma follows_box_new e n m b F : ok b -> live m F ->
  follows (box_new e n) (bs_box_new e n) m b F (fun y _ b' => s_mem m !! y = None /\
    (forall p S, is_Some (s_mem m !! p) -> has p S b -> has p S b') /\
    (forall p x q f, is_Some (s_mem m !! p) -> top_at x q p f b -> top_at x q p f b')).
Proof.
  intros Hok HF. unfold follows, bs_box_new, sbind, on_h, on_br, zoom. cbn [fst snd].
  destruct (box_new e n m) as [[y| | | |] m1] eqn:Hb; cbn [fst snd]; try by (exists b).
  destruct (box_new_fresh _ _ _ _ _ Hb) as [Hy _].
  destruct (new_memory_spec y b F Hok) as (b1 & Hr & Hok1 & Hk1 & Hh1 & Ht1).
  { intros Hin. destruct (HF y Hin) as [? Hs]. congruence. }
  rewrite Hr. exists b1. split_and!; try done. intros ? [= <-]. split_and!; [done| |].
  - intros p S [? Hp]. apply Hh1. intros ->. congruence.
  - intros p x q f [? Hp]. apply Ht1. intros ->. congruence.
Qed.
Lemma follows_box_opt e o m b F : ok b -> live m F ->
  follows (box_opt e o) (bs_box_opt e o) m b F (fun y _ b' => (forall c, y = Some c -> s_mem m !! c = None) /\
    (forall p S, is_Some (s_mem m !! p) -> has p S b -> has p S b') /\
    (forall p x q f, is_Some (s_mem m !! p) -> top_at x q p f b -> top_at x q p f b')).
Proof.
  intros Hok HF. destruct o as [n|]; cbn [box_opt bs_box_opt]; [|by apply follows_ret].
  eapply follows_bind'; [by apply follows_box_new|]. intros y m1 b1 _ Hok1 Hk1 (H1 & H2 & H3).
  apply follows_ret; [done|]. split_and!; try done. by intros ? [= <-].
Qed.
Lemma box_opt_peek e o m y m1 p x : box_opt e o m = (Ret y, m1) -> peek m p = Ret x -> peek m1 p = Ret x.
Proof.
  destruct o as [n|]; cbn [box_opt]; [|by intros [= <- <-]]. unfold sbind.
  destruct (box_new e n m) as [[z| | | |] m'] eqn:Hb; try done. intros [= <- <-].
  destruct (box_new_fresh _ _ _ _ _ Hb) as [Hz Hm]. unfold peek. rewrite Hm.
  destruct (decide (z = p)) as [->|]; [by rewrite Hz|]. by rewrite lookup_insert_ne.
Qed.
Lemma peek_live m p x : peek m p = Ret x -> is_Some (s_mem m !! p).
Proof. unfold peek. by destruct (s_mem m !! p). Qed.

Lemma follows_replace_left e n q S p x o m b F : ok b -> has p (tops n q S) b -> grants true q -> p ∉ F -> peek m p = Ret x ->
  live m F -> (forall c, n_left x = Some c -> c ∉ F) ->
  follows (replace_left e p o) (bs_replace_left e n p o) m b F (fun _ _ _ => True).
Proof.
  intros Hok Hh Hq HF Hx Hlive Hc. unfold bs_replace_left, replace_left, retag_mut.
  destruct (field_ref Unique n q S p FLeft b F Hok Hh Hq (or_introl eq_refl) HF) as (s & b1 & k & b2 & Hr1 & Hr2 & Hok2 & Hk1 & Hk2 & Hh2 & Ht).
  eapply follows_br; [exact Hr1|done|]. eapply follows_br; [exact Hr2|done|].
  eapply follows_bind'; [by apply follows_box_opt|]. intros y m1 b3 Hbox Hok3 Hk3 (_ & Hh3 & Ht3).
  pose proof (box_opt_peek _ _ _ _ _ _ _ Hbox Hx) as Hx1. apply peek_live in Hx.
  destruct (access_field true k Unique p FLeft (tops n q S) b3 F Hok3 (Ht3 _ _ _ _ Hx Ht) (or_introl eq_refl) (Hh3 _ _ Hx Hh2)) as (b4 & Hr4 & Hok4 & Hk4 & Hh4).
  eapply follows_br; [exact Hr4|done|]. eapply follows_left; [reflexivity|done|].
  eapply follows_left; [unfold slift; rewrite Hx1; reflexivity|done|]. eapply follows_peek; [exact Hx1|].
  eapply follows_bind'; [by apply (follows_h _ _ _ _ (fun _ _ b' => b' = b4))|]. intros [] m2 ? _ _ _ ->.
  by apply follows_unbox_opt.
Qed.
Lemma follows_replace_right e n q S p x o m b F : ok b -> has p (tops n q S) b -> grants true q -> p ∉ F -> peek m p = Ret x ->
  live m F -> (forall c, n_right x = Some c -> c ∉ F) ->
  follows (replace_right e p o) (bs_replace_right e n p o) m b F (fun _ _ _ => True).
Proof.
  intros Hok Hh Hq HF Hx Hlive Hc. unfold bs_replace_right, replace_right, retag_mut.
  destruct (field_ref Unique n q S p FRight b F Hok Hh Hq (or_introl eq_refl) HF) as (s & b1 & k & b2 & Hr1 & Hr2 & Hok2 & Hk1 & Hk2 & Hh2 & Ht).
  eapply follows_br; [exact Hr1|done|]. eapply follows_br; [exact Hr2|done|].
  eapply follows_bind'; [by apply follows_box_opt|]. intros y m1 b3 Hbox Hok3 Hk3 (_ & Hh3 & Ht3).
  pose proof (box_opt_peek _ _ _ _ _ _ _ Hbox Hx) as Hx1. apply peek_live in Hx.
  destruct (access_field true k Unique p FRight (tops n q S) b3 F Hok3 (Ht3 _ _ _ _ Hx Ht) (or_introl eq_refl) (Hh3 _ _ Hx Hh2)) as (b4 & Hr4 & Hok4 & Hk4 & Hh4).
  eapply follows_br; [exact Hr4|done|]. eapply follows_left; [reflexivity|done|].
  eapply follows_left; [unfold slift; rewrite Hx1; reflexivity|done|]. eapply follows_peek; [exact Hx1|].
  eapply follows_bind'; [by apply (follows_h _ _ _ _ (fun _ _ b' => b' = b4))|]. intros [] m2 ? _ _ _ ->.
  by apply follows_unbox_opt.
Qed.

Lemma follows_set_left_val e n x m b F : ok b -> live m F ->
  follows (set_left_val e n x) (bs_set_left_val e n x) m b F (fun _ _ _ => True).
Proof.
  intros Hok HF. unfold set_left_val, bs_set_left_val.
  eapply follows_bind'; [by apply (follows_lift _ _ _ _ (fun _ _ b' => b' = b))|]. intros [] m1 ? Hd _ _ ->.
  unfold slift in Hd. injection Hd as _ <-.
  eapply follows_bind'; [by apply follows_box_new|]. intros y m2 b2 _ Hok2 _ _. by apply follows_ret.
Qed.
Lemma follows_set_right_val e n x m b F : ok b -> live m F ->
  follows (set_right_val e n x) (bs_set_right_val e n x) m b F (fun _ _ _ => True).
Proof.
  intros Hok HF. unfold set_right_val, bs_set_right_val.
  eapply follows_bind'; [by apply (follows_lift _ _ _ _ (fun _ _ b' => b' = b))|]. intros [] m1 ? Hd _ _ ->.
  unfold slift in Hd. injection Hd as _ <-.
  eapply follows_bind'; [by apply follows_box_new|]. intros y m2 b2 _ Hok2 _ _. by apply follows_ret.
Qed.
Lemma follows_move_right_child m b F : ok b -> right_child_place ∉ F ->
  follows (move_out right_child_place) bs_move_right_child m b F (fun _ _ _ => True).
Proof.
  intros Hok HF. unfold bs_move_right_child.
  destruct (access_node false base SharedRW (fun _ => []) right_child_place b F Hok (has_bottom _ _ Hok) ltac:(done) HF) as (b1 & Hr & Hok1 & Hk1 & _).
  eapply follows_br; [exact Hr|done|]. by apply follows_h.
Qed.


(** ** The search *)

Lemma follows_right {A B} (f : M (simple K V) B) (g : M (bsimple K V) A) g' m b F Q y b1 :
  g (m, b) = (Ret y, (m, b1)) -> kept F b b1 -> follows f (g' y) m b1 F Q -> follows f (sbind g g') m b F Q.
Proof.
  intros Hg Hk (b' & Hg' & Hok & Hk' & HQ). exists b'. split_and!; try done.
  - by rewrite (bind_run _ _ _ _ _ Hg).
  - by eapply kept_trans.
Qed.

(** The raw pointer [x] may be used; below it, the root has the stacks [R]. *)
Definition raw_at (R : field -> stack) (t : nat) (p : Ptr) (b : borrows) : Prop :=
  exists S, has p (tops t SharedRW S) b /\ (p = root_place -> forall f, R f `suffix_of` S f).
Definition raw_opt R (x : option (nat * Ptr)) (o : option Ptr) (b : borrows) : Prop :=
  snd <$> x = o /\ forall tg p, x = Some (tg, p) -> raw_at R tg p b.

Lemma raw_at_kept R tg p b b' F : kept F b b' -> p ∈ F -> raw_at R tg p b -> raw_at R tg p b'.
Proof. intros Hk Hp (S & Hh & HR). exists S. split; [by eapply kept_has|done]. Qed.
Lemma raw_opt_kept R x o b b' F : kept F b b' -> (forall p, o = Some p -> p ∈ F) -> raw_opt R x o b -> raw_opt R x o b'.
Proof.
  intros Hk Hp [Hx Hr]. split; [done|]. intros t p ->. eapply raw_at_kept; [exact Hk|apply Hp; by rewrite <- Hx|by apply Hr].
Qed.

Lemma rootp_ptrs t p : rootp t = Some p -> p ∈ ptrs t.
Proof. destruct t; [done|]. intros [= ->]. left. Qed.

Lemma as_ptr_spec R y o m b F : ok b -> snd <$> y = o -> (forall tc c, y = Some (tc, c) -> has c (tops tc Unique bottom) b) ->
  (forall c, o = Some c -> c ∉ F /\ c <> root_place) ->
  exists x b', bs_as_ptr_mut y (m, b) = (Ret x, (m, b')) /\ ok b' /\ kept F b b' /\ raw_opt R x o b'.
Proof.
  intros Hok Hy Hh Ho. destruct y as [[tc c]|]; cbn [bs_as_ptr_mut].
  2:{ exists None, b. split_and!; try done. }
  cbn in Hy. subst o. destruct (Ho c eq_refl) as [HF Hroot].
  destruct (retag_node_mut SharedRW tc Unique bottom c b F Hok (Hh _ _ eq_refl)) as (n & b' & Hr & Hok' & Hk & Hh'); [done|by left|done|].
  unfold retag_raw. rewrite (bind_br _ _ _ _ _ _ Hr). exists (Some (n, c)), b'. split_and!; try done.
  split; [done|]. intros ? ? [= <- <-]. eexists. split; [exact Hh'|done].
Qed.

Definition find_post (R : field -> stack) m (b : borrows) (y : res (list (frame K V) * ptree K V))
    (z : (res (option (nat * Ptr) * option (nat * Ptr)) * bsimple K V)%type) : Prop :=
  match y with
  | Ret (C', s) => exists par' cur' b', z = (Ret (par', cur'), (m, b')) /\
      ok b' /\ kept [] b b' /\ raw_opt R par' (cparent C') b' /\ raw_opt R cur' (rootp s) b'
  | Panic w => exists b', z = (Panic w, (m, b')) /\ ok b' /\ kept [] b b'
  | _ => False
  end.
Lemma find_later R m b b1 y run : kept [] b b1 -> find_post R m b1 y run -> find_post R m b y run.
Proof.
  intros Hk. destruct y as [[C' s]|z| | |]; cbn [find_post]; try done.
  - intros (par' & cur' & b' & Hrun & Hok & Hk' & H). exists par', cur', b'. split_and!; try apply H; try done. by eapply kept_trans.
  - intros (b' & Hrun & Hok & Hk'). exists b'. split_and!; try done. by eapply kept_trans.
Qed.

Lemma bs_remove_find_spec R m o sub : forall C fuel i b par cur, sreadable m sub -> pheight sub < fuel -> ok b ->
  NoDup (ptrs sub) -> (forall p, cparent C = Some p -> p ∉ ptrs sub) -> root_place ∉ (below sub).*1 ->
  raw_opt R par (cparent C) b -> raw_opt R cur (rootp sub) b ->
  find_post R m b (tfind o i C sub) (bs_remove_find o fuel i par cur (m, b)).
Proof.
  induction sub as [|l IHl p k v r IHr]; intros C [|fuel] i b par cur Hrd Hf Hok Hnd Hpar Hroot Hrp Hrc; cbn [pheight] in Hf; try lia.
  { destruct Hrc as [Hc _]. destruct cur as [[]|]; [done|]. cbn [tfind bs_remove_find]. exists par, None, b. split_and!; try done. }
  destruct Hrc as [Hc Hraw]. destruct cur as [[t q]|]; [|done]. cbn in Hc. injection Hc as ->.
  destruct (Hraw _ _ eq_refl) as (S0 & Hh & HR).
  pose proof (sreadable_root _ _ _ _ _ _ Hrd) as Hx.
  assert (Hp : forall x, cparent C = Some x -> x <> p /\ x ∉ ptrs l /\ x ∉ ptrs r).
  { intros x Hxp. specialize (Hpar x Hxp). unfold ptrs in *. simpl in Hpar. rewrite fmap_app in Hpar. set_solver. }
  assert (Hnd' : NoDup (ptrs l) /\ NoDup (ptrs r) /\ p ∉ ptrs l /\ p ∉ ptrs r).
  { unfold ptrs in *. simpl in Hnd. rewrite fmap_app in Hnd. apply NoDup_cons in Hnd as [Hn1 Hn2].
    apply NoDup_app in Hn2 as (? & _ & ?). set_solver. }
  destruct Hnd' as (Hndl & Hndr & Hpl & Hpr).
  cbn [below] in Hroot. rewrite fmap_app in Hroot. fold (ptrs l) (ptrs r) in Hroot.
  set (F := option_list (cparent C)).
  assert (HFp : p ∉ F). { unfold F. destruct (cparent C) as [x|]; cbn; [|apply not_elem_of_nil]. destruct (Hp x eq_refl). rewrite elem_of_list_singleton. done. }
  assert (HF : forall x, cparent C = Some x -> x ∈ F). { unfold F. intros x ->. cbn. left. }
  cbn [tfind bs_remove_find].
  destruct (retag_node_mut Unique t SharedRW S0 p b F Hok Hh) as (n & b1 & Hr1 & Hok1 & Hk1 & Hh1); [done|by right|done|].
  unfold retag_mut. rewrite (bind_br _ _ _ _ _ _ Hr1).
  destruct (bs_key_spec n Unique _ p _ m b1 F Hok1 Hh1 ltac:(done) HFp Hx) as (b2 & Hr2 & Hok2 & Hk2 & _ & _ & Hh2).
  rewrite (bind_run _ _ _ _ _ Hr2). cbn [n_key]. specialize (Hh2 ltac:(done)).
  assert (Hk : kept F b b2) by (by eapply kept_trans).
  unfold ask. unfold sbind at 1, slift at 1. destruct (o i k) as [c|]; cbn [rbind].
  2:{ exists b2. split_and!; try done. eapply kept_sub; [|exact Hk]. set_solver. }
  assert (Hparb : raw_opt R par (cparent C) b2) by (by eapply raw_opt_kept).
  assert (Hcurb : forall b', has p (tops n Unique (tops t SharedRW S0)) b' -> raw_opt R (Some (t, p)) (Some p) b').
  { intros b' Hk'. split; [done|]. intros ? ? [= <- <-]. exists S0. split; [|done]. by eapply has_below. }
  destruct c.
  - exists par, (Some (t, p)), b2. split_and!; try done.
    + eapply kept_sub; [|exact Hk]. set_solver.
    + by apply Hcurb.
  - destruct (bs_left_mut_spec n Unique _ p _ m b2 F Hok2 Hh2 ltac:(by left) HFp Hx) as (y & b3 & Hr3 & Hok3 & Hk3 & Hh3 & Hy & Hc).
    { cbn [n_left]. intros c Hc%rootp_ptrs. split; [|by intros ->]. unfold F. destruct (cparent C) as [x|]; cbn; [|apply not_elem_of_nil].
      destruct (Hp x eq_refl) as (_ & ? & _). rewrite elem_of_list_singleton. by intros ->. }
    rewrite (bind_run _ _ _ _ _ Hr3).
    destruct (as_ptr_spec R y _ m b3 (p :: F) Hok3 Hy Hc) as (x & b4 & Hr4 & Hok4 & Hk4 & Hraw4).
    { cbn [n_left]. intros c Hcc%rootp_ptrs. split; [|intros ->; set_solver]. unfold F. destruct (cparent C) as [x|]; cbn; [|set_solver].
      destruct (Hp x eq_refl) as (_ & ? & _). set_solver. }
    rewrite (bind_run _ _ _ _ _ Hr4).
    assert (Hk' : kept [] b b4).
    { eapply kept_trans; [eapply kept_sub; [|exact Hk]; set_solver|]. eapply kept_trans; [eapply kept_sub; [|exact Hk3]; set_solver|].
      eapply kept_sub; [|exact Hk4]. set_solver. }
    eapply find_later; [exact Hk'|]. apply (IHl (FL p k v r :: C)); try done; [by eapply sreadable_l|lia| | |].
    + cbn. by intros ? [= <-].
    + destruct l; [set_solver|]. cbn [below]. unfold ptrs in Hroot. simpl in Hroot. set_solver.
    + cbn. apply Hcurb. eapply kept_has; [exact Hk4|left|done].
  - destruct (bs_right_mut_spec n Unique _ p _ m b2 F Hok2 Hh2 ltac:(by left) HFp Hx) as (y & b3 & Hr3 & Hok3 & Hk3 & Hh3 & Hy & Hc).
    { cbn [n_right]. intros c Hc%rootp_ptrs. split; [|by intros ->]. unfold F. destruct (cparent C) as [x|]; cbn; [|apply not_elem_of_nil].
      destruct (Hp x eq_refl) as (_ & _ & ?). rewrite elem_of_list_singleton. by intros ->. }
    rewrite (bind_run _ _ _ _ _ Hr3).
    destruct (as_ptr_spec R y _ m b3 (p :: F) Hok3 Hy Hc) as (x & b4 & Hr4 & Hok4 & Hk4 & Hraw4).
    { cbn [n_right]. intros c Hcc%rootp_ptrs. split; [|intros ->; set_solver]. unfold F. destruct (cparent C) as [x|]; cbn; [|set_solver].
      destruct (Hp x eq_refl) as (_ & _ & ?). set_solver. }
    rewrite (bind_run _ _ _ _ _ Hr4).
    assert (Hk' : kept [] b b4).
    { eapply kept_trans; [eapply kept_sub; [|exact Hk]; set_solver|]. eapply kept_trans; [eapply kept_sub; [|exact Hk3]; set_solver|].
      eapply kept_sub; [|exact Hk4]. set_solver. }
    eapply find_later; [exact Hk'|]. apply (IHr (FR l p k v :: C)); try done; [by eapply sreadable_r|lia| | |].
    + cbn. by intros ? [= <-].
    + destruct r; [set_solver|]. cbn [below]. unfold ptrs in Hroot. simpl in Hroot. set_solver.
    + cbn. apply Hcurb. eapply kept_has; [exact Hk4|left|done].
Qed.

(** ** The replacement *)

Definition usable (tg : nat) (p : Ptr) (b : borrows) : Prop := exists S, has p (tops tg SharedRW S) b.

Lemma bs_succ_loop_spec m l : forall C fuel p k v r f C' x mr tp tg b F, sreadable m (Bin l p k v r) -> pheight l < fuel ->
  tmin_ctx (f :: C) l p k v r = (C', x, mr) -> ok b -> NoDup (ptrs (Bin l p k v r)) -> fptr f ∉ ptrs (Bin l p k v r) ->
  (forall q, q ∈ F -> q ∉ ptrs (Bin l p k v r)) -> usable tg p b -> usable tp (fptr f) b ->
  exists f' C'' tp' tg' b', C' = f' :: C'' /\
    bs_succ_loop fuel (tp, fptr f) (tg, p) (m, b) = (Ret ((tp', fptr f'), (tg', x.1)), (m, b')) /\
    ok b' /\ kept F b b' /\ usable tg' x.1 b' /\ usable tp' (fptr f') b'.
Proof.
  induction l as [|ll IHll lp lk lv lr _]; intros C [|fuel] p k v r f C' x mr tp tg b F Hrd Hf Hm Hok Hnd Hpar HF (S0 & Hh) Hup;
    cbn [pheight] in Hf; try lia; cbn [bs_succ_loop fst snd]; pose proof (sreadable_root _ _ _ _ _ _ Hrd) as Hx.
  - assert (HpF : p ∉ fptr f :: F).
    { apply not_elem_of_cons. split; [intros ->; apply Hpar; left|]. intros Hin. apply (HF p Hin). left. }
    destruct (retag_node_mut Unique tg SharedRW S0 p b (fptr f :: F) Hok Hh) as (n & b1 & Hr1 & Hok1 & Hk1 & Hh1); [done|by right|done|].
    unfold retag_mut. rewrite (bind_br _ _ _ _ _ _ Hr1).
    destruct (bs_left_mut_spec n Unique _ p _ m b1 (fptr f :: F) Hok1 Hh1 ltac:(by left) HpF Hx) as (y & b2 & Hr2 & Hok2 & Hk2 & Hh2 & Hy & _); [done|].
    rewrite (bind_run _ _ _ _ _ Hr2). destruct y as [[]|]; [done|]. cbn in Hm. injection Hm as <- <- <-.
    assert (Hk : kept (fptr f :: F) b b2) by (by eapply kept_trans).
    exists f, C, tp, tg, b2. split_and!; try done.
    + eapply kept_sub; [|exact Hk]. set_solver.
    + exists S0. by eapply has_below.
    + destruct Hup as (S1 & Hh'). exists S1. eapply kept_has; [exact Hk|left|done].
  - assert (HpF : p ∉ fptr f :: F).
    { apply not_elem_of_cons. split; [intros ->; apply Hpar; left|]. intros Hin. apply (HF p Hin). left. }
    assert (Hsub : forall q, q ∈ ptrs (Bin ll lp lk lv lr) -> q ∈ ptrs (Bin (Bin ll lp lk lv lr) p k v r)).
    { intros q Hq. unfold ptrs in *. simpl in *. rewrite !fmap_app in *. set_solver. }
    assert (Hndl : NoDup (ptrs (Bin ll lp lk lv lr)) /\ p ∉ ptrs (Bin ll lp lk lv lr)).
    { unfold ptrs in *. cbn [nodes app fmap list_fmap] in Hnd |- *. cbn [fst] in *. rewrite !fmap_app in Hnd. rewrite fmap_app.
      apply NoDup_cons in Hnd as [H1 H2]. simpl in H2. apply (NoDup_app ((lp :: (nodes ll).*1 ++ (nodes lr).*1))) in H2 as (H2 & _ & _).
      split; [exact H2|]. simpl in H1. set_solver. }
    destruct Hndl as [Hndl Hpl].
    assert (Hlp : lp ∈ ptrs (Bin ll lp lk lv lr)) by left.
    destruct (retag_node_mut Unique tg SharedRW S0 p b F Hok Hh) as (n & b1 & Hr1 & Hok1 & Hk1 & Hh1); [done|by right|set_solver|].
    unfold retag_mut. rewrite (bind_br _ _ _ _ _ _ Hr1).
    destruct (bs_left_mut_spec n Unique _ p _ m b1 F Hok1 Hh1 ltac:(by left) ltac:(set_solver) Hx) as (y & b2 & Hr2 & Hok2 & Hk2 & Hh2 & Hy & Hc).
    { cbn. intros c [= <-]. split; [|by intros ->]. intros Hin. by apply (HF lp Hin), Hsub. }
    rewrite (bind_run _ _ _ _ _ Hr2). destruct y as [[tc c]|]; [|done]. cbn in Hy. injection Hy as ->.
    destruct (retag_node_mut SharedRW tc Unique bottom lp b2 (p :: F) Hok2 (Hc _ _ eq_refl)) as (t3 & b3 & Hr3 & Hok3 & Hk3 & Hh3); [done|by left| |].
    { apply not_elem_of_cons. split; [by intros ->|]. intros Hin. by apply (HF lp Hin), Hsub. }
    unfold retag_raw. rewrite (bind_br _ _ _ _ _ _ Hr3).
    destruct (IHll (f :: C) fuel lp lk lv lr (FL p k v r) C' x mr tg t3 b3 F) as (f' & C'' & tp' & tg' & b' & -> & Hrun & Hok' & Hk' & H'); try done.
    + by eapply sreadable_l.
    + lia.
    + intros q Hq Hin. apply (HF q Hq). by apply Hsub.
    + eexists. exact Hh3.
    + exists S0. cbn [fptr]. eapply kept_has; [exact Hk3|left|]. by eapply has_below.
    + exists f', C'', tp', tg', b'. split_and!; try apply H'; try done.
      eapply kept_trans; [exact Hk1|]. eapply kept_trans; [exact Hk2|]. eapply kept_trans; [|exact Hk'].
      eapply kept_sub; [|exact Hk3]. set_solver.
Qed.

Lemma hrep_live m ns F : hrep m ns -> F ⊆ ns.*1 -> live m F.
Proof.
  intros H HF q Hq. apply HF in Hq. apply elem_of_list_fmap in Hq as ([q' n] & -> & Hin). exists n. by eapply hrep_lookup.
Qed.

Lemma hrep_live' m ns (F : list (Ptr * inner K V)) : hrep m ns -> (forall x, x ∈ F -> x ∈ ns) -> live m F.*1.
Proof.
  intros H HF. eapply hrep_live; [exact H|]. intros q (x & -> & Hx)%elem_of_list_fmap. apply elem_of_list_fmap. eauto.
Qed.

Lemma bs_replacement_follows e m b ns p k v l r F node S : hrep m ns -> ok b ->
  ns ≡ₚ (p, mkInner k v (rootp l) (rootp r)) :: nodes l ++ nodes r ++ F -> right_child_place ∉ ns.*1 ->
  has p (tops node Unique S) b ->
  follows (simple_replacement e p) (bs_replacement e node p) m b F.*1 (fun _ _ b' => has p (tops node Unique S) b').
Proof.
  intros H Hok Hp Hrc Hh.
  assert (Hrcp : right_child_place <> p /\ right_child_place ∉ (nodes l).*1 /\ right_child_place ∉ (nodes r).*1 /\
                 right_child_place ∉ F.*1).
  { rewrite Hp in Hrc. simpl in Hrc. rewrite !fmap_app in Hrc. set_solver. }
  destruct Hrcp as (Hrcp & Hrcl & Hrcr & HrcF).
  assert (Hnd : NoDup (p :: (nodes l).*1 ++ (nodes r).*1 ++ F.*1)).
  { pose proof (hrep_nodup _ _ H) as Hnd. rewrite Hp in Hnd. simpl in Hnd. by rewrite !fmap_app in Hnd. }
  apply NoDup_cons in Hnd as [Hpn Hnd]. apply NoDup_app in Hnd as (Hndl & Hlr & Hnd). apply NoDup_app in Hnd as (Hndr & HrF & _).
  rewrite !elem_of_app in Hpn.
  unfold simple_replacement, bs_replacement.
  eapply follows_bind; [|eapply take_left_spec; [exact H|exact Hp]|].
  { eapply (follows_take_left node Unique); [done|exact Hh|by left|tauto| |].
    - eapply hrep_peek; [exact H|]. rewrite Hp. left.
    - cbn [n_left]. intros c Hc%rootp_ptrs. split; [intros Hin; apply (Hlr c Hc); apply elem_of_app; by right|].
      intros ->. tauto. }
  intros yl m1 b1 (-> & H1 & Hl1) Hok1 Hk1 Hh1.
  assert (H1' : (p, mkInner k v None (rootp r)) :: below l ++ nodes r ++ F ≡ₚ
    (p, mkInner k v None (rootp r)) :: nodes r ++ below l ++ F) by solve_Permutation.
  eapply follows_bind; [|eapply (take_right_spec m1 _ p k v None r (below l ++ F)); [exact H1|exact H1']|].
  { eapply (follows_take_right node Unique); [done|exact Hh1|by left|tauto| |].
    - eapply hrep_peek; [exact H1|]. left.
    - cbn [n_right]. intros c Hc%rootp_ptrs. split; [intros Hin; by apply (HrF c Hc)|].
      intros ->. tauto. }
  intros yr m2 b2 (-> & H2 & Hl2) Hok2 Hk2 Hh2.
  destruct l as [|ll lp lk lv lr].
  { cbn [val]. destruct (val r); by apply follows_ret. }
  destruct r as [|rl rp rk rv rr].
  { cbn [val]. by apply follows_ret. }
  cbn [val]. cbn [below] in H2.
  set (L := Bin ll lp lk lv lr) in *.
  eapply (follows_mono _ _ _ _ _ (p :: F.*1) (fun _ _ _ => True)); [|set_solver|].
  2:{ intros y ? b' Hk _. eapply kept_has; [exact Hk|left|done]. }
  assert (Hrcbl : right_child_place ∉ (below L).*1).
  { unfold L, below. simpl in Hrcl. set_solver. }
  assert (HrcR : right_child_place ∉ (nodes rl).*1 /\ right_child_place ∉ (nodes rr).*1).
  { simpl in Hrcr. rewrite fmap_app in Hrcr. set_solver. }
  set (G := (p, mkInner k v None None) :: F) in *.
  change (p :: F.*1) with G.*1 in *.
  assert (HrcG : right_child_place ∉ G.*1). { unfold G. simpl. set_solver. }
  eapply follows_bind; [by apply (follows_h _ _ _ _ (fun _ _ b' => b' = b2))|eapply place_spec; [exact H2|]|].
  { simpl. rewrite !fmap_app. intros Hc. change (nodes ll ++ nodes lr) with (below L) in Hc. set_solver. }
  intros [] m3 ? (H3 & Hl3) _ _ ->.
  eapply (hrep_perm _ _ (nodes (Bin rl right_child_place rk rv rr) ++ below L ++ G)) in H3.
  2:{ unfold G. simpl. solve_Permutation. }
  assert (HndR : NoDup ((nodes (Bin rl right_child_place rk rv rr)).*1 ++ (below L).*1 ++ G.*1)).
  { rewrite <- !fmap_app. by apply hrep_nodup in H3. }
  apply NoDup_app in HndR as (HndR & HRG & _).
  assert (HrlG : forall q, q ∈ G.*1 -> q ∉ ptrs rl).
  { intros q Hq Hin. apply (HRG q); [simpl; rewrite fmap_app; right; apply elem_of_app; by left|]. apply elem_of_app. by right. }
  destruct (new_memory_spec right_child_place b2 G.*1 Hok2 HrcG) as (b3 & Hr3 & Hok3 & Hk3 & _).
  eapply follows_br; [exact Hr3|done|].
  destruct (bs_left_mut_spec base SharedRW (fun _ => []) right_child_place (mkInner rk rv (rootp rl) (rootp rr)) m3 b3 G.*1
    Hok3 (has_bottom _ _ Hok3) ltac:(by right) HrcG) as (y & b4 & Hr4 & Hok4 & Hk4 & Hh4 & Hy & Hc4).
  { eapply hrep_peek; [exact H3|]. simpl. left. }
  { cbn [n_left]. intros c Hc%rootp_ptrs. split; [|intros ->; destruct HrcR; contradiction].
    intros Hin. by apply (HrlG c). }
  eapply follows_right; [exact Hr4|done|]. cbn [n_left] in *.
  eapply (follows_bind' _ _ _ _ _ _ _ (fun _ m' _ => live m' G.*1)).
  2:{ intros y5 m5 b5 _ Hok5 _ Hlive. eapply follows_bind'; [by apply follows_set_left_val|].
      intros y6 m6 b6 _ Hok6 _ _. by apply follows_ret. }
  destruct rl as [|rll rlp rlk rlv rlr].
  { cbn [rootp] in *. destruct y as [[]|]; [done|].
    eapply follows_mono; [eapply follows_wp; [by apply (follows_move_right_child m3 b4 G.*1)|]|done|].
    - eapply (move_out_spec m3 _ right_child_place); [exact H3|simpl; reflexivity].
    - intros y5 m5 b5 _ (_ & -> & H5 & _). eapply hrep_live'; [exact H5|]. intros x Hx. rewrite !elem_of_app. tauto. }
  cbn [rootp] in *. destruct y as [[tc c]|]; [|done]. cbn in Hy. injection Hy as ->.
  set (RL := Bin rll rlp rlk rlv rlr) in *.
  assert (HndRL : NoDup (ptrs RL) /\ right_child_place ∉ ptrs RL /\ (forall q, q ∈ G.*1 -> q ∉ ptrs RL)).
  { cbn [nodes app fmap list_fmap] in HndR. cbn [fst] in HndR. rewrite fmap_app in HndR. apply NoDup_cons in HndR as [Hn1 Hn2].
    apply NoDup_app in Hn2 as (Hn2 & _ & _). split_and!; [done|tauto|done]. }
  destruct HndRL as (HndRL & HrcRL & HGRL).
  assert (HrlpRL : rlp ∈ ptrs RL) by left.
  destruct (retag_node_mut SharedRW tc Unique bottom rlp b4 G.*1 Hok4 (Hc4 _ _ eq_refl)) as (t5 & b5 & Hr5 & Hok5 & Hk5 & Hh5); [done|by left|by intros ?%HGRL|].
  eapply follows_br; [exact Hr5|done|].
  destruct (retag_node_mut Unique base SharedRW (fun _ => []) right_child_place b5 (rlp :: G.*1) Hok5 (has_bottom _ _ Hok5)) as (t6 & b6 & Hr6 & Hok6 & Hk6 & Hh6);
    [done|by right|by rewrite not_elem_of_cons; split; [by intros <-|]|].
  eapply follows_br; [exact Hr6|by eapply kept_tail|].
  destruct (retag_node_mut SharedRW t6 Unique _ right_child_place b6 (rlp :: G.*1) Hok6 Hh6) as (t7 & b7 & Hr7 & Hok7 & Hk7 & Hh7);
    [done|by left|by rewrite not_elem_of_cons; split; [by intros <-|]|].
  eapply follows_br; [exact Hr7|by eapply kept_tail|].
  eapply follows_left; [reflexivity|done|].
  eapply follows_right; [reflexivity|done|]. cbn [fst].
  destruct (tmin_ctx [FL right_child_place rk rv rr] rll rlp rlk rlv rlr) as [[C' [mp [mk mv]]] mr] eqn:Hctx.
  pose proof (tmin_ctx_top _ _ _ _ _ _ _ _ _ _ _ _ _ Hctx) as (p1 & k1 & v1 & r1 & C1 & ->).
  destruct (tmin_ctx_spec _ _ _ _ _ _ _ _ _ _ _ Hctx) as (Hplug & r' & Hmin & Hplug' & D & HD).
  assert (Hreads : sreadable m3 RL).
  { intros q n Hin. eapply hrep_peek; [exact H3|]. cbn [nodes app]. right. rewrite !elem_of_app. tauto. }
  assert (Hfuel : pheight rll < simple_fuel m3).
  { rewrite (hrep_fuel _ _ H3). pose proof (pheight_size rll). cbn [nodes app length]. rewrite !app_length. unfold RL.
    cbn [nodes app length]. rewrite !app_length. unfold tsize in *. lia. }
  destruct (simple_succ_loop_eq m3 rll [] _ _ _ _ _ _ _ _ _ Hreads Hfuel Hctx) as (f' & C'' & Heq & Hsucc).
  injection Heq as <- <-. cbn [fptr fst] in Hsucc.
  eapply follows_left; [unfold slift; rewrite Hsucc; reflexivity|done|].
  destruct (bs_succ_loop_spec m3 rll [] (simple_fuel m3) rlp rlk rlv rlr (FL right_child_place rk rv rr) _ _ _ t7 t5 b7 G.*1
    Hreads Hfuel Hctx Hok7 HndRL HrcRL HGRL) as (f' & C'' & t8 & t9 & b8 & Heq & Hr8 & Hok8 & Hk8 & (S9 & Hu9) & (S8 & Hu8)).
  { eexists. eapply kept_has; [exact Hk7|left|]. eapply kept_has; [exact Hk6|left|exact Hh5]. }
  { eexists. exact Hh7. }
  injection Heq as <- <-. cbn [fptr fst] in *.
  eapply follows_right; [exact Hr8|done|]. cbn [fst snd].
  assert (Hmem : nodes (Bin RL right_child_place rk rv rr) ≡ₚ
     (mp, mkInner mk mv None (rootp mr)) :: nodes mr ++ (p1, mkInner k1 v1 (Some mp) (rootp r1)) :: nodes r1 ++ cnodes C1 (Some p1)).
  { change (Bin RL right_child_place rk rv rr) with (plug [FL right_child_place rk rv rr] RL).
    unfold RL. rewrite <- Hplug, nodes_plug. simpl. solve_Permutation. }
  assert (Hmem' : forall q, q ∈ mp :: (nodes mr).*1 ++ p1 :: (nodes r1 ++ cnodes C1 (Some p1)).*1 -> q ∉ G.*1).
  { intros q Hq Hin. apply (HRG q); [|apply elem_of_app; by right]. rewrite Hmem. simpl. rewrite fmap_app. exact Hq. }
  assert (HndM : NoDup (mp :: (nodes mr).*1 ++ p1 :: (nodes r1 ++ cnodes C1 (Some p1)).*1)).
  { rewrite Hmem in HndR. simpl in HndR. by rewrite fmap_app in HndR. }
  apply NoDup_cons in HndM as [Hmp HndM]. apply NoDup_app in HndM as (HndMr & HMr & _).
  rewrite not_elem_of_app, not_elem_of_cons in Hmp. destruct Hmp as (Hmp1 & Hmp2 & _).
  destruct (retag_node_mut Unique t9 SharedRW S9 mp b8 (p1 :: G.*1) Hok8 Hu9) as (t10 & b10 & Hr10 & Hok10 & Hk10 & Hh10); [done|by right| |].
  { apply not_elem_of_cons. split; [done|]. apply Hmem'. left. }
  eapply follows_br; [exact Hr10|by eapply kept_tail|].
  eapply (kept_has _ _ _ p1) in Hu8; [|exact Hk10|left].
  assert (Hm3 : nodes (Bin RL right_child_place rk rv rr) ++ below L ++ G ≡ₚ (mp, mkInner mk mv None (rootp mr)) :: nodes mr ++
    ((p1, mkInner k1 v1 (Some mp) (rootp r1)) :: nodes r1 ++ cnodes C1 (Some p1)) ++ below L ++ G).
  { rewrite Hmem. simpl. by rewrite <- app_assoc. }
  eapply follows_bind; [|eapply (take_right_spec m3 _ mp mk mv None mr); [exact H3|exact Hm3]|].
  { eapply follows_mono; [eapply (follows_take_right t10 Unique _ mp _ m3 b10 (p1 :: G.*1)); [done|exact Hh10|by left| | |]| |].
    - apply not_elem_of_cons. split; [done|]. apply Hmem'. left.
    - eapply hrep_peek; [exact H3|]. rewrite Hm3. left.
    - cbn [n_right]. intros c Hc%rootp_ptrs. split; [|by intros ->]. apply not_elem_of_cons. split.
      + intros ->. apply (HMr _ Hc). left.
      + apply Hmem'. right. apply elem_of_app. by left.
    - intros x Hx. by right.
    - intros y m4 b4' Hk _. exact (kept_has _ _ _ p1 _ Hk ltac:(left) Hu8). }
  intros y11 m11 b11 (-> & H11 & Hl11) Hok11 Hk11 Hu11.
  destruct (retag_node_mut Unique t8 SharedRW S8 p1 b11 G.*1 Hok11 Hu11) as (t12 & b12 & Hr12 & Hok12 & Hk12 & Hh12); [done|by right| |].
  { apply Hmem'. right. apply elem_of_app. right. left. }
  eapply follows_br; [exact Hr12|done|].
  assert (Hm11 : (mp, mkInner mk mv None None) :: below mr ++ ((p1, mkInner k1 v1 (Some mp) (rootp r1)) :: nodes r1 ++ cnodes C1 (Some p1)) ++ below L ++ G ≡ₚ
    (p1, mkInner k1 v1 (rootp (Bin Leaf mp mk mv Leaf)) (rootp r1)) :: nodes (Bin Leaf mp mk mv Leaf) ++ below mr ++
      nodes r1 ++ cnodes C1 (Some p1) ++ below L ++ G).
  { simpl. solve_Permutation. }
  eapply follows_bind; [|eapply (replace_left_spec e m11 _ p1 k1 v1 (Bin Leaf mp mk mv Leaf) (rootp r1) mr
    (nodes r1 ++ cnodes C1 (Some p1) ++ below L ++ G)); [exact H11|exact Hm11]|].
  { eapply (follows_replace_left e t12 Unique); [done|exact Hh12|by left| | | |].
    - apply Hmem'. right. apply elem_of_app. right. left.
    - eapply hrep_peek; [exact H11|]. rewrite Hm11. left.
    - eapply hrep_live'; [exact H11|]. intros x Hx. rewrite elem_of_cons, !elem_of_app. tauto.
    - cbn [n_left rootp]. intros c [= <-]. apply Hmem'. left. }
  intros y13 m13 b13 (-> & Hl13 & q & Hq & H13) Hok13 Hk13 _. cbn [val].
  eapply follows_left; [reflexivity|done|]. eapply follows_right; [reflexivity|done|].
  set (Y := plug (FL p1 k1 v1 r1 :: C1) (reloc q mr)).
  assert (HY : exists a kk vv b, Y = Bin a right_child_place kk vv b).
  { assert (Hr : rootp Y = rootp (plug (FL p1 k1 v1 r1 :: C1) mr)) by (apply rootp_plug_cong; by left).
    rewrite Hplug' in Hr. simpl in Hr. destruct Y as [|a pp kk vv bb]; [done|]. injection Hr as ->. by exists a, kk, vv, bb. }
  destruct HY as (a & kk & vv & bb & HY).
  assert (H13' : hrep m13 (nodes Y ++ below L ++ G)).
  { eapply hrep_perm; [|exact H13]. unfold Y. rewrite nodes_plug. simpl. solve_Permutation. }
  rewrite HY in H13'.
  eapply follows_bind; [by apply (follows_move_right_child _ _ G.*1)|eapply (move_out_spec m13 _ right_child_place); [exact H13'|simpl; reflexivity]|].
  intros y14 m14 b14 (-> & H14 & Hl14) Hok14 Hk14 _.
  assert (Hlive14 : live m14 G.*1). { eapply hrep_live'; [exact H14|]. intros x Hx. rewrite !elem_of_app. tauto. }
  eapply follows_mono; [eapply follows_wp; [by apply (follows_set_right_val e _ _ _ _ G.*1)|]|done|].
  - eapply (set_right_val_spec e m14 _ mk mv None (Bin a p kk vv bb) _ (below L ++ G)); [exact H14| |reflexivity].
    simpl. solve_Permutation.
  - intros y15 m15 b15 _ (_ & q2 & Hq2 & _ & H15 & _). eapply hrep_live'; [exact H15|]. intros x Hx. rewrite !elem_of_app. tauto.
Qed.


(** ** [remove_entry] *)

Lemma bs_remove_entry_follows e o m t b : simple_rep m t -> ok b ->
  exists b', bs_remove_entry e o (m, b) = ((simple_remove_entry e o m).1, ((simple_remove_entry e o m).2, b')) /\ ok b'.
Proof.
  intros Hrep Hok.
  destruct (retag_as_spec Unique base (len_loc :: node_locs root_place) b Hok) as (b1 & Hr1 & Hok1 & Hn1 & Hout1 & Hin1).
  { constructor; [apply len_not_node|apply node_locs_nodup]. }
  { intros l _. exists SharedRW, []. split; [by apply ok_base|by right]. }
  set (self := b_next b) in *.
  assert (Hself : has root_place (tops self Unique bottom) b1).
  { intros f. destruct (Hin1 (LNode root_place f) SharedRW []) as (above & _ & ->); [right; apply node_locs_elem; eauto|by apply ok_base|by right|].
    cbn. done. }
  assert (Hlen : exists s, b_at b1 len_loc = (self, Unique) :: s).
  { destruct (Hin1 len_loc SharedRW []) as (above & _ & ->); [left|by apply ok_base|by right|]. by eexists. }
  unfold bs_remove_entry, retag_mut at 1. rewrite (bind_br _ _ _ _ _ _ Hr1).
  match goal with |- exists b', ?g (m, b1) = _ /\ _ => cut (follows (simple_remove_entry e o) g m b1 [] (fun _ _ _ => True)) end.
  { intros (b' & Hrun & Hok' & _). by exists b'. }
  unfold simple_remove_entry.
  eapply follows_left; [reflexivity|done|]. eapply follows_right; [reflexivity|done|]. cbn [fst].
  rewrite (simple_root_ret _ _ Hrep).
  assert (t = Leaf \/ t <> Leaf) as [->|Hne] by (destruct t; [by left|by right]).
  { cbn [rootp]. by apply follows_ret. }
  assert (Hroot : rootp t = Some root_place) by (destruct Hrep as (_ & [|] & _); done).
  rewrite Hroot.
  destruct (retag_node_mut Unique self Unique bottom root_place b1 [] Hok1 Hself) as (t2 & b2 & Hr2 & Hok2 & Hk2 & Hh2); [done|by left|by apply not_elem_of_nil|].
  eapply follows_br; [exact Hr2|done|].
  destruct (retag_node_mut SharedRW t2 Unique _ root_place b2 [] Hok2 Hh2) as (t3 & b3 & Hr3 & Hok3 & Hk3 & Hh3); [done|by left|by apply not_elem_of_nil|].
  eapply follows_br; [exact Hr3|done|].
  pose proof Hrep as (Hh & _ & Hrc & Hlen' & Hsz).
  pose proof (simple_remove_find_eq m o t [] (simple_fuel m) 0 (simple_readable _ _ Hrep) (simple_fuel_height _ _ Hrep)) as Hfind.
  rewrite Hroot in Hfind. cbn [cparent head fmap option_fmap option_map] in Hfind.
  pose proof (bs_remove_find_spec (tops self Unique bottom) m o t [] (simple_fuel m) 0 b3 None (Some (t3, root_place))
    (simple_readable _ _ Hrep) (simple_fuel_height _ _ Hrep) Hok3 (hrep_nodup _ _ Hh) ltac:(done)) as Hbf.
  assert (Hbelow : root_place ∉ (below t).*1).
  { destruct t as [|l p k v r]; [done|]. cbn in Hroot. injection Hroot as ->. apply hrep_nodup in Hh. simpl in Hh.
    apply NoDup_cons in Hh as [Hx _]. exact Hx. }
  specialize (Hbf Hbelow). rewrite Hroot in Hbf.
  assert (Hraw0 : raw_opt (tops self Unique bottom) None None b3) by done.
  specialize (Hbf Hraw0).
  assert (Hraw1 : raw_opt (tops self Unique bottom) (Some (t3, root_place)) (Some root_place) b3).
  { split; [done|]. intros ? ? [= <- <-]. eexists. split; [exact Hh3|]. intros _ f. by apply suffix_cons_r. }
  specialize (Hbf Hraw1). clear Hraw0 Hraw1.
  pose proof (tfind_trem o t 0 []) as Htr.
  destruct (tfind o 0 [] t) as [[C s]|z| | |]; cbn [find_post] in Hbf; try done.
  2:{ destruct Hbf as (b4 & Hr4 & Hok4 & Hk4). exists b4. unfold sbind. rewrite Hr4. unfold slift. rewrite Hfind. done. }
  destruct Hbf as (par & cur & b4 & Hr4 & Hok4 & Hk4 & Hpar & Hcur).
  eapply follows_left; [unfold slift; rewrite Hfind; reflexivity|done|].
  eapply follows_right; [exact Hr4|done|]. cbn [fst snd].
  destruct Hcur as [Hcs Hcur].
  destruct s as [|l p k v r].
  { destruct cur as [[]|]; [done|]. cbn [rootp]. by apply follows_ret. }
  destruct cur as [[tc p']|]; [|done]. cbn in Hcs. injection Hcs as ->. cbn [rootp].
  destruct (Hcur _ _ eq_refl) as (S0 & Hhc & HR).
  destruct Htr as (t' & _ & _ & Ht). cbn [plug] in Ht.
  assert (Hnodes : nodes t ≡ₚ (p, mkInner k v (rootp l) (rootp r)) :: nodes l ++ nodes r ++ cnodes C (Some p)).
  { rewrite <- Ht, nodes_plug. simpl. solve_Permutation. }
  assert (Hpc : p ∉ (cnodes C (Some p)).*1).
  { pose proof (hrep_nodup _ _ Hh) as Hnd. rewrite Hnodes in Hnd. simpl in Hnd. apply NoDup_cons in Hnd as [Hnd _].
    rewrite !fmap_app in Hnd. intros Hin. apply Hnd. rewrite !elem_of_app. tauto. }
  destruct (retag_node_mut Unique tc SharedRW S0 p b4 (cnodes C (Some p)).*1 Hok4 Hhc) as (node & b5 & Hr5 & Hok5 & Hk5 & Hh5); [done|by right|done|].
  eapply follows_br; [exact Hr5|by eapply kept_sub; [|exact Hk5]; apply list_subseteq_nil|].
  assert (Hlen5 : exists s, b_at b5 len_loc = (self, Unique) :: s).
  { destruct Hlen as [s Hs]. exists s. rewrite (proj2 Hk5), (proj2 Hk4), (proj2 Hk3), (proj2 Hk2). exact Hs. }
  destruct Hlen5 as [s5 Hs5].
  destruct (access_top true self Unique s5 len_loc b5 Hok5 Hs5 (or_introl eq_refl)) as (b6 & Hr6 & Hok6 & Ha6 & Hn6).
  eapply follows_br; [exact Hr6|by split; [intros ? ? ?%elem_of_nil|]|].
  assert (Hk6 : kept (cnodes C (Some p)).*1 b4 b6).
  { eapply kept_trans; [exact Hk5|]. split; intros; by rewrite Ha6. }
  assert (Hh6 : has p (tops node Unique (tops tc SharedRW S0)) b6).
  { intros f. rewrite Ha6. apply Hh5. }
  assert (Hts : (1 <= s_len m)%N).
  { rewrite Hlen'. unfold tsize. rewrite Hnodes. cbn [length]. lia. }
  eapply follows_bind; [by apply (follows_h _ _ _ _ (fun _ _ b' => b' = b6))|eapply len_sub_one_spec; [exact Hh|exact Hts]|].
  intros [] m7 ? (H7 & Hl7) _ _ ->.
  eapply follows_bind; [|eapply simple_replacement_spec; [exact H7|exact Hnodes|exact Hrc]|].
  { eapply follows_mono; [eapply bs_replacement_follows; [exact H7|done|exact Hnodes|exact Hrc|exact Hh6]|apply list_subseteq_nil|].
    intros y m' b' Hk HQ. exact (conj Hk HQ). }
  intros y m8 b8 (Hl8 & x & -> & Hex & H8 & Hrcx) Hok8 _ [Hk8 Hh8].
  destruct C as [|f C].
  - (* the root *)
    cbn [cparent head fmap option_fmap option_map] in *. destruct Hpar as [Hpn _]. destruct par as [[]|]; [done|]. cbn [plug] in *. subst t.
    cbn [rootp] in Hroot. injection Hroot as ->.
    assert (Hhs : has root_place (tops self Unique bottom) b8).
    { eapply has_weaken; [|exact Hh8]. intros f. do 2 apply suffix_cons_r. by apply HR. }
    destruct (retag_node_mut Unique self Unique bottom root_place b8 [] Hok8 Hhs) as (t9 & b9 & Hr9 & Hok9 & Hk9 & Hh9); [done|by left|by apply not_elem_of_nil|].
    eapply follows_br; [exact Hr9|done|].
    destruct (access_node true t9 Unique _ root_place b9 [] Hok9 Hh9) as (b10 & Hr10 & Hok10 & Hk10 & _); [by left|by apply not_elem_of_nil|].
    eapply follows_br; [exact Hr10|done|].
    eapply follows_left; [reflexivity|done|]. eapply follows_right; [reflexivity|done|]. cbn [fst].
    eapply follows_bind'; [by apply (follows_h _ _ _ _ (fun _ _ b' => b' = b10))|]. intros nd m11 ? _ _ _ ->.
    eapply follows_bind'; [by apply (follows_h _ _ _ _ (fun _ _ b' => b' = b10))|]. intros [] m12 ? _ _ _ ->.
    by apply follows_ret.
  - cbn [cparent head fmap option_fmap option_map] in *. destruct Hpar as [Hpn Hpar].
    destruct par as [[tp par]|]; [|done]. cbn in Hpn. injection Hpn as ->.
    destruct (Hpar _ _ eq_refl) as (Sp & Hhp & _).
    assert (Hfp : fptr f ∈ (cnodes (f :: C) (Some p)).*1). { cbn [cnodes]. destruct f; left. }
    assert (Hhp8 : has (fptr f) (tops tp SharedRW Sp) b8).
    { eapply kept_has; [exact Hk8|exact Hfp|]. by eapply kept_has; [exact Hk6|exact Hfp|]. }
    destruct (retag_node_mut Unique tp SharedRW Sp (fptr f) b8 [] Hok8 Hhp8) as (t9 & b9 & Hr9 & Hok9 & Hk9 & Hh9); [done|by right|by apply not_elem_of_nil|].
    eapply follows_br; [exact Hr9|done|].
    eapply follows_left; [reflexivity|done|].
    assert (Hin : fnode f (Some p) ∈ (p, mkInner k v None None) :: below x ++ cnodes (f :: C) (Some p)).
    { right. apply elem_of_app. right. left. }
    assert (Hpk : peek m8 (fptr f) = Ret (fnode f (Some p)).2).
    { eapply hrep_peek; [exact H8|]. destruct f; exact Hin. }
    eapply follows_left; [unfold slift; rewrite Hpk; reflexivity|done|].
    assert (Hchild : forall c, n_left (fnode f (Some p)).2 = Some c -> c ∉ [] /\ c <> fptr f).
    { intros c Hc. split; [apply not_elem_of_nil|]. intros ->. apply hrep_nodup in H8. cbn [cnodes] in H8.
      destruct f as [fp fk fv fr|fl fp fk fv]; cbn in Hc.
      - injection Hc as ->. done.
      - apply rootp_ptrs in Hc. cbn in H8. apply NoDup_cons in H8 as [_ H8]. rewrite fmap_app in H8. apply NoDup_app in H8 as (_ & _ & H8).
        cbn in H8. apply NoDup_cons in H8 as [H8 _]. apply H8. rewrite fmap_app. apply elem_of_app. by left. }
    destruct (bs_child_left_spec t9 Unique _ (fptr f) _ m8 b9 [] Hok9 Hh9 ltac:(done) ltac:(apply not_elem_of_nil) Hpk Hchild)
      as (b10 & Hr10 & Hok10 & Hk10 & Hh10).
    eapply follows_right; [exact Hr10|done|].
    eapply (follows_bind' _ _ _ _ _ _ _ (fun _ _ _ => True)).
    + case_bool_decide.
      * eapply (follows_replace_left e t9 Unique); [done|exact Hh10|by left|apply not_elem_of_nil|exact Hpk|by intros ? ?%elem_of_nil|].
        intros; apply not_elem_of_nil.
      * eapply (follows_replace_right e t9 Unique); [done|exact Hh10|by left|apply not_elem_of_nil|exact Hpk|by intros ? ?%elem_of_nil|].
        intros; apply not_elem_of_nil.
    + intros old m11 b11 _ Hok11 _ _.
      eapply follows_bind'; [by apply (follows_h _ _ _ _ (fun _ _ b' => b' = b11))|]. intros nd m12 ? _ _ _ ->.
      by apply follows_ret.
Qed.


Lemma simple_borrow_remove_entry e o m b : simple_reachable e m -> ok b ->
  exists x m' b', simple_remove_entry e o m = (x, m') /\ bs_remove_entry e o (m, b) = (x, (m', b')) /\ ok b' /\
    (forall u, x <> UB u) /\ x <> Diverge.
Proof.
  intros (t & Hrep)%simple_reachable_rep Hok.
  destruct (bs_remove_entry_follows e o m t b Hrep Hok) as (b' & Hrun & Hok').
  pose proof (simple_remove_entry_spec e o m t Hrep) as Hwp. unfold wp in Hwp.
  destruct (simple_remove_entry e o m) as [x m']. exists x, m', b'. split_and!; try done; by destruct x.
Qed.
Lemma simple_borrow_remove e o m b : simple_reachable e m -> ok b ->
  exists x m' b', simple_remove e o m = (x, m') /\ bs_remove e o (m, b) = (x, (m', b')) /\ ok b' /\
    (forall u, x <> UB u) /\ x <> Diverge.
Proof.
  intros Hm Hok. destruct (simple_borrow_remove_entry e o m b Hm Hok) as (x & m' & b' & H1 & H2 & H3 & H4 & H5).
  unfold simple_remove, bs_remove, sbind. rewrite H1, H2. destruct x as [y|z| |u|];
    [| | |exfalso; by apply (H4 u)|done]; (eexists; exists m', b'; split_and!; [reflexivity|reflexivity|done|done|done]).
Qed.

End proofs.
End rules.
