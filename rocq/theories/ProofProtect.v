(** * The reference behind [&mut self] outlives the call *)

From Verif Require Import ProofIterProps ModelBorrow ModelBorrowFree SpecProtect ProofBorrow ProofBorrowRun ProofBorrowFree.
Local Open Scope nat_scope.

(** ** What is lost stays lost *)

Lemma use_write_lost t st : use_write t st = None <-> forall p, (t, p) ∈ st -> p <> Unique /\ p <> SharedRW.
Proof.
  induction st as [|[u q] st IH]; cbn -[bool_decide]; [split; [|done]; intros _ p H; by apply elem_of_nil in H|].
  case_bool_decide as H.
  - split; [done|]. intros H'. destruct H as [-> H]. destruct (H' q); [left|]. by destruct H.
  - rewrite IH. split; intros H' p Hp.
    + apply elem_of_cons in Hp as [[= -> ->]|Hp]; [|by apply H']. split; intros ->; apply H; auto.
    + apply H'. by right.
Qed.

Lemma use_stack_sub R wr u st st' : use_stack R wr u st = Some st' ->
  forall t p, (t, p) ∈ st' -> p = Unique \/ p = SharedRW -> (t, p) ∈ st.
Proof.
  destruct wr; simpl.
  - revert st'. induction st as [|[v q] st IH]; cbn -[bool_decide]; [done|]. intros st'. case_bool_decide.
    + by intros [= <-].
    + intros E t p Hp Hq. right. by eapply IH.
  - revert st'. induction st as [|[v q] st IH]; cbn -[bool_decide]; [done|]. intros st'. case_bool_decide.
    + by intros [= <-].
    + destruct (use_read R u st) as [st1|] eqn:E1; [|done]. intros [= <-] t p Hp Hq.
      apply elem_of_cons in Hp as [Hp|Hp]; [|right; by eapply IH].
      destruct R, q; simpl in Hp; injection Hp as -> ->; destruct Hq; (done || by left).
Qed.

Lemma lost_stacked t l b : b_rules b = Stacked -> lost t l b <-> use_write t (b_at b l) = None.
Proof.
  intros HR. unfold lost, access, access_as. rewrite HR. cbn [use_stack].
  destruct (use_write t (b_at b l)); simpl; [|done]. split; [done|]. by intros ?.
Qed.
Lemma forallb_false {A} (f : A -> bool) l : forallb f l = false <-> exists x, x ∈ l /\ f x = false.
Proof.
  induction l as [|x l IH]; simpl; [split; [done|]; intros (x & H & _); by apply elem_of_nil in H|].
  rewrite andb_false_iff, IH. split.
  - intros [H|(y & Hy & H)]; [exists x; split; [left|done]|exists y; split; [by right|done]].
  - intros (y & [->|Hy]%elem_of_cons & H); eauto.
Qed.
Lemma lost_tree t l b : b_rules b = Tree -> lost t l b <-> exists u, u ∈ b_path b t /\ own_use true (b_perm b l u) = None.
Proof.
  intros HR. unfold lost, access, access_as. rewrite HR. unfold use_tree.
  destruct (forallb _ _) eqn:E; cbn [fst].
  - split; [done|]. intros (u & Hu & H). rewrite forallb_forall in E. apply elem_of_list_In in Hu. apply E in Hu. by rewrite H in Hu.
  - split; [|done]. intros _. apply forallb_false in E as (u & Hu & H). exists u. split; [done|].
    by destruct (own_use true (b_perm b l u)).
Qed.

Lemma other_none wr x : own_use true x = None -> own_use true (other_use wr x) = None.
Proof. by destruct wr, x. Qed.
Lemma own_none wr x : own_use true x = None -> own_use true (default Gone (own_use wr x)) = None.
Proof. by destruct wr, x. Qed.

Lemma access_lost wr twr u l' t l b : lost t l b -> lost t l (access_as wr twr u l' b).2.
Proof.
  intros H. assert (HR : b_rules b = Stacked \/ b_rules b = Tree) by (destruct (b_rules b); auto). destruct HR as [HR|HR].
  - rewrite lost_stacked in H by done. unfold access_as. rewrite HR.
    destruct (use_stack Stacked wr u (b_at b l')) as [st|] eqn:E; simpl; [|by apply lost_stacked].
    apply lost_stacked; [done|]. destruct (decide (l = l')) as [->|Hl]; [|by rewrite set_at_ne].
    rewrite set_at_eq, use_write_lost in *. intros p Hp. destruct (decide (p = Unique \/ p = SharedRW)) as [Hq|Hq].
    + apply H. by eapply use_stack_sub.
    + naive_solver.
  - pose proof H as H0. rewrite lost_tree in H by done. destruct H as (v & Hv & Hn). unfold access_as. rewrite HR.
    destruct (use_tree twr (b_path b u) (b_perm b l')) as [pm|] eqn:E; simpl; [|done].
    apply lost_tree; [done|]. exists v. split; [done|]. simpl. destruct (decide (l = l')) as [->|Hl]; [|done].
    unfold use_tree in E. destruct (forallb _ _); [|done]. injection E as <-.
    destruct (decide (v ∈ b_path b u)); [by apply own_none|by apply other_none].
Qed.
Lemma access_next wr twr u l b : b_next (access_as wr twr u l b).2 = b_next b.
Proof. unfold access_as. repeat case_match; done. Qed.
Lemma access_all_lost wr twr u ls t l : forall b, lost t l b -> lost t l (access_all_as wr twr u ls b).2.
Proof.
  induction ls as [|l' ls IH]; intros b H; [done|]. cbn [access_all_as]. unfold sbind.
  pose proof (access_lost wr twr u l' t l b H) as H1. destruct (access_as wr twr u l' b) as [[] b1]; simpl in *; [|done..]. by apply IH.
Qed.
Lemma push_lost n p ls t l : t <> n -> forall b, lost t l b -> lost t l (push_all n p ls b).2.
Proof.
  intros Hn. induction ls as [|l' ls IH]; intros b H; [done|]. cbn [push_all]. unfold sbind, push_item, smod. apply IH.
  assert (HR : b_rules b = Stacked \/ b_rules b = Tree) by (destruct (b_rules b); auto). destruct HR as [HR|HR].
  - rewrite lost_stacked in * by done. destruct (decide (l = l')) as [->|Hl]; [|by rewrite set_at_ne].
    rewrite set_at_eq, use_write_lost in *. intros q [[= -> ->]|Hq]%elem_of_cons; [done|by apply H].
  - rewrite lost_tree in * by done. done.
Qed.
Lemma retag_lost p u ls t l b : t < b_next b -> (b_rules b = Tree -> forall v, v ∈ b_path b t -> v < b_next b) ->
  lost t l b -> lost t l (retag_as p u ls b).2.
Proof.
  intros Ht Hp H. unfold retag_as, sbind at 1 2, sget, smod. cbn [fst snd].
  set (b0 := mkB (b_rules b) (S (b_next b)) (b_at b) (b_path b) (b_perm b)).
  assert (H0 : lost t l b0).
  { assert (HR : b_rules b = Stacked \/ b_rules b = Tree) by (destruct (b_rules b); auto). destruct HR as [HR|HR].
    - by rewrite lost_stacked in *.
    - by rewrite lost_tree in *. }
  pose proof (access_all_lost (negb (bool_decide (p = SharedRO))) false u ls t l b0 H0) as H1.
  assert (Hr : forall ls b, b_rules (access_all_as (negb (bool_decide (p = SharedRO))) false u ls b).2 = b_rules b /\
                            b_path (access_all_as (negb (bool_decide (p = SharedRO))) false u ls b).2 = b_path b).
  { clear. induction ls as [|l ls IH]; intros b; [done|]. cbn [access_all_as]. unfold sbind.
    assert (H : b_rules (access_as (negb (bool_decide (p = SharedRO))) false u l b).2 = b_rules b /\
                b_path (access_as (negb (bool_decide (p = SharedRO))) false u l b).2 = b_path b).
    { unfold access_as. repeat case_match; done. }
    destruct (access_as _ false u l b) as [[] b1]; simpl in *; [|done..]. destruct (IH b1) as [-> ->]. done. }
  destruct (Hr ls b0) as [Hr1 Hp1]. unfold sbind at 1.
  destruct (access_all_as _ false u ls b0) as [[[]| | | |] b1]; simpl in H1, Hr1, Hp1; [|done..].
  unfold sbind at 1. cbn [fst snd]. unfold sbind.
  assert (H2 : lost t l (new_tag (b_next b) p u ls b1)).
  { assert (HR : b_rules b1 = Stacked \/ b_rules b1 = Tree) by (destruct (b_rules b1); auto). destruct HR as [HR|HR].
    - rewrite lost_stacked in H1 by done. by apply lost_stacked.
    - rewrite lost_tree in H1 by done. apply lost_tree; [done|]. destruct H1 as (v & Hv & Hn). exists v. simpl.
      rewrite decide_False by lia. split; [done|]. rewrite decide_False; [done|].
      rewrite Hp1 in Hv. intros ->. specialize (Hp ltac:(congruence) _ Hv). lia. }
  pose proof (push_lost (b_next b) p ls t l ltac:(lia) _ H2) as H3.
  destruct (push_all (b_next b) p ls _) as [[] b2]; done.
Qed.

Definition same_tags (b b' : borrows) : Prop := b_next b' = b_next b /\ b_path b' = b_path b /\ b_rules b' = b_rules b.
Lemma access_frame wr twr u l b : same_tags b (access_as wr twr u l b).2.
Proof. unfold access_as. repeat case_match; done. Qed.
Lemma access_all_frame wr twr u ls : forall b, same_tags b (access_all_as wr twr u ls b).2.
Proof.
  induction ls as [|l ls IH]; intros b; [done|]. cbn [access_all_as]. unfold sbind. pose proof (access_frame wr twr u l b) as (H1 & H2 & H3).
  destruct (access_as wr twr u l b) as [[] b1]; simpl in *; [|done..]. destruct (IH b1) as (A & B & C). unfold same_tags. by rewrite A, B, C.
Qed.
Lemma push_frame n p ls : forall b, same_tags b (push_all n p ls b).2.
Proof. induction ls as [|l ls IH]; intros b; [done|]. cbn [push_all]. unfold sbind, push_item, smod. apply (IH (set_at l ((n, p) :: b_at b l) b)). Qed.
Lemma retag_made p u ls t b : made t b -> made t (retag_as p u ls b).2.
Proof.
  intros [Ht Hp]. unfold retag_as, sbind at 1 2, sget, smod. cbn [fst snd].
  set (b0 := mkB (b_rules b) (S (b_next b)) (b_at b) (b_path b) (b_perm b)).
  pose proof (access_all_frame (negb (bool_decide (p = SharedRO))) false u ls b0) as (H1 & H2 & H5). unfold sbind at 1.
  destruct (access_all_as _ false u ls b0) as [[[]| | | |] b1]; simpl in H1, H2, H5.
  2-5: split; cbn [snd]; rewrite H1, ?H2, ?H5; [lia|]; intros HR v Hv%Hp; [lia|done].
  unfold sbind at 1. cbn [fst snd]. unfold sbind.
  pose proof (push_frame (b_next b) p ls (new_tag (b_next b) p u ls b1)) as (H3 & H4 & H6).
  destruct (push_all (b_next b) p ls _) as [[] b2]; cbn [fst snd] in *.
  all: change (made t b2); unfold made; rewrite H3, H4, H6; simpl; rewrite H1, H2, H5, decide_False by lia; split; [lia|]; intros HR v Hv%Hp; [lia|done].
Qed.
Lemma steps_lost t l xs : forall b, made t b -> lost t l b -> lost t l (foldl do_step b xs).
Proof.
  induction xs as [|x xs IH]; intros b Hm Hl; [done|]. cbn [foldl]. apply IH.
  - destruct x as [wr u l'|p u ls]; cbn [do_step].
    + unfold made, access. destruct (access_frame wr wr u l' b) as (-> & -> & ->). exact Hm.
    + by apply retag_made.
  - destruct Hm. destruct x as [wr u l'|p u ls]; cbn [do_step]; [by apply access_lost|by apply retag_lost].
Qed.

(** ** Calls keep the reference they are given *)

Section hold.
Variables (t : nat) (s : stack).

(** The reference [t] to the slab is still there. *)
Definition hold (b : borrows) : Prop := (t, Unique) :: s `suffix_of` b_at b LSlab /\ t < b_next b /\ Forall (fun x => x.1 < t) s.

Definition kk {S A} (pr : S -> borrows) (Q : A -> Prop) (f : M S A) : Prop :=
  forall x, hold (pr x) -> hold (pr (f x).2) /\ forall y, (f x).1 = Ret y -> Q y.

Lemma k_bind {S A B} (pr : S -> borrows) (P : A -> Prop) (Q : B -> Prop) (f : M S A) (g : A -> M S B) :
  kk pr P f -> (forall y, P y -> kk pr Q (g y)) -> kk pr Q (sbind f g).
Proof.
  intros Hf Hg x Hx. destruct (Hf x Hx) as [H1 H2]. unfold sbind. destruct (f x) as [[y| | | |] x']; simpl in *; [|done..].
  apply (Hg y); [by apply H2|done].
Qed.
Lemma k_ret {S A} (pr : S -> borrows) (Q : A -> Prop) y : Q y -> kk pr Q (sret y).
Proof. intros H x Hx. split; [done|]. by intros ? [= <-]. Qed.
Lemma k_lift {S A} (pr : S -> borrows) (Q : A -> Prop) r : (forall y, r = Ret y -> Q y) -> kk pr Q (slift r).
Proof. intros H x Hx. split; [done|]. exact H. Qed.
Lemma k_get {S} (pr : S -> borrows) : kk pr (fun _ => True) sget.
Proof. intros x Hx. by split. Qed.
Lemma k_on_r {K V A} (Q : A -> Prop) (f : M borrows A) : kk id Q f -> kk (S := bmap K V) snd Q (on_r f).
Proof. intros H [m b] Hx. specialize (H b Hx). unfold on_r, zoom. simpl. by destruct (f b). Qed.
Lemma k_on_m {K V A} (Q : A -> Prop) (f : M (bstmap K V) A) : (forall y, Q y) -> kk snd Q (on_m f).
Proof. intros H [m b] Hx. unfold on_m, zoom. simpl. by destruct (f m). Qed.
Lemma k_of_m {K V A} (Q : A -> Prop) (f : bstmap K V -> res A) : (forall y, Q y) -> kk snd Q (of_m f).
Proof. intros H. eapply k_bind; [apply k_get|]. intros. by apply k_lift. Qed.
Lemma k_on_panic {S A} (pr : S -> borrows) (Q : A -> Prop) h (f : M S A) : (forall x, pr (h x) = pr x) -> kk pr Q f -> kk pr Q (on_panic h f).
Proof. intros Hh H x Hx. specialize (H x Hx). unfold on_panic. destruct (f x) as [[] x']; simpl in *; try done. by rewrite Hh. Qed.

Lemma use_stack_hold R wr u st st' : Forall (fun x => x.1 < t) s -> t <= u -> (t, Unique) :: s `suffix_of` st -> use_stack R wr u st = Some st' ->
  (t, Unique) :: s `suffix_of` st'.
Proof.
  intros Hs Hu [a ->].
  assert (Hno : forall R', use_write u s = None /\ use_read R' u s = None).
  { intros R'. clear st'. induction s as [|[v q] s' IH]; [done|]. apply Forall_cons in Hs as [Hv Hs]. simpl in Hv.
    destruct (IH Hs) as [H1 H2]. cbn -[bool_decide]. rewrite !bool_decide_eq_false_2 by (intros [-> _]; lia). by rewrite H2. }
  revert st'. induction a as [|[v q] a IH]; intros st'; destruct wr; cbn -[bool_decide disable].
  - case_bool_decide; [by intros [= <-]|]. by rewrite (proj1 (Hno R)).
  - case_bool_decide; [by intros [= <-]|]. by rewrite (proj2 (Hno R)).
  - case_bool_decide; [intros [= <-]; apply suffix_cons_r; by apply suffix_app_r|]. apply IH.
  - case_bool_decide; [intros [= <-]; apply suffix_cons_r; by apply suffix_app_r|].
    destruct (use_read R u _) as [st1|] eqn:E; [|done]. intros [= <-]. apply suffix_cons_r. by apply IH.
Qed.

Lemma k_access_as wr twr u l : t <= u \/ l <> LSlab -> kk id (fun _ => True) (access_as wr twr u l).
Proof.
  intros Hu b (H1 & H2 & H3). split; [|done]. unfold id in *.
  assert (Hst : forall st R, use_stack R wr u (b_at b l) = Some st -> (t, Unique) :: s `suffix_of` b_at (set_at l st b) LSlab).
  { intros st R E. destruct (decide (LSlab = l)) as [<-|Hl]; [|by rewrite set_at_ne]. rewrite set_at_eq.
    destruct Hu as [Hu|]; [|done]. by eapply use_stack_hold. }
  unfold access_as. destruct (b_rules b).
  - destruct (use_stack Stacked wr u (b_at b l)) as [st|] eqn:E; [|done]. split; [by eapply Hst|done].
  - destruct (use_tree _ _ _) as [pm|]; [|done]. split; [|done]. cbn [snd set_perm b_at].
    destruct (use_stack Tree wr u (b_at b l)) as [st|] eqn:E; [by eapply Hst|]. cbn [from_option id].
    destruct (decide (LSlab = l)) as [<-|Hl]; [by rewrite set_at_eq|by rewrite set_at_ne].
Qed.
Lemma k_access wr u l : t <= u \/ l <> LSlab -> kk id (fun _ => True) (access wr u l).
Proof. apply k_access_as. Qed.
Lemma k_access_all_as wr twr u ls : t <= u \/ LSlab ∉ ls -> kk id (fun _ => True) (access_all_as wr twr u ls).
Proof.
  induction ls as [|l ls IH]; intros Hu; cbn [access_all_as]; [by apply k_ret|].
  eapply k_bind; [apply k_access_as|intros _ _; apply IH]; destruct Hu as [?|[Hl Hls]%not_elem_of_cons]; auto.
Qed.
Lemma k_access_all wr u ls : t <= u \/ LSlab ∉ ls -> kk id (fun _ => True) (access_all wr u ls).
Proof. apply k_access_all_as. Qed.
Lemma k_push_all n p ls : kk id (fun _ => True) (push_all n p ls).
Proof.
  induction ls as [|l ls IH]; cbn [push_all]; [by apply k_ret|]. eapply (k_bind _ (fun _ => True)); [|intros _ _; apply IH].
  intros b (H1 & H2 & H3). split; [|done]. split; [|done]. unfold push_item, smod, id in *. cbn [snd].
  destruct (decide (LSlab = l)) as [<-|Hl]; [|by rewrite set_at_ne]. rewrite set_at_eq. by apply suffix_cons_r.
Qed.
Lemma k_retag_as p u ls : t <= u \/ LSlab ∉ ls -> kk id (fun y => t < y) (retag_as p u ls).
Proof.
  intros Hu. unfold retag_as. intros b Hb. destruct (Hb) as (_ & Hn & _). unfold sbind at 1, sget.
  revert b Hb Hn. 
  assert (H : forall n, t < n -> kk id (fun y => t < y)
    (let! _ := smod (fun b => mkB (b_rules b) (S n) (b_at b) (b_path b) (b_perm b)) in
     let! _ := access_all_as (negb (bool_decide (p = SharedRO))) false u ls in
     let! _ := smod (new_tag n p u ls) in
     let! _ := push_all n p ls in
     sret n)).
  { intros n Hn. eapply (k_bind _ (fun _ => True)).
    { intros b (H1 & H2 & H3). split; [|done]. split; [done|]. unfold id in *. simpl. split; [lia|done]. }
    intros _ _. eapply k_bind; [by apply k_access_all_as|]. intros _ _.
    eapply (k_bind _ (fun _ => True)). { intros b Hb. by split. }
    intros _ _. eapply k_bind; [apply k_push_all|]. intros _ _. by apply k_ret. }
  intros b Hb Hn. by apply (H (b_next b) Hn b).
Qed.
Lemma k_retag_mut u ls : t <= u \/ LSlab ∉ ls -> kk id (fun y => t < y) (retag_mut u ls).
Proof. apply k_retag_as. Qed.
Lemma k_retag_shr u ls : t <= u \/ LSlab ∉ ls -> kk id (fun y => t < y) (retag_shr u ls).
Proof. apply k_retag_as. Qed.
Lemma k_retag_raw u ls : t <= u \/ LSlab ∉ ls -> kk id (fun y => t < y) (retag_raw u ls).
Proof. apply k_retag_as. Qed.
Lemma k_retag mut u ls : t <= u \/ LSlab ∉ ls -> kk id (fun y => t < y) (retag mut u ls).
Proof. destruct mut; apply k_retag_as. Qed.

Lemma node_not_slab p : LSlab ∉ node_locs p.
Proof. rewrite node_locs_elem. naive_solver. Qed.
Lemma nodes_not_slab c cl : LSlab ∉ chunk_locs c cl.
Proof.
  unfold chunk_locs. intros H%elem_of_list_In. apply in_flat_map in H as (i & _ & H%elem_of_list_In). by apply node_not_slab in H.
Qed.
Lemma field_not_slab p f : LSlab ∉ [LNode p f].
Proof. by intros ?%elem_of_list_singleton. Qed.

Definition oknm (n : bnode) : Prop := t <= bn_nodes n.
Definition okonm (n : option bnode) : Prop := match n with Some n => oknm n | None => True end.


Ltac loc := first
  [ left; unfold oknm in *; simpl in *; lia
  | right; first [done | apply node_not_slab | apply nodes_not_slab | apply field_not_slab] ].
Ltac tag := unfold oknm in *; simpl in *; first [done | lia].
(** One step of a function, with the lemmas of the functions that it calls. *)
Ltac kp1 lems := first
  [ apply k_get
  | (apply k_on_r, k_access; loc) | (apply k_on_r, k_access_all; loc)
  | (apply k_on_r, k_retag_mut; loc) | (apply k_on_r, k_retag_shr; loc)
  | (apply k_on_r, k_retag_raw; loc) | (apply k_on_r, k_retag; loc)
  | (apply k_access; loc) | (apply k_access_all; loc)
  | (apply k_retag_mut; loc) | (apply k_retag_shr; loc) | (apply k_retag_raw; loc) | (apply k_retag; loc)
  | (eapply (k_on_m (fun _ => True)); done) | (eapply (k_of_m (fun _ => True)); done)
  | (eapply (k_lift _ (fun _ => True)); done)
  | lems
  | (apply k_ret; tag) ].
Tactic Notation "kp" tactic3(lems) := repeat first [ kp1 lems | (eapply k_bind; [kp1 lems|intros ? ?]) ].

Context {K V : Type}.
Implicit Types m : bstmap K V.
Notation ks := (kk (S := bmap K V) snd).
Notation any := (fun _ => True).

Lemma k_any {S A} (pr : S -> borrows) (Q : A -> Prop) f : kk pr Q f -> kk pr any f.
Proof. intros H x Hx. by destruct (H x Hx). Qed.
Lemma k_b_get mut m h p : t <= h -> kk id any (b_get mut m h p).
Proof. intros Hh. unfold b_get. kp fail. eapply k_any, k_retag. loc. Qed.
Lemma k_b_left m n p : kk id any (b_left m n p).
Proof. unfold b_left. kp fail. Qed.
Lemma k_b_right m n p : kk id any (b_right m n p).
Proof. unfold b_right. kp fail. Qed.
Ltac sub1 := first [ (apply k_on_r, k_b_get; tag) | apply k_on_r, k_b_left | apply k_on_r, k_b_right ].
Lemma k_b_node mut h p : t <= h -> ks any (b_node mut h p).
Proof. intros Hh. unfold b_node. kp sub1. Qed.
Lemma k_new r p : t <= r -> ks oknm (b_nodemut_new r p).
Proof. intros Hr. unfold b_nodemut_new. kp (apply k_b_node; tag). Qed.
Lemma k_opt r p : t <= r -> ks okonm (b_opt_nodemut r p).
Proof. intros Hr. destruct p as [p|]; cbn [b_opt_nodemut]; kp (apply k_new; tag). Qed.
Lemma k_key n : ks any (b_nodemut_key n).
Proof. unfold b_nodemut_key. kp fail. Qed.
Lemma k_value n : ks any (b_nodemut_value n).
Proof. unfold b_nodemut_value. kp fail. Qed.
Lemma k_has_left n : ks any (b_nodemut_has_left n).
Proof. unfold b_nodemut_has_left. kp fail. Qed.
Lemma k_has_right n : ks any (b_nodemut_has_right n).
Proof. unfold b_nodemut_has_right. kp fail. Qed.
Lemma k_left n : oknm n -> ks okonm (b_nodemut_left n).
Proof. intros Hn. unfold b_nodemut_left. kp (first [sub1|apply k_opt; tag]). Qed.
Lemma k_right n : oknm n -> ks okonm (b_nodemut_right n).
Proof. intros Hn. unfold b_nodemut_right. kp (first [sub1|apply k_opt; tag]). Qed.
Lemma k_push e h x : t <= h -> ks any (b_push e h x).
Proof. intros Hh. unfold b_push. kp fail. destruct (s_head _); kp fail. Qed.
Lemma k_push_left e n k v : oknm n -> ks any (b_push_left e n k v).
Proof. intros Hn. unfold b_push_left. kp (apply k_push; tag). Qed.
Lemma k_push_right e n k v : oknm n -> ks any (b_push_right e n k v).
Proof. intros Hn. unfold b_push_right. kp (apply k_push; tag). Qed.
Lemma k_replace_value n v : ks any (b_replace_value n v).
Proof. unfold b_replace_value. kp fail. Qed.
Lemma k_root_mut self : t <= self -> ks okonm (b_root_mut self).
Proof. intros Hs. unfold b_root_mut. kp fail. destruct (m_root _); kp (apply k_new; tag). Qed.
Ltac sub2 := first [ sub1 | apply k_key | apply k_value | apply k_has_left | apply k_has_right
  | (apply k_left; tag) | (apply k_right; tag) | (apply k_push_left; tag) | (apply k_push_right; tag)
  | apply k_replace_value | (apply k_root_mut; tag) | (apply k_b_node; tag) | (apply k_push; tag) ].
Lemma k_insert_loop e o k v : forall fuel i cur, okonm cur -> ks any (b_insert_loop e o fuel i k v cur).
Proof.
  induction fuel as [|fuel IH]; intros i cur Hc; cbn [b_insert_loop]; [kp fail|].
  destruct cur as [n|]; kp sub2. destruct y0; kp sub2; destruct (negb _); kp sub2; by apply IH.
Qed.
Lemma k_uses u p ws : ks any (b_uses u p ws).
Proof. induction ws as [|[w|] ws IH]; cbn [b_uses]; kp (apply IH). Qed.
Lemma k_get_mut_loop o : forall fuel i cur, okonm cur -> ks any (b_get_mut_loop o fuel i cur).
Proof.
  induction fuel as [|fuel IH]; intros i cur Hc; cbn [b_get_mut_loop]; [kp fail|].
  destruct cur as [n|]; kp sub2. destruct y0; kp sub2; by apply IH.
Qed.
Lemma k_entry mut n p : kk id any (b_entry mut n p).
Proof. unfold b_entry. kp fail. Qed.
Lemma k_get_entry_mut_loop o : forall fuel i cur, okonm cur -> ks any (b_get_entry_mut_loop o fuel i cur).
Proof.
  induction fuel as [|fuel IH]; intros i cur Hc; cbn [b_get_entry_mut_loop]; [kp fail|].
  destruct cur as [n|]; kp sub2. destruct y0; kp (first [sub2|apply k_on_r, k_entry]); by apply IH.
Qed.
Lemma k_nw_step ev n : oknm n -> ks okonm (b_nw_step ev n).
Proof. intros Hn. destruct ev; cbn [b_nw_step]; kp sub2. Qed.
Lemma k_nw_run ws : forall evs cur, okonm cur -> ks any (b_nw_run evs ws cur).
Proof.
  induction evs as [|ev evs IH]; intros [n|] Hc; cbn [b_nw_run]; kp (first [apply k_uses|apply k_nw_step; tag]). by apply IH.
Qed.
Lemma k_remove_find self o : t <= self -> forall fuel i parent cur, ks any (b_remove_find self o fuel i parent cur).
Proof.
  intros Hs. induction fuel as [|fuel IH]; intros i parent cur; cbn [b_remove_find]; [kp fail|].
  destruct cur as [p|]; kp sub2. destruct y4; kp sub2; by apply IH.
Qed.
Lemma k_succ_loop self : t <= self -> forall fuel a b, ks any (b_succ_loop self fuel a b).
Proof.
  intros Hs. induction fuel as [|fuel IH]; intros a b; cbn [b_succ_loop]; [kp fail|].
  kp sub2. destruct y1; kp sub2. by apply IH.
Qed.
Lemma k_store_left self p q : t <= self -> ks any (b_store_left self p q).
Proof. intros Hs. unfold b_store_left. kp sub2. Qed.
Lemma k_store_right self p q : t <= self -> ks any (b_store_right self p q).
Proof. intros Hs. unfold b_store_right. kp sub2. Qed.
Ltac sub3 := first [ sub2 | (apply k_store_left; tag) | (apply k_store_right; tag) | (apply k_succ_loop; tag) ].
Lemma k_remove_replacement self p : t <= self -> ks any (b_remove_replacement self p).
Proof.
  intros Hs. unfold b_remove_replacement. kp sub3. destruct y1, y2; kp sub3.
  eapply (k_bind _ any).
  - destruct y2; kp sub3. destruct y2; kp sub3.
  - intros; kp sub3.
Qed.
Lemma k_slab_remove e h p : t <= h -> ks any (b_slab_remove e h p).
Proof. intros Hs. unfold b_slab_remove. kp fail. Qed.

(** ** [clear], [shrink_to_fit] *)
Lemma k_reset e h : t <= h -> ks any (b_reset e h).
Proof. intros Hh. unfold b_reset. kp fail. Qed.
Lemma k_collect h : t <= h -> forall fuel cur acc, ks any (b_collect_free h fuel cur acc).
Proof.
  intros Hh. induction fuel as [|fuel IH]; intros cur acc; cbn [b_collect_free]; [kp fail|].
  destruct cur; kp fail. by apply IH.
Qed.
Lemma k_drop_loop e pn it free : t <= it -> forall fuel r, ks any (b_drop_loop e pn it fuel free r).
Proof.
  intros Hh. induction fuel as [|fuel IH]; intros r; cbn [b_drop_loop]; [kp fail|].
  kp fail. destruct (next_ptr _ _ _) as [x r']. kp fail. destruct y0 as [[p ?]|]; kp fail. destruct (decide _); kp (apply IH).
Qed.
Lemma k_slab_clear e pn h : t <= h -> ks any (b_slab_clear e pn h).
Proof.
  intros Hh. unfold b_slab_clear. kp fail. destruct (negb _ || _); kp (first [apply k_reset; tag|apply k_collect; tag|apply k_drop_loop; tag]).
Qed.
Lemma k_as_raw tagged u p : kk id any (as_raw tagged u (node_locs p)).
Proof. unfold as_raw. destruct tagged; [eapply k_any, k_retag_raw; loc|]. kp (apply k_push_all). Qed.
Lemma k_forget c : kk id any (forget c).
Proof. intros b Hb. by split. Qed.
Lemma k_free_chunk tagged ch c cl : t <= ch -> ks any (b_free_chunk tagged ch c cl).
Proof. intros Hh. unfold b_free_chunk, on_arena. kp (first [apply k_on_r, k_as_raw|apply k_on_r, k_forget]). Qed.
Lemma k_shrink_loop tagged e h : t <= h -> forall fuel n, ks any (b_shrink_loop tagged e h fuel n).
Proof.
  intros Hh. induction fuel as [|fuel IH]; intros n; cbn [b_shrink_loop]; [kp fail|].
  kp fail. destruct (list.last _); kp fail. destruct (_ <=? _)%N; unfold on_arena; kp (first [apply k_free_chunk; tag|apply IH]).
Qed.

(** ** Mutable iterators *)
Notation ki := (kk (S := biter) snd).
Lemma k_on_b {A} (Q : A -> Prop) (f : M borrows A) : kk id Q f -> ki Q (on_b f).
Proof. intros H [m b] Hx. specialize (H b Hx). unfold on_b, zoom. simpl. by destruct (f b). Qed.
Lemma k_pop : ki any bi_pop.
Proof. intros [[|p st] b] Hx; by split. Qed.
Lemma k_bi_push p : ki any (bi_push p).
Proof. intros x Hx. by split. Qed.
Lemma k_extend o : ki any (bi_extend o).
Proof. intros x Hx. by split. Qed.
Lemma k_top_is p : ki any (bi_top_is p).
Proof. intros x Hx. by split. Qed.
Ltac subi := first [ apply k_pop | apply k_bi_push | apply k_extend | apply k_top_is
  | (apply k_on_b, k_b_get; tag) | apply k_on_b, k_b_left | apply k_on_b, k_b_right | apply k_on_b, k_entry
  | (apply k_on_b, k_retag_mut; loc) | (apply k_on_b, k_retag_raw; loc) ].
Lemma k_preorder_next m r : t <= r -> ki any (b_preorder_next m r).
Proof. intros Hr. unfold b_preorder_next. kp subi. destruct y; kp subi. Qed.
Lemma k_inorder_descend m r : t <= r -> forall fuel cur, ki any (b_inorder_descend m r fuel cur).
Proof. intros Hr. induction fuel as [|fuel IH]; intros [p|]; cbn [b_inorder_descend]; kp (first [subi|apply IH]). Qed.
Lemma k_inorder_next m r : t <= r -> ki any (b_inorder_next m r).
Proof. intros Hr. unfold b_inorder_next. kp subi. destruct y; kp (first [subi|apply k_inorder_descend; tag]). Qed.
Lemma k_postorder_descend m r : t <= r -> forall fuel cur, ki any (b_postorder_descend m r fuel cur).
Proof. intros Hr. induction fuel as [|fuel IH]; intros [p|]; cbn [b_postorder_descend]; kp (first [subi|apply IH]). Qed.
Lemma k_postorder_inner m r : t <= r -> forall fuel p n, ki any (b_postorder_inner m r fuel p n).
Proof.
  intros Hr. induction fuel as [|fuel IH]; intros p n; cbn [b_postorder_inner]; kp subi. destruct y2; kp (first [subi|apply IH]).
Qed.
Lemma k_postorder_loop m r : t <= r -> forall fuel, ki any (b_postorder_loop m r fuel).
Proof.
  intros Hr. induction fuel as [|fuel IH]; cbn [b_postorder_loop]; kp subi. destruct y; kp subi.
  eapply (k_bind _ any); [destruct y0; kp subi|]. intros z _. destruct y0, z; kp (first [subi|apply k_postorder_inner; tag|apply IH]).
Qed.
Lemma k_iter_next m d r : t <= r -> ki any (b_iter_next m d r).
Proof.
  intros Hr. destruct d; cbn [b_iter_next]; [by apply k_preorder_next|by apply k_inorder_next|].
  unfold b_postorder_next. kp (first [subi|apply k_postorder_loop; tag]).
Qed.
Lemma k_bm_step d r ev : t <= r -> kk bm_borrows any (bm_step (K := K) (V := V) d r ev).
Proof.
  intros Hr st Hst. split; [|done]. destruct ev as [|j|j|j v]; cbn [bm_step].
  - destruct (k_iter_next (bm_map st) d r Hr (bm_stack st, bm_borrows st) Hst) as [H _].
    by destruct (b_iter_next _ _ _ _) as [x [stk b]].
  - destruct (_ !! j) as [y|]; [|done].
    destruct (k_access false (rf_key y) (LNode (rf_node y) FKey) ltac:(loc) (bm_borrows st) Hst) as [H _].
    by destruct (access _ _ _ _).
  - destruct (_ !! j) as [y|]; [|done].
    destruct (k_access false (rf_value y) (LNode (rf_node y) FValue) ltac:(loc) (bm_borrows st) Hst) as [H _].
    by destruct (access _ _ _ _).
  - destruct (_ !! j) as [y|]; [|done].
    destruct (k_access true (rf_value y) (LNode (rf_node y) FValue) ltac:(loc) (bm_borrows st) Hst) as [H _].
    destruct (access _ _ _ _) as [[] b]; try done. by destruct (write_value _ _ _).
Qed.
Lemma k_bm_run d r evs : t <= r -> kk bm_borrows any (bm_run (K := K) (V := V) d r evs).
Proof.
  intros Hr. induction evs as [|ev evs IH]; cbn [bm_run]; [by apply k_ret|].
  eapply k_bind; [by apply k_bm_step|]. intros _ _. apply IH.
Qed.

Lemma k_iter_tail m d : kk (S := biter) snd (fun r => t < r)
  (let! _ := (match d with
              | Pre => bi_extend (m_root m)
              | In => b_inorder_descend m t (map_fuel m) (m_root m)
              | Post => b_postorder_descend m t (map_fuel m) (m_root m)
              end) in
   on_b (retag_raw t [LSlab])).
Proof.
  eapply (k_bind _ any); [destruct d; [apply k_extend|by apply k_inorder_descend|by apply k_postorder_descend]|].
  intros _ _. apply k_on_b, k_retag_raw. loc.
Qed.
End hold.

(** ** Statements *)
Ltac loc := first
  [ left; unfold oknm in *; simpl in *; lia
  | right; first [done | apply node_not_slab | apply nodes_not_slab | apply field_not_slab] ].
Ltac tag := unfold oknm, okonm in *; simpl in *; first [done | lia].
Ltac kp1 := first
  [ apply k_get
  | (apply k_on_r, k_access; loc)
  | (apply k_on_r, k_retag_mut; loc)
  | (eapply (k_on_m _ _ (fun _ => True)); done) | (eapply (k_of_m _ _ (fun _ => True)); done)
  | (apply k_root_mut; tag) | (apply k_push; tag)
  | (apply k_remove_find; tag) | (apply k_remove_replacement; tag) | (apply k_slab_remove; tag)
  | (apply k_insert_loop; tag) | apply k_uses | (apply k_get_mut_loop; tag) | (apply k_get_entry_mut_loop; tag)
  | (apply k_nw_run; tag) | (apply k_slab_clear; tag) | (apply k_shrink_loop; tag)
  | (apply k_b_node; tag) | apply k_on_r, k_b_left | apply k_on_r, k_b_right
  | (apply k_ret; tag) ].
Ltac kp := repeat first [ kp1 | (eapply k_bind; [kp1|intros ? ?]) ].

Section rules.
Context {Ru : rules} {K V : Type}.
Notation ok := (ModelBorrow.ok Ru).
Implicit Types m : bstmap K V.

Lemma hold_usable t s b : hold t s b -> ok b -> usable t b.
Proof.
  intros [Hs _] Hok. split.
  - destruct Hs as [a ->]. apply elem_of_app. right. left.
  - destruct (access_spec true b t Unique s LSlab Hok Hs (grants_unique true)) as (a & b' & _ & E & _). by exists b'.
Qed.
Lemma enter b : ok b -> exists b', retag_mut base [LSlab] b = (Ret (b_next b), b') /\ hold (b_next b) [(base, SharedRW)] b'.
Proof.
  intros Hok. destruct (retag_as_spec Unique base [LSlab] b Hok slab_nodup) as (b' & E & Hok' & Hn & _ & Hin); [intros l _; by apply base_grants|].
  exists b'. split; [done|]. destruct (Hin LSlab SharedRW []) as (a & _ & Hb); [left|by apply ok_base|apply grants_rw|].
  split_and!.
  - rewrite Hb. done.
  - rewrite Hn. lia.
  - constructor; [|done]. destruct (ok_at Ru b Hok LSlab) as (_ & H & _). apply H.
    destruct (ok_base b LSlab Hok) as [a' ->]. rewrite fmap_app. apply elem_of_app. right. left.
Qed.
Lemma entered {A} (g : nat -> M (bmap K V) A) m b : ok b ->
  kk (b_next b) [(base, SharedRW)] snd (fun _ => True) (g (b_next b)) ->
  hold (b_next b) [(base, SharedRW)] (sbind (on_r (retag_mut base [LSlab])) g (m, b)).2.2.
Proof.
  intros Hok Hg. destruct (enter b Hok) as (b' & E & Hh). unfold sbind, on_r, zoom. cbn [snd]. rewrite E. by apply (Hg (m, b')).
Qed.
Lemma hold_snd {A B} t s (f : M (bmap K V) A) (g : A -> B) x : hold t s (f x).2.2 -> hold t s ((let! y := f in sret (g y)) x).2.2.
Proof. unfold sbind. by destruct (f x) as [[] ?]. Qed.

Lemma self_held tagged e c m b : ok b -> self_call c -> hold (b_next b) [(base, SharedRW)] (fb_exec tagged e c (m, b)).2.2.
Proof.
  intros Hok Hc. destruct c as [[o k v|o|o ws|o ws|evs ws|d evs|evs]| |n|]; cbn [fb_exec b_exec]; try done.
  - apply (hold_snd _ _ _ (fun _ => tt)). unfold b_insert, on_panic.
    set (f := sbind _ _). assert (H : hold (b_next b) [(base, SharedRW)] (f (m, b)).2.2).
    { apply entered; [done|]. kp. destruct y0; kp. }
    destruct (f (m, b)) as [[] [m' b']]; done.
  - apply (hold_snd _ _ _ (fun _ => tt)). apply entered; [done|]. kp. destruct y0 as [parent [p|]]; kp.
    eapply (k_bind _ _ _ (fun _ => True)).
    + destruct parent; kp. destruct (bool_decide _); kp.
    + intros _ _. kp.
  - apply (hold_snd _ _ _ (fun _ => tt)). unfold b_get_mut_program, b_get_mut.
    set (g := fun self => let! x := (let! s := sget in let! r := b_root_mut self in b_get_mut_loop o (map_fuel s.1) 0 r) in
       match x with None => sret None | Some (t, p) => let! _ := b_uses t p ws in sret (Some p) end).
    assert (H : hold (b_next b) [(base, SharedRW)] (sbind (on_r (retag_mut base [LSlab])) g (m, b)).2.2).
    { apply entered; [done|]. unfold g. eapply (k_bind _ _ _ (fun _ => True)); [kp|]. intros [[u p]|] _; kp. }
    revert H. unfold g, sbind. by repeat case_match.
  - apply (hold_snd _ _ _ (fun _ => tt)). unfold b_get_entry_mut_program, b_get_entry_mut.
    set (g := fun self => let! x := (let! s := sget in let! r := b_root_mut self in b_get_entry_mut_loop o (map_fuel s.1) 0 r) in
       match x with
       | None => sret None
       | Some (k, x) =>
         let! _ := b_uses (rf_value x) (rf_node x) ws in
         let! _ := on_r (access false (rf_key x) (LNode (rf_node x) FKey)) in
         sret (Some (k, rf_node x))
       end).
    assert (H : hold (b_next b) [(base, SharedRW)] (sbind (on_r (retag_mut base [LSlab])) g (m, b)).2.2).
    { apply entered; [done|]. unfold g. eapply (k_bind _ _ _ (fun _ => True)); [kp|]. intros [[u x]|] _; kp. }
    revert H. unfold g, sbind. by repeat case_match.
  - apply entered; [done|]. kp.
  - destruct (enter b Hok) as (b0 & E & Hh). unfold bm_program, b_iter_start. unfold sbind at 1, on_b at 1, zoom. cbn [fst snd]. rewrite E. cbn [fst snd].
    destruct (k_iter_tail (b_next b) _ m d ([], b0) Hh) as [H1 H2].
    match type of H1 with hold _ _ (?f _).2.2 => set (g := f) in * end.
    destruct (g ([], b0)) as [[r| | | |] [stk b1]]; cbn [fst snd rmap bm_borrows] in *; try done.
    destruct (k_bm_run (b_next b) [(base, SharedRW)] d r evs ltac:(specialize (H2 r eq_refl); lia) (mkBM m stk [] b1) H1) as [H3 _].
    by destruct (bm_run _ _ _ _).
  - apply entered; [done|]. kp.
  - apply entered; [done|]. kp.
  - apply entered; [done|]. kp.
Qed.

Lemma self_usable e c m b : reachable e m -> ok b -> self_call c -> usable (b_next b) (fb_exec (tag_mode Ru) e c (m, b)).2.2.
Proof.
  intros (t & fl & Hrep)%reachable_rep Hok Hc. eapply hold_usable; [by apply self_held|].
  destruct (f_exec_run e c m t fl b Hrep Hok) as (b' & Hok' & ->). done.
Qed.
Lemma clear_usable e pn m b : ok b -> usable (b_next b) (b_clear e pn (m, b)).2.2.
Proof.
  intros Hok. assert (Hh : hold (b_next b) [(base, SharedRW)] (b_clear e pn (m, b)).2.2) by (apply entered; [done|]; kp).
  eapply hold_usable; [exact Hh|]. by destruct (b_clear_run e pn m b Hok) as (b' & Hok' & ->).
Qed.
Lemma arena_drop_usable e m b : ok b -> usable (b_next b) (b_arena_drop (tag_mode Ru) e (m, b)).2.2.
Proof.
  intros Hok. apply (hold_usable _ [(base, SharedRW)]).
  - apply entered; [done|]. unfold on_arena. kp. eapply (k_bind _ _ _ (fun _ => True)); [|intros _ _; kp].
    generalize 0%N. induction (a_chunks _) as [|c cs IH]; intros i; cbn [b_free_chunks]; [kp|].
    eapply (k_bind _ _ _ (fun _ => True)); [by apply k_lift|]. intros cl _.
    eapply (k_bind _ _ _ (fun _ => True)); [apply k_free_chunk; tag|]. intros _ _. apply IH.
  - destruct (sim_arena_drop e m b Hok I) as (b' & Hok' & H).
    destruct (on_nodes _ m) as [[] m']; cbn [fst snd] in H; [destruct H as (y & -> & _)|rewrite H..]; done.
Qed.
Lemma enter_made b : ok b -> exists b', retag_mut base [LSlab] b = (Ret (b_next b), b') /\ made (b_next b) b' /\ usable (b_next b) b'.
Proof.
  intros Hok. destruct (enter b Hok) as (b' & E & Hh). exists b'. split; [done|].
  destruct (retag_as_spec Unique base [LSlab] b Hok slab_nodup) as (b'' & E' & Hok' & Hn & _); [intros l _; by apply base_grants|].
  unfold retag_mut in E. rewrite E in E'. injection E' as <-. split; [|by eapply hold_usable].
  split; [lia|]. rewrite (ok_rules _ _ Hok'). intros HR. destruct (ok_tree _ _ Hok' HR) as [_ H].
  destruct (H LSlab) as [Hp _]. intros v Hv. destruct (Hp (b_next b)) as [_ H']; [|by apply H'].
  destruct Hh as [[a ->] _]. rewrite fmap_app. apply elem_of_app. right. left.
Qed.

(** ** References that are passed on *)
Lemma sim_ok {A B} P R (f : M (bstmap K V) A) (g : M (bmap K V) B) m b : sim (Ru := Ru) P R f g -> ok b -> P m b -> ok (g (m, b)).2.2.
Proof.
  intros H Hok HP. destruct (H m b Hok HP) as (b' & Hok' & E).
  destruct (f m) as [[] m']; cbn [fst snd] in E; [destruct E as (y & -> & _)|rewrite E..]; done.
Qed.
Lemma passed_usable h b : ok b -> passed h b -> usable h b.
Proof. intros Hok (s & H). by apply (hold_usable h s). Qed.
Lemma pass_on h b : ok b -> passed h b ->
  exists b', retag_mut h [LSlab] b = (Ret (b_next b), b') /\ ok b' /\ passed h b' /\ passed (b_next b) b'.
Proof.
  intros Hok (s & Hs & Hn & Ho).
  destruct (retag_as_spec Unique h [LSlab] b Hok slab_nodup) as (b' & E & Hok' & Hn' & _ & Hin).
  { intros l ->%elem_of_list_singleton. exists Unique, s. split; [done|]. apply grants_unique. }
  exists b'. split; [done|]. split; [done|]. destruct (Hin LSlab Unique s) as (a & _ & Hb); [left|done|apply grants_unique|].
  assert (used (writes Unique) a = []) as Hu by done. rewrite Hu in Hb. split.
  - exists s. rewrite Hb, Hn'. split_and!; [by apply suffix_cons_r|lia|done].
  - exists ((h, Unique) :: s). rewrite Hb, Hn'. split_and!; [done|lia|]. constructor; [done|]. eapply Forall_impl; [exact Ho|]. simpl. lia.
Qed.
Lemma enter_passed b b' n : ok b -> retag_mut base [LSlab] b = (Ret n, b') -> passed n b'.
Proof. intros Hok E. destruct (enter b Hok) as (b'' & E' & H). rewrite E in E'. injection E' as -> ->. by eexists. Qed.
Lemma push_usable e h x m b : ok b -> passed h b -> usable h (b_push e h x (m, b)).2.2.
Proof.
  intros Hok (s & H). apply (hold_usable h s).
  - by apply (k_push h s e h x (le_n h) (m, b)).
  - destruct (b_push_spec e h s x m b Hok (proj1 H)) as (b' & -> & Hok' & _). done.
Qed.
Lemma slab_remove_usable e h p m b : ok b -> passed h b -> usable h (b_slab_remove e h p (m, b)).2.2.
Proof.
  intros Hok (s & H). apply (hold_usable h s).
  - by apply (k_slab_remove h s e h p (le_n h) (m, b)).
  - eapply sim_ok; [apply (sim_slab_remove e h s p)|done|]. apply H.
Qed.
Lemma slab_clear_usable e pn h m b : ok b -> passed h b -> usable h (b_slab_clear e pn h (m, b)).2.2.
Proof.
  intros Hok (s & H). apply (hold_usable h s).
  - by apply (k_slab_clear h s e pn h (le_n h) (m, b)).
  - eapply sim_ok; [apply (sim_slab_clear e pn h s)|done|]. split; [done|]. apply H.
Qed.
End rules.
