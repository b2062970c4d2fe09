(** * Proofs about ModelBorrow.v *)

From Verif Require Import ProofIterProps ModelBorrow.
Local Open Scope nat_scope.

(** So that the rules need not be named in statements about either. *)
Existing Class rules.

Section rules.
Context {Ru : rules}.
Notation ok := (ModelBorrow.ok Ru).

(** ** Stacks *)

Lemma use_write_app t p above s :
  t ∉ above.*1 -> p = Unique \/ p = SharedRW -> use_write t (above ++ (t, p) :: s) = Some ((t, p) :: s).
Proof.
  intros Ht Hp. induction above as [|[u q] above IH]; cbn -[bool_decide].
  - by rewrite bool_decide_eq_true_2.
  - rewrite fmap_cons, not_elem_of_cons in Ht. destruct Ht as [Hu Ht]. simpl in Hu.
    rewrite bool_decide_eq_false_2 by (intros [-> _]; done). by apply IH.
Qed.

Lemma use_read_app t p above s :
  t ∉ above.*1 -> p <> Disabled ->
  use_read Ru t (above ++ (t, p) :: s) = Some ((disable Ru <$> above) ++ (t, p) :: s).
Proof.
  intros Ht Hp. induction above as [|[u q] above IH]; cbn -[bool_decide disable].
  - by rewrite bool_decide_eq_true_2.
  - rewrite fmap_cons, not_elem_of_cons in Ht. destruct Ht as [Hu Ht]. simpl in Hu.
    rewrite bool_decide_eq_false_2 by (intros [-> _]; done). by rewrite IH.
Qed.

Lemma disable_tag x : (disable Ru x).1 = x.1.
Proof. by destruct Ru, x as [? []]. Qed.
Lemma disable_tags above : (disable Ru <$> above).*1 = above.*1.
Proof. induction above as [|x above IH]; cbn; [done|]. by rewrite disable_tag, <- IH. Qed.

Lemma ok_stack_mono n n' st : n <= n' -> ok_stack n st -> ok_stack n' st.
Proof. intros Hn (A & B & C). split_and!; try done. intros t Ht%B. lia. Qed.

Lemma set_at_eq l st b : b_at (set_at l st b) l = st.
Proof. unfold set_at. simpl. by rewrite decide_True. Qed.
Lemma set_at_ne l l' st b : l' <> l -> b_at (set_at l st b) l' = b_at b l'.
Proof. intros. unfold set_at. simpl. by rewrite decide_False. Qed.

Lemma ok_base b l : ok b -> [(base, SharedRW)] `suffix_of` b_at b l.
Proof.
  intros Hok. destruct (ok_at Ru b Hok l) as (_ & _ & Hin). apply last_Some in Hin as [l' ->]. by exists l'.
Qed.

Lemma ok_suffix n st t p s : ok_stack n st -> (t, p) :: s `suffix_of` st -> ok_stack n ((t, p) :: s).
Proof.
  intros (A & B & C) [above ->]. rewrite fmap_app in A, B. apply NoDup_app in A as (_ & _ & A).
  rewrite last_app_cons in C. split_and!; try done.
  intros u Hu. apply B. rewrite elem_of_app. by right.
Qed.

Lemma ok_disable n above t p s : ok_stack n (above ++ (t, p) :: s) -> ok_stack n ((disable Ru <$> above) ++ (t, p) :: s).
Proof.
  intros (A & B & C). rewrite fmap_app in A, B. rewrite last_app_cons in C.
  split_and!; rewrite ?fmap_app, ?disable_tags; try done. by rewrite last_app_cons.
Qed.

Lemma ok_push n p st : ok_stack n st -> ok_stack (S n) ((n, p) :: st).
Proof.
  intros (A & B & C). split_and!.
  - rewrite fmap_cons. apply NoDup_cons. split; [|done]. intros Hn%B. simpl in Hn. lia.
  - intros t. rewrite fmap_cons, elem_of_cons. intros [->|Ht%B]; simpl; lia.
  - destruct st; [done|]. by rewrite last_cons_cons.
Qed.

Definition writes (p : perm) : bool := negb (bool_decide (p = SharedRO)).
Definition grants (wr : bool) (p : perm) : Prop := if wr then p = Unique \/ p = SharedRW else p <> Disabled.

(** The stack above an item [x :: s] after it was used. *)
Definition used (wr : bool) (above : stack) : stack := if wr then [] else disable Ru <$> above.

Lemma use_stack_app wr n t p above s : ok_stack n (above ++ (t, p) :: s) -> grants wr p ->
  use_stack Ru wr t (above ++ (t, p) :: s) = Some (used wr above ++ (t, p) :: s) /\
  ok_stack n (used wr above ++ (t, p) :: s).
Proof.
  intros Hst Hp. assert (Ht : t ∉ above.*1).
  { destruct Hst as (Hnd & _ & _). rewrite fmap_app in Hnd. apply NoDup_app in Hnd as (_ & Hnd & _).
    intros Ht. apply (Hnd t Ht). rewrite fmap_cons. left. }
  destruct wr; simpl in *.
  - split; [by apply use_write_app|]. eapply ok_suffix; [done|]. by apply suffix_app_r.
  - split; [by apply use_read_app|]. by apply ok_disable.
Qed.

(** ** Trees *)

Lemma use_tree_Some wr path pm : (forall u, u ∈ path -> own_use wr (pm u) <> None) ->
  use_tree wr path pm =
    Some (fun u => if decide (u ∈ path) then default Gone (own_use wr (pm u)) else other_use wr (pm u)).
Proof.
  intros H. unfold use_tree. replace (forallb _ _) with true; [done|]. symmetry. apply forallb_forall.
  intros u Hu%elem_of_list_In. specialize (H u Hu). by destruct (own_use wr (pm u)).
Qed.
Lemma own_use_allows wr p x : grants wr p -> allows p x -> exists y, own_use wr x = Some y /\ forall q, allows q x -> allows q y.
Proof.
  intros Hg Ha. destruct wr, p, x; simpl in *; destruct_or?; try done; try (by destruct Hg);
    (eexists; split; [reflexivity|]); intros []; simpl; intros; destruct_or?; auto; done.
Qed.

Lemma fits_app path pm above st : fits path pm (above ++ st) -> fits path pm st.
Proof. induction above as [|[t p] above IH]; simpl; [done|]. intros [H _]. by apply IH. Qed.
Lemma fits_in path pm st t p : fits path pm st -> (t, p) ∈ st -> p <> Disabled -> forall u, u ∈ path t -> allows p (pm u).
Proof.
  induction st as [|[v q] st IH]; intros H Hin Hp; [by apply elem_of_nil in Hin|]. destruct H as [H1 H2].
  apply elem_of_cons in Hin as [[= -> ->]|Hin]; [|by apply IH]. destruct H2 as [->|[H2 _]]; [done|]. done.
Qed.
Lemma fits_ext path path' pm pm' st : fits path pm st ->
  (forall t p, (t, p) ∈ st -> path' t = path t) ->
  (forall t p u, (t, p) ∈ st -> p <> Disabled -> u ∈ path t -> allows p (pm u) -> allows p (pm' u)) ->
  fits path' pm' st.
Proof.
  induction st as [|[t p] st IH]; [done|]. intros [H1 H2] Hp Ha. split.
  { apply IH; [done| |]; intros; [eapply Hp|eapply Ha]; try by right. done. done. done. }
  destruct H2 as [->|[H2 H3]]; [by left|]. destruct (decide (p = Disabled)) as [->|Hd]; [by left|]. right.
  rewrite (Hp t p) by left. split.
  - intros u Hu. apply (Ha t p); [left|done|done|by apply H2].
  - done.
Qed.

(** The tree allows what the stack allows. *)
Lemma use_tree_fits n path pm wr twr above t p s : Ru = Tree -> (twr = true -> wr = true) ->
  ok_path n path t -> grants wr p ->
  fits path pm (above ++ (t, p) :: s) ->
  exists pm', use_tree twr (path t) pm = Some pm' /\ fits path pm' (used wr above ++ (t, p) :: s).
Proof.
  intros HR Hw Hpath Hg Hfit. pose proof (fits_app _ _ _ _ Hfit) as Hfit0.
  destruct Hfit0 as [Hs Ht]. assert (Hd : p <> Disabled) by (destruct wr, p; naive_solver).
  destruct Ht as [->|[Ht1 Ht2]]; [done|].
  assert (Hown : forall u, u ∈ path t -> exists y, own_use twr (pm u) = Some y /\ forall q, allows q (pm u) -> allows q y).
  { intros u Hu. apply (own_use_allows twr p); [|by apply Ht1]. destruct twr; [rewrite Hw in Hg by done; done|done]. }
  rewrite use_tree_Some; [|intros u Hu; destruct (Hown u Hu) as (y & -> & _); done].
  eexists. split; [done|]. set (pm' := fun u => _).
  assert (Hin : forall q u, u ∈ path t -> allows q (pm u) -> allows q (pm' u)).
  { intros q u Hu Hq. unfold pm'. rewrite decide_True by done. destruct (Hown u Hu) as (y & -> & Hy). by apply Hy. }
  assert (Hbelow : fits path pm' ((t, p) :: s)).
  { split.
    - apply (fits_ext path path pm); [done|done|]. intros v q u Hv Hq Hu Ha.
      destruct wr.
      + assert (Hvt : v ∈ path t). { apply (Ht2 v q Hv Hq). intros [-> _]. by destruct Hg. }
        apply Hin; [|done]. destruct Hpath as (_ & H). destruct (H v Hvt) as [_ H']. by apply H'.
      + assert (twr = false) as -> by (destruct twr; [by specialize (Hw eq_refl)|done]).
        destruct (decide (u ∈ path t)) as [Hu'|Hu']; [by apply Hin|]. unfold pm'. rewrite decide_False by done.
        destruct (decide (q = SharedRO)) as [->|Hq'].
        { simpl in *. by destruct (pm u). }
        destruct Hu'. assert (Hvt : v ∈ path t). { apply (Ht2 v q Hv Hq). intros [_ ->]. done. }
        destruct Hpath as (_ & H). destruct (H v Hvt) as [_ H']. by apply H'.
    - right. split; [|done]. intros u Hu. apply Hin; [done|]. by apply Ht1. }
  destruct wr; [done|]. simpl.
  assert (twr = false) as -> by (destruct twr; [by specialize (Hw eq_refl)|done]).
  induction above as [|[v q] above IH]; [done|]. destruct Hfit as [Hf1 Hf2]. cbn [fmap list_fmap app fits].
  destruct (disable Ru (v, q)) as [v' q'] eqn:E. split; [by apply IH|].
  rewrite HR in E. destruct (decide (q = SharedRO)) as [->|Hq]; [|left; by destruct q; naive_solver].
  injection E as <- <-. right. destruct Hf2 as [|[Hf2 Hf3]]; [done|]. split.
  - intros u Hu. specialize (Hf2 u Hu). simpl in *. destruct (decide (u ∈ path t)) as [Hu'|Hu'].
    + by apply (Hin SharedRO).
    + unfold pm'. rewrite decide_False by done. simpl. by destruct (pm u).
  - intros u q Hu Hq Hb. apply elem_of_app in Hu as [Hu|Hu].
    + apply elem_of_list_fmap in Hu as ([u0 q0] & E & Hu). rewrite HR in E. 
      destruct q0; simpl in E; injection E as -> ->; try done. by destruct Hb.
    + apply (Hf3 u q); [|done|done]. apply elem_of_app. by right.
Qed.

(** ** Using a reference *)

Lemma access_as_spec wr twr b t p s l : ok b -> (t, p) :: s `suffix_of` b_at b l -> grants wr p -> (twr = true -> wr = true) ->
  exists above b', b_at b l = above ++ (t, p) :: s /\ access_as wr twr t l b = (Ret tt, b') /\ ok b' /\
    b_next b' = b_next b /\ b_path b' = b_path b /\ b_at b' l = used wr above ++ (t, p) :: s /\
    (forall l', l' <> l -> b_at b' l' = b_at b l').
Proof.
  intros Hok [above Hab] Hp Hw. exists above. pose proof (ok_at Ru b Hok l) as Hst. rewrite Hab in Hst.
  destruct (use_stack_app wr _ t p above s Hst Hp) as [Huse Hst']. rewrite <- Hab in Huse.
  unfold access_as. pose proof (ok_rules Ru b Hok) as Hr.
  assert (Hat : forall l', ok_stack (b_next b) (b_at (set_at l (used wr above ++ (t, p) :: s) b) l')).
  { intros l'. destruct (decide (l' = l)) as [->|Hl]; [by rewrite set_at_eq|]. rewrite set_at_ne by done. apply (ok_at Ru b Hok). }
  assert (HR : Ru = Stacked \/ Ru = Tree) by (destruct Ru; auto). destruct HR as [HR|HR].
  - rewrite HR in Huse, Hr. rewrite Hr, Huse. eexists.
    split_and!; [done|done| |done|done|by rewrite set_at_eq|by intros; rewrite set_at_ne].
    split; [apply (ok_rules _ b Hok)|done|congruence].
  - destruct (ok_tree _ b Hok HR) as (Hb & Hfit). destruct (Hfit l) as [Hpath Hfl]. rewrite Hab in Hpath, Hfl.
    destruct (use_tree_fits (b_next b) (b_path b) (b_perm b l) wr twr above t p s) as (pm' & E & Hfit'); try done.
    { apply Hpath. rewrite fmap_app. apply elem_of_app. right. left. }
    rewrite HR in Huse, Hr. rewrite Hr, E, Huse. eexists.
    split_and!; [done|done| |done|done|by apply set_at_eq|by intros; apply set_at_ne].
    split; [apply (ok_rules _ b Hok)|done|]. intros _. split; [done|]. intros l'.
    cbn [set_perm set_at b_path b_perm b_at b_next from_option id]. destruct (decide (l' = l)) as [->|Hl]; [|apply Hfit].
    split; [|done]. intros u Hu. apply Hpath. destruct wr; cbn [used] in Hu.
    + rewrite fmap_app. apply elem_of_app. by right.
    + rewrite fmap_app, disable_tags in Hu. by rewrite fmap_app.
Qed.
Lemma access_spec wr b t p s l : ok b -> (t, p) :: s `suffix_of` b_at b l -> grants wr p ->
  exists above b', b_at b l = above ++ (t, p) :: s /\ access wr t l b = (Ret tt, b') /\ ok b' /\
    b_next b' = b_next b /\ b_at b' l = used wr above ++ (t, p) :: s /\
    (forall l', l' <> l -> b_at b' l' = b_at b l').
Proof.
  intros Hok Hs Hp. destruct (access_as_spec wr wr b t p s l Hok Hs Hp) as (a & b' & H1 & H2 & H3 & H4 & _ & H5 & H6); [done|].
  by exists a, b'.
Qed.

(** Access to several locations through the same reference. *)
Lemma access_all_as_spec wr twr t ls : (twr = true -> wr = true) -> forall b, ok b -> NoDup ls ->
  (forall l, l ∈ ls -> exists p s, (t, p) :: s `suffix_of` b_at b l /\ grants wr p) ->
  exists b', access_all_as wr twr t ls b = (Ret tt, b') /\ ok b' /\ b_next b' = b_next b /\ b_path b' = b_path b /\
    (forall l, l ∉ ls -> b_at b' l = b_at b l) /\
    (forall l p s, l ∈ ls -> (t, p) :: s `suffix_of` b_at b l -> grants wr p ->
       exists above, b_at b l = above ++ (t, p) :: s /\ b_at b' l = used wr above ++ (t, p) :: s).
Proof.
  intros Hw. induction ls as [|l ls IH]; intros b Hok Hnd Hgr.
  { exists b. split_and!; try done. intros l p s Hl. by apply elem_of_nil in Hl. }
  apply NoDup_cons in Hnd as [Hl Hnd].
  destruct (Hgr l) as (p & s & Hs & Hp); [left|].
  destruct (access_as_spec wr twr b t p s l Hok Hs Hp Hw) as (above & b1 & Hab & Hacc & Hok1 & Hn1 & Hp1 & Hb1 & Ho1).
  cbn [access_all_as]. unfold sbind. rewrite Hacc.
  destruct (IH _ Hok1 Hnd) as (b' & Hrun & Hok' & Hn & Hpa & Hout & Hin).
  { intros l' Hl'. destruct (Hgr l') as (p' & s' & Hs' & Hp'); [by right|]. exists p', s'.
    rewrite Ho1 by (intros ->; done). done. }
  exists b'. split_and!; try done; try congruence.
  - intros l' [Hl1 Hl2]%not_elem_of_cons. rewrite Hout by done. by apply Ho1.
  - intros l' p' s' [->|Hl']%elem_of_cons Hs' Hp'.
    + rewrite Hout by done. rewrite Hb1.
      destruct (access_as_spec wr twr b t p' s' l Hok Hs' Hp' Hw) as (above' & b1' & Hab' & Hacc' & _ & _ & _ & Hb1' & _).
      exists above'. split; [done|]. rewrite Hacc in Hacc'. injection Hacc' as <-. congruence.
    + destruct (Hin l' p' s' Hl') as (a & Ha & Ha'); [by rewrite Ho1 by (intros ->; done)|done|].
      exists a. by rewrite Ho1 in Ha by (intros ->; done).
Qed.
Lemma access_all_spec wr t ls : forall b, ok b -> NoDup ls ->
  (forall l, l ∈ ls -> exists p s, (t, p) :: s `suffix_of` b_at b l /\ grants wr p) ->
  exists b', access_all wr t ls b = (Ret tt, b') /\ ok b' /\ b_next b' = b_next b /\
    (forall l, l ∉ ls -> b_at b' l = b_at b l) /\
    (forall l p s, l ∈ ls -> (t, p) :: s `suffix_of` b_at b l -> grants wr p ->
       exists above, b_at b l = above ++ (t, p) :: s /\ b_at b' l = used wr above ++ (t, p) :: s).
Proof.
  intros b Hok Hnd Hgr. destruct (access_all_as_spec wr wr t ls (fun H => H) b Hok Hnd Hgr) as (b' & H1 & H2 & H3 & _ & H4 & H5).
  by exists b'.
Qed.

Lemma push_all_spec n p ls : forall b, NoDup ls ->
  exists b', push_all n p ls b = (Ret tt, b') /\ b_next b' = b_next b /\ b_rules b' = b_rules b /\
    b_path b' = b_path b /\ b_perm b' = b_perm b /\
    (forall l, l ∉ ls -> b_at b' l = b_at b l) /\ (forall l, l ∈ ls -> b_at b' l = (n, p) :: b_at b l).
Proof.
  induction ls as [|l ls IH]; intros b Hnd.
  { exists b. split_and!; try done. intros l Hl. by apply elem_of_nil in Hl. }
  apply NoDup_cons in Hnd as [Hl Hnd].
  destruct (IH (set_at l ((n, p) :: b_at b l) b) Hnd) as (b' & Hrun & Hn & Hr & Hp & Hpm & Hout & Hin).
  exists b'. cbn [push_all]. unfold sbind, push_item, smod. split_and!; try done.
  - intros l' [Hl1 Hl2]%not_elem_of_cons. rewrite Hout by done. by rewrite set_at_ne.
  - intros l' [->|Hl']%elem_of_cons.
    + rewrite Hout by done. by rewrite set_at_eq.
    + rewrite Hin by done. by rewrite set_at_ne by (intros ->; done).
Qed.

Lemma ok_path_old n path t u : ok_path n path u -> ok_path (S n) (fun v => if decide (v = n) then n :: path t else path v) u.
Proof.
  intros [H1 H2]. destruct (H2 u H1) as [Hn _]. unfold ok_path. rewrite decide_False by lia. split; [done|].
  intros v Hv. destruct (H2 v Hv) as [Hvn Hs]. split; [lia|]. by rewrite decide_False by lia.
Qed.
Lemma ok_path_new n path t : ok_path n path t -> ok_path (S n) (fun v => if decide (v = n) then n :: path t else path v) n.
Proof.
  intros [H1 H2]. unfold ok_path. rewrite decide_True by done. split; [left|].
  intros v [->|Hv]%elem_of_cons.
  - split; [lia|]. by rewrite decide_True.
  - destruct (H2 v Hv) as [Hvn Hs]. split; [lia|]. rewrite decide_False by lia. set_solver.
Qed.
Lemma existsb_same l ls : l ∈ ls -> existsb (same_memory l) ls = true.
Proof.
  intros H. apply existsb_exists. exists l. split; [by apply elem_of_list_In|]. destruct l as [|[c i] f]; [done|].
  by apply bool_decide_eq_true.
Qed.

(** A stack to which the new tag was pushed. *)
Lemma fits_old n path pm pm' t st : (forall v, v ∈ st.*1 -> ok_path n path v) -> (forall u, u <> n -> pm' u = pm u) ->
  fits path pm st -> fits (fun u => if decide (u = n) then n :: path t else path u) pm' st.
Proof.
  intros Hpath Hne Hfit.
  assert (H : forall v r, (v, r) ∈ st -> ok_path n path v). { intros v r Hv. apply Hpath, elem_of_list_fmap. by exists (v, r). }
  apply (fits_ext path _ pm); [done| |].
  - intros v r Hv. destruct (H v r Hv) as [H1 H2]. destruct (H2 v H1). by rewrite decide_False by lia.
  - intros v r u Hv _ Hu. rewrite Hne; [done|]. destruct (H v r Hv) as [_ H2]. destruct (H2 u Hu). lia.
Qed.
Lemma fits_push n path pm pm' t p q above s : Ru = Tree ->
  let st := used (writes q) above ++ (t, p) :: s in
  (forall v, v ∈ st.*1 -> ok_path n path v) -> grants (writes q) p ->
  (forall u, u <> n -> pm' u = pm u) -> pm' n = match q with SharedRO => Frozen | _ => Reserved end ->
  fits path pm st -> fits (fun u => if decide (u = n) then n :: path t else path u) pm' ((n, q) :: st).
Proof.
  intros HR st Hpath Hg Hne Hn Hfit.
  assert (Hlt : forall v r, (v, r) ∈ st -> ok_path n path v). { intros v r Hv. apply Hpath, elem_of_list_fmap. by exists (v, r). }
  assert (Htst : (t, p) ∈ st). { apply elem_of_app. right. left. }
  assert (Hpd : p <> Disabled) by (destruct (writes q), p; naive_solver).
  split; [by apply (fits_old n path pm)|].
  destruct (decide (q = Disabled)) as [->|Hqd]; [by left|].
  right. rewrite decide_True by done. split.
  - intros u [->|Hu]%elem_of_cons.
    { rewrite Hn. destruct q; simpl; auto. }
    rewrite Hne; [|destruct (Hlt t p Htst) as (_ & H); destruct (H u Hu); lia].
    pose proof (fits_in _ _ _ _ _ Hfit Htst Hpd u Hu) as Ha.
    unfold writes in Hg. destruct q; simpl in *; [destruct Hg as [-> | ->]; done..| |done].
    destruct p; simpl in *; destruct_or?; congruence.
  - intros v r Hv Hr Hb. right. apply elem_of_app in Hv as [Hv|Hv].
    + unfold writes, used in Hv. destruct q; simpl in Hv; try by apply elem_of_nil in Hv.
      apply elem_of_list_fmap in Hv as ([u0 q0] & E & Hu). rewrite HR in E.
      destruct q0; simpl in E; injection E as -> ->; try done. by destruct Hb.
    + apply elem_of_cons in Hv as [[= -> ->]|Hv].
      { by destruct (Hlt t p Htst). }
      apply fits_app in Hfit as [_ [->|[_ Hf]]]; [done|]. apply (Hf v r Hv Hr). intros [-> ->]. apply Hb. split; [|done].
      destruct q; try done; unfold writes in Hg; simpl in Hg; by destruct Hg.
Qed.

Lemma retag_as_spec q t ls b : ok b -> NoDup ls ->
  (forall l, l ∈ ls -> exists p s, (t, p) :: s `suffix_of` b_at b l /\ grants (writes q) p) ->
  exists b', retag_as q t ls b = (Ret (b_next b), b') /\ ok b' /\ b_next b' = S (b_next b) /\
    (forall l, l ∉ ls -> b_at b' l = b_at b l) /\
    (forall l p s, l ∈ ls -> (t, p) :: s `suffix_of` b_at b l -> grants (writes q) p ->
       exists above, b_at b l = above ++ (t, p) :: s /\ b_at b' l = (b_next b, q) :: used (writes q) above ++ (t, p) :: s).
Proof.
  intros Hok Hnd Hgr. unfold retag_as, sbind, sget, smod. cbn [fst snd]. fold (writes q).
  set (b0 := mkB (b_rules b) (S (b_next b)) (b_at b) (b_path b) (b_perm b)).
  assert (Hok0 : ok b0).
  { split; [apply (ok_rules Ru b Hok)| |].
    - intros l. apply (ok_stack_mono (b_next b)); [simpl; lia|]. apply (ok_at Ru b Hok).
    - intros HR. destruct (ok_tree Ru b Hok HR) as [Hb Hl]. split; [done|]. intros l. destruct (Hl l) as [Hp Hf]. split; [|done].
      intros u Hu. destruct (Hp u Hu) as [H1 H2]. split; [done|]. intros v Hv. destruct (H2 v Hv). simpl. split; [lia|done]. }
  destruct (access_all_as_spec (writes q) false t ls ltac:(done) b0 Hok0 Hnd Hgr) as (b1 & Hrun & Hok1 & Hn1 & Hp1 & Hout1 & Hin1).
  rewrite Hrun. set (n := b_next b) in *.
  destruct (push_all_spec n q ls (new_tag n q t ls b1) Hnd) as (b2 & Hrun2 & Hn2 & Hr2 & Hp2 & Hpm2 & Hout2 & Hin2).
  rewrite Hrun2. exists b2. cbn [new_tag b_next b_rules b_path b_perm b_at] in *.
  assert (Hst1 : forall l, ok_stack n (b_at b1 l)).
  { intros l. destruct (decide (l ∈ ls)) as [Hl|Hl].
    - destruct (Hgr l Hl) as (p & s & Hs & Hp). destruct (Hin1 l p s Hl Hs Hp) as (above & Hab & ->).
      cbn [b0 b_at] in Hab. pose proof (ok_at Ru b Hok l) as Hst. rewrite Hab in Hst. by apply (use_stack_app (writes q)).
    - rewrite Hout1 by done. apply (ok_at Ru b Hok). }
  split_and!.
  - done.
  - split; [rewrite Hr2; apply (ok_rules Ru b1 Hok1)| |].
    + intros l. rewrite Hn2, Hn1. destruct (decide (l ∈ ls)) as [Hl|Hl].
      * rewrite Hin2 by done. apply ok_push, Hst1.
      * rewrite Hout2 by done. apply (ok_stack_mono n); [simpl; lia|]. apply Hst1.
    + intros HR. destruct (ok_tree Ru b1 Hok1 HR) as [Hb Hl1]. destruct (ok_tree Ru b Hok HR) as [Hb0 Hl0].
      rewrite Hp2, Hpm2, Hn2, Hn1. cbn [b0 b_next]. fold n.
      assert (Hpath : forall l v, v ∈ (b_at b1 l).*1 -> ok_path n (b_path b1) v).
      { intros l v Hv. rewrite Hp1. cbn [b0 b_path]. apply (Hl0 l). destruct (decide (l ∈ ls)) as [Hl|Hl].
        - destruct (Hgr l Hl) as (p & s & Hs & Hp). destruct (Hin1 l p s Hl Hs Hp) as (above & Hab & E).
          rewrite E in Hv. cbn [b0 b_at] in Hab. rewrite Hab. revert Hv. rewrite !fmap_app, !elem_of_app.
          destruct (writes q); cbn [used]; [set_solver|]. by rewrite disable_tags.
        - by rewrite Hout1 in Hv by done. }
      split.
      { destruct (Hpath LSlab base) as [H1 H2].
        - destruct (ok_base b1 LSlab Hok1) as [a ->]. rewrite fmap_app. apply elem_of_app. right. left.
        - destruct (H2 base H1). by rewrite decide_False by lia. }
      intros l. destruct (Hl1 l) as [_ Hfit]. destruct (decide (l ∈ ls)) as [Hl|Hl].
      * rewrite Hin2 by done. destruct (Hgr l Hl) as (p & s & Hs & Hp). destruct (Hin1 l p s Hl Hs Hp) as (above & Hab & E).
        assert (Ht : t ∈ (b_at b1 l).*1). { rewrite E, fmap_app. apply elem_of_app. right. left. }
        split.
        { intros v. rewrite fmap_cons. intros [->|Hv]%elem_of_cons; cbn [fst].
          - apply ok_path_new. by apply (Hpath l).
          - apply ok_path_old. by apply (Hpath l). }
        specialize (Hpath l). rewrite E in Hfit, Hpath |- *.
        apply (fits_push n (b_path b1) (b_perm b1 l)); try done.
        -- intros u Hu. by rewrite decide_False.
        -- rewrite decide_True by done. by rewrite existsb_same.
      * rewrite Hout2 by done. split; [intros v Hv; apply ok_path_old; by apply (Hpath l)|].
        apply (fits_old n (b_path b1) (b_perm b1 l)); [by apply Hpath| |done]. intros u Hu. by rewrite decide_False.
  - by rewrite Hn2, Hn1.
  - intros l Hl. rewrite Hout2, Hout1 by done. done.
  - intros l p s Hl Hs Hp. destruct (Hin1 l p s Hl Hs Hp) as (above & Hab & Hb1). exists above.
    split; [done|]. by rewrite Hin2, Hb1.
Qed.

Lemma node_locs_nodup p : NoDup (node_locs p).
Proof. unfold node_locs. repeat (apply NoDup_cons; split; [rewrite ?elem_of_cons, elem_of_nil; intros H; naive_solver|]). apply NoDup_nil_2. Qed.

Lemma slab_nodup : NoDup [LSlab].
Proof. apply NoDup_singleton. Qed.

Lemma node_locs_elem l p : l ∈ node_locs p <-> exists f, l = LNode p f.
Proof.
  unfold node_locs. rewrite !elem_of_cons, elem_of_nil. split; [naive_solver|].
  intros ([] & ->); naive_solver.
Qed.

(** [elsewhere ps b b']: only the slab and the nodes [ps] were touched. *)
Definition elsewhere (ps : list Ptr) (b b' : borrows) : Prop :=
  forall p f, p ∉ ps -> b_at b' (LNode p f) = b_at b (LNode p f).
(** The reference [n] is on top everywhere in the node [p]. *)
Definition on_top (n : nat) (q : perm) (p : Ptr) (b : borrows) : Prop :=
  forall f, exists s, b_at b (LNode p f) = (n, q) :: s.

Lemma elsewhere_refl ps b : elsewhere ps b b.
Proof. done. Qed.
Lemma elsewhere_trans ps ps' b b' b'' : elsewhere ps b b' -> elsewhere ps' b' b'' -> elsewhere (ps ++ ps') b b''.
Proof.
  intros H H' p f [Hp Hp']%not_elem_of_app. rewrite H', H; done.
Qed.
Lemma elsewhere_weaken ps ps' b b' : ps ⊆ ps' -> elsewhere ps b b' -> elsewhere ps' b b'.
Proof. intros Hs H p f Hp. apply H. intros Hi. by apply Hp, Hs. Qed.

(** A suffix of the slab's stack that stays. *)
Definition slab_has (s : stack) (b : borrows) : Prop := s `suffix_of` b_at b LSlab.

Definition mode (mut : bool) : perm := if mut then Unique else SharedRO.
Lemma retag_mode mut t ls : retag mut t ls = retag_as (mode mut) t ls.
Proof. by destruct mut. Qed.
Lemma writes_mode mut : writes (mode mut) = mut.
Proof. by destruct mut. Qed.

Lemma grants_rw wr : grants wr SharedRW.
Proof. destruct wr; simpl; auto. Qed.
Lemma grants_unique wr : grants wr Unique.
Proof. destruct wr; simpl; auto. Qed.
Lemma grants_mode mut : grants mut (mode mut).
Proof. destruct mut; simpl; auto. Qed.
Lemma grants_weak mut p : grants mut p -> grants false p.
Proof. destruct mut; simpl; [|done]. intros [->| ->]; done. Qed.

(** A new reference to the slab. *)
Lemma retag_slab_spec mut t p s b : ok b -> slab_has ((t, p) :: s) b -> grants mut p ->
  exists b', retag mut t [LSlab] b = (Ret (b_next b), b') /\ ok b' /\ b_next b' = S (b_next b) /\
    elsewhere [] b b' /\ slab_has ((t, p) :: s) b' /\
    (mut = true -> slab_has ((b_next b, Unique) :: (t, p) :: s) b').
Proof.
  intros Hok Hs Hp. rewrite retag_mode.
  destruct (retag_as_spec (mode mut) t [LSlab] b Hok slab_nodup) as (b' & Hrun & Hok' & Hn & Hout & Hin).
  { intros l ->%elem_of_list_singleton. exists p, s. by rewrite writes_mode. }
  rewrite writes_mode in Hin.
  destruct (Hin LSlab p s) as (above & Hab & Hb'); [left|done|done|].
  exists b'. split_and!; try done.
  - intros q f _. apply Hout. by intros ?%elem_of_list_singleton.
  - unfold slab_has. rewrite Hb'. apply suffix_cons_r, suffix_app_r. done.
  - intros ->. unfold slab_has. rewrite Hb'. done.
Qed.

Section proofs.
Context {K V : Type}.
Implicit Types m : bstmap K V.

Lemma b_get_spec mut m h p hp s b x : ok b -> slab_has ((h, hp) :: s) b -> grants mut hp ->
  slab_get (m_nodes m) p = Ret x ->
  exists n b', b_get mut m h p b = (Ret n, b') /\ ok b' /\ b_next b <= n /\ n < b_next b' /\
    elsewhere [p] b b' /\ slab_has ((h, hp) :: s) b' /\ on_top n (mode mut) p b'.
Proof.
  intros Hok Hs Hp Hx. unfold b_get.
  destruct (retag_slab_spec mut h hp s b Hok Hs Hp) as (b1 & Hrun1 & Hok1 & Hn1 & He1 & Hs1 & _).
  unfold sbind at 1. rewrite Hrun1.
  destruct (retag_as_spec (mode mut) base (node_locs p) b1 Hok1 (node_locs_nodup p)) as (b2 & Hrun2 & Hok2 & Hn2 & Hout2 & Hin2).
  { intros l _. exists SharedRW, []. split; [by apply ok_base|apply grants_rw]. }
  unfold sbind at 1. rewrite retag_mode, Hrun2. cbv beta iota. unfold slift, sbind at 1. rewrite Hx.
  assert (Htop2 : forall l, l ∈ node_locs p -> exists s', b_at b2 l = (b_next b1, mode mut) :: s').
  { intros l Hl. destruct (Hin2 l SharedRW [] Hl) as (above & _ & ->); [by apply ok_base|apply grants_rw|eauto]. }
  destruct (retag_as_spec (mode mut) (b_next b1) (node_locs p) b2 Hok2 (node_locs_nodup p)) as (b3 & Hrun3 & Hok3 & Hn3 & Hout3 & Hin3).
  { intros l Hl. destruct (Htop2 l Hl) as (s' & ->). exists (mode mut), s'. split; [done|]. rewrite writes_mode. apply grants_mode. }
  rewrite retag_mode, Hrun3. exists (b_next b2), b3. split_and!; try done; try lia.
  - intros q f Hq. rewrite not_elem_of_cons in Hq. destruct Hq as [Hq _].
    assert (Hl : LNode q f ∉ node_locs p) by (rewrite node_locs_elem; naive_solver).
    rewrite Hout3, Hout2 by done. apply He1. apply not_elem_of_nil.
  - unfold slab_has. assert (Hl : LSlab ∉ node_locs p) by (rewrite node_locs_elem; naive_solver).
    rewrite Hout3, Hout2 by done. done.
  - intros f. assert (Hl : LNode p f ∈ node_locs p) by (rewrite node_locs_elem; eauto).
    destruct (Htop2 _ Hl) as (s' & Hs'). destruct (Hin3 (LNode p f) (mode mut) s' Hl) as (above & _ & ->);
      [by rewrite Hs'|rewrite writes_mode; apply grants_mode|eauto].
Qed.

(** [same b b']: nothing visible changed. *)
Definition same (b b' : borrows) : Prop := (forall l, b_at b' l = b_at b l) /\ b_next b' = b_next b.

(** Using the item on top changes nothing. *)
Lemma access_top wr t p s l b : ok b -> b_at b l = (t, p) :: s -> grants wr p ->
  exists b', access wr t l b = (Ret tt, b') /\ ok b' /\ same b b'.
Proof.
  intros Hok Hl Hp. destruct (access_spec wr b t p s l Hok) as (above & b' & Hab & E & Hok' & Hn & Hb' & Hout); [by rewrite Hl|done|].
  rewrite Hl in Hab. assert (above = []) as ->.
  { apply (f_equal length) in Hab. rewrite app_length in Hab. cbn in Hab. destruct above; [done|cbn in Hab; lia]. }
  exists b'. split; [done|]. split; [done|]. split; [|done]. intros l'. destruct (decide (l' = l)) as [->|Hne]; [|by apply Hout].
  rewrite Hb', Hl. by destruct wr.
Qed.

Lemma b_left_spec m n q p b x : ok b -> on_top n q p b -> grants false q -> slab_get (m_nodes m) p = Ret x ->
  exists b', b_left m n p b = (Ret (n_left x), b') /\ ok b' /\ same b b'.
Proof.
  intros Hok Ht Hq Hx. destruct (Ht FLeft) as (s & Hs). unfold b_left, sbind, slift, sret.
  destruct (access_top false n q s _ b Hok Hs Hq) as (b' & -> & Hok' & Hsame). rewrite Hx. by exists b'.
Qed.
Lemma b_right_spec m n q p b x : ok b -> on_top n q p b -> grants false q -> slab_get (m_nodes m) p = Ret x ->
  exists b', b_right m n p b = (Ret (n_right x), b') /\ ok b' /\ same b b'.
Proof.
  intros Hok Ht Hq Hx. destruct (Ht FRight) as (s & Hs). unfold b_right, sbind, slift, sret.
  destruct (access_top false n q s _ b Hok Hs Hq) as (b' & -> & Hok' & Hsame). rewrite Hx. by exists b'.
Qed.

(** What [next] hands out is on top of its two fields. *)
Definition refs_ok (mut : bool) (b : borrows) (y : refs) : Prop :=
  (exists s, b_at b (LNode (rf_node y) FKey) = (rf_key y, SharedRO) :: s) /\
  (exists s, b_at b (LNode (rf_node y) FValue) = (rf_value y, mode mut) :: s).

Lemma b_entry_spec mut n p b : ok b -> on_top n (mode mut) p b ->
  exists y b', b_entry mut n p b = (Ret y, b') /\ ok b' /\ b_next b <= b_next b' /\ rf_node y = p /\ refs_ok mut b' y /\
    elsewhere [p] b b' /\ b_at b' LSlab = b_at b LSlab.
Proof.
  intros Hok Ht. unfold b_entry.
  destruct (Ht FKey) as (sk & Hk). destruct (Ht FValue) as (sv & Hv).
  destruct (retag_as_spec SharedRO n [LNode p FKey] b Hok (NoDup_singleton _)) as (b1 & Hrun1 & Hok1 & Hn1 & Hout1 & Hin1).
  { intros l ->%elem_of_list_singleton. exists (mode mut), sk. rewrite Hk. split; [done|]. by destruct mut. }
  unfold sbind at 1. unfold retag_shr. rewrite Hrun1.
  assert (Hv1 : b_at b1 (LNode p FValue) = (n, mode mut) :: sv).
  { rewrite Hout1; [done|]. by intros ?%elem_of_list_singleton. }
  destruct (retag_as_spec (mode mut) n [LNode p FValue] b1 Hok1 (NoDup_singleton _)) as (b2 & Hrun2 & Hok2 & Hn2 & Hout2 & Hin2).
  { intros l ->%elem_of_list_singleton. exists (mode mut), sv. rewrite Hv1. split; [done|]. rewrite writes_mode. apply grants_mode. }
  unfold sbind. rewrite retag_mode, Hrun2. eexists _, b2. split_and!; [done|done|lia|done|split| |]; cbn [rf_node rf_key rf_value].
  - rewrite Hout2 by (by intros ?%elem_of_list_singleton).
    destruct (Hin1 (LNode p FKey) (mode mut) sk) as (above & _ & ->); [left|by rewrite Hk|by destruct mut|eauto].
  - destruct (Hin2 (LNode p FValue) (mode mut) sv) as (above & _ & ->); [left|by rewrite Hv1|rewrite writes_mode; apply grants_mode|eauto].
  - intros q f Hq. rewrite not_elem_of_cons in Hq. destruct Hq as [Hq _].
    rewrite Hout2, Hout1; [done|..]; intros ?%elem_of_list_singleton; naive_solver.
  - rewrite Hout2, Hout1; [done|..]; by intros ?%elem_of_list_singleton.
Qed.

(** ** The iterators with and without references, in lockstep *)

(** [g] does what [f] does; it touches only the nodes that [f] reads, and
    [T]. *)
Definition lock (T : list Ptr) {A B} (P : borrows -> Prop) (R : A -> B -> borrows -> Prop) (f : M iter A) (g : M biter B) : Prop :=
  forall it x it' b, f it = (Ret x, it') -> ok b -> P b -> exists rs y b',
    it_reads it' = it_reads it ++ rs /\ g (it_stack it, b) = (Ret y, (it_stack it', b')) /\ ok b' /\
      b_next b <= b_next b' /\ elsewhere (T ++ rs) b b' /\ R x y b'.

Lemma lock_bind T {A A' B B'} P R Q (f : M iter A) (f' : A -> M iter A') (g : M biter B) (g' : B -> M biter B') :
  lock T P R f g -> (forall x y, lock T (R x y) Q (f' x) (g' y)) -> lock T P Q (sbind f f') (sbind g g').
Proof.
  intros Hf Hf' it x it' b Hrun Hok HP. unfold sbind in Hrun. destruct (f it) as [[x1| | | |] it1] eqn:E1; try done.
  destruct (Hf _ _ _ b E1 Hok HP) as (rs1 & y1 & b1 & Hr1 & Hg1 & Hok1 & Hn1 & He1 & HR1).
  destruct (Hf' x1 y1 _ _ _ b1 Hrun Hok1 HR1) as (rs2 & y2 & b2 & Hr2 & Hg2 & Hok2 & Hn2 & He2 & HR2).
  exists (rs1 ++ rs2), y2, b2. split_and!; try done.
  - by rewrite Hr2, Hr1, app_assoc.
  - unfold sbind. by rewrite Hg1.
  - lia.
  - eapply elsewhere_weaken; [|by eapply elsewhere_trans]. set_solver.
Qed.

(** A step of [g] alone. *)
Definition quiet (T : list Ptr) {B} (P : borrows -> Prop) (R : B -> borrows -> Prop) (g : M borrows B) : Prop :=
  forall b, ok b -> P b -> exists y b', g b = (Ret y, b') /\ ok b' /\ b_next b <= b_next b' /\ elsewhere T b b' /\ R y b'.

Lemma on_b_run {B} (g : M borrows B) st b r b' : g b = (r, b') -> on_b g (st, b) = (r, (st, b')).
Proof. intros H. unfold on_b, zoom. cbn [snd fst]. by rewrite H. Qed.

Lemma lock_quiet T {A B B'} P R Q (f : M iter A) (g : M borrows B) (g' : B -> M biter B') :
  quiet T P R g -> (forall y, lock T (R y) Q f (g' y)) -> lock T P Q f (sbind (on_b g) g').
Proof.
  intros Hg Hg' it x it' b Hrun Hok HP.
  destruct (Hg b Hok HP) as (y1 & b1 & E1 & Hok1 & Hn1 & He1 & HR1).
  destruct (Hg' y1 _ _ _ b1 Hrun Hok1 HR1) as (rs2 & y2 & b2 & Hr2 & Hg2 & Hok2 & Hn2 & He2 & HR2).
  exists rs2, y2, b2. split_and!; try done.
  - unfold sbind. by rewrite (on_b_run _ _ _ _ _ E1).
  - lia.
  - eapply elsewhere_weaken; [|by eapply elsewhere_trans]. set_solver.
Qed.

Lemma lock_weaken T {A B} (P P' : borrows -> Prop) (R R' : A -> B -> borrows -> Prop) f g :
  (forall b, P' b -> P b) -> (forall x y b, R x y b -> R' x y b) -> lock T P R f g -> lock T P' R' f g.
Proof.
  intros HP HR H it x it' b Hrun Hok Hb. destruct (H it x it' b Hrun Hok (HP _ Hb)) as (rs & y & b' & ? & ? & ? & ? & ? & ?).
  exists rs, y, b'. eauto 10.
Qed.
Lemma lock_pre T {A B} (P : borrows -> Prop) (X : Prop) (R : A -> B -> borrows -> Prop) f g :
  (X -> lock T P R f g) -> lock T (fun b => X /\ P b) R f g.
Proof. intros H it x it' b Hrun Hok [HX HP]. by eapply H. Qed.

Lemma lock_ret T {A B} (P : borrows -> Prop) (R : A -> B -> borrows -> Prop) x y : (forall b, P b -> R x y b) -> lock T P R (sret x) (sret y).
Proof.
  intros H it x' it' b [= <- <-] Hok HP. exists [], y, b. rewrite app_nil_r. split_and!; try done. auto.
Qed.
Lemma lock_diverge T {A B} P (R : A -> B -> borrows -> Prop) (g : M biter B) : lock T P R (slift Diverge) g.
Proof. intros it x it' b [=]. Qed.
Lemma lock_pop T P : lock T P (fun x y b => x = y /\ P b) it_pop bi_pop.
Proof.
  intros [[|p st] rs] x it' b [= <- <-] Hok HP; eexists [], _, b; rewrite app_nil_r; split_and!; done.
Qed.
Lemma lock_push T P p : lock T P (fun _ _ b => P b) (it_push p) (bi_push p).
Proof. intros [st rs] x it' b [= <- <-] Hok HP; eexists [], _, b; rewrite app_nil_r; split_and!; done. Qed.
Lemma lock_extend T P o : lock T P (fun _ _ b => P b) (it_extend o) (bi_extend o).
Proof. intros [st rs] x it' b [= <- <-] Hok HP; eexists [], _, b; rewrite app_nil_r; split_and!; done. Qed.
Lemma lock_top T P p : lock T P (fun x y b => x = y /\ P b) (top_is p) (bi_top_is p).
Proof. intros [st rs] x it' b [= <- <-] Hok HP; eexists [], _, b; rewrite app_nil_r; split_and!; done. Qed.

Lemma lock_read T (P : borrows -> Prop) mut m h hp s p : grants mut hp -> (forall b, P b -> slab_has ((h, hp) :: s) b) ->
  lock T P (fun x n b => slab_get (m_nodes m) p = Ret x /\ on_top n (mode mut) p b /\ slab_has ((h, hp) :: s) b)
    (it_read m p) (on_b (b_get mut m h p)).
Proof.
  intros Hg HP [st rs] x it' b [= Hx <-] Hok Hb.
  destruct (b_get_spec mut m h p hp s b x Hok (HP _ Hb) Hg Hx) as (n & b' & Hrun & Hok' & Hn & Hn' & He & Hs & Ht).
  exists [p], n, b'. split_and!; try done; [by apply on_b_run|lia|].
  eapply elsewhere_weaken; [|done]. set_solver.
Qed.

Lemma quiet_left T m n q p x h : grants false q -> slab_get (m_nodes m) p = Ret x ->
  quiet T (fun b => on_top n q p b /\ slab_has h b) (fun y b => y = n_left x /\ on_top n q p b /\ slab_has h b) (b_left m n p).
Proof.
  intros Hq Hx b Hok [Ht Hs]. destruct (b_left_spec m n q p b x Hok Ht Hq Hx) as (b' & Hrun & Hok' & Ha & Hn).
  exists (n_left x), b'. split_and!; try done.
  - lia.
  - intros f ? _. apply Ha.
  - intros f. rewrite Ha. apply Ht.
  - unfold slab_has. by rewrite Ha.
Qed.
Lemma quiet_right T m n q p x h : grants false q -> slab_get (m_nodes m) p = Ret x ->
  quiet T (fun b => on_top n q p b /\ slab_has h b) (fun y b => y = n_right x /\ on_top n q p b /\ slab_has h b) (b_right m n p).
Proof.
  intros Hq Hx b Hok [Ht Hs]. destruct (b_right_spec m n q p b x Hok Ht Hq Hx) as (b' & Hrun & Hok' & Ha & Hn).
  exists (n_right x), b'. split_and!; try done.
  - lia.
  - intros f ? _. apply Ha.
  - intros f. rewrite Ha. apply Ht.
  - unfold slab_has. by rewrite Ha.
Qed.
Lemma quiet_slab T mut t p s : grants mut p ->
  quiet T (slab_has ((t, p) :: s)) (fun y b => slab_has ((t, p) :: s) b /\ (mut = true -> slab_has ((y, Unique) :: (t, p) :: s) b))
    (retag mut t [LSlab]).
Proof.
  intros Hg b Hok Hs. destruct (retag_slab_spec mut t p s b Hok Hs Hg) as (b' & Hrun & Hok' & Hn & He & Hs1 & Hs2).
  exists (b_next b), b'. split_and!; try done; [lia|]. eapply elsewhere_weaken; [|done]. set_solver.
Qed.
Lemma quiet_slab_mut T t p s : grants true p ->
  quiet T (slab_has ((t, p) :: s)) (fun y b => slab_has ((y, Unique) :: (t, p) :: s) b) (retag_mut t [LSlab]).
Proof.
  intros Hg b Hok Hs. destruct (quiet_slab T true t p s Hg b Hok Hs) as (y & b' & Hrun & Hok' & Hn & He & Hs1 & Hs2).
  exists y, b'. split_and!; auto.
Qed.
Lemma slab_has_below x s b : slab_has (x :: s) b -> slab_has s b.
Proof. intros H. eapply suffix_cons_l, H. Qed.

(** What is yielded. *)
Definition yields (s : stack) (x : option (item K V)) (y : option refs) (b : borrows) : Prop :=
  slab_has s b /\
  match x, y with
  | None, None => True
  | Some i, Some y => i.1 = rf_node y /\ refs_ok true b y
  | _, _ => False
  end.

(** After reading [p], the rest may touch [p]. *)
Lemma lock_read_bind T {A B} (P : borrows -> Prop) Q mut m h hp s p (f : inner K V -> M iter A) (g : nat -> M biter B) :
  grants mut hp -> (forall b, P b -> slab_has ((h, hp) :: s) b) ->
  (forall x n, slab_get (m_nodes m) p = Ret x ->
    lock (p :: T) (fun b => on_top n (mode mut) p b /\ slab_has ((h, hp) :: s) b) Q (f x) (g n)) ->
  lock T P Q (sbind (it_read m p) f) (sbind (on_b (b_get mut m h p)) g).
Proof.
  intros Hg HP Hfg [st rs] x it' b Hrun Hok Hb. unfold sbind in Hrun at 1. unfold it_read in Hrun at 1.
  destruct (slab_get (m_nodes m) p) as [x1| | | |] eqn:Hx; try done.
  destruct (b_get_spec mut m h p hp s b x1 Hok (HP _ Hb) Hg Hx) as (n & b' & E & Hok' & Hn & Hn' & He & Hs & Ht).
  destruct (Hfg x1 n eq_refl _ _ _ b' Hrun Hok' (conj Ht Hs)) as (rs2 & y2 & b2 & Hr2 & Hg2 & Hok2 & Hn2 & He2 & HR2).
  exists (p :: rs2), y2, b2. split_and!; try done.
  - rewrite Hr2. simpl. by rewrite <- app_assoc.
  - unfold sbind. by rewrite (on_b_run _ _ _ _ _ E).
  - lia.
  - eapply elsewhere_weaken; [|by eapply elsewhere_trans]. set_solver.
Qed.

Lemma quiet_entry T mut n p h : p ∈ T -> quiet T (fun b => on_top n (mode mut) p b /\ slab_has h b)
  (fun y b => rf_node y = p /\ refs_ok mut b y /\ slab_has h b) (b_entry mut n p).
Proof.
  intros HT b Hok [Ht Hs]. destruct (b_entry_spec mut n p b Hok Ht) as (y & b' & Hrun & Hok' & Hn & Hy & Hrefs & He & Hsl).
  exists y, b'. split_and!; try done; [eapply elsewhere_weaken; [|done]; set_solver|]. unfold slab_has. by rewrite Hsl.
Qed.

Lemma lock_entry T n p h s (x : inner K V) : p ∈ T -> (forall b, slab_has h b -> slab_has s b) ->
  lock T (fun b => on_top n Unique p b /\ slab_has h b) (yields s) (sret (Some (item_of p x)))
    (let! y := on_b (b_entry true n p) in sret (Some y)).
Proof.
  intros HT Hh. eapply lock_quiet; [by apply (quiet_entry T true n p h)|]. intros y. apply lock_ret.
  intros b (Hy & Hrefs & Hs). split; [auto|]. simpl. by rewrite Hy.
Qed.

(** ** Pre-order *)
Lemma preorder_lock m r s : lock [] (slab_has ((r, SharedRW) :: s)) (yields ((r, SharedRW) :: s)) (preorder_mut_next m) (b_preorder_next m r).
Proof.
  unfold preorder_mut_next, b_preorder_next. eapply lock_bind; [apply lock_pop|]. intros x y. apply lock_pre. intros <-.
  destruct x as [p|]; [|apply lock_ret; by intros b Hb].
  eapply lock_quiet; [by apply quiet_slab_mut, grants_rw|]. intros nodes.
  eapply lock_read_bind; [apply (grants_unique true)|done|]. intros x n Hx.
  eapply lock_quiet; [by apply (quiet_right _ m n Unique p x)|]. intros y. apply lock_pre. intros ->.
  eapply lock_bind; [apply lock_extend|]. intros [] [].
  eapply lock_quiet; [by apply (quiet_left _ m n Unique p x)|]. intros y. apply lock_pre. intros ->.
  eapply lock_bind; [apply lock_extend|]. intros [] [].
  apply lock_entry; [set_solver|]. intros b. apply slab_has_below.
Qed.

(** ** In-order *)
Lemma inorder_descend_lock m nodes h s : h = (nodes, Unique) :: s -> forall fuel T c,
  lock T (slab_has h) (fun _ _ b => slab_has h b) (inorder_descend m fuel c) (b_inorder_descend m nodes fuel c).
Proof.
  intros ->. induction fuel as [|fuel IH]; intros T c; [apply lock_diverge|]. cbn [inorder_descend b_inorder_descend].
  destruct c as [p|]; [|by apply lock_ret].
  eapply lock_bind; [apply lock_push|]. intros [] [].
  eapply lock_read_bind; [apply (grants_unique false)|done|]. intros x n Hx.
  eapply lock_quiet; [by apply (quiet_left _ m n SharedRO p x)|]. intros y. apply lock_pre. intros ->.
  eapply lock_weaken; [| |apply IH]; [by intros b [_ ?]|done].
Qed.

Lemma inorder_lock m r s : lock [] (slab_has ((r, SharedRW) :: s)) (yields ((r, SharedRW) :: s)) (inorder_mut_next m) (b_inorder_next m r).
Proof.
  unfold inorder_mut_next, b_inorder_next. eapply lock_bind; [apply lock_pop|]. intros x y. apply lock_pre. intros <-.
  destruct x as [p|]; [|apply lock_ret; by intros b Hb].
  eapply lock_quiet; [by apply quiet_slab_mut, grants_rw|]. intros nodes.
  eapply lock_read_bind; [apply (grants_unique false)|done|]. intros x n Hx.
  eapply lock_quiet; [by apply (quiet_right _ m n SharedRO p x)|]. intros y. apply lock_pre. intros ->.
  eapply lock_bind.
  { eapply lock_weaken; [| |apply (inorder_descend_lock m nodes _ ((r, SharedRW) :: s) eq_refl)]; [by intros b [_ ?]|done]. }
  intros [] []. eapply lock_read_bind; [apply (grants_unique true)|done|]. intros x' n' Hx'.
  apply lock_entry; [set_solver|]. intros b. apply slab_has_below.
Qed.

(** ** Post-order *)
Lemma postorder_descend_lock m nodes h s : h = (nodes, Unique) :: s -> forall fuel T c,
  lock T (slab_has h) (fun _ _ b => slab_has h b) (postorder_descend m fuel c) (b_postorder_descend m nodes fuel c).
Proof.
  intros ->. induction fuel as [|fuel IH]; intros T c; [apply lock_diverge|]. cbn [postorder_descend b_postorder_descend].
  destruct c as [p|]; [|by apply lock_ret].
  eapply lock_read_bind; [apply (grants_unique false)|done|]. intros x n Hx.
  eapply lock_quiet; [by apply (quiet_right _ m n SharedRO p x)|]. intros y. apply lock_pre. intros ->.
  eapply lock_bind; [apply lock_extend|]. intros [] [].
  eapply lock_bind; [apply lock_push|]. intros [] [].
  eapply lock_quiet; [by apply (quiet_left _ m n SharedRO p x)|]. intros y. apply lock_pre. intros ->.
  eapply lock_weaken; [| |apply IH]; [by intros b [_ ?]|done].
Qed.

Lemma postorder_inner_lock m nodes h s : h = (nodes, Unique) :: s -> forall fuel T p x n,
  slab_get (m_nodes m) p = Ret x ->
  lock T (fun b => on_top n SharedRO p b /\ slab_has h b) (fun _ _ b => slab_has h b)
    (postorder_inner m fuel p x) (b_postorder_inner m nodes fuel p n).
Proof.
  intros ->. induction fuel as [|fuel IH]; intros T p x n Hx; [apply lock_diverge|]. cbn [postorder_inner b_postorder_inner].
  eapply lock_quiet; [by apply (quiet_right _ m n SharedRO p x)|]. intros y. apply lock_pre. intros ->.
  eapply lock_bind; [apply lock_extend|]. intros [] [].
  eapply lock_bind; [apply lock_push|]. intros [] [].
  eapply lock_quiet; [by apply (quiet_left _ m n SharedRO p x)|]. intros y. apply lock_pre. intros ->.
  destruct (n_left x) as [q|]; [|by apply lock_ret; intros b [_ ?]].
  eapply lock_read_bind; [apply (grants_unique false)|by intros b [_ ?]|]. intros x' n' Hx'. by apply IH.
Qed.

Lemma postorder_loop_lock m nodes s : forall fuel T,
  lock T (slab_has ((nodes, Unique) :: s)) (yields s) (postorder_mut_next_loop m fuel) (b_postorder_loop m nodes fuel).
Proof.
  induction fuel as [|fuel IH]; intros T; [apply lock_diverge|]. cbn [postorder_mut_next_loop b_postorder_loop].
  eapply lock_bind; [apply lock_pop|]. intros x y. apply lock_pre. intros <-.
  destruct x as [p|]; [|apply lock_ret; intros b Hb; split; [by eapply slab_has_below|done]].
  eapply lock_read_bind; [apply (grants_unique false)|done|]. intros x n Hx.
  eapply lock_quiet; [by apply (quiet_right _ m n SharedRO p x)|]. intros y. apply lock_pre. intros ->.
  eapply (lock_bind _ _ (fun x y b => x = y /\ slab_has ((nodes, Unique) :: s) b)).
  { destruct (n_right x) as [q|].
    - eapply lock_weaken; [| |apply lock_top]; [by intros b [_ ?]|done].
    - apply lock_ret. by intros b [_ ?]. }
  intros bb y. apply lock_pre. intros <-.
  assert (Hy : forall T, lock T (slab_has ((nodes, Unique) :: s)) (yields s)
     (let! node := it_read m p in sret (Some (item_of p node)))
     (let! node := on_b (b_get true m nodes p) in let! x := on_b (b_entry true node p) in sret (Some x))).
  { intros T'. eapply lock_read_bind; [apply (grants_unique true)|done|]. intros x' n' Hx'.
    apply lock_entry; [set_solver|]. intros b. apply slab_has_below. }
  destruct (n_right x) as [q|]; [|apply Hy]. destruct bb; [|apply Hy].
  eapply lock_bind; [apply lock_pop|]. intros x1 y1. apply lock_pre. intros <-.
  eapply lock_bind; [apply lock_push|]. intros [] [].
  eapply lock_read_bind; [apply (grants_unique false)|done|]. intros x' n' Hx'.
  eapply lock_bind; [by apply (postorder_inner_lock m nodes _ s eq_refl)|]. intros [] []. apply IH.
Qed.

Lemma postorder_lock m r s : lock [] (slab_has ((r, SharedRW) :: s)) (yields ((r, SharedRW) :: s)) (postorder_mut_next m) (b_postorder_next m r).
Proof.
  unfold postorder_mut_next, b_postorder_next.
  eapply lock_quiet; [by apply quiet_slab_mut, grants_rw|]. intros nodes. apply postorder_loop_lock.
Qed.

Lemma next_lock m d r s : lock [] (slab_has ((r, SharedRW) :: s)) (yields ((r, SharedRW) :: s)) (iter_mut_next m d) (b_iter_next m d r).
Proof. destruct d; [apply preorder_lock|apply inorder_lock|apply postorder_lock]. Qed.


(** ** Starting a mutable iterator *)
Lemma quiet_slab_raw T t p s : grants true p ->
  quiet T (slab_has ((t, p) :: s)) (fun y b => slab_has ((y, SharedRW) :: (t, p) :: s) b) (retag_raw t [LSlab]).
Proof.
  intros Hg b Hok Hs.
  destruct (retag_as_spec SharedRW t [LSlab] b Hok slab_nodup) as (b' & Hrun & Hok' & Hn & Hout & Hin).
  { intros l ->%elem_of_list_singleton. by exists p, s. }
  exists (b_next b), b'. split_and!; try done; [lia| |].
  - intros q f _. apply Hout. by intros ?%elem_of_list_singleton.
  - destruct (Hin LSlab p s) as (above & Hab & Hb'); [left|done|done|]. unfold slab_has. by rewrite Hb'.
Qed.

Lemma iter_start_lock m d it b : iter_start m d = Ret it -> ok b ->
  exists r s b', b_iter_start m d ([], b) = (Ret r, (it_stack it, b')) /\ ok b' /\ slab_has ((r, SharedRW) :: s) b'.
Proof.
  intros Hit Hok. unfold b_iter_start.
  assert (Hbase : slab_has [(base, SharedRW)] b) by (by apply ok_base).
  destruct (quiet_slab_mut [] base SharedRW [] (grants_rw true) b Hok Hbase) as (nodes & b1 & E1 & Hok1 & Hn1 & _ & Hs1).
  unfold sbind at 1. rewrite (on_b_run _ _ _ _ _ E1).
  set (h := [(nodes, Unique); (base, SharedRW)]) in *.
  assert (Hmid : exists b2, (match d with
             | Pre => bi_extend (m_root m)
             | In => b_inorder_descend m nodes (map_fuel m) (m_root m)
             | Post => b_postorder_descend m nodes (map_fuel m) (m_root m)
             end) ([], b1) = (Ret tt, (it_stack it, b2)) /\ ok b2 /\ slab_has h b2).
  { destruct d; simpl in Hit.
    - injection Hit as <-. exists b1. split_and!; try done.
    - unfold inorder_new in Hit. destruct (inorder_descend m (map_fuel m) (m_root m) (mkIter [] [])) as [[[]| | | |] it1] eqn:E; try done.
      injection Hit as ->.
      destruct (inorder_descend_lock m nodes h _ eq_refl (map_fuel m) [] (m_root m) _ _ _ b1 E Hok1 Hs1) as (rs & [] & b2 & _ & E2 & Hok2 & _ & _ & Hs2).
      by exists b2.
    - unfold postorder_new in Hit. destruct (postorder_descend m (map_fuel m) (m_root m) (mkIter [] [])) as [[[]| | | |] it1] eqn:E; try done.
      injection Hit as ->.
      destruct (postorder_descend_lock m nodes h _ eq_refl (map_fuel m) [] (m_root m) _ _ _ b1 E Hok1 Hs1) as (rs & [] & b2 & _ & E2 & Hok2 & _ & _ & Hs2).
      by exists b2. }
  destruct Hmid as (b2 & E2 & Hok2 & Hs2). unfold sbind. rewrite E2.
  destruct (quiet_slab_raw [] nodes Unique [(base, SharedRW)] (grants_unique true) b2 Hok2 Hs2) as (r & b3 & E3 & Hok3 & _ & _ & Hs3).
  rewrite (on_b_run _ _ _ _ _ E3). by exists r, h, b3.
Qed.

(** ** A program with a mutable iterator *)
Lemma refs_ok_same mut b b' y : same b b' -> refs_ok mut b y -> refs_ok mut b' y.
Proof. intros [Ha _] [Hk Hv]. split; by rewrite Ha. Qed.

Lemma bm_run_spec d r s evs : forall m t fl it yl x ys b pend, map_rep m t fl -> iter_ok d t it pend ->
  yl.*1 ++ pend.*1 = (porder d t).*1 -> rf_node <$> ys = yl.*1 -> ok b -> slab_has ((r, SharedRW) :: s) b ->
  Forall (refs_ok true b) ys ->
  exists st st', bm_run d r evs (mkBM m (it_stack it) ys b) = (Ret tt, st) /\
    mut_run d (omap bm_ev evs) (mkMut m it yl x) = (Ret tt, st') /\
    bm_map st = mu_map st' /\ bm_stack st = it_stack (mu_iter st') /\
    rf_node <$> bm_refs st = (mu_yielded st').*1 /\ ok (bm_borrows st) /\ slab_has ((r, SharedRW) :: s) (bm_borrows st) /\
    Forall (refs_ok true (bm_borrows st)) (bm_refs st).
Proof.
  induction evs as [|ev evs IH]; intros m t fl it yl x ys b pend Hrep Hit Hpend Hys Hok Hs Hrefs.
  { by eexists _, _. }
  pose proof (porder_nodup d t (rep_nodup _ _ _ Hrep)) as Hnd. rewrite <- Hpend in Hnd.
  assert (Hquiet : forall b', ok b' -> same b b' -> ok b' /\ slab_has ((r, SharedRW) :: s) b' /\ Forall (refs_ok true b') ys).
  { intros b' Hok' Hsame. pose proof Hsame as [Ha Hn]. split_and!; [done|unfold slab_has; by rewrite Ha|].
    eapply Forall_impl; [exact Hrefs|]. intros y. by apply refs_ok_same. }
  cbn [bm_run]. unfold sbind at 1. destruct ev as [|j|j|j w]; cbn [bm_step bm_map bm_stack bm_refs bm_borrows].
  - destruct (iter_mut_next_spec m t fl d it pend Hrep Hit) as (it' & rs & Hrun & Hit' & Hrs & Hcov).
    destruct (next_lock m d r s it _ it' b Hrun Hok Hs) as (rs' & y & b' & Hrs' & Hg & Hok' & Hn' & He & Hs' & Hy).
    rewrite Hg. cbn [rmap]. rewrite Hrs in Hrs'. apply app_inv_head in Hrs'. subst rs'. simpl in He.
    assert (Hold : Forall (refs_ok true b') ys).
    { rewrite Forall_forall in Hrefs |- *. intros z Hz. specialize (Hrefs z Hz).
      assert (rf_node z ∉ rs).
      { intros Hin%Hcov. apply NoDup_app in Hnd as (_ & Hnd & _). apply (Hnd (rf_node z)); [|done].
        rewrite <- Hys. by apply elem_of_list_fmap_1. }
      destruct Hrefs as [Hk Hv]. split; rewrite He by done; done. }
    cbn [omap list_omap bm_ev mut_run]. unfold sbind at 1. cbn [mut_step mu_map mu_iter mu_yielded mu_ended]. rewrite Hrun.
    destruct pend as [|i pend]; cbn [head tail] in *; destruct y as [y|]; try done.
    + rewrite app_nil_r. by eapply (IH m t fl it' yl (S x) ys b' []).
    + destruct Hy as [Hiy Hry]. eapply (IH m t fl it' (yl ++ [i]) x (ys ++ [y]) b' pend); try done.
      * rewrite <- Hpend, fmap_app, <- app_assoc. done.
      * by rewrite !fmap_app, Hys; simpl; rewrite Hiy.
      * apply Forall_app. split; [done|]. by apply Forall_singleton.
  - cbn [omap list_omap bm_ev]. destruct (ys !! j) as [y|] eqn:Hy; [|by eapply IH].
    pose proof (Forall_lookup_1 _ _ _ _ Hrefs Hy) as [(sk & Hk) _].
    destruct (access_top false (rf_key y) SharedRO sk _ b Hok Hk) as (b' & E & Hok' & Hsame); [done|]. rewrite E.
    destruct (Hquiet b' Hok' Hsame) as (? & ? & ?). by eapply IH.
  - cbn [omap list_omap bm_ev]. destruct (ys !! j) as [y|] eqn:Hy; [|by eapply IH].
    pose proof (Forall_lookup_1 _ _ _ _ Hrefs Hy) as [_ (sv & Hv)].
    destruct (access_top false (rf_value y) Unique sv _ b Hok Hv) as (b' & E & Hok' & Hsame); [done|]. rewrite E.
    destruct (Hquiet b' Hok' Hsame) as (? & ? & ?). by eapply IH.
  - cbn [omap list_omap bm_ev mut_run]. unfold sbind at 1. cbn [mut_step mu_map mu_iter mu_yielded mu_ended]. unfold item, NodeMut in *.
    assert (Hl : (rf_node <$> ys) !! j = yl.*1 !! j) by (by rewrite Hys). rewrite !list_lookup_fmap in Hl.
    destruct (ys !! j) as [y|] eqn:Hy.
    2:{ destruct (yl !! j) eqn:Hyl; [done|]. by eapply IH. }
    destruct (yl !! j) as [[p kv0]|] eqn:Hyl; [|done]. simpl in Hl. injection Hl as Hp.
    pose proof (Forall_lookup_1 _ _ _ _ Hrefs Hy) as [_ (sv & Hv)].
    destruct (access_top true (rf_value y) Unique sv _ b Hok Hv) as (b' & E & Hok' & Hsame); [simpl; auto|]. rewrite E, Hp.
    destruct (Hquiet b' Hok' Hsame) as (_ & Hs' & Hrefs').
    assert (Hin : exists kv, (p, kv) ∈ ppre t).
    { assert (Hpin : p ∈ (porder d t).*1).
      { rewrite <- Hpend. apply elem_of_app. left. apply elem_of_list_lookup_2 in Hyl. by apply (elem_of_list_fmap_1 fst) in Hyl. }
      apply elem_of_list_fmap in Hpin as ([q kv] & -> & Hq). exists kv. by rewrite <- (porder_perm d). }
    destruct Hin as [[k v] Hin].
    pose proof (write_value_spec m t fl p k v w Hrep Hin) as Hw. unfold wp in Hw.
    destruct (write_value p w m) as [[[]| | | |] m1]; try done. destruct Hw as (Hrep1 & _ & _).
    eapply (IH m1 (tset p w t) fl it yl x ys b' (iset p w <$> pend)); try done.
    + by apply iter_ok_tset.
    + assert (Hfst : forall l : list (Ptr * (K * V)), (iset p w <$> l).*1 = l.*1).
      { intros l. apply list_eq. intros i. rewrite !list_lookup_fmap. destruct (l !! i) as [[q kv]|]; [|done].
        simpl. unfold iset. simpl. by destruct (decide (q = p)). }
      by rewrite porder_tset, !Hfst.
Qed.

Lemma bm_program_spec d evs m b t fl : map_rep m t fl -> ok b ->
  exists st st', bm_program d evs m b = (Ret tt, st) /\ iter_mut_program d (omap bm_ev evs) m = Ret st' /\
    bm_map st = mu_map st' /\ bm_stack st = it_stack (mu_iter st') /\
    rf_node <$> bm_refs st = (mu_yielded st').*1 /\ ok (bm_borrows st).
Proof.
  intros Hrep Hok.
  destruct (iter_start_spec m t fl d Hrep) as (it & Hit & Hiok).
  destruct (iter_start_lock m d it b Hit Hok) as (r & s & b' & E & Hok' & Hs').
  destruct (bm_run_spec d r s evs m t fl it [] 0 [] b' (porder d t)) as (st & st' & E1 & E2 & ? & ? & ? & ? & ? & ?); try done.
  exists st, st'. unfold bm_program, iter_mut_program. rewrite E, Hit. cbn [rbind]. unfold item, NodeMut in *. rewrite E2. cbn [rbind]. done.
Qed.

(** ** Methods that take [&mut self], in lockstep *)

Definition rel_out {A B} (R : A -> B -> bstmap K V -> borrows -> Prop) (x : res A) (m : bstmap K V) (o : res B * bmap K V) : Prop :=
  exists b, ok b /\
  match x with
  | Ret x => exists y, o = (Ret y, (m, b)) /\ R x y m b
  | Panic p => o = (Panic p, (m, b))
  | Abort => o = (Abort, (m, b))
  | UB u => o = (UB u, (m, b))
  | Diverge => o = (Diverge, (m, b))
  end.
Definition sim {A B} (P : bstmap K V -> borrows -> Prop) (R : A -> B -> bstmap K V -> borrows -> Prop)
    (f : M (bstmap K V) A) (g : M (bmap K V) B) : Prop :=
  forall m b, ok b -> P m b -> rel_out R (f m).1 (f m).2 (g (m, b)).

Lemma sim_bind {A A' B B'} P R Q (f : M (bstmap K V) A) (f' : A -> M (bstmap K V) A') (g : M (bmap K V) B) (g' : B -> M (bmap K V) B') :
  sim P R f g -> (forall x y, sim (R x y) Q (f' x) (g' y)) -> sim P Q (sbind f f') (sbind g g').
Proof.
  intros Hf Hf' m b Hok HP. destruct (Hf m b Hok HP) as (b1 & Hok1 & H1). unfold sbind.
  destruct (f m) as [[x| | | |] m1]; cbn [fst snd] in *; [|rewrite H1; by exists b1..].
  destruct H1 as (y & -> & HR). by apply Hf'.
Qed.
Lemma sim_ret {A B} (P : bstmap K V -> borrows -> Prop) (R : A -> B -> bstmap K V -> borrows -> Prop) x y :
  (forall m b, P m b -> R x y m b) -> sim P R (sret x) (sret y).
Proof. intros H m b Hok HP. exists b. split; [done|]. cbn. eauto. Qed.
Lemma sim_weaken {A B} (P P' : bstmap K V -> borrows -> Prop) (R R' : A -> B -> bstmap K V -> borrows -> Prop) f g :
  (forall m b, P' m b -> P m b) -> (forall x y m b, R x y m b -> R' x y m b) -> sim P R f g -> sim P' R' f g.
Proof.
  intros HP HR H m b Hok Hb. destruct (H m b Hok (HP _ _ Hb)) as (b' & Hok' & H'). exists b'. split; [done|].
  destruct (f m).1; naive_solver.
Qed.
Lemma sim_pre {A B} (P : bstmap K V -> borrows -> Prop) (X : Prop) (R : A -> B -> bstmap K V -> borrows -> Prop) f g :
  (X -> sim P R f g) -> sim (fun m b => X /\ P m b) R f g.
Proof. intros H m b Hok [HX HP]. by apply H. Qed.
Lemma sim_get_l {A B} (P : bstmap K V -> borrows -> Prop) (R : A -> B -> bstmap K V -> borrows -> Prop) f' g :
  (forall m0, sim (fun m b => m = m0 /\ P m b) R (f' m0) g) -> sim P R (sbind sget f') g.
Proof. intros H m b Hok HP. by apply (H m). Qed.
Lemma sim_get_r {A B} (P : bstmap K V -> borrows -> Prop) (R : A -> B -> bstmap K V -> borrows -> Prop) f g' :
  (forall m0 b0, sim (fun m b => m = m0 /\ P m b) R f (g' (m0, b0))) -> sim P R f (sbind sget g').
Proof. intros H m b Hok HP. by apply (H m b). Qed.
Lemma sim_lift {A} (P : bstmap K V -> borrows -> Prop) (r : res A) :
  sim P (fun x y m b => (x = y /\ r = Ret x) /\ P m b) (slift r) (slift r).
Proof. intros m b Hok HP. exists b. split; [done|]. destruct r; cbn; eauto 10. Qed.
Lemma sim_fail {A B} (P : bstmap K V -> borrows -> Prop) (R : A -> B -> bstmap K V -> borrows -> Prop) :
  sim P R (slift Diverge) (slift Diverge).
Proof. intros m b Hok HP. by exists b. Qed.
Lemma sim_m {A} (P : bstmap K V -> borrows -> Prop) (Q : A -> bstmap K V -> borrows -> Prop) (f : M (bstmap K V) A) :
  (forall m b x m', P m b -> f m = (Ret x, m') -> Q x m' b) -> sim P (fun x y m b => x = y /\ Q x m b) f (on_m f).
Proof.
  intros H m b Hok HP. unfold rel_out, on_m, zoom. cbn [fst snd]. destruct (f m) as [[x| | | |] m'] eqn:E; cbn [fst snd]; exists b; eauto 10.
Qed.
(** A step of [g] alone, on the borrow stacks. *)
Lemma sim_r {A B B'} (P : bstmap K V -> borrows -> Prop) (Q : B -> bstmap K V -> borrows -> Prop) R f (g : M borrows B) (g' : B -> M (bmap K V) B') :
  (forall m b, ok b -> P m b -> exists y b', g b = (Ret y, b') /\ ok b' /\ Q y m b') ->
  (forall y, sim (A:=A) (Q y) R f (g' y)) -> sim P R f (sbind (on_r g) g').
Proof.
  intros Hg H m b Hok HP. destruct (Hg m b Hok HP) as (y & b' & E & Hok' & HQ).
  unfold sbind, on_r, zoom. cbn [fst snd]. rewrite E. by apply H.
Qed.
(** The same memory seen by both. *)
Lemma sim_of {A} (P : bstmap K V -> borrows -> Prop) m0 (f : bstmap K V -> res A) :
  (forall m b, P m b -> m = m0) -> sim P (fun x y m b => (x = y /\ f m0 = Ret x) /\ P m b) (slift (f m0)) (of_m f).
Proof.
  intros HP0 m b Hok HP. pose proof (HP0 _ _ HP) as ->. exists b. split; [done|]. unfold of_m, sbind, sget, slift. cbn [fst snd].
  destruct (f m0); cbn; eauto 10.
Qed.

(** [b_node] against [slab_get]. *)
Lemma sim_node mut h hp s m0 p (Q : bstmap K V -> borrows -> Prop) : grants mut hp -> (forall m b, Q m b -> m = m0) ->
  (forall m b, Q m b -> slab_has ((h, hp) :: s) b) ->
  sim Q (fun x n m b => slab_get (m_nodes m0) p = Ret x /\ m = m0 /\ on_top n (mode mut) p b /\ slab_has ((h, hp) :: s) b)
    (slift (slab_get (m_nodes m0) p)) (b_node mut h p).
Proof.
  intros Hg Hm Hs m b Hok HQ. pose proof (Hm _ _ HQ) as ->. specialize (Hs _ _ HQ).
  unfold b_node, sbind at 1, sget. cbn [fst snd slift].
  destruct (slab_get (m_nodes m0) p) as [x| | | |] eqn:Hx.
  { destruct (b_get_spec mut m0 h p hp s b x Hok Hs Hg Hx) as (n & b' & E & Hok' & _ & _ & _ & Hs' & Ht).
    exists b'. split; [done|]. exists n. unfold on_r, zoom. cbn [fst snd]. by rewrite E. }
  all: unfold b_get, on_r, zoom, sbind; cbn [fst snd];
    destruct (retag_slab_spec mut h hp s b Hok Hs Hg) as (b1 & -> & Hok1 & _);
    destruct (retag_as_spec (mode mut) base (node_locs p) b1 Hok1 (node_locs_nodup p)) as (b2 & Hrun2 & Hok2 & _);
    [intros l _; exists SharedRW, []; split; [by apply ok_base|apply grants_rw]|];
    rewrite retag_mode, Hrun2; cbn [fst snd slift]; rewrite Hx; exists b2; split; done.
Qed.

(** ** A [NodeMut] *)
Definition nm (r n : nat) (p : Ptr) (b : borrows) : Prop :=
  (exists s, slab_has ((r, SharedRW) :: s) b) /\ forall f, exists s, (n, Unique) :: s `suffix_of` b_at b (LNode p f).

Lemma nm_on_top r n p s b : slab_has ((r, SharedRW) :: s) b -> on_top n Unique p b -> nm r n p b.
Proof. intros Hs Ht. split; [eauto|]. intros f. destruct (Ht f) as (s' & ->). exists s'. done. Qed.

Lemma nm_retag q f r n p b : ok b -> nm r n p b ->
  exists c b', retag_as q n [LNode p f] b = (Ret c, b') /\ ok b' /\ nm r n p b' /\ exists s, b_at b' (LNode p f) = (c, q) :: s.
Proof.
  intros Hok [Hs Hn]. destruct (Hn f) as (s & Hf).
  destruct (retag_as_spec q n [LNode p f] b Hok (NoDup_singleton _)) as (b' & Hrun & Hok' & _ & Hout & Hin).
  { intros l ->%elem_of_list_singleton. exists Unique, s. split; [done|apply grants_unique]. }
  destruct (Hin (LNode p f) Unique s) as (above & _ & Hb'); [left|done|apply grants_unique|].
  exists (b_next b), b'. split_and!; try done; [split|].
  - unfold slab_has. by rewrite Hout by (by intros ?%elem_of_list_singleton).
  - intros f'. destruct (decide (f' = f)) as [->|Hne].
    + exists s. rewrite Hb'. apply suffix_cons_r, suffix_app_r. done.
    + rewrite Hout by (intros ?%elem_of_list_singleton; naive_solver). apply Hn.
  - by eexists.
Qed.
Lemma nm_access wr f r n p b : ok b -> nm r n p b ->
  exists b', access wr n (LNode p f) b = (Ret tt, b') /\ ok b' /\ nm r n p b'.
Proof.
  intros Hok [Hs Hn]. destruct (Hn f) as (s & Hf).
  destruct (access_spec wr b n Unique s (LNode p f) Hok Hf (grants_unique wr)) as (above & b' & _ & Hrun & Hok' & _ & Hb' & Hout).
  exists b'. split; [done|]. split; [done|]. split.
  - unfold slab_has. by rewrite Hout.
  - intros f'. destruct (decide (f' = f)) as [->|Hne].
    + exists s. rewrite Hb'. apply suffix_app_r. done.
    + rewrite Hout by naive_solver. apply Hn.
Qed.
Lemma nm_same r n p b b' : same b b' -> nm r n p b -> nm r n p b'.
Proof. intros [Ha _] [Hs Hn]. split; [unfold slab_has; by rewrite Ha|]. intros f. rewrite Ha. apply Hn. Qed.

(** Using the reference on top. *)
Lemma use_top wr t q s l b : ok b -> b_at b l = (t, q) :: s -> grants wr q ->
  exists b', access wr t l b = (Ret tt, b') /\ ok b' /\ same b b'.
Proof.
  intros Hok Hl Hg. by apply (access_top wr t q s).
Qed.

(** Making a reference to a field, and reading through it. *)
Lemma sim_read_field {A B} f r n p m0 (fl : M (bstmap K V) A) (g' : nat -> M (bmap K V) B) R :
  (forall c, sim (fun m b => m = m0 /\ nm r n p b) R fl (g' c)) ->
  sim (fun m b => m = m0 /\ nm r n p b) R fl
    (let! c := on_r (retag_shr n [LNode p f]) in let! _ := on_r (access false c (LNode p f)) in g' c).
Proof.
  intros H. eapply (sim_r _ (fun c m b => m = m0 /\ nm r n p b /\ exists s, b_at b (LNode p f) = (c, SharedRO) :: s)).
  { intros m b Hok [-> Hnm]. destruct (nm_retag SharedRO f r n p b Hok Hnm) as (c & b' & E & Hok' & Hnm' & Ht). exists c, b'. done. }
  intros c. eapply (sim_r _ (fun _ m b => m = m0 /\ nm r n p b)); [|intros _; apply H].
  intros m b Hok (-> & Hnm & s & Ht). destruct (use_top false c SharedRO s _ b Hok Ht) as (b' & E & Hok' & Hsame); [done|].
  exists tt, b'. split_and!; try done. by eapply nm_same.
Qed.
Lemma sim_access {A B} wr f r n p m0 (fl : M (bstmap K V) A) (g' : M (bmap K V) B) R :
  sim (fun m b => m = m0 /\ nm r n p b) R fl g' ->
  sim (fun m b => m = m0 /\ nm r n p b) R fl (let! _ := on_r (access wr n (LNode p f)) in g').
Proof.
  intros H. eapply (sim_r _ (fun _ m b => m = m0 /\ nm r n p b)); [|intros _; apply H].
  intros m b Hok [-> Hnm]. destruct (nm_access wr f r n p b Hok Hnm) as (b' & E & Hok' & Hnm'). by exists tt, b'.
Qed.

Definition ret_same {A} m0 (f : bstmap K V -> res A) r n p (x y : A) (m : bstmap K V) b : Prop :=
  (x = y /\ f m0 = Ret x) /\ m = m0 /\ nm r n p b.
Lemma sim_key m0 n : sim (fun m b => m = m0 /\ nm (bn_nodes n) (bn_node n) (bn_ptr n) b)
  (ret_same m0 (fun m => nodemut_key m (bn_ptr n)) (bn_nodes n) (bn_node n) (bn_ptr n)) (slift (nodemut_key m0 (bn_ptr n))) (b_nodemut_key n).
Proof. apply sim_read_field. intros c. apply (sim_of _ m0 (fun m => nodemut_key m (bn_ptr n))). by intros m b [? _]. Qed.
Lemma sim_value m0 n : sim (fun m b => m = m0 /\ nm (bn_nodes n) (bn_node n) (bn_ptr n) b)
  (ret_same m0 (fun m => nodemut_value m (bn_ptr n)) (bn_nodes n) (bn_node n) (bn_ptr n)) (slift (nodemut_value m0 (bn_ptr n))) (b_nodemut_value n).
Proof. apply sim_read_field. intros c. apply (sim_of _ m0 (fun m => nodemut_value m (bn_ptr n))). by intros m b [? _]. Qed.
Lemma sim_has_left m0 n : sim (fun m b => m = m0 /\ nm (bn_nodes n) (bn_node n) (bn_ptr n) b)
  (ret_same m0 (fun m => nodemut_has_left m (bn_ptr n)) (bn_nodes n) (bn_node n) (bn_ptr n)) (slift (nodemut_has_left m0 (bn_ptr n))) (b_nodemut_has_left n).
Proof. apply sim_access. apply (sim_of _ m0 (fun m => nodemut_has_left m (bn_ptr n))). by intros m b [? _]. Qed.
Lemma sim_has_right m0 n : sim (fun m b => m = m0 /\ nm (bn_nodes n) (bn_node n) (bn_ptr n) b)
  (ret_same m0 (fun m => nodemut_has_right m (bn_ptr n)) (bn_nodes n) (bn_node n) (bn_ptr n)) (slift (nodemut_has_right m0 (bn_ptr n))) (b_nodemut_has_right n).
Proof. apply sim_access. apply (sim_of _ m0 (fun m => nodemut_has_right m (bn_ptr n))). by intros m b [? _]. Qed.

(** [NodeMut::new] *)
Definition rel_nm m0 (x : NodeMut) (y : bnode) (m : bstmap K V) b : Prop :=
  x = bn_ptr y /\ m = m0 /\ nm (bn_nodes y) (bn_node y) (bn_ptr y) b.
Definition rel_onm m0 (x : option NodeMut) (y : option bnode) (m : bstmap K V) b : Prop :=
  match x, y with
  | None, None => m = m0
  | Some x, Some y => rel_nm m0 x y m b
  | _, _ => False
  end.
Lemma sim_new m0 r p : sim (fun m b => m = m0 /\ exists s, slab_has ((r, SharedRW) :: s) b) (rel_nm m0)
  (slift (nodemut_new m0 p)) (b_nodemut_new r p).
Proof.
  assert (Hs : forall s, sim (fun m b => m = m0 /\ slab_has ((r, SharedRW) :: s) b) (rel_nm m0) (slift (nodemut_new m0 p)) (b_nodemut_new r p)).
  2:{ intros m b Hok (-> & s & Hs'). by apply (Hs s). }
  intros s. unfold b_nodemut_new.
  eapply (sim_r _ (fun h m b => m = m0 /\ slab_has ((h, Unique) :: (r, SharedRW) :: s) b)).
  { intros m b Hok [-> Hs]. destruct (quiet_slab_mut [] r SharedRW s (grants_rw true) b Hok Hs) as (h & b' & E & Hok' & _ & _ & Hs').
    by exists h, b'. }
  intros h m b Hok HP. unfold nodemut_new.
  destruct (sim_node true h Unique ((r, SharedRW) :: s) m0 p (fun m b => m = m0 /\ slab_has ((h, Unique) :: (r, SharedRW) :: s) b) (grants_unique true)
    ltac:(by intros ?? [? _]) ltac:(by intros ?? [_ ?]) m b Hok HP) as (b' & Hok' & H). destruct HP as [-> HP].
  exists b'. split; [done|]. unfold sbind. cbn [fst snd slift] in *. destruct (slab_get (m_nodes m0) p); cbn [rbind]; [|rewrite H; done..].
  destruct H as (n & -> & _ & _ & Ht & Hs'). eexists. split; [done|]. split_and!; try done. simpl.
  eapply nm_on_top; [|done]. by eapply slab_has_below.
Qed.
Lemma sim_opt m0 r p : sim (fun m b => m = m0 /\ exists s, slab_has ((r, SharedRW) :: s) b) (rel_onm m0)
  (slift (opt_nodemut m0 p)) (b_opt_nodemut r p).
Proof.
  destruct p as [p|]; simpl; [|apply sim_ret; by intros m b [? _]].
  intros m b Hok HP. destruct (sim_new m0 r p m b Hok HP) as (b' & Hok' & H). exists b'. split; [done|].
  unfold sbind. cbn [fst snd slift] in *. destruct (nodemut_new m0 p); cbn [rbind]; [|rewrite H; done..].
  destruct H as (n & -> & H). by eexists.
Qed.
Lemma sim_left m0 n : sim (fun m b => m = m0 /\ nm (bn_nodes n) (bn_node n) (bn_ptr n) b) (rel_onm m0)
  (slift (nodemut_left m0 (bn_ptr n))) (b_nodemut_left n).
Proof.
  unfold b_nodemut_left, nodemut_left. apply sim_get_r. intros m1 b1. cbn [fst snd].
  intros m b Hok (<- & -> & Hnm). destruct (nm_access false FLeft _ _ _ b Hok Hnm) as (b' & E & Hok' & Hnm').
  unfold sbind at 1, on_r, zoom. cbn [fst snd slift]. unfold b_left, sbind at 1. rewrite E. unfold sbind, slift.
  destruct (slab_get (m_nodes m0) (bn_ptr n)) as [x| | | |] eqn:Hx; cbn [rbind]; [|exists b'; split; done..].
  apply sim_opt; [done|]. split; [done|]. apply Hnm'.
Qed.
Lemma sim_right m0 n : sim (fun m b => m = m0 /\ nm (bn_nodes n) (bn_node n) (bn_ptr n) b) (rel_onm m0)
  (slift (nodemut_right m0 (bn_ptr n))) (b_nodemut_right n).
Proof.
  unfold b_nodemut_right, nodemut_right. apply sim_get_r. intros m1 b1. cbn [fst snd].
  intros m b Hok (<- & -> & Hnm). destruct (nm_access false FRight _ _ _ b Hok Hnm) as (b' & E & Hok' & Hnm').
  unfold sbind at 1, on_r, zoom. cbn [fst snd slift]. unfold b_right, sbind at 1. rewrite E. unfold sbind, slift.
  destruct (slab_get (m_nodes m0) (bn_ptr n)) as [x| | | |] eqn:Hx; cbn [rbind]; [|exists b'; split; done..].
  apply sim_opt; [done|]. split; [done|]. apply Hnm'.
Qed.

(** [&mut self], then [root_mut] *)
Lemma self_spec (m : bstmap K V) b : ok b -> exists self b', retag_mut base [LSlab] b = (Ret self, b') /\ ok b' /\
  slab_has [(self, Unique); (base, SharedRW)] b'.
Proof.
  intros Hok. destruct (quiet_slab_mut [] base SharedRW [] (grants_rw true) b Hok) as (y & b' & E & Hok' & _ & _ & Hs).
  { by apply ok_base. }
  by exists y, b'.
Qed.
Lemma sim_root_mut m0 self s : sim (fun m b => m = m0 /\ slab_has ((self, Unique) :: s) b)
  (fun x y m b => rel_onm m0 x y m b /\ (x = None -> slab_has ((self, Unique) :: s) b))
  (slift (map_root_mut m0)) (b_root_mut self).
Proof.
  unfold b_root_mut, map_root_mut. apply sim_get_r. intros m1 b1. cbn [fst snd].
  intros m b Hok (<- & -> & Hs). destruct (m_root m0) as [p|]; cbn [opt_nodemut].
  2:{ exists b. split; [done|]. by exists None. }
  destruct (quiet_slab_mut [] self Unique s (grants_unique true) b Hok Hs) as (h & b' & E & Hok' & _ & _ & Hs').
  unfold sbind at 1, on_r at 1, zoom. cbn [fst snd]. rewrite E.
  destruct (quiet_slab_raw [] h Unique ((self, Unique) :: s) (grants_unique true) b' Hok' Hs') as (r & b2 & E2 & Hok2 & _ & _ & Hs2).
  unfold sbind at 1, on_r at 1, zoom. cbn [fst snd]. rewrite E2.
  destruct (sim_new m0 r p m0 b2 Hok2) as (b3 & Hok3 & H3); [eauto|]. exists b3. split; [done|].
  unfold sbind. cbn [fst snd slift] in *. destruct (nodemut_new m0 p) as [x| | | |]; cbn [rbind]; [|rewrite H3; done..].
  destruct H3 as (y & -> & Hy). by exists (Some y).
Qed.

(** ** [push] *)
Lemma sbind_ret_inv {S A B} (f : M S A) (g : A -> M S B) s y s' : sbind f g s = (Ret y, s') ->
  exists x s1, f s = (Ret x, s1) /\ g x s1 = (Ret y, s').
Proof. unfold sbind. destruct (f s) as [[x| | | |] s1]; [eauto|done..]. Qed.
Lemma push_head e x (m : bstmap K V) q p m' : s_head (m_nodes m) = Some q -> on_nodes (slab_push e x) m = (Ret p, m') -> p = q.
Proof.
  intros Hhead. unfold on_nodes, zoom. destruct (slab_push e x (m_nodes m)) as [r s'] eqn:E. intros [= -> _].
  unfold slab_push, sbind at 1, sget in E. rewrite Hhead in E.
  repeat (apply sbind_ret_inv in E as (? & ? & ? & E)). by injection E.
Qed.
Lemma b_push_spec e h s x m b : ok b -> slab_has ((h, Unique) :: s) b ->
  exists b', b_push e h x (m, b) = ((on_nodes (slab_push e x) m).1, ((on_nodes (slab_push e x) m).2, b')) /\ ok b' /\
    slab_has ((h, Unique) :: s) b' /\ forall q, (on_nodes (slab_push e x) m).1 = Ret q -> elsewhere [q] b b'.
Proof.
  intros Hok Hs. unfold b_push.
  destruct (access_spec false b h Unique s LSlab Hok Hs (grants_unique false)) as (above & b1 & Hab & E & Hok1 & _ & Hb1 & Hout1).
  unfold sbind at 1, on_r at 1, zoom. cbn [fst snd]. rewrite E. clear E.
  assert (Hs1 : slab_has ((h, Unique) :: s) b1) by (unfold slab_has; rewrite Hb1; by apply suffix_app_r).
  assert (He1 : elsewhere [] b b1) by (intros p f _; by rewrite Hout1).
  unfold sbind at 1, sget. cbn [fst snd].
  assert (Hbase : forall b2, ok b2 -> forall q, exists entry b3, retag_mut base (node_locs q) b2 = (Ret entry, b3) /\ ok b3 /\
    elsewhere [q] b2 b3 /\ b_at b3 LSlab = b_at b2 LSlab /\ on_top entry Unique q b3).
  { intros b2 Hok2 q.
    destruct (retag_as_spec Unique base (node_locs q) b2 Hok2 (node_locs_nodup q)) as (b3 & E3 & Hok3 & _ & Hout3 & Hin3).
    { intros l _. exists SharedRW, []. split; [by apply ok_base|apply grants_rw]. }
    exists (b_next b2), b3. split_and!; try done.
    - intros p f Hp. apply Hout3. rewrite node_locs_elem. set_solver.
    - apply Hout3. rewrite node_locs_elem. naive_solver.
    - intros f. destruct (Hin3 (LNode q f) SharedRW []) as (a & _ & ->); [rewrite node_locs_elem; eauto|by apply ok_base|apply grants_rw|eauto]. }
  assert (Hall : forall b2 wr entry q, ok b2 -> on_top entry Unique q b2 -> exists b3, access_all wr entry (node_locs q) b2 = (Ret tt, b3) /\ ok b3 /\
    elsewhere [q] b2 b3 /\ b_at b3 LSlab = b_at b2 LSlab /\ on_top entry Unique q b3).
  { intros b2 wr entry q Hok2 Ht.
    destruct (access_all_spec wr entry (node_locs q) b2 Hok2 (node_locs_nodup q)) as (b3 & E3 & Hok3 & _ & Hout3 & Hin3).
    { intros l (f & ->)%node_locs_elem. destruct (Ht f) as (s' & ->). exists Unique, s'. split; [done|apply grants_unique]. }
    exists b3. split_and!; try done.
    - intros p f Hp. apply Hout3. rewrite node_locs_elem. set_solver.
    - apply Hout3. rewrite node_locs_elem. naive_solver.
    - intros f. destruct (Ht f) as (s' & Hs').
      destruct (Hin3 (LNode q f) Unique s') as (a & Ha & Hb3); [rewrite node_locs_elem; eauto|by rewrite Hs'|apply grants_unique|].
      rewrite Hs' in Ha. assert (Hlen : length a = 0).
      { apply (f_equal length) in Ha. rewrite app_length in Ha. simpl in Ha. lia. }
      destruct a; [|done]. rewrite Hb3. destruct wr; eauto. }
  assert (Hslab : forall b2 t p' s', ok b2 -> slab_has ((t, p') :: s') b2 -> grants true p' -> exists b3, access true t LSlab b2 = (Ret tt, b3) /\ ok b3 /\
    elsewhere [] b2 b3 /\ slab_has ((t, p') :: s') b3).
  { intros b2 t p' s' Hok2 Hs2 Hg.
    destruct (access_spec true b2 t p' s' LSlab Hok2 Hs2 Hg) as (a2 & b3 & _ & E2 & Hok3 & _ & Hb3 & Hout3).
    exists b3. split; [exact E2|]. split; [done|]. split; [intros p f _; by rewrite Hout3|].
    unfold slab_has. rewrite Hb3. by apply suffix_app_r. }
  destruct (quiet_slab_mut [] h Unique s (grants_unique true) b1 Hok1 Hs1) as (items & b2 & E2 & Hok2 & _ & He2 & Hs2).
  destruct (s_head (m_nodes m)) as [q|] eqn:Hhead.
  - unfold sbind at 1, on_r at 1, zoom. cbn [fst snd]. rewrite E2.
    destruct (Hbase b2 Hok2 q) as (entry & b3 & E3 & Hok3 & He3 & Hl3 & Ht3).
    unfold sbind at 1, on_r at 1, zoom. cbn [fst snd]. rewrite E3.
    destruct (Hall b3 false entry q Hok3 Ht3) as (b4 & E4 & Hok4 & He4 & Hl4 & Ht4).
    unfold sbind at 1, on_r at 1, zoom. cbn [fst snd]. rewrite E4.
    assert (Hs4 : slab_has ((h, Unique) :: s) b4) by (unfold slab_has; rewrite Hl4, Hl3; by eapply slab_has_below).
    destruct (Hslab b4 h Unique s Hok4 Hs4 (grants_unique true)) as (b5 & E5 & Hok5 & He5 & Hs5).
    unfold sbind at 1, on_r at 1, zoom. cbn [fst snd]. rewrite E5.
    assert (Ht5 : on_top entry Unique q b5).
    { intros f. rewrite (He5 q f) by apply not_elem_of_nil. apply Ht4. }
    assert (Hq : forall p m', on_nodes (slab_push e x) m = (Ret p, m') -> p = q).
    { intros p m'. by apply push_head. }
    assert (He : elsewhere [q] b b5).
    { intros p f Hp. rewrite He5 by apply not_elem_of_nil. rewrite He4, He3, He2, He1 by (done || apply not_elem_of_nil). done. }
    unfold sbind at 1, on_m at 1, zoom. cbn [fst snd]. destruct (on_nodes (slab_push e x) m) as [[p| | | |] m'] eqn:Ep; cbn [fst snd].
    2-5: exists b5; split_and!; done.
    pose proof (Hq p m' eq_refl) as ->.
    destruct (Hall b5 true entry q Hok5 Ht5) as (b6 & E6 & Hok6 & He6 & Hl6 & Ht6).
    unfold sbind at 1, on_r at 1, zoom. cbn [fst snd]. rewrite E6. exists b6. split_and!; try done.
    + unfold slab_has. by rewrite Hl6.
    + intros ? [= <-] p f Hp. by rewrite He6, He.
  - unfold sbind at 1, on_r at 1, zoom. cbn [fst snd]. rewrite E2.
    destruct (Hslab b2 items Unique _ Hok2 Hs2 (grants_unique true)) as (b3 & E3 & Hok3 & He3 & Hs3).
    unfold sbind at 1, on_r at 1, zoom. cbn [fst snd]. rewrite E3.
    assert (Hs3' : slab_has ((h, Unique) :: s) b3) by (by eapply slab_has_below).
    unfold sbind at 1, on_m at 1, zoom. cbn [fst snd]. destruct (on_nodes (slab_push e x) m) as [[p| | | |] m'] eqn:Ep; cbn [fst snd].
    2-5: exists b3; split_and!; done.
    destruct (Hbase b3 Hok3 p) as (item & b4 & E4 & Hok4 & He4 & Hl4 & Ht4).
    unfold sbind at 1, on_r at 1, zoom. cbn [fst snd]. rewrite E4.
    destruct (Hall b4 true item p Hok4 Ht4) as (b5 & E5 & Hok5 & He5 & Hl5 & Ht5).
    unfold sbind at 1, on_r at 1, zoom. cbn [fst snd]. rewrite E5.
    destruct (Hslab b5 items Unique ((h, Unique) :: s) Hok5) as (b6 & E6 & Hok6 & He6 & Hs6).
    { unfold slab_has. by rewrite Hl5, Hl4. }
    { apply grants_unique. }
    unfold sbind at 1, on_r at 1, zoom. cbn [fst snd]. rewrite E6. exists b6. split_and!; try done.
    + by eapply slab_has_below.
    + intros ? [= <-] q f Hp. rewrite He6 by apply not_elem_of_nil. rewrite He5, He4, He3, He2, He1 by (done || apply not_elem_of_nil). done.
Qed.

Lemma sim_lifted {A B} P R (r : res A) (g : M (bmap K V) B) : sim P R (slift r) g ->
  sim P (fun x y m b => r = Ret x /\ R x y m b) (slift r) g.
Proof.
  intros H m b Hok HP. destruct (H m b Hok HP) as (b' & Hok' & H'). exists b'. split; [done|].
  cbn [fst snd slift] in *. destruct r; [|done..]. destruct H' as (y & ? & ?). eauto.
Qed.
Definition eqr {A} (x y : A) (m : bstmap K V) (b : borrows) : Prop := x = y.

Lemma fresh_push e m t fl x q m' p : map_rep m t fl -> on_nodes (slab_push e x) m = (Ret q, m') -> p ∈ ptrs t -> q <> p.
Proof.
  intros Hrep E Hp ->. pose proof (push_spec e m t fl x Hrep) as H. unfold wp in H. rewrite E in H. by destruct H as (_ & H & _).
Qed.

Lemma sim_bind_eq {A A' B'} P R (f : M (bstmap K V) A) (f' : A -> M (bstmap K V) A') (g : M (bmap K V) A) (g' : A -> M (bmap K V) B') :
  sim P eqr f g -> (forall x, sim (fun _ _ => True) R (f' x) (g' x)) -> sim P R (sbind f f') (sbind g g').
Proof.
  intros Hf Hg. eapply sim_bind; [exact Hf|]. intros x y m b Hok ->. by apply Hg.
Qed.

(** [push] through a reference derived from [nodes], beside a live [NodeMut] to another node *)
Lemma sim_push e x n m0 :
  (forall q m', on_nodes (slab_push e x) m0 = (Ret q, m') -> q <> bn_ptr n) ->
  sim (fun m b => m = m0 /\ nm (bn_nodes n) (bn_node n) (bn_ptr n) b)
    (fun q q' m b => q = q' /\ nm (bn_nodes n) (bn_node n) (bn_ptr n) b)
    (on_nodes (slab_push e x)) (let! h := on_r (retag_mut (bn_nodes n) [LSlab]) in b_push e h x).
Proof.
  intros Hfresh m b Hok [-> [[s Hs] Hn]].
  destruct (quiet_slab_mut [] (bn_nodes n) SharedRW s (grants_rw true) b Hok Hs) as (h & b1 & E & Hok1 & _ & He1 & Hs1).
  unfold sbind, on_r, zoom. cbn [fst snd]. rewrite E.
  destruct (b_push_spec e h _ x m0 b1 Hok1 Hs1) as (b2 & -> & Hok2 & Hs2 & He2).
  exists b2. split; [done|]. destruct (on_nodes (slab_push e x) m0) as [[q| | | |] m'] eqn:Eq; cbn [fst snd] in *; try done.
  exists q. split; [done|]. split; [done|]. specialize (Hfresh q m' eq_refl). split.
  - exists s. by eapply slab_has_below.
  - intros f. rewrite (He2 q eq_refl) by set_solver. rewrite He1 by apply not_elem_of_nil. apply Hn.
Qed.
Lemma sim_assoc {A B C D} P R (f : M (bstmap K V) A) (g : M (bmap K V) B) (g' : B -> M (bmap K V) C) (g'' : C -> M (bmap K V) D) :
  sim P R f (sbind (sbind g g') g'') -> sim P R f (let! x := g in let! y := g' x in g'' y).
Proof.
  intros H m b Hok HP. destruct (H m b Hok HP) as (b' & Hok' & H'). exists b'. split; [done|].
  unfold sbind in *. by destruct (g (m, b)) as [[] ?].
Qed.
Lemma sim_push_left e n k v m0 :
  (forall q m', on_nodes (slab_push e (inner_new k v)) m0 = (Ret q, m') -> q <> bn_ptr n) ->
  sim (fun m b => m = m0 /\ nm (bn_nodes n) (bn_node n) (bn_ptr n) b) eqr
    (nodemut_push_left e (bn_ptr n) k v) (b_push_left e n k v).
Proof.
  intros Hfresh. unfold nodemut_push_left, b_push_left. apply sim_assoc. eapply sim_bind; [by apply sim_push|].
  intros q ?. apply sim_pre. intros <-.
  eapply (sim_r _ (fun _ _ _ => True)).
  { intros m b Hok Hnm. destruct (nm_access true FLeft _ _ _ b Hok Hnm) as (b2 & E2 & Hok2 & _). eauto. }
  intros _. eapply sim_bind; [apply (sim_m _ (fun _ _ _ => True)); done|]. intros [] []. by apply sim_ret.
Qed.
Lemma sim_push_right e n k v m0 :
  (forall q m', on_nodes (slab_push e (inner_new k v)) m0 = (Ret q, m') -> q <> bn_ptr n) ->
  sim (fun m b => m = m0 /\ nm (bn_nodes n) (bn_node n) (bn_ptr n) b) eqr
    (nodemut_push_right e (bn_ptr n) k v) (b_push_right e n k v).
Proof.
  intros Hfresh. unfold nodemut_push_right, b_push_right. apply sim_assoc. eapply sim_bind; [by apply sim_push|].
  intros q ?. apply sim_pre. intros <-.
  eapply (sim_r _ (fun _ _ _ => True)).
  { intros m b Hok Hnm. destruct (nm_access true FRight _ _ _ b Hok Hnm) as (b2 & E2 & Hok2 & _). eauto. }
  intros _. eapply sim_bind; [apply (sim_m _ (fun _ _ _ => True)); done|]. intros [] []. by apply sim_ret.
Qed.

Lemma sim_replace_value n v m0 : sim (fun m b => m = m0 /\ nm (bn_nodes n) (bn_node n) (bn_ptr n) b) eqr
  (nodemut_replace_value (bn_ptr n) v) (b_replace_value n v).
Proof.
  unfold b_replace_value.
  eapply (sim_r _ (fun c _ b => exists s, b_at b (LNode (bn_ptr n) FValue) = (c, Unique) :: s)).
  { intros m b Hok [-> Hnm]. destruct (nm_retag Unique FValue _ _ _ b Hok Hnm) as (c & b' & E & Hok' & Hnm' & Ht). exists c, b'. done. }
  intros c. eapply (sim_r _ (fun _ _ b => exists s, b_at b (LNode (bn_ptr n) FValue) = (c, Unique) :: s)).
  { intros m b Hok [s Hs]. destruct (use_top false c Unique s _ b Hok Hs (grants_unique false)) as (b' & E & Hok' & Hsame & _).
    exists tt, b'. split_and!; try done. rewrite Hsame. eauto. }
  intros _. eapply (sim_r _ (fun _ _ _ => True)).
  { intros m b Hok [s Hs]. destruct (use_top true c Unique s _ b Hok Hs (grants_unique true)) as (b' & E & Hok' & _). exists tt, b'. done. }
  intros _. eapply sim_weaken; [| |apply (sim_m (fun _ _ => True) (fun _ _ _ => True)); done]; [done|]. by intros x y m b [-> _].
Qed.

Lemma sim_insert_loop e o k v m0 t fl : map_rep m0 t fl -> forall sub C fuel i y, t = plug C sub ->
  sim (rel_onm m0 (rootp sub) y) eqr (insert_loop e o fuel i k v (rootp sub)) (b_insert_loop e o fuel i k v y).
Proof.
  intros Hrep. induction sub as [|l IHl p k0 v0 r IHr]; intros C [|fuel] i y Ht.
  1,3: intros m b Hok _; by exists b.
  { destruct y as [y|]; [intros m b Hok []|]. cbn [rootp insert_loop b_insert_loop]. by apply sim_ret. }
  destruct y as [y|]; [|intros m b Hok []]. cbn [rootp insert_loop b_insert_loop rel_onm].
  assert (Hread : readable m0 (Bin l p k0 v0 r)).
  { intros q n Hin. eapply rep_readable; [done|]. rewrite Ht, nodes_plug. apply elem_of_app. by left. }
  assert (Hp : p ∈ ptrs t).
  { unfold ptrs. rewrite Ht, nodes_plug. simpl. left. }
  unfold rel_nm. apply sim_pre. intros ->. apply sim_get_l. intros m1.
  eapply (sim_weaken (fun m b => m1 = m0 /\ m = m0 /\ nm (bn_nodes y) (bn_node y) (bn_ptr y) b)); [by intros m b (-> & -> & ?)|done|].
  apply sim_pre. intros ->.
  eapply sim_bind; [apply sim_key|]. intros nk ?. unfold ret_same. apply sim_pre. intros [<- _].
  eapply sim_bind; [apply sim_lift|]. intros c ?. apply sim_pre. intros [<- _]. destruct c.
  - eapply sim_bind_eq; [apply sim_replace_value|]. intros x.
    eapply sim_bind; [apply (sim_m _ (fun _ _ _ => True)); done|]. intros [] []. by apply sim_ret.
  - eapply sim_bind; [apply sim_has_left|]. intros hl ?. unfold ret_same. apply sim_pre. intros [<- Hl].
    assert (hl = bool_decide (is_Some (rootp l))) as ->.
    { unfold nodemut_has_left in Hl. rewrite (readable_root _ _ _ _ _ _ Hread) in Hl. injection Hl as <-. simpl. by destruct (rootp l). }
    assert (l = Leaf \/ l <> Leaf) as [->|Hne] by (destruct l; auto).
    + cbn [rootp]. rewrite bool_decide_eq_false_2 by (by intros []). cbn [negb].
      eapply sim_bind_eq; [|intros x; by apply sim_ret].
      apply sim_push_left. intros q m' Eq. by eapply fresh_push.
    + rewrite bool_decide_eq_true_2 by (destruct l; [done|by eexists]). cbn [negb].
      eapply sim_bind; [apply sim_lifted, sim_left|]. intros x z. apply sim_pre.
      rewrite (nodemut_left_ret _ _ _ _ _ _ Hread). intros [= <-]. by apply (IHl (FL (bn_ptr y) k0 v0 r :: C)).
  - eapply sim_bind; [apply sim_has_right|]. intros hl ?. unfold ret_same. apply sim_pre. intros [<- Hl].
    assert (hl = bool_decide (is_Some (rootp r))) as ->.
    { unfold nodemut_has_right in Hl. rewrite (readable_root _ _ _ _ _ _ Hread) in Hl. injection Hl as <-. simpl. by destruct (rootp r). }
    assert (r = Leaf \/ r <> Leaf) as [->|Hne] by (destruct r; auto).
    + cbn [rootp]. rewrite bool_decide_eq_false_2 by (by intros []). cbn [negb].
      eapply sim_bind_eq; [|intros x; by apply sim_ret].
      apply sim_push_right. intros q m' Eq. by eapply fresh_push.
    + rewrite bool_decide_eq_true_2 by (destruct r; [done|by eexists]). cbn [negb].
      eapply sim_bind; [apply sim_lifted, sim_right|]. intros x z. apply sim_pre.
      rewrite (nodemut_right_ret _ _ _ _ _ _ Hread). intros [= <-]. by apply (IHr (FR l (bn_ptr y) k0 v0 :: C)).
Qed.

Lemma sim_on_panic {A B} (h : bstmap K V -> bstmap K V) P R (f : M (bstmap K V) A) (g : M (bmap K V) B) : sim P R f g ->
  sim P R (on_panic h f) (on_panic (fun s => (h s.1, s.2)) g).
Proof.
  intros H m b Hok HP. destruct (H m b Hok HP) as (b' & Hok' & H'). exists b'. split; [done|]. unfold on_panic.
  destruct (f m) as [[] m']; cbn [fst snd] in *; [destruct H' as (y & -> & ?); eauto|rewrite H'; done..].
Qed.
Lemma sim_self {A B} P R (f : M (bstmap K V) A) (g : nat -> M (bmap K V) B) :
  (forall self, sim (fun m b => P m /\ slab_has [(self, Unique); (base, SharedRW)] b) R f (g self)) ->
  sim (fun m _ => P m) R f (let! self := on_r (retag_mut base [LSlab]) in g self).
Proof.
  intros H. eapply (sim_r _ (fun self m b => P m /\ slab_has [(self, Unique); (base, SharedRW)] b)); [|exact H].
  intros m b Hok HP. destruct (self_spec m b Hok) as (self & b' & E & Hok' & Hs). by exists self, b'.
Qed.

Lemma sim_insert e o k v m0 t fl : map_rep m0 t fl -> sim (fun m _ => m = m0) eqr (bstmap_insert e o k v) (b_insert e o k v).
Proof.
  intros Hrep. unfold bstmap_insert, b_insert. apply sim_on_panic.
  apply sim_self. intros self.
  eapply sim_get_l. intros m1. eapply sim_get_r. intros m2 b2. cbn [fst snd].
  eapply (sim_weaken (fun m b => m1 = m0 /\ m2 = m0 /\ (m = m0 /\ slab_has ((self, Unique) :: [(base, SharedRW)]) b))); [naive_solver|done|].
  apply sim_pre. intros ->. apply sim_pre. intros ->.
  eapply sim_bind; [apply sim_lifted, sim_root_mut|]. intros x y. apply sim_pre.
  rewrite (map_root_mut_ret _ _ _ Hrep). intros [= <-].
  destruct y as [y|].
  - destruct t as [|l p k0 v0 r]; [intros m b Hok [[] _]|]. cbn [rootp].
    eapply sim_weaken; [| |apply (sim_insert_loop e o k v m0 _ fl Hrep (Bin l p k0 v0 r) [] _ _ (Some y)); done]; [|done].
    by intros m b [H _].
  - destruct t; [|intros m b Hok [[] _]]. cbn [rootp].
    eapply (sim_r _ (fun h _ b => exists s, slab_has ((h, Unique) :: s) b)).
    { intros m b Hok [-> Hs]. specialize (Hs eq_refl).
      destruct (quiet_slab_mut [] self Unique _ (grants_unique true) b Hok Hs) as (h & b' & E & Hok' & _ & _ & Hs'). eauto 10. }
    intros h. eapply sim_bind_eq.
    { intros m b Hok [s Hs]. destruct (b_push_spec e h _ (inner_new k v) m b Hok Hs) as (b3 & E3 & Hok3 & _).
      rewrite E3. exists b3. split; [done|]. destruct (on_nodes (slab_push e (inner_new k v)) m) as [[] ?]; try done. eexists. split; done. }
    intros q. eapply sim_bind; [apply (sim_m _ (fun _ _ _ => True)); done|]. intros [] []. by apply sim_ret.
Qed.

(** ** [get_mut] *)
Lemma sim_slift {A A' B} P R (r : res A) (k : A -> res A') (g : M (bmap K V) B) :
  sim P R (sbind (slift r) (fun x => slift (k x))) g -> sim P R (slift (rbind r k)) g.
Proof. intros H m b Hok HP. destruct (H m b Hok HP) as (b' & Hok' & H'). exists b'. split; [done|]. unfold sbind, slift in *. by destruct r. Qed.

Definition vtop (t : nat) (p : Ptr) (b : borrows) : Prop := exists s, b_at b (LNode p FValue) = (t, Unique) :: s.

Lemma sim_uses (Q : borrows -> Prop) t p : (forall b b', same b b' -> Q b -> Q b') -> forall ws,
  sim (fun _ b => vtop t p b /\ Q b) (fun _ _ _ b => Q b) (uses p ws) (b_uses t p ws).
Proof.
  intros HQ. induction ws as [|[w|] ws IH]; cbn [uses b_uses].
  - apply sim_ret. by intros m b [_ ?].
  - eapply (sim_r _ (fun _ _ b => vtop t p b /\ Q b)).
    { intros m b Hok [[s Hs] Hb]. destruct (use_top true t Unique s _ b Hok Hs (grants_unique true)) as (b' & E & Hok' & Hsame).
      exists tt, b'. split_and!; try done; [|by eapply HQ]. destruct Hsame as [Ha _]. exists s. by rewrite Ha. }
    intros _. eapply sim_bind; [apply (sim_m _ (fun _ _ b => vtop t p b /\ Q b)); done|]. intros [] []. apply sim_pre. intros _. apply IH.
  - eapply (sim_r _ (fun _ _ b => vtop t p b /\ Q b)).
    { intros m b Hok [[s Hs] Hb]. destruct (use_top false t Unique s _ b Hok Hs (grants_unique false)) as (b' & E & Hok' & Hsame).
      exists tt, b'. split_and!; try done; [|by eapply HQ]. destruct Hsame as [Ha _]. exists s. by rewrite Ha. }
    intros _. apply IH.
Qed.

Definition rel_found m0 (x : option Ptr) (y : option (nat * Ptr)) (m : bstmap K V) (b : borrows) : Prop :=
  match x, y with
  | None, None => m = m0
  | Some p, Some (t, p') => p = p' /\ m = m0 /\ vtop t p b
  | _, _ => False
  end.
Lemma sim_get_mut_loop o m0 : forall fuel i x y,
  sim (rel_onm m0 x y) (rel_found m0) (slift (get_mut_loop m0 o fuel i x)) (b_get_mut_loop o fuel i y).
Proof.
  induction fuel as [|fuel IH]; intros i x y; cbn [get_mut_loop b_get_mut_loop]; [apply sim_fail|].
  destruct x as [x|], y as [y|]; try (intros m b Hok []; fail).
  2:{ intros m b Hok HP. exists b. split; [done|]. by exists None. }
  cbn [rel_onm]. unfold rel_nm. apply sim_pre. intros ->.
  apply sim_slift. eapply sim_bind; [apply sim_key|]. intros k ?. unfold ret_same. apply sim_pre. intros [<- _].
  apply sim_slift. eapply sim_bind; [apply sim_lift|]. intros c ?. apply sim_pre. intros [<- _]. destruct c.
  - eapply (sim_r _ (fun v m b => m = m0 /\ vtop v (bn_ptr y) b)).
    { intros m b Hok [-> Hnm]. destruct (nm_retag Unique FValue _ _ _ b Hok Hnm) as (c & b' & E & Hok' & Hnm' & Ht). exists c, b'. done. }
    intros v m b Hok [-> Hv]. exists b. split; [done|]. eexists. split; [done|]. done.
  - apply sim_slift. eapply sim_bind; [apply sim_left|]. intros c z. apply IH.
  - apply sim_slift. eapply sim_bind; [apply sim_right|]. intros c z. apply IH.
Qed.
Lemma sim_get_mut o m0 : sim (fun m _ => m = m0) (rel_found m0) (slift (map_get_mut m0 o)) (b_get_mut o).
Proof.
  unfold b_get_mut, map_get_mut. apply sim_self. intros self. apply sim_get_r. intros m2 b2. cbn [fst snd].
  eapply (sim_weaken (fun m b => m2 = m0 /\ (m = m0 /\ slab_has ((self, Unique) :: [(base, SharedRW)]) b))); [naive_solver|done|].
  apply sim_pre. intros ->. apply sim_slift. eapply sim_bind; [apply sim_root_mut|]. intros x y.
  eapply sim_weaken; [| |apply (sim_get_mut_loop o m0 _ _ x y)]; [|done]. by intros m b [? _].
Qed.
Lemma sim_get_mut_program o ws m0 : sim (fun m _ => m = m0) eqr (get_mut_program o ws) (b_get_mut_program o ws).
Proof.
  unfold get_mut_program, b_get_mut_program. apply sim_get_l. intros m1.
  eapply (sim_weaken (fun m b => m1 = m0 /\ m = m0)); [naive_solver|done|]. apply sim_pre. intros ->.
  eapply sim_bind; [apply sim_get_mut|]. intros [p|] [[t p']|]; try (intros m b Hok []; fail).
  2:{ by apply sim_ret. }
  cbn [rel_found]. apply sim_pre. intros <-.
  eapply sim_bind; [|intros [] []; by apply sim_ret].
  eapply sim_weaken; [| |apply (sim_uses (fun _ => True) t p)]; [|done..]. by intros m b [-> ?].
Qed.

(** ** [get_entry_mut] *)
Definition ktop (t : nat) (p : Ptr) (b : borrows) : Prop := exists s, b_at b (LNode p FKey) = (t, SharedRO) :: s.
Definition rel_entry m0 (x : option (K * Ptr)) (y : option (K * refs)) (m : bstmap K V) (b : borrows) : Prop :=
  match x, y with
  | None, None => m = m0
  | Some (k, p), Some (k', y) => (k = k' /\ p = rf_node y) /\ m = m0 /\ vtop (rf_value y) p b /\ ktop (rf_key y) p b
  | _, _ => False
  end.
Lemma sim_get_entry_mut_loop o m0 : forall fuel i x y,
  sim (rel_onm m0 x y) (rel_entry m0) (slift (get_entry_mut_loop m0 o fuel i x)) (b_get_entry_mut_loop o fuel i y).
Proof.
  induction fuel as [|fuel IH]; intros i x y; cbn [get_entry_mut_loop b_get_entry_mut_loop]; [apply sim_fail|].
  destruct x as [x|], y as [y|]; try (intros m b Hok []; fail).
  2:{ intros m b Hok HP. exists b. split; [done|]. by exists None. }
  cbn [rel_onm]. unfold rel_nm. apply sim_pre. intros ->.
  apply sim_slift. eapply sim_bind; [apply sim_key|]. intros k ?. unfold ret_same. apply sim_pre. intros [<- _].
  apply sim_slift. eapply sim_bind; [apply sim_lift|]. intros c ?. apply sim_pre. intros [<- _]. destruct c.
  - eapply (sim_r _ (fun v m b => m = m0 /\ rf_node v = bn_ptr y /\ vtop (rf_value v) (bn_ptr y) b /\ ktop (rf_key v) (bn_ptr y) b)).
    { intros m b Hok [-> Hnm]. destruct (nm_retag SharedRO FKey _ _ _ b Hok Hnm) as (c & b' & E & Hok' & Hnm' & Ht).
      unfold b_entry, sbind at 1, retag_shr. rewrite E. cbn [fst snd]. unfold retag.
      destruct (nm_retag Unique FValue _ _ _ b' Hok' Hnm') as (c2 & b2 & E2 & Hok2 & Hnm2 & Ht2).
      unfold sbind, retag_mut. rewrite E2. eexists _, b2. split_and!; [done..|]. cbn [rf_key rf_node rf_value].
      destruct Hnm' as [_ Hn']. destruct Hnm as [_ Hn]. destruct (Hn' FValue) as (s' & Hs').
      destruct (retag_as_spec Unique (bn_node y) [LNode (bn_ptr y) FValue] b' Hok' (NoDup_singleton _)) as (b3 & Hrun & _ & _ & Hout & _).
      { intros l ->%elem_of_list_singleton. exists Unique, s'. split; [done|apply grants_unique]. }
      rewrite E2 in Hrun. injection Hrun as -> ->. unfold ktop. rewrite Hout by (by intros ?%elem_of_list_singleton). done. }
    intros v. apply sim_slift. eapply sim_bind; [apply (sim_of _ m0 (fun m => nodemut_key m (bn_ptr y))); by intros m b [-> _]|].
    intros k' ?. apply sim_pre. intros [<- _]. intros m b Hok (-> & Hn & Hv). exists b. split; [done|]. eexists. split; [done|]. cbn [rel_entry]. rewrite Hn. done.
  - apply sim_slift. eapply sim_bind; [apply sim_left|]. intros c z. apply IH.
  - apply sim_slift. eapply sim_bind; [apply sim_right|]. intros c z. apply IH.
Qed.
Lemma sim_get_entry_mut o m0 : sim (fun m _ => m = m0) (rel_entry m0) (slift (map_get_entry_mut m0 o)) (b_get_entry_mut o).
Proof.
  unfold b_get_entry_mut, map_get_entry_mut. apply sim_self. intros self. apply sim_get_r. intros m2 b2. cbn [fst snd].
  eapply (sim_weaken (fun m b => m2 = m0 /\ (m = m0 /\ slab_has ((self, Unique) :: [(base, SharedRW)]) b))); [naive_solver|done|].
  apply sim_pre. intros ->. apply sim_slift. eapply sim_bind; [apply sim_root_mut|]. intros x y.
  eapply sim_weaken; [| |apply (sim_get_entry_mut_loop o m0 _ _ x y)]; [|done]. by intros m b [? _].
Qed.
Lemma sim_get_entry_mut_program o ws m0 : sim (fun m _ => m = m0) eqr (get_entry_mut_program o ws) (b_get_entry_mut_program o ws).
Proof.
  unfold get_entry_mut_program, b_get_entry_mut_program. apply sim_get_l. intros m1.
  eapply (sim_weaken (fun m b => m1 = m0 /\ m = m0)); [naive_solver|done|]. apply sim_pre. intros ->.
  eapply sim_bind; [apply sim_get_entry_mut|]. intros [[k p]|] [[k' y]|]; try (intros m b Hok []; fail).
  2:{ by apply sim_ret. }
  cbn [rel_entry]. apply sim_pre. intros [<- ->].
  eapply sim_bind.
  { eapply sim_weaken; [| |apply (sim_uses (ktop (rf_key y) (rf_node y)) (rf_value y) (rf_node y))]; [by intros m b (-> & ? & ?)|done|].
    intros b b' [Ha _] [s Hs]. exists s. by rewrite Ha. }
  intros [] []. eapply (sim_r _ (fun _ _ _ => True)); [|intros _; by apply sim_ret].
  intros m b Hok [s Hs]. destruct (use_top false (rf_key y) SharedRO s _ b Hok Hs) as (b' & E & Hok' & _); [done|]. by exists tt, b'.
Qed.

(** ** A walk with a [NodeMut] *)
Definition any_onm (x : option NodeMut) (y : option bnode) (m : bstmap K V) (b : borrows) : Prop := rel_onm m x y m b.
Lemma sim_nw_step ev n : sim (fun _ b => nm (bn_nodes n) (bn_node n) (bn_ptr n) b) any_onm (nw_step ev (bn_ptr n)) (b_nw_step ev n).
Proof.
  unfold nw_step. apply sim_get_l. intros m0.
  assert (Hup : forall (x : option NodeMut) y m b, rel_onm m0 x y m b -> any_onm x y m b).
  { intros [x|] [y|] m b; cbn; try done. by intros (-> & -> & ?). }
  destruct ev; cbn [b_nw_step].
  - eapply sim_bind; [apply sim_key|]. intros ? ?. unfold ret_same. apply sim_pre. intros _.
    eapply sim_bind; [apply sim_value|]. intros ? ?. unfold ret_same. apply sim_pre. intros _.
    eapply sim_bind; [apply sim_has_left|]. intros ? ?. unfold ret_same. apply sim_pre. intros _.
    eapply sim_bind; [apply sim_has_right|]. intros ? ?. unfold ret_same. apply sim_pre. intros _.
    apply sim_ret. intros m b [-> ?]. done.
  - eapply (sim_r _ (fun c _ b => nm (bn_nodes n) (bn_node n) (bn_ptr n) b /\ vtop c (bn_ptr n) b)).
    { intros m b Hok [-> Hnm]. destruct (nm_retag Unique FValue _ _ _ b Hok Hnm) as (c & b' & E & Hok' & Hnm' & Ht). exists c, b'. done. }
    intros c. eapply (sim_r _ (fun _ _ b => nm (bn_nodes n) (bn_node n) (bn_ptr n) b)).
    { intros m b Hok [Hnm [s Hs]]. destruct (use_top true c Unique s _ b Hok Hs (grants_unique true)) as (b' & E & Hok' & Hsame).
      exists tt, b'. split_and!; try done. by eapply nm_same. }
    intros _. eapply sim_bind; [apply (sim_m _ (fun _ _ b => nm (bn_nodes n) (bn_node n) (bn_ptr n) b)); done|].
    intros [] []. apply sim_ret. intros m b [_ ?]. done.
  - eapply sim_weaken; [| |apply sim_left]; [done|]. apply Hup.
  - eapply sim_weaken; [| |apply sim_right]; [done|]. apply Hup.
Qed.
Lemma sim_nw_run ws : forall evs x y, sim (any_onm x y) eqr (nw_run evs ws x) (b_nw_run evs ws y).
Proof.
  induction evs as [|ev evs IH]; intros [x|] [y|]; try (intros m b Hok []; fail); cbn [nw_run b_nw_run]; try by apply sim_ret.
  - unfold any_onm. cbn [rel_onm]. unfold rel_nm. apply sim_pre. intros ->.
    eapply (sim_r _ (fun v _ b => vtop v (bn_ptr y) b)).
    { intros m b Hok [_ Hnm]. destruct (nm_retag Unique FValue _ _ _ b Hok Hnm) as (c & b' & E & Hok' & Hnm' & Ht). exists c, b'. done. }
    intros v. eapply sim_weaken; [| |apply (sim_uses (fun _ => True) v)]; [done| |done]. by intros [] [].
  - unfold any_onm. cbn [rel_onm]. unfold rel_nm. apply sim_pre. intros ->.
    eapply sim_bind; [|intros x z; apply IH].
    eapply sim_weaken; [| |apply sim_nw_step]; [|done]. by intros m b [_ ?].
Qed.
Lemma sim_nw_program evs ws m0 : sim (fun m _ => m = m0) eqr (nw_program evs ws) (b_nw_program evs ws).
Proof.
  unfold nw_program, b_nw_program. apply sim_self. intros self. apply sim_get_l. intros m1.
  eapply (sim_weaken (fun m b => m1 = m0 /\ (m = m0 /\ slab_has ((self, Unique) :: [(base, SharedRW)]) b))); [naive_solver|done|].
  apply sim_pre. intros ->. eapply sim_bind; [apply sim_root_mut|]. intros x y.
  eapply sim_weaken; [| |apply (sim_nw_run ws evs x y)]; [|done]. intros m b [H _]. unfold any_onm.
  destruct x, y; cbn in *; try done. by destruct H as (-> & -> & ?).
Qed.

(** ** [remove_entry] *)
Definition ftop (f : field) (n : nat) (q : perm) (p : Ptr) (b : borrows) : Prop := exists s, b_at b (LNode p f) = (n, q) :: s.
Definition links (n : nat) (q : perm) (p : Ptr) (b : borrows) : Prop := ftop FLeft n q p b /\ ftop FRight n q p b.
Definition has_self (self : nat) (b : borrows) : Prop := slab_has ((self, Unique) :: [(base, SharedRW)]) b.

Lemma has_self_same self b b' : same b b' -> has_self self b -> has_self self b'.
Proof. intros [Ha _]. unfold has_self, slab_has. by rewrite Ha. Qed.
Lemma links_same n q p b b' : same b b' -> links n q p b -> links n q p b'.
Proof. intros [Ha _]. unfold links, ftop. by rewrite !Ha. Qed.

Definition at_node m0 n q p self (m : bstmap K V) b : Prop := m = m0 /\ links n q p b /\ has_self self b.
Lemma at_node_use {A B} wr f m0 n q p self R (h : M (bstmap K V) A) (g' : M (bmap K V) B) : f = FLeft \/ f = FRight -> grants wr q ->
  sim (at_node m0 n q p self) R h g' -> sim (at_node m0 n q p self) R h (let! _ := on_r (access wr n (LNode p f)) in g').
Proof.
  intros Hf Hg H. eapply (sim_r _ (fun _ => at_node m0 n q p self)); [|intros _; apply H].
  intros m b Hok (-> & Hl & Hs).
  assert (ftop f n q p b) as [s Ht] by (destruct Hf as [-> | ->]; apply Hl).
  destruct (use_top wr n q s _ b Hok Ht Hg) as (b' & E & Hok' & Hsame). exists tt, b'. split_and!; try done.
  split_and!; [done|by eapply links_same|by eapply has_self_same].
Qed.
Lemma at_node_left {A B} m0 n q p self x R (h : M (bstmap K V) A) (g' : option Ptr -> M (bmap K V) B) : slab_get (m_nodes m0) p = Ret x -> grants false q ->
  sim (at_node m0 n q p self) R h (g' (n_left x)) -> sim (at_node m0 n q p self) R h (let! c := on_r (b_left m0 n p) in g' c).
Proof.
  intros Hx Hg H. eapply (sim_r _ (fun c m b => c = n_left x /\ at_node m0 n q p self m b)); [|intros c; apply sim_pre; intros ->; apply H].
  intros m b Hok (-> & Hl & Hs). destruct (proj1 Hl) as [s Ht].
  destruct (use_top false n q s _ b Hok Ht Hg) as (b' & E & Hok' & Hsame). exists (n_left x), b'.
  unfold b_left, sbind. rewrite E. cbn [slift]. unfold slift. rewrite Hx. split_and!; try done.
  split_and!; [done|by eapply links_same|by eapply has_self_same].
Qed.
Lemma at_node_right {A B} m0 n q p self x R (h : M (bstmap K V) A) (g' : option Ptr -> M (bmap K V) B) : slab_get (m_nodes m0) p = Ret x -> grants false q ->
  sim (at_node m0 n q p self) R h (g' (n_right x)) -> sim (at_node m0 n q p self) R h (let! c := on_r (b_right m0 n p) in g' c).
Proof.
  intros Hx Hg H. eapply (sim_r _ (fun c m b => c = n_right x /\ at_node m0 n q p self m b)); [|intros c; apply sim_pre; intros ->; apply H].
  intros m b Hok (-> & Hl & Hs). destruct (proj2 Hl) as [s Ht].
  destruct (use_top false n q s _ b Hok Ht Hg) as (b' & E & Hok' & Hsame). exists (n_right x), b'.
  unfold b_right, sbind. rewrite E. cbn [slift]. unfold slift. rewrite Hx. split_and!; try done.
  split_and!; [done|by eapply links_same|by eapply has_self_same].
Qed.
Lemma sim_read {A B C} m0 (f : bstmap K V -> res C) x (P : bstmap K V -> borrows -> Prop) R (h : M (bstmap K V) A) (g' : C -> M (bmap K V) B) : f m0 = Ret x ->
  (forall m b, P m b -> m = m0) -> sim P R h (g' x) -> sim P R h (let! y := of_m f in g' y).
Proof.
  intros Hx Hm H m b Hok HP. pose proof (Hm _ _ HP) as ->. destruct (H m0 b Hok HP) as (b' & Hok' & H'). exists b'. split; [done|].
  unfold of_m, sbind, sget, slift. cbn [fst snd]. by rewrite Hx.
Qed.
(** [get_unchecked] or [get_unchecked_mut] through [self] *)
Lemma sim_self_node mut m0 p self (Q : bstmap K V -> borrows -> Prop) : (forall m b, Q m b -> m = m0 /\ has_self self b) ->
  sim Q (fun x n m b => slab_get (m_nodes m0) p = Ret x /\ m = m0 /\ on_top n (mode mut) p b /\ has_self self b)
    (slift (slab_get (m_nodes m0) p)) (b_node mut self p).
Proof.
  intros HQ. apply (sim_node mut self Unique [(base, SharedRW)] m0 p Q); [apply grants_unique| |].
  - intros m b ?%HQ. naive_solver.
  - intros m b ?%HQ. naive_solver.
Qed.
Lemma on_top_links n q p b : on_top n q p b -> links n q p b.
Proof. intros H. split; apply H. Qed.
Lemma grants_mode_read mut : grants false (mode mut).
Proof. destruct mut; done. Qed.

Lemma sim_remove_find self o m0 : forall fuel i parent current,
  sim (fun m b => m = m0 /\ has_self self b) (fun x y m b => x = y /\ m = m0 /\ has_self self b)
    (slift (remove_find m0 o fuel i parent current)) (b_remove_find self o fuel i parent current).
Proof.
  induction fuel as [|fuel IH]; intros i parent current; cbn [remove_find b_remove_find]; [apply sim_fail|].
  destruct current as [ptr|].
  2:{ intros m b Hok HP. exists b. split; [done|]. eexists. by split. }
  apply sim_get_r. intros m1 b1. cbn [fst snd].
  eapply (sim_weaken (fun m b => m1 = m0 /\ (m = m0 /\ has_self self b))); [naive_solver|exact (fun _ _ _ _ H => H)|]. apply sim_pre. intros ->.
  apply sim_slift. eapply sim_bind; [apply (sim_self_node false m0 ptr self); done|]. intros x node. apply sim_pre. intros Hx.
  eapply (sim_r _ (fun k m b => ftop FKey k SharedRO ptr b /\ at_node m0 node SharedRO ptr self m b)).
  { intros m b Hok (-> & Ht & Hs). destruct (Ht FKey) as [sk Hk].
    destruct (retag_as_spec SharedRO node [LNode ptr FKey] b Hok (NoDup_singleton _)) as (b' & Hrun & Hok' & _ & Hout & Hin).
    { intros l ->%elem_of_list_singleton. exists SharedRO, sk. rewrite Hk. done. }
    exists (b_next b), b'. split_and!; try done.
    - destruct (Hin (LNode ptr FKey) SharedRO sk) as (above & _ & Hb'); [left|by rewrite Hk|done|]. by eexists.
    - split_and!; [done| |].
      + unfold links, ftop. rewrite !Hout by (by intros ?%elem_of_list_singleton). split; apply Ht.
      + unfold has_self, slab_has. by rewrite Hout by (by intros ?%elem_of_list_singleton). }
  intros k. eapply (sim_r _ (fun _ => at_node m0 node SharedRO ptr self)).
  { intros m b Hok [[s Hk] (-> & Hl & Hs)]. destruct (use_top false k SharedRO s _ b Hok Hk) as (b' & E & Hok' & Hsame); [done|].
    exists tt, b'. split_and!; try done. split_and!; [done|by eapply links_same|by eapply has_self_same]. }
  intros _. apply (sim_read m0 _ x); [done|by intros m b [-> _]|].
  apply sim_slift. eapply sim_bind; [apply sim_lift|]. intros c ?. apply sim_pre. intros [<- _]. destruct c.
  - intros m b' Hok' (-> & _ & Hs). exists b'. split; [done|]. by eexists.
  - apply (at_node_left m0 node SharedRO ptr self x); [done..|]. eapply sim_weaken; [| |apply IH]; [|exact (fun _ _ _ _ H => H)]. by intros m b' (-> & _ & ?).
  - apply (at_node_right m0 node SharedRO ptr self x); [done..|]. eapply sim_weaken; [| |apply IH]; [|exact (fun _ _ _ _ H => H)]. by intros m b' (-> & _ & ?).
Qed.

Lemma sim_succ_loop self m0 : forall fuel sp s,
  sim (fun m b => m = m0 /\ has_self self b) (fun x y m b => x = y /\ m = m0 /\ has_self self b)
    (slift (succ_loop m0 fuel sp s)) (b_succ_loop self fuel sp s).
Proof.
  induction fuel as [|fuel IH]; intros sp s; cbn [succ_loop b_succ_loop]; [apply sim_fail|].
  apply sim_get_r. intros m1 b1. cbn [fst snd].
  eapply (sim_weaken (fun m b => m1 = m0 /\ (m = m0 /\ has_self self b))); [naive_solver|exact (fun _ _ _ _ H => H)|]. apply sim_pre. intros ->.
  apply sim_slift. eapply sim_bind; [apply (sim_self_node false m0 s self); done|]. intros x node. apply sim_pre. intros Hx.
  eapply (sim_weaken (at_node m0 node SharedRO s self)); [intros m b (-> & Ht & Hs); split_and!; [done|by apply on_top_links|done]|exact (fun _ _ _ _ H => H)|].
  apply (at_node_left m0 node SharedRO s self x); [done..|].
  destruct (n_left x) as [l|].
  - eapply sim_weaken; [| |apply IH]; [|exact (fun _ _ _ _ H => H)]. by intros m b' (-> & _ & ?).
  - intros m b' Hok' (-> & _ & Hs). exists b'. split; [done|]. by eexists.
Qed.

Definition self_only self (m : bstmap K V) b : Prop := has_self self b.
Lemma sim_store self f p (st : M (bstmap K V) unit) : f = FLeft \/ f = FRight ->
  (forall m u, slab_get (m_nodes m) p = u -> match u with Ret _ => True | Panic q => st m = (Panic q, m) | Abort => st m = (Abort, m) | UB q => st m = (UB q, m) | Diverge => st m = (Diverge, m) end) ->
  sim (self_only self) (fun _ _ => self_only self) st
    (let! n := b_node true self p in let! _ := on_r (access true n (LNode p f)) in on_m st).
Proof.
  intros Hf Hst m b Hok Hs. specialize (Hst m _ eq_refl).
  destruct (sim_self_node true m p self (fun m' b => m' = m /\ has_self self b) ltac:(done) m b Hok ltac:(done)) as (b1 & Hok1 & H1).
  cbn [fst snd slift] in H1. unfold sbind at 1.
  destruct (slab_get (m_nodes m) p) as [x| | | |]; [|rewrite H1, Hst; cbn [fst snd]; by exists b1..].
  destruct H1 as (n & -> & _ & _ & Ht & Hs1).
  assert (Hat : at_node m n Unique p self m b1) by (split_and!; [done|by apply on_top_links|done]).
  apply (at_node_use true f m n Unique p self (fun _ _ => self_only self) st (on_m st) Hf (grants_unique true)); [|done|done].
  eapply sim_weaken; [| |apply (sim_m (at_node m n Unique p self) (fun _ _ => has_self self))]; [done|by intros x' y' m' b' [_ ?]|].
  by intros m' b' x' m'' (_ & _ & ?) _.
Qed.
Lemma sim_store_left self p q : sim (self_only self) (fun _ _ => self_only self) (store_left p q) (b_store_left self p q).
Proof.
  apply sim_store; [by left|]. intros m u Hu. unfold store_left, slab_update, on_nodes, zoom, sbind, sget, slift. rewrite Hu.
  destruct u; cbn [fst snd]; try done; by destruct m.
Qed.
Lemma sim_store_right self p q : sim (self_only self) (fun _ _ => self_only self) (store_right p q) (b_store_right self p q).
Proof.
  apply sim_store; [by right|]. intros m u Hu. unfold store_right, slab_update, on_nodes, zoom, sbind, sget, slift. rewrite Hu.
  destruct u; cbn [fst snd]; try done; by destruct m.
Qed.

Lemma sim_remove_replacement self p : sim (self_only self) (fun x y m b => x = y /\ self_only self m b)
  (remove_replacement p) (b_remove_replacement self p).
Proof.
  unfold remove_replacement, b_remove_replacement. apply sim_get_l. intros m0. apply sim_get_r. intros m1 b1. cbn [fst snd].
  eapply (sim_weaken (fun m b => m1 = m0 /\ (m = m0 /\ has_self self b))); [naive_solver|exact (fun _ _ _ _ H => H)|]. apply sim_pre. intros ->.
  eapply sim_bind; [apply (sim_self_node true m0 p self); done|]. intros x node. apply sim_pre. intros Hx.
  eapply (sim_weaken (at_node m0 node Unique p self)); [intros m b (-> & Ht & Hs); split_and!; [done|by apply on_top_links|done]|exact (fun _ _ _ _ H => H)|].
  apply (at_node_left m0 node Unique p self x); [done|apply (grants_unique false)|].
  apply (at_node_right m0 node Unique p self x); [done|apply (grants_unique false)|].
  destruct (n_left x) as [lp|], (n_right x) as [rp|]; try (apply sim_ret; by intros m b (_ & _ & ?)).
  eapply sim_bind; [apply (sim_self_node false m0 rp self); by intros m b (-> & _ & ?)|]. intros xr rc. apply sim_pre. intros Hxr.
  eapply (sim_weaken (at_node m0 rc SharedRO rp self)); [intros m b (-> & Ht & Hs); split_and!; [done|by apply on_top_links|done]|exact (fun _ _ _ _ H => H)|].
  apply (at_node_left m0 rc SharedRO rp self xr); [done..|].
  eapply (sim_bind _ (fun x y m b => x = y /\ self_only self m b)).
  - destruct (n_left xr) as [rl|]; [|apply sim_ret; by intros m b (_ & _ & ?)].
    eapply sim_bind.
    { eapply sim_weaken; [| |apply (sim_succ_loop self m0 (map_fuel m0) rp rl)]; [by intros m b (-> & _ & ?)|exact (fun _ _ _ _ H => H)]. }
    intros [sp sc] ?. apply sim_pre. intros <-.
    eapply sim_bind; [apply (sim_self_node true m0 sc self); done|]. intros xs sn. apply sim_pre. intros Hxs.
    eapply (sim_weaken (at_node m0 sn Unique sc self)); [intros m b (-> & Ht & Hs); split_and!; [done|by apply on_top_links|done]|exact (fun _ _ _ _ H => H)|].
    apply (at_node_right m0 sn Unique sc self xs); [done|apply (grants_unique false)|].
    eapply sim_bind; [eapply sim_weaken; [| |apply sim_store_left]; [by intros m b (_ & _ & ?)|exact (fun _ _ _ _ H => H)]|]. intros [] [].
    eapply sim_bind; [apply sim_store_right|]. intros [] []. by apply sim_ret.
  - intros q ?. apply sim_pre. intros <-.
    eapply sim_bind; [apply sim_store_left|]. intros [] []. by apply sim_ret.
Qed.

Lemma sim_slab_remove e h s p : sim (fun _ b => slab_has ((h, Unique) :: s) b) eqr (on_nodes (slab_remove e p)) (b_slab_remove e h p).
Proof.
  unfold b_slab_remove.
  eapply (sim_r _ (fun _ _ b => slab_has ((h, Unique) :: s) b)).
  { intros m b Hok Hs. destruct (quiet_slab_mut [] h Unique s (grants_unique true) b Hok Hs) as (y & b' & E & Hok' & _ & _ & Hs').
    exists y, b'. split_and!; try done. by eapply slab_has_below. }
  intros _. eapply (sim_r _ (fun en _ b => slab_has ((h, Unique) :: s) b /\ on_top en Unique p b)).
  { intros m b Hok Hs. destruct (retag_as_spec Unique base (node_locs p) b Hok (node_locs_nodup p)) as (b3 & E3 & Hok3 & _ & Hout3 & Hin3).
    { intros l _. exists SharedRW, []. split; [by apply ok_base|apply grants_rw]. }
    exists (b_next b), b3. split_and!; try done.
    - unfold slab_has. rewrite Hout3; [done|]. rewrite node_locs_elem. naive_solver.
    - intros f. destruct (Hin3 (LNode p f) SharedRW []) as (a & _ & ->); [rewrite node_locs_elem; eauto|by apply ok_base|apply grants_rw|eauto]. }
  intros en.
  assert (Hslab : forall wr, forall m b, ok b -> slab_has ((h, Unique) :: s) b /\ on_top en Unique p b -> exists y b',
    access wr h LSlab b = (Ret y, b') /\ ok b' /\ slab_has ((h, Unique) :: s) b' /\ on_top en Unique p b').
  { intros wr _ b Hok [Hs Ht]. destruct (access_spec wr b h Unique s LSlab Hok Hs (grants_unique wr)) as (a2 & b3 & _ & E2 & Hok3 & _ & Hb3 & Hout3).
    exists tt, b3. split; [exact E2|]. split_and!; [done|unfold slab_has; rewrite Hb3; by apply suffix_app_r|].
    intros f. rewrite Hout3 by done. apply Ht. }
  assert (Hall : forall wr, forall m b, ok b -> slab_has ((h, Unique) :: s) b /\ on_top en Unique p b -> exists y b',
    access_all wr en (node_locs p) b = (Ret y, b') /\ ok b' /\ slab_has ((h, Unique) :: s) b' /\ on_top en Unique p b').
  { intros wr _ b2 Hok2 [Hs Ht].
    destruct (access_all_spec wr en (node_locs p) b2 Hok2 (node_locs_nodup p)) as (b3 & E3 & Hok3 & _ & Hout3 & Hin3).
    { intros l (f & ->)%node_locs_elem. destruct (Ht f) as (s' & ->). exists Unique, s'. split; [done|apply grants_unique]. }
    exists tt, b3. split_and!; try done.
    - unfold slab_has. rewrite Hout3; [done|]. rewrite node_locs_elem. naive_solver.
    - intros f. destruct (Ht f) as (s' & Hs').
      destruct (Hin3 (LNode p f) Unique s') as (a & Ha & Hb3); [rewrite node_locs_elem; eauto|by rewrite Hs'|apply grants_unique|].
      rewrite Hs' in Ha. assert (Hlen : length a = 0).
      { apply (f_equal length) in Ha. rewrite app_length in Ha. simpl in Ha. lia. }
      destruct a; [|done]. rewrite Hb3. destruct wr; eauto. }
  eapply (sim_r _ (fun _ _ b => slab_has ((h, Unique) :: s) b /\ on_top en Unique p b)); [apply Hslab|]. intros _.
  eapply (sim_r _ (fun _ _ b => slab_has ((h, Unique) :: s) b /\ on_top en Unique p b)); [apply Hall|]. intros _.
  eapply (sim_r _ (fun _ _ b => slab_has ((h, Unique) :: s) b /\ on_top en Unique p b)); [apply Hall|]. intros _.
  eapply (sim_r _ (fun _ _ b => slab_has ((h, Unique) :: s) b /\ on_top en Unique p b)); [apply Hslab|]. intros _.
  eapply sim_weaken; [| |apply (sim_m (fun _ _ => True) (fun _ _ _ => True)); done]; [done|]. by intros x y m b [-> _].
Qed.

Lemma sim_remove_entry e o m0 : sim (fun m _ => m = m0) eqr (map_remove_entry e o) (b_remove_entry e o).
Proof.
  unfold map_remove_entry, b_remove_entry. apply sim_self. intros self.
  eapply sim_get_l. intros m1. eapply sim_get_r. intros m2 b2. cbn [fst snd].
  eapply (sim_weaken (fun m b => m1 = m0 /\ m2 = m0 /\ (m = m0 /\ has_self self b))); [naive_solver|exact (fun _ _ _ _ H => H)|].
  apply sim_pre. intros ->. apply sim_pre. intros ->.
  eapply sim_bind; [apply sim_remove_find|]. intros [parent current] ?. apply sim_pre. intros <-.
  destruct current as [ptr|]; [|by apply sim_ret].
  eapply sim_bind; [eapply sim_weaken; [| |apply sim_remove_replacement]; [by intros m b [_ ?]|exact (fun _ _ _ _ H => H)]|].
  intros rw ?. apply sim_pre. intros <-.
  eapply (sim_bind _ (fun _ _ => self_only self)).
  - destruct parent as [pp|].
    2:{ eapply sim_weaken; [| |apply (sim_m (self_only self) (fun _ => self_only self)); done]; [done|]. by intros x y m b [_ ?]. }
    apply sim_get_l. intros m3. apply sim_get_r. intros m4 b4. cbn [fst snd].
    eapply (sim_weaken (fun m b => m4 = m3 /\ (m = m3 /\ has_self self b))); [naive_solver|exact (fun _ _ _ _ H => H)|]. apply sim_pre. intros ->.
    eapply sim_bind; [apply (sim_self_node true m3 pp self); done|]. intros x node. apply sim_pre. intros Hx.
    eapply (sim_weaken (at_node m3 node Unique pp self)); [intros m b (-> & Ht & Hs); split_and!; [done|by apply on_top_links|done]|exact (fun _ _ _ _ H => H)|].
    apply (at_node_left m3 node Unique pp self x); [done|apply (grants_unique false)|].
    destruct (bool_decide (n_left x = Some ptr)).
    + apply at_node_use; [by left|apply grants_unique|].
      eapply sim_weaken; [| |apply (sim_m (at_node m3 node Unique pp self) (fun _ _ => has_self self))]; [done|by intros x' y' m' b' [_ ?]|].
      by intros m' b' x' m'' (_ & _ & ?) _.
    + apply at_node_use; [by right|apply grants_unique|].
      eapply sim_weaken; [| |apply (sim_m (at_node m3 node Unique pp self) (fun _ _ => has_self self))]; [done|by intros x' y' m' b' [_ ?]|].
      by intros m' b' x' m'' (_ & _ & ?) _.
  - intros [] []. eapply (sim_r _ (fun h _ b => slab_has ((h, Unique) :: (self, Unique) :: [(base, SharedRW)]) b)).
    { intros m b Hok Hs. destruct (quiet_slab_mut [] self Unique _ (grants_unique true) b Hok Hs) as (y & b' & E & Hok' & _ & _ & Hs').
      exists y, b'. done. }
    intros h. eapply sim_bind_eq; [apply sim_slab_remove|]. intros x. by apply sim_ret.
Qed.

(** ** Shared references *)
Definition shared (t : nat) (q : perm) : Prop := q = SharedRO \/ t = base /\ q = SharedRW.
Definition live (t : nat) (l : loc) (b : borrows) : Prop := exists q, shared t q /\ (t, q) ∈ b_at b l.
Definition keeps (b b' : borrows) : Prop := forall l t q, shared t q -> (t, q) ∈ b_at b l -> (t, q) ∈ b_at b' l.

Lemma keeps_refl b : keeps b b.
Proof. by intros l t q. Qed.
Hint Resolve keeps_refl : core.
Lemma keeps_trans b b' b'' : keeps b b' -> keeps b' b'' -> keeps b b''.
Proof. intros H H' l t q Hq Hin. apply H'; [done|]. by apply H. Qed.
Lemma live_keeps t l b b' : keeps b b' -> live t l b -> live t l b'.
Proof. intros Hk (q & Hq & Hin). exists q. split; [done|]. by apply Hk. Qed.
Lemma live_base l b : ok b -> live base l b.
Proof. intros Hok. exists SharedRW. split; [by right|]. destruct (ok_base b l Hok) as [st ->]. apply elem_of_app. right. left. Qed.
Lemma live_suffix t l b : live t l b -> exists q s, (t, q) :: s `suffix_of` b_at b l /\ grants false q.
Proof.
  intros (q & Hq & (a & s & E)%elem_of_list_split). exists q, s. split; [by exists a|]. by destruct Hq as [->|[_ ->]].
Qed.
Lemma used_keeps n above x s y q : ok_stack n (above ++ x :: s) -> shared y q -> (y, q) ∈ above ++ x :: s -> (y, q) ∈ used false above ++ x :: s.
Proof.
  intros (Hnd & _ & Hlast) Hq [Hin|Hin]%elem_of_app; apply elem_of_app; [left|by right].
  simpl. apply elem_of_list_fmap. exists (y, q). split; [|done]. destruct Hq as [->|[-> _]]; [by destruct Ru|].
  rewrite last_app_cons in Hlast. apply last_Some_elem_of in Hlast.
  rewrite fmap_app in Hnd. apply NoDup_app in Hnd as (_ & Hnd & _). destruct (Hnd base).
  - apply elem_of_list_fmap. by exists (base, q).
  - apply elem_of_list_fmap. by exists (base, SharedRW).
Qed.

Lemma shr_access t l b : ok b -> live t l b -> exists b', access false t l b = (Ret tt, b') /\ ok b' /\ keeps b b'.
Proof.
  intros Hok Hl. destruct (live_suffix t l b Hl) as (q & s & Hs & Hg).
  destruct (access_spec false b t q s l Hok Hs Hg) as (above & b' & Hab & E & Hok' & _ & Hb' & Hout). exists b'. split; [exact E|]. split; [done|].
  intros l' u r Hr Hin. destruct (decide (l' = l)) as [->|Hne].
  - rewrite Hb'. rewrite Hab in Hin. apply (used_keeps (b_next b)); [|done..]. rewrite <- Hab. apply (ok_at Ru b Hok).
  - by rewrite Hout.
Qed.
Lemma shr_retag t ls b : ok b -> NoDup ls -> (forall l, l ∈ ls -> live t l b) ->
  exists n b', retag_shr t ls b = (Ret n, b') /\ ok b' /\ keeps b b' /\ forall l, l ∈ ls -> live n l b'.
Proof.
  intros Hok Hnd Hl. destruct (retag_as_spec SharedRO t ls b Hok Hnd) as (b' & E & Hok' & _ & Hout & Hin).
  { intros l Hin. destruct (live_suffix t l b (Hl l Hin)) as (q & s & ? & ?). eauto. }
  exists (b_next b), b'. split_and!; try done.
  - intros l u q Hq Hu. destruct (decide (l ∈ ls)) as [Hls|Hls]; [|by rewrite Hout].
    destruct (live_suffix t l b (Hl l Hls)) as (q' & s & Hs & Hg). destruct (Hin l q' s Hls Hs Hg) as (above & Hab & ->).
    right. rewrite Hab in Hu. apply (used_keeps (b_next b)); [|done..]. rewrite <- Hab. apply (ok_at Ru b Hok).
  - intros l Hls. destruct (live_suffix t l b (Hl l Hls)) as (q' & s & Hs & Hg). destruct (Hin l q' s Hls Hs Hg) as (above & Hab & Hb).
    exists SharedRO. split; [by left|]. rewrite Hb. left.
Qed.

(** [g] only reads; it has the result [x], whatever that is. *)
Definition outcome {A B} (R : A -> B -> borrows -> Prop) (x : res A) (o : res B * borrows) (b' : borrows) : Prop :=
  match x with
  | Ret x => exists y, o = (Ret y, b') /\ R x y b'
  | Panic p => o = (Panic p, b')
  | Abort => o = (Abort, b')
  | UB u => o = (UB u, b')
  | Diverge => o = (Diverge, b')
  end.
Definition shr {A B} (b0 : borrows) (R : A -> B -> borrows -> Prop) (x : res A) (g : M borrows B) : Prop :=
  forall b, ok b -> keeps b0 b -> exists b', ok b' /\ keeps b b' /\ outcome R x (g b) b'.

Lemma shr_bind {A A' B B'} b0 R Q (x : res A) (k : A -> res A') (g : M borrows B) (g' : B -> M borrows B') :
  shr b0 R x g -> (forall a y b1, x = Ret a -> keeps b0 b1 -> R a y b1 -> shr b1 Q (k a) (g' y)) -> shr b0 Q (rbind x k) (sbind g g').
Proof.
  intros H H' b Hok Hk. destruct (H b Hok Hk) as (b1 & Hok1 & Hk1 & H1). unfold sbind.
  destruct x as [a| | | |]; cbn [rbind outcome] in *; [|exists b1; rewrite H1; done..].
  destruct H1 as (y & -> & HR). destruct (H' a y b1 eq_refl) with (b := b1) as (b2 & Hok2 & Hk2 & H2); try done.
  { by eapply keeps_trans. }
  exists b2. split_and!; try done. by eapply keeps_trans.
Qed.
(** A step of [g] alone. *)
Lemma shr_r {A B B'} b0 (Q : B -> borrows -> Prop) R (x : res A) (g : M borrows B) (g' : B -> M borrows B') :
  (forall b, ok b -> keeps b0 b -> exists y b', g b = (Ret y, b') /\ ok b' /\ keeps b b' /\ Q y b') ->
  (forall y b1, keeps b0 b1 -> Q y b1 -> shr b1 R x (g' y)) -> shr b0 R x (sbind g g').
Proof.
  intros H H' b Hok Hk. destruct (H b Hok Hk) as (y & b1 & E & Hok1 & Hk1 & HQ). unfold sbind. rewrite E.
  destruct (H' y b1) with (b := b1) as (b2 & Hok2 & Hk2 & H2); try done. { by eapply keeps_trans. }
  exists b2. split_and!; try done. by eapply keeps_trans.
Qed.
Lemma shr_ret {A B} b0 (R : A -> B -> borrows -> Prop) x y : (forall b, keeps b0 b -> R x y b) -> shr b0 R (Ret x) (sret y).
Proof. intros H b Hok Hk. exists b. split_and!; try done. cbn. eauto. Qed.
Lemma shr_lift {A} b0 (x : res A) : shr b0 (fun a y b => a = y) x (slift x).
Proof. intros b Hok Hk. exists b. split_and!; try done. destruct x; cbn; eauto. Qed.
Lemma shr_rmap {A A' B} b0 (R : A' -> B -> borrows -> Prop) (f : A -> A') x g : shr b0 (fun a y b => R (f a) y b) x g -> shr b0 R (rmap f x) g.
Proof. intros H b Hok Hk. destruct (H b Hok Hk) as (b' & ? & ? & H'). exists b'. split_and!; try done. by destruct x. Qed.
Lemma shr_weaken {A B} b0 (R R' : A -> B -> borrows -> Prop) x g : (forall a y b, keeps b0 b -> R a y b -> R' a y b) -> shr b0 R x g -> shr b0 R' x g.
Proof.
  intros HR H b Hok Hk. destruct (H b Hok Hk) as (b' & ? & Hk' & H'). exists b'. split_and!; try done.
  destruct x; try done. destruct H' as (y & ? & ?). exists y. split; [done|]. apply HR; [|done]. by eapply keeps_trans.
Qed.

Definition live_node (n : nat) (p : Ptr) (b : borrows) : Prop := forall f, live n (LNode p f) b.
Lemma live_node_keeps n p b b' : keeps b b' -> live_node n p b -> live_node n p b'.
Proof. intros Hk H f. eapply live_keeps; [done|apply H]. Qed.

Lemma shr_get m h p b0 : live h LSlab b0 ->
  shr b0 (fun _ n b => live_node n p b) (slab_get (m_nodes m) p) (b_get false m h p).
Proof.
  intros Hh. unfold b_get, retag. eapply (shr_r _ (fun _ _ => True)).
  { intros b Hok Hk. destruct (shr_retag h [LSlab] b Hok (NoDup_singleton _)) as (n & b' & ? & ? & ? & _).
    - intros l ->%elem_of_list_singleton. by eapply live_keeps. - eauto 10. }
  intros _ b1 Hk1 _. eapply (shr_r _ (fun n b => live_node n p b)).
  { intros b Hok Hk. destruct (shr_retag base (node_locs p) b Hok (node_locs_nodup p)) as (n & b' & ? & ? & ? & Hl).
    - intros l _. by apply live_base. - exists n, b'. split_and!; try done. intros f. apply Hl. apply node_locs_elem. eauto. }
  intros en b2 Hk2 Hen.
  assert (H : shr b2 (fun (_ : inner K V) n b => live_node n p b) (let* x := slab_get (m_nodes m) p in Ret x)
    (let! _ := slift (slab_get (m_nodes m) p) in retag_shr en (node_locs p))).
  { eapply shr_bind; [apply shr_lift|]. intros x _ b3 _ Hk3 _ b Hok Hk.
    destruct (shr_retag en (node_locs p) b Hok (node_locs_nodup p)) as (n & b' & ? & ? & ? & Hl).
    - intros l (f & ->)%node_locs_elem. eapply live_node_keeps; [done|]. by eapply live_node_keeps.
    - exists b'. split_and!; try done. exists n. split; [done|]. intros f. apply Hl. apply node_locs_elem. eauto. }
  intros b Hok Hk. destruct (H b Hok Hk) as (b' & ? & ? & H'). exists b'. split_and!; try done. by destruct (slab_get (m_nodes m) p).
Qed.

(** Reading a link. *)
Lemma shr_left m n p x b : ok b -> live_node n p b -> slab_get (m_nodes m) p = Ret x ->
  exists b', b_left m n p b = (Ret (n_left x), b') /\ ok b' /\ keeps b b'.
Proof.
  intros Hok Hl Hx. destruct (shr_access n (LNode p FLeft) b Hok (Hl FLeft)) as (b' & E & ? & ?). exists b'.
  unfold b_left, sbind, slift. rewrite E, Hx. done.
Qed.
Lemma shr_right m n p x b : ok b -> live_node n p b -> slab_get (m_nodes m) p = Ret x ->
  exists b', b_right m n p b = (Ret (n_right x), b') /\ ok b' /\ keeps b b'.
Proof.
  intros Hok Hl Hx. destruct (shr_access n (LNode p FRight) b Hok (Hl FRight)) as (b' & E & ? & ?). exists b'.
  unfold b_right, sbind, slift. rewrite E, Hx. done.
Qed.

(** A [Node]. *)
Definition rel_node m (x : Node K V) (y : bnode) (b : borrows) : Prop :=
  bn_ptr y = nd_ptr x /\ slab_get (m_nodes m) (nd_ptr x) = Ret (nd_inner x) /\
  live (bn_nodes y) LSlab b /\ live_node (bn_node y) (bn_ptr y) b.
Lemma rel_node_keeps m x y b b' : keeps b b' -> rel_node m x y b -> rel_node m x y b'.
Proof. intros Hk (? & ? & ? & ?). split_and!; try done; [by eapply live_keeps|by eapply live_node_keeps]. Qed.
Definition rel_onode m (x : option (Node K V)) (y : option bnode) (b : borrows) : Prop :=
  match x, y with Some x, Some y => rel_node m x y b | None, None => True | _, _ => False end.

Lemma shr_opt_node m h p b0 : live h LSlab b0 -> shr b0 (rel_onode m) (opt_node m p) (b_opt_node m h p).
Proof.
  intros Hh. destruct p as [p|]; cbn [opt_node b_opt_node]; [|by apply shr_ret].
  eapply (shr_bind _ (rel_node m)).
  - unfold node_new, b_node_new. eapply shr_bind; [by apply shr_get|]. intros x n b1 Hx Hk1 Hn. apply shr_ret.
    intros b Hk. split_and!; cbn [bn_ptr bn_nodes bn_node nd_ptr nd_inner]; try done.
    + eapply live_keeps; [|done]. by eapply keeps_trans.
    + by eapply live_node_keeps.
  - intros x y b1 _ Hk1 H. apply shr_ret. intros b Hk. by eapply rel_node_keeps.
Qed.
Lemma shr_node_left m x y b0 : rel_node m x y b0 -> shr b0 (rel_onode m) (node_left m x) (b_node_left m y).
Proof.
  intros (Hp & Hx & Hs & Hn). unfold b_node_left, node_left.
  eapply (shr_r _ (fun c _ => c = n_left (nd_inner x))).
  { intros b Hok Hk. rewrite <- Hp in Hx. destruct (shr_left m (bn_node y) (bn_ptr y) (nd_inner x) b Hok) as (b' & ? & ? & ?); [by eapply live_node_keeps|done|].
    eauto 10. }
  intros c b1 Hk ->. apply shr_opt_node. by eapply live_keeps.
Qed.
Lemma shr_node_right m x y b0 : rel_node m x y b0 -> shr b0 (rel_onode m) (node_right m x) (b_node_right m y).
Proof.
  intros (Hp & Hx & Hs & Hn). unfold b_node_right, node_right.
  eapply (shr_r _ (fun c _ => c = n_right (nd_inner x))).
  { intros b Hok Hk. rewrite <- Hp in Hx. destruct (shr_right m (bn_node y) (bn_ptr y) (nd_inner x) b Hok) as (b' & ? & ? & ?); [by eapply live_node_keeps|done|].
    eauto 10. }
  intros c b1 Hk ->. apply shr_opt_node. by eapply live_keeps.
Qed.
Lemma shr_field f m x y b0 : rel_node m x y b0 -> forall b, ok b -> keeps b0 b ->
  exists t b', b_node_field f y b = (Ret t, b') /\ ok b' /\ keeps b b' /\ live t (LNode (bn_ptr y) f) b'.
Proof.
  intros (Hp & Hx & Hs & Hn) b Hok Hk. unfold b_node_field.
  destruct (shr_retag (bn_node y) [LNode (bn_ptr y) f] b Hok (NoDup_singleton _)) as (n & b' & ? & ? & ? & Hl).
  - intros l ->%elem_of_list_singleton. eapply live_keeps; [done|apply Hn].
  - exists n, b'. split_and!; try done. apply Hl. by apply elem_of_list_singleton.
Qed.
Lemma shr_slab t b0 : live t LSlab b0 -> forall b, ok b -> keeps b0 b ->
  exists n b', retag_shr t [LSlab] b = (Ret n, b') /\ ok b' /\ keeps b b' /\ live n LSlab b'.
Proof.
  intros Ht b Hok Hk. destruct (shr_retag t [LSlab] b Hok (NoDup_singleton _)) as (n & b' & ? & ? & ? & Hl).
  - intros l ->%elem_of_list_singleton. by eapply live_keeps.
  - exists n, b'. split_and!; try done. apply Hl. left.
Qed.
Lemma shr_root m b0 : shr b0 (rel_onode m) (map_root m) (b_root m).
Proof.
  unfold b_root, map_root. eapply (shr_r _ (fun t b => live t LSlab b)).
  { intros b Hok Hk. apply (shr_slab base b); [by apply live_base|done|done]. }
  intros self b1 Hk1 Hs. eapply (shr_r _ (fun t b => live t LSlab b)); [by apply shr_slab|].
  intros nodes b2 Hk2 Hn. by apply shr_opt_node.
Qed.

(** Searches *)
Definition rel_hit {A} m (x : option (Ptr * A)) (y : option bnode) (b : borrows) : Prop :=
  match x, y with
  | Some (p, _), Some n => exists nd, nd_ptr nd = p /\ rel_node m nd n b
  | None, None => True
  | _, _ => False
  end.
Lemma shr_contains_loop m o : forall fuel i x y b0, rel_onode m x y b0 ->
  shr b0 (fun _ _ _ => True) (contains_loop m o fuel i x) (b_find_loop m o fuel i y).
Proof.
  induction fuel as [|fuel IH]; intros i x y b0 Hrel; cbn [contains_loop b_find_loop]; [intros b Hok Hk; by exists b|].
  destruct x as [x|], y as [y|]; try done; [|by apply shr_ret]. cbn [rel_onode] in Hrel.
  eapply (shr_r _ (fun t b => live t (LNode (bn_ptr y) FKey) b)); [by apply (shr_field FKey m x y b0)|].
  intros k b1 Hk1 Hl. apply (rel_node_keeps _ _ _ _ _ Hk1) in Hrel.
  eapply (shr_r _ (fun _ _ => True)).
  { intros b Hok Hk. destruct (shr_access k (LNode (bn_ptr y) FKey) b Hok) as (b' & ? & ? & ?); [by eapply live_keeps|]. eauto 10. }
  intros _ b2 Hk2 _. apply (rel_node_keeps _ _ _ _ _ Hk2) in Hrel.
  eapply (shr_r _ (fun z _ => z = nd_inner x)).
  { intros b Hok Hk. exists (nd_inner x), b. destruct Hrel as (Hp & Hx & _). unfold slift. rewrite Hp, Hx. done. }
  intros z b3 Hk3 ->. apply (rel_node_keeps _ _ _ _ _ Hk3) in Hrel.
  eapply shr_bind; [apply shr_lift|]. intros c ? b4 _ Hk4 <-. apply (rel_node_keeps _ _ _ _ _ Hk4) in Hrel.
  destruct c.
  - apply shr_ret. intros b Hk. apply (rel_node_keeps _ _ _ _ _ Hk) in Hrel. done.
  - eapply shr_bind; [by apply shr_node_left|]. intros c d b5 _ Hk5 Hc. by apply IH.
  - eapply shr_bind; [by apply shr_node_right|]. intros c d b5 _ Hk5 Hc. by apply IH.
Qed.
Lemma shr_get_loop m o : forall fuel i x y b0, rel_onode m x y b0 ->
  shr b0 (rel_hit m) (get_loop m o fuel i x) (b_find_loop m o fuel i y).
Proof.
  induction fuel as [|fuel IH]; intros i x y b0 Hrel; cbn [get_loop b_find_loop]; [intros b Hok Hk; by exists b|].
  destruct x as [x|], y as [y|]; try done; [|by apply shr_ret]. cbn [rel_onode] in Hrel.
  eapply (shr_r _ (fun t b => live t (LNode (bn_ptr y) FKey) b)); [by apply (shr_field FKey m x y b0)|].
  intros k b1 Hk1 Hl. apply (rel_node_keeps _ _ _ _ _ Hk1) in Hrel.
  eapply (shr_r _ (fun _ _ => True)).
  { intros b Hok Hk. destruct (shr_access k (LNode (bn_ptr y) FKey) b Hok) as (b' & ? & ? & ?); [by eapply live_keeps|]. eauto 10. }
  intros _ b2 Hk2 _. apply (rel_node_keeps _ _ _ _ _ Hk2) in Hrel.
  eapply (shr_r _ (fun z _ => z = nd_inner x)).
  { intros b Hok Hk. exists (nd_inner x), b. destruct Hrel as (Hp & Hx & _). unfold slift. rewrite Hp, Hx. done. }
  intros z b3 Hk3 ->. apply (rel_node_keeps _ _ _ _ _ Hk3) in Hrel.
  eapply shr_bind; [apply shr_lift|]. intros c ? b4 _ Hk4 <-. apply (rel_node_keeps _ _ _ _ _ Hk4) in Hrel.
  destruct c.
  - apply shr_ret. intros b Hk. apply (rel_node_keeps _ _ _ _ _ Hk) in Hrel. exists x. done.
  - eapply shr_bind; [by apply shr_node_left|]. intros c d b5 _ Hk5 Hc. by apply IH.
  - eapply shr_bind; [by apply shr_node_right|]. intros c d b5 _ Hk5 Hc. by apply IH.
Qed.
Lemma shr_get_entry_loop m o : forall fuel i x y b0, rel_onode m x y b0 ->
  shr b0 (rel_hit m) (get_entry_loop m o fuel i x) (b_find_loop m o fuel i y).
Proof.
  induction fuel as [|fuel IH]; intros i x y b0 Hrel; cbn [get_entry_loop b_find_loop]; [intros b Hok Hk; by exists b|].
  destruct x as [x|], y as [y|]; try done; [|by apply shr_ret]. cbn [rel_onode] in Hrel.
  eapply (shr_r _ (fun t b => live t (LNode (bn_ptr y) FKey) b)); [by apply (shr_field FKey m x y b0)|].
  intros k b1 Hk1 Hl. apply (rel_node_keeps _ _ _ _ _ Hk1) in Hrel.
  eapply (shr_r _ (fun _ _ => True)).
  { intros b Hok Hk. destruct (shr_access k (LNode (bn_ptr y) FKey) b Hok) as (b' & ? & ? & ?); [by eapply live_keeps|]. eauto 10. }
  intros _ b2 Hk2 _. apply (rel_node_keeps _ _ _ _ _ Hk2) in Hrel.
  eapply (shr_r _ (fun z _ => z = nd_inner x)).
  { intros b Hok Hk. exists (nd_inner x), b. destruct Hrel as (Hp & Hx & _). unfold slift. rewrite Hp, Hx. done. }
  intros z b3 Hk3 ->. apply (rel_node_keeps _ _ _ _ _ Hk3) in Hrel.
  eapply shr_bind; [apply shr_lift|]. intros c ? b4 _ Hk4 <-. apply (rel_node_keeps _ _ _ _ _ Hk4) in Hrel.
  destruct c.
  - apply shr_ret. intros b Hk. apply (rel_node_keeps _ _ _ _ _ Hk) in Hrel. exists x. done.
  - eapply shr_bind; [by apply shr_node_left|]. intros c d b5 _ Hk5 Hc. by apply IH.
  - eapply shr_bind; [by apply shr_node_right|]. intros c d b5 _ Hk5 Hc. by apply IH.
Qed.

Lemma shr_contains m o b0 : shr b0 (fun _ _ _ => True) (map_contains_key m o) (b_find m o).
Proof. eapply shr_bind; [apply shr_root|]. intros x y b1 _ _ H. by apply shr_contains_loop. Qed.
Lemma shr_get_ref m o b0 : shr b0 (rel_hit m) (map_get_ref m o) (b_find m o).
Proof. eapply shr_bind; [apply shr_root|]. intros x y b1 _ _ H. by apply shr_get_loop. Qed.
Lemma shr_get_entry_ref m o b0 : shr b0 (rel_hit m) (map_get_entry_ref m o) (b_find m o).
Proof. eapply shr_bind; [apply shr_root|]. intros x y b1 _ _ H. by apply shr_get_entry_loop. Qed.

(** Iterators *)
Definition ioutcome {A B} (R : A -> B -> borrows -> Prop) (x : res A) (st : list Ptr) (o : res B * biter) (b' : borrows) : Prop :=
  match x with
  | Ret x => exists y, o = (Ret y, (st, b')) /\ R x y b'
  | Panic p => o = (Panic p, (st, b'))
  | Abort => o = (Abort, (st, b'))
  | UB u => o = (UB u, (st, b'))
  | Diverge => o = (Diverge, (st, b'))
  end.
Definition shi {A B} (b0 : borrows) (R : A -> B -> borrows -> Prop) (f : M iter A) (g : M biter B) : Prop :=
  forall it b, ok b -> keeps b0 b -> exists b', ok b' /\ keeps b b' /\ ioutcome R (f it).1 (it_stack (f it).2) (g (it_stack it, b)) b'.

Lemma shi_bind {A A' B B'} b0 R Q (f : M iter A) (f' : A -> M iter A') (g : M biter B) (g' : B -> M biter B') :
  shi b0 R f g -> (forall a y b1, keeps b0 b1 -> R a y b1 -> shi b1 Q (f' a) (g' y)) -> shi b0 Q (sbind f f') (sbind g g').
Proof.
  intros H H' it b Hok Hk. destruct (H it b Hok Hk) as (b1 & Hok1 & Hk1 & H1). unfold sbind.
  destruct (f it) as [[a| | | |] it1]; cbn [fst snd ioutcome] in *; [|exists b1; rewrite H1; done..].
  destruct H1 as (y & -> & HR). destruct (H' a y b1) with (it := it1) (b := b1) as (b2 & Hok2 & Hk2 & H2); try done.
  { by eapply keeps_trans. }
  exists b2. split_and!; try done. by eapply keeps_trans.
Qed.
Lemma shi_r {A B B'} b0 (Q : B -> borrows -> Prop) R (f : M iter A) (g : M borrows B) (g' : B -> M biter B') :
  (forall b, ok b -> keeps b0 b -> exists y b', g b = (Ret y, b') /\ ok b' /\ keeps b b' /\ Q y b') ->
  (forall y b1, keeps b0 b1 -> Q y b1 -> shi b1 R f (g' y)) -> shi b0 R f (sbind (on_b g) g').
Proof.
  intros H H' it b Hok Hk. destruct (H b Hok Hk) as (y & b1 & E & Hok1 & Hk1 & HQ). unfold sbind, on_b, zoom. cbn [fst snd]. rewrite E.
  destruct (H' y b1) with (it := it) (b := b1) as (b2 & Hok2 & Hk2 & H2); try done. { by eapply keeps_trans. }
  exists b2. split_and!; try done. by eapply keeps_trans.
Qed.
Lemma shi_ret {A B} b0 (R : A -> B -> borrows -> Prop) x y : (forall b, keeps b0 b -> R x y b) -> shi b0 R (sret x) (sret y).
Proof. intros H it b Hok Hk. exists b. split_and!; try done. cbn. eauto. Qed.
Definition eqb_ {A} (x y : A) (b : borrows) : Prop := x = y.
Lemma shi_pop b0 : shi b0 eqb_ it_pop bi_pop.
Proof. intros [[|p st] rs] b Hok Hk; exists b; split_and!; try done; cbn; eexists; done. Qed.
Lemma shi_push b0 p : shi b0 (fun _ _ _ => True) (it_push p) (bi_push p).
Proof. intros it b Hok Hk; exists b; split_and!; try done. cbn. by exists tt. Qed.
Lemma shi_extend b0 p : shi b0 (fun _ _ _ => True) (it_extend p) (bi_extend p).
Proof. intros it b Hok Hk; exists b; split_and!; try done. cbn. by exists tt. Qed.
Lemma shi_top_is b0 p : shi b0 eqb_ (top_is p) (bi_top_is p).
Proof. intros it b Hok Hk; exists b; split_and!; try done. cbn. eexists. done. Qed.
Lemma shi_diverge {A B} b0 (R : A -> B -> borrows -> Prop) : shi b0 R (slift Diverge) (slift Diverge).
Proof. intros it b Hok Hk; by exists b. Qed.
Lemma shi_read m h p b0 : live h LSlab b0 ->
  shi b0 (fun x n b => slab_get (m_nodes m) p = Ret x /\ live_node n p b) (it_read m p) (on_b (b_get false m h p)).
Proof.
  intros Hh it b Hok Hk. destruct (shr_get m h p b0 Hh b Hok Hk) as (b' & Hok' & Hk' & H). exists b'. split_and!; try done.
  unfold it_read, on_b, zoom. cbn [fst snd it_stack]. destruct (slab_get (m_nodes m) p); cbn [ioutcome outcome] in *; [|rewrite H; done..].
  destruct H as (y & -> & ?). by exists y.
Qed.
Lemma shi_right {A B} m n p x b0 R (f : M iter A) (g' : option Ptr -> M biter B) : live_node n p b0 -> slab_get (m_nodes m) p = Ret x ->
  (forall b1, keeps b0 b1 -> shi b1 R f (g' (n_right x))) -> shi b0 R f (let! c := on_b (b_right m n p) in g' c).
Proof.
  intros Hn Hx H. eapply (shi_r _ (fun c _ => c = n_right x)); [|intros c b1 Hk ->; by apply H].
  intros b Hok Hk. destruct (shr_right m n p x b Hok) as (b' & ? & ? & ?); [by eapply live_node_keeps|done|]. eauto 10.
Qed.
Lemma shi_left {A B} m n p x b0 R (f : M iter A) (g' : option Ptr -> M biter B) : live_node n p b0 -> slab_get (m_nodes m) p = Ret x ->
  (forall b1, keeps b0 b1 -> shi b1 R f (g' (n_left x))) -> shi b0 R f (let! c := on_b (b_left m n p) in g' c).
Proof.
  intros Hn Hx H. eapply (shi_r _ (fun c _ => c = n_left x)); [|intros c b1 Hk ->; by apply H].
  intros b Hok Hk. destruct (shr_left m n p x b Hok) as (b' & ? & ? & ?); [by eapply live_node_keeps|done|]. eauto 10.
Qed.
Definition live_refs (y : refs) (b : borrows) : Prop :=
  live (rf_key y) (LNode (rf_node y) FKey) b /\ live (rf_value y) (LNode (rf_node y) FValue) b.
Lemma live_refs_keeps y b b' : keeps b b' -> live_refs y b -> live_refs y b'.
Proof. intros Hk [? ?]. split; by eapply live_keeps. Qed.
Definition rel_item (x : option (item K V)) (y : option refs) (b : borrows) : Prop :=
  match x, y with
  | Some (p, _), Some y => rf_node y = p /\ live_refs y b
  | None, None => True
  | _, _ => False
  end.
Lemma shi_entry n p b0 (x : inner K V) : live_node n p b0 ->
  shi b0 rel_item (sret (Some (item_of p x))) (let! y := on_b (b_entry false n p) in sret (Some y)).
Proof.
  intros Hn. eapply (shi_r _ (fun y b => rf_node y = p /\ live_refs y b)).
  - intros b Hok Hk. unfold b_entry, sbind.
    destruct (shr_retag n [LNode p FKey] b Hok (NoDup_singleton _)) as (k & b1 & -> & Hok1 & Hk1 & Hl1).
    { intros l ->%elem_of_list_singleton. eapply live_keeps; [done|apply Hn]. }
    unfold retag. destruct (shr_retag n [LNode p FValue] b1 Hok1 (NoDup_singleton _)) as (v & b2 & -> & Hok2 & Hk2 & Hl2).
    { intros l ->%elem_of_list_singleton. eapply live_keeps; [|apply Hn]. by eapply keeps_trans. }
    eexists _, b2. split_and!; [done|done|by eapply keeps_trans|done|]. split; cbn.
    + eapply live_keeps; [done|]. apply Hl1. left.
    + apply Hl2. left.
  - intros y b1 Hk [Hy Hl]. apply shi_ret. intros b Hk'. cbn. split; [done|]. by eapply live_refs_keeps.
Qed.

Lemma shi_preorder m h b0 : live h LSlab b0 -> shi b0 rel_item (preorder_next m) (b_preorder_shr_next m h).
Proof.
  intros Hh. unfold preorder_next, b_preorder_shr_next. eapply shi_bind; [apply shi_pop|]. intros [p|] ? b1 Hk1 <-; [|by apply shi_ret].
  eapply shi_bind; [apply shi_read; by eapply live_keeps|]. intros x n b2 Hk2 [Hx Hn].
  eapply shi_right; [done..|]. intros b3 Hk3. apply (live_node_keeps _ _ _ _ Hk3) in Hn.
  eapply shi_bind; [apply shi_extend|]. intros _ _ b4 Hk4 _. apply (live_node_keeps _ _ _ _ Hk4) in Hn.
  eapply shi_left; [done..|]. intros b5 Hk5. apply (live_node_keeps _ _ _ _ Hk5) in Hn.
  eapply shi_bind; [apply shi_extend|]. intros _ _ b6 Hk6 _. apply (live_node_keeps _ _ _ _ Hk6) in Hn.
  by apply shi_entry.
Qed.
Lemma shi_inorder_descend m h : forall fuel cur b0, live h LSlab b0 ->
  shi b0 (fun _ _ _ => True) (inorder_descend m fuel cur) (b_inorder_descend m h fuel cur).
Proof.
  induction fuel as [|fuel IH]; intros cur b0 Hh; cbn [inorder_descend b_inorder_descend]; [apply shi_diverge|].
  destruct cur as [p|]; [|by apply shi_ret].
  eapply shi_bind; [apply shi_push|]. intros _ _ b1 Hk1 _. apply (live_keeps _ _ _ _ Hk1) in Hh.
  eapply shi_bind; [by apply shi_read|]. intros x n b2 Hk2 [Hx Hn]. apply (live_keeps _ _ _ _ Hk2) in Hh.
  eapply shi_left; [done..|]. intros b3 Hk3. apply (live_keeps _ _ _ _ Hk3) in Hh. by apply IH.
Qed.
Lemma shi_inorder m h b0 : live h LSlab b0 -> shi b0 rel_item (inorder_next m) (b_inorder_shr_next m h).
Proof.
  intros Hh. unfold inorder_next, b_inorder_shr_next. eapply shi_bind; [apply shi_pop|]. intros [p|] ? b1 Hk1 <-; [|by apply shi_ret].
  apply (live_keeps _ _ _ _ Hk1) in Hh.
  eapply shi_bind; [by apply shi_read|]. intros x n b2 Hk2 [Hx Hn]. apply (live_keeps _ _ _ _ Hk2) in Hh.
  eapply shi_right; [done..|]. intros b3 Hk3. apply (live_node_keeps _ _ _ _ Hk3) in Hn. apply (live_keeps _ _ _ _ Hk3) in Hh.
  eapply shi_bind; [by apply shi_inorder_descend|]. intros _ _ b4 Hk4 _. apply (live_node_keeps _ _ _ _ Hk4) in Hn.
  by apply shi_entry.
Qed.
Lemma shi_postorder_descend m h : forall fuel cur b0, live h LSlab b0 ->
  shi b0 (fun _ _ _ => True) (postorder_descend m fuel cur) (b_postorder_descend m h fuel cur).
Proof.
  induction fuel as [|fuel IH]; intros cur b0 Hh; cbn [postorder_descend b_postorder_descend]; [apply shi_diverge|].
  destruct cur as [p|]; [|by apply shi_ret].
  eapply shi_bind; [by apply shi_read|]. intros x n b2 Hk2 [Hx Hn]. apply (live_keeps _ _ _ _ Hk2) in Hh.
  eapply shi_right; [done..|]. intros b3 Hk3. apply (live_node_keeps _ _ _ _ Hk3) in Hn. apply (live_keeps _ _ _ _ Hk3) in Hh.
  eapply shi_bind; [apply shi_extend|]. intros _ _ b4 Hk4 _. apply (live_node_keeps _ _ _ _ Hk4) in Hn. apply (live_keeps _ _ _ _ Hk4) in Hh.
  eapply shi_bind; [apply shi_push|]. intros _ _ b5 Hk5 _. apply (live_node_keeps _ _ _ _ Hk5) in Hn. apply (live_keeps _ _ _ _ Hk5) in Hh.
  eapply shi_left; [done..|]. intros b6 Hk6. apply (live_keeps _ _ _ _ Hk6) in Hh. by apply IH.
Qed.
Lemma shi_postorder_inner m h : forall fuel p x n b0, live h LSlab b0 -> slab_get (m_nodes m) p = Ret x -> live_node n p b0 ->
  shi b0 (fun _ _ _ => True) (postorder_inner m fuel p x) (b_postorder_inner m h fuel p n).
Proof.
  induction fuel as [|fuel IH]; intros p x n b0 Hh Hx Hn; cbn [postorder_inner b_postorder_inner]; [apply shi_diverge|].
  eapply shi_right; [done..|]. intros b3 Hk3. apply (live_node_keeps _ _ _ _ Hk3) in Hn. apply (live_keeps _ _ _ _ Hk3) in Hh.
  eapply shi_bind; [apply shi_extend|]. intros _ _ b4 Hk4 _. apply (live_node_keeps _ _ _ _ Hk4) in Hn. apply (live_keeps _ _ _ _ Hk4) in Hh.
  eapply shi_bind; [apply shi_push|]. intros _ _ b5 Hk5 _. apply (live_node_keeps _ _ _ _ Hk5) in Hn. apply (live_keeps _ _ _ _ Hk5) in Hh.
  eapply shi_left; [done..|]. intros b6 Hk6. apply (live_keeps _ _ _ _ Hk6) in Hh.
  destruct (n_left x) as [q|]; [|by apply shi_ret].
  eapply shi_bind; [by apply shi_read|]. intros x' n' b2 Hk2 [Hx' Hn']. apply (live_keeps _ _ _ _ Hk2) in Hh. by apply IH.
Qed.
Lemma shi_postorder m h : forall fuel b0, live h LSlab b0 -> shi b0 rel_item (postorder_next_loop m fuel) (b_postorder_shr_loop m h fuel).
Proof.
  induction fuel as [|fuel IH]; intros b0 Hh; cbn [postorder_next_loop b_postorder_shr_loop]; [apply shi_diverge|].
  eapply shi_bind; [apply shi_pop|]. intros [p|] ? b1 Hk1 <-; [|by apply shi_ret]. apply (live_keeps _ _ _ _ Hk1) in Hh.
  eapply shi_bind; [by apply shi_read|]. intros x n b2 Hk2 [Hx Hn]. apply (live_keeps _ _ _ _ Hk2) in Hh.
  eapply shi_right; [done..|]. intros b3 Hk3. apply (live_node_keeps _ _ _ _ Hk3) in Hn. apply (live_keeps _ _ _ _ Hk3) in Hh.
  eapply (shi_bind _ eqb_).
  { destruct (n_right x); [apply shi_top_is|by apply shi_ret]. }
  intros c ? b4 Hk4 <-. apply (live_node_keeps _ _ _ _ Hk4) in Hn. apply (live_keeps _ _ _ _ Hk4) in Hh.
  destruct (n_right x) as [r|]; [|by apply shi_entry]. destruct c; [|by apply shi_entry].
  eapply shi_bind; [apply shi_pop|]. intros _ _ b5 Hk5 _. apply (live_keeps _ _ _ _ Hk5) in Hh.
  eapply shi_bind; [apply shi_push|]. intros _ _ b6 Hk6 _. apply (live_keeps _ _ _ _ Hk6) in Hh.
  eapply shi_bind; [by apply shi_read|]. intros x' n' b7 Hk7 [Hx' Hn']. apply (live_keeps _ _ _ _ Hk7) in Hh.
  eapply shi_bind; [by apply shi_postorder_inner|]. intros _ _ b8 Hk8 _. apply (live_keeps _ _ _ _ Hk8) in Hh. by apply IH.
Qed.
Lemma shi_next m d h b0 : live h LSlab b0 -> shi b0 rel_item (iter_next m d) (b_iter_shr_next m d h).
Proof. intros Hh. destruct d; [by apply shi_preorder|by apply shi_inorder|by apply shi_postorder]. Qed.

Lemma shi_start m d b0 : forall b, ok b -> keeps b0 b -> exists b', ok b' /\ keeps b b' /\
  match iter_start m d with
  | Ret it => exists t, b_iter_shr_start m d ([], b) = (Ret t, (it_stack it, b')) /\ live t LSlab b'
  | Panic p => exists st, b_iter_shr_start m d ([], b) = (Panic p, (st, b'))
  | Abort => exists st, b_iter_shr_start m d ([], b) = (Abort, (st, b'))
  | UB u => exists st, b_iter_shr_start m d ([], b) = (UB u, (st, b'))
  | Diverge => exists st, b_iter_shr_start m d ([], b) = (Diverge, (st, b'))
  end.
Proof.
  intros b Hok Hk.
  destruct (shr_slab base b (live_base _ _ Hok) b Hok (keeps_refl _)) as (self & b1 & E1 & Hok1 & Hk1 & Hs1).
  destruct (shr_slab self b1 Hs1 b1 Hok1 (keeps_refl _)) as (nodes & b2 & E2 & Hok2 & Hk2 & Hs2).
  pose proof (keeps_trans _ _ _ Hk1 Hk2) as Hk3.
  assert (E : b_iter_shr_start m d ([], b) =
    (let! _ := match d with
      | Pre => bi_extend (m_root m)
      | In => b_inorder_descend m nodes (map_fuel m) (m_root m)
      | Post => b_postorder_descend m nodes (map_fuel m) (m_root m)
      end in sret nodes) ([], b2)).
  { unfold b_iter_shr_start, sbind at 1, on_b at 1, zoom. cbn [fst snd]. rewrite E1.
    unfold sbind at 1, on_b at 1, zoom. cbn [fst snd]. by rewrite E2. }
  rewrite E. clear E E1 E2. unfold sbind. destruct d.
  - exists b2. split_and!; try done. cbn. exists nodes. split; [|done]. by destruct (m_root m).
  - destruct (shi_inorder_descend m nodes (map_fuel m) (m_root m) b2 Hs2 (mkIter [] []) b2 Hok2 (keeps_refl _)) as (b3 & Hok3 & Hk4 & H).
    exists b3. split_and!; [done|by eapply keeps_trans|]. unfold iter_start, inorder_new. cbn [it_stack] in H.
    destruct (inorder_descend m (map_fuel m) (m_root m) (mkIter [] [])) as [[x| | | |] it]; cbn [fst snd ioutcome rmap] in *; [|rewrite H; cbn; eauto..].
    destruct H as (y & -> & _). cbn. exists nodes. split; [done|]. by eapply live_keeps.
  - destruct (shi_postorder_descend m nodes (map_fuel m) (m_root m) b2 Hs2 (mkIter [] []) b2 Hok2 (keeps_refl _)) as (b3 & Hok3 & Hk4 & H).
    exists b3. split_and!; [done|by eapply keeps_trans|]. unfold iter_start, postorder_new. cbn [it_stack] in H.
    destruct (postorder_descend m (map_fuel m) (m_root m) (mkIter [] [])) as [[x| | | |] it]; cbn [fst snd ioutcome rmap] in *; [|rewrite H; cbn; eauto..].
    destruct H as (y & -> & _). cbn. exists nodes. split; [done|]. by eapply live_keeps.
Qed.

(** ** Programs that read *)
Definition rel_iter (x : order * iter) (y : order * nat * list Ptr) (b : borrows) : Prop :=
  y.1.1 = x.1 /\ y.2 = it_stack x.2 /\ live y.1.2 LSlab b.
Definition rel_ref (x : Ptr * field) (y : nat * loc) (b : borrows) : Prop :=
  y.2 = LNode x.1 x.2 /\ live y.1 y.2 b.
Definition rel_v m (x : v_state K V) (y : bv_state) (b : borrows) : Prop :=
  Forall2 (fun x y => rel_node m x y b) (v_nodes x) (bv_nodes y) /\
  Forall2 (fun x y => rel_iter x y b) (v_iters x) (bv_iters y) /\
  Forall2 (fun x y => rel_ref x y b) (v_refs x) (bv_refs y).
Lemma rel_v_keeps m x y b b' : keeps b b' -> rel_v m x y b -> rel_v m x y b'.
Proof.
  intros Hk (H1 & H2 & H3). split_and!; eapply Forall2_impl; try done; cbv beta.
  - intros. by eapply rel_node_keeps.
  - intros ?? (? & ? & ?). split_and!; try done. by eapply live_keeps.
  - intros ?? (? & ?). split; try done. by eapply live_keeps.
Qed.
Lemma rel_v_nodes m x y b l l' : rel_v m x y b -> Forall2 (fun x y => rel_node m x y b) l l' ->
  rel_v m (mkV (v_nodes x ++ l) (v_iters x) (v_refs x)) (mkBV (bv_nodes y ++ l') (bv_iters y) (bv_refs y)) b.
Proof. intros (H1 & H2 & H3) Hl. split_and!; try done. by apply Forall2_app. Qed.
Lemma rel_v_refs m x y b l l' : rel_v m x y b -> Forall2 (fun x y => rel_ref x y b) l l' ->
  rel_v m (mkV (v_nodes x) (v_iters x) (v_refs x ++ l)) (mkBV (bv_nodes y) (bv_iters y) (bv_refs y ++ l')) b.
Proof. intros (H1 & H2 & H3) Hl. split_and!; try done. by apply Forall2_app. Qed.
Lemma rmap_bind {A B} (f : A -> B) (x : res A) : rmap f x = let* a := x in Ret (f a).
Proof. by destruct x. Qed.
Lemma Forall2_lookup_none {A B} (R : A -> B -> Prop) l l' i : Forall2 R l l' -> l !! i = None <-> l' !! i = None.
Proof. intros H. rewrite !lookup_ge_None. by rewrite (Forall2_length _ _ _ H). Qed.
Lemma shr_add_node m x y b0 r g : rel_v m x y b0 -> shr b0 (rel_onode m) r g ->
  shr b0 (rel_v m) (rmap (fun n => mkV (v_nodes x ++ opt_list n) (v_iters x) (v_refs x)) r)
    (let! n := g in sret (mkBV (bv_nodes y ++ opt_list n) (bv_iters y) (bv_refs y))).
Proof.
  intros Hv H. apply (shr_rmap b0 (rel_v m)). 
  assert (Hb : shr b0 (fun a z b => rel_v m (mkV (v_nodes x ++ opt_list a) (v_iters x) (v_refs x)) z b) (let* a := r in Ret a)
     (let! n := g in sret (mkBV (bv_nodes y ++ opt_list n) (bv_iters y) (bv_refs y)))).
  { eapply shr_bind; [exact H|]. intros a n b1 _ Hk1 Hn. apply shr_ret. intros b Hk. apply rel_v_nodes.
    - eapply rel_v_keeps; [|done]. by eapply keeps_trans.
    - destruct a, n; try done; cbn; constructor; [by eapply rel_node_keeps|constructor]. }
  by destruct r.
Qed.
Lemma shr_add_field f m x y b0 nd n : rel_v m x y b0 -> rel_node m nd n b0 ->
  shr b0 (rel_v m) (Ret (mkV (v_nodes x) (v_iters x) (v_refs x ++ [(nd_ptr nd, f)])))
    (let! t := b_node_field f n in sret (mkBV (bv_nodes y) (bv_iters y) (bv_refs y ++ [(t, LNode (bn_ptr n) f)]))).
Proof.
  intros Hv Hn. eapply shr_r; [by eapply shr_field|]. cbv beta. intros t b1 Hk1 Ht. apply shr_ret. intros b Hk.
  apply rel_v_refs; [eapply rel_v_keeps; [|done]; by eapply keeps_trans|]. constructor; [|constructor].
  destruct Hn as (Hp & _). split; cbn; [by rewrite Hp|]. by eapply live_keeps.
Qed.

Lemma bv_step_spec m ev x y b0 : rel_v m x y b0 -> shr b0 (rel_v m) (v_step m ev x) (bv_step m ev y).
Proof.
  intros Hv. pose proof Hv as (H1 & H2 & H3). assert (Hnone : shr b0 (rel_v m) (Ret x) (sret y)).
  { apply shr_ret. intros b Hk. by eapply rel_v_keeps. }
  destruct ev; cbn [v_step bv_step].
  - apply shr_add_node; [done|]. apply shr_root.
  - destruct (v_nodes x !! j) as [nd|] eqn:E.
    + destruct (Forall2_lookup_l _ _ _ _ _ H1 E) as (n & -> & Hn). apply shr_add_node; [done|]. by apply shr_node_left.
    + rewrite (proj1 (Forall2_lookup_none _ _ _ j H1) E). done.
  - destruct (v_nodes x !! j) as [nd|] eqn:E.
    + destruct (Forall2_lookup_l _ _ _ _ _ H1 E) as (n & -> & Hn). apply shr_add_node; [done|]. by apply shr_node_right.
    + rewrite (proj1 (Forall2_lookup_none _ _ _ j H1) E). done.
  - destruct (v_nodes x !! j) as [nd|] eqn:E.
    + destruct (Forall2_lookup_l _ _ _ _ _ H1 E) as (n & -> & Hn). by apply shr_add_field.
    + rewrite (proj1 (Forall2_lookup_none _ _ _ j H1) E). done.
  - destruct (v_nodes x !! j) as [nd|] eqn:E.
    + destruct (Forall2_lookup_l _ _ _ _ _ H1 E) as (n & -> & Hn). by apply shr_add_field.
    + rewrite (proj1 (Forall2_lookup_none _ _ _ j H1) E). done.
  - rewrite rmap_bind. eapply shr_bind; [apply shr_contains|]. intros _ _ b1 _ Hk1 _. apply shr_ret. intros b Hk.
    eapply rel_v_keeps; [|done]. by eapply keeps_trans.
  - rewrite rmap_bind. eapply shr_bind; [apply shr_get_ref|]. intros a n b1 _ Hk1 Hn. apply (rel_v_keeps _ _ _ _ _ Hk1) in Hv.
    destruct a as [[p a]|], n as [n|]; try done.
    + destruct Hn as (nd & <- & Hn). by apply shr_add_field.
    + apply shr_ret. intros b Hk. by eapply rel_v_keeps.
  - rewrite rmap_bind. eapply shr_bind; [apply shr_get_entry_ref|]. intros a n b1 _ Hk1 Hn. apply (rel_v_keeps _ _ _ _ _ Hk1) in Hv.
    destruct a as [[p a]|], n as [n|]; try done.
    + destruct Hn as (nd & <- & Hn). eapply shr_r; [by eapply shr_field|]. cbv beta. intros k b2 Hk2 Hl2.
      apply (rel_node_keeps _ _ _ _ _ Hk2) in Hn. apply (rel_v_keeps _ _ _ _ _ Hk2) in Hv.
      eapply shr_r; [by eapply shr_field|]. cbv beta. intros v b3 Hk3 Hl3. apply shr_ret. intros b Hk.
      destruct Hn as (Hp & _). apply rel_v_refs; [eapply rel_v_keeps; [|done]; by eapply keeps_trans|]. rewrite <- Hp.
      constructor; [split; cbn; [done|]|constructor; [split; cbn; [done|]|constructor]].
      * eapply live_keeps; [|exact Hl2]. by eapply keeps_trans.
      * by eapply live_keeps.
    + apply shr_ret. intros b Hk. by eapply rel_v_keeps.
  - intros b Hok Hk. destruct (shi_start m d b b Hok (keeps_refl _)) as (b' & Hok' & Hk' & H). exists b'. split_and!; try done.
    destruct (iter_start m d) as [it| | | |]; cbn [rmap outcome]; [|destruct H as (st & ->); done..].
    destruct H as (t & -> & Ht). eexists. split; [done|].
    destruct (rel_v_keeps m x y b0 b') as (A & B & C); [by eapply keeps_trans|done|]. split_and!; try done. cbn.
    apply Forall2_app; [done|]. constructor; [|constructor]. by split_and!.
  - destruct (v_iters x !! j) as [[d it]|] eqn:E.
    + destruct (Forall2_lookup_l _ _ _ _ _ H2 E) as ([[d' t] stk] & -> & Hd & Hs & Ht). cbn in Hd, Hs, Ht. subst d' stk.
      intros b Hok Hk. destruct (shi_next m d t b (live_keeps _ _ _ _ Hk Ht) it b Hok (keeps_refl _)) as (b' & Hok' & Hk' & H).
      exists b'. split_and!; try done. destruct (iter_next m d it) as [r it'].
      destruct r as [a| | | |]; cbn [fst snd ioutcome rmap outcome] in *; [|rewrite H; done..].
      destruct H as (n & -> & Hn). eexists. split; [done|].
      assert (Hkk : keeps b0 b') by (by eapply keeps_trans).
      destruct (rel_v_keeps m x y b0 b') as (A & B & C); [done..|]. split_and!; cbn; try done.
      * apply Forall2_insert; [done|]. split_and!; cbn; try done. by eapply live_keeps.
      * apply Forall2_app; [done|]. destruct a as [[p a]|], n as [n|]; try done. destruct Hn as (<- & Hl & Hr).
        constructor; [by split|constructor; [by split|constructor]].
    + rewrite (proj1 (Forall2_lookup_none _ _ _ j H2) E). done.
  - destruct (bv_refs y !! j) as [[t l]|] eqn:E; [|done].
    destruct (Forall2_lookup_r _ _ _ _ _ H3 E) as (r & _ & Hl & Hr). cbn in Hl, Hr.
    eapply (shr_r _ (fun _ _ => True)).
    { intros b Hok Hk. destruct (shr_access t l b Hok) as (b' & ? & ? & ?); [by eapply live_keeps|]. eauto 10. }
    intros [] b1 Hk1 _. apply shr_ret. intros b Hk. eapply rel_v_keeps; [|done]. by eapply keeps_trans.
Qed.
Lemma bv_run_spec m : forall evs x y b0, rel_v m x y b0 -> shr b0 (rel_v m) (v_run m evs x) (bv_run m evs y).
Proof.
  induction evs as [|ev evs IH]; intros x y b0 Hv; cbn [v_run bv_run].
  - apply shr_ret. intros b Hk. by eapply rel_v_keeps.
  - eapply shr_bind; [by apply bv_step_spec|]. intros a z b1 _ _ H. by apply IH.
Qed.

End proofs.
End rules.
