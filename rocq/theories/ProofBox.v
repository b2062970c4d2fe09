(** * Boxes: when SimpleBSTMap and SimpleBSTSet are refused memory *)

From Verif Require Export SpecAlloc ProofSimpleSet.
Local Open Scope N_scope.

(** A program over a state with the heap [pr s]: it adds at most [w] nodes and
    [b] requests, and it aborts only if one of these requests is refused. *)
Definition frugal {K V S A} (e : benv) (pr : S -> simple K V) (w b : N) (f : M S A) : Prop := forall s,
  N.of_nat (size (s_mem (pr (f s).2))) <= N.of_nat (size (s_mem (pr s))) + w /\
  s_boxes (pr s) <= s_boxes (pr (f s).2) <= s_boxes (pr s) + b /\
  ((f s).1 = Abort -> (exists i, s_boxes (pr s) <= i < s_boxes (pr s) + b /\ b_addr e i = None) \/
     2 ^ 60 <= N.of_nat (size (s_mem (pr s))) + w).

Section boxes.
Context {K V : Type}.
Implicit Types m : simple K V.
Context (e : benv).

Section generic.
Context {S : Type} (pr : S -> simple K V).

Lemma frugal_bind {A B} w1 w2 w b1 b2 b (f : M S A) (g : A -> M S B) :
  w1 + w2 <= w -> b1 + b2 <= b -> frugal e pr w1 b1 f -> (forall x, frugal e pr w2 b2 (g x)) -> frugal e pr w b (sbind f g).
Proof.
  intros Hw Hb Hf Hg s. specialize (Hf s). unfold sbind. destruct (f s) as [r s1]. cbn [fst snd] in Hf.
  destruct Hf as (H1 & H2 & H3). destruct r as [x|p| |u|]; cbn [fst snd].
  2-5: split; [lia|]; split; [lia|]; intros Ha; try done.
  2:{ destruct (H3 eq_refl) as [(i & Hi & He)|H4]; [|right; lia]. left. exists i. split; [lia|done]. }
  destruct (Hg x s1) as (H4 & H5 & H6). split; [lia|]. split; [lia|]. intros Ha.
  destruct (H6 Ha) as [(i & Hi & He)|H7]; [|right; lia]. left. exists i. split; [lia|done].
Qed.
Lemma frugal_weaken {A} w1 w b1 b (f : M S A) : w1 <= w -> b1 <= b -> frugal e pr w1 b1 f -> frugal e pr w b f.
Proof.
  intros Hw Hb Hf s. destruct (Hf s) as (H1 & H2 & H3). split; [lia|]. split; [lia|]. intros Ha.
  destruct (H3 Ha) as [(i & Hi & He)|H7]; [|right; lia]. left. exists i. split; [lia|done].
Qed.
Lemma frugal_ret {A} (x : A) : frugal e pr 0 0 (sret x).
Proof. intros s. cbn. split; [lia|]. split; [lia|done]. Qed.
Lemma frugal_get : frugal e pr 0 0 sget.
Proof. intros s. cbn. split; [lia|]. split; [lia|done]. Qed.
Lemma frugal_fail {A} p : frugal e pr 0 0 (sfail (A := A) p).
Proof. intros s. cbn. split; [lia|]. split; [lia|done]. Qed.
Lemma frugal_lift {A} (r : res A) : r <> Abort -> frugal e pr 0 0 (slift r).
Proof. intros H s. cbn. split; [lia|]. split; [lia|done]. Qed.
Lemma frugal_mod w (f : S -> S) : (forall s, N.of_nat (size (s_mem (pr (f s)))) <= N.of_nat (size (s_mem (pr s))) + w /\
  s_boxes (pr (f s)) = s_boxes (pr s)) -> frugal e pr w 0 (smod f).
Proof. intros H s. cbn. destruct (H s) as [H1 ->]. split; [done|]. split; [lia|done]. Qed.
End generic.

(** ** The results that never abort *)
Lemma rbind_on {A B} (r : res A) (f : A -> res B) : r <> Abort -> (forall x, f x <> Abort) -> rbind r f <> Abort.
Proof. intros H1 H2. destruct r; cbn [rbind]; done. Qed.
Lemma rmap_on {A B} (f : A -> B) (r : res A) : r <> Abort -> rmap f r <> Abort.
Proof. by destruct r. Qed.
Lemma peek_on m p : peek m p <> Abort.
Proof. unfold peek. by destruct (s_mem m !! p). Qed.
Lemma ask_on (o : oracle K) i k : ask o i k <> Abort.
Proof. unfold ask. by destruct (o i k). Qed.
Lemma dassert_on c b : dassert c b <> Abort.
Proof. unfold dassert. by destruct (c && negb b). Qed.
Lemma uadd_on c x y : uadd c x y <> Abort.
Proof. unfold uadd. by repeat case_match. Qed.
Lemma usub_on c x y : usub c x y <> Abort.
Proof. unfold usub. by repeat case_match. Qed.
Lemma find_on m o fuel : forall i par cur, simple_remove_find m o fuel i par cur <> Abort.
Proof.
  induction fuel as [|fuel IH]; intros i par [p|]; cbn [simple_remove_find]; try done.
  apply rbind_on; [apply peek_on|]. intros n. apply rbind_on; [apply ask_on|]. intros []; done.
Qed.
Lemma succ_on m fuel : forall p q, simple_succ_loop m fuel p q <> Abort.
Proof.
  induction fuel as [|fuel IH]; intros p q; cbn [simple_succ_loop]; [done|].
  apply rbind_on; [apply peek_on|]. intros n. by destruct (n_left n).
Qed.

(** ** The pieces *)
Notation fr := (frugal e (fun m : simple K V => m)).

Lemma size_insert_le (h : gmap Ptr (inner K V)) p n : (N.of_nat (size (<[p := n]> h)) <= N.of_nat (size h) + 1)%N.
Proof.
  destruct (h !! p) as [y|] eqn:Hp; [rewrite map_size_insert_Some by eauto; lia|].
  rewrite map_size_insert_None by done. lia.
Qed.
Lemma size_delete_le (h : gmap Ptr (inner K V)) p : (N.of_nat (size (delete p h)) <= N.of_nat (size h))%N.
Proof. rewrite map_size_delete. destruct (h !! p); cbn [id]; lia. Qed.

Lemma poke_frugal p f : fr 0 0 (poke p f).
Proof.
  intros m. unfold poke, sbind, sget, slift, smod. unfold peek. destruct (s_mem m !! p) as [n|] eqn:Hp; cbn; [|split; [lia|]; split; [lia|done]].
  rewrite map_size_insert_Some by eauto. split; [lia|]. split; [lia|done].
Qed.
Lemma place_frugal p n : fr 1 0 (place p n).
Proof. apply frugal_mod. intros m. split; [apply size_insert_le|done]. Qed.
Lemma move_out_frugal p : fr 0 0 (move_out p).
Proof.
  intros m. unfold move_out, sbind, sget, slift, smod, sret. unfold peek. destruct (s_mem m !! p) as [n|] eqn:Hp; cbn; [|split; [lia|]; split; [lia|done]].
  pose proof (size_delete_le (s_mem m) p). split; [lia|]. split; [lia|done].
Qed.
Lemma box_new_frugal n : fr 1 1 (box_new e n).
Proof.
  intros m. unfold box_new, sbind, sget. destruct (2 ^ 60 <=? N.of_nat (size (s_mem m))) eqn:Hs.
  - cbn [slift fst snd]. split; [lia|]. split; [lia|]. intros _. right. apply N.leb_le in Hs. lia.
  - destruct (b_addr e (s_boxes m)) as [a|] eqn:Ha.
    + cbn [smod sret fst snd s_mem s_boxes]. split; [apply size_insert_le|]. split; [lia|done].
    + cbn [slift fst snd]. split; [lia|]. split; [lia|]. intros _. left. exists (s_boxes m). split; [lia|done].
Qed.

Ltac fb w1 w2 b1 b2 := apply (frugal_bind (fun m : simple K V => m) w1 w2 _ b1 b2); [lia|lia| |intros].
Ltac fz := first [apply frugal_ret|apply frugal_get|apply frugal_fail|apply poke_frugal|apply move_out_frugal|
                  apply frugal_lift; auto using peek_on, ask_on, dassert_on, uadd_on, usub_on, find_on, succ_on].
Ltac fzb := apply (frugal_bind (fun m : simple K V => m) 0 _ _ 0 _ _ _ _ (N.le_refl _) (N.le_refl _)); [fz|intros].

Lemma unbox_opt_frugal o : fr 0 0 (unbox_opt o).
Proof. destruct o as [p|]; cbn [unbox_opt]; [|fz]. fzb. fz. Qed.
Lemma box_opt_frugal o : fr 1 1 (box_opt e o).
Proof.
  destruct o as [n|]; cbn [box_opt]; [|eapply frugal_weaken; [| |fz]; lia].
  fb 1 0 1 0; [apply box_new_frugal|]. fz.
Qed.
Lemma take_left_frugal p : fr 0 0 (take_left p).
Proof. unfold take_left. do 3 fzb. apply unbox_opt_frugal. Qed.
Lemma take_right_frugal p : fr 0 0 (take_right p).
Proof. unfold take_right. do 3 fzb. apply unbox_opt_frugal. Qed.
Lemma set_left_frugal p n : fr 1 1 (set_left e p n).
Proof. unfold set_left. do 3 fzb. fb 1 0 1 0; [apply box_new_frugal|]. fz. Qed.
Lemma set_right_frugal p n : fr 1 1 (set_right e p n).
Proof. unfold set_right. do 3 fzb. fb 1 0 1 0; [apply box_new_frugal|]. fz. Qed.
Lemma set_left_val_frugal n n' : fr 1 1 (set_left_val e n n').
Proof. unfold set_left_val. fzb. fb 1 0 1 0; [apply box_new_frugal|]. fz. Qed.
Lemma set_right_val_frugal n n' : fr 1 1 (set_right_val e n n').
Proof. unfold set_right_val. fzb. fb 1 0 1 0; [apply box_new_frugal|]. fz. Qed.
Lemma replace_left_frugal p o : fr 1 1 (replace_left e p o).
Proof. unfold replace_left. fb 1 0 1 0; [apply box_opt_frugal|]. do 3 fzb. apply unbox_opt_frugal. Qed.
Lemma replace_right_frugal p o : fr 1 1 (replace_right e p o).
Proof. unfold replace_right. fb 1 0 1 0; [apply box_opt_frugal|]. do 3 fzb. apply unbox_opt_frugal. Qed.
Lemma unwrap_frugal {A} (o : option A) : fr 0 0 (unwrap o).
Proof. destruct o; cbn [unwrap]; fz. Qed.
Lemma set_len_frugal n : fr 0 0 (smod (set_len_field n)).
Proof. apply frugal_mod. intros m. cbn. lia. Qed.
Lemma len_add_one_frugal : fr 0 0 (len_add_one e).
Proof. unfold len_add_one. do 2 fzb. apply set_len_frugal. Qed.
Lemma len_sub_one_frugal : fr 0 0 (len_sub_one e).
Proof. unfold len_sub_one. do 2 fzb. apply set_len_frugal. Qed.

(** ** Inserting *)
Lemma insert_loop_frugal o k v fuel : forall i cur, fr 1 1 (simple_insert_loop e o fuel i k v cur).
Proof.
  induction fuel as [|fuel IH]; intros i [p|]; cbn [simple_insert_loop]; try (eapply frugal_weaken; [| |by fz]; lia).
  fzb. fzb. fzb. destruct x1.
  - eapply (frugal_weaken _ 0 _ 0); [lia|lia|]. fzb. fz.
  - destruct (n_left x0); [apply IH|]. fb 1 0 1 0; [apply set_left_frugal|].
    fb 0 0 0 0; [apply len_add_one_frugal|fz].
  - destruct (n_right x0); [apply IH|]. fb 1 0 1 0; [apply set_right_frugal|].
    fb 0 0 0 0; [apply len_add_one_frugal|fz].
Qed.
Lemma insert_frugal o k v : fr 1 1 (simple_insert e o k v).
Proof.
  unfold simple_insert. fzb. destruct (simple_root x); [apply insert_loop_frugal|].
  fb 1 0 0 1; [apply place_frugal|]. eapply (frugal_weaken _ 0 _ 0); [lia|lia|]. fzb. fzb.
  fb 0 0 0 0; [apply set_len_frugal|fz].
Qed.
Lemma insert_all_frugal os panics items : forall j,
  fr (N.of_nat (length items)) (N.of_nat (length items)) (simple_insert_all e os j items panics).
Proof.
  induction items as [|[k v] items IH]; intros j; cbn [simple_insert_all length].
  - destruct panics; fz.
  - fb 1 (N.of_nat (length items)) 1 (N.of_nat (length items)); [apply insert_frugal|apply IH].
Qed.

(** ** Removing *)
Lemma replacement_frugal cur : fr 4 3 (simple_replacement e cur).
Proof.
  unfold simple_replacement. fb 0 4 0 3; [apply take_left_frugal|]. fb 0 4 0 3; [apply take_right_frugal|].
  destruct x as [l|], x0 as [r|]; try (eapply frugal_weaken; [| |fz]; lia).
  fb 1 3 0 3; [apply place_frugal|].
  fb 2 1 2 1; [|fb 1 0 1 0; [apply set_left_val_frugal|fz]].
  destruct (n_left r); [|eapply frugal_weaken; [| |fz]; lia].
  fzb. fzb. destruct x1 as [ip i]. fb 0 2 0 2; [apply take_right_frugal|].
  fb 1 1 1 1; [apply replace_left_frugal|]. fb 0 1 0 1; [apply unwrap_frugal|]. fzb. apply set_right_val_frugal.
Qed.
Lemma remove_entry_frugal o : fr 5 4 (simple_remove_entry e o).
Proof.
  unfold simple_remove_entry. fzb. destruct (simple_root x) as [root|]; [|eapply frugal_weaken; [| |fz]; lia].
  fzb. destruct x0 as [parent [cur|]]; [|eapply frugal_weaken; [| |fz]; lia].
  fb 0 5 0 4; [apply len_sub_one_frugal|]. fb 4 1 3 1; [apply replacement_frugal|].
  destruct parent as [par|].
  - fzb. fzb. fb 1 0 1 0; [case_match; [apply replace_left_frugal|apply replace_right_frugal]|].
    fb 0 0 0 0; [apply unwrap_frugal|fz].
  - intros m. unfold sbind, sget, smod, sret.
    destruct (s_mem m !! root_place) as [node|] eqn:Hr; cbn; [|split; [lia|]; split; [lia|done]].
    split; [|split; [lia|done]]. destruct x1; [apply size_insert_le|]. pose proof (size_delete_le (s_mem m) root_place). lia.
Qed.

(** ** Cloning *)
Lemma zoom_frugal {A} w b (f : M (simple K V) A) :
  fr w b f -> frugal e (snd : nat * simple K V -> simple K V) w b (zoom snd (fun m s => (s.1, m)) f).
Proof. intros H [j m]. unfold zoom. cbn [snd]. specialize (H m). by destruct (f m). Qed.


Lemma clone_box_frugal src ck cv t : forall fuel, sreadable src t ->
  frugal e (snd : nat * simple K V -> simple K V) (N.of_nat (pred (tsize t))) (N.of_nat (pred (tsize t)))
    (clone_box e src ck cv fuel (rootp t)).
Proof.
  assert (Hpart : forall (u : ptree K V) (f : nat -> M (nat * simple K V) (option (inner K V))),
    (forall fuel, frugal e snd (N.of_nat (pred (tsize u))) (N.of_nat (pred (tsize u))) (f fuel)) ->
    (u = Leaf -> forall fuel s, (f fuel s).1 = Diverge \/ (f fuel s).1 = Ret None) ->
    forall fuel, frugal e snd (N.of_nat (tsize u)) (N.of_nat (tsize u))
      (let! l := f fuel in zoom snd (fun m s => (s.1, m)) (box_opt e l))).
  { intros u f H1 H2 fuel. destruct (decide (tsize u = 0%nat)) as [Hz|Hz].
    - assert (u = Leaf) as Hu by (destruct u; [done|unfold tsize in Hz; by simpl in Hz]).
      intros s. specialize (H1 fuel s). specialize (H2 Hu fuel s). unfold sbind. rewrite Hz in *. cbn [pred] in H1.
      destruct (f fuel s) as [r s']. cbn [fst snd] in *. destruct s as [j m], s' as [j' m'].
      destruct H2 as [-> | ->]; cbn [box_opt zoom sret fst snd] in *; destruct H1 as (A & B & _); split; [lia|split; [lia|done]|lia|split; [lia|done]].
    - apply (frugal_bind snd (N.of_nat (pred (tsize u))) 1 _ (N.of_nat (pred (tsize u))) 1); [lia|lia|done|].
      intros l. apply zoom_frugal, box_opt_frugal. }
  induction t as [|l IHl p k v r IHr]; intros [|fuel] Hr; cbn [clone_box rootp];
    try (eapply frugal_weaken; [| |by first [apply frugal_ret|apply frugal_lift]]; lia).
  rewrite (sreadable_root _ _ _ _ _ _ Hr).
  assert (Hsz : tsize (Bin l p k v r) = S (tsize l + tsize r)) by (unfold tsize; simpl; by rewrite app_length).
  rewrite Hsz. cbn [pred].
  cut (frugal e snd (N.of_nat (tsize l + tsize r)) (N.of_nat (tsize l + tsize r))
    (let! s := sget in
      match ck s.1 k, cv s.1 v with
      | Some k', Some v' =>
        let! _ := smod (fun s => (S s.1, s.2)) in
        let! lb := (let! l := clone_box e src ck cv fuel (rootp l) in zoom snd (fun m s => (s.1, m)) (box_opt e l)) in
        let! rb := (let! r := clone_box e src ck cv fuel (rootp r) in zoom snd (fun m s => (s.1, m)) (box_opt e r)) in
        sret (Some (mkInner k' v' lb rb))
      | _, _ => sfail PClone
      end)).
  { intros H s. specialize (H s). unfold sbind, slift, sget, smod in *. cbn [n_key n_value n_left n_right] in *.
    destruct (ck s.1 k) as [k'|], (cv s.1 v) as [v'|]; try exact H.
    destruct (clone_box e src ck cv fuel (rootp l) (S s.1, s.2)) as [[x| | | |] s1]; try exact H.
    destruct (zoom snd (fun m s => (s.1, m)) (box_opt e x) s1) as [[y| | | |] s2]; try exact H.
    destruct (clone_box e src ck cv fuel (rootp r) s2) as [[z| | | |] s3]; exact H. }
  assert (Hleaf : forall u : ptree K V, u = Leaf -> forall fuel s, (clone_box e src ck cv fuel (rootp u) s).1 = Diverge \/ (clone_box e src ck cv fuel (rootp u) s).1 = Ret None).
  { intros u -> [|f] s; [by left|by right]. }
  apply (frugal_bind snd 0 (N.of_nat (tsize l + tsize r)) _ 0 (N.of_nat (tsize l + tsize r))); [lia..|apply frugal_get|].
  intros s. destruct (ck s.1 k) as [k'|], (cv s.1 v) as [v'|]; try (eapply frugal_weaken; [| |by apply frugal_fail]; lia).
  apply (frugal_bind snd 0 (N.of_nat (tsize l + tsize r)) _ 0 (N.of_nat (tsize l + tsize r))); [lia..| |intros _].
  { apply frugal_mod. intros [j m]. cbn. lia. }
  apply (frugal_bind snd (N.of_nat (tsize l)) (N.of_nat (tsize r)) _ (N.of_nat (tsize l)) (N.of_nat (tsize r))); [lia..| |intros lb].
  { apply (Hpart l (fun f => clone_box e src ck cv f (rootp l))); [|apply Hleaf]. intros f. apply IHl. by eapply sreadable_l. }
  apply (frugal_bind snd (N.of_nat (tsize r)) 0 _ (N.of_nat (tsize r)) 0); [lia..| |intros rb; apply frugal_ret].
  apply (Hpart r (fun f => clone_box e src ck cv f (rootp r))); [|apply Hleaf]. intros f. apply IHr. by eapply sreadable_r.
Qed.

Lemma clone_aborts m t ck cv : simple_rep m t -> (simple_clone e ck cv m).1 = Abort -> box_refused e 0 (simple_len m) 0.
Proof.
  intros H. unfold simple_clone. rewrite (simple_root_ret _ _ H).
  pose proof (clone_box_frugal m ck cv t (simple_fuel m) (simple_readable _ _ H) (0%nat, simple_new)) as (_ & _ & Hc).
  destruct (simple_rep_nodes _ _ H) as [_ Hlen].
  destruct (clone_box e m ck cv (simple_fuel m) (rootp t) (0%nat, simple_new)) as [[[n|]| | | |] [j m1]]; try done.
  intros _. cbn [fst snd simple_new s_mem s_boxes] in Hc. unfold box_refused, simple_len. rewrite Hlen.
  destruct (Hc eq_refl) as [(i & Hi & He)|Hs]; [left; exists i; split; [lia|done]|].
  right. rewrite map_size_empty in Hs. lia.
Qed.

Lemma frugal_aborts {A} w b (f : M (simple K V) A) m t : simple_rep m t -> fr w b f -> w <= b + 1 -> (f m).1 = Abort ->
  box_refused e (s_boxes m) b (simple_len m).
Proof.
  intros H Hf Hw Ha. destruct (simple_rep_nodes _ _ H) as [Hs Hlen]. destruct (Hf m) as (_ & _ & Hc). unfold box_refused, simple_len.
  destruct (Hc Ha) as [?|?]; [by left|right]. rewrite Hlen, <- Hs. lia.
Qed.

Lemma bind_ret_abort {S A B} (f : M S A) (g : A -> B) s : ((let! x := f in sret (g x)) s).1 = Abort -> (f s).1 = Abort.
Proof. unfold sbind. by destruct (f s) as [[] ?]. Qed.

(** ** A call *)
Lemma simple_call_boxes_rep c m t : simple_rep m t -> simple_has c = true -> (simple_exec e c m).1 = Abort ->
  box_refused e (first_box c m) (most_boxes c m) (simple_len m).
Proof.
  intros H Hhas Ha.
  destruct (simple_exec e c m) as [r m'] eqn:Hex. cbn [fst] in Ha. subst r.
  assert (Hal : allocates c = true).
  { destruct (simple_exec_cases e c m t _ m' H Hhas Hex) as [[_ ?]|(t' & _ & _ & [[x Hx]|[p Hp]])]; done. }
  assert (Ha : (simple_exec e c m).1 = Abort) by (by rewrite Hex). clear Hex.
  destruct c; try done; cbn [simple_exec most_boxes first_box] in *.
  - apply bind_ret_abort in Ha. eapply frugal_aborts; [done|apply insert_frugal| |exact Ha]. lia.
  - apply bind_ret_abort in Ha. unfold simple_remove in Ha. apply bind_ret_abort in Ha.
    eapply frugal_aborts; [done|apply remove_entry_frugal| |exact Ha]. lia.
  - apply bind_ret_abort in Ha. eapply frugal_aborts; [done|apply remove_entry_frugal| |exact Ha]. lia.
  - apply (bind_ret_abort _ (fun _ => OutUnit)) in Ha. eapply frugal_aborts; [done|apply insert_all_frugal| |exact Ha]. lia.
  - pose proof (clone_aborts m t ck cv H) as Hc. pose proof (simple_drop_spec m t H) as Hd. unfold wp in Hd.
    destruct (simple_clone e ck cv m) as [[[]|p| |u|] m2]; try done.
    + destruct (simple_drop m) as [[] m3]; done.
    + destruct (Hc eq_refl) as [?|?]; [by left|right; lia].
Qed.

Lemma simple_call_boxes c m : simple_reachable e m -> simple_has c = true -> (simple_exec e c m).1 = Abort ->
  box_refused e (first_box c m) (most_boxes c m) (simple_len m).
Proof. intros Hreach. destruct (simple_reachable_rep e m Hreach) as [t H]. by apply (simple_call_boxes_rep c m t). Qed.

Lemma simple_begin_boxes (s : start K V) : (simple_begin e s).1 = Abort -> box_refused e 0 (most_boxes_at_start s) 0.
Proof.
  destruct s as [| |os it]; try done. cbn [simple_begin most_boxes_at_start]. unfold simple_from_iter. intros Ha.
  exact (frugal_aborts _ _ _ simple_new Leaf simple_rep_new (insert_all_frugal os (ui_panics it) (ui_items it) 0) ltac:(lia) Ha).
Qed.

(** With enough memory nothing aborts. *)
Lemma simple_call_generous c m : simple_reachable e m -> simple_has c = true ->
  (forall i, first_box c m <= i < first_box c m + most_boxes c m -> b_addr e i <> None) ->
  simple_len m + most_boxes c m + 1 < 2 ^ 60 -> (simple_exec e c m).1 <> Abort.
Proof. intros H1 H2 H3 H4 Ha. destruct (simple_call_boxes c m H1 H2 Ha) as [(i & Hi & He)|?]; [by eapply H3|lia]. Qed.
Lemma simple_begin_generous (s : start K V) : (forall i, i < most_boxes_at_start s -> b_addr e i <> None) ->
  most_boxes_at_start s + 1 < 2 ^ 60 -> (simple_begin e s).1 <> Abort.
Proof. intros H1 H2 Ha. destruct (simple_begin_boxes s Ha) as [(i & Hi & He)|?]; [apply (H1 i); [lia|done]|lia]. Qed.

(** A new entry beside others needs the next box. *)
Lemma insert_loop_box o k v m fuel : forall i p m', simple_insert_loop e o fuel i k v (Some p) m = (Ret None, m') ->
  b_addr e (s_boxes m) <> None.
Proof.
  induction fuel as [|fuel IH]; intros i p m' H; [done|]. cbn [simple_insert_loop] in H. unfold sbind, sget, slift in H.
  destruct (peek m p) as [n| | | |] eqn:Hp; try done. destruct (ask o i (n_key n)) as [[]| | | |]; try done.
  - unfold poke, sbind, sget, slift in H. by rewrite Hp in H.
  - destruct (n_left n) eqn:Hl; [by eapply IH|].
    unfold set_left, box_new, sbind, sget, slift in H. rewrite Hp, Hl in H. unfold dassert in H. rewrite andb_false_r in H.
    destruct (_ <=? _); [done|]. by destruct (b_addr e (s_boxes m)).
  - destruct (n_right n) eqn:Hl; [by eapply IH|].
    unfold set_right, box_new, sbind, sget, slift in H. rewrite Hp, Hl in H. unfold dassert in H. rewrite andb_false_r in H.
    destruct (_ <=? _); [done|]. by destruct (b_addr e (s_boxes m)).
Qed.
Lemma simple_insert_full o k v m : simple_reachable e m -> simple_len m <> 0 -> b_addr e (s_boxes m) = None ->
  (simple_exec e (OInsert o k v) m).1 = Abort \/ (simple_exec e (OInsert o k v) m).1 = Panic PCmp \/
  exists w, (simple_exec e (OInsert o k v) m).1 = Ret (OutValue (Some w)).
Proof.
  intros Hreach Hlen Hb. destruct (simple_reachable_rep e m Hreach) as [t H].
  destruct (simple_exec e (OInsert o k v) m) as [r m'] eqn:Hex.
  destruct (simple_exec_cases e (OInsert o k v) m t _ m' H eq_refl Hex) as [[-> _]|(t' & _ & Hc & Hr)]; [by left|right].
  destruct Hr as [[x ->]|[p ->]].
  - right. cbn [simple_exec] in Hex. unfold sbind in Hex. destruct (simple_insert e o k v m) as [[[w|]| | | |] m1] eqn:Hi; try done.
    { injection Hex as <- <-. by exists w. }
    exfalso. unfold simple_insert, sbind, sget in Hi. destruct (simple_root m) as [root|] eqn:Hroot.
    + by eapply insert_loop_box.
    + rewrite (simple_root_ret _ _ H) in Hroot. destruct t; [|done].
      destruct (simple_rep_nodes _ _ H) as [_ Hl]. unfold simple_len in Hlen. by rewrite Hl in Hlen.
  - left. cbn [fst]. f_equal. by apply stree_call_stop in Hc.
Qed.

End boxes.

Section sets.
Context {T : Type} (e : benv).

Lemma sset_call_boxes (c : set_op T) m : sset_reachable e m -> sset_has c = true -> (sset_exec e c m).1 = Abort ->
  box_refused e (sset_first_box c m) (sset_most_boxes c m) (sset_len m).
Proof.
  intros Hreach Hhas Ha. destruct (sset_reachable_rep e m Hreach) as [t H].
  destruct (simple_exec e (to_map c) m) as [r m'] eqn:Hex.
  rewrite (sset_exec_eq e c m t r m' H Hhas Hex) in Ha. cbn [fst] in Ha.
  pose proof (simple_call_boxes_rep e (to_map c) m t H (to_map_has c Hhas)) as Hb. rewrite Hex in Hb. cbn [fst] in Hb.
  replace (sset_first_box c m) with (first_box (to_map c) m) by (by destruct c).
  replace (sset_most_boxes c m) with (most_boxes (to_map c) m); [apply Hb; by destruct r|].
  destruct c; try done. cbn [to_map most_boxes sset_most_boxes]. by rewrite with_units_items, units_length.
Qed.

Lemma sset_begin_boxes (s : set_start T) : (sset_begin e s).1 = Abort -> box_refused e 0 (sset_most_boxes_at_start s) 0.
Proof.
  rewrite sset_begin_eq. intros Ha%simple_begin_boxes.
  replace (sset_most_boxes_at_start s) with (most_boxes_at_start (start_to_map s)); [done|].
  destruct s; try done. cbn [start_to_map most_boxes_at_start sset_most_boxes_at_start]. by rewrite with_units_items, units_length.
Qed.

End sets.
