(** * The memory of a SimpleBSTMap, and its search, insertion and removal *)

From Verif Require Export ModelSimple ProofOracle.

(** A tree of boxes taken out of its box: the node by value and the nodes below. *)
Section boxes.
Context {K V : Type}.
Implicit Types t l r x : ptree K V.

Definition val t : option (inner K V) :=
  match t with Leaf => None | Bin l p k v r => Some (mkInner k v (rootp l) (rootp r)) end.
Definition below t : list (Ptr * inner K V) :=
  match t with Leaf => [] | Bin l p k v r => nodes l ++ nodes r end.
Definition reloc (q : Ptr) t : ptree K V :=
  match t with Leaf => Leaf | Bin l p k v r => Bin l q k v r end.

Lemma erase_reloc q t : erase (reloc q t) = erase t.
Proof. by destruct t. Qed.
Lemma val_reloc q t : val (reloc q t) = val t.
Proof. by destruct t. Qed.
Lemma below_reloc q t : below (reloc q t) = below t.
Proof. by destruct t. Qed.
Lemma nodes_reloc q t : nodes (reloc q t) = match val t with Some n => (q, n) :: below t | None => [] end.
Proof. by destruct t. Qed.

Lemma erase_plug_cong C : forall t t', erase t = erase t' -> erase (plug C t) = erase (plug C t').
Proof.
  induction C as [|f C IH]; intros t t' H; simpl; [done|]. apply IH. destruct f; simpl; by rewrite H.
Qed.

Lemma tsize_erase t t' : erase t = erase t' -> tsize t = tsize t'.
Proof. intros H. by rewrite <- !erase_size, H. Qed.

End boxes.

Section mem.
Context {K V : Type}.
Implicit Types t l r x : ptree K V.
Implicit Types m : simple K V.
Implicit Types ns F : list (Ptr * inner K V).

(** The memory holds the nodes [ns] and nothing else. *)
Definition hrep m ns : Prop := NoDup ns.*1 /\ s_mem m = list_to_map ns.

(** A call can only fail by being refused memory, which ends the process. *)
Definition no_memory {S : Type} : option panic_reason -> S -> Prop := fun z _ => z = None.

Lemma hrep_perm m ns ns' : ns ≡ₚ ns' -> hrep m ns -> hrep m ns'.
Proof.
  intros Hp [Hnd Hm]. split; [by rewrite <- Hp|]. rewrite Hm. by apply list_to_map_proper.
Qed.

Lemma hrep_lookup m ns p n : hrep m ns -> (p, n) ∈ ns -> s_mem m !! p = Some n.
Proof. intros [Hnd ->] Hin. by apply elem_of_list_to_map_1. Qed.

Lemma hrep_absent m ns p : hrep m ns -> p ∉ ns.*1 -> s_mem m !! p = None.
Proof. intros [Hnd ->] Hin. by apply not_elem_of_list_to_map_1. Qed.

Lemma hrep_peek m ns p n : hrep m ns -> (p, n) ∈ ns -> peek m p = Ret n.
Proof. intros H Hin. unfold peek. by rewrite (hrep_lookup _ _ _ _ H Hin). Qed.

Lemma hrep_size m ns : hrep m ns -> size (s_mem m) = length ns.
Proof.
  intros [Hnd ->]. unfold size, map_size. rewrite map_to_list_to_map by done. done.
Qed.

Lemma hrep_nodup m ns : hrep m ns -> NoDup ns.*1.
Proof. by intros [? _]. Qed.

Lemma hrep_same m m' ns : s_mem m' = s_mem m -> hrep m ns -> hrep m' ns.
Proof. intros H [H1 H2]. split; [done|by rewrite H]. Qed.

Lemma poke_spec m ns p n ns' f : hrep m ns -> ns ≡ₚ (p, n) :: ns' ->
  wp (poke p f) (fun _ m' => hrep m' ((p, f n) :: ns') /\ s_len m' = s_len m) (fun _ _ => False) m.
Proof.
  intros H Hp. eapply hrep_perm in H; [|exact Hp]. unfold poke. apply wp_bind, wp_get. apply wp_bind.
  eapply wp_lift_ret; [eapply hrep_peek; [exact H|left]|]. apply wp_mod. split; [|done].
  destruct H as [Hnd Hm]. split; [done|]. cbn [set_mem s_mem]. rewrite Hm. simpl. apply insert_insert.
Qed.

Lemma move_out_spec m ns p n ns' : hrep m ns -> ns ≡ₚ (p, n) :: ns' ->
  wp (move_out p) (fun y m' => y = n /\ hrep m' ns' /\ s_len m' = s_len m) (fun _ _ => False) m.
Proof.
  intros H Hp. eapply hrep_perm in H; [|exact Hp]. unfold move_out. apply wp_bind, wp_get. apply wp_bind.
  eapply wp_lift_ret; [eapply hrep_peek; [exact H|left]|]. apply wp_bind, wp_mod, wp_ret.
  destruct H as [Hnd Hm]. simpl in Hnd. apply NoDup_cons in Hnd as [Hp' Hnd].
  split_and!; [done| |done]. split; [done|]. cbn [set_mem s_mem]. rewrite Hm. simpl. apply delete_insert.
  by apply not_elem_of_list_to_map_1.
Qed.

Lemma place_spec m ns p n : hrep m ns -> p ∉ ns.*1 ->
  wp (place p n) (fun _ m' => hrep m' ((p, n) :: ns) /\ s_len m' = s_len m) (fun _ _ => False) m.
Proof.
  intros [Hnd Hm] Hp. apply wp_mod. split; [|done]. split.
  - simpl. by apply NoDup_cons.
  - cbn [set_mem s_mem]. by rewrite Hm.
Qed.

Lemma fold_max_le (l : list N) (a : N) : a ∈ l -> (a <= foldr N.max 0 l)%N.
Proof. induction l as [|b l IH]; simpl; [by intros ?%elem_of_nil|]. intros [->|H]%elem_of_cons; [lia|]. specialize (IH H). lia. Qed.

Lemma unused_fresh m : s_mem m !! boxed (unused m) = None.
Proof.
  destruct (s_mem m !! boxed (unused m)) as [n|] eqn:H; [|done]. exfalso.
  apply elem_of_map_to_list in H.
  assert (Hin : unused m ∈ (map_to_list (s_mem m)).*1.*2).
  { apply elem_of_list_fmap. exists (boxed (unused m)). split; [done|].
    apply elem_of_list_fmap. by exists (boxed (unused m), n). }
  apply fold_max_le in Hin. unfold unused in Hin at 1. lia.
Qed.

Lemma box_new_spec e m ns n : hrep m ns ->
  wp (box_new e n) (fun p m' => p.1 = 0%N /\ p ∉ ns.*1 /\ hrep m' ((p, n) :: ns) /\ s_len m' = s_len m /\
      (N.of_nat (length ns) < 2 ^ 60)%N) no_memory m.
Proof.
  intros H. unfold box_new. apply wp_bind, wp_get.
  destruct (2 ^ 60 <=? N.of_nat (size (s_mem m)))%N eqn:Hsz; [done|].
  apply N.leb_gt in Hsz. rewrite (hrep_size _ _ H) in Hsz.
  destruct (b_addr e (s_boxes m)) as [a|]; [|done]. cbv zeta.
  set (p := boxed _). apply wp_bind, wp_mod, wp_ret.
  assert (Hfree : s_mem m !! p = None).
  { unfold p. destruct (s_mem m !! boxed a) eqn:Ha; [apply unused_fresh|done]. }
  assert (Hp : p ∉ ns.*1).
  { intros Hin. apply elem_of_list_fmap in Hin as ([q n0] & Hq & Hin). simpl in Hq.
    by rewrite Hq, (hrep_lookup _ _ _ _ H Hin) in Hfree. }
  split_and!; try done. destruct H as [Hnd Hm]. split; [simpl; by apply NoDup_cons|].
  cbn [s_mem]. by rewrite Hm.
Qed.

(** ** Boxing and unboxing trees *)

Lemma unbox_opt_spec m ns t F : hrep m ns -> ns ≡ₚ nodes t ++ F ->
  wp (unbox_opt (rootp t)) (fun y m' => y = val t /\ hrep m' (below t ++ F) /\ s_len m' = s_len m) (fun _ _ => False) m.
Proof.
  intros H Hp. destruct t as [|l p k v r]; cbn [unbox_opt rootp val below].
  - apply wp_ret. split_and!; [done| |done]. by eapply hrep_perm.
  - apply wp_bind. eapply wp_mono; [eapply move_out_spec; [exact H|]| |done].
    { rewrite Hp. simpl. done. }
    intros y m' (-> & Hm' & Hl). apply wp_ret. split_and!; done.
Qed.

Lemma box_opt_spec e m ns t F : hrep m ns -> ns ≡ₚ below t ++ F ->
  wp (box_opt e (val t)) (fun b m' => exists q, q.1 = 0%N /\ b = rootp (reloc q t) /\
      hrep m' (nodes (reloc q t) ++ F) /\ s_len m' = s_len m) no_memory m.
Proof.
  intros H Hp. destruct t as [|l p k v r]; cbn [box_opt val below].
  - apply wp_ret. exists (0, 0)%N. split_and!; [done|done| |done]. by eapply hrep_perm.
  - apply wp_bind. eapply wp_mono; [by eapply box_new_spec| |done].
    intros q m' (Hq & Hfresh & Hm' & Hl & _). apply wp_ret. exists q. split_and!; try done.
    eapply hrep_perm; [|exact Hm']. simpl. by rewrite Hp.
Qed.

Lemma take_left_spec m ns p k v l rr F : hrep m ns -> ns ≡ₚ (p, mkInner k v (rootp l) rr) :: nodes l ++ F ->
  wp (take_left p) (fun y m' => y = val l /\ hrep m' ((p, mkInner k v None rr) :: below l ++ F) /\ s_len m' = s_len m)
    (fun _ _ => False) m.
Proof.
  intros H Hp. unfold take_left. apply wp_bind, wp_get. apply wp_bind.
  eapply wp_lift_ret; [eapply hrep_peek; [exact H|]; rewrite Hp; left|]. cbn [n_left].
  apply wp_bind. eapply wp_mono; [eapply poke_spec; [exact H|exact Hp]| |done].
  intros [] m1 (H1 & Hl1). eapply wp_mono; [eapply (unbox_opt_spec m1 _ l ((p, mkInner k v None rr) :: F)); [exact H1|]| |done].
  { unfold with_left. simpl. solve_Permutation. }
  intros y m2 (-> & H2 & Hl2). split_and!; [done| |congruence]. eapply hrep_perm; [|exact H2]. solve_Permutation.
Qed.

Lemma take_right_spec m ns p k v ll r F : hrep m ns -> ns ≡ₚ (p, mkInner k v ll (rootp r)) :: nodes r ++ F ->
  wp (take_right p) (fun y m' => y = val r /\ hrep m' ((p, mkInner k v ll None) :: below r ++ F) /\ s_len m' = s_len m)
    (fun _ _ => False) m.
Proof.
  intros H Hp. unfold take_right. apply wp_bind, wp_get. apply wp_bind.
  eapply wp_lift_ret; [eapply hrep_peek; [exact H|]; rewrite Hp; left|]. cbn [n_right].
  apply wp_bind. eapply wp_mono; [eapply poke_spec; [exact H|exact Hp]| |done].
  intros [] m1 (H1 & Hl1). eapply wp_mono; [eapply (unbox_opt_spec m1 _ r ((p, mkInner k v ll None) :: F)); [exact H1|]| |done].
  { unfold with_right. simpl. solve_Permutation. }
  intros y m2 (-> & H2 & Hl2). split_and!; [done| |congruence]. eapply hrep_perm; [|exact H2]. solve_Permutation.
Qed.

Lemma replace_left_spec e m ns p k v l rr x F : hrep m ns ->
  ns ≡ₚ (p, mkInner k v (rootp l) rr) :: nodes l ++ below x ++ F ->
  wp (replace_left e p (val x)) (fun y m' => y = val l /\ s_len m' = s_len m /\ exists q, q.1 = 0%N /\
      hrep m' ((p, mkInner k v (rootp (reloc q x)) rr) :: below l ++ nodes (reloc q x) ++ F)) no_memory m.
Proof.
  intros H Hp. unfold replace_left. apply wp_bind.
  eapply wp_mono; [eapply (box_opt_spec e m ns x ((p, mkInner k v (rootp l) rr) :: nodes l ++ F)); [exact H|]| |done].
  { rewrite Hp. solve_Permutation. }
  intros b m1 (q & Hq & -> & H1 & Hl1). apply wp_bind, wp_get. apply wp_bind.
  assert (Hp1 : nodes (reloc q x) ++ (p, mkInner k v (rootp l) rr) :: nodes l ++ F ≡ₚ
     (p, mkInner k v (rootp l) rr) :: nodes l ++ nodes (reloc q x) ++ F) by solve_Permutation.
  eapply wp_lift_ret; [eapply hrep_peek; [exact H1|]; rewrite Hp1; left|]. cbn [n_left].
  apply wp_bind. eapply wp_mono; [eapply poke_spec; [exact H1|exact Hp1]| |done].
  intros [] m2 (H2 & Hl2).
  eapply wp_mono; [eapply (unbox_opt_spec m2 _ l ((p, mkInner k v (rootp (reloc q x)) rr) :: nodes (reloc q x) ++ F)); [exact H2|]| |done].
  { unfold with_left. simpl. solve_Permutation. }
  intros y m3 (-> & H3 & Hl3). split_and!; [done|congruence|]. exists q. split; [done|].
  eapply hrep_perm; [|exact H3]. solve_Permutation.
Qed.

Lemma replace_right_spec e m ns p k v ll r x F : hrep m ns ->
  ns ≡ₚ (p, mkInner k v ll (rootp r)) :: nodes r ++ below x ++ F ->
  wp (replace_right e p (val x)) (fun y m' => y = val r /\ s_len m' = s_len m /\ exists q, q.1 = 0%N /\
      hrep m' ((p, mkInner k v ll (rootp (reloc q x))) :: below r ++ nodes (reloc q x) ++ F)) no_memory m.
Proof.
  intros H Hp. unfold replace_right. apply wp_bind.
  eapply wp_mono; [eapply (box_opt_spec e m ns x ((p, mkInner k v ll (rootp r)) :: nodes r ++ F)); [exact H|]| |done].
  { rewrite Hp. solve_Permutation. }
  intros b m1 (q & Hq & -> & H1 & Hl1). apply wp_bind, wp_get. apply wp_bind.
  assert (Hp1 : nodes (reloc q x) ++ (p, mkInner k v ll (rootp r)) :: nodes r ++ F ≡ₚ
     (p, mkInner k v ll (rootp r)) :: nodes r ++ nodes (reloc q x) ++ F) by solve_Permutation.
  eapply wp_lift_ret; [eapply hrep_peek; [exact H1|]; rewrite Hp1; left|]. cbn [n_right].
  apply wp_bind. eapply wp_mono; [eapply poke_spec; [exact H1|exact Hp1]| |done].
  intros [] m2 (H2 & Hl2).
  eapply wp_mono; [eapply (unbox_opt_spec m2 _ r ((p, mkInner k v ll (rootp (reloc q x))) :: nodes (reloc q x) ++ F)); [exact H2|]| |done].
  { unfold with_right. simpl. solve_Permutation. }
  intros y m3 (-> & H3 & Hl3). split_and!; [done|congruence|]. exists q. split; [done|].
  eapply hrep_perm; [|exact H3]. solve_Permutation.
Qed.

Lemma set_left_val_spec e m ns k v rr l n F : hrep m ns -> ns ≡ₚ below l ++ F -> val l = Some n ->
  wp (set_left_val e (mkInner k v None rr) n) (fun y m' => exists q, q.1 = 0%N /\
      y = mkInner k v (rootp (reloc q l)) rr /\ hrep m' (nodes (reloc q l) ++ F) /\ s_len m' = s_len m) no_memory m.
Proof.
  intros H Hp Hv. unfold set_left_val. apply wp_bind. eapply wp_lift_ret; [unfold dassert; by rewrite orb_true_r || by destruct (b_chk e)|].
  apply wp_bind. destruct l as [|ll lp lk lv lr]; [done|]. injection Hv as <-.
  eapply wp_mono; [by eapply box_new_spec| |done]. intros q m' (Hq & Hf & Hm' & Hl & _). apply wp_ret.
  exists q. split_and!; try done. eapply hrep_perm; [|exact Hm']. simpl. by rewrite Hp.
Qed.

Lemma set_right_val_spec e m ns k v ll r n F : hrep m ns -> ns ≡ₚ below r ++ F -> val r = Some n ->
  wp (set_right_val e (mkInner k v ll None) n) (fun y m' => exists q, q.1 = 0%N /\
      y = mkInner k v ll (rootp (reloc q r)) /\ hrep m' (nodes (reloc q r) ++ F) /\ s_len m' = s_len m) no_memory m.
Proof.
  intros H Hp Hv. unfold set_right_val. apply wp_bind. eapply wp_lift_ret; [unfold dassert; by rewrite orb_true_r || by destruct (b_chk e)|].
  apply wp_bind. destruct r as [|ll' lp lk lv lr]; [done|]. injection Hv as <-.
  eapply wp_mono; [by eapply box_new_spec| |done]. intros q m' (Hq & Hf & Hm' & Hl & _). apply wp_ret.
  exists q. split_and!; try done. eapply hrep_perm; [|exact Hm']. simpl. by rewrite Hp.
Qed.

End mem.

(** ** The map *)
Section ops.
Context {K V : Type}.
Implicit Types t l r : ptree K V.
Implicit Types m : simple K V.

(** The memory holds the tree [t]. Its root is in the field [root] of the map;
    [N.of_nat (tsize t) <= 2 ^ 60] since more boxes do not fit. *)
Definition simple_rep m t : Prop :=
  hrep m (nodes t) /\ (t = Leaf \/ rootp t = Some root_place) /\ right_child_place ∉ ptrs t /\
  s_len m = N.of_nat (tsize t) /\ (N.of_nat (tsize t) <= 2 ^ 60)%N.

Lemma simple_rep_new : simple_rep simple_new Leaf.
Proof. split_and!; [|by left|by apply not_elem_of_nil|done|done]. split; [constructor|done]. Qed.

Definition sreadable m t : Prop := forall p n, (p, n) ∈ nodes t -> peek m p = Ret n.

Lemma simple_readable m t : simple_rep m t -> sreadable m t.
Proof. intros [H _] p n Hin. by eapply hrep_peek. Qed.
Lemma sreadable_l m l p k v r : sreadable m (Bin l p k v r) -> sreadable m l.
Proof. intros H q n Hin. apply H. simpl. right. apply elem_of_app. by left. Qed.
Lemma sreadable_r m l p k v r : sreadable m (Bin l p k v r) -> sreadable m r.
Proof. intros H q n Hin. apply H. simpl. right. apply elem_of_app. by right. Qed.
Lemma sreadable_root m l p k v r : sreadable m (Bin l p k v r) -> peek m p = Ret (mkInner k v (rootp l) (rootp r)).
Proof. intros H. apply H. simpl. left. Qed.

Lemma simple_fuel_size m t : simple_rep m t -> simple_fuel m = S (tsize t).
Proof. intros [H _]. unfold simple_fuel. by rewrite (hrep_size _ _ H). Qed.
Lemma simple_fuel_height m t : simple_rep m t -> pheight t < simple_fuel m.
Proof. intros H. rewrite (simple_fuel_size _ _ H). pose proof (pheight_size t). lia. Qed.

Lemma simple_root_ret m t : simple_rep m t -> simple_root m = rootp t.
Proof.
  intros (H & Hroot & _). unfold simple_root. destruct t as [|l p k v r].
  - by rewrite (hrep_absent _ _ root_place H (not_elem_of_nil _)).
  - destruct Hroot as [|[= ->]]; [done|]. by erewrite hrep_lookup; [|exact H|left].
Qed.

Lemma simple_nodup m t : simple_rep m t -> NoDup (ptrs t).
Proof. by intros [[H _] _]. Qed.

(** ** Searches *)

Lemma simple_get_entry_loop_eq m o t : forall fuel i, sreadable m t -> pheight t < fuel ->
  simple_get_entry_loop m o fuel i (rootp t) = rmap (fmap snd) (tget o i t).
Proof.
  induction t as [|l IHl p k v r IHr]; intros [|fuel] i Hr Hf; simpl in *; try lia; [done|].
  rewrite (sreadable_root _ _ _ _ _ _ Hr). simpl. unfold ask. destruct (o i k) as [[]|]; simpl; [done| | |done].
  - apply IHl; [by eapply sreadable_l|lia].
  - apply IHr; [by eapply sreadable_r|lia].
Qed.
Lemma simple_get_loop_eq m o t : forall fuel i, sreadable m t -> pheight t < fuel ->
  simple_get_loop m o fuel i (rootp t) = rmap (fmap (fun x => x.2.2)) (tget o i t).
Proof.
  induction t as [|l IHl p k v r IHr]; intros [|fuel] i Hr Hf; simpl in *; try lia; [done|].
  rewrite (sreadable_root _ _ _ _ _ _ Hr). simpl. unfold ask. destruct (o i k) as [[]|]; simpl; [done| | |done].
  - apply IHl; [by eapply sreadable_l|lia].
  - apply IHr; [by eapply sreadable_r|lia].
Qed.
Lemma simple_get_mut_loop_eq m o t : forall fuel i, sreadable m t -> pheight t < fuel ->
  simple_get_mut_loop m o fuel i (rootp t) = rmap (fmap fst) (tget o i t).
Proof.
  induction t as [|l IHl p k v r IHr]; intros [|fuel] i Hr Hf; simpl in *; try lia; [done|].
  rewrite (sreadable_root _ _ _ _ _ _ Hr). simpl. unfold ask. destruct (o i k) as [[]|]; simpl; [done| | |done].
  - apply IHl; [by eapply sreadable_l|lia].
  - apply IHr; [by eapply sreadable_r|lia].
Qed.
Lemma simple_contains_loop_eq m o t : forall fuel i, sreadable m t -> pheight t < fuel ->
  simple_contains_loop m o fuel i (rootp t) = rmap is_some (tget o i t).
Proof.
  induction t as [|l IHl p k v r IHr]; intros [|fuel] i Hr Hf; simpl in *; try lia; [done|].
  rewrite (sreadable_root _ _ _ _ _ _ Hr). simpl. unfold ask. destruct (o i k) as [[]|]; simpl; [done| | |done].
  - apply IHl; [by eapply sreadable_l|lia].
  - apply IHr; [by eapply sreadable_r|lia].
Qed.

Lemma simple_get_entry_eq m t o : simple_rep m t -> simple_get_entry m o = rmap (fmap snd) (tget o 0 t).
Proof.
  intros H. unfold simple_get_entry. rewrite (simple_root_ret _ _ H).
  apply simple_get_entry_loop_eq; [by apply simple_readable|by apply simple_fuel_height].
Qed.
Lemma simple_get_eq m t o : simple_rep m t -> simple_get m o = rmap (fmap (fun x => x.2.2)) (tget o 0 t).
Proof.
  intros H. unfold simple_get. rewrite (simple_root_ret _ _ H).
  apply simple_get_loop_eq; [by apply simple_readable|by apply simple_fuel_height].
Qed.
Lemma simple_get_mut_eq m t o : simple_rep m t -> simple_get_mut m o = rmap (fmap fst) (tget o 0 t).
Proof.
  intros H. unfold simple_get_mut. rewrite (simple_root_ret _ _ H).
  apply simple_get_mut_loop_eq; [by apply simple_readable|by apply simple_fuel_height].
Qed.
Lemma simple_contains_eq m t o : simple_rep m t -> simple_contains_key m o = rmap is_some (tget o 0 t).
Proof.
  intros H. unfold simple_contains_key. rewrite (simple_root_ret _ _ H).
  apply simple_contains_loop_eq; [by apply simple_readable|by apply simple_fuel_height].
Qed.

Lemma simple_is_empty_eq e m t : simple_rep m t -> simple_is_empty e m = Ret (match t with Leaf => true | _ => false end).
Proof.
  intros H. unfold simple_is_empty. rewrite (simple_root_ret _ _ H). destruct H as (_ & _ & _ & -> & _).
  destruct t as [|l p k v r]; cbn [rootp tsize nodes length].
  - cbn. unfold dassert. by destruct (b_chk e).
  - assert (Hn : (N.of_nat (S (length (nodes l ++ nodes r))) =? 0)%N = false) by (apply N.eqb_neq; lia).
    rewrite Hn. cbn. unfold dassert. by destruct (b_chk e).
Qed.

(** ** Insertion *)

Lemma small_add b n : (n <= 2 ^ 60)%N -> uadd b n 1 = Ret (n + 1)%N.
Proof.
  intros H. unfold uadd. assert (Hlt : (n + 1 < USIZE)%N) by (unfold USIZE; nl).
  apply N.ltb_lt in Hlt. by rewrite Hlt.
Qed.

Lemma len_add_one_spec e m ns : hrep m ns -> (s_len m <= 2 ^ 60)%N ->
  wp (len_add_one e) (fun _ m' => hrep m' ns /\ s_len m' = (s_len m + 1)%N) (fun _ _ => False) m.
Proof.
  intros H Hl. unfold len_add_one. apply wp_bind, wp_get. apply wp_bind.
  eapply wp_lift_ret; [by apply small_add|]. apply wp_mod. split; [|done]. by eapply hrep_same; [|exact H].
Qed.

Lemma len_sub_one_spec e m ns : hrep m ns -> (1 <= s_len m)%N ->
  wp (len_sub_one e) (fun _ m' => hrep m' ns /\ s_len m' = (s_len m - 1)%N) (fun _ _ => False) m.
Proof.
  intros H Hl. unfold len_sub_one. apply wp_bind, wp_get. apply wp_bind.
  eapply (wp_lift_ret _ (s_len m - 1)%N).
  { unfold usub. apply N.leb_le in Hl. by rewrite Hl. }
  apply wp_mod. split; [|done]. by eapply hrep_same; [|exact H].
Qed.

Lemma plug_root C t : forall s s', t = plug C s -> rootp s' = rootp s -> rootp t = rootp (plug C s').
Proof. intros s s' -> H. apply rootp_plug_cong. by right. Qed.

Lemma rep_insert_new m m' t t' (q : Ptr) : simple_rep m t -> hrep m' (nodes t') -> q.1 = 0%N ->
  s_len m' = (s_len m + 1)%N -> (N.of_nat (tsize t) < 2 ^ 60)%N ->
  rootp t' = rootp t -> t <> Leaf -> ptrs t' ≡ₚ q :: ptrs t -> tsize t' = S (tsize t) ->
  simple_rep m' t'.
Proof.
  intros (H & Hroot & Hrc & Hl & Hsz) H' Hq Hl' Hlt Hroot' Hne Hp Hsz'.
  split_and!; [done| | | |].
  - right. rewrite Hroot'. by destruct Hroot.
  - rewrite Hp. intros [Hc|Hc]%elem_of_cons; [|done]. by rewrite <- Hc in Hq.
  - rewrite Hl', Hl, Hsz'. lia.
  - rewrite Hsz'. lia.
Qed.

Lemma simple_insert_loop_spec e o k v t : forall sub C fuel i m,
  t = plug C sub -> simple_rep m t -> pheight sub < fuel -> sub <> Leaf ->
  wp (simple_insert_loop e o fuel i k v (rootp sub))
    (fun y m' => exists q sub', tins o i k v q sub = Ret (sub', y) /\ simple_rep m' (plug C sub'))
    (fun z m' => z = None \/ (z = Some PCmp /\ m' = m /\ forall q, tins o i k v q sub = Panic PCmp)) m.
Proof.
  induction sub as [|l IHl p k0 v0 r IHr]; [done|].
  intros C [|fuel] i m Ht Hrep Hf _; simpl in Hf; [lia|].
  assert (Hnodes : nodes t ≡ₚ (p, mkInner k0 v0 (rootp l) (rootp r)) :: nodes l ++ nodes r ++ cnodes C (Some p)).
  { rewrite Ht, nodes_plug. simpl. solve_Permutation. }
  pose proof (proj1 Hrep) as Hh.
  assert (Hpk : peek m p = Ret (mkInner k0 v0 (rootp l) (rootp r))).
  { eapply hrep_peek; [exact Hh|]. rewrite Hnodes. left. }
  assert (Hne : t <> Leaf).
  { intros Hc. rewrite Hc in Hnodes. simpl in Hnodes. by apply Permutation_nil_cons in Hnodes. }
  assert (Hsz : s_len m = N.of_nat (tsize t) /\ (N.of_nat (tsize t) <= 2 ^ 60)%N) by (by destruct Hrep as (_ & _ & _ & ? & ?)).
  cbn [rootp simple_insert_loop]. apply wp_bind, wp_get. apply wp_bind.
  eapply wp_lift_ret; [exact Hpk|]. apply wp_bind. cbn [n_key n_left n_right n_value].
  cbn [tins]. destruct (o i k0) as [c|] eqn:Ho.
  2:{ apply wp_lift. unfold ask. rewrite Ho. simpl. right. split_and!; done. }
  eapply wp_lift_ret; [unfold ask; by rewrite Ho|].
  unfold ask. rewrite Ho. cbn [rbind]. destruct c.
  - apply wp_bind. eapply wp_mono; [eapply poke_spec; [exact Hh|exact Hnodes]| |done].
    intros [] m' (Hm' & Hl'). apply wp_ret. exists p. eexists. split; [done|].
    assert (Hn' : nodes (plug C (Bin l p k0 v r)) ≡ₚ (p, mkInner k0 v (rootp l) (rootp r)) :: nodes l ++ nodes r ++ cnodes C (Some p)).
    { rewrite nodes_plug. simpl. solve_Permutation. }
    assert (Hptr : ptrs (plug C (Bin l p k0 v r)) ≡ₚ ptrs t).
    { unfold ptrs. rewrite Hn', Hnodes. done. }
    assert (Hts : tsize (plug C (Bin l p k0 v r)) = tsize t).
    { unfold tsize. rewrite Hn', Hnodes. done. }
    destruct Hrep as (_ & Hroot & Hrc & _ & _). split_and!.
    + eapply hrep_perm; [|exact Hm']. symmetry. exact Hn'.
    + right. rewrite <- (plug_root C t (Bin l p k0 v0 r) (Bin l p k0 v r)); [|done|done]. by destruct Hroot.
    + by rewrite Hptr.
    + rewrite Hl', Hts. apply Hsz.
    + rewrite Hts. apply Hsz.
  - destruct l as [|ll lp lk lv lr].
    + cbn [rootp]. apply wp_bind. unfold set_left. apply wp_bind, wp_get. apply wp_bind.
      eapply wp_lift_ret; [exact Hpk|]. cbn [rootp n_left]. apply wp_bind.
      eapply wp_lift_ret; [unfold dassert; by destruct (b_chk e)|]. apply wp_bind.
      eapply wp_mono; [by eapply box_new_spec| |intros z m' ->; by left].
      intros q m1 (Hq & Hfresh & H1 & Hl1 & Hlt).
      eapply wp_mono; [eapply (poke_spec m1 _ p); [exact H1|]| |done].
      { rewrite Hnodes. apply Permutation_swap. }
      intros [] m2 (H2 & Hl2). apply wp_bind. eapply wp_mono; [by eapply len_add_one_spec; [exact H2|rewrite Hl2, Hl1; destruct Hsz; lia]| |done].
      intros [] m3 (H3 & Hl3). apply wp_ret. exists q. eexists. split; [done|].
      assert (Hn' : nodes (plug C (Bin (Bin Leaf q k v Leaf) p k0 v0 r)) ≡ₚ
        (p, mkInner k0 v0 (Some q) (rootp r)) :: (q, inner_new k v) :: nodes r ++ cnodes C (Some p)).
      { rewrite nodes_plug. simpl. unfold inner_new. solve_Permutation. }
      eapply (rep_insert_new m m3 t _ q); [done| |done| | | |done| |].
      * eapply hrep_perm; [|exact H3]. rewrite Hn'. unfold with_left. simpl. done.
      * by rewrite Hl3, Hl2, Hl1.
      * done.
      * symmetry. by eapply plug_root.
      * unfold ptrs. rewrite Hn', Hnodes. simpl. solve_Permutation.
      * unfold tsize. rewrite Hn', Hnodes. done.
    + cbn [rootp].
      eapply wp_mono; [eapply (IHl (FL p k0 v0 r :: C)); [done|done|simpl in *; lia|done]| |].
      * intros x m' (q & sub' & Hins & Hpost). exists q. rewrite Hins. simpl. eexists. split; [done|]. done.
      * intros x m' [->|(-> & -> & Hp)]; [by left|]. right. split_and!; try done. intros q. by rewrite Hp.
  - destruct r as [|rl rp rk rv rr].
    + cbn [rootp]. apply wp_bind. unfold set_right. apply wp_bind, wp_get. apply wp_bind.
      eapply wp_lift_ret; [exact Hpk|]. cbn [rootp n_right]. apply wp_bind.
      eapply wp_lift_ret; [unfold dassert; by destruct (b_chk e)|]. apply wp_bind.
      eapply wp_mono; [by eapply box_new_spec| |intros z m' ->; by left].
      intros q m1 (Hq & Hfresh & H1 & Hl1 & Hlt).
      eapply wp_mono; [eapply (poke_spec m1 _ p); [exact H1|]| |done].
      { rewrite Hnodes. apply Permutation_swap. }
      intros [] m2 (H2 & Hl2). apply wp_bind. eapply wp_mono; [by eapply len_add_one_spec; [exact H2|rewrite Hl2, Hl1; destruct Hsz; lia]| |done].
      intros [] m3 (H3 & Hl3). apply wp_ret. exists q. eexists. split; [done|].
      assert (Hn' : nodes (plug C (Bin l p k0 v0 (Bin Leaf q k v Leaf))) ≡ₚ
        (p, mkInner k0 v0 (rootp l) (Some q)) :: (q, inner_new k v) :: nodes l ++ cnodes C (Some p)).
      { rewrite nodes_plug. simpl. unfold inner_new. solve_Permutation. }
      eapply (rep_insert_new m m3 t _ q); [done| |done| | | |done| |].
      * eapply hrep_perm; [|exact H3]. rewrite Hn'. unfold with_right. simpl. done.
      * by rewrite Hl3, Hl2, Hl1.
      * done.
      * symmetry. by eapply plug_root.
      * unfold ptrs. rewrite Hn', Hnodes. simpl. solve_Permutation.
      * unfold tsize. rewrite Hn', Hnodes. done.
    + cbn [rootp].
      eapply wp_mono; [eapply (IHr (FR l p k0 v0 :: C)); [done|done|simpl in *; lia|done]| |].
      * intros x m' (q & sub' & Hins & Hpost). exists q. rewrite Hins. simpl. eexists. split; [done|]. done.
      * intros x m' [->|(-> & -> & Hp)]; [by left|]. right. split_and!; try done. intros q. by rewrite Hp.
Qed.

Lemma simple_insert_spec e o k v m t : simple_rep m t ->
  wp (simple_insert e o k v)
    (fun y m' => exists q t', tins o 0 k v q t = Ret (t', y) /\ simple_rep m' t')
    (fun z m' => z = None \/ (z = Some PCmp /\ m' = m /\ forall q, tins o 0 k v q t = Panic PCmp)) m.
Proof.
  intros H. unfold simple_insert. apply wp_bind, wp_get. rewrite (simple_root_ret _ _ H).
  destruct t as [|l p k0 v0 r]; cbn [rootp].
  - apply wp_bind. destruct H as (Hh & _ & _ & Hl & _).
    eapply wp_mono; [eapply place_spec; [exact Hh|by apply not_elem_of_nil]| |done].
    intros [] m1 (H1 & Hl1). apply wp_bind, wp_get. apply wp_bind.
    eapply wp_lift_ret; [rewrite Hl1, Hl; cbn; unfold dassert; by destruct (b_chk e)|].
    apply wp_bind, wp_mod, wp_ret. exists root_place. eexists. split; [done|]. split_and!.
    + by eapply hrep_same; [|exact H1].
    + by right.
    + simpl. by intros [?|?%elem_of_nil]%elem_of_cons.
    + done.
    + done.
  - eapply wp_mono; [eapply (simple_insert_loop_spec e o k v _ (Bin l p k0 v0 r) []); [done|done| |done]| |].
    + by apply simple_fuel_height.
    + done.
    + done.
Qed.

(** ** Removal *)

Lemma simple_remove_find_eq m o sub : forall C fuel i, sreadable m sub -> pheight sub < fuel ->
  simple_remove_find m o fuel i (cparent C) (rootp sub) =
  rmap (fun x => (cparent x.1, rootp x.2)) (tfind o i C sub).
Proof.
  induction sub as [|l IHl p k v r IHr]; intros C [|fuel] i Hr Hf; simpl in *; try lia; [done|].
  rewrite (sreadable_root _ _ _ _ _ _ Hr). simpl. unfold ask.
  destruct (o i k) as [[]|]; simpl; [done| | |done].
  - apply (IHl (FL p k v r :: C)); [by eapply sreadable_l|lia].
  - apply (IHr (FR l p k v :: C)); [by eapply sreadable_r|lia].
Qed.

Lemma simple_succ_loop_eq m l : forall C fuel p k v r f C' x mr, sreadable m (Bin l p k v r) -> pheight l < fuel ->
  tmin_ctx (f :: C) l p k v r = (C', x, mr) ->
  exists f' C'', C' = f' :: C'' /\ simple_succ_loop m fuel (fptr f) p = Ret (fptr f', x.1).
Proof.
  induction l as [|ll IHll lp lk lv lr _]; intros C [|fuel] p k v r f C' x mr Hr Hf Hm; simpl in *; try lia.
  - rewrite (sreadable_root _ _ _ _ _ _ Hr). simpl. injection Hm as <- <- <-. by exists f, C.
  - rewrite (sreadable_root _ _ _ _ _ _ Hr). simpl.
    destruct (IHll _ fuel _ _ _ _ _ _ _ _ (sreadable_l _ _ _ _ _ _ Hr) ltac:(lia) Hm) as (f' & C'' & -> & Hs).
    by exists f', C''.
Qed.

Lemma hrep_fuel m ns : hrep m ns -> simple_fuel m = S (length ns).
Proof. intros H. unfold simple_fuel. by rewrite (hrep_size _ _ H). Qed.

(** [p] is the node to remove, [x] what takes its place; [F] is the rest. *)
Lemma simple_replacement_spec e m ns p k v l r F : hrep m ns ->
  ns ≡ₚ (p, mkInner k v (rootp l) (rootp r)) :: nodes l ++ nodes r ++ F -> right_child_place ∉ ns.*1 ->
  wp (simple_replacement e p) (fun y m' => s_len m' = s_len m /\ exists x : ptree K V, y = val x /\
      erase x = erase (tjoin l r) /\ hrep m' ((p, mkInner k v None None) :: below x ++ F) /\
      right_child_place ∉ (below x).*1) no_memory m.
Proof.
  intros H Hp Hrc.
  assert (Hrcp : right_child_place <> p /\ right_child_place ∉ (nodes l).*1 /\ right_child_place ∉ (nodes r).*1 /\
                 right_child_place ∉ F.*1).
  { rewrite Hp in Hrc. simpl in Hrc. rewrite !fmap_app in Hrc. set_solver. }
  destruct Hrcp as (Hrcp & Hrcl & Hrcr & HrcF).
  unfold simple_replacement. apply wp_bind.
  eapply wp_mono; [eapply take_left_spec; [exact H|exact Hp]| |done].
  intros yl m1 (-> & H1 & Hl1). apply wp_bind.
  eapply wp_mono; [eapply (take_right_spec m1 _ p k v None r (below l ++ F)); [exact H1|]| |done].
  { solve_Permutation. }
  intros yr m2 (-> & H2 & Hl2).
  destruct l as [|ll lp lk lv lr].
  { (* no left child *)
    assert (Hgoal : s_len m2 = s_len m /\ exists x : ptree K V, val r = val x /\
      erase x = erase (tjoin Leaf r) /\ hrep m2 ((p, mkInner k v None None) :: below x ++ F) /\
      right_child_place ∉ (below x).*1).
    { split; [congruence|]. exists r. split_and!; try done.
      destruct r; [done|]. unfold below. unfold nodes in Hrcr. fold (nodes r1) (nodes r2) in Hrcr. simpl in Hrcr. set_solver. }
    cbn [val]. destruct (val r) eqn:Hv; apply wp_ret; exact Hgoal. }
  destruct r as [|rl rp rk rv rr].
  { cbn [val]. apply wp_ret. split; [congruence|]. exists (Bin ll lp lk lv lr). split_and!; try done.
    unfold below. simpl in Hrcl. set_solver. }
  (* two children *)
  cbn [val]. cbn [below] in H2.
  set (L := Bin ll lp lk lv lr) in *.
  assert (Hrcbl : right_child_place ∉ (below L).*1).
  { unfold L, below. simpl in Hrcl. set_solver. }
  assert (HrcR : right_child_place ∉ (nodes rl).*1 /\ right_child_place ∉ (nodes rr).*1).
  { simpl in Hrcr. rewrite fmap_app in Hrcr. set_solver. }
  apply wp_bind.
  eapply wp_mono; [eapply place_spec; [exact H2|]| |done].
  { simpl. rewrite !fmap_app. intros Hc. change (nodes ll ++ nodes lr) with (below L) in Hc. set_solver. }
  intros [] m3 (H3 & Hl3).
  set (G := (p, mkInner k v None None) :: F) in *.
  eapply (hrep_perm _ _ (nodes (Bin rl right_child_place rk rv rr) ++ below L ++ G)) in H3.
  2:{ unfold G. simpl. solve_Permutation. }
  (* the last step, common to both cases *)
  assert (Hlast : forall m4 mk mv (R : ptree K V), hrep m4 (below L ++ nodes R ++ G) -> s_len m4 = s_len m3 ->
     right_child_place ∉ (nodes R).*1 ->
     erase (tjoin L (Bin rl rp rk rv rr)) = tnode (erase L) mk mv (erase R) ->
     wp (let! inorder_succ_node := set_left_val e (mkInner mk mv None (rootp R)) (mkInner lk lv (rootp ll) (rootp lr)) in
         sret (Some inorder_succ_node))
       (fun y m' => s_len m' = s_len m /\ exists x : ptree K V, y = val x /\
          erase x = erase (tjoin L (Bin rl rp rk rv rr)) /\ hrep m' ((p, mkInner k v None None) :: below x ++ F) /\
          right_child_place ∉ (below x).*1) no_memory m4).
  { intros m4 mk mv R H4 Hl4 HrcR' Her. apply wp_bind.
    eapply wp_mono; [eapply (set_left_val_spec e m4 _ mk mv (rootp R) L); [exact H4|reflexivity|done]| |done].
    intros y m5 (q & Hq & -> & H5 & Hl5). apply wp_ret. split; [congruence|].
    exists (Bin (reloc q L) p mk mv R). split_and!.
    - done.
    - rewrite Her. cbn [erase]. by rewrite erase_reloc.
    - eapply hrep_perm; [|exact H5]. unfold G. cbn [below]. solve_Permutation.
    - cbn [below]. rewrite fmap_app. intros [Hc|Hc]%elem_of_app; [|done].
      rewrite nodes_reloc in Hc. cbn [val L] in Hc. simpl in Hc.
      apply elem_of_cons in Hc as [Hc|Hc]; [by rewrite <- Hc in Hq|]. done. }
  destruct rl as [|rll rlp rlk rlv rlr].
  { cbn [rootp n_left]. apply wp_bind.
    eapply wp_mono; [eapply (move_out_spec m3 _ right_child_place); [exact H3|simpl; reflexivity]| |done].
    intros y m4 (-> & H4 & Hl4). apply Hlast; [|done|tauto|done].
    eapply hrep_perm; [|exact H4]. cbn. solve_Permutation. }
  cbn [rootp n_left]. set (RL := Bin rll rlp rlk rlv rlr) in *.
  apply wp_bind. apply wp_bind, wp_get.
  destruct (tmin_ctx [FL right_child_place rk rv rr] rll rlp rlk rlv rlr) as [[C' [mp [mk mv]]] mr] eqn:Hctx.
  pose proof (tmin_ctx_top _ _ _ _ _ _ _ _ _ _ _ _ _ Hctx) as (p1 & k1 & v1 & r1 & C1 & ->).
  destruct (tmin_ctx_spec _ _ _ _ _ _ _ _ _ _ _ Hctx) as (Hplug & r' & Hmin & Hplug' & D & HD).
  apply wp_bind.
  assert (Hreads : sreadable m3 RL).
  { intros q n Hin. eapply hrep_peek; [exact H3|]. simpl. right. set_solver. }
  assert (Hfuel : pheight rll < simple_fuel m3).
  { rewrite (hrep_fuel _ _ H3). pose proof (pheight_size rll). cbn [nodes app length]. rewrite !app_length. unfold RL.
    cbn [nodes app length]. rewrite !app_length. unfold tsize in *. lia. }
  destruct (simple_succ_loop_eq m3 rll [] _ _ _ _ _ _ _ _ _ Hreads Hfuel Hctx) as (f' & C'' & Heq & Hsucc).
  injection Heq as <- <-. cbn [fptr fst] in Hsucc.
  eapply wp_lift_ret; [exact Hsucc|].
  assert (Hmem : nodes (Bin RL right_child_place rk rv rr) ≡ₚ
     (mp, mkInner mk mv None (rootp mr)) :: nodes mr ++ (p1, mkInner k1 v1 (Some mp) (rootp r1)) :: nodes r1 ++ cnodes C1 (Some p1)).
  { change (Bin RL right_child_place rk rv rr) with (plug [FL right_child_place rk rv rr] RL).
    unfold RL. rewrite <- Hplug, nodes_plug. simpl. solve_Permutation. }
  apply wp_bind.
  eapply wp_mono; [eapply (take_right_spec m3 _ mp mk mv None mr); [exact H3|]| |done].
  { rewrite Hmem. simpl. rewrite <- app_assoc. reflexivity. }
  intros y4 m4 (-> & H4 & Hl4). apply wp_bind.
  eapply wp_mono; [eapply (replace_left_spec e m4 _ p1 k1 v1 (Bin Leaf mp mk mv Leaf) (rootp r1) mr
    (nodes r1 ++ cnodes C1 (Some p1) ++ below L ++ G)); [exact H4|]| |done].
  { simpl. solve_Permutation. }
  intros y5 m5 (-> & Hl5 & q & Hq & H5). cbn [val]. apply wp_bind, wp_ret. apply wp_bind.
  set (Y := plug (FL p1 k1 v1 r1 :: C1) (reloc q mr)).
  assert (HY : exists a kk vv b, Y = Bin a right_child_place kk vv b).
  { assert (Hr : rootp Y = rootp (plug (FL p1 k1 v1 r1 :: C1) mr)) by (apply rootp_plug_cong; by left).
    rewrite Hplug' in Hr. simpl in Hr. destruct Y as [|a pp kk vv b]; [done|]. injection Hr as ->. by exists a, kk, vv, b. }
  destruct HY as (a & kk & vv & b & HY).
  assert (HeY : erase Y = tnode (erase r') rk rv (erase rr)).
  { change (tnode (erase r') rk rv (erase rr)) with (erase (plug [FL right_child_place rk rv rr] r')).
    rewrite <- Hplug'. unfold Y. apply erase_plug_cong, erase_reloc. }
  assert (H5' : hrep m5 (nodes Y ++ below L ++ G)).
  { eapply hrep_perm; [|exact H5]. unfold Y. rewrite nodes_plug. simpl. solve_Permutation. }
  rewrite HY in H5'.
  assert (HrcY : right_child_place ∉ (nodes a ++ nodes b).*1).
  { apply hrep_nodup in H5'. cbn [nodes app fmap list_fmap] in H5'. apply NoDup_cons in H5' as [Hc _].
    cbn [fst] in Hc. rewrite fmap_app in Hc. intros Hc'. apply Hc, elem_of_app. by left. }
  eapply wp_mono; [eapply (move_out_spec m5 _ right_child_place); [exact H5'|simpl; reflexivity]| |done].
  intros y6 m6 (-> & H6 & Hl6).
  eapply wp_mono; [eapply (set_right_val_spec e m6 _ mk mv None (Bin a p kk vv b) _ (below L ++ G)); [exact H6| |reflexivity]| |done].
  { simpl. solve_Permutation. }
  intros y7 m7 (q2 & Hq2 & -> & H7 & Hl7). apply Hlast.
  - eapply hrep_perm; [|exact H7]. solve_Permutation.
  - congruence.
  - simpl. intros [Hc|Hc]%elem_of_cons; [by rewrite <- Hc in Hq2|]. done.
  - rewrite tjoin_erase. unfold L at 1, RL. cbn [erase tree_join tree_min].
    rewrite (tmin_erase _ _ _ _ _ _ _ Hmin). cbn [snd reloc erase]. rewrite HY in HeY. cbn [erase] in HeY. by rewrite HeY.
Qed.

Lemma simple_remove_entry_spec e o m t : simple_rep m t ->
  wp (simple_remove_entry e o)
    (fun y m' => exists t' t2 x, trem o 0 t = Ret (t2, x) /\ y = snd <$> x /\ erase t' = erase t2 /\ simple_rep m' t')
    (fun z m' => z = None \/ (z = Some PCmp /\ m' = m /\ trem o 0 t = Panic PCmp)) m.
Proof.
  intros Hrep. unfold simple_remove_entry. apply wp_bind, wp_get. rewrite (simple_root_ret _ _ Hrep).
  assert (t = Leaf \/ t <> Leaf) as [->|Hne] by (destruct t; [by left|by right]).
  { cbn [rootp]. apply wp_ret. exists Leaf, Leaf, None. done. }
  assert (Hroot : rootp t = Some root_place) by (destruct Hrep as (_ & [|] & _); done).
  rewrite Hroot. apply wp_bind.
  pose proof (simple_remove_find_eq m o t [] (simple_fuel m) 0 (simple_readable _ _ Hrep) (simple_fuel_height _ _ Hrep)) as Hfind.
  rewrite Hroot in Hfind. cbn [cparent head fmap option_fmap option_map] in Hfind.
  pose proof (tfind_trem o t 0 []) as Htr.
  destruct (tfind o 0 [] t) as [[C [|l p k v r]]|z| |u|]; try done.
  - destruct Htr as [Htr _]. eapply wp_lift_ret; [exact Hfind|]. cbn [rootp].
    apply wp_ret. exists t, t, None. done.
  - destruct Htr as (t' & Htr & Hj & Ht). cbn [plug] in Hj, Ht. subst t'.
    eapply wp_lift_ret; [exact Hfind|]. cbn [rootp fst snd].
    destruct Hrep as (Hh & _ & Hrc & Hlen & Hsz).
    assert (Hnodes : nodes t ≡ₚ (p, mkInner k v (rootp l) (rootp r)) :: nodes l ++ nodes r ++ cnodes C (Some p)).
    { rewrite <- Ht, nodes_plug. simpl. solve_Permutation. }
    assert (Hts : tsize t = S (tsize (plug C (tjoin l r)))).
    { pose proof (trem_perm _ _ _ _ _ Htr) as Hperm. simpl in Hperm. apply Permutation_length in Hperm.
      simpl in Hperm. rewrite !ppre_length in Hperm. lia. }
    apply wp_bind. eapply wp_mono; [eapply len_sub_one_spec; [exact Hh|rewrite Hlen; lia]| |done].
    intros [] m1 (H1 & Hl1). apply wp_bind.
    eapply wp_mono; [eapply simple_replacement_spec; [exact H1|exact Hnodes|exact Hrc]| |intros z ? ->; by left].
    intros y m2 (Hl2 & x & -> & Hex & H2 & Hrcx).
    (* any tree with the right nodes will do *)
    assert (Hfin : forall m3 (t3 : ptree K V) q, hrep m3 (nodes t3) -> t3 = plug C (reloc q x) -> s_len m3 = s_len m2 ->
       (t3 = Leaf \/ rootp t3 = Some root_place) -> (q.1 <> 2)%N ->
       exists t' t2 x, trem o 0 t = Ret (t2, x) /\ Some (k, v) = snd <$> x /\ erase t' = erase t2 /\ simple_rep m3 t').
    { intros m3 t3 q H3 -> Hl3 Hr3 Hq. eexists _, _, _. split; [exact Htr|]. split; [done|].
      assert (Her : erase (plug C (reloc q x)) = erase (plug C (tjoin l r))).
      { apply erase_plug_cong. by rewrite erase_reloc. }
      split; [exact Her|]. pose proof (tsize_erase _ _ Her) as Hts3. split_and!; [done|done| | |].
      - unfold ptrs. rewrite nodes_plug, fmap_app. intros [Hc|Hc]%elem_of_app.
        + rewrite nodes_reloc in Hc. destruct (val x); [|by apply elem_of_nil in Hc]. simpl in Hc.
          apply elem_of_cons in Hc as [Hc|Hc]; [by rewrite <- Hc in Hq|done].
        + apply Hrc. unfold ptrs. rewrite Hnodes. simpl. rewrite !fmap_app.
          assert (HC : (cnodes C (Some p)).*1 = (cnodes C (rootp (reloc q x))).*1).
          { destruct C as [|f C]; [done|]. simpl. f_equal. by destruct f. }
          rewrite HC. set_solver.
      - rewrite Hl3, Hl2, Hl1, Hlen, Hts3. lia.
      - rewrite Hts3. lia. }
    destruct C as [|f C].
    + (* the root *)
      cbn [cparent head fmap option_fmap option_map]. cbn [plug] in *. subst t. cbn [rootp] in Hroot. injection Hroot as ->.
      apply wp_bind, wp_get.
      assert (Hlk : s_mem m2 !! root_place = Some (mkInner k v None None)) by (eapply hrep_lookup; [exact H2|left]).
      rewrite Hlk. cbn [unwrap]. apply wp_bind, wp_ret. apply wp_bind, wp_mod, wp_ret.
      cbn [n_key n_value]. apply (Hfin _ (reloc root_place x) root_place); [|done|done| |done].
      * cbn [cnodes] in H2. rewrite app_nil_r in H2. destruct H2 as [Hnd Hm2].
        rewrite nodes_reloc. split.
        -- destruct (val x); [exact Hnd|constructor].
        -- cbn [set_mem s_mem]. rewrite Hm2. destruct x as [|xl xp xk xv xr]; cbn [val].
           ++ cbn. by rewrite delete_insert.
           ++ simpl. apply insert_insert.
      * destruct x; [by left|by right].
    + cbn [cparent head fmap option_fmap option_map]. apply wp_bind, wp_get. cbn [cnodes] in H2, Hnodes.
      assert (Hroot3 : forall q, rootp (plug (f :: C) (reloc q x)) = Some root_place).
      { intros q. rewrite <- Hroot, <- Ht. apply rootp_plug_cong. by left. }
      apply wp_bind. destruct f as [fp fk fv fr|fl fp fk fv]; cbn [fnode fsib fptr] in *.
      * eapply wp_lift_ret; [eapply hrep_peek; [exact H2|]; right; apply elem_of_app; right; left|]. cbn [n_left].
        rewrite bool_decide_eq_true_2 by done. apply wp_bind.
        eapply wp_mono; [eapply (replace_left_spec e m2 _ fp fk fv (Bin Leaf p k v Leaf) (rootp fr) x
          (nodes fr ++ cnodes C (Some fp))); [exact H2|simpl; solve_Permutation]| |intros z ? ->; by left].
        intros y m3 (-> & Hl3 & q & Hq & H3). cbn [val unwrap]. apply wp_bind, wp_ret, wp_ret.
        cbn [n_key n_value]. eapply (Hfin _ _ q); [|reflexivity|done|right; apply Hroot3|by rewrite Hq].
        eapply hrep_perm; [|exact H3]. rewrite nodes_plug. simpl. solve_Permutation.
      * eapply wp_lift_ret; [eapply hrep_peek; [exact H2|]; right; apply elem_of_app; right; left|]. cbn [n_left].
        rewrite bool_decide_eq_false_2.
        2:{ intros Hc. destruct fl as [|fll flp flk flv flr]; [done|]. cbn [rootp] in Hc. injection Hc as ->.
            apply hrep_nodup in H2. simpl in H2. apply NoDup_cons in H2 as [H2 _]. apply H2.
            rewrite fmap_app. simpl. set_solver. }
        apply wp_bind.
        eapply wp_mono; [eapply (replace_right_spec e m2 _ fp fk fv (rootp fl) (Bin Leaf p k v Leaf) x
          (nodes fl ++ cnodes C (Some fp))); [exact H2|simpl; solve_Permutation]| |intros z ? ->; by left].
        intros y m3 (-> & Hl3 & q & Hq & H3). cbn [val unwrap]. apply wp_bind, wp_ret, wp_ret.
        cbn [n_key n_value]. eapply (Hfin _ _ q); [|reflexivity|done|right; apply Hroot3|by rewrite Hq].
        eapply hrep_perm; [|exact H3]. rewrite nodes_plug. simpl. solve_Permutation.
  - destruct Htr as [Htr ->]. apply wp_lift. rewrite Hfind. simpl. right. done.
Qed.

Lemma simple_remove_spec e o m t : simple_rep m t ->
  wp (simple_remove e o)
    (fun y m' => exists t' t2 x, trem o 0 t = Ret (t2, x) /\ y = snd <$> (snd <$> x) /\ erase t' = erase t2 /\ simple_rep m' t')
    (fun z m' => z = None \/ (z = Some PCmp /\ m' = m /\ trem o 0 t = Panic PCmp)) m.
Proof.
  intros H. unfold simple_remove. apply wp_bind. eapply wp_mono; [by apply simple_remove_entry_spec| |done].
  intros y m' (t' & t2 & x & Htr & -> & He & Hr). apply wp_ret. exists t', t2, x. done.
Qed.

End ops.
