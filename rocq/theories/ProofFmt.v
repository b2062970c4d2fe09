(** * Printing: proofs *)

From Coq Require Import String.
From Verif Require Export ProofEq SpecFmt.
From Verif Require Import ModelIter.
Local Open Scope string_scope.
Local Open Scope list_scope.
Local Open Scope nat_scope.

Section perform.
Context {K V S : Type} (w : string -> M S bool) (fk : K -> M S bool) (fv : V -> M S bool) (fn : N -> M S bool).
Notation piece := (piece K V).

Definition emit (p : piece) : M S bool :=
  match p with PText s => w s | PKey k => fk k | PValue v => fv v | PNum n => fn n end.
Fixpoint perform (l : list piece) : M S bool :=
  match l with [] => sret true | p :: l => and_then (emit p) (perform l) end.

Lemma and_then_ext (a a' b b' : M S bool) s : (forall s, a s = a' s) -> (forall s, b s = b' s) -> and_then a b s = and_then a' b' s.
Proof.
  intros Ha Hb. unfold and_then, sbind. rewrite Ha. destruct (a' s) as [[[]| | | |] s']; try done; apply Hb.
Qed.
Lemma and_then_assoc (a b c : M S bool) s : and_then (and_then a b) c s = and_then a (and_then b c) s.
Proof.
  unfold and_then, sbind. destruct (a s) as [[[]| | | |] s']; done.
Qed.
Lemma and_then_true (a : M S bool) s : and_then a (sret true) s = a s.
Proof. unfold and_then, sbind. by destruct (a s) as [[[]| | | |] s']. Qed.

Lemma perform_app l1 l2 s : perform (l1 ++ l2) s = and_then (perform l1) (perform l2) s.
Proof.
  revert s. induction l1 as [|p l1 IH]; intros s; cbn [app perform]; [done|].
  rewrite and_then_assoc. by apply and_then_ext.
Qed.
Lemma perform_one p s : emit p s = perform [p] s.
Proof. symmetry. apply and_then_true. Qed.
Lemma perform_two a b l1 l2 s : (forall s, a s = perform l1 s) -> (forall s, b s = perform l2 s) ->
  and_then a b s = perform (l1 ++ l2) s.
Proof. intros Ha Hb. rewrite perform_app. by apply and_then_ext. Qed.
Lemma write_then str b l s : (forall s, b s = perform l s) -> and_then (w str) b s = perform (PText str :: l) s.
Proof. intros Hb. cbn [perform emit]. by apply and_then_ext. Qed.

(** A builder that has written [l], and what follows. *)
Definition resume (l : list piece) (h : bool) (k : dstruct -> M S bool) : M S bool :=
  sbind (perform l) (fun b => k (b, h)).

Lemma resume_start name k s : sbind (debug_struct w name) k s = resume [PText name] false k s.
Proof.
  unfold resume, debug_struct, sbind. rewrite <- (perform_one (PText name)). cbn [emit].
  by destruct (w name s) as [[]].
Qed.
Lemma resume_field l h name value lv k s : (forall s, value s = perform lv s) ->
  resume l h (fun b => sbind (field w b name value) k) s =
  resume (l ++ [PText (if h then ", " else " { "); PText name; PText ": "] ++ lv) true k s.
Proof.
  intros Hv. unfold resume, sbind. rewrite perform_app. unfold and_then at 1, sbind.
  destruct (perform l s) as [[[]| | | |] s1]; try done.
  unfold field, sbind. cbn [fst snd].
  replace (and_then (w (if h then ", " else " { ")) (and_then (w name) (and_then (w ": ") value)) s1)
    with (perform ([PText (if h then ", " else " { "); PText name; PText ": "] ++ lv) s1).
  { by destruct (perform _ s1) as [[]]. }
  symmetry. repeat (apply write_then; intros ?). apply Hv.
Qed.
Lemma resume_lift {A} l h (x : A) (k : dstruct -> A -> M S bool) s :
  resume l h (fun b => sbind (slift (Ret x)) (k b)) s = resume l h (fun b => k b x) s.
Proof. apply bind_ext. intros b s'. apply lift_ret. Qed.
Lemma resume_finish l s : resume l true (finish w) s = perform (l ++ [PText " }"]) s.
Proof.
  unfold resume. rewrite perform_app. unfold and_then, sbind, finish. cbn [fst snd].
  destruct (perform l s) as [[[]| | | |] s1]; try done. by rewrite <- perform_one.
Qed.

Lemma fmt_option_none {A} (f : A -> M S bool) s : fmt_option w f None s = perform [PText "None"] s.
Proof. cbn [fmt_option]. apply (perform_one (PText "None")). Qed.
Lemma fmt_option_some {A} (f : A -> M S bool) x l s : (forall s, f x s = perform l s) ->
  fmt_option w f (Some x) s = perform ([PText "Some"; PText "("] ++ l ++ [PText ")"]) s.
Proof.
  intros Hf. cbn [fmt_option app]. apply write_then. intros s1. apply (perform_two _ _ (PText "(" :: l) [PText ")"]).
  - intros s2. by apply write_then.
  - intros s2. apply (perform_one (PText ")")).
Qed.
Lemma fmt_str_eq str s : fmt_str w str s = perform [PText quote; PText str; PText quote] s.
Proof. unfold fmt_str. repeat (apply write_then; intros ?). apply (perform_one (PText quote)). Qed.

Lemma tree_pieces_some (t : tree K V) : t <> tleaf ->
  tree_pieces t = [PText "Some"; PText "("] ++ node_pieces t ++ [PText ")"].
Proof.
  destruct t as [|l k v r]; [done|]. intros _. cbn. by repeat (rewrite <- ?app_assoc; cbn [app]).
Qed.

Lemma write_key_ok k s : fk k s = perform [PKey k] s.
Proof. apply (perform_one (PKey k)). Qed.
Lemma write_value_ok v s : fv v s = perform [PValue v] s.
Proof. apply (perform_one (PValue v)). Qed.
Lemma write_num_ok n s : fn n s = perform [PNum n] s.
Proof. apply (perform_one (PNum n)). Qed.
End perform.

Ltac fopen w fk fv fn := etransitivity; [apply (resume_start w fk fv fn)|].
Ltac fentry H := etransitivity; [eapply resume_field; intros; apply H|].
Ltac flook := etransitivity; [apply resume_lift|]; cbv beta.
Ltac fclose := etransitivity; [apply resume_finish|].

Section perform.
Context {K V S : Type} (w : string -> M S bool) (fk : K -> M S bool) (fv : V -> M S bool) (fn : N -> M S bool).
Notation piece := (piece K V).
Notation performs := (perform w fk fv fn).

(** ** BSTMap *)

Lemma node_fmt_eq m (t : ptree K V) : forall fuel n, readable m t -> pheight t < Datatypes.S fuel -> node_of t = Some n ->
  forall s, node_fmt w fk fv m (Datatypes.S fuel) n s = performs (node_pieces (erase t)) s.
Proof.
  induction t as [|l IHl p k v r IHr]; intros fuel n Hr Hf Hn; simpl in Hn; [done|].
  injection Hn as <-. simpl in Hf. intros s. cbn [node_fmt].
  unfold node_left, node_right. cbn [nd_inner n_left n_right].
  rewrite (opt_node_ret m l) by (by eapply readable_l).
  rewrite (opt_node_ret m r) by (by eapply readable_r).
  assert (Hc : forall c, (forall fuel n, readable m c -> pheight c < Datatypes.S fuel -> node_of c = Some n ->
      forall s, node_fmt w fk fv m (Datatypes.S fuel) n s = performs (node_pieces (erase c)) s) -> readable m c -> pheight c < fuel ->
    forall s, fmt_option w (node_fmt w fk fv m fuel) (node_of c) s = performs (tree_pieces (erase c)) s).
  { intros c IH Hrc Hh s1. destruct (node_of c) as [nc|] eqn:Hnc; [|destruct c; [apply fmt_option_none|done]].
    rewrite tree_pieces_some by (by destruct c). apply fmt_option_some. destruct fuel as [|fuel]; [lia|]. by apply IH. }
  assert (Hl := Hc l IHl (readable_l _ _ _ _ _ _ Hr) ltac:(lia)).
  assert (Hr' := Hc r IHr (readable_r _ _ _ _ _ _ Hr) ltac:(lia)). clear Hc IHl IHr.
  fopen w fk fv fn. fentry @write_key_ok. fentry @write_value_ok. flook. fentry Hl. flook. fentry Hr'. fclose.
  f_equal; cbn; by rewrite <- ?app_assoc.
Qed.

Lemma map_fmt_eq m (t : ptree K V) fl : map_rep m t fl ->
  forall s, map_fmt w fk fv m s = performs (map_pieces (erase t)) s.
Proof.
  intros Hrep s. unfold map_fmt. rewrite (map_root_ret _ _ _ Hrep).
  assert (Hc : forall s, fmt_option w (node_fmt w fk fv m (map_fuel m)) (node_of t) s = performs (tree_pieces (erase t)) s).
  { intros s1. destruct (node_of t) as [nc|] eqn:Hnc; [|destruct t; [apply fmt_option_none|done]].
    rewrite tree_pieces_some by (by destruct t). apply fmt_option_some. intros s2. unfold map_fuel. apply node_fmt_eq; try done.
    - by eapply rep_readable.
    - by eapply rep_fuel_height. }
  fopen w fk fv fn. flook. fentry Hc. fclose. f_equal; cbn; by rewrite <- ?app_assoc.
Qed.

Lemma nodemut_fmt_eq m l p k v r (s : S) : readable m (Bin l p k v r) ->
  nodemut_fmt w fk fv m p s = performs (nodemut_pieces k v) s.
Proof.
  intros Hr%readable_root. unfold nodemut_fmt, nodemut_key, nodemut_value. rewrite Hr. cbn [rmap rbind n_key n_value].
  fopen w fk fv fn. flook. fentry @write_key_ok. flook. fentry @write_value_ok. fentry @fmt_str_eq. fentry @fmt_str_eq. fclose. done.
Qed.

(** ** SimpleBSTMap *)

Lemma box_fmt_eq m (t : ptree K V) : forall fuel p, sreadable m t -> pheight t < Datatypes.S fuel -> rootp t = Some p ->
  forall s, box_fmt w fk fv m (Datatypes.S fuel) p s = performs (node_pieces (erase t)) s.
Proof.
  induction t as [|l IHl q k v r IHr]; intros fuel p Hr Hf Hn; simpl in Hn; [done|].
  injection Hn as <-. simpl in Hf. intros s. cbn [box_fmt]. rewrite (sreadable_root _ _ _ _ _ _ Hr), lift_ret. cbn [n_key n_value n_left n_right].
  assert (Hc : forall c, (forall fuel p, sreadable m c -> pheight c < Datatypes.S fuel -> rootp c = Some p ->
      forall s, box_fmt w fk fv m (Datatypes.S fuel) p s = performs (node_pieces (erase c)) s) -> sreadable m c -> pheight c < fuel ->
    forall s, fmt_option w (box_fmt w fk fv m fuel) (rootp c) s = performs (tree_pieces (erase c)) s).
  { intros c IH Hrc Hh s1. destruct (rootp c) as [nc|] eqn:Hnc; [|destruct c; [apply fmt_option_none|done]].
    rewrite tree_pieces_some by (by destruct c). apply fmt_option_some. destruct fuel as [|fuel]; [lia|]. by apply IH. }
  assert (Hl := Hc l IHl (sreadable_l _ _ _ _ _ _ Hr) ltac:(lia)).
  assert (Hr' := Hc r IHr (sreadable_r _ _ _ _ _ _ Hr) ltac:(lia)). clear Hc IHl IHr.
  fopen w fk fv fn. fentry @write_key_ok. fentry @write_value_ok. fentry Hl. fentry Hr'. fclose.
  f_equal; cbn; by rewrite <- ?app_assoc.
Qed.

Lemma simple_fmt_eq m (t : ptree K V) : simple_rep m t ->
  forall s, simple_fmt w fk fv fn m s = performs (simple_pieces (erase t) (s_len m)) s.
Proof.
  intros Hrep s. unfold simple_fmt. rewrite (simple_root_ret _ _ Hrep).
  assert (Hc : forall s, fmt_option w (box_fmt w fk fv m (simple_fuel m)) (rootp t) s = performs (tree_pieces (erase t)) s).
  { intros s1. destruct (rootp t) as [nc|] eqn:Hnc; [|destruct t; [apply fmt_option_none|done]].
    rewrite tree_pieces_some by (by destruct t). apply fmt_option_some. intros s2.
    pose proof (simple_fuel_height _ _ Hrep) as Hf. destruct (simple_fuel m) as [|fuel]; [lia|]. apply box_fmt_eq; try done.
    by apply simple_readable. }
  fopen w fk fv fn. fentry Hc. fentry @write_num_ok. fclose. f_equal; cbn; by rewrite <- ?app_assoc.
Qed.
End perform.

(** ** Sets *)
Section sets.
Context {T S : Type} (w : string -> M S bool) (ft : T -> M S bool) (fv : unit -> M S bool) (fn : N -> M S bool).
Notation performs := (perform w ft fv fn).

Lemma stree_pieces_some (t : stree T) : t <> sleaf ->
  stree_pieces t = [PText "Some"; PText "("] ++ snode_pieces t ++ [PText ")"].
Proof.
  destruct t as [|l x r]; [done|]. intros _. cbn. by repeat (rewrite <- ?app_assoc; cbn [app]).
Qed.

Lemma setnode_fmt_eq (m : bstset T) (t : ptree T unit) : forall fuel n, readable m t -> pheight t < Datatypes.S fuel -> node_of t = Some n ->
  forall s, setnode_fmt w ft m (Datatypes.S fuel) n s = performs (snode_pieces (values_tree (erase t))) s.
Proof.
  induction t as [|l IHl p k v r IHr]; intros fuel n Hr Hf Hn; simpl in Hn; [done|].
  injection Hn as <-. simpl in Hf. intros s. cbn [setnode_fmt].
  unfold setnode_left, setnode_right, node_left, node_right. cbn [nd_inner n_left n_right].
  rewrite (opt_node_ret m l) by (by eapply readable_l).
  rewrite (opt_node_ret m r) by (by eapply readable_r).
  assert (Hc : forall c, (forall fuel n, readable m c -> pheight c < Datatypes.S fuel -> node_of c = Some n ->
      forall s, setnode_fmt w ft m (Datatypes.S fuel) n s = performs (snode_pieces (values_tree (erase c))) s) -> readable m c -> pheight c < fuel ->
    forall s, fmt_option w (setnode_fmt w ft m fuel) (node_of c) s = performs (stree_pieces (values_tree (erase c))) s).
  { intros c IH Hrc Hh s1. destruct (node_of c) as [nc|] eqn:Hnc; [|destruct c; [apply (fmt_option_none w ft fv fn)|done]].
    rewrite stree_pieces_some by (by destruct c). apply (fmt_option_some w ft fv fn). destruct fuel as [|fuel]; [lia|]. by apply IH. }
  assert (Hl := Hc l IHl (readable_l _ _ _ _ _ _ Hr) ltac:(lia)).
  assert (Hr' := Hc r IHr (readable_r _ _ _ _ _ _ Hr) ltac:(lia)). clear Hc IHl IHr.
  fopen w ft fv fn. fentry @write_key_ok. flook. fentry Hl. flook. fentry Hr'. fclose.
  f_equal; cbn; by rewrite <- ?app_assoc.
Qed.

Lemma set_fmt_eq m (t : ptree T unit) fl : map_rep m t fl ->
  forall s, set_fmt w ft m s = performs (set_pieces "BSTSet" (values_tree (erase t))) s.
Proof.
  intros Hrep s. unfold set_fmt, bstset_root. rewrite (map_root_ret _ _ _ Hrep).
  assert (Hc : forall s, fmt_option w (setnode_fmt w ft m (map_fuel m)) (node_of t) s = performs (stree_pieces (values_tree (erase t))) s).
  { intros s1. destruct (node_of t) as [nc|] eqn:Hnc; [|destruct t; [apply (fmt_option_none w ft fv fn)|done]].
    rewrite stree_pieces_some by (by destruct t). apply (fmt_option_some w ft fv fn). intros s2. unfold map_fuel. apply setnode_fmt_eq; try done.
    - by eapply rep_readable.
    - by eapply rep_fuel_height. }
  fopen w ft fv fn. flook. fentry Hc. fclose. f_equal; cbn; by rewrite <- ?app_assoc.
Qed.

Lemma ssetnode_fmt_eq (m : sset T) (t : ptree T unit) : forall fuel p, sreadable m t -> pheight t < Datatypes.S fuel -> rootp t = Some p ->
  forall s, ssetnode_fmt w ft m (Datatypes.S fuel) p s = performs (snode_pieces (values_tree (erase t))) s.
Proof.
  induction t as [|l IHl q k v r IHr]; intros fuel p Hr Hf Hn; simpl in Hn; [done|].
  injection Hn as <-. simpl in Hf. intros s. cbn [ssetnode_fmt]. unfold ssetnode_value, ssetnode_left, ssetnode_right.
  rewrite (sreadable_root _ _ _ _ _ _ Hr). cbn [rmap rbind n_key n_left n_right].
  assert (Hc : forall c, (forall fuel p, sreadable m c -> pheight c < Datatypes.S fuel -> rootp c = Some p ->
      forall s, ssetnode_fmt w ft m (Datatypes.S fuel) p s = performs (snode_pieces (values_tree (erase c))) s) -> sreadable m c -> pheight c < fuel ->
    forall s, fmt_option w (ssetnode_fmt w ft m fuel) (rootp c) s = performs (stree_pieces (values_tree (erase c))) s).
  { intros c IH Hrc Hh s1. destruct (rootp c) as [nc|] eqn:Hnc; [|destruct c; [apply (fmt_option_none w ft fv fn)|done]].
    rewrite stree_pieces_some by (by destruct c). apply (fmt_option_some w ft fv fn). destruct fuel as [|fuel]; [lia|]. by apply IH. }
  assert (Hl := Hc l IHl (sreadable_l _ _ _ _ _ _ Hr) ltac:(lia)).
  assert (Hr' := Hc r IHr (sreadable_r _ _ _ _ _ _ Hr) ltac:(lia)). clear Hc IHl IHr.
  fopen w ft fv fn. flook. fentry @write_key_ok. flook. fentry Hl. flook. fentry Hr'. fclose.
  f_equal; cbn; by rewrite <- ?app_assoc.
Qed.

Lemma sset_fmt_eq m (t : ptree T unit) : simple_rep m t ->
  forall s, sset_fmt w ft m s = performs (set_pieces "SimpleBSTSet" (values_tree (erase t))) s.
Proof.
  intros Hrep s. unfold sset_fmt, sset_root. rewrite (simple_root_ret _ _ Hrep).
  assert (Hc : forall s, fmt_option w (ssetnode_fmt w ft m (simple_fuel m)) (rootp t) s = performs (stree_pieces (values_tree (erase t))) s).
  { intros s1. destruct (rootp t) as [nc|] eqn:Hnc; [|destruct t; [apply (fmt_option_none w ft fv fn)|done]].
    rewrite stree_pieces_some by (by destruct t). apply (fmt_option_some w ft fv fn). intros s2.
    pose proof (simple_fuel_height _ _ Hrep) as Hf. destruct (simple_fuel m) as [|fuel]; [lia|]. apply ssetnode_fmt_eq; try done.
    by apply simple_readable. }
  fopen w ft fv fn. fentry Hc. fclose. f_equal; cbn; by rewrite <- ?app_assoc.
Qed.

(** ** Arenas *)

Lemma arena_fmt_loop_eq e (a : arena T) l : arena_rep a l ->
  forall fuel i ok (h : bool) s, (length l - i < fuel)%nat -> (i <= length l)%nat ->
  arena_fmt_loop w ft e fuel a (ok, h) (mkRange (N.of_nat i) (N.of_nat (length l))) s =
  sbind (if ok then performs ((if h then match drop i l with [] => [] | _ => [PText ", "] end else []) ++ item_pieces (drop i l.*2)) else sret false)
        (fun b => sret (b, h || negb (bool_decide (i = length l)))) s.
Proof.
  intros Hrep. induction fuel as [|fuel IH]; intros i ok h s Hf Hi; [lia|]. cbn [arena_fmt_loop].
  destruct (decide (i = length l)) as [->|Hne].
  { rewrite next_ptr_none by (simpl; lia). rewrite lift_ret. rewrite !drop_ge by (rewrite ?fmap_length; lia).
    rewrite bool_decide_eq_true_2 by done. cbn [negb]. rewrite orb_false_r. by destruct ok, h. }
  assert (Hi1 : (i < length l)%nat) by lia. apply lookup_lt_is_Some in Hi1 as [[p x] Hl].
  destruct (arena_rep_lookup _ _ _ _ _ Hrep Hl) as [Hp Hc].
  destruct (next_ptr_some e a (mkRange (N.of_nat i) (N.of_nat (length l))) (rp_inv _ _ Hrep) (arena_rep_full _ _ Hrep))
    as (y & Hy & ->); [simpl; lia|simpl; rewrite (arena_rep_len _ _ Hrep); lia|].
  cbn [r_start r_end] in *. rewrite <- Hp, Hc in Hy. injection Hy as <-. rewrite lift_ret.
  replace (N.of_nat i + 1)%N with (N.of_nat (Datatypes.S i)) by lia.
  rewrite bool_decide_eq_false_2 by done. cbn [negb]. rewrite orb_true_r.
  rewrite (drop_S l (p, x) i Hl), (drop_S l.*2 x i) by by rewrite list_lookup_fmap, Hl.
  assert (Hnext : forall ok s, arena_fmt_loop w ft e fuel a (ok, true) (mkRange (N.of_nat (Datatypes.S i)) (N.of_nat (length l))) s =
    sbind (if ok then performs (match drop (Datatypes.S i) l.*2 with [] => [] | l' => PText ", " :: item_pieces l' end) else sret false) (fun b => sret (b, true)) s).
  { intros ok1 s1. rewrite IH by lia. cbn [orb]. rewrite <- fmap_drop. by destruct ok1, (drop (Datatypes.S i) l). }
  replace (item_pieces (x :: drop (Datatypes.S i) l.*2)) with
    (PKey x :: match drop (Datatypes.S i) l.*2 with [] => [] | l' => PText ", " :: item_pieces l' end) by (by destruct (drop (Datatypes.S i) l.*2)).
  generalize dependent (match drop (Datatypes.S i) l.*2 with [] => [] | l' => PText ", " :: item_pieces l' end). intros rest Hnext.
  unfold list_entry. cbn [fst snd]. destruct ok.
  - destruct h; cbn [app PeanoNat.Nat.iter SpecFmt.item_pieces].
    + unfold perform at 1. cbn [perform emit]. unfold and_then, sbind.
      destruct (w ", " s) as [[[]| | | |] s1]; try done; [|unfold sret; cbv beta iota; rewrite Hnext; done].
      destruct (ft x s1) as [[[]| | | |] s2]; try done; unfold sret; cbv beta iota; rewrite Hnext; done.
    + cbn [perform emit]. unfold and_then, sbind.
      destruct (ft x s) as [[[]| | | |] s2]; try done; unfold sret; cbv beta iota; rewrite Hnext; done.
  - unfold sbind, sret; cbv beta iota. rewrite Hnext. done.
Qed.

Lemma arena_fmt_eq e (a : arena T) l : arena_rep a l -> forall s, arena_fmt w ft e a s = performs (arena_pieces l.*2) s.
Proof.
  intros Hrep s. unfold arena_fmt, iter_new, arena_len. rewrite (arena_rep_len _ _ Hrep), Nat2N.id.
  unfold arena_pieces. cbn [app texts fmap list_fmap perform emit]. unfold and_then. apply bind_ext. intros ok s1.
  change 0%N with (N.of_nat 0). unfold sbind. rewrite (arena_fmt_loop_eq e a l Hrep) by lia. rewrite !drop_0. cbn [app].
  destruct ok; [|done]. rewrite perform_app. unfold and_then, sbind, list_finish.
  destruct (performs (item_pieces l.*2) s1) as [[[]| | | |] s2]; try done. cbn [fst snd sret].
  unfold sret. cbv beta iota. cbn [fst]. by rewrite <- (perform_one w ft fv fn (PText "]")).
Qed.
End sets.

(** ** Answers and texts *)
Section answers.
Context {K V : Type} (u : list (piece K V) -> piece K V -> res bool).

Lemma emit_inquire p : emit (say_text u) (say_key u) (say_value u) (say_num u) p = inquire u p.
Proof. by destruct p. Qed.
Lemma perform_asks l : forall log r log',
  perform (say_text u) (say_key u) (say_value u) (say_num u) l log = (r, log') -> asks u true log l r log'.
Proof.
  induction l as [|p l IH]; intros log r log'; cbn [perform]; [intros [= <- <-]; constructor|].
  rewrite emit_inquire. unfold and_then, sbind, inquire. destruct (u log p) as [[]| | | |] eqn:E;
    try (intros [= <- <-]; by apply asks_stop).
  intros H. apply asks_next; [done|]. by apply IH.
Qed.
Lemma asks_complete l log log' : asks u true log l (Ret true) log' -> log' = log ++ l.
Proof.
  intros H. remember (Ret true) as r eqn:Hr. induction H; subst.
  - by rewrite app_nil_r.
  - rewrite IHasks by done. by rewrite <- app_assoc.
  - done.
Qed.
End answers.

Lemma string_app_assoc a b c : ((a ++ b) ++ c)%string = (a ++ (b ++ c))%string.
Proof. induction a as [|x a IH]; [done|]. change (String x ((a ++ b) ++ c)%string = String x (a ++ (b ++ c))%string). by rewrite IH. Qed.
Lemma string_app_nil a : (a ++ "")%string = a.
Proof. induction a as [|x a IH]; [done|]. change (String x (a ++ "")%string = String x a). by rewrite IH. Qed.

Section texts.
Context {K V : Type} (tk : K -> string) (tv : V -> string) (tn : N -> string).
Notation printed := (printed tk tv tn).

Lemma perform_push l : forall s,
  perform push (fun k => push (tk k)) (fun v => push (tv v)) (fun n => push (tn n)) l s = (Ret true, (s ++ printed l)%string).
Proof.
  induction l as [|p l IH]; intros s; cbn [perform]; [by rewrite string_app_nil|].
  unfold and_then, sbind. replace (emit _ _ _ _ p s) with (@Ret bool true, (s ++ piece_text tk tv tn p)%string) by (by destruct p).
  rewrite IH. by rewrite string_app_assoc.
Qed.

Lemma printed_app l1 l2 : printed (l1 ++ l2) = (printed l1 ++ printed l2)%string.
Proof. induction l1 as [|p l IH]; [done|]. unfold SpecFmt.printed in *. cbn. rewrite IH. by rewrite string_app_assoc. Qed.
Lemma printed_cons p l : printed (p :: l) = (piece_text tk tv tn p ++ printed l)%string.
Proof. done. Qed.

Lemma printed_tree t : printed (tree_pieces t) = tree_text tk tv t.
Proof.
  induction t as [|l IHl k v r IHr]; [done|]. cbn [tree_pieces tree_text texts fmap list_fmap app].
  repeat (rewrite ?printed_cons, ?printed_app; cbn [texts fmap list_fmap app piece_text]). rewrite IHl, IHr. done.
Qed.
Lemma printed_map t : printed (map_pieces t) = ("BSTMap { root: " ++ tree_text tk tv t ++ " }")%string.
Proof. unfold map_pieces. rewrite !printed_app, printed_tree. done. Qed.
Lemma printed_simple t n : printed (simple_pieces t n) =
  ("SimpleBSTMap { root: " ++ tree_text tk tv t ++ ", len: " ++ tn n ++ " }")%string.
Proof. unfold simple_pieces. rewrite !printed_app, printed_tree. rewrite printed_cons. done. Qed.
Lemma printed_nodemut k v : printed (nodemut_pieces k v) =
  ("NodeMut { key: " ++ tk k ++ ", value: " ++ tv v ++ ", left: " ++ quote ++ "..." ++ quote ++ ", right: " ++ quote ++ "..." ++ quote ++ " }")%string.
Proof. unfold nodemut_pieces. rewrite !printed_app, printed_cons, printed_app, printed_cons. done. Qed.
Lemma printed_node t : t <> tleaf -> tree_text tk tv t = ("Some(" ++ printed (node_pieces t) ++ ")")%string.
Proof. intros Ht. rewrite <- printed_tree, tree_pieces_some by done. rewrite !printed_app. done. Qed.

Lemma dbg_tree (t : tree K V) : dbg_pieces (tree_debug t) = tree_pieces t.
Proof. induction t as [|l IHl k v r IHr]; [done|]. cbn. rewrite IHl, IHr. by repeat (rewrite <- ?app_assoc; cbn [app]). Qed.
End texts.

Section texts.
Context {T : Type} (tk : T -> string) (tv : unit -> string) (tn : N -> string).
Notation printed := (printed tk tv tn).

Lemma printed_stree t : printed (stree_pieces t) = stree_text tk t.
Proof.
  induction t as [|l IHl x r IHr]; [done|]. cbn [stree_pieces stree_text texts fmap list_fmap app].
  repeat (rewrite ?printed_cons, ?printed_app; cbn [texts fmap list_fmap app piece_text]). rewrite IHl, IHr. done.
Qed.
Lemma printed_set name t : printed (set_pieces name t) = (name ++ " { root: " ++ stree_text tk t ++ " }")%string.
Proof. unfold set_pieces. rewrite !printed_app, printed_stree. cbn [texts fmap list_fmap]. rewrite !printed_cons. cbn. by rewrite string_app_assoc. Qed.
Lemma printed_items l : printed (item_pieces l) = String.concat ", " (tk <$> l).
Proof.
  induction l as [|x [|y l] IH]; [done|apply string_app_nil|].
  change (item_pieces (x :: y :: l)) with (PKey (V := unit) x :: PText ", " :: item_pieces (y :: l)).
  rewrite !printed_cons, IH. done.
Qed.
Lemma printed_arena l : printed (arena_pieces l) = ("[" ++ String.concat ", " (tk <$> l) ++ "]")%string.
Proof. unfold arena_pieces. rewrite !printed_app, printed_items. done. Qed.
Lemma dbg_stree (t : stree T) : dbg_pieces (V := unit) (stree_debug t) = stree_pieces t.
Proof. induction t as [|l IHl x r IHr]; [done|]. cbn. rewrite IHl, IHr. by repeat (rewrite <- ?app_assoc; cbn [app]). Qed.
End texts.

(** ** The claims *)
Section maps.
Context {K V : Type}.

(** Any formatter and any elements: printing performs the pieces in order. *)
Section generic.
Context {S : Type} (w : string -> M S bool) (fk : K -> M S bool) (fv : V -> M S bool) (fn : N -> M S bool).
Lemma map_prints e (m : bstmap K V) t s : reachable e m -> shows m t ->
  map_fmt w fk fv m s = perform w fk fv fn (map_pieces t) s.
Proof. intros (t0 & fl & Hrep)%reachable_rep Ht. rewrite (rep_shows_eq _ _ _ _ Hrep Ht). by apply (map_fmt_eq w fk fv fn m t0 fl). Qed.
Lemma node_prints e (m : bstmap K V) n t s : reachable e m -> handle m n -> exposes m (Some n) t ->
  node_fmt w fk fv m (map_fuel m) n s = perform w fk fv fn (node_pieces t) s /\
  nodemut_fmt w fk fv m (nd_ptr n) s = perform w fk fv fn (nodemut_pieces (node_key n) (node_value n)) s.
Proof.
  intros (t0 & fl & Hrep)%reachable_rep Hh Ht.
  destruct (handle_rep m t0 fl n Hrep Hh) as (path & l & p & k & v & r & Htat & ->).
  pose proof (tat_readable m path t0 (rep_readable _ _ _ Hrep)) as Hr. rewrite Htat in Hr.
  assert (Hex : exposes m (Some (mkNode p (mkInner k v (rootp l) (rootp r)))) (erase (Bin l p k v r))) by (exact (readable_exposes m (Bin l p k v r) Hr)).
  rewrite (exposes_fun _ _ _ Hex _ Ht). split.
  - unfold map_fuel. apply node_fmt_eq; [done| |done].
    pose proof (tat_height path t0) as Hle. rewrite Htat in Hle.
    pose proof (rep_fuel_height _ _ _ Hrep) as Hf. unfold map_fuel in Hf. lia.
  - cbn [nd_ptr]. by eapply nodemut_fmt_eq.
Qed.
Lemma simple_prints e (m : simple K V) t s : simple_reachable e m -> simple_shows m t ->
  simple_fmt w fk fv fn m s = perform w fk fv fn (simple_pieces t (N.of_nat (length (tree_inorder t)))) s.
Proof.
  intros (t0 & Hrep)%simple_reachable_rep Ht. rewrite (simple_fmt_eq w fk fv fn m t0 Hrep).
  rewrite (simple_exposes_fun _ _ _ Ht _ (simple_rep_shows _ _ Hrep)). destruct (simple_rep_nodes _ _ Hrep) as [_ ->]. by rewrite erase_size.
Qed.
Lemma simple_node_prints e (m : simple K V) p t s : simple_reachable e m -> simple_handle m p -> simple_exposes m (Some p) t ->
  box_fmt w fk fv m (simple_fuel m) p s = perform w fk fv fn (node_pieces t) s.
Proof.
  intros (t0 & Hrep)%simple_reachable_rep Hh Ht.
  destruct (simple_handle_exposes m t0 p t Hrep Hh Ht) as (path & Hp & -> & Hr & Hht).
  pose proof (simple_fuel_height _ _ Hrep) as Hf. destruct (simple_fuel m) as [|fuel]; [lia|]. apply box_fmt_eq; try done. lia.
Qed.
End generic.
End maps.

Section sets.
Context {T S : Type} (w : string -> M S bool) (ft : T -> M S bool) (fv : unit -> M S bool) (fn : N -> M S bool).
Lemma set_prints e (m : bstset T) t s : set_reachable e m -> set_shows m t ->
  set_fmt w ft m s = perform w ft fv fn (set_pieces "BSTSet" t) s.
Proof.
  intros (t0 & fl & Hrep)%set_reachable_map%reachable_rep Ht.
  rewrite (set_shows_fun _ _ _ (set_shows_rep _ _ _ Hrep) Ht). by apply (set_fmt_eq w ft fv fn m t0 fl).
Qed.
Lemma setnode_prints e (m : bstset T) n t s : set_reachable e m -> set_handle m n -> set_exposes m (Some n) t ->
  setnode_fmt w ft m (map_fuel m) n s = perform w ft fv fn (snode_pieces t) s.
Proof.
  intros (t0 & fl & Hrep)%set_reachable_map%reachable_rep (path1 & r1 & Hr1 & Hw1) Ht. rewrite set_walk_eq in Hw1.
  assert (Hh : handle m n) by (by exists path1, r1).
  destruct (handle_rep m t0 fl n Hrep Hh) as (path & l & p & k & v & r & Htat & ->).
  pose proof (tat_readable m path t0 (rep_readable _ _ _ Hrep)) as Hr. rewrite Htat in Hr.
  assert (Hex : exposes m (Some (mkNode p (mkInner k v (rootp l) (rootp r)))) (erase (Bin l p k v r))) by (exact (readable_exposes m (Bin l p k v r) Hr)).
  rewrite (set_exposes_fun _ _ _ (set_exposes_values _ _ _ Hex) _ Ht).
  unfold map_fuel. apply setnode_fmt_eq; [done| |done].
  pose proof (tat_height path t0) as Hle. rewrite Htat in Hle.
  pose proof (rep_fuel_height _ _ _ Hrep) as Hf. unfold map_fuel in Hf. lia.
Qed.
Lemma sset_prints e (m : sset T) t s : sset_reachable e m -> sset_shows m t ->
  sset_fmt w ft m s = perform w ft fv fn (set_pieces "SimpleBSTSet" t) s.
Proof.
  intros (t0 & Hrep)%sset_reachable_rep Ht. rewrite <- (sset_exposes_fun _ _ _ Ht _ (sset_rep_shows _ _ Hrep)).
  by apply (sset_fmt_eq w ft fv fn m t0).
Qed.
Lemma ssetnode_prints e (m : sset T) p t s : sset_reachable e m -> sset_handle m p -> sset_exposes m (Some p) t ->
  ssetnode_fmt w ft m (simple_fuel m) p s = perform w ft fv fn (snode_pieces t) s.
Proof.
  intros (t0 & Hrep)%sset_reachable_rep (path1 & Hw) Ht. rewrite sset_walk_eq in Hw.
  assert (Hh : simple_handle m p) by (by exists path1).
  destruct (simple_handle_rep m t0 p (simple_readable _ _ Hrep) (simple_root_ret _ _ Hrep) Hh) as (path & l & k & v & r & E).
  pose proof (tat_sreadable m path t0 (simple_readable _ _ Hrep)) as Hr. rewrite E in Hr.
  rewrite <- (sset_exposes_fun m _ _ Ht _ (sset_exposes_values m _ _ (simple_shows_sub m _ Hr))).
  pose proof (simple_fuel_height _ _ Hrep) as Hf. pose proof (tat_height path t0) as Hle. rewrite E in Hle.
  destruct (simple_fuel m) as [|fuel]; [lia|]. apply ssetnode_fmt_eq; [done|lia|done].
Qed.
Lemma arena_prints e n cs rs (a : arena T) s : arena_reached e n cs rs a -> arena_contract [] cs rs -> Forall process_on rs ->
  arena_fmt w ft e a s = perform w ft fv fn (arena_pieces (arena_contents [] cs rs).*2) s.
Proof. intros H1 H2 H3. destruct (arena_final _ _ _ _ _ H1 H2 H3) as [Hr _]. by apply arena_fmt_eq. Qed.
End sets.

Section answers.
Context {K V : Type} (u : list (piece K V) -> piece K V -> res bool).
Notation w := (say_text u). Notation fk := (say_key u). Notation fv := (say_value u). Notation fn := (say_num u).

Lemma map_says e (m : bstmap K V) t r log : reachable e m -> shows m t ->
  map_fmt w fk fv m [] = (r, log) -> asks u true [] (map_pieces t) r log.
Proof. intros H1 H2 E. apply perform_asks. rewrite <- E. symmetry. by eapply map_prints. Qed.
Lemma node_says e (m : bstmap K V) n t r log : reachable e m -> handle m n -> exposes m (Some n) t ->
  node_fmt w fk fv m (map_fuel m) n [] = (r, log) -> asks u true [] (node_pieces t) r log.
Proof. intros H1 H2 H3 E. apply perform_asks. rewrite <- E. symmetry. by eapply node_prints. Qed.
Lemma nodemut_says e (m : bstmap K V) n r log : reachable e m -> handle m n ->
  nodemut_fmt w fk fv m (nd_ptr n) [] = (r, log) -> asks u true [] (nodemut_pieces (node_key n) (node_value n)) r log.
Proof.
  intros H1 H2 E. apply perform_asks. rewrite <- E. symmetry.
  assert (exists t : tree K V, exposes m (Some n) t) as [t Ht].
  { destruct (reachable_rep _ _ H1) as (t0 & fl & Hrep).
    destruct (handle_rep m t0 fl n Hrep H2) as (path & l & p & k & v & rr & Htat & ->).
    pose proof (tat_readable m path t0 (rep_readable _ _ _ Hrep)) as Hr. rewrite Htat in Hr.
    eexists. exact (readable_exposes m (Bin l p k v rr) Hr). }
  by eapply node_prints.
Qed.
Lemma simple_says e (m : simple K V) t r log : simple_reachable e m -> simple_shows m t ->
  simple_fmt w fk fv fn m [] = (r, log) -> asks u true [] (simple_pieces t (N.of_nat (length (tree_inorder t)))) r log.
Proof. intros H1 H2 E. apply perform_asks. rewrite <- E. symmetry. by eapply simple_prints. Qed.
Lemma simple_node_says e (m : simple K V) p t r log : simple_reachable e m -> simple_handle m p -> simple_exposes m (Some p) t ->
  box_fmt w fk fv m (simple_fuel m) p [] = (r, log) -> asks u true [] (node_pieces t) r log.
Proof. intros H1 H2 H3 E. apply perform_asks. rewrite <- E. symmetry. by eapply simple_node_prints. Qed.
End answers.

Section answers.
Context {T : Type} (u : list (piece T unit) -> piece T unit -> res bool).
Notation w := (say_text u). Notation ft := (say_key u).
Lemma set_says e (m : bstset T) t r log : set_reachable e m -> set_shows m t ->
  set_fmt w ft m [] = (r, log) -> asks u true [] (set_pieces "BSTSet" t) r log.
Proof. intros H1 H2 E. apply perform_asks. rewrite <- E. symmetry. by eapply set_prints. Qed.
Lemma setnode_says e (m : bstset T) n t r log : set_reachable e m -> set_handle m n -> set_exposes m (Some n) t ->
  setnode_fmt w ft m (map_fuel m) n [] = (r, log) -> asks u true [] (snode_pieces t) r log.
Proof. intros H1 H2 H3 E. apply perform_asks. rewrite <- E. symmetry. by eapply setnode_prints. Qed.
Lemma sset_says e (m : sset T) t r log : sset_reachable e m -> sset_shows m t ->
  sset_fmt w ft m [] = (r, log) -> asks u true [] (set_pieces "SimpleBSTSet" t) r log.
Proof. intros H1 H2 E. apply perform_asks. rewrite <- E. symmetry. by eapply sset_prints. Qed.
Lemma ssetnode_says e (m : sset T) p t r log : sset_reachable e m -> sset_handle m p -> sset_exposes m (Some p) t ->
  ssetnode_fmt w ft m (simple_fuel m) p [] = (r, log) -> asks u true [] (snode_pieces t) r log.
Proof. intros H1 H2 H3 E. apply perform_asks. rewrite <- E. symmetry. by eapply ssetnode_prints. Qed.
Lemma arena_says e n cs rs (a : arena T) r log : arena_reached e n cs rs a -> arena_contract [] cs rs -> Forall process_on rs ->
  arena_fmt w ft e a [] = (r, log) -> asks u true [] (arena_pieces (arena_contents [] cs rs).*2) r log.
Proof. intros H1 H2 H3 E. apply perform_asks. rewrite <- E. symmetry. by eapply arena_prints. Qed.
End answers.

Section texts.
Context {K V : Type} (tk : K -> string) (tv : V -> string) (tn : N -> string).
Notation fk := (fun k => push (tk k)). Notation fv := (fun v => push (tv v)). Notation fn := (fun n => push (tn n)).

Lemma map_text e (m : bstmap K V) t : reachable e m -> shows m t ->
  map_fmt push fk fv m "" = (Ret true, ("BSTMap { root: " ++ tree_text tk tv t ++ " }")%string).
Proof. intros H1 H2. rewrite (map_prints push fk fv fn e m t _ H1 H2), perform_push, printed_map. done. Qed.
Lemma simple_text e (m : simple K V) t : simple_reachable e m -> simple_shows m t ->
  simple_fmt push fk fv fn m "" = (Ret true, ("SimpleBSTMap { root: " ++ tree_text tk tv t ++ ", len: " ++ tn (N.of_nat (length (tree_inorder t))) ++ " }")%string).
Proof. intros H1 H2. rewrite (simple_prints push fk fv fn e m t _ H1 H2), perform_push, printed_simple. done. Qed.
Lemma node_text e (m : bstmap K V) n t : reachable e m -> handle m n -> exposes m (Some n) t ->
  exists s, node_fmt push fk fv m (map_fuel m) n "" = (Ret true, s) /\ tree_text tk tv t = ("Some(" ++ s ++ ")")%string /\
  nodemut_fmt push fk fv m (nd_ptr n) "" =
    (Ret true, ("NodeMut { key: " ++ tk (node_key n) ++ ", value: " ++ tv (node_value n) ++
                ", left: " ++ quote ++ "..." ++ quote ++ ", right: " ++ quote ++ "..." ++ quote ++ " }")%string).
Proof.
  intros H1 H2 H3. destruct (node_prints push fk fv fn e m n t "" H1 H2 H3) as [-> ->].
  rewrite !perform_push. eexists. split; [done|]. split; [apply printed_node; by inversion H3|].
  by rewrite printed_nodemut.
Qed.
Lemma simple_node_text e (m : simple K V) p t : simple_reachable e m -> simple_handle m p -> simple_exposes m (Some p) t ->
  exists s, box_fmt push fk fv m (simple_fuel m) p "" = (Ret true, s) /\ tree_text tk tv t = ("Some(" ++ s ++ ")")%string.
Proof.
  intros H1 H2 H3. rewrite (simple_node_prints push fk fv fn e m p t "" H1 H2 H3), perform_push.
  eexists. split; [done|]. apply printed_node. by inversion H3.
Qed.

(** The structures of ModelIter.v and ModelSimple.v. *)
Lemma map_structure e (m : bstmap K V) : reachable e m ->
  exists d, map_debug m = Ret d /\ map_fmt push fk fv m "" = (Ret true, printed tk tv tn (dbg_pieces d)).
Proof.
  intros H. destruct (reachable_rep _ _ H) as (t & fl & Hrep). eexists. split; [by eapply map_debug_eq|].
  rewrite (map_prints push fk fv fn e m _ "" H (rep_shows _ _ _ Hrep)), perform_push. cbn [dbg_pieces]. rewrite dbg_tree.
  by rewrite app_nil_l.
Qed.
Lemma simple_structure e (m : simple K V) : simple_reachable e m ->
  exists d, simple_debug m = Ret d /\ simple_fmt push fk fv fn m "" = (Ret true, printed tk tv tn (dbg_pieces d)).
Proof.
  intros H. destruct (simple_reachable_rep _ _ H) as (t & Hrep). unfold simple_debug. rewrite (simple_root_ret _ _ Hrep).
  rewrite (box_debug_eq m t) by (by apply simple_readable || by apply simple_fuel_height). cbn [rbind]. eexists. split; [done|].
  rewrite (simple_fmt_eq push fk fv fn m t Hrep), perform_push. cbn [dbg_pieces]. rewrite dbg_tree. done.
Qed.
End texts.

Section texts.
Context {T : Type} (tk : T -> string).
Notation ft := (fun k => push (tk k)).
Lemma set_text e (m : bstset T) t : set_reachable e m -> set_shows m t ->
  set_fmt push ft m "" = (Ret true, ("BSTSet { root: " ++ stree_text tk t ++ " }")%string).
Proof.
  intros H1 H2. rewrite (set_prints push ft (fun _ => push "") (fun _ => push "") e m t _ H1 H2).
  rewrite (perform_push tk (fun _ => "") (fun _ => "")), printed_set. done.
Qed.
Lemma sset_text e (m : sset T) t : sset_reachable e m -> sset_shows m t ->
  sset_fmt push ft m "" = (Ret true, ("SimpleBSTSet { root: " ++ stree_text tk t ++ " }")%string).
Proof.
  intros H1 H2. rewrite (sset_prints push ft (fun _ => push "") (fun _ => push "") e m t _ H1 H2).
  rewrite (perform_push tk (fun _ => "") (fun _ => "")), printed_set. done.
Qed.
Lemma arena_text e n cs rs (a : arena T) : arena_reached e n cs rs a -> arena_contract [] cs rs -> Forall process_on rs ->
  arena_fmt push ft e a "" = (Ret true, ("[" ++ String.concat ", " (tk <$> (arena_contents [] cs rs).*2) ++ "]")%string).
Proof.
  intros H1 H2 H3. rewrite (arena_prints push ft (fun _ => push "") (fun _ => push "") e n cs rs a _ H1 H2 H3).
  rewrite (perform_push tk (fun _ => "") (fun _ => "")), printed_arena. done.
Qed.

Context (tv : unit -> string) (tn : N -> string).
Lemma set_structure e (m : bstset T) : set_reachable e m ->
  exists d, set_debug m = Ret d /\ set_fmt push ft m "" = (Ret true, printed tk tv tn (dbg_pieces d)).
Proof.
  intros H. destruct (reachable_rep _ _ (set_reachable_map _ _ H)) as (t & fl & Hrep). eexists. split; [by eapply set_debug_eq|].
  rewrite (set_fmt_eq push ft (fun v => push (tv v)) (fun n => push (tn n)) m t fl Hrep).
  rewrite perform_push. cbn [dbg_pieces]. by rewrite dbg_stree.
Qed.
Lemma sset_structure e (m : sset T) : sset_reachable e m ->
  exists d, sset_debug m = Ret d /\ sset_fmt push ft m "" = (Ret true, printed tk tv tn (dbg_pieces d)).
Proof.
  intros H. destruct (sset_reachable_rep _ _ H) as (t & Hrep). eexists. split; [by eapply sset_debug_eq|].
  rewrite (sset_fmt_eq push ft (fun v => push (tv v)) (fun n => push (tn n)) m t Hrep).
  rewrite perform_push. cbn [dbg_pieces]. by rewrite dbg_stree.
Qed.
End texts.
