(** * Printing with [{:#?}]: proofs *)

From Coq Require Import String Ascii.
From Verif Require Export ProofFmt SpecFmtPretty.
From Verif Require Import ModelIter.
Local Open Scope string_scope.
Local Open Scope list_scope.
Local Open Scope nat_scope.

(** ** Events *)

(** A write, or an element that returns. *)
Inductive ev := EW (s : string) | ER (r : res bool).

Section events.
Context {S : Type} (w : string -> M S bool).
Definition emit_ev (x : ev) : M S bool := match x with EW s => w s | ER r => slift r end.
Fixpoint play (l : list ev) : M S bool :=
  match l with [] => sret true | x :: l => and_then (emit_ev x) (play l) end.

Lemma play_app l1 l2 s : play (l1 ++ l2) s = and_then (play l1) (play l2) s.
Proof.
  revert s. induction l1 as [|p l1 IH]; intros s; cbn [app play]; [done|].
  rewrite and_then_assoc. by apply and_then_ext.
Qed.
Lemma play_one x s : emit_ev x s = play [x] s.
Proof. symmetry. apply and_then_true. Qed.
Lemma play_two a b l1 l2 s : (forall s, a s = play l1 s) -> (forall s, b s = play l2 s) ->
  and_then a b s = play (l1 ++ l2) s.
Proof. intros Ha Hb. rewrite play_app. by apply and_then_ext. Qed.
Lemma play_write str b l s : (forall s, b s = play l s) -> and_then (w str) b s = play (EW str :: l) s.
Proof. intros Hb. cbn [play emit_ev]. by apply and_then_ext. Qed.
End events.

(** The writes of an element. *)
Definition script_evs (x : script) : list ev := (EW <$> x.1) ++ [ER x.2].
Lemma script_play {S} (w : string -> M S bool) x s : fmt_script x w s = play w (script_evs x) s.
Proof.
  destruct x as [l r]. unfold fmt_script, script_evs. cbn [fst snd]. revert s. induction l as [|a l IH]; intros s.
  - apply (play_one w (ER r)).
  - cbn [write_all fmap list_fmap app]. by apply play_write.
Qed.

(** ** Adapters *)

Fixpoint pad_strs (b : bool) (ls : list string) : list ev :=
  match ls with [] => [] | l :: ls => (if b then [EW "    "] else []) ++ EW l :: pad_strs (ends_line l) ls end.
Fixpoint strs_after (b : bool) (ls : list string) : bool :=
  match ls with [] => b | l :: ls => strs_after (ends_line l) ls end.
Fixpoint pad_evs (b : bool) (l : list ev) : list ev :=
  match l with
  | [] => []
  | EW s :: l => pad_strs b (split_lines s) ++ pad_evs (strs_after b (split_lines s)) l
  | ER r :: l => ER r :: pad_evs b l
  end.

Section pad.
Context {S : Type} (w : string -> M S bool).

(** The result and the state behind the adapter are those of [l]; after a success
    the adapter is [after]. *)
Definition acts (x : M (bool * S) bool) (b : bool) (l : list ev) (after : bool) : Prop :=
  forall s, exists b', x (b, s) = ((play w l s).1, (b', (play w l s).2)) /\ ((play w l s).1 = Ret true -> b' = after).

Lemma acts_then x y b1 l1 b2 l2 b3 : acts x b1 l1 b2 -> acts y b2 l2 b3 -> acts (and_then x y) b1 (l1 ++ l2) b3.
Proof.
  intros Hx Hy s. rewrite play_app. unfold and_then, sbind. destruct (Hx s) as (b' & -> & Hb).
  destruct (play w l1 s) as [[[]| | | |] s1]; cbn [fst snd] in *; try (by exists b').
  rewrite (Hb eq_refl). apply Hy.
Qed.
Lemma acts_pad_lines ls : forall b, acts (pad_lines w ls) b (pad_strs b ls) (strs_after b ls).
Proof.
  induction ls as [|l ls IH]; intros b s; [by exists b|]. cbn [pad_lines pad_strs strs_after].
  unfold sbind at 1, sget. cbn [fst].
  assert (H : acts (and_then (if b then on_buf (w "    ") else sret true)
      (let! _ := smod (fun s : bool * S => (ends_line l, s.2)) in and_then (on_buf (w l)) (pad_lines w ls))) b
      ((if b then [EW "    "] else []) ++ EW l :: pad_strs (ends_line l) ls) (strs_after (ends_line l) ls)).
  2: { destruct (H s) as (b' & E & Hb). exists b'. rewrite E. done. }
  apply (acts_then _ _ b _ b).
  - intros s1. destruct b; [|by exists false]. exists true. rewrite <- (play_one w (EW "    ")). cbn [emit_ev].
    unfold on_buf, zoom. cbn [fst snd]. by destruct (w "    " s1).
  - intros s1. unfold sbind at 1, smod. cbn [snd].
    assert (H : acts (and_then (on_buf (w l)) (pad_lines w ls)) (ends_line l) ([EW l] ++ pad_strs (ends_line l) ls) (strs_after (ends_line l) ls)).
    2: { apply H. }
    apply (acts_then _ _ _ _ (ends_line l)); [|apply IH].
    intros s2. exists (ends_line l). rewrite <- (play_one w (EW l)). cbn [emit_ev]. unfold on_buf, zoom. cbn [fst snd]. by destruct (w l s2).
Qed.
Fixpoint evs_after (b : bool) (l : list ev) : bool :=
  match l with [] => b | EW s :: l => evs_after (strs_after b (split_lines s)) l | ER _ :: l => evs_after b l end.
Lemma acts_play l : forall b, acts (play (pad w) l) b (pad_evs b l) (evs_after b l).
Proof.
  induction l as [|[str|r] l IH]; intros b; [intros s; by exists b| |]; cbn [play pad_evs evs_after emit_ev].
  - eapply acts_then; [apply acts_pad_lines|apply IH].
  - apply (acts_then _ _ b [ER r] b _ _); [|apply IH]. intros s. exists b. by rewrite <- (play_one w (ER r)).
Qed.

Lemma padded_play body l s : (forall s, body (pad w) s = play (pad w) l s) ->
  padded w body s = play w (pad_evs true l) s.
Proof.
  intros Hb. unfold padded. rewrite Hb. destruct (acts_play l true s) as (b' & -> & _). by destruct (play w _ s).
Qed.
End pad.

(** ** Builders *)

Definition comma : ev := EW ("," ++ newline_str)%string.
Definition field_evs (name : string) (l : list ev) : list ev := pad_evs true ([EW name; EW ": "] ++ l ++ [comma]).

Section builders.
Context {S : Type} (w : string -> M S bool).

Definition presume (l : list ev) (h : bool) (k : dstruct -> M S bool) : M S bool :=
  sbind (play w l) (fun b => k (b, h)).
Lemma presume_start name k s : sbind (debug_struct w name) k s = presume [EW name] false k s.
Proof.
  unfold presume, debug_struct, sbind. rewrite <- (play_one w (EW name)). cbn [emit_ev].
  by destruct (w name s) as [[]].
Qed.
Lemma presume_field l h name value lv k s : (forall s, value (pad w) s = play (pad w) lv s) ->
  presume l h (fun b => sbind (pfield w b name value) k) s =
  presume (l ++ (if h then [] else [EW (" {" ++ newline_str)%string]) ++ field_evs name lv) true k s.
Proof.
  intros Hv. unfold presume, sbind. rewrite play_app. unfold and_then at 1, sbind.
  destruct (play w l s) as [[[]| | | |] s1]; try done.
  unfold pfield, sbind. cbn [fst snd].
  match goal with |- context [and_then ?a ?b s1] => replace (and_then a b s1) with
    (play w ((if h then [] else [EW (" {" ++ newline_str)%string]) ++ field_evs name lv) s1) end.
  { by destruct (play w _ s1) as [[]]. }
  symmetry. apply play_two.
  - intros s2. destruct h; [done|]. apply (play_one w (EW _)).
  - intros s2. apply padded_play. intros s3. do 2 (apply play_write; intros ?). apply play_two; [done|].
    intros ?. apply (play_one (pad w) comma).
Qed.
Lemma presume_lift {A} l h (x : A) (k : dstruct -> A -> M S bool) s :
  presume l h (fun b => sbind (slift (Ret x)) (k b)) s = presume l h (fun b => k b x) s.
Proof. apply bind_ext. intros b s'. apply lift_ret. Qed.
Lemma presume_finish l s : presume l true (pfinish w) s = play w (l ++ [EW "}"]) s.
Proof.
  unfold presume. rewrite play_app. unfold and_then, sbind, pfinish. cbn [fst snd].
  destruct (play w l s) as [[[]| | | |] s1]; try done. by rewrite <- play_one.
Qed.

Definition some_evs (l : list ev) : list ev :=
  [EW "Some"; EW ("(" ++ newline_str)%string] ++ pad_evs true (l ++ [comma]) ++ [EW ")"].
Lemma pfmt_option_none {A} (f : A -> (string -> M (bool * S) bool) -> M (bool * S) bool) s :
  pfmt_option w f None s = play w [EW "None"] s.
Proof. cbn [pfmt_option]. apply (play_one w (EW "None")). Qed.
Lemma pfmt_option_some {A} (f : A -> (string -> M (bool * S) bool) -> M (bool * S) bool) x l s :
  (forall s, f x (pad w) s = play (pad w) l s) ->
  pfmt_option w f (Some x) s = play w (some_evs l) s.
Proof.
  intros Hf. unfold some_evs. cbn [pfmt_option app]. apply play_write. intros s1.
  change (EW ("(" ++ newline_str)%string :: pad_evs true (l ++ [comma]) ++ [EW ")"])
    with ((EW ("(" ++ newline_str)%string :: pad_evs true (l ++ [comma])) ++ [EW ")"]).
  apply play_two; [|intros s2; apply (play_one w (EW ")"))].
  intros s2. apply play_write. intros s3. apply padded_play. intros s4. apply play_two; [done|].
  intros s5. apply (play_one (pad w) comma).
Qed.
Lemma fmt_str_play str s : fmt_str w str s = play w [EW quote; EW str; EW quote] s.
Proof. unfold fmt_str. repeat (apply play_write; intros ?). apply (play_one w (EW quote)). Qed.
End builders.

Ltac popen := etransitivity; [apply presume_start|].
Ltac pentry H := etransitivity; [eapply presume_field; intros; apply H|].
Ltac plook := etransitivity; [apply presume_lift|]; cbv beta.
Ltac pclose := etransitivity; [apply presume_finish|].

(** ** Trees *)
Definition open_brace : ev := EW (" {" ++ newline_str)%string.

Section map.
Context {K V : Type} (xk : K -> script) (xv : V -> script) (xn : N -> script).

Definition node_evs (k : K) (v : V) (l r : list ev) : list ev :=
  [EW "Node"; open_brace] ++ field_evs "key" (script_evs (xk k)) ++ field_evs "value" (script_evs (xv v)) ++
  field_evs "left" l ++ field_evs "right" r ++ [EW "}"].
Fixpoint tree_evs (t : tree K V) : list ev :=
  match t with
  | tleaf => [EW "None"]
  | tnode l k v r => some_evs (node_evs k v (tree_evs l) (tree_evs r))
  end.
Definition root_evs (t : tree K V) : list ev :=
  match t with tleaf => [] | tnode l k v r => node_evs k v (tree_evs l) (tree_evs r) end.
Definition map_evs (t : tree K V) : list ev := [EW "BSTMap"; open_brace] ++ field_evs "root" (tree_evs t) ++ [EW "}"].
Definition simple_evs (t : tree K V) (n : N) : list ev :=
  [EW "SimpleBSTMap"; open_brace] ++ field_evs "root" (tree_evs t) ++ field_evs "len" (script_evs (xn n)) ++ [EW "}"].
Definition str_evs : list ev := [EW quote; EW "..."; EW quote].
Definition nodemut_evs (k : K) (v : V) : list ev :=
  [EW "NodeMut"; open_brace] ++ field_evs "key" (script_evs (xk k)) ++ field_evs "value" (script_evs (xv v)) ++
  field_evs "left" str_evs ++ field_evs "right" str_evs ++ [EW "}"].

Lemma node_pretty_eq m (t : ptree K V) : forall fuel n, readable m t -> pheight t < Datatypes.S fuel -> node_of t = Some n ->
  forall S (w : string -> M S bool) s, node_pretty xk xv m (Datatypes.S fuel) n w s = play w (root_evs (erase t)) s.
Proof.
  induction t as [|l IHl p k v r IHr]; intros fuel n Hr Hf Hn; simpl in Hn; [done|].
  injection Hn as <-. simpl in Hf. intros S w s. cbn [node_pretty].
  unfold node_left, node_right. cbn [nd_inner n_left n_right].
  rewrite (opt_node_ret m l) by (by eapply readable_l).
  rewrite (opt_node_ret m r) by (by eapply readable_r).
  assert (Hc : forall c, (forall fuel n, readable m c -> pheight c < Datatypes.S fuel -> node_of c = Some n ->
      forall S (w : string -> M S bool) s, node_pretty xk xv m (Datatypes.S fuel) n w s = play w (root_evs (erase c)) s) -> readable m c -> pheight c < fuel ->
    forall S (w : string -> M S bool) s, pfmt_option w (node_pretty xk xv m fuel) (node_of c) s = play w (tree_evs (erase c)) s).
  { intros c IH Hrc Hh S1 w1 s1. destruct c as [|cl cp ck cv cr]; [apply pfmt_option_none|].
    cbn [node_of erase tree_evs]. apply pfmt_option_some. destruct fuel as [|fuel]; [lia|]. intros s2. by apply IH. }
  assert (Hl := Hc l IHl (readable_l _ _ _ _ _ _ Hr) ltac:(lia)).
  assert (Hr' := Hc r IHr (readable_r _ _ _ _ _ _ Hr) ltac:(lia)). clear Hc IHl IHr.
  popen. pentry @script_play. pentry @script_play. plook. pentry Hl. plook. pentry Hr'. pclose.
  f_equal; cbn [erase root_evs]; unfold node_evs; cbn [app]. by rewrite <- !app_assoc.
Qed.

Lemma map_pretty_eq m (t : ptree K V) fl {S} (w : string -> M S bool) : map_rep m t fl ->
  forall s, map_pretty xk xv m w s = play w (map_evs (erase t)) s.
Proof.
  intros Hrep s. unfold map_pretty. rewrite (map_root_ret _ _ _ Hrep).
  assert (Hc : forall S (w : string -> M S bool) s, pfmt_option w (node_pretty xk xv m (map_fuel m)) (node_of t) s = play w (tree_evs (erase t)) s).
  { intros S1 w1 s1. destruct t as [|cl cp ck cv cr]; [apply pfmt_option_none|].
    cbn [node_of erase tree_evs]. apply pfmt_option_some. intros s2. unfold map_fuel.
    change (node_evs ck cv (tree_evs (erase cl)) (tree_evs (erase cr))) with (root_evs (erase (Bin cl cp ck cv cr))).
    apply node_pretty_eq; try done.
    - by eapply rep_readable.
    - by eapply rep_fuel_height. }
  popen. plook. pentry Hc. pclose. f_equal; unfold map_evs; cbn [app]; by rewrite <- ?app_assoc.
Qed.

Lemma nodemut_pretty_eq m l p k v r {S} (w : string -> M S bool) s : readable m (Bin l p k v r) ->
  nodemut_pretty xk xv m p w s = play w (nodemut_evs k v) s.
Proof.
  intros Hr%readable_root. unfold nodemut_pretty, nodemut_key, nodemut_value. rewrite Hr. cbn [rmap rbind n_key n_value].
  popen. plook. pentry @script_play. plook. pentry @script_play. pentry @fmt_str_play. pentry @fmt_str_play. pclose.
  f_equal; unfold nodemut_evs; cbn [app]. by rewrite <- !app_assoc.
Qed.

Lemma box_pretty_eq m (t : ptree K V) : forall fuel p, sreadable m t -> pheight t < Datatypes.S fuel -> rootp t = Some p ->
  forall S (w : string -> M S bool) s, box_pretty xk xv m (Datatypes.S fuel) p w s = play w (root_evs (erase t)) s.
Proof.
  induction t as [|l IHl q k v r IHr]; intros fuel p Hr Hf Hn; simpl in Hn; [done|].
  injection Hn as <-. simpl in Hf. intros S w s. cbn [box_pretty]. rewrite (sreadable_root _ _ _ _ _ _ Hr), lift_ret. cbn [n_key n_value n_left n_right].
  assert (Hc : forall c, (forall fuel p, sreadable m c -> pheight c < Datatypes.S fuel -> rootp c = Some p ->
      forall S (w : string -> M S bool) s, box_pretty xk xv m (Datatypes.S fuel) p w s = play w (root_evs (erase c)) s) -> sreadable m c -> pheight c < fuel ->
    forall S (w : string -> M S bool) s, pfmt_option w (box_pretty xk xv m fuel) (rootp c) s = play w (tree_evs (erase c)) s).
  { intros c IH Hrc Hh S1 w1 s1. destruct c as [|cl cp ck cv cr]; [apply pfmt_option_none|].
    cbn [rootp erase tree_evs]. apply pfmt_option_some. destruct fuel as [|fuel]; [lia|]. intros s2. by apply IH. }
  assert (Hl := Hc l IHl (sreadable_l _ _ _ _ _ _ Hr) ltac:(lia)).
  assert (Hr' := Hc r IHr (sreadable_r _ _ _ _ _ _ Hr) ltac:(lia)). clear Hc IHl IHr.
  popen. pentry @script_play. pentry @script_play. pentry Hl. pentry Hr'. pclose.
  f_equal; cbn [erase root_evs]; unfold node_evs; cbn [app]. by rewrite <- !app_assoc.
Qed.

Lemma simple_pretty_eq m (t : ptree K V) {S} (w : string -> M S bool) : simple_rep m t ->
  forall s, simple_pretty xk xv xn m w s = play w (simple_evs (erase t) (s_len m)) s.
Proof.
  intros Hrep s. unfold simple_pretty. rewrite (simple_root_ret _ _ Hrep).
  assert (Hc : forall S (w : string -> M S bool) s, pfmt_option w (box_pretty xk xv m (simple_fuel m)) (rootp t) s = play w (tree_evs (erase t)) s).
  { intros S1 w1 s1. destruct t as [|cl cp ck cv cr]; [apply pfmt_option_none|].
    cbn [rootp erase tree_evs]. apply pfmt_option_some. intros s2.
    change (node_evs ck cv (tree_evs (erase cl)) (tree_evs (erase cr))) with (root_evs (erase (Bin cl cp ck cv cr))).
    pose proof (simple_fuel_height _ _ Hrep) as Hf. destruct (simple_fuel m) as [|fuel]; [lia|]. apply box_pretty_eq; try done.
    by apply simple_readable. }
  popen. pentry Hc. pentry @script_play. pclose. f_equal; unfold simple_evs; cbn [app]. by rewrite <- !app_assoc.
Qed.
End map.

(** ** Sets *)
Section sets.
Context {T : Type} (xt : T -> script).

Definition snode_evs (x : T) (l r : list ev) : list ev :=
  [EW "Node"; open_brace] ++ field_evs "value" (script_evs (xt x)) ++
  field_evs "left" l ++ field_evs "right" r ++ [EW "}"].
Fixpoint stree_evs (t : stree T) : list ev :=
  match t with
  | sleaf => [EW "None"]
  | snode l x r => some_evs (snode_evs x (stree_evs l) (stree_evs r))
  end.
Definition sroot_evs (t : stree T) : list ev :=
  match t with sleaf => [] | snode l x r => snode_evs x (stree_evs l) (stree_evs r) end.
Definition set_evs (name : string) (t : stree T) : list ev := [EW name; open_brace] ++ field_evs "root" (stree_evs t) ++ [EW "}"].

Lemma setnode_pretty_eq (m : bstset T) (t : ptree T unit) : forall fuel n, readable m t -> pheight t < Datatypes.S fuel -> node_of t = Some n ->
  forall S (w : string -> M S bool) s, setnode_pretty xt m (Datatypes.S fuel) n w s = play w (sroot_evs (values_tree (erase t))) s.
Proof.
  induction t as [|l IHl p k v r IHr]; intros fuel n Hr Hf Hn; simpl in Hn; [done|].
  injection Hn as <-. simpl in Hf. intros S w s. cbn [setnode_pretty].
  unfold setnode_left, setnode_right, node_left, node_right. cbn [nd_inner n_left n_right].
  rewrite (opt_node_ret m l) by (by eapply readable_l).
  rewrite (opt_node_ret m r) by (by eapply readable_r).
  assert (Hc : forall c, (forall fuel n, readable m c -> pheight c < Datatypes.S fuel -> node_of c = Some n ->
      forall S (w : string -> M S bool) s, setnode_pretty xt m (Datatypes.S fuel) n w s = play w (sroot_evs (values_tree (erase c))) s) -> readable m c -> pheight c < fuel ->
    forall S (w : string -> M S bool) s, pfmt_option w (setnode_pretty xt m fuel) (node_of c) s = play w (stree_evs (values_tree (erase c))) s).
  { intros c IH Hrc Hh S1 w1 s1. destruct c as [|cl cp ck cv cr]; [apply pfmt_option_none|].
    cbn [node_of erase values_tree stree_evs]. apply pfmt_option_some. destruct fuel as [|fuel]; [lia|]. intros s2. by apply IH. }
  assert (Hl := Hc l IHl (readable_l _ _ _ _ _ _ Hr) ltac:(lia)).
  assert (Hr' := Hc r IHr (readable_r _ _ _ _ _ _ Hr) ltac:(lia)). clear Hc IHl IHr.
  popen. pentry @script_play. plook. pentry Hl. plook. pentry Hr'. pclose.
  f_equal; cbn [erase values_tree sroot_evs]; unfold snode_evs; cbn [app]. by rewrite <- !app_assoc.
Qed.

Lemma set_pretty_eq m (t : ptree T unit) fl {S} (w : string -> M S bool) : map_rep m t fl ->
  forall s, set_pretty xt m w s = play w (set_evs "BSTSet" (values_tree (erase t))) s.
Proof.
  intros Hrep s. unfold set_pretty, bstset_root. rewrite (map_root_ret _ _ _ Hrep).
  assert (Hc : forall S (w : string -> M S bool) s, pfmt_option w (setnode_pretty xt m (map_fuel m)) (node_of t) s = play w (stree_evs (values_tree (erase t))) s).
  { intros S1 w1 s1. destruct t as [|cl cp ck cv cr]; [apply pfmt_option_none|].
    cbn [node_of erase values_tree stree_evs]. apply pfmt_option_some. intros s2. unfold map_fuel.
    change (snode_evs ck (stree_evs (values_tree (erase cl))) (stree_evs (values_tree (erase cr)))) with (sroot_evs (values_tree (erase (Bin cl cp ck cv cr)))).
    apply setnode_pretty_eq; try done.
    - by eapply rep_readable.
    - by eapply rep_fuel_height. }
  popen. plook. pentry Hc. pclose. f_equal; unfold set_evs; cbn [app]; by rewrite <- ?app_assoc.
Qed.

Lemma ssetnode_pretty_eq (m : sset T) (t : ptree T unit) : forall fuel p, sreadable m t -> pheight t < Datatypes.S fuel -> rootp t = Some p ->
  forall S (w : string -> M S bool) s, ssetnode_pretty xt m (Datatypes.S fuel) p w s = play w (sroot_evs (values_tree (erase t))) s.
Proof.
  induction t as [|l IHl q k v r IHr]; intros fuel p Hr Hf Hn; simpl in Hn; [done|].
  injection Hn as <-. simpl in Hf. intros S w s. cbn [ssetnode_pretty]. unfold ssetnode_value, ssetnode_left, ssetnode_right.
  rewrite (sreadable_root _ _ _ _ _ _ Hr). cbn [rmap rbind n_key n_left n_right].
  assert (Hc : forall c, (forall fuel p, sreadable m c -> pheight c < Datatypes.S fuel -> rootp c = Some p ->
      forall S (w : string -> M S bool) s, ssetnode_pretty xt m (Datatypes.S fuel) p w s = play w (sroot_evs (values_tree (erase c))) s) -> sreadable m c -> pheight c < fuel ->
    forall S (w : string -> M S bool) s, pfmt_option w (ssetnode_pretty xt m fuel) (rootp c) s = play w (stree_evs (values_tree (erase c))) s).
  { intros c IH Hrc Hh S1 w1 s1. destruct c as [|cl cp ck cv cr]; [apply pfmt_option_none|].
    cbn [rootp erase values_tree stree_evs]. apply pfmt_option_some. destruct fuel as [|fuel]; [lia|]. intros s2. by apply IH. }
  assert (Hl := Hc l IHl (sreadable_l _ _ _ _ _ _ Hr) ltac:(lia)).
  assert (Hr' := Hc r IHr (sreadable_r _ _ _ _ _ _ Hr) ltac:(lia)). clear Hc IHl IHr.
  popen. plook. pentry @script_play. plook. pentry Hl. plook. pentry Hr'. pclose.
  f_equal; cbn [erase values_tree sroot_evs]; unfold snode_evs; cbn [app]. by rewrite <- !app_assoc.
Qed.

Lemma sset_pretty_eq m (t : ptree T unit) {S} (w : string -> M S bool) : simple_rep m t ->
  forall s, sset_pretty xt m w s = play w (set_evs "SimpleBSTSet" (values_tree (erase t))) s.
Proof.
  intros Hrep s. unfold sset_pretty, sset_root. rewrite (simple_root_ret _ _ Hrep).
  assert (Hc : forall S (w : string -> M S bool) s, pfmt_option w (ssetnode_pretty xt m (simple_fuel m)) (rootp t) s = play w (stree_evs (values_tree (erase t))) s).
  { intros S1 w1 s1. destruct t as [|cl cp ck cv cr]; [apply pfmt_option_none|].
    cbn [rootp erase values_tree stree_evs]. apply pfmt_option_some. intros s2.
    change (snode_evs ck (stree_evs (values_tree (erase cl))) (stree_evs (values_tree (erase cr)))) with (sroot_evs (values_tree (erase (Bin cl cp ck cv cr)))).
    pose proof (simple_fuel_height _ _ Hrep) as Hf. destruct (simple_fuel m) as [|fuel]; [lia|]. apply ssetnode_pretty_eq; try done.
    by apply simple_readable. }
  popen. pentry Hc. pclose. f_equal; unfold set_evs; cbn [app]; by rewrite <- ?app_assoc.
Qed.

(** ** Arenas *)
Definition entry_evs (x : T) : list ev := pad_evs true (script_evs (xt x) ++ [comma]).
Definition entries_evs (h : bool) (l : list T) : list ev :=
  match l with [] => [] | _ => (if h then [] else [EW newline_str]) ++ concat (entry_evs <$> l) end.

Lemma plist_entry_play {S} (w : string -> M S bool) h x s :
  plist_entry w (true, h) (fmt_script (xt x)) s =
  sbind (play w ((if h then [] else [EW newline_str]) ++ entry_evs x)) (fun ok => sret (ok, true)) s.
Proof.
  unfold plist_entry. cbn [fst snd]. unfold sbind.
  match goal with |- context [and_then ?a ?b s] => replace (and_then a b s) with
    (play w ((if h then [] else [EW newline_str]) ++ entry_evs x) s) end; [done|].
  symmetry. apply play_two.
  - intros s2. destruct h; [done|]. apply (play_one w (EW _)).
  - intros s2. apply padded_play. intros s3. apply play_two; [intros; apply script_play|]. intros s4. apply (play_one (pad w) comma).
Qed.

Lemma arena_pretty_loop_eq e (a : arena T) l {S} (w : string -> M S bool) : arena_rep a l ->
  forall fuel i ok (h : bool) s, (length l - i < fuel)%nat -> (i <= length l)%nat ->
  arena_pretty_loop xt e fuel a w (ok, h) (mkRange (N.of_nat i) (N.of_nat (length l))) s =
  sbind (if ok then play w (entries_evs h (drop i l.*2)) else sret false)
        (fun b => sret (b, h || negb (bool_decide (i = length l)))) s.
Proof.
  intros Hrep. induction fuel as [|fuel IH]; intros i ok h s Hf Hi; [lia|]. cbn [arena_pretty_loop].
  destruct (decide (i = length l)) as [->|Hne].
  { rewrite next_ptr_none by (simpl; lia). rewrite lift_ret. rewrite !drop_ge by (rewrite ?fmap_length; lia).
    rewrite bool_decide_eq_true_2 by done. cbn [negb]. rewrite orb_false_r. by destruct ok, h. }
  assert (Hi1 : (i < length l)%nat) by lia. apply lookup_lt_is_Some in Hi1 as [[p x] Hl].
  destruct (arena_rep_lookup _ _ _ _ _ Hrep Hl) as [Hp Hc].
  destruct (next_ptr_some e a (mkRange (N.of_nat i) (N.of_nat (length l))) (rp_inv _ _ Hrep) (arena_rep_full _ _ Hrep))
    as (y & Hy & ->); [simpl; lia|simpl; rewrite (arena_rep_len _ _ Hrep); lia|].
  cbn [r_start r_end] in *. rewrite <- Hp, Hc in Hy. injection Hy as <-. rewrite lift_ret.
  replace (N.of_nat i + 1)%N with (N.of_nat (Datatypes.S i)) by lia.
  rewrite bool_decide_eq_false_2 by done. cbn [negb]. rewrite orb_true_r.
  rewrite (drop_S l.*2 x i) by by rewrite list_lookup_fmap, Hl.
  destruct ok.
  - unfold sbind at 1. rewrite plist_entry_play. unfold sbind at 1, sret at 1.
    replace (entries_evs h (x :: drop (Datatypes.S i) l.*2)) with
      (((if h then [] else [EW newline_str]) ++ entry_evs x) ++ entries_evs true (drop (Datatypes.S i) l.*2)).
    2: { unfold entries_evs. cbn [fmap list_fmap concat]. rewrite <- app_assoc. by destruct (drop (Datatypes.S i) l.*2). }
    generalize ((if h then [] else [EW newline_str]) ++ entry_evs x). intros l1.
    unfold sbind. rewrite play_app. unfold and_then, sbind.
    destruct (play w l1 s) as [[[]| | | |] s1]; try done; rewrite IH by lia; cbn [orb]; done.
  - unfold plist_entry. cbn [fst]. unfold sbind, sret; cbv beta iota. rewrite IH by lia. cbn [orb]. done.
Qed.

Definition arena_evs (l : list T) : list ev := [EW "["] ++ entries_evs false l ++ [EW "]"].
Lemma arena_pretty_eq e (a : arena T) l {S} (w : string -> M S bool) : arena_rep a l ->
  forall s, arena_pretty xt e a w s = play w (arena_evs l.*2) s.
Proof.
  intros Hrep s. unfold arena_pretty, iter_new, arena_len. rewrite (arena_rep_len _ _ Hrep), Nat2N.id.
  unfold arena_evs. cbn [app play emit_ev]. unfold and_then. apply bind_ext. intros ok s1.
  change 0%N with (N.of_nat 0). unfold sbind. rewrite (arena_pretty_loop_eq e a l w Hrep) by lia. rewrite !drop_0.
  destruct ok; [|done]. rewrite play_app. unfold and_then, sbind, list_finish.
  destruct (play w (entries_evs false l.*2) s1) as [[[]| | | |] s2]; try done. cbn [fst snd sret].
  unfold sret. cbv beta iota. cbn [fst]. by rewrite <- (play_one w (EW "]")).
Qed.
End sets.

(** ** The text of events *)

Definition cat (l : list string) : string := foldr String.append "" l.
Lemma concat_cat l : String.concat "" l = cat l.
Proof.
  induction l as [|a [|b l] IH]; [done| |].
  - cbn. by rewrite string_app_nil.
  - change (String.concat "" (a :: b :: l)) with (a ++ "" ++ String.concat "" (b :: l))%string. by rewrite IH.
Qed.
Lemma cat_app l1 l2 : cat (l1 ++ l2) = (cat l1 ++ cat l2)%string.
Proof. induction l1 as [|a l1 IH]; [done|]. change (a ++ cat (l1 ++ l2) = (a ++ cat l1) ++ cat l2)%string. by rewrite IH, string_app_assoc. Qed.

Fixpoint ev_text (l : list ev) : string :=
  match l with [] => "" | EW s :: l => (s ++ ev_text l)%string | ER _ :: l => ev_text l end.
Fixpoint ev_results (l : list ev) : list (res bool) :=
  match l with [] => [] | EW _ :: l => ev_results l | ER r :: l => r :: ev_results l end.
Lemma ev_text_app l1 l2 : ev_text (l1 ++ l2) = (ev_text l1 ++ ev_text l2)%string.
Proof. induction l1 as [|[s|r] l1 IH]; [done| |done]. cbn [app ev_text]. by rewrite IH, string_app_assoc. Qed.
Lemma ev_results_app l1 l2 : ev_results (l1 ++ l2) = ev_results l1 ++ ev_results l2.
Proof. induction l1 as [|[s|r] l1 IH]; [done|done|]. cbn [app ev_results]. by rewrite IH. Qed.
Lemma ev_text_script x : ev_text (script_evs x) = script_text x.
Proof.
  unfold script_evs, script_text. rewrite concat_cat. induction x.1 as [|a l IH]; [done|]. cbn [fmap list_fmap app ev_text]. by rewrite IH.
Qed.
Lemma ev_results_script x : ev_results (script_evs x) = [x.2].
Proof. unfold script_evs. by induction x.1. Qed.

(** *** Indenting *)
Fixpoint at_start (b : bool) (s : string) : bool :=
  match s with EmptyString => b | String c s => at_start (Ascii.eqb c newline) s end.
Lemma indent_app s1 s2 : forall b, indent_from b (s1 ++ s2)%string = (indent_from b s1 ++ indent_from (at_start b s1) s2)%string.
Proof.
  induction s1 as [|c s1 IH]; intros b; [done|]. change ((String c s1 ++ s2)%string) with (String c (s1 ++ s2)).
  cbn [indent_from at_start]. rewrite IH. by destruct b.
Qed.
Lemma at_start_app s1 s2 : forall b, at_start b (s1 ++ s2)%string = at_start (at_start b s1) s2.
Proof. induction s1 as [|c s1 IH]; intros b; [done|]. apply IH. Qed.

(** A nonempty text whose only line end is at its end. *)
Inductive is_line : string -> Prop :=
| line_end c : is_line (String c "")
| line_more c s : Ascii.eqb c newline = false -> is_line s -> is_line (String c s).
Lemma line_indent b s : is_line s -> indent_from b s = ((if b then "    " else "") ++ s)%string /\ at_start b s = ends_line s.
Proof.
  intros H. revert b. induction H as [c|c s Hc H IH]; intros b; [done|]. destruct (IH false) as [H1 H2].
  cbn [indent_from at_start]. rewrite Hc, H1, H2. split; [done|]. by destruct H.
Qed.
Lemma split_is_lines s : Forall is_line (split_lines s) /\ cat (split_lines s) = s.
Proof.
  induction s as [|c s [IH1 IH2]]; [split; [constructor|done]|]. cbn [split_lines]. destruct (Ascii.eqb c newline) eqn:E.
  - split; [constructor; [constructor|done]|]. change (String c "" ++ cat (split_lines s) = String c s)%string. by rewrite IH2.
  - destruct (split_lines s) as [|l ls]; [split; [repeat constructor|]|].
    + cbn in IH2 |- *. by rewrite <- IH2.
    + apply Forall_cons in IH1 as [H1 H2]. split; [constructor; [by constructor|done]|].
      change (String c (l ++ cat ls) = String c s)%string. by rewrite <- IH2.
Qed.
Lemma pad_strs_text ls : forall b, Forall is_line ls -> ev_text (pad_strs b ls) = indent_from b (cat ls) /\ strs_after b ls = at_start b (cat ls).
Proof.
  induction ls as [|l ls IH]; intros b Hl; [done|]. apply Forall_cons in Hl as [H1 H2]. cbn [pad_strs strs_after].
  change (cat (l :: ls)) with (l ++ cat ls)%string. destruct (line_indent b l H1) as [H3 H4]. destruct (IH (ends_line l) H2) as [H5 H6].
  rewrite indent_app, at_start_app, ev_text_app, H3, H4. cbn [ev_text]. rewrite H5, H6. split; [|done].
  rewrite string_app_assoc. by destruct b.
Qed.
Lemma pad_strs_results ls : forall b, ev_results (pad_strs b ls) = [].
Proof. induction ls as [|l ls IH]; intros b; [done|]. cbn [pad_strs]. rewrite ev_results_app. cbn [ev_results]. rewrite IH. by destruct b. Qed.
Lemma pad_evs_text l : forall b, ev_text (pad_evs b l) = indent_from b (ev_text l).
Proof.
  induction l as [|[s|r] l IH]; intros b; [done| |apply IH]. cbn [pad_evs ev_text]. rewrite ev_text_app, indent_app, IH.
  destruct (split_is_lines s) as [H1 H2]. destruct (pad_strs_text _ b H1) as [-> ->]. by rewrite H2.
Qed.
Lemma pad_evs_results l : forall b, ev_results (pad_evs b l) = ev_results l.
Proof.
  induction l as [|[s|r] l IH]; intros b; [done| |]; cbn [pad_evs ev_results].
  - by rewrite ev_results_app, pad_strs_results, IH.
  - by rewrite IH.
Qed.
Lemma field_evs_text name l : ev_text (field_evs name l) = field_text name (ev_text l).
Proof.
  unfold field_evs, field_text, indent. rewrite pad_evs_text. f_equal. cbn [app ev_text]. rewrite ev_text_app. cbn [ev_text comma]. by rewrite string_app_nil.
Qed.
Lemma field_evs_results name l : ev_results (field_evs name l) = ev_results l.
Proof. unfold field_evs. rewrite pad_evs_results. cbn [app ev_results]. rewrite ev_results_app. cbn [ev_results comma]. by rewrite app_nil_r. Qed.
Lemma some_evs_text l : ev_text (some_evs l) = ("Some(" ++ newline_str ++ indent (ev_text l ++ "," ++ newline_str) ++ ")")%string.
Proof.
  unfold some_evs. cbn [app ev_text]. rewrite ev_text_app, pad_evs_text, ev_text_app. cbn [ev_text comma].
  rewrite !string_app_nil. reflexivity.
Qed.
Lemma some_evs_results l : ev_results (some_evs l) = ev_results l.
Proof.
  unfold some_evs. cbn [app ev_results]. rewrite ev_results_app, pad_evs_results, ev_results_app. cbn [ev_results comma]. by rewrite !app_nil_r.
Qed.

(** *** Playing *)
Lemma play_push l : forall s, Forall (fun r => r = Ret true) (ev_results l) ->
  play push l s = (Ret true, (s ++ ev_text l)%string).
Proof.
  induction l as [|[t|r] l IH]; intros s Hl; cbn [play emit_ev ev_text ev_results] in *.
  - by rewrite string_app_nil.
  - unfold and_then, sbind. change (push t s) with (@Ret bool true, (s ++ t)%string). cbv beta iota. rewrite IH by done. by rewrite string_app_assoc.
  - apply Forall_cons in Hl as [-> Hl]. unfold and_then, sbind, slift. by apply IH.
Qed.
Lemma play_writes u l : forall log r log',
  play (inquire u) l log = (r, log') ->
  exists new rest, log' = log ++ new /\ ev_text l = (cat new ++ rest)%string /\
    (r = Ret true -> rest = "" /\ Forall (fun r => r = Ret true) (ev_results l)) /\
    (r <> Ret true -> (exists l1 s, log' = l1 ++ [s] /\ u l1 s = r) \/
       (exists r1 r2, ev_results l = r1 ++ r :: r2 /\ Forall (fun r => r = Ret true) r1)).
Proof.
  induction l as [|[t|q] l IH]; intros log r log'; cbn [play emit_ev ev_text ev_results] in *.
  - intros [= <- <-]. exists [], "". rewrite app_nil_r. split; [done|]. split; [done|]. split; [|done]. split; [done|constructor].
  - unfold and_then, sbind, inquire at 1.
    assert (Hstop : r <> Ret true -> u log t = r -> log' = log ++ [t] ->
      exists new rest, log' = log ++ new /\ (t ++ ev_text l)%string = (cat new ++ rest)%string /\
        (r = Ret true -> rest = "" /\ Forall (fun r => r = Ret true) (ev_results l)) /\
        (r <> Ret true -> (exists l1 s, log' = l1 ++ [s] /\ u l1 s = r) \/
           (exists r1 r2, ev_results l = r1 ++ r :: r2 /\ Forall (fun r => r = Ret true) r1))).
    { intros H1 H2 ->. exists [t], (ev_text l). split; [done|]. split; [cbn; by rewrite string_app_nil|]. split; [done|].
      intros _. left. by exists log, t. }
    destruct (u log t) as [[]| | | |] eqn:E; try (intros [= <- <-]; by apply Hstop).
    intros H. destruct (IH _ _ _ H) as (new & rest & -> & -> & H3 & H4). exists (t :: new), rest.
    split; [by rewrite <- app_assoc|]. split; [|done]. change (cat (t :: new)) with (t ++ cat new)%string. by rewrite string_app_assoc.
  - unfold and_then, sbind, slift.
    assert (Hstop : r <> Ret true -> q = r -> log' = log ->
      exists new rest, log' = log ++ new /\ ev_text l = (cat new ++ rest)%string /\
        (r = Ret true -> rest = "" /\ Forall (fun r => r = Ret true) (q :: ev_results l)) /\
        (r <> Ret true -> (exists l1 s, log' = l1 ++ [s] /\ u l1 s = r) \/
           (exists r1 r2, q :: ev_results l = r1 ++ r :: r2 /\ Forall (fun r => r = Ret true) r1))).
    { intros H1 H2 ->. exists [], (ev_text l). rewrite app_nil_r. split; [done|]. split; [done|]. split; [done|].
      intros _. right. exists [], (ev_results l). rewrite <- H2. split; [done|constructor]. }
    destruct q as [[]| | | |]; try (intros [= <- <-]; by apply Hstop).
    intros H. destruct (IH _ _ _ H) as (new & rest & H1 & H2 & H3 & H4). exists new, rest.
    split; [done|]. split; [done|]. split.
    + intros Hr. destruct (H3 Hr) as [H5 H6]. split; [done|]. by constructor.
    + intros Hr. destruct (H4 Hr) as [H5|(r1 & r2 & H5 & H6)]; [by left|]. right. exists (Ret true :: r1), r2. rewrite H5. split; [done|]. by constructor.
Qed.

Lemma all_ok (xs : list script) : Forall (fun r => r = Ret true) xs.*2 <-> Forall script_ok xs.
Proof. by rewrite Forall_fmap. Qed.
(** Both claims, for a body that plays [l], whose elements are [xs]. *)
Lemma pushes (body : M string bool) l (xs : list script) text : (forall s, body s = play push l s) ->
  ev_results l = xs.*2 -> ev_text l = text -> Forall script_ok xs -> body "" = (Ret true, text).
Proof. intros Hb Hx <- Hok. rewrite Hb, play_push; [done|]. rewrite Hx. by apply all_ok. Qed.
Lemma writes_play u (body : M (list string) bool) l xs text r log : (forall s, body s = play (inquire u) l s) ->
  ev_results l = xs.*2 -> ev_text l = text -> body [] = (r, log) -> writes u xs text r log.
Proof.
  intros Hb Hx <-. rewrite Hb. intros H.
  destruct (play_writes u l [] r log) as (new & rest & -> & Ht & H3 & H4); [done|].
  cbn [app] in *. split; [exists rest; rewrite concat_cat; split; [done|]; intros Hr; by apply H3|]. split.
  - intros Hr. destruct (H3 Hr) as [_ H5]. rewrite Hx in H5. by apply all_ok.
  - intros Hr. destruct (H4 Hr) as [H5|(r1 & r2 & H5 & H6)]; [by left|]. right. rewrite Hx in H5.
    apply fmap_app_inv in H5 as (xs1 & xs2 & -> & H7 & ->). destruct xs2 as [|x xs2]; [done|]. injection H7 as -> _.
    exists xs1, x, xs2. split; [done|]. split; [by apply all_ok|done].
Qed.

(** ** Texts and results of trees *)
Section map.
Context {K V : Type} (xk : K -> script) (xv : V -> script) (xn : N -> script).
Notation tk := (fun k => script_text (xk k)). Notation tv := (fun v => script_text (xv v)). Notation tn := (fun n => script_text (xn n)).

Lemma node_evs_text k v l r : ev_text (node_evs xk xv k v l r) = node_lines tk tv k v (ev_text l) (ev_text r).
Proof.
  unfold node_evs, node_lines. rewrite !ev_text_app, !field_evs_text, !ev_text_script. cbn [ev_text open_brace].
  rewrite !string_app_nil. reflexivity.
Qed.
Lemma tree_evs_text t : ev_text (tree_evs xk xv t) = tree_pretty_text tk tv t.
Proof. induction t as [|l IHl k v r IHr]; [done|]. cbn [tree_evs tree_pretty_text]. by rewrite some_evs_text, node_evs_text, IHl, IHr. Qed.
Lemma root_evs_text t : ev_text (root_evs xk xv t) = node_pretty_text tk tv t.
Proof. destruct t as [|l k v r]; [done|]. cbn [root_evs node_pretty_text]. by rewrite node_evs_text, !tree_evs_text. Qed.
Lemma map_evs_text t : ev_text (map_evs xk xv t) = map_pretty_text tk tv t.
Proof.
  unfold map_evs, map_pretty_text. rewrite !ev_text_app, !field_evs_text, !tree_evs_text. cbn [ev_text open_brace].
  rewrite !string_app_nil. reflexivity.
Qed.
Lemma simple_evs_text t n : ev_text (simple_evs xk xv xn t n) = simple_pretty_text tk tv t (tn n).
Proof.
  unfold simple_evs, simple_pretty_text. rewrite !ev_text_app, !field_evs_text, !tree_evs_text, ev_text_script. cbn [ev_text open_brace].
  rewrite !string_app_nil. reflexivity.
Qed.
Lemma nodemut_evs_text k v : ev_text (nodemut_evs xk xv k v) = nodemut_pretty_text tk tv k v.
Proof.
  unfold nodemut_evs, nodemut_pretty_text. rewrite !ev_text_app, !field_evs_text, !ev_text_script. cbn [ev_text open_brace str_evs].
  rewrite !string_app_nil. reflexivity.
Qed.
Lemma node_evs_results k v l r : ev_results (node_evs xk xv k v l r) = (xk k).2 :: (xv v).2 :: ev_results l ++ ev_results r.
Proof. unfold node_evs. rewrite !ev_results_app, !field_evs_results, !ev_results_script. cbn [ev_results open_brace app]. by rewrite app_nil_r. Qed.
Lemma tree_scripts_node l k v r : tree_scripts xk xv (tnode l k v r) = xk k :: xv v :: tree_scripts xk xv l ++ tree_scripts xk xv r.
Proof. unfold tree_scripts. cbn [tree_preorder]. rewrite bind_cons, bind_app. done. Qed.
Lemma tree_evs_results t : ev_results (tree_evs xk xv t) = (tree_scripts xk xv t).*2.
Proof.
  induction t as [|l IHl k v r IHr]; [done|]. cbn [tree_evs]. rewrite some_evs_results, node_evs_results, IHl, IHr, tree_scripts_node.
  cbn [fmap list_fmap]. by rewrite fmap_app.
Qed.
Lemma root_evs_results t : ev_results (root_evs xk xv t) = (tree_scripts xk xv t).*2.
Proof. destruct t as [|l k v r]; [done|]. cbn [root_evs]. rewrite node_evs_results, !tree_evs_results, tree_scripts_node. cbn [fmap list_fmap]. by rewrite fmap_app. Qed.
Lemma map_evs_results t : ev_results (map_evs xk xv t) = (tree_scripts xk xv t).*2.
Proof. unfold map_evs. rewrite !ev_results_app, field_evs_results, tree_evs_results. cbn [ev_results open_brace app]. by rewrite app_nil_r. Qed.
Lemma simple_evs_results t n : ev_results (simple_evs xk xv xn t n) = (tree_scripts xk xv t ++ [xn n]).*2.
Proof.
  unfold simple_evs. rewrite !ev_results_app, !field_evs_results, tree_evs_results, ev_results_script. cbn [ev_results open_brace app].
  by rewrite fmap_app.
Qed.
Lemma nodemut_evs_results k v : ev_results (nodemut_evs xk xv k v) = [xk k; xv v].*2.
Proof. unfold nodemut_evs. rewrite !ev_results_app, !field_evs_results, !ev_results_script. done. Qed.
End map.

Section set.
Context {T : Type} (xt : T -> script).
Notation tt_ := (fun x => script_text (xt x)).

Lemma snode_evs_text x l r : ev_text (snode_evs xt x l r) = snode_lines tt_ x (ev_text l) (ev_text r).
Proof.
  unfold snode_evs, snode_lines. rewrite !ev_text_app, !field_evs_text, !ev_text_script. cbn [ev_text open_brace].
  rewrite !string_app_nil. reflexivity.
Qed.
Lemma stree_evs_text t : ev_text (stree_evs xt t) = stree_pretty_text tt_ t.
Proof. induction t as [|l IHl k r IHr]; [done|]. cbn [stree_evs stree_pretty_text]. by rewrite some_evs_text, snode_evs_text, IHl, IHr. Qed.
Lemma sroot_evs_text t : ev_text (sroot_evs xt t) = snode_pretty_text tt_ t.
Proof. destruct t as [|l k r]; [done|]. cbn [sroot_evs snode_pretty_text]. by rewrite snode_evs_text, !stree_evs_text. Qed.
Lemma set_evs_text name t : ev_text (set_evs xt name t) = set_pretty_text tt_ name t.
Proof.
  unfold set_evs, set_pretty_text. rewrite !ev_text_app, !field_evs_text, !stree_evs_text. cbn [ev_text open_brace].
  rewrite !string_app_nil, !string_app_assoc. reflexivity.
Qed.
Lemma snode_evs_results x l r : ev_results (snode_evs xt x l r) = (xt x).2 :: ev_results l ++ ev_results r.
Proof. unfold snode_evs. rewrite !ev_results_app, !field_evs_results, !ev_results_script. cbn [ev_results open_brace app]. by rewrite app_nil_r. Qed.
Lemma stree_scripts_node l x r : stree_scripts xt (snode l x r) = xt x :: stree_scripts xt l ++ stree_scripts xt r.
Proof. unfold stree_scripts. cbn [stree_order fmap list_fmap]. by rewrite fmap_app. Qed.
Lemma stree_evs_results t : ev_results (stree_evs xt t) = (stree_scripts xt t).*2.
Proof.
  induction t as [|l IHl k r IHr]; [done|]. cbn [stree_evs]. rewrite some_evs_results, snode_evs_results, IHl, IHr, stree_scripts_node.
  cbn [fmap list_fmap]. by rewrite fmap_app.
Qed.
Lemma sroot_evs_results t : ev_results (sroot_evs xt t) = (stree_scripts xt t).*2.
Proof. destruct t as [|l k r]; [done|]. cbn [sroot_evs]. rewrite snode_evs_results, !stree_evs_results, stree_scripts_node. cbn [fmap list_fmap]. by rewrite fmap_app. Qed.
Lemma set_evs_results name t : ev_results (set_evs xt name t) = (stree_scripts xt t).*2.
Proof. unfold set_evs. rewrite !ev_results_app, field_evs_results, stree_evs_results. cbn [ev_results open_brace app]. by rewrite app_nil_r. Qed.

Lemma entries_text l : ev_text (concat (entry_evs xt <$> l)) = cat ((fun x => indent (tt_ x ++ "," ++ newline_str)%string) <$> l).
Proof.
  induction l as [|x l IH]; [done|]. cbn [fmap list_fmap concat cat foldr]. rewrite ev_text_app, IH. unfold entry_evs.
  rewrite pad_evs_text, ev_text_app, ev_text_script. cbn [ev_text comma]. by rewrite string_app_nil.
Qed.
Lemma entries_results l : ev_results (concat (entry_evs xt <$> l)) = (xt <$> l).*2.
Proof.
  induction l as [|x l IH]; [done|]. cbn [fmap list_fmap concat]. rewrite ev_results_app, IH. unfold entry_evs.
  rewrite pad_evs_results, ev_results_app, ev_results_script. done.
Qed.
Lemma arena_evs_text l : ev_text (arena_evs xt l) = arena_pretty_text tt_ l.
Proof.
  unfold arena_evs, arena_pretty_text. rewrite !ev_text_app. destruct l as [|x l]; [done|]. unfold entries_evs.
  rewrite ev_text_app, entries_text, concat_cat. cbn [ev_text]. rewrite !string_app_nil, !string_app_assoc. reflexivity.
Qed.
Lemma arena_evs_results l : ev_results (arena_evs xt l) = (xt <$> l).*2.
Proof.
  unfold arena_evs. rewrite !ev_results_app. destruct l as [|x l]; [done|]. unfold entries_evs. rewrite ev_results_app, entries_results.
  cbn [ev_results app]. by rewrite app_nil_r.
Qed.
End set.

(** ** Lines *)
Definition ended (ls : list (nat * string)) : string := cat ((fun l => line_text l ++ newline_str)%string <$> ls).
Lemma ended_app l1 l2 : ended (l1 ++ l2) = (ended l1 ++ ended l2)%string.
Proof. unfold ended. by rewrite fmap_app, cat_app. Qed.
Lemma ended_cons d s l : ended ((d, s) :: l) = (spaces (4 * d) ++ s ++ newline_str ++ ended l)%string.
Proof. unfold ended. cbn [fmap list_fmap cat foldr]. unfold line_text. cbn [fst snd]. by rewrite !string_app_assoc. Qed.
Lemma lines_last ls s : lines_text (ls ++ [(0, s)]) = (ended ls ++ s)%string.
Proof.
  unfold lines_text. induction ls as [|[d x] ls IH]; [done|]. rewrite ended_cons.
  transitivity (line_text (d, x) ++ newline_str ++ String.concat newline_str (line_text <$> (ls ++ [(0, s)])%list))%string.
  { by destruct ls. }
  rewrite IH. unfold line_text. cbn [fst snd]. by rewrite !string_app_assoc.
Qed.

Lemma one_line_cons c s : one_line (String c s) <-> c <> newline /\ one_line s.
Proof.
  split.
  - intros H. split; [intros ->; by apply (H 0)|]. intros i. apply (H (Datatypes.S i)).
  - intros [H1 H2] [|i]; cbn; [congruence|apply H2].
Qed.
Lemma one_line_app a b : one_line a -> one_line b -> one_line (a ++ b)%string.
Proof.
  induction a as [|c a IH]; intros Ha Hb; [done|]. apply one_line_cons in Ha as [H1 H2].
  change (one_line (String c (a ++ b))). apply one_line_cons. split; [done|]. by apply IH.
Qed.
Lemma one_line_spaces n : one_line (spaces n).
Proof. induction n as [|n IH]; [intros i; by destruct i|]. by apply one_line_cons. Qed.
Lemma indent_line b s rest : one_line s -> (s <> "" \/ b = true) ->
  indent_from b (s ++ newline_str ++ rest)%string = ((if b then "    " else "") ++ s ++ newline_str ++ indent rest)%string.
Proof.
  revert b. induction s as [|c s IH]; intros b Hs Hb.
  - destruct Hb as [?| ->]; [done|]. reflexivity.
  - apply one_line_cons in Hs as [H1 H2]. change ((String c s ++ newline_str ++ rest)%string) with (String c (s ++ newline_str ++ rest)).
    cbn [indent_from]. replace (Ascii.eqb c newline) with false by (symmetry; by apply Ascii.eqb_neq).
    change ((String c s ++ newline_str ++ indent rest)%string) with (String c (s ++ newline_str ++ indent rest)).
    do 2 f_equal. destruct s as [|c' s].
    + change (("" ++ newline_str ++ rest)%string) with (newline_str ++ rest)%string. reflexivity.
    + apply (IH false); [done|by left].
Qed.
Definition deeper (l : nat * string) : nat * string := (Datatypes.S l.1, l.2).
Lemma indent_ended ls : Forall (fun l => one_line l.2) ls -> indent (ended ls) = ended (deeper <$> ls).
Proof.
  induction ls as [|[d s] ls IH]; intros Hl; [done|]. apply Forall_cons in Hl as [H1 H2]. cbn [fmap list_fmap]. unfold deeper at 1. cbn [fst snd] in *.
  rewrite !ended_cons, <- IH by done. unfold indent at 1. rewrite <- string_app_assoc. rewrite indent_line; [|apply one_line_app; [apply one_line_spaces|done]|by right].
  rewrite !string_app_assoc. replace (4 * Datatypes.S d) with (Datatypes.S (Datatypes.S (Datatypes.S (Datatypes.S (4 * d))))) by lia. reflexivity.
Qed.

Ltac one_line_tac := repeat first [assumption | apply one_line_app | (apply one_line_cons; split; [discriminate|]) | (intros i; destruct i; discriminate)].

Section map.
Context {K V : Type} (tk : K -> string) (tv : V -> string).
Lemma tree_lines_deeper t : forall d label, deeper <$> tree_lines tk tv d label t = tree_lines tk tv (Datatypes.S d) label t.
Proof. induction t as [|l IHl k v r IHr]; intros d label; [done|]. cbn [tree_lines]. rewrite !fmap_app, IHl, IHr. done. Qed.
Lemma tree_lines_one t : (forall k v, (k, v) ∈ tree_inorder t -> one_line (tk k) /\ one_line (tv v)) ->
  forall d label, one_line label -> Forall (fun l => one_line l.2) (tree_lines tk tv d label t).
Proof.
  induction t as [|l IHl k v r IHr]; intros Hone d label Hlabel; cbn [tree_lines].
  - constructor; [|constructor]. cbn [snd]. one_line_tac.
  - destruct (Hone k v) as [Hk Hv]; [cbn; set_solver|].
    rewrite !Forall_app. split; [|split; [|split]].
    + repeat constructor; cbn [snd]; one_line_tac.
    + apply IHl; [|one_line_tac]. intros k' v' H. apply Hone. cbn. set_solver.
    + apply IHr; [|one_line_tac]. intros k' v' H. apply Hone. cbn. set_solver.
    + repeat constructor; cbn [snd]; one_line_tac.
Qed.
Lemma tree_lines_text t : (forall k v, (k, v) ∈ tree_inorder t -> one_line (tk k) /\ one_line (tv v)) ->
  forall label, one_line label -> ended (tree_lines tk tv 0 label t) = (label ++ ": " ++ tree_pretty_text tk tv t ++ "," ++ newline_str)%string.
Proof.
  induction t as [|l IHl k v r IHr]; intros Hone label Hlabel; cbn [tree_lines].
  - rewrite ended_cons. cbn [tree_pretty_text]. rewrite !string_app_assoc. reflexivity.
  - destruct (Hone k v) as [Hk Hv]; [cbn; set_solver|].
    assert (Hl : forall k' v', (k', v') ∈ tree_inorder l -> one_line (tk k') /\ one_line (tv v')) by (intros k' v' H; apply Hone; cbn; set_solver).
    assert (Hr : forall k' v', (k', v') ∈ tree_inorder r -> one_line (tk k') /\ one_line (tv v')) by (intros k' v' H; apply Hone; cbn; set_solver).
    assert (Hf : forall name c, one_line name -> (forall label, one_line label -> ended (tree_lines tk tv 0 label c) = (label ++ ": " ++ tree_pretty_text tk tv c ++ "," ++ newline_str)%string) ->
      (forall k' v', (k', v') ∈ tree_inorder c -> one_line (tk k') /\ one_line (tv v')) ->
      field_text name (tree_pretty_text tk tv c) = ended (tree_lines tk tv 1 name c)).
    { intros name c Hn IH Hc. unfold field_text. rewrite <- IH by done. rewrite indent_ended by by apply tree_lines_one. by rewrite tree_lines_deeper. }
    assert (Hw : forall name text, one_line name -> one_line text -> field_text name text = ended [(1, name ++ ": " ++ text ++ ",")%string]).
    { intros name text Hn Ht. change [(1, (name ++ ": " ++ text ++ ",")%string)] with (deeper <$> [(0, (name ++ ": " ++ text ++ ",")%string)]).
      rewrite <- indent_ended by (repeat constructor; cbn [snd]; one_line_tac). unfold field_text. f_equal. rewrite ended_cons. cbn [spaces Nat.mul].
      rewrite !string_app_assoc. cbn [String.append ended cat foldr fmap list_fmap]. reflexivity. }
    assert (Hn : (node_lines tk tv k v (tree_pretty_text tk tv l) (tree_pretty_text tk tv r) ++ "," ++ newline_str)%string =
      ended ([(0, "Node {"); (1, "key: " ++ tk k ++ ",")%string; (1, "value: " ++ tv v ++ ",")%string] ++ tree_lines tk tv 1 "left" l ++ tree_lines tk tv 1 "right" r ++ [(0, "},")])).
    { unfold node_lines. rewrite !ended_app. rewrite (Hw "key" _) by one_line_tac. rewrite (Hw "value" _) by one_line_tac.
      rewrite (Hf "left" l) by (done || one_line_tac || by apply IHl). rewrite (Hf "right" r) by (done || one_line_tac || by apply IHr).
      rewrite !ended_cons. rewrite !string_app_assoc. reflexivity. }
    cbn [tree_pretty_text]. rewrite Hn, indent_ended.
    + rewrite !fmap_app, !tree_lines_deeper. unfold deeper. cbn [fmap list_fmap fst snd]. rewrite !ended_app. rewrite !ended_cons. rewrite !string_app_assoc. reflexivity.
    + rewrite !Forall_app. split; [repeat constructor; cbn [snd]; one_line_tac|].
      split; [apply tree_lines_one; [done|one_line_tac]|]. split; [apply tree_lines_one; [done|one_line_tac]|].
      repeat constructor; cbn [snd]; one_line_tac.
Qed.
Lemma tree_field t : (forall k v, (k, v) ∈ tree_inorder t -> one_line (tk k) /\ one_line (tv v)) ->
  field_text "root" (tree_pretty_text tk tv t) = ended (tree_lines tk tv 1 "root" t).
Proof.
  intros Hone. unfold field_text. rewrite <- tree_lines_text by (done || one_line_tac). rewrite indent_ended by (apply tree_lines_one; [done|one_line_tac]). by rewrite tree_lines_deeper.
Qed.
Lemma map_lines_text t : (forall k v, (k, v) ∈ tree_inorder t -> one_line (tk k) /\ one_line (tv v)) ->
  map_pretty_text tk tv t = lines_text (map_lines tk tv t).
Proof.
  intros Hone. unfold map_pretty_text, map_lines. rewrite app_assoc, lines_last, ended_app, tree_field by done.
  rewrite ended_cons, !string_app_assoc. reflexivity.
Qed.
Lemma simple_lines_text t len : (forall k v, (k, v) ∈ tree_inorder t -> one_line (tk k) /\ one_line (tv v)) -> one_line len ->
  simple_pretty_text tk tv t len = lines_text (simple_lines tk tv t len).
Proof.
  intros Hone Hlen. unfold simple_pretty_text, simple_lines.
  change [(1, ("len: " ++ len ++ ",")%string); (0, "}")] with ([(1, ("len: " ++ len ++ ",")%string)] ++ [(0, "}")]).
  rewrite !app_assoc, lines_last, !ended_app, tree_field by done.
  replace (field_text "len" len) with (ended [(1, ("len: " ++ len ++ ",")%string)]).
  { rewrite (ended_cons 0), !string_app_assoc. reflexivity. }
  change [(1, ("len: " ++ len ++ ",")%string)] with (deeper <$> [(0, ("len: " ++ len ++ ",")%string)]).
  rewrite <- indent_ended by (repeat constructor; cbn [snd]; one_line_tac). unfold field_text. f_equal. rewrite ended_cons. cbn [spaces Nat.mul].
  rewrite !string_app_assoc. reflexivity.
Qed.
End map.

Section set.
Context {T : Type} (tk : T -> string).
Fixpoint all_one (t : stree T) : Prop := match t with sleaf => True | snode l x r => one_line (tk x) /\ all_one l /\ all_one r end.
Lemma stree_lines_deeper t : forall d label, deeper <$> stree_lines tk d label t = stree_lines tk (Datatypes.S d) label t.
Proof. induction t as [|l IHl k r IHr]; intros d label; [done|]. cbn [stree_lines]. rewrite !fmap_app, IHl, IHr. done. Qed.
Lemma stree_lines_one t : all_one t -> forall d label, one_line label -> Forall (fun l => one_line l.2) (stree_lines tk d label t).
Proof.
  induction t as [|l IHl x r IHr]; intros Hone d label Hlabel; cbn [stree_lines].
  - constructor; [|constructor]. cbn [snd]. one_line_tac.
  - destruct Hone as (Hx & Hl & Hr). rewrite !Forall_app. split; [|split; [|split]].
    + repeat constructor; cbn [snd]; one_line_tac.
    + apply IHl; [done|one_line_tac].
    + apply IHr; [done|one_line_tac].
    + repeat constructor; cbn [snd]; one_line_tac.
Qed.
Lemma stree_lines_text t : all_one t -> forall label, one_line label ->
  ended (stree_lines tk 0 label t) = (label ++ ": " ++ stree_pretty_text tk t ++ "," ++ newline_str)%string.
Proof.
  induction t as [|l IHl x r IHr]; intros Hone label Hlabel; cbn [stree_lines].
  - rewrite ended_cons. cbn [stree_pretty_text]. rewrite !string_app_assoc. reflexivity.
  - destruct Hone as (Hx & Hl & Hr).
    assert (Hf : forall name c, one_line name -> (forall label, one_line label -> ended (stree_lines tk 0 label c) = (label ++ ": " ++ stree_pretty_text tk c ++ "," ++ newline_str)%string) ->
      all_one c -> field_text name (stree_pretty_text tk c) = ended (stree_lines tk 1 name c)).
    { intros name c Hn IH Hc. unfold field_text. rewrite <- IH by done. rewrite indent_ended by by apply stree_lines_one. by rewrite stree_lines_deeper. }
    assert (Hw : forall name text, one_line name -> one_line text -> field_text name text = ended [(1, name ++ ": " ++ text ++ ",")%string]).
    { intros name text Hn Ht. change [(1, (name ++ ": " ++ text ++ ",")%string)] with (deeper <$> [(0, (name ++ ": " ++ text ++ ",")%string)]).
      rewrite <- indent_ended by (repeat constructor; cbn [snd]; one_line_tac). unfold field_text. f_equal. rewrite ended_cons. cbn [spaces Nat.mul].
      rewrite !string_app_assoc. reflexivity. }
    assert (Hn : (snode_lines tk x (stree_pretty_text tk l) (stree_pretty_text tk r) ++ "," ++ newline_str)%string =
      ended ([(0, "Node {"); (1, "value: " ++ tk x ++ ",")%string] ++ stree_lines tk 1 "left" l ++ stree_lines tk 1 "right" r ++ [(0, "},")])).
    { unfold snode_lines. rewrite !ended_app. rewrite (Hw "value" _) by one_line_tac.
      rewrite (Hf "left" l) by (done || one_line_tac || by apply IHl). rewrite (Hf "right" r) by (done || one_line_tac || by apply IHr).
      rewrite !ended_cons. rewrite !string_app_assoc. reflexivity. }
    cbn [stree_pretty_text]. rewrite Hn, indent_ended.
    + rewrite !fmap_app, !stree_lines_deeper. unfold deeper. cbn [fmap list_fmap fst snd]. rewrite !ended_app. rewrite !ended_cons. rewrite !string_app_assoc. reflexivity.
    + rewrite !Forall_app. split; [repeat constructor; cbn [snd]; one_line_tac|].
      split; [apply stree_lines_one; [done|one_line_tac]|]. split; [apply stree_lines_one; [done|one_line_tac]|].
      repeat constructor; cbn [snd]; one_line_tac.
Qed.
Lemma set_lines_text name t : all_one t -> set_pretty_text tk name t = lines_text (set_lines tk name t).
Proof.
  intros Hone. unfold set_pretty_text, set_lines. rewrite app_assoc, lines_last, ended_app.
  replace (field_text "root" (stree_pretty_text tk t)) with (ended (stree_lines tk 1 "root" t)).
  { rewrite ended_cons, !string_app_assoc. reflexivity. }
  unfold field_text. rewrite <- stree_lines_text by (done || one_line_tac). rewrite indent_ended by (apply stree_lines_one; [done|one_line_tac]). by rewrite stree_lines_deeper.
Qed.
Lemma arena_lines_text l : Forall (fun x => one_line (tk x)) l -> arena_pretty_text tk l = lines_text (arena_lines tk l).
Proof.
  intros Hl. unfold arena_pretty_text, arena_lines. destruct l as [|x l]; [done|]. rewrite app_assoc, lines_last, ended_app.
  generalize dependent (x :: l). clear x l. intros l Hl. rewrite concat_cat.
  replace (cat ((fun x => indent (tk x ++ "," ++ newline_str)%string) <$> l)) with (ended ((fun x => (1, (tk x ++ ",")%string)) <$> l)).
  { rewrite ended_cons, !string_app_assoc. reflexivity. }
  induction Hl as [|x l Hx Hl IH]; [done|]. cbn [fmap list_fmap cat foldr]. fold (cat ((fun x => indent (tk x ++ "," ++ newline_str)%string) <$> l)).
  change (fmap _ l) with ((fun x => (1, (tk x ++ ",")%string)) <$> l) at 1.
  change ((1, (tk x ++ ",")%string) :: ((fun x => (1, (tk x ++ ",")%string)) <$> l)) with ([(1, (tk x ++ ",")%string)] ++ ((fun x => (1, (tk x ++ ",")%string)) <$> l)).
  rewrite ended_app, IH. f_equal.
  change [(1, (tk x ++ ",")%string)] with (deeper <$> [(0, (tk x ++ ",")%string)]).
  rewrite <- indent_ended by (repeat constructor; cbn [snd]; one_line_tac). f_equal. rewrite ended_cons. cbn [spaces Nat.mul].
  rewrite !string_app_assoc. reflexivity.
Qed.
End set.

(** ** The claims *)
Section maps.
Context {K V : Type} (xk : K -> script) (xv : V -> script) (xn : N -> script).
Lemma map_plays e (m : bstmap K V) t {S} (w : string -> M S bool) s : reachable e m -> shows m t ->
  map_pretty xk xv m w s = play w (map_evs xk xv t) s.
Proof. intros (t0 & fl & Hrep)%reachable_rep Ht. rewrite (rep_shows_eq _ _ _ _ Hrep Ht). by apply (map_pretty_eq xk xv m t0 fl). Qed.
Lemma node_plays e (m : bstmap K V) n t {S} (w : string -> M S bool) s : reachable e m -> handle m n -> exposes m (Some n) t ->
  node_pretty xk xv m (map_fuel m) n w s = play w (root_evs xk xv t) s.
Proof.
  intros (t0 & fl & Hrep)%reachable_rep Hh Ht.
  destruct (handle_rep m t0 fl n Hrep Hh) as (path & l & p & k & v & r & Htat & ->).
  pose proof (tat_readable m path t0 (rep_readable _ _ _ Hrep)) as Hr. rewrite Htat in Hr.
  assert (Hex : exposes m (Some (mkNode p (mkInner k v (rootp l) (rootp r)))) (erase (Bin l p k v r))) by (exact (readable_exposes m (Bin l p k v r) Hr)).
  rewrite (exposes_fun _ _ _ Hex _ Ht). unfold map_fuel. apply node_pretty_eq; [done| |done].
  pose proof (tat_height path t0) as Hle. rewrite Htat in Hle.
  pose proof (rep_fuel_height _ _ _ Hrep) as Hf. unfold map_fuel in Hf. lia.
Qed.
Lemma nodemut_plays e (m : bstmap K V) n {S} (w : string -> M S bool) s : reachable e m -> handle m n ->
  nodemut_pretty xk xv m (nd_ptr n) w s = play w (nodemut_evs xk xv (node_key n) (node_value n)) s.
Proof.
  intros (t0 & fl & Hrep)%reachable_rep Hh.
  destruct (handle_rep m t0 fl n Hrep Hh) as (path & l & p & k & v & r & Htat & ->).
  pose proof (tat_readable m path t0 (rep_readable _ _ _ Hrep)) as Hr. rewrite Htat in Hr.
  cbn [nd_ptr]. by eapply nodemut_pretty_eq.
Qed.
Lemma simple_plays e (m : simple K V) t {S} (w : string -> M S bool) s : simple_reachable e m -> simple_shows m t ->
  simple_pretty xk xv xn m w s = play w (simple_evs xk xv xn t (N.of_nat (length (tree_inorder t)))) s.
Proof.
  intros (t0 & Hrep)%simple_reachable_rep Ht. rewrite (simple_pretty_eq xk xv xn m t0 w Hrep).
  rewrite (simple_exposes_fun _ _ _ Ht _ (simple_rep_shows _ _ Hrep)). destruct (simple_rep_nodes _ _ Hrep) as [_ ->]. by rewrite erase_size.
Qed.
Lemma box_plays e (m : simple K V) p t {S} (w : string -> M S bool) s : simple_reachable e m -> simple_handle m p -> simple_exposes m (Some p) t ->
  box_pretty xk xv m (simple_fuel m) p w s = play w (root_evs xk xv t) s.
Proof.
  intros (t0 & Hrep)%simple_reachable_rep Hh Ht.
  destruct (simple_handle_exposes m t0 p t Hrep Hh Ht) as (path & Hp & -> & Hr & Hht).
  pose proof (simple_fuel_height _ _ Hrep) as Hf. destruct (simple_fuel m) as [|fuel]; [lia|]. apply box_pretty_eq; try done. lia.
Qed.

Notation tk := (fun k => script_text (xk k)). Notation tv := (fun v => script_text (xv v)). Notation tn := (fun n => script_text (xn n)).
Lemma map_pretty_pushes e (m : bstmap K V) t : reachable e m -> shows m t -> Forall script_ok (tree_scripts xk xv t) ->
  map_pretty xk xv m push "" = (Ret true, map_pretty_text tk tv t).
Proof. intros H1 H2. eapply pushes; [intros s; by eapply map_plays|apply map_evs_results|apply map_evs_text]. Qed.
Lemma map_pretty_writes u e (m : bstmap K V) t r log : reachable e m -> shows m t ->
  map_pretty xk xv m (inquire u) [] = (r, log) -> writes u (tree_scripts xk xv t) (map_pretty_text tk tv t) r log.
Proof. intros H1 H2. eapply writes_play; [intros s; by eapply map_plays|apply map_evs_results|apply map_evs_text]. Qed.
Lemma node_pretty_pushes e (m : bstmap K V) n t : reachable e m -> handle m n -> exposes m (Some n) t -> Forall script_ok (tree_scripts xk xv t) ->
  node_pretty xk xv m (map_fuel m) n push "" = (Ret true, node_pretty_text tk tv t).
Proof. intros H1 H2 H3. eapply pushes; [intros s; by eapply node_plays|apply root_evs_results|apply root_evs_text]. Qed.
Lemma node_pretty_writes u e (m : bstmap K V) n t r log : reachable e m -> handle m n -> exposes m (Some n) t ->
  node_pretty xk xv m (map_fuel m) n (inquire u) [] = (r, log) -> writes u (tree_scripts xk xv t) (node_pretty_text tk tv t) r log.
Proof. intros H1 H2 H3. eapply writes_play; [intros s; by eapply node_plays|apply root_evs_results|apply root_evs_text]. Qed.
Lemma nodemut_pretty_pushes e (m : bstmap K V) n : reachable e m -> handle m n -> Forall script_ok [xk (node_key n); xv (node_value n)] ->
  nodemut_pretty xk xv m (nd_ptr n) push "" = (Ret true, nodemut_pretty_text tk tv (node_key n) (node_value n)).
Proof. intros H1 H2. eapply pushes; [intros s; by eapply nodemut_plays|apply nodemut_evs_results|apply nodemut_evs_text]. Qed.
Lemma nodemut_pretty_writes u e (m : bstmap K V) n r log : reachable e m -> handle m n ->
  nodemut_pretty xk xv m (nd_ptr n) (inquire u) [] = (r, log) ->
  writes u [xk (node_key n); xv (node_value n)] (nodemut_pretty_text tk tv (node_key n) (node_value n)) r log.
Proof. intros H1 H2. eapply writes_play; [intros s; by eapply nodemut_plays|apply nodemut_evs_results|apply nodemut_evs_text]. Qed.
Lemma simple_pretty_pushes e (m : simple K V) t : simple_reachable e m -> simple_shows m t ->
  Forall script_ok (tree_scripts xk xv t ++ [xn (N.of_nat (length (tree_inorder t)))]) ->
  simple_pretty xk xv xn m push "" = (Ret true, simple_pretty_text tk tv t (tn (N.of_nat (length (tree_inorder t))))).
Proof. intros H1 H2. eapply pushes; [intros s; by eapply simple_plays|apply simple_evs_results|apply simple_evs_text]. Qed.
Lemma simple_pretty_writes u e (m : simple K V) t r log : simple_reachable e m -> simple_shows m t ->
  simple_pretty xk xv xn m (inquire u) [] = (r, log) ->
  writes u (tree_scripts xk xv t ++ [xn (N.of_nat (length (tree_inorder t)))])
    (simple_pretty_text tk tv t (tn (N.of_nat (length (tree_inorder t))))) r log.
Proof. intros H1 H2. eapply writes_play; [intros s; by eapply simple_plays|apply simple_evs_results|apply simple_evs_text]. Qed.
Lemma box_pretty_pushes e (m : simple K V) p t : simple_reachable e m -> simple_handle m p -> simple_exposes m (Some p) t ->
  Forall script_ok (tree_scripts xk xv t) ->
  box_pretty xk xv m (simple_fuel m) p push "" = (Ret true, node_pretty_text tk tv t).
Proof. intros H1 H2 H3. eapply pushes; [intros s; by eapply box_plays|apply root_evs_results|apply root_evs_text]. Qed.
Lemma box_pretty_writes u e (m : simple K V) p t r log : simple_reachable e m -> simple_handle m p -> simple_exposes m (Some p) t ->
  box_pretty xk xv m (simple_fuel m) p (inquire u) [] = (r, log) -> writes u (tree_scripts xk xv t) (node_pretty_text tk tv t) r log.
Proof. intros H1 H2 H3. eapply writes_play; [intros s; by eapply box_plays|apply root_evs_results|apply root_evs_text]. Qed.
End maps.

Section sets.
Context {T : Type} (xt : T -> script).
Lemma set_plays e (m : bstset T) t {S} (w : string -> M S bool) s : set_reachable e m -> set_shows m t ->
  set_pretty xt m w s = play w (set_evs xt "BSTSet" t) s.
Proof.
  intros (t0 & fl & Hrep)%set_reachable_map%reachable_rep Ht.
  rewrite (set_shows_fun _ _ _ (set_shows_rep _ _ _ Hrep) Ht). by apply (set_pretty_eq xt m t0 fl).
Qed.
Lemma setnode_plays e (m : bstset T) n t {S} (w : string -> M S bool) s : set_reachable e m -> set_handle m n -> set_exposes m (Some n) t ->
  setnode_pretty xt m (map_fuel m) n w s = play w (sroot_evs xt t) s.
Proof.
  intros (t0 & fl & Hrep)%set_reachable_map%reachable_rep (path1 & r1 & Hr1 & Hw1) Ht. rewrite set_walk_eq in Hw1.
  assert (Hh : handle m n) by (by exists path1, r1).
  destruct (handle_rep m t0 fl n Hrep Hh) as (path & l & p & k & v & r & Htat & ->).
  pose proof (tat_readable m path t0 (rep_readable _ _ _ Hrep)) as Hr. rewrite Htat in Hr.
  assert (Hex : exposes m (Some (mkNode p (mkInner k v (rootp l) (rootp r)))) (erase (Bin l p k v r))) by (exact (readable_exposes m (Bin l p k v r) Hr)).
  rewrite (set_exposes_fun _ _ _ (set_exposes_values _ _ _ Hex) _ Ht).
  unfold map_fuel. apply setnode_pretty_eq; [done| |done].
  pose proof (tat_height path t0) as Hle. rewrite Htat in Hle.
  pose proof (rep_fuel_height _ _ _ Hrep) as Hf. unfold map_fuel in Hf. lia.
Qed.
Lemma sset_plays e (m : sset T) t {S} (w : string -> M S bool) s : sset_reachable e m -> sset_shows m t ->
  sset_pretty xt m w s = play w (set_evs xt "SimpleBSTSet" t) s.
Proof.
  intros (t0 & Hrep)%sset_reachable_rep Ht. rewrite <- (sset_exposes_fun _ _ _ Ht _ (sset_rep_shows _ _ Hrep)).
  by apply (sset_pretty_eq xt m t0).
Qed.
Lemma ssetnode_plays e (m : sset T) p t {S} (w : string -> M S bool) s : sset_reachable e m -> sset_handle m p -> sset_exposes m (Some p) t ->
  ssetnode_pretty xt m (simple_fuel m) p w s = play w (sroot_evs xt t) s.
Proof.
  intros (t0 & Hrep)%sset_reachable_rep (path1 & Hw) Ht. rewrite sset_walk_eq in Hw.
  assert (Hh : simple_handle m p) by (by exists path1).
  destruct (simple_handle_rep m t0 p (simple_readable _ _ Hrep) (simple_root_ret _ _ Hrep) Hh) as (path & l & k & v & r & E).
  pose proof (tat_sreadable m path t0 (simple_readable _ _ Hrep)) as Hr. rewrite E in Hr.
  rewrite <- (sset_exposes_fun m _ _ Ht _ (sset_exposes_values m _ _ (simple_shows_sub m _ Hr))).
  pose proof (simple_fuel_height _ _ Hrep) as Hf. pose proof (tat_height path t0) as Hle. rewrite E in Hle.
  destruct (simple_fuel m) as [|fuel]; [lia|]. apply ssetnode_pretty_eq; [done|lia|done].
Qed.
Lemma arena_plays e n cs rs (a : arena T) {S} (w : string -> M S bool) s : arena_reached e n cs rs a -> arena_contract [] cs rs -> Forall process_on rs ->
  arena_pretty xt e a w s = play w (arena_evs xt (arena_contents [] cs rs).*2) s.
Proof. intros H1 H2 H3. destruct (arena_final _ _ _ _ _ H1 H2 H3) as [Hr _]. by apply arena_pretty_eq. Qed.

Notation tk := (fun k => script_text (xt k)).
Lemma set_pretty_pushes e (m : bstset T) t : set_reachable e m -> set_shows m t -> Forall script_ok (stree_scripts xt t) ->
  set_pretty xt m push "" = (Ret true, set_pretty_text tk "BSTSet" t).
Proof. intros H1 H2. eapply pushes; [intros s; by eapply set_plays|apply set_evs_results|apply set_evs_text]. Qed.
Lemma set_pretty_writes u e (m : bstset T) t r log : set_reachable e m -> set_shows m t ->
  set_pretty xt m (inquire u) [] = (r, log) -> writes u (stree_scripts xt t) (set_pretty_text tk "BSTSet" t) r log.
Proof. intros H1 H2. eapply writes_play; [intros s; by eapply set_plays|apply set_evs_results|apply set_evs_text]. Qed.
Lemma setnode_pretty_pushes e (m : bstset T) n t : set_reachable e m -> set_handle m n -> set_exposes m (Some n) t -> Forall script_ok (stree_scripts xt t) ->
  setnode_pretty xt m (map_fuel m) n push "" = (Ret true, snode_pretty_text tk t).
Proof. intros H1 H2 H3. eapply pushes; [intros s; by eapply setnode_plays|apply sroot_evs_results|apply sroot_evs_text]. Qed.
Lemma setnode_pretty_writes u e (m : bstset T) n t r log : set_reachable e m -> set_handle m n -> set_exposes m (Some n) t ->
  setnode_pretty xt m (map_fuel m) n (inquire u) [] = (r, log) -> writes u (stree_scripts xt t) (snode_pretty_text tk t) r log.
Proof. intros H1 H2 H3. eapply writes_play; [intros s; by eapply setnode_plays|apply sroot_evs_results|apply sroot_evs_text]. Qed.
Lemma sset_pretty_pushes e (m : sset T) t : sset_reachable e m -> sset_shows m t -> Forall script_ok (stree_scripts xt t) ->
  sset_pretty xt m push "" = (Ret true, set_pretty_text tk "SimpleBSTSet" t).
Proof. intros H1 H2. eapply pushes; [intros s; by eapply sset_plays|apply set_evs_results|apply set_evs_text]. Qed.
Lemma sset_pretty_writes u e (m : sset T) t r log : sset_reachable e m -> sset_shows m t ->
  sset_pretty xt m (inquire u) [] = (r, log) -> writes u (stree_scripts xt t) (set_pretty_text tk "SimpleBSTSet" t) r log.
Proof. intros H1 H2. eapply writes_play; [intros s; by eapply sset_plays|apply set_evs_results|apply set_evs_text]. Qed.
Lemma ssetnode_pretty_pushes e (m : sset T) p t : sset_reachable e m -> sset_handle m p -> sset_exposes m (Some p) t -> Forall script_ok (stree_scripts xt t) ->
  ssetnode_pretty xt m (simple_fuel m) p push "" = (Ret true, snode_pretty_text tk t).
Proof. intros H1 H2 H3. eapply pushes; [intros s; by eapply ssetnode_plays|apply sroot_evs_results|apply sroot_evs_text]. Qed.
Lemma ssetnode_pretty_writes u e (m : sset T) p t r log : sset_reachable e m -> sset_handle m p -> sset_exposes m (Some p) t ->
  ssetnode_pretty xt m (simple_fuel m) p (inquire u) [] = (r, log) -> writes u (stree_scripts xt t) (snode_pretty_text tk t) r log.
Proof. intros H1 H2 H3. eapply writes_play; [intros s; by eapply ssetnode_plays|apply sroot_evs_results|apply sroot_evs_text]. Qed.
Lemma arena_pretty_pushes e n cs rs (a : arena T) : arena_reached e n cs rs a -> arena_contract [] cs rs -> Forall process_on rs ->
  Forall script_ok (xt <$> (arena_contents [] cs rs).*2) ->
  arena_pretty xt e a push "" = (Ret true, arena_pretty_text tk (arena_contents [] cs rs).*2).
Proof. intros H1 H2 H3. eapply pushes; [intros s; by eapply arena_plays|apply arena_evs_results|apply arena_evs_text]. Qed.
Lemma arena_pretty_writes u e n cs rs (a : arena T) r log : arena_reached e n cs rs a -> arena_contract [] cs rs -> Forall process_on rs ->
  arena_pretty xt e a (inquire u) [] = (r, log) ->
  writes u (xt <$> (arena_contents [] cs rs).*2) (arena_pretty_text tk (arena_contents [] cs rs).*2) r log.
Proof. intros H1 H2 H3. eapply writes_play; [intros s; by eapply arena_plays|apply arena_evs_results|apply arena_evs_text]. Qed.
End sets.

Lemma stree_all_one {T} (tk : T -> string) t : Forall (fun x => one_line (tk x)) (stree_order In t) -> all_one tk t.
Proof.
  induction t as [|l IHl x r IHr]; [done|]. cbn [stree_order all_one]. rewrite Forall_app, Forall_cons. intros (H1 & H2 & H3).
  split; [done|]. split; [by apply IHl|by apply IHr].
Qed.
