(** * What [{:#?}] writes: C92

    The model is ModelFmtPretty.v. Vocabulary: [script], [script_text], [script_ok],
    [tree_scripts], [map_pretty_text] and the others, [lines_text], [map_lines] and the
    others, [writes] (SpecFmtPretty.v), [push] (SpecFmt.v), [inquire] (SpecEq.v). *)

From Coq Require Import String.
From Verif Require Import ProofFmtPretty PropertiesMap PropertiesCalls PropertiesSet PropertiesSimple PropertiesSimpleSet PropertiesArena PropertiesFmt.
From Verif Require Import ModelIter.
Local Open Scope string_scope.
Local Open Scope list_scope.
Local Open Scope nat_scope.

(** ** The text

    [xk], [xv], [xn] and [xt] say what the [Debug] of keys, values, numbers and items
    writes. *)
Theorem C92_map {K V : Type} (xk : K -> script) (xv : V -> script) : forall e (m : bstmap K V) t,
  reachable e m -> shows m t -> Forall script_ok (tree_scripts xk xv t) ->
  map_pretty xk xv m push "" =
    (Ret true, map_pretty_text (fun k => script_text (xk k)) (fun v => script_text (xv v)) t).
Proof. exact (map_pretty_pushes xk xv). Qed.
Print Assumptions C92_map.

Theorem C92_simple {K V : Type} (xk : K -> script) (xv : V -> script) (xn : N -> script) : forall e (m : simple K V) t,
  simple_reachable e m -> simple_shows m t ->
  Forall script_ok (tree_scripts xk xv t ++ [xn (N.of_nat (length (tree_inorder t)))]) ->
  simple_pretty xk xv xn m push "" =
    (Ret true, simple_pretty_text (fun k => script_text (xk k)) (fun v => script_text (xv v)) t
                 (script_text (xn (N.of_nat (length (tree_inorder t)))))).
Proof. exact (simple_pretty_pushes xk xv xn). Qed.
Print Assumptions C92_simple.

Theorem C92_set {T : Type} (xt : T -> script) : forall e (m : bstset T) t,
  set_reachable e m -> set_shows m t -> Forall script_ok (stree_scripts xt t) ->
  set_pretty xt m push "" = (Ret true, set_pretty_text (fun x => script_text (xt x)) "BSTSet" t).
Proof. exact (set_pretty_pushes xt). Qed.
Print Assumptions C92_set.

Theorem C92_sset {T : Type} (xt : T -> script) : forall e (m : sset T) t,
  sset_reachable e m -> sset_shows m t -> Forall script_ok (stree_scripts xt t) ->
  sset_pretty xt m push "" = (Ret true, set_pretty_text (fun x => script_text (xt x)) "SimpleBSTSet" t).
Proof. exact (sset_pretty_pushes xt). Qed.
Print Assumptions C92_sset.

Theorem C92_arena {T : Type} (xt : T -> script) : forall e n cs rs (a : arena T),
  arena_reached e n cs rs a -> arena_contract [] cs rs -> Forall process_on rs ->
  Forall script_ok (xt <$> (arena_contents [] cs rs).*2) ->
  arena_pretty xt e a push "" =
    (Ret true, arena_pretty_text (fun x => script_text (xt x)) (arena_contents [] cs rs).*2).
Proof. exact (arena_pretty_pushes xt). Qed.
Print Assumptions C92_arena.

Theorem C92_nodes {K V : Type} (xk : K -> script) (xv : V -> script) : forall e (m : bstmap K V) n t,
  reachable e m -> handle m n -> exposes m (Some n) t -> Forall script_ok (tree_scripts xk xv t) ->
  node_pretty xk xv m (map_fuel m) n push "" =
    (Ret true, node_pretty_text (fun k => script_text (xk k)) (fun v => script_text (xv v)) t).
Proof. exact (node_pretty_pushes xk xv). Qed.
Print Assumptions C92_nodes.

Theorem C92_mutable_nodes {K V : Type} (xk : K -> script) (xv : V -> script) : forall e (m : bstmap K V) n,
  reachable e m -> handle m n -> Forall script_ok [xk (node_key n); xv (node_value n)] ->
  nodemut_pretty xk xv m (nd_ptr n) push "" =
    (Ret true, nodemut_pretty_text (fun k => script_text (xk k)) (fun v => script_text (xv v)) (node_key n) (node_value n)).
Proof. exact (nodemut_pretty_pushes xk xv). Qed.
Print Assumptions C92_mutable_nodes.

Theorem C92_simple_nodes {K V : Type} (xk : K -> script) (xv : V -> script) : forall e (m : simple K V) p t,
  simple_reachable e m -> simple_handle m p -> simple_exposes m (Some p) t -> Forall script_ok (tree_scripts xk xv t) ->
  box_pretty xk xv m (simple_fuel m) p push "" =
    (Ret true, node_pretty_text (fun k => script_text (xk k)) (fun v => script_text (xv v)) t).
Proof. exact (box_pretty_pushes xk xv). Qed.
Print Assumptions C92_simple_nodes.

Theorem C92_set_nodes {T : Type} (xt : T -> script) : forall e (m : bstset T) n t,
  set_reachable e m -> set_handle m n -> set_exposes m (Some n) t -> Forall script_ok (stree_scripts xt t) ->
  setnode_pretty xt m (map_fuel m) n push "" = (Ret true, snode_pretty_text (fun x => script_text (xt x)) t).
Proof. exact (setnode_pretty_pushes xt). Qed.
Print Assumptions C92_set_nodes.

Theorem C92_sset_nodes {T : Type} (xt : T -> script) : forall e (m : sset T) p t,
  sset_reachable e m -> sset_handle m p -> sset_exposes m (Some p) t -> Forall script_ok (stree_scripts xt t) ->
  ssetnode_pretty xt m (simple_fuel m) p push "" = (Ret true, snode_pretty_text (fun x => script_text (xt x)) t).
Proof. exact (ssetnode_pretty_pushes xt). Qed.
Print Assumptions C92_sset_nodes.

(** ** Line by line

    If the elements print on one line each, the lines are those of [map_lines] and the
    others: two steps of depth per level of the tree, four spaces per step. *)
Theorem C92_lines {K V T : Type} (tk : K -> string) (tv : V -> string) (tx : T -> string) :
  (forall t, (forall k v, (k, v) ∈ tree_inorder t -> one_line (tk k) /\ one_line (tv v)) ->
     map_pretty_text tk tv t = lines_text (map_lines tk tv t)) /\
  (forall t len, (forall k v, (k, v) ∈ tree_inorder t -> one_line (tk k) /\ one_line (tv v)) -> one_line len ->
     simple_pretty_text tk tv t len = lines_text (simple_lines tk tv t len)) /\
  (forall name t, Forall (fun x => one_line (tx x)) (stree_order In t) ->
     set_pretty_text tx name t = lines_text (set_lines tx name t)) /\
  (forall l, Forall (fun x => one_line (tx x)) l -> arena_pretty_text tx l = lines_text (arena_lines tx l)).
Proof.
  split; [exact (map_lines_text tk tv)|]. split; [exact (simple_lines_text tk tv)|].
  split; [|exact (arena_lines_text tx)]. intros name t H. by apply set_lines_text, stree_all_one.
Qed.
Print Assumptions C92_lines.

(** ** Errors and panics *)
Theorem C92_map_failures {K V : Type} (xk : K -> script) (xv : V -> script) u : forall e (m : bstmap K V) t r log,
  reachable e m -> shows m t -> map_pretty xk xv m (inquire u) [] = (r, log) ->
  writes u (tree_scripts xk xv t) (map_pretty_text (fun k => script_text (xk k)) (fun v => script_text (xv v)) t) r log.
Proof. exact (map_pretty_writes xk xv u). Qed.
Print Assumptions C92_map_failures.

Theorem C92_simple_failures {K V : Type} (xk : K -> script) (xv : V -> script) (xn : N -> script) u : forall e (m : simple K V) t r log,
  simple_reachable e m -> simple_shows m t -> simple_pretty xk xv xn m (inquire u) [] = (r, log) ->
  writes u (tree_scripts xk xv t ++ [xn (N.of_nat (length (tree_inorder t)))])
    (simple_pretty_text (fun k => script_text (xk k)) (fun v => script_text (xv v)) t
       (script_text (xn (N.of_nat (length (tree_inorder t)))))) r log.
Proof. exact (simple_pretty_writes xk xv xn u). Qed.
Print Assumptions C92_simple_failures.

Theorem C92_set_failures {T : Type} (xt : T -> script) u :
  (forall e (m : bstset T) t r log, set_reachable e m -> set_shows m t -> set_pretty xt m (inquire u) [] = (r, log) ->
     writes u (stree_scripts xt t) (set_pretty_text (fun x => script_text (xt x)) "BSTSet" t) r log) /\
  (forall e (m : sset T) t r log, sset_reachable e m -> sset_shows m t -> sset_pretty xt m (inquire u) [] = (r, log) ->
     writes u (stree_scripts xt t) (set_pretty_text (fun x => script_text (xt x)) "SimpleBSTSet" t) r log).
Proof. split; [exact (set_pretty_writes xt u)|exact (sset_pretty_writes xt u)]. Qed.
Print Assumptions C92_set_failures.

Theorem C92_arena_failures {T : Type} (xt : T -> script) u : forall e n cs rs (a : arena T) r log,
  arena_reached e n cs rs a -> arena_contract [] cs rs -> Forall process_on rs ->
  arena_pretty xt e a (inquire u) [] = (r, log) ->
  writes u (xt <$> (arena_contents [] cs rs).*2) (arena_pretty_text (fun x => script_text (xt x)) (arena_contents [] cs rs).*2) r log.
Proof. exact (arena_pretty_writes xt u). Qed.
Print Assumptions C92_arena_failures.

Theorem C92_node_failures {K V T : Type} (xk : K -> script) (xv : V -> script) (xt : T -> script) u :
  let tk := fun k => script_text (xk k) in let tv := fun v => script_text (xv v) in let tx := fun x => script_text (xt x) in
  (forall e (m : bstmap K V) n t r log, reachable e m -> handle m n -> exposes m (Some n) t ->
     node_pretty xk xv m (map_fuel m) n (inquire u) [] = (r, log) -> writes u (tree_scripts xk xv t) (node_pretty_text tk tv t) r log) /\
  (forall e (m : bstmap K V) n r log, reachable e m -> handle m n ->
     nodemut_pretty xk xv m (nd_ptr n) (inquire u) [] = (r, log) ->
     writes u [xk (node_key n); xv (node_value n)] (nodemut_pretty_text tk tv (node_key n) (node_value n)) r log) /\
  (forall e (m : simple K V) p t r log, simple_reachable e m -> simple_handle m p -> simple_exposes m (Some p) t ->
     box_pretty xk xv m (simple_fuel m) p (inquire u) [] = (r, log) -> writes u (tree_scripts xk xv t) (node_pretty_text tk tv t) r log) /\
  (forall e (m : bstset T) n t r log, set_reachable e m -> set_handle m n -> set_exposes m (Some n) t ->
     setnode_pretty xt m (map_fuel m) n (inquire u) [] = (r, log) -> writes u (stree_scripts xt t) (snode_pretty_text tx t) r log) /\
  (forall e (m : sset T) p t r log, sset_reachable e m -> sset_handle m p -> sset_exposes m (Some p) t ->
     ssetnode_pretty xt m (simple_fuel m) p (inquire u) [] = (r, log) -> writes u (stree_scripts xt t) (snode_pretty_text tx t) r log).
Proof.
  split; [exact (node_pretty_writes xk xv u)|]. split; [exact (nodemut_pretty_writes xk xv u)|]. split; [exact (box_pretty_writes xk xv u)|].
  split; [exact (setnode_pretty_writes xt u)|exact (ssetnode_pretty_writes xt u)].
Qed.
Print Assumptions C92_node_failures.

(** ** Cases *)

(** Keys on one line, values on two. *)
Definition key_script (k : SK) : script := ([sk_text k], Ret true).
Definition value_script (v : N) : script := (["{" ++ newline_str; num_text v; "}"]%string, Ret true).
Definition plain_script (v : N) : script := ([num_text v], Ret true).
(** Every value fails. *)
Definition failing_script (v : N) : script := (["<"], Ret false).
(** The formatter has no room after [n] writes. *)
Definition room (n : nat) (log : list string) (_ : string) : res bool := Ret (length log <? n).

Example C92_case :
  reachable senv sample /\ shows sample sample_tree /\ Forall script_ok (tree_scripts key_script value_script sample_tree) /\
  (map_pretty key_script value_script (run senv [ins 2 0 20; ins 1 0 10] map_new).2 push "").2 =
"BSTMap {
    root: Some(
        Node {
            key: #2,
            value: {
            20},
            left: Some(
                Node {
                    key: #1,
                    value: {
                    10},
                    left: None,
                    right: None,
                },
            ),
            right: None,
        },
    ),
}".
Proof.
  split; [exact sample_reachable|]. split; [exact sample_shows|]. split; [|by vm_compute].
  unfold tree_scripts. induction (tree_preorder sample_tree) as [|x l IH]; [constructor|]. by do 2 constructor.
Qed.

Example C92_lines_case :
  map_lines sk_text num_text (tnode (tnode tleaf (1%N, 0%N) 10%N tleaf) (2%N, 0%N) 20%N tleaf) =
  [(0, "BSTMap {");
   (1, "root: Some(");
   (2, "Node {");
   (3, "key: #2,");
   (3, "value: 20,");
   (3, "left: Some(");
   (4, "Node {");
   (5, "key: #1,");
   (5, "value: 10,");
   (5, "left: None,");
   (5, "right: None,");
   (4, "},");
   (3, "),");
   (3, "right: None,");
   (2, "},");
   (1, "),");
   (0, "}")].
Proof. reflexivity. Qed.

Example C92_failures_case :
  (exists log, map_pretty key_script failing_script sample (inquire (room 100)) [] = (Ret false, log) /\
     writes (room 100) (tree_scripts key_script failing_script sample_tree)
       (map_pretty_text sk_text (fun _ => "<") sample_tree) (Ret false) log /\
     (foldr String.append "" (rev (take 2 (rev log)))) = ": <") /\
  (exists log, map_pretty key_script plain_script sample (inquire (room 3)) [] = (Ret false, log) /\ length log = 4).
Proof.
  split.
  - eexists. split; [by vm_compute|]. split; [|by vm_compute].
    apply (C92_map_failures key_script failing_script (room 100) senv sample); [exact sample_reachable|exact sample_shows|by vm_compute].
  - eexists. split; [by vm_compute|]. reflexivity.
Qed.

Example C92_other_case :
  simple_reachable benv0 simple_sample /\
  (exists log, simple_pretty key_script plain_script failing_script simple_sample (inquire (room 1000)) [] = (Ret false, log) /\ 20 < length log) /\
  set_reachable senv set_sample /\ (exists text, set_pretty key_script set_sample push "" = (Ret true, text) /\ 50 < String.length text) /\
  sset_reachable sset_env sset_sample /\ (exists text, sset_pretty key_script sset_sample push "" = (Ret true, text) /\ 50 < String.length text) /\
  (exists text, arena_pretty plain_script senv arena_sample push "" = (Ret true, text) /\
     text = lines_text (arena_lines num_text (arena_contents [] arena_ops1 arena_run1.1).*2)).
Proof.
  split; [exact simple_sample_reachable|]. split; [eexists; split; [by vm_compute|by apply Nat.ltb_lt; vm_compute]|].
  split; [exact set_sample_reachable|]. split; [eexists; split; [by vm_compute|by apply Nat.ltb_lt; vm_compute]|].
  split; [exact sset_sample_reachable|]. split; [eexists; split; [by vm_compute|by apply Nat.ltb_lt; vm_compute]|].
  eexists. split; by vm_compute.
Qed.
