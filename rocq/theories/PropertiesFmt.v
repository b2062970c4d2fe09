(** * What [{:?}] writes: C84

    The model is ModelFmt.v. Vocabulary: [asks] (SpecEq.v: pieces in order up to the
    first write that is not answered [Ok]), [piece], [map_pieces] and the others,
    [tree_text], [push] (SpecFmt.v). *)

From Coq Require Import String DecimalString.
From Verif Require Import ProofFmt PropertiesMap PropertiesCalls PropertiesSet PropertiesSimple PropertiesSimpleSet PropertiesArena.
From Verif Require Import ModelIter.
Local Open Scope string_scope.
Local Open Scope list_scope.
Local Open Scope nat_scope.

(** ** Writes, errors and panics

    [u] plays the formatter and the [Debug] of the elements: it answers [Ok]
    ([Ret true]), [Err] ([Ret false]) or panics, and may remember what was written. The
    pieces are written in order, and nothing after the first that fails. *)
Theorem C84_map {K V : Type} (u : list (piece K V) -> piece K V -> res bool) : forall e (m : bstmap K V) t r log,
  reachable e m -> shows m t ->
  map_fmt (say_text u) (say_key u) (say_value u) m [] = (r, log) -> asks u true [] (map_pieces t) r log.
Proof. exact (map_says u). Qed.
Print Assumptions C84_map.

Theorem C84_simple {K V : Type} (u : list (piece K V) -> piece K V -> res bool) : forall e (m : simple K V) t r log,
  simple_reachable e m -> simple_shows m t ->
  simple_fmt (say_text u) (say_key u) (say_value u) (say_num u) m [] = (r, log) ->
  asks u true [] (simple_pieces t (N.of_nat (length (tree_inorder t)))) r log.
Proof. exact (simple_says u). Qed.
Print Assumptions C84_simple.

Theorem C84_set {T : Type} (u : list (piece T unit) -> piece T unit -> res bool) : forall e (m : bstset T) t r log,
  set_reachable e m -> set_shows m t ->
  set_fmt (say_text u) (say_key u) m [] = (r, log) -> asks u true [] (set_pieces "BSTSet" t) r log.
Proof. exact (set_says u). Qed.
Print Assumptions C84_set.

Theorem C84_sset {T : Type} (u : list (piece T unit) -> piece T unit -> res bool) : forall e (m : sset T) t r log,
  sset_reachable e m -> sset_shows m t ->
  sset_fmt (say_text u) (say_key u) m [] = (r, log) -> asks u true [] (set_pieces "SimpleBSTSet" t) r log.
Proof. exact (sset_says u). Qed.
Print Assumptions C84_sset.

Theorem C84_arena {T : Type} (u : list (piece T unit) -> piece T unit -> res bool) : forall e n cs rs (a : arena T) r log,
  arena_reached e n cs rs a -> arena_contract [] cs rs -> Forall process_on rs ->
  arena_fmt (say_text u) (say_key u) e a [] = (r, log) ->
  asks u true [] (arena_pieces (arena_contents [] cs rs).*2) r log.
Proof. exact (arena_says u). Qed.
Print Assumptions C84_arena.

(** ** Nodes *)
Theorem C84_nodes {K V : Type} (u : list (piece K V) -> piece K V -> res bool) : forall e (m : bstmap K V) n t r log,
  reachable e m -> handle m n -> exposes m (Some n) t ->
  node_fmt (say_text u) (say_key u) (say_value u) m (map_fuel m) n [] = (r, log) -> asks u true [] (node_pieces t) r log.
Proof. exact (node_says u). Qed.
Print Assumptions C84_nodes.

Theorem C84_mutable_nodes {K V : Type} (u : list (piece K V) -> piece K V -> res bool) : forall e (m : bstmap K V) n r log,
  reachable e m -> handle m n ->
  nodemut_fmt (say_text u) (say_key u) (say_value u) m (nd_ptr n) [] = (r, log) ->
  asks u true [] (nodemut_pieces (node_key n) (node_value n)) r log.
Proof. exact (nodemut_says u). Qed.
Print Assumptions C84_mutable_nodes.

Theorem C84_set_nodes {T : Type} (u : list (piece T unit) -> piece T unit -> res bool) : forall e (m : bstset T) n t r log,
  set_reachable e m -> set_handle m n -> set_exposes m (Some n) t ->
  setnode_fmt (say_text u) (say_key u) m (map_fuel m) n [] = (r, log) -> asks u true [] (snode_pieces t) r log.
Proof. exact (setnode_says u). Qed.
Print Assumptions C84_set_nodes.

Theorem C84_simple_nodes {K V : Type} (u : list (piece K V) -> piece K V -> res bool) : forall e (m : simple K V) p t r log,
  simple_reachable e m -> simple_handle m p -> simple_exposes m (Some p) t ->
  box_fmt (say_text u) (say_key u) (say_value u) m (simple_fuel m) p [] = (r, log) -> asks u true [] (node_pieces t) r log.
Proof. exact (simple_node_says u). Qed.
Print Assumptions C84_simple_nodes.

Theorem C84_sset_nodes {T : Type} (u : list (piece T unit) -> piece T unit -> res bool) : forall e (m : sset T) p t r log,
  sset_reachable e m -> sset_handle m p -> sset_exposes m (Some p) t ->
  ssetnode_fmt (say_text u) (say_key u) m (simple_fuel m) p [] = (r, log) -> asks u true [] (snode_pieces t) r log.
Proof. exact (ssetnode_says u). Qed.
Print Assumptions C84_sset_nodes.

(** Printing succeeds only if every piece was written. *)
Theorem C84_complete {K V : Type} (u : list (piece K V) -> piece K V -> res bool) : forall l log,
  asks u true [] l (Ret true) log -> log = l.
Proof. intros l log H. by apply asks_complete in H. Qed.
Print Assumptions C84_complete.

(** ** The text

    [tk], [tv] and [tn] are the texts of keys, values and numbers. *)
Theorem C84_map_text {K V : Type} (tk : K -> string) (tv : V -> string) : forall e (m : bstmap K V) t,
  reachable e m -> shows m t ->
  map_fmt push (fun k => push (tk k)) (fun v => push (tv v)) m "" =
    (Ret true, ("BSTMap { root: " ++ tree_text tk tv t ++ " }")%string).
Proof. exact (map_text tk tv (fun _ => "")). Qed.
Print Assumptions C84_map_text.

Theorem C84_simple_text {K V : Type} (tk : K -> string) (tv : V -> string) (tn : N -> string) : forall e (m : simple K V) t,
  simple_reachable e m -> simple_shows m t ->
  simple_fmt push (fun k => push (tk k)) (fun v => push (tv v)) (fun n => push (tn n)) m "" =
    (Ret true, ("SimpleBSTMap { root: " ++ tree_text tk tv t ++ ", len: " ++
                tn (N.of_nat (length (tree_inorder t))) ++ " }")%string).
Proof. exact (simple_text tk tv tn). Qed.
Print Assumptions C84_simple_text.

Theorem C84_set_text {T : Type} (tk : T -> string) : forall e (m : bstset T) t,
  set_reachable e m -> set_shows m t ->
  set_fmt push (fun k => push (tk k)) m "" = (Ret true, ("BSTSet { root: " ++ stree_text tk t ++ " }")%string).
Proof. exact (set_text tk). Qed.
Print Assumptions C84_set_text.

Theorem C84_sset_text {T : Type} (tk : T -> string) : forall e (m : sset T) t,
  sset_reachable e m -> sset_shows m t ->
  sset_fmt push (fun k => push (tk k)) m "" = (Ret true, ("SimpleBSTSet { root: " ++ stree_text tk t ++ " }")%string).
Proof. exact (sset_text tk). Qed.
Print Assumptions C84_sset_text.

Theorem C84_arena_text {T : Type} (tk : T -> string) : forall e n cs rs (a : arena T),
  arena_reached e n cs rs a -> arena_contract [] cs rs -> Forall process_on rs ->
  arena_fmt push (fun k => push (tk k)) e a "" =
    (Ret true, ("[" ++ String.concat ", " (tk <$> (arena_contents [] cs rs).*2) ++ "]")%string).
Proof. exact (arena_text tk). Qed.
Print Assumptions C84_arena_text.

Theorem C84_node_text {K V : Type} (tk : K -> string) (tv : V -> string) : forall e (m : bstmap K V) n t,
  reachable e m -> handle m n -> exposes m (Some n) t ->
  exists s, node_fmt push (fun k => push (tk k)) (fun v => push (tv v)) m (map_fuel m) n "" = (Ret true, s) /\
    tree_text tk tv t = ("Some(" ++ s ++ ")")%string /\
  nodemut_fmt push (fun k => push (tk k)) (fun v => push (tv v)) m (nd_ptr n) "" =
    (Ret true, ("NodeMut { key: " ++ tk (node_key n) ++ ", value: " ++ tv (node_value n) ++
                ", left: " ++ quote ++ "..." ++ quote ++ ", right: " ++ quote ++ "..." ++ quote ++ " }")%string).
Proof. exact (node_text tk tv (fun _ => "")). Qed.
Print Assumptions C84_node_text.

Theorem C84_simple_node_text {K V : Type} (tk : K -> string) (tv : V -> string) : forall e (m : simple K V) p t,
  simple_reachable e m -> simple_handle m p -> simple_exposes m (Some p) t ->
  exists s, box_fmt push (fun k => push (tk k)) (fun v => push (tv v)) m (simple_fuel m) p "" = (Ret true, s) /\
    tree_text tk tv t = ("Some(" ++ s ++ ")")%string.
Proof. exact (simple_node_text tk tv (fun _ => "")). Qed.
Print Assumptions C84_simple_node_text.

(** The structure printed by C35, C38, C48 and C52 gives this text. *)
Theorem C84_structure {K V : Type} (tk : K -> string) (tv : V -> string) (tu : unit -> string) (tn : N -> string) :
  let pk := fun k => push (tk k) in let pv := fun v => push (tv v) in let pn := fun n => push (tn n) in
  (forall e (m : bstmap K V), reachable e m ->
     exists d, map_debug m = Ret d /\ map_fmt push pk pv m "" = (Ret true, printed tk tv tn (dbg_pieces d))) /\
  (forall e (m : simple K V), simple_reachable e m ->
     exists d, simple_debug m = Ret d /\ simple_fmt push pk pv pn m "" = (Ret true, printed tk tv tn (dbg_pieces d))) /\
  (forall e (m : bstset K), set_reachable e m ->
     exists d, set_debug m = Ret d /\ set_fmt push pk m "" = (Ret true, printed tk tu tn (dbg_pieces d))) /\
  (forall e (m : sset K), sset_reachable e m ->
     exists d, sset_debug m = Ret d /\ sset_fmt push pk m "" = (Ret true, printed tk tu tn (dbg_pieces d))).
Proof.
  split; [exact (map_structure tk tv tn)|]. split; [exact (simple_structure tk tv tn)|].
  split; [exact (set_structure tk tu tn)|exact (sset_structure tk tu tn)].
Qed.
Print Assumptions C84_structure.

(** ** Cases *)

Definition num_text (n : N) : string := NilZero.string_of_uint (N.to_uint n).
Definition sk_text (k : SK) : string := ("#" ++ num_text k.1)%string.
(** The first key panics; or the formatter has no room after the fourth piece. *)
Definition d_panics {K V} (log : list (piece K V)) (p : piece K V) : res bool :=
  match p with PKey _ => Panic PCmp | _ => Ret true end.
Definition d_full {K V} (log : list (piece K V)) (p : piece K V) : res bool := Ret (length log <? 4)%nat.

Example C84_case :
  reachable senv sample /\ shows sample sample_tree /\
  (exists log, map_fmt (say_text d_panics) (say_key d_panics) (say_value d_panics) sample [] = (Panic PCmp, log) /\
     asks d_panics true [] (map_pieces sample_tree) (Panic PCmp) log /\ length log = 11) /\
  (exists log, map_fmt (say_text d_full) (say_key d_full) (say_value d_full) sample [] = (Ret false, log) /\
     asks d_full true [] (map_pieces sample_tree) (Ret false) log /\ length log = 5) /\
  (map_fmt push (fun k => push (sk_text k)) (fun v => push (num_text v))
     (run senv [ins 2 0 20; ins 1 0 10] map_new).2 "").2 =
    "BSTMap { root: Some(Node { key: #2, value: 20, left: Some(Node { key: #1, value: 10, left: None, right: None }), right: None }) }".
Proof.
  split; [exact sample_reachable|]. split; [exact sample_shows|]. split; [|split; [|by vm_compute]].
  - eexists. split; [by vm_compute|]. split; [|reflexivity].
    apply (C84_map d_panics senv sample); [exact sample_reachable|exact sample_shows|by vm_compute].
  - eexists. split; [by vm_compute|]. split; [|reflexivity].
    apply (C84_map d_full senv sample); [exact sample_reachable|exact sample_shows|by vm_compute].
Qed.

Example C84_other_case :
  simple_reachable benv0 simple_sample /\
  (exists log, simple_fmt (say_text d_panics) (say_key d_panics) (say_value d_panics) (say_num d_panics) simple_sample [] = (Panic PCmp, log) /\ length log = 11) /\
  set_reachable senv set_sample /\
  (exists log : list (piece SK unit), set_fmt (say_text d_full) (say_key d_full) set_sample [] = (Ret false, log) /\ length log = 5) /\
  sset_reachable sset_env sset_sample /\
  (exists log : list (piece SK unit), sset_fmt (say_text d_panics) (say_key d_panics) sset_sample [] = (Panic PCmp, log) /\ length log = 11) /\
  arena_fmt (say_text (V := unit) d_full) (say_key d_full) senv arena_sample [] =
    (Ret false, take 5 (arena_pieces (arena_contents [] arena_ops1 arena_run1.1).*2)).
Proof.
  split; [exact simple_sample_reachable|]. split; [eexists; split; [by vm_compute|reflexivity]|].
  split; [exact set_sample_reachable|]. split; [eexists; split; [by vm_compute|reflexivity]|].
  split; [exact sset_sample_reachable|]. split; [eexists; split; [by vm_compute|reflexivity]|].
  by vm_compute.
Qed.

Example C84_nodes_case :
  exists n, handle sample n /\
  node_fmt (say_text d_full) (say_key d_full) (say_value d_full) sample (map_fuel sample) n [] =
    (Ret false, texts ["Node"; " { "; "key"; ": "] ++ [PKey (node_key n)]) /\
  nodemut_fmt (say_text d_panics) (say_key d_panics) (say_value d_panics) sample (nd_ptr n) [] =
    (Panic PCmp, texts ["NodeMut"; " { "; "key"; ": "] ++ [PKey (node_key n)]).
Proof.
  eexists. split; [exists []; eexists; split; by vm_compute|]. by vm_compute.
Qed.
