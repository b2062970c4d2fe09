(** * Equality and the [PartialEq] of the elements: C82

    The model is ModelEq.v. Vocabulary (SpecEq.v): [asks] (questions in order up to
    the first that is not answered [true]), [questions], [tree_questions]. *)

From Verif Require Import ProofEq PropertiesMap PropertiesSet PropertiesSimple PropertiesSimpleSet PropertiesArena PropertiesNodes.
From Verif Require Import ModelIter.
Local Open Scope nat_scope.

(** ** Maps and sets

    If the lengths differ, nothing is asked. Otherwise the entries are compared in
    increasing order, each key before its value, up to the first answer that is not
    [true], or up to the first panic. *)
Theorem C82_map {K V : Type} (u : list (question K V) -> question K V -> res bool) :
  forall e e1 e2 (m1 m2 : bstmap K V) l1 l2 r log,
  reachable e1 m1 -> reachable e2 m2 -> yields m1 In l1 -> yields m2 In l2 ->
  map_eq_with e (ask_key u) (ask_value u) m1 m2 [] = (r, log) ->
  if bool_decide (length l1 = length l2) then asks u true [] (questions l1 l2) r log /\ length log <= 2 * length l1
  else r = Ret false /\ log = [].
Proof. exact (map_asks u). Qed.
Print Assumptions C82_map.

Theorem C82_simple {K V : Type} (u : list (question K V) -> question K V -> res bool) :
  forall e1 e2 (m1 m2 : simple K V) l1 l2 r log,
  simple_reachable e1 m1 -> simple_reachable e2 m2 -> simple_yields m1 In l1 -> simple_yields m2 In l2 ->
  simple_eq_with (ask_key u) (ask_value u) m1 m2 [] = (r, log) ->
  if bool_decide (length l1 = length l2) then asks u true [] (questions l1 l2) r log /\ length log <= 2 * length l1
  else r = Ret false /\ log = [].
Proof. exact (simple_asks u). Qed.
Print Assumptions C82_simple.

Theorem C82_set {T : Type} (u : list (T * T) -> T * T -> res bool) :
  forall e e1 e2 (m1 m2 : bstset T) l1 l2 r log,
  set_reachable e1 m1 -> set_reachable e2 m2 -> set_yields m1 In l1 -> set_yields m2 In l2 ->
  bstset_eq_with e (ask_item u) m1 m2 [] = (r, log) ->
  if bool_decide (length l1 = length l2) then asks u true [] (zip l1 l2) r log /\ length log <= length l1
  else r = Ret false /\ log = [].
Proof. exact (set_asks u). Qed.
Print Assumptions C82_set.

Theorem C82_sset {T : Type} (u : list (T * T) -> T * T -> res bool) :
  forall e1 e2 (m1 m2 : sset T) l1 l2 r log,
  sset_reachable e1 m1 -> sset_reachable e2 m2 -> sset_yields m1 In l1 -> sset_yields m2 In l2 ->
  sset_eq_with (ask_item u) m1 m2 [] = (r, log) ->
  if bool_decide (length l1 = length l2) then asks u true [] (zip l1 l2) r log /\ length log <= length l1
  else r = Ret false /\ log = [].
Proof. exact (sset_asks u). Qed.
Print Assumptions C82_sset.

(** Arenas: the items in the order in which they were added. *)
Theorem C82_arena {T : Type} (u : list (T * T) -> T * T -> res bool) :
  forall e n1 n2 cs1 cs2 rs1 rs2 (a1 a2 : arena T) r log,
  arena_reached e n1 cs1 rs1 a1 -> arena_contract [] cs1 rs1 -> Forall process_on rs1 ->
  arena_reached e n2 cs2 rs2 a2 -> arena_contract [] cs2 rs2 -> Forall process_on rs2 ->
  arena_eq_with (ask_item u) e a1 a2 [] = (r, log) ->
  let l1 := (arena_contents [] cs1 rs1).*2 in let l2 := (arena_contents [] cs2 rs2).*2 in
  if bool_decide (length l1 = length l2) then asks u true [] (zip l1 l2) r log /\ length log <= length l1
  else r = Ret false /\ log = [].
Proof. exact (arena_asks u). Qed.
Print Assumptions C82_arena.

(** ** Nodes

    A node of a BSTMap or BSTSet is equal to itself without any question;
    otherwise the key is compared, then the value. *)
Theorem C82_nodes {K V : Type} (u : list (question K V) -> question K V -> res bool) :
  forall same (n1 n2 : Node K V) r log,
  node_eq_with (ask_key u) (ask_value u) same n1 n2 [] = (r, log) ->
  if same && bool_decide (nd_ptr n1 = nd_ptr n2) then r = Ret true /\ log = []
  else asks u true [] [QKey (node_key n1) (node_key n2); QValue (node_value n1) (node_value n2)] r log.
Proof. exact (node_asks u). Qed.
Print Assumptions C82_nodes.

Theorem C82_mutable_nodes {K V : Type} (u : list (question K V) -> question K V -> res bool) :
  forall e1 e2 (m1 m2 : bstmap K V) same n1 n2 r log,
  reachable e1 m1 -> reachable e2 m2 -> handle m1 n1 -> handle m2 n2 ->
  nodemut_eq_with (ask_key u) (ask_value u) same m1 m2 (nd_ptr n1) (nd_ptr n2) [] = (r, log) ->
  if same && bool_decide (nd_ptr n1 = nd_ptr n2) then r = Ret true /\ log = []
  else asks u true [] [QKey (node_key n1) (node_key n2); QValue (node_value n1) (node_value n2)] r log.
Proof. exact (nodemut_asks u). Qed.
Print Assumptions C82_mutable_nodes.

Theorem C82_set_nodes {T : Type} (u : list (T * T) -> T * T -> res bool) :
  forall same (n1 n2 : SetNode T) r log,
  setnode_eq_with (ask_item u) same n1 n2 [] = (r, log) ->
  if same && bool_decide (nd_ptr n1 = nd_ptr n2) then r = Ret true /\ log = []
  else asks u true [] [(setnode_value n1, setnode_value n2)] r log.
Proof. exact (setnode_asks u). Qed.
Print Assumptions C82_set_nodes.

(** Nodes of a SimpleBSTMap and SimpleBSTSet: the subtrees in pre-order, up to the
    first place where the shapes differ. *)
Theorem C82_simple_nodes {K V : Type} (u : list (question K V) -> question K V -> res bool) :
  forall e1 e2 (m1 m2 : simple K V) p1 p2 (t1 t2 : tree K V) r log,
  simple_reachable e1 m1 -> simple_reachable e2 m2 -> simple_handle m1 p1 -> simple_handle m2 p2 ->
  simple_exposes m1 (Some p1) t1 -> simple_exposes m2 (Some p2) t2 ->
  simple_node_eq_with (ask_key u) (ask_value u) m1 m2 p1 p2 [] = (r, log) ->
  asks u (tree_questions t1 t2).2 [] (tree_questions t1 t2).1 r log.
Proof. exact (simple_node_asks u). Qed.
Print Assumptions C82_simple_nodes.

Theorem C82_sset_nodes {T : Type} (u : list (T * T) -> T * T -> res bool) :
  forall e1 e2 (m1 m2 : sset T) p1 p2 (t1 t2 : stree T) r log,
  sset_reachable e1 m1 -> sset_reachable e2 m2 -> sset_handle m1 p1 -> sset_handle m2 p2 ->
  sset_exposes m1 (Some p1) t1 -> sset_exposes m2 (Some p2) t2 ->
  ssetnode_eq_with (ask_item u) m1 m2 p1 p2 [] = (r, log) ->
  asks u (stree_questions t1 t2).2 [] (stree_questions t1 t2).1 r log.
Proof. exact (ssetnode_asks u). Qed.
Print Assumptions C82_sset_nodes.

(** ** What this implies

    What has been asked is a beginning of the list of questions; and if the
    user's code answers or panics, so does [==]. *)
Theorem C82_in_order {Q : Type} (u : list Q -> Q -> res bool) : forall last log qs r log',
  asks u last log qs r log' -> exists n, n <= length qs /\ log' = log ++ take n qs.
Proof. exact (asks_bound u). Qed.
Print Assumptions C82_in_order.

Theorem C82_answers_or_panics {Q : Type} (u : list Q -> Q -> res bool) : forall last log qs r log',
  asks u last log qs r log' ->
  (forall log q, q ∈ qs -> (exists b, u log q = Ret b) \/ exists p, u log q = Panic p) ->
  (exists b, r = Ret b) \/ exists p, r = Panic p.
Proof. exact (asks_answers u). Qed.
Print Assumptions C82_answers_or_panics.

(** The equality of C16, C35, C38, C47, C52, C54 and C64 is that of user code
    without state and panics. *)
Theorem C82_without_state {K V S : Type} (eqK : K -> K -> bool) (eqV : V -> V -> bool) (s : S) :
  let pK := fun a b => sret (eqK a b) in let pV := fun a b => sret (eqV a b) in
  (forall e (m1 m2 : bstmap K V), map_eq_with e pK pV m1 m2 s = (map_eq e eqK eqV m1 m2, s)) /\
  (forall m1 m2 : simple K V, simple_eq_with pK pV m1 m2 s = (simple_eq eqK eqV m1 m2, s)) /\
  (forall same (n1 n2 : Node K V), node_eq_with pK pV same n1 n2 s = (Ret (node_eq eqK eqV same n1 n2), s)) /\
  (forall same (m1 m2 : bstmap K V) n1 n2,
     nodemut_eq_with pK pV same m1 m2 n1 n2 s = (nodemut_eq eqK eqV same m1 m2 n1 n2, s)) /\
  (forall (m1 m2 : simple K V) p1 p2,
     simple_node_eq_with pK pV m1 m2 p1 p2 s = (simple_node_eq eqK eqV m1 m2 p1 p2, s)) /\
  (forall e (a1 a2 : arena K), arena_eq_with pK e a1 a2 s = (arena_eq eqK e a1 a2, s)).
Proof.
  split; [intros; apply map_eq_with_pure|]. split; [intros; apply simple_eq_with_pure|].
  split; [intros; apply node_eq_with_pure|]. split; [intros; apply nodemut_eq_with_pure|].
  split; [intros; apply box_eq_with_pure|]. intros; apply arena_eq_with_pure.
Qed.
Print Assumptions C82_without_state.

(** ** Cases *)

(** Equal by the numbers, but the fourth question panics; or a [PartialEq] that
    finds no value equal. *)
Definition u_panics (log : list (question SK N)) (q : question SK N) : res bool :=
  if (length log =? 3)%nat then Panic PCmp
  else match q with QKey a b => Ret (seqK a b) | QValue a b => Ret (N.eqb a b) end.
Definition u_never (log : list (question SK N)) (q : question SK N) : res bool :=
  match q with QKey a b => Ret (seqK a b) | QValue a b => Ret false end.
Definition u_items (log : list (SK * SK)) (q : SK * SK) : res bool :=
  if (length log =? 2)%nat then Panic PCmp else Ret (seqK q.1 q.2).

Example C82_case :
  reachable senv sample /\ (exists l, yields sample In l /\ length l = 7 /\
  (exists log, map_eq_with senv (ask_key u_panics) (ask_value u_panics) sample sample [] = (Panic PCmp, log) /\
     asks u_panics true [] (questions l l) (Panic PCmp) log /\ length log = 4) /\
  (exists log, map_eq_with senv (ask_key u_never) (ask_value u_never) sample sample [] = (Ret false, log) /\
     asks u_never true [] (questions l l) (Ret false) log /\ length log = 2)) /\
  map_eq_with senv (ask_key u_panics) (ask_value u_panics) sample (map_remove senv (so (sq 90)) sample).2 [] = (Ret false, []).
Proof.
  split; [exact sample_reachable|]. split; [|by vm_compute].
  assert (Hy : exists l, yields sample In l /\ length l = 7).
  { eexists. split; [eexists; split; [by vm_compute|reflexivity]|reflexivity]. }
  destruct Hy as (l & Hy & Hl). exists l. split; [done|]. split; [done|]. split.
  - eexists. split; [by vm_compute|]. split; [|reflexivity].
    refine (proj1 (_ : _ /\ _ <= 14)).
    pose proof (C82_map u_panics senv senv senv sample sample l l (Panic PCmp)) as H. rewrite Hl in H.
    apply H; [exact sample_reachable|exact sample_reachable|done|done|by vm_compute].
  - eexists. split; [by vm_compute|]. split; [|reflexivity].
    refine (proj1 (_ : _ /\ _ <= 14)).
    pose proof (C82_map u_never senv senv senv sample sample l l (Ret false)) as H. rewrite Hl in H.
    apply H; [exact sample_reachable|exact sample_reachable|done|done|by vm_compute].
Qed.

Example C82_other_case :
  simple_reachable benv0 simple_sample /\
  (exists log, simple_eq_with (ask_key u_panics) (ask_value u_panics) simple_sample simple_sample [] = (Panic PCmp, log) /\ length log = 4) /\
  set_reachable senv set_sample /\
  (exists log, bstset_eq_with senv (ask_item u_items) set_sample set_sample [] = (Panic PCmp, log) /\ length log = 3) /\
  sset_reachable sset_env sset_sample /\
  (exists log, sset_eq_with (ask_item u_items) sset_sample sset_sample [] = (Panic PCmp, log) /\ length log = 3) /\
  arena_eq_with (ask_item (fun _ q => Ret (N.eqb q.1 q.2))) senv arena_sample arena_run2.2 [] =
    (Ret true, zip (arena_contents [] arena_ops1 arena_run1.1).*2 (arena_contents [] arena_ops2 arena_run2.1).*2) /\
  (* the root and its right child, which is not a root of the same shape *)
  (exists p1 p2 log, simple_handle simple_sample p1 /\ simple_handle simple_sample p2 /\
     simple_node_eq_with (ask_key (fun _ _ => Ret true)) (ask_value (fun _ _ => Ret true)) simple_sample simple_sample p1 p2 [] = (Ret false, log) /\
     0 < length log < 14) /\
  (exists p1 p2 log, sset_handle sset_sample p1 /\ sset_handle sset_sample p2 /\
     ssetnode_eq_with (ask_item (fun _ _ => Ret true)) sset_sample sset_sample p1 p2 [] = (Ret false, log) /\ 0 < length log < 7).
Proof.
  split; [exact simple_sample_reachable|]. split; [eexists; split; [by vm_compute|reflexivity]|].
  split; [exact set_sample_reachable|]. split; [eexists; split; [by vm_compute|reflexivity]|].
  split; [exact sset_sample_reachable|]. split; [eexists; split; [by vm_compute|reflexivity]|].
  split; [by vm_compute|]. split.
  - eexists _, _, _. split; [exists []; by vm_compute|]. split; [exists [GoRight]; by vm_compute|]. split; [by vm_compute|].
    cbn [length]. lia.
  - eexists _, _, _. split; [exists []; by vm_compute|]. split; [exists [GoLeft]; by vm_compute|]. split; [by vm_compute|].
    cbn [length]. lia.
Qed.

Example C82_nodes_case :
  exists n1 n2, handle sample n1 /\ handle sample n2 /\ nd_ptr n1 <> nd_ptr n2 /\
  node_eq_with (ask_key u_panics) (ask_value u_panics) true n1 n1 [] = (Ret true, []) /\
  node_eq_with (ask_key u_panics) (ask_value u_panics) true n1 n2 [] = (Ret false, [QKey (node_key n1) (node_key n2)]) /\
  nodemut_eq_with (ask_key u_never) (ask_value u_never) false sample sample (nd_ptr n1) (nd_ptr n1) [] =
    (Ret false, [QKey (node_key n1) (node_key n1); QValue (node_value n1) (node_value n1)]).
Proof.
  eexists _, _. split; [exists []; eexists; split; by vm_compute|]. split; [exists [GoLeft]; eexists; split; by vm_compute|].
  split; [by vm_compute|]. by vm_compute.
Qed.
