(** * Recursion depth: C81

    The model with a finite stack is ModelStack.v. Vocabulary: [height]
    (SpecOracle.v), [sheight] (SpecCost.v), [recurses], [added] (SpecStack.v). *)

From Verif Require Import ProofStack PropertiesCost PropertiesCalls PropertiesSet PropertiesSimple PropertiesSimpleSet.
From Verif Require Import ModelIter.
Local Open Scope nat_scope.

(** ** SimpleBSTMap *)

(** A stack with room for as many calls as the tree is high is enough for every
    call and for the destructor ... *)
Theorem C81_simple_enough {K V : Type} : forall e (m : simple K V) (t : tree K V) n c,
  simple_reachable e m -> simple_shows m t -> height t <= n ->
  simple_exec_within n e c m = simple_exec e c m /\ drop_within n m = simple_drop m.
Proof. exact simple_stack_enough. Qed.
Print Assumptions C81_simple_enough.

(** ... so it is enough for programs that insert no more entries than that. *)
Theorem C81_simple_small_programs {K V : Type} : forall e n (cs : list (op K V)),
  Forall (fun c => simple_has c = true) cs -> added cs <= n ->
  simple_run_within n e cs simple_new = simple_run e cs simple_new.
Proof. exact simple_small_programs. Qed.
Print Assumptions C81_simple_small_programs.

(** On a smaller stack the process ends when the map goes out of scope, and in
    [clear], [Debug] and [clone] (unless [clone] of a key or value panics first). *)
Theorem C81_simple_overflow {K V : Type} : forall e (m : simple K V) (t : tree K V) n c,
  simple_reachable e m -> simple_shows m t -> n < height t ->
  (drop_within n m).1 = Abort /\
  (recurses c -> (simple_exec_within n e c m).1 = Abort \/
    exists os ck cv, c = OClone os ck cv /\ tree_clone ck cv 0 t = None /\ (simple_exec_within n e c m).1 = Panic PClone).
Proof. exact simple_stack_short. Qed.
Print Assumptions C81_simple_overflow.

(** No stack is large enough: inserting one key more than the stack has room for,
    in increasing order, gives a map that cannot be dropped, cleared or printed. *)
Theorem C81_simple_no_stack_is_enough : forall e n,
  (forall i, b_addr e i <> None) -> (N.of_nat n + 2 < 2 ^ 60)%N ->
  exists (items : list (N * N)) rs m, sorted N.compare items /\ length items = S n /\
    simple_reached e SNew (inserts (fun _ k _ k' => Some (N.compare k k')) items) rs m /\ returned_all rs /\
    (drop_within n m).1 = Abort /\ (simple_exec_within n e OClear m).1 = Abort /\ (simple_exec_within n e ODebug m).1 = Abort.
Proof. exact simple_deep. Qed.
Print Assumptions C81_simple_no_stack_is_enough.

(** Comparing two nodes goes down both trees as far as they agree. *)
Theorem C81_simple_node_equality {K V : Type} : forall e1 e2 (m1 m2 : simple K V) (eqK : K -> K -> bool) (eqV : V -> V -> bool) p1 p2 (t1 t2 : tree K V) n,
  simple_reachable e1 m1 -> simple_reachable e2 m2 -> simple_handle m1 p1 -> simple_handle m2 p2 ->
  simple_exposes m1 (Some p1) t1 -> simple_exposes m2 (Some p2) t2 ->
  (height t1 <= n -> node_eq_within n eqK eqV m1 m2 p1 p2 = simple_node_eq eqK eqV m1 m2 p1 p2) /\
  (n < height t1 -> tree_same eqK eqV t1 t2 -> node_eq_within n eqK eqV m1 m2 p1 p2 = Abort).
Proof. exact node_eq_stack. Qed.
Print Assumptions C81_simple_node_equality.

(** ** BSTMap and BSTSet: only [Debug] recurses *)

Theorem C81_map {K V : Type} : forall e (m : bstmap K V) (t : tree K V) n c, reachable e m -> shows m t ->
  (height t <= n -> exec_within n e c m = exec e c m) /\
  (n < height t -> (exec_within n e ODebug m).1 = Abort).
Proof. exact map_stack. Qed.
Print Assumptions C81_map.

Theorem C81_set {T : Type} : forall e (m : bstset T) (t : stree T) n c, set_reachable e m -> set_shows m t ->
  (sheight t <= n -> set_exec_within n e c m = set_exec e c m) /\
  (n < sheight t -> (set_exec_within n e SetDebug m).1 = Abort).
Proof. exact set_stack. Qed.
Print Assumptions C81_set.

(** ** SimpleBSTSet *)

Theorem C81_sset_enough {T : Type} : forall e (m : sset T) (t : stree T) n c,
  sset_reachable e m -> sset_shows m t -> sheight t <= n ->
  sset_exec_within n e c m = sset_exec e c m /\ drop_within n m = simple_drop m.
Proof. exact sset_stack_enough. Qed.
Print Assumptions C81_sset_enough.

Theorem C81_sset_overflow {T : Type} : forall e (m : sset T) (t : stree T) n c,
  sset_reachable e m -> sset_shows m t -> n < sheight t ->
  (drop_within n m).1 = Abort /\
  (set_recurses c -> (sset_exec_within n e c m).1 = Abort \/
    exists os ck, c = SetClone os ck /\ stree_clone ck 0 t = None /\ (sset_exec_within n e c m).1 = Panic PClone).
Proof. exact sset_stack_short. Qed.
Print Assumptions C81_sset_overflow.

(** ** Examples *)
Local Open Scope N_scope.

(** The sample is 5 levels high. *)
Example C81_case :
  simple_reachable benv0 simple_sample /\ simple_shows simple_sample simple_sample_tree /\ height simple_sample_tree = 5%nat /\
  (drop_within 4 simple_sample).1 = Abort /\ (drop_within 5 simple_sample).1 = Ret tt /\
  (simple_exec_within 4 benv0 OClear simple_sample).1 = Abort /\ (simple_exec_within 5 benv0 OClear simple_sample).1 = Ret OutUnit /\
  (simple_exec_within 4 benv0 ODebug simple_sample).1 = Abort /\
  (simple_exec_within 4 benv0 (OClone sos (fun _ k => Some k) (fun _ v => Some v)) simple_sample).1 = Abort /\
  (simple_exec_within 5 benv0 (OClone sos (fun _ k => Some k) (fun _ v => Some v)) simple_sample).1 = Ret OutUnit /\
  (simple_exec_within 4 benv0 (OClone sos (fun i k => if Nat.eqb i 1 then None else Some k) (fun _ v => Some v)) simple_sample).1 = Panic PClone /\
  (exists p, simple_root simple_sample = Some p /\ simple_handle simple_sample p /\ simple_exposes simple_sample (Some p) simple_sample_tree /\
    tree_same same_number N.eqb simple_sample_tree simple_sample_tree /\
    node_eq_within 4 same_number N.eqb simple_sample simple_sample p p = Abort /\
    node_eq_within 5 same_number N.eqb simple_sample simple_sample p p = Ret true) /\
  Forall (fun c => simple_has c = true) simple_ops /\ added simple_ops = 11%nat /\
  (forall i, b_addr benv0 i <> None).
Proof.
  split; [exact simple_sample_reachable|]. split; [exact simple_sample_shows|]. split; [done|].
  do 8 (split; [by vm_compute|]). split.
  { eexists. split; [by vm_compute|]. split; [exists []; by vm_compute|]. split; [exact simple_sample_shows|].
    split; [repeat constructor|]. split; by vm_compute. }
  split; [exact simple_ops_has|]. split; [by vm_compute|done].
Qed.

Example C81_other_case :
  reachable senv sample /\ shows sample sample_tree /\ height sample_tree = 5%nat /\
  (exec_within 4 senv ODebug sample).1 = Abort /\ (exec_within 4 senv OClear sample).1 = Ret OutUnit /\
  set_reachable senv set_sample /\ set_shows set_sample set_sample_tree /\ sheight set_sample_tree = 3%nat /\
  (set_exec_within 2 senv SetDebug set_sample).1 = Abort /\ (set_exec_within 2 senv SetClear set_sample).1 = Ret SetUnit /\
  sset_reachable sset_env sset_sample /\ sset_shows sset_sample sset_sample_tree /\
  (drop_within 2 sset_sample).1 = Abort /\ (sset_exec_within 2 sset_env SetDebug sset_sample).1 = Abort /\
  (sset_exec_within 3 sset_env SetClear sset_sample).1 = Ret SetUnit.
Proof.
  split; [exact sample_reachable|]. split; [exact sample_shows|]. split; [done|].
  do 2 (split; [by vm_compute|]). split; [exact set_sample_reachable|]. split; [exact set_sample_shows|]. split; [done|].
  do 2 (split; [by vm_compute|]). split; [exact sset_sample_reachable|]. split; [exact sset_sample_shows|].
  split; [by vm_compute|]. split; by vm_compute.
Qed.
