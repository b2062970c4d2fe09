(** * A finite call stack

    Some functions recurse once per level of the tree: the destructor of
    [Option<Box<Node>>] (map/node.rs:4-9 of simple_bst; it runs in [clear] and when
    a map goes out of scope), the derived [Clone], [PartialEq] and [Debug] of
    simple_bst (map.rs:18, map/node.rs:3), and [Debug] of the other nodes
    (src/map/node.rs:15-27, src/set/node.rs:9-19, simple_bst/src/set/node.rs:9-19).
    All other functions are loops.

    Here the stack has room for the calls of [n] nested nodes. A program that needs
    more of it is ended by the guard page; there is no panic and no unwinding. The
    models of the recursive functions count their depth (their [fuel]), so they
    serve again with [n] for it. The calls for an empty child, where the recursion
    ends, are not counted. The closures and library functions between two calls are
    frames too; a level of the tree costs a constant number of frames, so [n] stands
    for the size of the stack divided by the size of a level. *)

From Coq Require Import String.
From Verif Require Export ModelNodes.

(** The stack is exhausted: the process ends. *)
Definition or_overflow {A : Type} (x : res A) : res A := match x with Diverge => Abort | _ => x end.

Section stack.
Context {K V : Type}.
Implicit Types m : simple K V.

(** The destructor of a SimpleBSTMap (ModelSimple.v, [simple_drop]). *)
Definition drop_within (n : nat) : M (simple K V) unit :=
  fun m => let '(r, m') := drop_box (S n) (simple_root m) m in (or_overflow r, m').

(** simple_bst/src/map.rs:521-523 *)
Definition clear_within (n : nat) : M (simple K V) unit :=
  let! _ := drop_within n in
  smod (set_len_field 0).

(** simple_bst/src/map.rs:18, map/node.rs:3: [clone] *)
Definition clone_within (n : nat) (e : benv) (ck : nat -> K -> option K) (cv : nat -> V -> option V) (src : simple K V)
  : res unit * simple K V :=
  match clone_box e src ck cv (S n) (simple_root src) (0%nat, simple_new) with
  | (Ret (Some n), (_, m)) => (Ret tt, set_len_field (s_len src) (set_mem (<[root_place := n]> (s_mem m)) m))
  | (Ret None, (_, m)) => (Ret tt, set_len_field (s_len src) m)
  | (Panic p, (_, m)) => (Panic p, m)
  | (Abort, (_, m)) => (Abort, m)
  | (UB u, (_, m)) => (UB u, m)
  | (Diverge, (_, m)) => (Abort, m)
  end.

(** the same lines: [fmt] *)
Definition debug_within (n : nat) m : res (dbg K V) :=
  let* r := or_overflow (box_debug m (S n) (simple_root m)) in
  Ret (DStruct "SimpleBSTMap" [("root", r); ("len", DNum (s_len m))])%string.

(** the same lines: [==] of two nodes *)
Definition node_eq_within (n : nat) (eqK : K -> K -> bool) (eqV : V -> V -> bool) (m1 m2 : simple K V) (p1 p2 : Ptr) : res bool :=
  or_overflow (box_eq eqK eqV m1 m2 (S n) (Some p1) (Some p2)).

Definition simple_exec_within (n : nat) (e : benv) (c : op K V) : M (simple K V) (out K V) :=
  match c with
  | OClear => let! _ := clear_within n in sret OutUnit
  | ODebug => let! m := sget in let! d := slift (debug_within n m) in sret (OutDebug d)
  | OClone _ ck cv => fun m =>
    match clone_within n e ck cv m with
    | (Ret _, m2) =>
      match drop_within n m with
      | (Ret _, _) => (Ret OutUnit, m2)
      | (Panic p, m1) => (Panic p, m1)
      | (Abort, m1) => (Abort, m1)
      | (UB u, m1) => (UB u, m1)
      | (Diverge, m1) => (Diverge, m1)
      end
    | (Panic p, _) => (Panic p, m)
    | (Abort, _) => (Abort, m)
    | (UB u, _) => (UB u, m)
    | (Diverge, _) => (Diverge, m)
    end
  | _ => simple_exec e c
  end.

Fixpoint simple_run_within (n : nat) (e : benv) (cs : list (op K V)) m : list (res (out K V)) * simple K V :=
  match cs with
  | [] => ([], m)
  | c :: cs =>
    match simple_exec_within n e c m with
    | (Ret x, m') => let '(rs, m'') := simple_run_within n e cs m' in (Ret x :: rs, m'')
    | (Panic p, m') => let '(rs, m'') := simple_run_within n e cs m' in (Panic p :: rs, m'')
    | (r, m') => ([r], m')
    end
  end.

(** src/map.rs:68-77, map/node.rs:15-27 *)
Definition map_debug_within (n : nat) (m : bstmap K V) : res (dbg K V) :=
  let* r := map_root m in
  let* d := (match r with
             | None => Ret DNone
             | Some x => rmap DSome (or_overflow (node_debug m n x))
             end) in
  Ret (DStruct "BSTMap" [("root", d)])%string.
Definition exec_within (n : nat) (e : env) (c : op K V) : M (bstmap K V) (out K V) :=
  match c with
  | ODebug => let! m := sget in let! d := slift (map_debug_within n m) in sret (OutDebug d)
  | _ => exec e c
  end.

End stack.

Section sets.
Context {T : Type}.

(** src/set.rs:38-46, set/node.rs:9-19 *)
Definition set_debug_within (n : nat) (m : bstset T) : res (dbg T unit) :=
  let* r := bstset_root m in
  let* d := (match r with
             | None => Ret DNone
             | Some x => rmap DSome (or_overflow (setnode_debug m n x))
             end) in
  Ret (DStruct "BSTSet" [("root", d)])%string.
Definition set_exec_within (n : nat) (e : env) (c : set_op T) : M (bstset T) (set_out T) :=
  match c with
  | SetDebug => let! m := sget in let! d := slift (set_debug_within n m) in sret (SetDebugged d)
  | _ => set_exec e c
  end.

(** simple_bst/src/set.rs:31-39, set/node.rs:9-19 *)
Definition sset_debug_within (n : nat) (m : sset T) : res (dbg T unit) :=
  let* d := (match sset_root m with
             | None => Ret DNone
             | Some p => rmap DSome (or_overflow (ssetnode_debug m n p))
             end) in
  Ret (DStruct "SimpleBSTSet" [("root", d)])%string.
(** simple_bst/src/set.rs:18 (derived [clone]), 229-231 ([clear]) *)
Definition sset_exec_within (n : nat) (e : benv) (c : set_op T) : M (sset T) (set_out T) :=
  match c with
  | SetClear => let! _ := clear_within n in sret SetUnit
  | SetDebug => let! m := sget in let! d := slift (sset_debug_within n m) in sret (SetDebugged d)
  | SetClone _ ck => let! _ := (fun m =>
      match clone_within n e ck (fun _ _ => Some tt) m with
      | (Ret _, m2) =>
        match drop_within n m with
        | (Ret _, _) => (Ret tt, m2)
        | (r, m1) => (r, m1)
        end
      | (r, _) => (r, m)
      end) in sret SetUnit
  | _ => sset_exec e c
  end.

End sets.
