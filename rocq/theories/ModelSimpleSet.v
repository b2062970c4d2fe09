(** * Model of simple_bst/src/set.rs and simple_bst/src/set/*.rs

    [SimpleBSTSet<T>] is a struct with the single field
    [items : SimpleBSTMap<T, ()>] (set.rs:19-21); the model of a set is the model
    of that map. The calls and their results are those of [ModelSet.v]. *)

From Coq Require Import String.
From Verif Require Export ModelSet ModelSimple.
Local Open Scope N_scope.

Section simple_set.
Context {T : Type}.

(** set.rs:19-21 *)
Definition sset : Type := simple T unit.
Implicit Types m : sset.

(** ** Methods *)

(** set.rs:23-29, 58-60 *)
Definition sset_new : sset := simple_new.
(** set.rs:76-78 *)
Definition sset_len m : N := simple_len m.
(** set.rs:94-96 *)
Definition sset_is_empty (e : benv) m : res bool := simple_is_empty e m.
(** set.rs:116-121 *)
Definition sset_contains m (o : oracle T) : res bool := simple_contains_key m o.
(** set.rs:141-146 *)
Definition sset_get m (o : oracle T) : res (option T) := rmap (option_map fst) (simple_get_entry m o).
(** set.rs:168-170 *)
Definition sset_insert (e : benv) (o : oracle T) (x : T) : M sset bool :=
  let! r := simple_insert e o x tt in
  sret (match r with None => true | Some _ => false end).
(** set.rs:209-214 *)
Definition sset_take (e : benv) (o : oracle T) : M sset (option T) :=
  let! r := simple_remove_entry e o in
  sret (option_map fst r).
(** set.rs:187-192 *)
Definition sset_remove (e : benv) (o : oracle T) : M sset bool :=
  let! r := sset_take e o in
  sret (match r with None => false | Some _ => true end).
(** set.rs:229-231 *)
Definition sset_clear : M sset unit := simple_clear.
(** set.rs:298-302 *)
Definition sset_extend (e : benv) (os : nat -> T -> oracle T) (it : user_iter T) : M sset unit :=
  simple_extend e os (with_units it).
(** set.rs:304-310 *)
Definition sset_from_iter (e : benv) (os : nat -> T -> oracle T) (it : user_iter T) : res unit * sset :=
  simple_from_iter e os (with_units it).
(** set.rs:18: derived; cloning [()] does not panic. *)
Definition sset_clone (e : benv) (ck : nat -> T -> option T) m : res unit * sset :=
  simple_clone e ck (fun _ _ => Some tt) m.
(** set.rs:41-45; [()] equals [()]. *)
Definition sset_eq (eqT : T -> T -> bool) m1 m2 : res bool := simple_eq eqT (fun _ _ => true) m1 m2.

(** ** Iterators (set.rs:234-246, set/preorder.rs, set/inorder.rs, set/postorder.rs):
    [next] is [self.inner.next().map(|(value, ())| value)]. *)
Definition sset_iter_start m (d : order) : res siter := simple_iter_start m d.
Definition sset_iter_next m (d : order) : M siter (option T) :=
  let! x := simple_iter_next m d in
  sret (option_map fst x).

(** ** Nodes (set/node.rs, set.rs:293-295): a reference to a node of the map *)
Definition sset_root m : option Ptr := simple_root m.
(** set/node.rs:28-30 *)
Definition ssetnode_value m (p : Ptr) : res T := rmap n_key (peek m p).
(** set/node.rs:33-40 *)
Definition ssetnode_has_left m (p : Ptr) : res bool := rmap (fun n => bool_decide (is_Some (n_left n))) (peek m p).
Definition ssetnode_has_right m (p : Ptr) : res bool := rmap (fun n => bool_decide (is_Some (n_right n))) (peek m p).
(** set/node.rs:43-50 *)
Definition ssetnode_left m (p : Ptr) : res (option Ptr) := rmap n_left (peek m p).
Definition ssetnode_right m (p : Ptr) : res (option Ptr) := rmap n_right (peek m p).

(** set/node.rs:9-19 *)
Fixpoint ssetnode_debug m (fuel : nat) (p : Ptr) : res (dbg T unit) :=
  match fuel with
  | O => Diverge
  | S fuel =>
    let sub := fun (o : option Ptr) =>
      match o with
      | None => Ret DNone
      | Some c => rmap DSome (ssetnode_debug m fuel c)
      end in
    let* x := ssetnode_value m p in
    let* l := ssetnode_left m p in
    let* ld := sub l in
    let* r := ssetnode_right m p in
    let* rd := sub r in
    Ret (DStruct "Node" [("value", DKey x); ("left", ld); ("right", rd)])%string
  end.

(** set.rs:31-39 *)
Definition sset_debug m : res (dbg T unit) :=
  let* d := (match sset_root m with
             | None => Ret DNone
             | Some p => rmap DSome (ssetnode_debug m (simple_fuel m) p)
             end) in
  Ret (DStruct "SimpleBSTSet" [("root", d)])%string.

(** ** Programs *)

(** SimpleBSTSet has no [capacity], [reserve] and [shrink_to_fit]. *)
Definition sset_has (c : set_op T) : bool :=
  match c with
  | SetCapacity | SetReserve _ | SetShrink => false
  | _ => true
  end.

Fixpoint sset_walk m (path : list dir) (n : option Ptr) : res (option Ptr) :=
  match path, n with
  | [], _ => Ret n
  | _, None => Ret None
  | GoLeft :: path, Some p => let* c := ssetnode_left m p in sset_walk m path c
  | GoRight :: path, Some p => let* c := ssetnode_right m p in sset_walk m path c
  end.
Definition sset_show m (p : Ptr) : res (set_shown T) :=
  let* x := ssetnode_value m p in
  let* a := ssetnode_has_left m p in
  let* b := ssetnode_has_right m p in
  Ret (x, a, b).

(** [set = set.clone()] *)
Definition sset_clone_and_replace (e : benv) (ck : nat -> T -> option T) : M sset unit :=
  fun m =>
    match sset_clone e ck m with
    | (Ret _, m2) =>
      match simple_drop m with
      | (Ret _, _) => (Ret tt, m2)
      | (r, m1) => (r, m1)
      end
    | (r, _) => (r, m)
    end.

Definition sset_exec (e : benv) (c : set_op T) : M sset (set_out T) :=
  match c with
  | SetInsert o x => let! b := sset_insert e o x in sret (SetBool b)
  | SetRemove o => let! b := sset_remove e o in sret (SetBool b)
  | SetTake o => let! x := sset_take e o in sret (SetValue x)
  | SetGet o => let! m := sget in let! x := slift (sset_get m o) in sret (SetValue x)
  | SetContains o => let! m := sget in let! b := slift (sset_contains m o) in sret (SetBool b)
  | SetLen => let! m := sget in sret (SetNum (sset_len m))
  | SetIsEmpty => let! m := sget in let! b := slift (sset_is_empty e m) in sret (SetBool b)
  | SetClear => let! _ := sset_clear in sret SetUnit
  | SetExtend os it => let! _ := sset_extend e os it in sret SetUnit
  | SetIter d n =>
    let! m := sget in
    let! it := slift (sset_iter_start m d) in
    let! l := slift (fst (simple_nexts (sset_iter_next m d) n it)) in
    sret (SetSeq l)
  | SetWalk path =>
    let! m := sget in
    let! n := slift (sset_walk m path (sset_root m)) in
    match n with
    | None => sret (SetNodeShown None)
    | Some p => let! x := slift (sset_show m p) in sret (SetNodeShown (Some x))
    end
  | SetDebug => let! m := sget in let! d := slift (sset_debug m) in sret (SetDebugged d)
  | SetClone _ ck => let! _ := sset_clone_and_replace e ck in sret SetUnit
  | SetCapacity | SetReserve _ | SetShrink => sret SetUnit (* no such method *)
  end.

Fixpoint sset_run (e : benv) (cs : list (set_op T)) m : list (res (set_out T)) * sset :=
  match cs with
  | [] => ([], m)
  | c :: cs =>
    match sset_exec e c m with
    | (Ret x, m') => let '(rs, m'') := sset_run e cs m' in (Ret x :: rs, m'')
    | (Panic p, m') => let '(rs, m'') := sset_run e cs m' in (Panic p :: rs, m'')
    | (r, m') => ([r], m')
    end
  end.

Definition sset_has_start (s : set_start T) : bool :=
  match s with SetWithCapacity _ => false | _ => true end.
Definition sset_begin (e : benv) (s : set_start T) : res unit * sset :=
  match s with
  | SetFromIter os it => sset_from_iter e os it
  | _ => (Ret tt, sset_new)
  end.

Definition sset_reached (e : benv) (s : set_start T) (cs : list (set_op T)) (rs : list (res (set_out T))) m : Prop :=
  exists m0, sset_begin e s = (Ret tt, m0) /\ sset_run e cs m0 = (rs, m).

End simple_set.
Arguments sset : clear implicits.
