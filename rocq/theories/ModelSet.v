(** * Model of src/set.rs, src/set/*.rs and of the macros of src/lib.rs

    [BSTSet<T>] is a struct with the single field [items : BSTMap<T, ()>]
    (set.rs:26-28); the model of a set is the model of that map. *)

From Coq Require Import String.
From Verif Require Export ModelHistory.
Local Open Scope N_scope.

(** ** The macro [bstmap!] (lib.rs:12-26)

    [items] are the pairs whose expressions were evaluated; [panics] tells that
    the next key or value expression panics (the half-built [_map] is then
    dropped). [os j k] answers the comparisons of the [j]-th insertion. *)
Definition bstmap_macro {K V} (e : env) (os : nat -> K -> oracle K) (items : list (K * V)) (panics : bool)
  : res unit * bstmap K V :=
  build e (Ret tt, map_new) (insert_all e os 0 items panics).

Section set.
Context {T : Type}.

(** set.rs:26-28 *)
Definition bstset : Type := bstmap T unit.
Implicit Types m : bstset.

(** set/node.rs:4-7 [Node { inner: map::Node<T, ()> }] *)
Definition SetNode : Type := Node T unit.

(** ** Methods *)

(** set.rs:30-36, 76-80 *)
Definition set_new : bstset := map_new.

(** set.rs:91-95 *)
Definition set_with_capacity (e : env) (n : N) : res unit * bstset := map_with_capacity e n.

(** set.rs:111-113 *)
Definition set_len (e : env) m : res N := map_len e m.

(** set.rs:129-131 *)
Definition set_capacity m : N := map_capacity m.

(** set.rs:147-149 *)
Definition set_is_empty (e : env) m : res bool := map_is_empty e m.

(** set.rs:169-174 *)
Definition set_contains m (o : oracle T) : res bool := map_contains_key m o.

(** set.rs:194-199 *)
Definition set_get m (o : oracle T) : res (option T) := rmap (option_map fst) (map_get_entry m o).

(** set.rs:221-223; the old value, if any, is [()]. *)
Definition set_insert (e : env) (o : oracle T) (x : T) : M bstset bool :=
  let! r := bstmap_insert e o x tt in
  sret (match r with None => true | Some _ => false end).

(** set.rs:262-267 *)
Definition set_take (e : env) (o : oracle T) : M bstset (option T) :=
  let! r := map_remove_entry e o in
  sret (option_map fst r).

(** set.rs:240-245; the value that [take] returned is dropped here. *)
Definition set_remove (e : env) (o : oracle T) : M bstset bool :=
  let! r := set_take e o in
  match r with
  | None => sret false
  | Some x => let! _ := smod (log_drops [inl x]) in sret true
  end.

(** set.rs:286-288 *)
Definition set_clear (e : env) (panics : inner T unit -> bool) : M bstset unit := map_clear e panics.

(** set.rs:360-362 *)
Definition set_reserve (e : env) (n : N) : M bstset unit := map_reserve e n.

(** set.rs:367-369 *)
Definition set_shrink_to_fit (e : env) : M bstset unit := map_shrink_to_fit e.

(** [iter.into_iter().map(|value| (value, ()))]: [Map] passes the size hint on. *)
Definition with_units (it : user_iter T) : user_iter (T * unit) :=
  mkUserIter (ui_lo it) (ui_hi it) ((fun x => (x, tt)) <$> ui_items it) (ui_panics it).

(** set.rs:372-376 *)
Definition set_extend (e : env) (os : nat -> T -> oracle T) (it : user_iter T) : M bstset unit :=
  map_extend e os (with_units it).

(** set.rs:378-384 *)
Definition set_from_iter (e : env) (os : nat -> T -> oracle T) (it : user_iter T) : res unit * bstset :=
  map_from_iter e os (with_units it).

(** set.rs:48-54; cloning [()] does not panic. *)
Definition set_clone (e : env) (os : nat -> T -> oracle T) (ck : nat -> T -> option T) m : res unit * bstset :=
  map_clone e os ck (fun _ _ => Some tt) m.

(** set.rs:56-60; [()] equals [()]. *)
Definition bstset_eq (e : env) (eqT : T -> T -> bool) m1 m2 : res bool := map_eq e eqT (fun _ _ => true) m1 m2.

(** ** Iterators

    set.rs:291-303, set/preorder.rs, set/inorder.rs, set/postorder.rs: each
    iterator wraps the map's; [next] is [self.inner.next().map(|(value, ())| value)]. *)
Definition set_iter_start m (d : order) : res iter := iter_start m d.
Definition set_iter_next m (d : order) (it : iter) : res (option T) * iter :=
  let '(r, it') := iter_next m d it in
  (rmap (option_map (fun x => x.2.1)) r, it').

(** Calling [next] [n] times. *)
Fixpoint set_nexts (next : M iter (option T)) (n : nat) : M iter (list (option T)) :=
  match n with
  | O => sret []
  | S n =>
    let! x := next in
    let! xs := set_nexts next n in
    sret (x :: xs)
  end.

(** ** Nodes (set/node.rs, set.rs:350-352) *)

Definition bstset_root m : res (option SetNode) := map_root m.
(** set/node.rs:28-30 *)
Definition setnode_value (n : SetNode) : T := node_key n.
(** set/node.rs:33-35, 38-40 *)
Definition setnode_has_left (n : SetNode) : bool := node_has_left n.
Definition setnode_has_right (n : SetNode) : bool := node_has_right n.
(** set/node.rs:43-45, 48-50 *)
Definition setnode_left m (n : SetNode) : res (option SetNode) := node_left m n.
Definition setnode_right m (n : SetNode) : res (option SetNode) := node_right m n.

(** set/node.rs:9-19; [DKey] prints a value of the set. *)
Fixpoint setnode_debug m (fuel : nat) (n : SetNode) : res (dbg T unit) :=
  match fuel with
  | O => Diverge
  | S fuel =>
    let sub := fun (o : option SetNode) =>
      match o with
      | None => Ret DNone
      | Some c => rmap DSome (setnode_debug m fuel c)
      end in
    let* l := setnode_left m n in
    let* ld := sub l in
    let* r := setnode_right m n in
    let* rd := sub r in
    Ret (DStruct "Node" [("value", DKey (setnode_value n)); ("left", ld); ("right", rd)])%string
  end.

(** set.rs:38-46 *)
Definition set_debug m : res (dbg T unit) :=
  let* r := bstset_root m in
  let* d := (match r with
             | None => Ret DNone
             | Some n => rmap DSome (setnode_debug m (map_fuel m) n)
             end) in
  Ret (DStruct "BSTSet" [("root", d)])%string.

(** ** The macro [bstset!] (lib.rs:28-44)

    [later] is the number of values from the panicking expression on ([0]: none
    panics), and the macro counts [items] and [later]. *)
Definition bstset_macro (e : env) (os : nat -> T -> oracle T) (items : list T) (later : N) : res unit * bstset :=
  build e (set_with_capacity e (N.of_nat (List.length items) + later))
    (insert_all e os 0 ((fun x => (x, tt)) <$> items) (0 <? later)).

(** ** Programs *)

Inductive set_op :=
| SetInsert (o : oracle T) (x : T)
| SetRemove (o : oracle T)
| SetTake (o : oracle T)
| SetGet (o : oracle T)
| SetContains (o : oracle T)
| SetLen
| SetIsEmpty
| SetCapacity
| SetClear
| SetReserve (n : N)
| SetShrink
| SetExtend (os : nat -> T -> oracle T) (it : user_iter T)
| SetIter (d : order) (n : nat)
| SetWalk (path : list dir)
| SetDebug
| SetClone (os : nat -> T -> oracle T) (ck : nat -> T -> option T).

(** What a node shows: value, [has_left], [has_right]. *)
Definition set_shown : Type := (T * bool * bool)%type.

Inductive set_out :=
| SetUnit
| SetBool (b : bool)
| SetValue (x : option T)
| SetNum (n : N)
| SetSeq (l : list (option T))
| SetNodeShown (n : option set_shown)
| SetDebugged (d : dbg T unit).

(** Walking with [left]/[right] (set/node.rs:43-50). *)
Fixpoint set_walk m (path : list dir) (n : option SetNode) : res (option SetNode) :=
  match path, n with
  | [], _ => Ret n
  | _, None => Ret None
  | GoLeft :: path, Some n => let* c := setnode_left m n in set_walk m path c
  | GoRight :: path, Some n => let* c := setnode_right m n in set_walk m path c
  end.

Definition set_show (n : SetNode) : set_shown := (setnode_value n, setnode_has_left n, setnode_has_right n).

(** [set = set.clone()], see [clone_and_replace]. *)
Definition set_clone_and_replace (e : env) (os : nat -> T -> oracle T) (ck : nat -> T -> option T) : M bstset unit :=
  fun m =>
    match set_clone e os ck m with
    | (Ret _, m2) =>
      match map_drop e (fun _ => false) m with
      | (Ret _, _) => (Ret tt, m2)
      | (r, m1) => (r, m1)
      end
    | (r, _) => (r, m)
    end.

Definition set_exec (e : env) (c : set_op) : M bstset set_out :=
  match c with
  | SetInsert o x => let! b := set_insert e o x in sret (SetBool b)
  | SetRemove o => let! b := set_remove e o in sret (SetBool b)
  | SetTake o => let! x := set_take e o in sret (SetValue x)
  | SetGet o => let! m := sget in let! x := slift (set_get m o) in sret (SetValue x)
  | SetContains o => let! m := sget in let! b := slift (set_contains m o) in sret (SetBool b)
  | SetLen => let! m := sget in let! n := slift (set_len e m) in sret (SetNum n)
  | SetIsEmpty => let! m := sget in let! b := slift (set_is_empty e m) in sret (SetBool b)
  | SetCapacity => let! m := sget in sret (SetNum (set_capacity m))
  | SetClear => let! _ := set_clear e (fun _ => false) in sret SetUnit
  | SetReserve n => let! _ := set_reserve e n in sret SetUnit
  | SetShrink => let! _ := set_shrink_to_fit e in sret SetUnit
  | SetExtend os it => let! _ := set_extend e os it in sret SetUnit
  | SetIter d n =>
    let! m := sget in
    let! it := slift (set_iter_start m d) in
    let! l := slift (fst (set_nexts (set_iter_next m d) n it)) in
    sret (SetSeq l)
  | SetWalk path =>
    let! m := sget in
    let! r := slift (bstset_root m) in
    let! n := slift (set_walk m path r) in
    sret (SetNodeShown (option_map set_show n))
  | SetDebug => let! m := sget in let! d := slift (set_debug m) in sret (SetDebugged d)
  | SetClone os ck => let! _ := set_clone_and_replace e os ck in sret SetUnit
  end.

Fixpoint set_run (e : env) (cs : list set_op) m : list (res set_out) * bstset :=
  match cs with
  | [] => ([], m)
  | c :: cs =>
    match set_exec e c m with
    | (Ret x, m') => let '(rs, m'') := set_run e cs m' in (Ret x :: rs, m'')
    | (Panic p, m') => let '(rs, m'') := set_run e cs m' in (Panic p :: rs, m'')
    | (r, m') => ([r], m')
    end
  end.

(** How a set comes into being. *)
Inductive set_start :=
| SetNew
| SetWithCapacity (n : N)
| SetFromIter (os : nat -> T -> oracle T) (it : user_iter T).

Definition set_begin (e : env) (s : set_start) : res unit * bstset :=
  match s with
  | SetNew => (Ret tt, set_new)
  | SetWithCapacity n => set_with_capacity e n
  | SetFromIter os it => set_from_iter e os it
  end.

Definition set_reached (e : env) (s : set_start) (cs : list set_op) (rs : list (res set_out)) m : Prop :=
  exists m0, set_begin e s = (Ret tt, m0) /\ set_run e cs m0 = (rs, m).

End set.
Arguments bstset : clear implicits.
Arguments SetNode : clear implicits.
Arguments set_op : clear implicits.
Arguments set_out : clear implicits.
Arguments set_shown : clear implicits.
Arguments set_start : clear implicits.
