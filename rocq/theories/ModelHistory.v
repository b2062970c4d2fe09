(** * Programs that use a BSTMap: calls, results, histories

    Every public method of [BSTMap] (src/map.rs) appears as a call. A history is
    any finite list of calls; it goes on after a call that panicked (the caller
    used [catch_unwind]) and stops when the process aborts. *)

From Verif Require Export ModelIter.
Local Open Scope N_scope.

Section history.
Context {K V : Type}.
Implicit Types m : bstmap K V.

(** A step of a walk from the root. *)
Inductive dir := GoLeft | GoRight.

(** The argument [o] of a call gives the answers of its comparisons. *)
Inductive op :=
| OInsert (o : oracle K) (k : K) (v : V)                 (* map.rs:407 *)
| ORemove (o : oracle K)                                 (* map.rs:464 *)
| ORemoveEntry (o : oracle K)                            (* map.rs:487 *)
| OGet (o : oracle K)                                    (* map.rs:260 *)
| OGetEntry (o : oracle K)                               (* map.rs:333 *)
| OContains (o : oracle K)                               (* map.rs:226 *)
| OGetMut (o : oracle K) (w : option V)                  (* map.rs:299, then [*r = w] *)
| OGetEntryMut (o : oracle K) (w : option V)             (* map.rs:372, then [*r = w] *)
| OLen                                                   (* map.rs:168 *)
| OIsEmpty                                               (* map.rs:204 *)
| OCapacity                                              (* map.rs:186 *)
| OClear                                                 (* map.rs:650, destructors do not panic *)
| OReserve (n : N)                                       (* map.rs:758 *)
| OShrink                                                (* map.rs:765 *)
| OExtend (os : nat -> K -> oracle K) (it : user_iter (K * V))  (* map.rs:770 *)
| OIter (d : order) (n : nat)                            (* map.rs:657-670, then [n] calls of [next] *)
| OIterMut (d : order) (evs : list (mut_event V))        (* map.rs:672-685, then the events *)
| OWalk (path : list dir)                                (* map.rs:734, node.rs:65-94 *)
| OWalkMut (path : list dir) (w : option V)              (* map.rs:747, node.rs:160-224 *)
| ODebug                                                 (* map.rs:68 *)
| OClone (os : nat -> K -> oracle K)                     (* map.rs:79: [map = map.clone()] *)
         (ck : nat -> K -> option K) (cv : nat -> V -> option V).

(** What a node handle shows: key, value, [has_left], [has_right]. *)
Definition shown : Type := (K * V * bool * bool)%type.

Inductive out :=
| OutUnit
| OutValue (v : option V)
| OutEntry (kv : option (K * V))
| OutBool (b : bool)
| OutNum (n : N)
| OutSeq (l : list (option (K * V)))
| OutMut (l : list (K * V)) (ended : nat)
| OutNode (n : option shown)
| OutDebug (d : dbg K V).

(** Walking with [left]/[right] (node.rs:75-94). *)
Fixpoint walk m (path : list dir) (n : option (Node K V)) : res (option (Node K V)) :=
  match path, n with
  | [], _ => Ret n
  | _, None => Ret None
  | GoLeft :: path, Some n => let* c := node_left m n in walk m path c
  | GoRight :: path, Some n => let* c := node_right m n in walk m path c
  end.

Definition show_node (n : Node K V) : shown :=
  (node_key n, node_value n, node_has_left n, node_has_right n).

(** Walking with [into_left]/[into_right] or [left]/[right] (node.rs:195-224). *)
Fixpoint walk_mut m (path : list dir) (n : option NodeMut) : res (option NodeMut) :=
  match path, n with
  | [], _ => Ret n
  | _, None => Ret None
  | GoLeft :: path, Some n => let* c := nodemut_left m n in walk_mut m path c
  | GoRight :: path, Some n => let* c := nodemut_right m n in walk_mut m path c
  end.

Definition show_nodemut m (n : NodeMut) : res shown :=
  let* k := nodemut_key m n in
  let* v := nodemut_value m n in
  let* l := nodemut_has_left m n in
  let* r := nodemut_has_right m n in
  Ret (k, v, l, r).

Definition opt_write (p : Ptr) (w : option V) : M (bstmap K V) unit :=
  match w with Some w => write_value p w | None => sret tt end.

(** [map = map.clone()]: the clone is built, then the old map is dropped. If
    cloning panics the old map stays. *)
Definition clone_and_replace (e : env) (os : nat -> K -> oracle K) (ck : nat -> K -> option K)
    (cv : nat -> V -> option V) : M (bstmap K V) unit :=
  fun m =>
    match map_clone e os ck cv m with
    | (Ret _, m2) =>
      match map_drop e (fun _ => false) m with
      | (Ret _, _) => (Ret tt, m2)
      | (r, m1) => (r, m1)
      end
    | (r, _) => (r, m)
    end.

Definition exec (e : env) (c : op) : M (bstmap K V) out :=
  match c with
  | OInsert o k v => let! r := bstmap_insert e o k v in sret (OutValue r)
  | ORemove o => let! r := map_remove e o in sret (OutValue r)
  | ORemoveEntry o => let! r := map_remove_entry e o in sret (OutEntry r)
  | OGet o => let! m := sget in let! r := slift (map_get m o) in sret (OutValue r)
  | OGetEntry o => let! m := sget in let! r := slift (map_get_entry m o) in sret (OutEntry r)
  | OContains o => let! m := sget in let! r := slift (map_contains_key m o) in sret (OutBool r)
  | OGetMut o w =>
    let! m := sget in
    let! r := slift (map_get_mut m o) in
    match r with
    | None => sret (OutValue None)
    | Some p =>
      let! v := slift (nodemut_value m p) in
      let! _ := opt_write p w in
      sret (OutValue (Some v))
    end
  | OGetEntryMut o w =>
    let! m := sget in
    let! r := slift (map_get_entry_mut m o) in
    match r with
    | None => sret (OutEntry None)
    | Some (k, p) =>
      let! v := slift (nodemut_value m p) in
      let! _ := opt_write p w in
      sret (OutEntry (Some (k, v)))
    end
  | OLen => let! m := sget in let! n := slift (map_len e m) in sret (OutNum n)
  | OIsEmpty => let! m := sget in let! b := slift (map_is_empty e m) in sret (OutBool b)
  | OCapacity => let! m := sget in sret (OutNum (map_capacity m))
  | OClear => let! _ := map_clear e (fun _ => false) in sret OutUnit
  | OReserve n => let! _ := map_reserve e n in sret OutUnit
  | OShrink => let! _ := map_shrink_to_fit e in sret OutUnit
  | OExtend os it => let! _ := map_extend e os it in sret OutUnit
  | OIter d n =>
    let! m := sget in
    let! it := slift (iter_start m d) in
    let! l := slift (fst (nexts (iter_next m d) n it)) in
    sret (OutSeq (option_map snd <$> l))
  | OIterMut d evs =>
    let! m := sget in
    let! st := slift (iter_mut_program d evs m) in
    let! _ := smod (fun _ => mu_map st) in
    sret (OutMut (mu_yielded st).*2 (mu_ended st))
  | OWalk path =>
    let! m := sget in
    let! r := slift (map_root m) in
    let! n := slift (walk m path r) in
    sret (OutNode (option_map show_node n))
  | OWalkMut path w =>
    let! m := sget in
    let! r := slift (map_root_mut m) in
    let! n := slift (walk_mut m path r) in
    match n with
    | None => sret (OutNode None)
    | Some p =>
      let! x := slift (show_nodemut m p) in
      let! _ := opt_write p w in
      sret (OutNode (Some x))
    end
  | ODebug => let! m := sget in let! d := slift (map_debug m) in sret (OutDebug d)
  | OClone os ck cv => let! _ := clone_and_replace e os ck cv in sret OutUnit
  end.

(** The results of a history and the final state. *)
Fixpoint run (e : env) (cs : list op) m : list (res out) * bstmap K V :=
  match cs with
  | [] => ([], m)
  | c :: cs =>
    match exec e c m with
    | (Ret x, m') => let '(rs, m'') := run e cs m' in (Ret x :: rs, m'')
    | (Panic p, m') => let '(rs, m'') := run e cs m' in (Panic p :: rs, m'')
    | (r, m') => ([r], m')
    end
  end.

(** How a map comes into being. *)
Inductive start :=
| SNew                                                     (* map.rs:131 *)
| SWithCapacity (n : N)                                    (* map.rs:146 *)
| SFromIter (os : nat -> K -> oracle K) (it : user_iter (K * V)).  (* map.rs:785 *)

Definition begin (e : env) (s : start) : res unit * bstmap K V :=
  match s with
  | SNew => (Ret tt, map_new)
  | SWithCapacity n => map_with_capacity e n
  | SFromIter os it => map_from_iter e os it
  end.

(** [reached e s cs rs m]: creating a map as [s] succeeds, and then the history
    [cs] has the results [rs] and leaves the map [m]. *)
Definition reached (e : env) (s : start) (cs : list op) (rs : list (res out)) m : Prop :=
  exists m0, begin e s = (Ret tt, m0) /\ run e cs m0 = (rs, m).

End history.
Arguments op : clear implicits.
Arguments out : clear implicits.
Arguments start : clear implicits.
Arguments shown : clear implicits.
