(** * Programs whose destructors panic

    The methods of [BSTMap] (src/map.rs) that destroy keys and values outside of
    [clear] and of the drop of the map, with destructors that may panic. In
    [ModelMap.v] these destructors only leave a trace in a log.

    [bad x] says that the destructor of the key or value [x] panics. A destructor
    that panics still has destroyed its value. A second panic while the first one is
    unwinding aborts the process.

    [leaky]: a function whose result is ready and which then panics in the destructor
    of an argument or local does not destroy the result (rust-lang/rust issue 47949;
    depends on the version of the compiler). *)

From Verif Require Export ModelHistory.
Local Open Scope N_scope.

Section drops.
Context {K V : Type}.
Implicit Types m : bstmap K V.
Variable leaky : bool.
Variable bad : K + V -> bool.

(** A key or value goes out of scope. *)
Definition destroy (x : K + V) : M (bstmap K V) unit :=
  let! _ := smod (log_drops [x]) in
  if bad x then sfail PDrop else sret tt.

(** If [f] panics, unwinding destroys [l]. *)
Definition unwinding {A} (l : list (K + V)) (f : M (bstmap K V) A) : M (bstmap K V) A :=
  fun m => match f m with
           | (Panic p, m') => if existsb bad l then (Abort, m') else (Panic p, log_drops l m')
           | x => x
           end.

(** The result [x] is ready, then [y] goes out of scope. *)
Definition return_past (x y : K + V) : M (bstmap K V) unit :=
  unwinding (if leaky then [] else [x]) (destroy y).

(** map.rs:417-445, the loop of [insert]. *)
Fixpoint dinsert_loop (e : env) (o : oracle K) (fuel i : nat) (k : K) (v : V) (current : option NodeMut)
  : M (bstmap K V) (option V) :=
  match fuel with
  | O => slift Diverge
  | S fuel =>
    match current with
    | None => sret None
    | Some node =>
      let! m := sget in
      let! nk := slift (nodemut_key m node) in
      let! c := unwinding [inl k; inr v] (slift (ask o i nk)) in
      match c with
      | Lt =>
        let! hl := slift (nodemut_has_left m node) in
        if negb hl then
          let! _ := unwinding [inl k; inr v] (nodemut_push_left e node k v) in sret None
        else
          let! cur := slift (nodemut_left m node) in
          dinsert_loop e o fuel (S i) k v cur
      | Gt =>
        let! hr := slift (nodemut_has_right m node) in
        if negb hr then
          let! _ := unwinding [inl k; inr v] (nodemut_push_right e node k v) in sret None
        else
          let! cur := slift (nodemut_right m node) in
          dinsert_loop e o fuel (S i) k v cur
      | Eq =>
        let! prev_value := nodemut_replace_value node v in
        let! _ := return_past (inr prev_value) (inl k) in
        sret (Some prev_value)
      end
    end
  end.

(** map.rs:407-446 [insert] *)
Definition dinsert (e : env) (o : oracle K) (k : K) (v : V) : M (bstmap K V) (option V) :=
  let! m := sget in
  let! r := slift (map_root_mut m) in
  match r with
  | Some root => dinsert_loop e o (map_fuel m) 0 k v (Some root)
  | None =>
    let! p := unwinding [inl k; inr v] (on_nodes (slab_push e (inner_new k v))) in
    let! _ := smod (set_root (Some p)) in
    sret None
  end.

(** map.rs:464-469 [remove]: the closure returns the value, then the key of the
    pair goes out of scope. *)
Definition dremove (e : env) (o : oracle K) : M (bstmap K V) (option V) :=
  let! r := map_remove_entry e o in
  match r with
  | None => sret None
  | Some (k, v) => let! _ := return_past (inr v) (inl k) in sret (Some v)
  end.

(** An assignment [*r = v] through a [&mut V]: if the destructor of the old value
    panics, the new value is still moved in. *)
Definition dwrite_value (n : NodeMut) (v : V) : M (bstmap K V) unit :=
  let! x := on_nodes (slab_update n (with_value v)) in
  destroy (inr (n_value x)).

Definition opt_dwrite (p : Ptr) (w : option V) : M (bstmap K V) unit :=
  match w with Some w => dwrite_value p w | None => sret tt end.

Definition destroy_opt (v : option V) : M (bstmap K V) unit :=
  match v with Some v => destroy (inr v) | None => sret tt end.

(** map.rs:779-781 and 794-796: the previous value that [insert] returns is
    destroyed at the end of the statement. *)
Fixpoint dinsert_all (e : env) (os : nat -> K -> oracle K) (j : nat) (items : list (K * V)) (panics : bool)
  : M (bstmap K V) unit :=
  match items with
  | [] => if panics then sfail PIter else sret tt
  | (k, v) :: items =>
    let! prev := dinsert e (os j k) k v in
    let! _ := destroy_opt prev in
    dinsert_all e os (S j) items panics
  end.

(** map.rs:770-783 [Extend::extend] *)
Definition dextend (e : env) (os : nat -> K -> oracle K) (it : user_iter (K * V)) : M (bstmap K V) unit :=
  let! _ := map_reserve e (hint_len it) in
  dinsert_all e os 0 (ui_items it) (ui_panics it).

(** The destructor of a node destroys its key, then its value. *)
Definition bad_node (n : inner K V) : bool := bad (inl (n_key n)) || bad (inr (n_value n)).

(** A constructor that builds a local map: when it panics, unwinding drops that map,
    and a destructor that panics meanwhile aborts. *)
Definition dbuild (e : env) (start : res unit * bstmap K V) (body : M (bstmap K V) unit) : res unit * bstmap K V :=
  match start with
  | (Ret _, m0) =>
    match body m0 with
    | (Panic p, m1) =>
      match map_drop e bad_node m1 with
      | (Ret _, m2) => (Panic p, m2)
      | (Panic _, m2) => (Abort, m2)
      | x => x
      end
    | x => x
    end
  | x => x
  end.

(** map.rs:785-800 [FromIterator::from_iter] *)
Definition dfrom_iter (e : env) (os : nat -> K -> oracle K) (it : user_iter (K * V)) : res unit * bstmap K V :=
  dbuild e (map_with_capacity e (hint_len it))
    (dinsert_all e os 0 (ui_items it) (ui_panics it)).

(** map.rs:79-97 [clone] *)
Fixpoint dclone_loop (e : env) (os : nat -> K -> oracle K) (ck : nat -> K -> option K) (cv : nat -> V -> option V)
    (src : bstmap K V) (fuel j : nat) (stack : list (Node K V)) : M (bstmap K V) unit :=
  match fuel with
  | O => slift Diverge
  | S fuel =>
    match stack with
    | [] => sret tt
    | node :: stack =>
      match ck j (node_key node) with
      | None => sfail PClone
      | Some k =>
        match cv j (node_value node) with
        | None => unwinding [inl k] (sfail PClone)
        | Some v =>
          let! prev := dinsert e (os j k) k v in
          let! _ := destroy_opt prev in
          let! r := slift (node_right src node) in
          let! l := slift (node_left src node) in
          dclone_loop e os ck cv src fuel (S j) (opt_list l ++ opt_list r ++ stack)
        end
      end
    end
  end.

Definition dclone (e : env) (os : nat -> K -> oracle K) (ck : nat -> K -> option K) (cv : nat -> V -> option V)
    (src : bstmap K V) : res unit * bstmap K V :=
  match map_len e src with
  | Ret n =>
    dbuild e (map_with_capacity e n)
      (let! r := slift (map_root src) in
       dclone_loop e os ck cv src (map_fuel src) 0 (opt_list r))
  | Panic p => (Panic p, map_new)
  | Abort => (Abort, map_new)
  | UB u => (UB u, map_new)
  | Diverge => (Diverge, map_new)
  end.

(** [map = map.clone()]: the old map is dropped; the clone is moved in even if that
    panics. The drop stops at the first node with a bad destructor (slab.rs:235-245),
    which is the last one in the log; if both its key and its value are bad, the
    second panic aborts. *)
Definition dclone_and_replace (e : env) (os : nat -> K -> oracle K) (ck : nat -> K -> option K)
    (cv : nat -> V -> option V) : M (bstmap K V) unit :=
  fun m =>
    match dclone e os ck cv m with
    | (Ret _, m2) =>
      match map_drop e bad_node m with
      | (Ret _, _) => (Ret tt, m2)
      | (Panic p, m1) =>
        match list.last (s_drops (m_nodes m1)) with
        | Some n => if bad (inl (n_key n)) && bad (inr (n_value n)) then (Abort, m1) else (Panic p, m2)
        | None => (Panic p, m2)
        end
      | (r, m1) => (r, m1)
      end
    | (r, _) => (r, m)
    end.

(** Mutable iterators (map/iter_preorder.rs and others), as [mut_step] *)
Definition dmut_step (d : order) (ev : mut_event V) : M (mut_state K V) unit :=
  fun st =>
    match ev with
    | EvNext => mut_step d ev st
    | EvWrite j v =>
      match mu_yielded st !! j with
      | None => (Ret tt, st)
      | Some (p, _) =>
        let '(r, m') := dwrite_value p v (mu_map st) in
        (r, mkMut m' (mu_iter st) (mu_yielded st) (mu_ended st))
      end
    end.

Fixpoint dmut_run (d : order) (evs : list (mut_event V)) : M (mut_state K V) unit :=
  match evs with
  | [] => sret tt
  | ev :: evs => let! _ := dmut_step d ev in dmut_run d evs
  end.

Definition diter_mut (d : order) (evs : list (mut_event V)) : M (bstmap K V) (out K V) :=
  fun m =>
    match iter_start m d with
    | Ret it =>
      let '(r, st) := dmut_run d evs (mkMut m it [] 0) in
      (let* _ := r in Ret (OutMut (mu_yielded st).*2 (mu_ended st)), mu_map st)
    | Panic p => (Panic p, m)
    | Abort => (Abort, m)
    | UB u => (UB u, m)
    | Diverge => (Diverge, m)
    end.

(** The calls of [ModelHistory.v]. Those that destroy nothing are as there. *)
Definition dexec (e : env) (c : op K V) : M (bstmap K V) (out K V) :=
  match c with
  | OInsert o k v => let! r := dinsert e o k v in sret (OutValue r)
  | ORemove o => let! r := dremove e o in sret (OutValue r)
  | OGetMut o w =>
    let! m := sget in
    let! r := slift (map_get_mut m o) in
    match r with
    | None => sret (OutValue None)
    | Some p =>
      let! v := slift (nodemut_value m p) in
      let! _ := opt_dwrite p w in
      sret (OutValue (Some v))
    end
  | OGetEntryMut o w =>
    let! m := sget in
    let! r := slift (map_get_entry_mut m o) in
    match r with
    | None => sret (OutEntry None)
    | Some (k, p) =>
      let! v := slift (nodemut_value m p) in
      let! _ := opt_dwrite p w in
      sret (OutEntry (Some (k, v)))
    end
  | OWalkMut path w =>
    let! m := sget in
    let! r := slift (map_root_mut m) in
    let! n := slift (walk_mut m path r) in
    match n with
    | None => sret (OutNode None)
    | Some p =>
      let! x := slift (show_nodemut m p) in
      let! _ := opt_dwrite p w in
      sret (OutNode (Some x))
    end
  | OClear => let! _ := map_clear e bad_node in sret OutUnit
  | OExtend os it => let! _ := dextend e os it in sret OutUnit
  | OIterMut d evs => diter_mut d evs
  | OClone os ck cv => let! _ := dclone_and_replace e os ck cv in sret OutUnit
  | _ => exec e c
  end.

End drops.

Section drop_history.
Context {K V : Type}.
Implicit Types m : bstmap K V.
Variable leaky : bool.

(** A call, and which destructors panic while it runs. *)
Definition dcall : Type := ((K + V -> bool) * op K V)%type.

Fixpoint drun (e : env) (cs : list dcall) m : list (res (out K V)) * bstmap K V :=
  match cs with
  | [] => ([], m)
  | (bad, c) :: cs =>
    match dexec leaky bad e c m with
    | (Ret x, m') => let '(rs, m'') := drun e cs m' in (Ret x :: rs, m'')
    | (Panic p, m') => let '(rs, m'') := drun e cs m' in (Panic p :: rs, m'')
    | (r, m') => ([r], m')
    end
  end.

Definition dbegin (bad : K + V -> bool) (e : env) (s : start K V) : res unit * bstmap K V :=
  match s with
  | SNew => (Ret tt, map_new)
  | SWithCapacity n => map_with_capacity e n
  | SFromIter os it => dfrom_iter leaky bad e os it
  end.

Definition dreached (e : env) (bad : K + V -> bool) (s : start K V) (cs : list dcall) (rs : list (res (out K V))) m : Prop :=
  exists m0, dbegin bad e s = (Ret tt, m0) /\ drun e cs m0 = (rs, m).

End drop_history.
Arguments dcall : clear implicits.
