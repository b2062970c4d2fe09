(** * What the sets destroy

    The methods of BSTSet (src/set.rs) and SimpleBSTSet (simple_bst/src/set.rs) with
    destructors that may panic, on top of [ModelDrops.v] and [ModelSimpleDrops.v].
    [bad x] says that the destructor of the value [x] panics. The map under a set
    holds the values as keys; [()] has no destructor, so that it does not matter whether
    a compiler leaks it: [leaky] is [true] here. *)

From Verif Require Export ModelSet ModelSimpleSet ModelDrops ModelSimpleDrops.
Local Open Scope N_scope.

(** A call, and which destructors panic while it runs. *)
Definition set_dcall (T : Type) : Type := ((T -> bool) * set_op T)%type.

Section sets.
Context {T : Type}.

Definition bad_item (bad : T -> bool) (x : T + unit) : bool :=
  match x with inl x => bad x | inr _ => false end.

(** ** BSTSet *)
Section bst.
Variable bad : T -> bool.

(** src/set.rs:221-223 [insert] *)
Definition dset_insert (e : env) (o : oracle T) (x : T) : M (bstset T) bool :=
  let! r := dinsert true (bad_item bad) e o x tt in
  sret (match r with None => true | Some _ => false end).

(** src/set.rs:240-245 [remove]: what [take] returned goes out of scope. *)
Definition dset_remove (e : env) (o : oracle T) : M (bstset T) bool :=
  let! r := set_take e o in
  match r with
  | None => sret false
  | Some x => let! _ := destroy (bad_item bad) (inl x) in sret true
  end.

(** src/set.rs:372-376 [extend] *)
Definition dset_extend (e : env) (os : nat -> T -> oracle T) (it : user_iter T) : M (bstset T) unit :=
  dextend true (bad_item bad) e os (with_units it).

(** src/set.rs:378-384 [from_iter] *)
Definition dset_from_iter (e : env) (os : nat -> T -> oracle T) (it : user_iter T) : res unit * bstset T :=
  dfrom_iter true (bad_item bad) e os (with_units it).

(** [set = set.clone()], with src/set.rs:48-54 [clone] *)
Definition dset_clone_and_replace (e : env) (os : nat -> T -> oracle T) (ck : nat -> T -> option T) : M (bstset T) unit :=
  dclone_and_replace true (bad_item bad) e os ck (fun _ _ => Some tt).

(** The calls of [ModelSet.v]. Those that destroy nothing are as there. *)
Definition dset_exec (e : env) (c : set_op T) : M (bstset T) (set_out T) :=
  match c with
  | SetInsert o x => let! b := dset_insert e o x in sret (SetBool b)
  | SetRemove o => let! b := dset_remove e o in sret (SetBool b)
  | SetClear => let! _ := set_clear e (bad_node (bad_item bad)) in sret SetUnit
  | SetExtend os it => let! _ := dset_extend e os it in sret SetUnit
  | SetClone os ck => let! _ := dset_clone_and_replace e os ck in sret SetUnit
  | _ => set_exec e c
  end.

Definition dset_begin (e : env) (s : set_start T) : res unit * bstset T :=
  match s with
  | SetFromIter os it => dset_from_iter e os it
  | _ => set_begin e s
  end.

(** ** SimpleBSTSet ("set.rs" is simple_bst/src/set.rs) *)

(** set.rs:168-170 [insert] *)
Definition wset_insert (e : benv) (o : oracle T) (x : T) : M (watched T unit) bool :=
  let! r := winsert true (bad_item bad) e o x tt in
  sret (match r with None => true | Some _ => false end).

(** set.rs:187-192 [remove]: what [take] returned goes out of scope. *)
Definition wset_remove (e : benv) (o : oracle T) : M (watched T unit) bool :=
  let! r := on_map (sset_take e o) in
  match r with
  | None => sret false
  | Some x => let! u := wdestroy (bad_item bad) false (inl x) in settle u true
  end.

(** set.rs:298-302 [extend] *)
Definition wset_extend (e : benv) (os : nat -> T -> oracle T) (it : user_iter T) : M (watched T unit) unit :=
  wextend true (bad_item bad) e os (with_units it).

(** set.rs:304-310 [from_iter] *)
Definition wset_from_iter (e : benv) (os : nat -> T -> oracle T) (it : user_iter T) : res unit * watched T unit :=
  wfrom_iter true (bad_item bad) e os (with_units it).

(** [set = set.clone()], with the derived [Clone] (set.rs:18) *)
Definition wset_clone_and_replace (e : benv) (ck : nat -> T -> option T) : M (watched T unit) unit :=
  wclone_and_replace (bad_item bad) e ck (fun _ _ => Some tt).

(** The destructor of the set, and set.rs:229-231 [clear] *)
Definition wset_drop : M (watched T unit) unit := wdrop (bad_item bad).
Definition wset_clear : M (watched T unit) unit := wclear (bad_item bad).

(** The calls of [ModelSimpleSet.v]. Those that destroy nothing are as there. *)
Definition wset_exec (e : benv) (c : set_op T) : M (watched T unit) (set_out T) :=
  match c with
  | SetInsert o x => let! b := wset_insert e o x in sret (SetBool b)
  | SetRemove o => let! b := wset_remove e o in sret (SetBool b)
  | SetClear => let! _ := wset_clear in sret SetUnit
  | SetExtend os it => let! _ := wset_extend e os it in sret SetUnit
  | SetClone _ ck => let! _ := wset_clone_and_replace e ck in sret SetUnit
  | _ => on_map (sset_exec e c)
  end.

Definition wset_begin (e : benv) (s : set_start T) : res unit * watched T unit :=
  match s with
  | SetFromIter os it => wset_from_iter e os it
  | _ => (Ret tt, ([], sset_new))
  end.

End bst.

(** ** Histories *)

Fixpoint dset_run (e : env) (cs : list (set_dcall T)) m : list (res (set_out T)) * bstset T :=
  match cs with
  | [] => ([], m)
  | (bad, c) :: cs =>
    match dset_exec bad e c m with
    | (Ret x, m') => let '(rs, m'') := dset_run e cs m' in (Ret x :: rs, m'')
    | (Panic p, m') => let '(rs, m'') := dset_run e cs m' in (Panic p :: rs, m'')
    | (r, m') => ([r], m')
    end
  end.

Definition dset_reached (e : env) (bad : T -> bool) (s : set_start T) (cs : list (set_dcall T))
    (rs : list (res (set_out T))) (m : bstset T) : Prop :=
  exists m0, dset_begin bad e s = (Ret tt, m0) /\ dset_run e cs m0 = (rs, m).

Fixpoint wset_run (e : benv) (cs : list (set_dcall T)) (s : watched T unit) : list (res (set_out T)) * watched T unit :=
  match cs with
  | [] => ([], s)
  | (bad, c) :: cs =>
    match wset_exec bad e c s with
    | (Ret x, s') => let '(rs, s'') := wset_run e cs s' in (Ret x :: rs, s'')
    | (Panic p, s') => let '(rs, s'') := wset_run e cs s' in (Panic p :: rs, s'')
    | (r, s') => ([r], s')
    end
  end.

(** After this history, [log] was destroyed and the set is [m]. *)
Definition wset_reached (e : benv) (bad : T -> bool) (s : set_start T) (cs : list (set_dcall T))
    (rs : list (res (set_out T))) (log : list (T + unit)) (m : sset T) : Prop :=
  exists w0, wset_begin bad e s = (Ret tt, w0) /\ wset_run e cs w0 = (rs, (log, m)).

End sets.
