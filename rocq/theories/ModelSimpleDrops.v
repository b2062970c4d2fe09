(** * What SimpleBSTMap destroys

    The methods of SimpleBSTMap (simple_bst/src/map.rs, simple_bst/src/map/node.rs)
    that destroy keys and values, with a log of what was destroyed, and with
    destructors that may panic. "map.rs" and "node.rs" are those of simple_bst.

    [bad x] says that the destructor of the key or value [x] panics. A destructor
    that panics still has destroyed its value; what else was to be destroyed is
    destroyed while unwinding, and a second panic aborts the process. [leaky] is as in
    [ModelDrops.v]: a function that panics in the destructor of an argument or local
    when its result is ready does not destroy the result.

    Simplification: the stack is never exhausted by the recursive destructor. *)

From Verif Require Export ModelSimple ModelDrops.
Local Open Scope N_scope.

(** What was destroyed, in this order, and the map. *)
Definition watched (K V : Type) : Type := (list (K + V) * simple K V)%type.

Section drops.
Context {K V : Type}.
Variable leaky : bool.
Variable bad : K + V -> bool.

Definition on_map {A} (f : M (simple K V) A) : M (watched K V) A := zoom snd (fun m s => (s.1, m)) f.

(** The destructor of [x] runs; [unwind]: a panic is being unwound. The result says
    the same for what follows. *)
Definition wdestroy (unwind : bool) (x : K + V) : M (watched K V) bool :=
  let! _ := smod (fun s => (s.1 ++ [x], s.2)) in
  if bad x then (if unwind then slift Abort else sret true) else sret unwind.

Fixpoint wdestroy_all (unwind : bool) (l : list (K + V)) : M (watched K V) bool :=
  match l with
  | [] => sret unwind
  | x :: l => let! u := wdestroy unwind x in wdestroy_all u l
  end.

(** The end of a destruction: go on with the panic, or go on. *)
Definition settle {S A} (unwind : bool) (a : A) : M S A := if unwind then sfail PDrop else sret a.

(** If [f] panics, unwinding runs [clean]. *)
Definition wunwinding {S A} (clean : M S bool) (f : M S A) : M S A :=
  fun s => match f s with
           | (Panic p, s1) => let '(r, s2) := clean s1 in (let* _ := r in Panic p, s2)
           | x => x
           end.

(** The result [x] is ready, then [y] goes out of scope. *)
Definition wreturn_past (x y : K + V) : M (watched K V) unit :=
  let! u := wdestroy false y in
  if u then
    if leaky then sfail PDrop else let! _ := wdestroy true x in sfail PDrop
  else sret tt.

(** The destructor of [Option<Box<Node>>]: the fields in the order of node.rs:4-9,
    then the box is freed. A panic in one field does not keep the others from being
    destroyed, nor the box from being freed. *)
Fixpoint wglue (fuel : nat) (unwind : bool) (b : option Ptr) : M (watched K V) bool :=
  match fuel with
  | O => slift Diverge
  | S fuel =>
    match b with
    | None => sret unwind
    | Some p =>
      let! s := sget in
      let! n := slift (peek s.2 p) in
      let! u := wdestroy_all unwind [inl (n_key n); inr (n_value n)] in
      let! u := wglue fuel u (n_left n) in
      let! u := wglue fuel u (n_right n) in
      let! _ := on_map (unbox p) in
      sret u
    end
  end.

(** The destructor of the map. *)
Definition wdrop_map (unwind : bool) : M (watched K V) bool :=
  let! s := sget in
  wglue (simple_fuel s.2) unwind (simple_root s.2).
Definition wdrop : M (watched K V) unit :=
  let! u := wdrop_map false in settle u tt.

(** map.rs:521-523 [clear]: an assignment. If the destructor of the old value
    panics, the new value is still moved in. *)
Definition wclear : M (watched K V) unit :=
  let! u := wdrop_map false in
  let! _ := on_map (smod (set_len_field 0)) in
  settle u tt.

(** map.rs:264-310 [insert]. When a comparison panics, unwinding destroys both
    arguments. (No other panic happens; see C38.) When the key was there, the given
    key goes out of scope at the end. *)
Definition winsert (e : benv) (o : oracle K) (k : K) (v : V) : M (watched K V) (option V) :=
  let! r := wunwinding (wdestroy_all true [inr v; inl k]) (on_map (simple_insert e o k v)) in
  match r with
  | None => sret None
  | Some prev_value => let! _ := wreturn_past (inr prev_value) (inl k) in sret (Some prev_value)
  end.

(** map.rs:328-333 [remove]: the closure returns the value, then the key of the pair
    goes out of scope. *)
Definition wremove (e : benv) (o : oracle K) : M (watched K V) (option V) :=
  let! r := on_map (simple_remove_entry e o) in
  match r with
  | None => sret None
  | Some (k, v) => let! _ := wreturn_past (inr v) (inl k) in sret (Some v)
  end.

(** An assignment [*r = v] through a [&mut V]. *)
Definition wwrite (p : Ptr) (w : option V) : M (watched K V) unit :=
  match w with
  | None => sret tt
  | Some w =>
    let! s := sget in
    let! n := slift (peek s.2 p) in
    let! _ := on_map (poke p (with_value w)) in
    let! u := wdestroy false (inr (n_value n)) in
    settle u tt
  end.

(** map.rs:619-625 and 627-637: the previous value that [insert] returns is destroyed
    at the end of the statement. *)
Fixpoint winsert_all (e : benv) (os : nat -> K -> oracle K) (j : nat) (items : list (K * V)) (panics : bool)
  : M (watched K V) unit :=
  match items with
  | [] => if panics then sfail PIter else sret tt
  | (k, v) :: items =>
    let! prev := winsert e (os j k) k v in
    let! u := (match prev with Some v => wdestroy false (inr v) | None => sret false end) in
    let! _ := settle u tt in
    winsert_all e os (S j) items panics
  end.
Definition wextend (e : benv) (os : nat -> K -> oracle K) (it : user_iter (K * V)) : M (watched K V) unit :=
  winsert_all e os 0 (ui_items it) (ui_panics it).
(** map.rs:627-637 [from_iter]: unwinding drops the local map. *)
Definition wfrom_iter (e : benv) (os : nat -> K -> oracle K) (it : user_iter (K * V)) : res unit * watched K V :=
  wunwinding (wdrop_map true) (winsert_all e os 0 (ui_items it) (ui_panics it)) ([], simple_new).

(** [derive(Clone)] (node.rs:3), as [clone_box]: when the clone of a field panics, the
    clones of the fields before it are destroyed, the last one first. *)
Definition on_watched {A} (f : M (watched K V) A) : M (nat * watched K V) A := zoom snd (fun w s => (s.1, w)) f.

Fixpoint wclone_box (e : benv) (src : simple K V) (ck : nat -> K -> option K) (cv : nat -> V -> option V)
    (fuel : nat) (b : option Ptr) : M (nat * watched K V) (option (inner K V)) :=
  match fuel with
  | O => slift Diverge
  | S fuel =>
    match b with
    | None => sret None
    | Some p =>
      let! n := slift (peek src p) in
      let! s := sget in
      match ck s.1 (n_key n) with
      | None => sfail PClone
      | Some k =>
        match cv s.1 (n_value n) with
        | None => wunwinding (on_watched (wdestroy true (inl k))) (sfail PClone)
        | Some v =>
          let! _ := smod (fun s => (S s.1, s.2)) in
          wunwinding (on_watched (wdestroy_all true [inr v; inl k]))
            (let! l := wclone_box e src ck cv fuel (n_left n) in
             let! lb := on_watched (on_map (box_opt e l)) in
             let! r := wunwinding (on_watched (let! s := sget in wglue (simple_fuel s.2) true lb))
                         (wclone_box e src ck cv fuel (n_right n)) in
             let! rb := on_watched (on_map (box_opt e r)) in
             sret (Some (mkInner k v lb rb)))
        end
      end
    end
  end.

(** [derive(Clone)] (map.rs:18): the log, and the clone if there is one. *)
Definition wclone (e : benv) (ck : nat -> K -> option K) (cv : nat -> V -> option V) (src : simple K V)
    (log : list (K + V)) : res unit * watched K V :=
  let '(r, s) := wclone_box e src ck cv (simple_fuel src) (simple_root src) (0%nat, (log, simple_new)) in
  (rmap (fun _ => tt) r,
   (s.2.1, set_len_field (s_len src) (match r with
                                      | Ret (Some n) => set_mem (<[root_place := n]> (s_mem s.2.2)) s.2.2
                                      | _ => s.2.2
                                      end))).

(** [map = map.clone()]: the old map is dropped; the clone is moved in even if that
    panics. *)
Definition wclone_and_replace (e : benv) (ck : nat -> K -> option K) (cv : nat -> V -> option V) : M (watched K V) unit :=
  fun s =>
    match wclone e ck cv s.2 s.1 with
    | (Ret _, (log, m2)) =>
      match wdrop_map false (log, s.2) with
      | (Ret u, (log, _)) => settle u tt (log, m2)
      | (r, s1) => (rmap (fun _ => tt) r, s1)
      end
    | (r, (log, _)) => (r, (log, s.2))
    end.

(** The calls of [ModelSimple.v]. Those that destroy nothing are as there. *)
Definition wexec (e : benv) (c : op K V) : M (watched K V) (out K V) :=
  match c with
  | OInsert o k v => let! r := winsert e o k v in sret (OutValue r)
  | ORemove o => let! r := wremove e o in sret (OutValue r)
  | OGetMut o w =>
    let! s := sget in
    let! r := slift (simple_get_mut s.2 o) in
    match r with
    | None => sret (OutValue None)
    | Some p =>
      let! n := slift (peek s.2 p) in
      let! _ := wwrite p w in
      sret (OutValue (Some (n_value n)))
    end
  | OWalkMut path w =>
    let! s := sget in
    let! n := slift (simple_walk s.2 path (simple_root s.2)) in
    match n with
    | None => sret (OutNode None)
    | Some p =>
      let! x := slift (simple_show s.2 p) in
      let! _ := wwrite p w in
      sret (OutNode (Some x))
    end
  | OClear => let! _ := wclear in sret OutUnit
  | OExtend os it => let! _ := wextend e os it in sret OutUnit
  | OClone _ ck cv => let! _ := wclone_and_replace e ck cv in sret OutUnit
  | _ => on_map (simple_exec e c)
  end.

End drops.

Section history.
Context {K V : Type}.
Variable leaky : bool.

Fixpoint wrun (e : benv) (cs : list (dcall K V)) (s : watched K V) : list (res (out K V)) * watched K V :=
  match cs with
  | [] => ([], s)
  | (bad, c) :: cs =>
    match wexec leaky bad e c s with
    | (Ret x, s') => let '(rs, s'') := wrun e cs s' in (Ret x :: rs, s'')
    | (Panic p, s') => let '(rs, s'') := wrun e cs s' in (Panic p :: rs, s'')
    | (r, s') => ([r], s')
    end
  end.

Definition wbegin (bad : K + V -> bool) (e : benv) (s : start K V) : res unit * watched K V :=
  match s with
  | SFromIter os it => wfrom_iter leaky bad e os it
  | _ => (Ret tt, ([], simple_new))
  end.

(** After this history, [log] was destroyed and the map is [m]. *)
Definition wreached (e : benv) (bad : K + V -> bool) (s : start K V) (cs : list (dcall K V))
    (rs : list (res (out K V))) (log : list (K + V)) (m : simple K V) : Prop :=
  exists w0, wbegin bad e s = (Ret tt, w0) /\ wrun e cs w0 = (rs, (log, m)).

End history.
