(** * Equality, as calls to the [PartialEq] of the elements

    [map_eq], [simple_eq], [arena_eq], [node_eq], [nodemut_eq] and [box_eq] take the
    equality of the elements as a function. Here it is code of the user, with a
    state of type [S]: it may count its calls, change its mind and panic. The
    definitions follow those, line by line. [map_eq] and the others are the special
    case of a function without state (C82). *)

From Verif Require Export ModelNodes ModelArena ModelSet.
Local Open Scope N_scope.

Section eq.
Context {K V S : Type}.
Implicit Types eqK : K -> K -> M S bool.
Implicit Types eqV : V -> V -> M S bool.

(** [k1.eq(k2) && v1.eq(v2)] *)
Definition entry_eq eqK eqV (k1 k2 : K) (v1 v2 : V) : M S bool :=
  let! b := eqK k1 k2 in
  if b then eqV v1 v2 else sret false.

(** src/map.rs:99-115 *)
Fixpoint map_eq_loop_with eqK eqV (m1 m2 : bstmap K V) (fuel : nat) (i1 i2 : iter) : M S bool :=
  match fuel with
  | O => slift Diverge
  | Datatypes.S fuel =>
    let '(x1, i1) := inorder_next m1 i1 in
    let! x1 := slift x1 in
    match x1 with
    | None => sret true
    | Some (_, (k1, v1)) =>
      let '(x2, i2) := inorder_next m2 i2 in
      let! x2 := slift x2 in
      match x2 with
      | None => sret true
      | Some (_, (k2, v2)) =>
        let! b := entry_eq eqK eqV k1 k2 v1 v2 in
        if b then map_eq_loop_with eqK eqV m1 m2 fuel i1 i2 else sret false
      end
    end
  end.
Definition map_eq_with (e : env) eqK eqV (m1 m2 : bstmap K V) : M S bool :=
  let! l1 := slift (map_len e m1) in
  let! l2 := slift (map_len e m2) in
  if negb (l1 =? l2) then sret false
  else
    let! i1 := slift (iter_start m1 In) in
    let! i2 := slift (iter_start m2 In) in
    map_eq_loop_with eqK eqV m1 m2 (map_fuel m1) i1 i2.

(** src/map/node.rs:35-47 *)
Definition node_eq_with eqK eqV (same_map : bool) (n1 n2 : Node K V) : M S bool :=
  if same_map && bool_decide (nd_ptr n1 = nd_ptr n2) then sret true
  else entry_eq eqK eqV (node_key n1) (node_key n2) (node_value n1) (node_value n2).

(** src/map/node.rs:123-135 *)
Definition nodemut_eq_with eqK eqV (same_map : bool) (m1 m2 : bstmap K V) (n1 n2 : NodeMut) : M S bool :=
  if same_map && bool_decide (n1 = n2) then sret true
  else
    let! k1 := slift (nodemut_key m1 n1) in
    let! k2 := slift (nodemut_key m2 n2) in
    let! b := eqK k1 k2 in
    if b then
      let! v1 := slift (nodemut_value m1 n1) in
      let! v2 := slift (nodemut_value m2 n2) in
      eqV v1 v2
    else sret false.

(** simple_bst/src/map.rs:34-50 *)
Fixpoint simple_eq_loop_with eqK eqV (m1 m2 : simple K V) (fuel : nat) (i1 i2 : siter) : M S bool :=
  match fuel with
  | O => slift Diverge
  | Datatypes.S fuel =>
    let '(x1, i1) := sin_next m1 i1 in
    let! x1 := slift x1 in
    match x1 with
    | None => sret true
    | Some (k1, v1) =>
      let '(x2, i2) := sin_next m2 i2 in
      let! x2 := slift x2 in
      match x2 with
      | None => sret true
      | Some (k2, v2) =>
        let! b := entry_eq eqK eqV k1 k2 v1 v2 in
        if b then simple_eq_loop_with eqK eqV m1 m2 fuel i1 i2 else sret false
      end
    end
  end.
Definition simple_eq_with eqK eqV (m1 m2 : simple K V) : M S bool :=
  if negb (s_len m1 =? s_len m2) then sret false
  else
    let! i1 := slift (sin_new m1) in
    let! i2 := slift (sin_new m2) in
    simple_eq_loop_with eqK eqV m1 m2 (simple_fuel m1) i1 i2.

(** simple_bst/src/map/node.rs:3 (derived) *)
Fixpoint box_eq_with eqK eqV (m1 m2 : simple K V) (fuel : nat) (b1 b2 : option Ptr) : M S bool :=
  match fuel with
  | O => slift Diverge
  | Datatypes.S fuel =>
    match b1, b2 with
    | None, None => sret true
    | Some p1, Some p2 =>
      let! n1 := slift (peek m1 p1) in
      let! n2 := slift (peek m2 p2) in
      let! b := entry_eq eqK eqV (n_key n1) (n_key n2) (n_value n1) (n_value n2) in
      if b then
        let! l := box_eq_with eqK eqV m1 m2 fuel (n_left n1) (n_left n2) in
        if l then box_eq_with eqK eqV m1 m2 fuel (n_right n1) (n_right n2) else sret false
      else sret false
    | _, _ => sret false
    end
  end.
Definition simple_node_eq_with eqK eqV (m1 m2 : simple K V) (p1 p2 : Ptr) : M S bool :=
  box_eq_with eqK eqV m1 m2 (simple_fuel m1) (Some p1) (Some p2).
End eq.

Section eq.
Context {T S : Type}.
Implicit Types eqT : T -> T -> M S bool.

(** [() == ()] *)
Definition unit_eq : unit -> unit -> M S bool := fun _ _ => sret true.

(** src/set.rs:56-60, src/set/node.rs:4, simple_bst/src/set.rs:41-45,
    simple_bst/src/set/node.rs:4 *)
Definition bstset_eq_with (e : env) eqT (m1 m2 : bstset T) : M S bool := map_eq_with e eqT unit_eq m1 m2.
Definition setnode_eq_with eqT (same_set : bool) (n1 n2 : SetNode T) : M S bool :=
  node_eq_with eqT unit_eq same_set n1 n2.
Definition sset_eq_with eqT (m1 m2 : sset T) : M S bool := simple_eq_with eqT unit_eq m1 m2.
Definition ssetnode_eq_with eqT (m1 m2 : sset T) (p1 p2 : Ptr) : M S bool :=
  simple_node_eq_with eqT unit_eq m1 m2 p1 p2.

(** src/arena.rs:164-172 *)
Fixpoint arena_eq_loop_with eqT (e : env) (fuel : nat) (a1 a2 : arena T) (r1 r2 : range) : M S bool :=
  match fuel with
  | O => slift Diverge
  | Datatypes.S fuel =>
    let '(x1, r1') := next_ptr e a1 r1 in
    let! x1 := slift x1 in
    match x1 with
    | None => sret true
    | Some (_, v1) =>
      let '(x2, r2') := next_ptr e a2 r2 in
      let! x2 := slift x2 in
      match x2 with
      | None => sret true
      | Some (_, v2) =>
        let! b := eqT v1 v2 in
        if b then arena_eq_loop_with eqT e fuel a1 a2 r1' r2' else sret false
      end
    end
  end.
Definition arena_eq_with eqT (e : env) (a1 a2 : arena T) : M S bool :=
  if negb (arena_len a1 =? arena_len a2) then sret false
  else arena_eq_loop_with eqT e (Datatypes.S (N.to_nat (arena_len a1))) a1 a2 (iter_new a1) (iter_new a2).
End eq.
