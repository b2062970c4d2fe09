(** * Model of simple_bst/src/map.rs and simple_bst/src/map/*.rs: SimpleBSTMap

    The tree of boxes that /repo uses to test [BSTMap]. In this file
    "map.rs", "node.rs", ... are the files of simple_bst/src and simple_bst/src/map.

    Memory: a [Node] lives in a box, in the field [root] of the map, or in the
    local variable [right_child] of [remove_entry]. [s_mem] gives the node at each
    of these places. A reference or raw pointer to a node is the address of its
    place; reading through an address where no node lives is undefined behaviour.
    A node by value (being moved) is not in [s_mem]; its child boxes are. The type
    [inner] (key, value, and the addresses of the child boxes) is shared with
    [BSTMap], whose nodes have the same fields.

    Simplifications: the stack is never exhausted by the recursive destructor,
    [Clone], [Debug] and [PartialEq] of nodes. Which keys and values get dropped, and
    destructors that panic, are in [ModelSimpleDrops.v]. *)

From Coq Require Import String.
From Verif Require Export ModelHistory.
Local Open Scope N_scope.

(** [b_chk]: build profile. [b_addr serial]: the address the allocator picks for
    the [serial]-th box, [None] if it has no memory (then the process aborts). *)
Record benv := BEnv { b_chk : bool; b_addr : N -> option N }.

Definition boxed (a : N) : Ptr := (0, a).
Definition root_place : Ptr := (1, 0).
Definition right_child_place : Ptr := (2, 0).

(** map.rs:18-23 [struct SimpleBSTMap]. The field [root] is the node at
    [root_place], if any. [s_boxes] counts the allocations (ghost). *)
Record simple (K V : Type) := mkSimple {
  s_mem : gmap Ptr (inner K V);
  s_len : N;
  s_boxes : N;
}.
Arguments mkSimple {K V}.
Arguments s_mem {K V}.
Arguments s_len {K V}.
Arguments s_boxes {K V}.

Section simple.
Context {K V : Type}.
Implicit Types m : simple K V.

Definition set_mem (h : gmap Ptr (inner K V)) m : simple K V := mkSimple h (s_len m) (s_boxes m).
Definition set_len_field (n : N) m : simple K V := mkSimple (s_mem m) n (s_boxes m).

(** Reading the node at an address. *)
Definition peek m (p : Ptr) : res (inner K V) :=
  match s_mem m !! p with Some n => Ret n | None => UB UDangling end.

(** Assigning to the node at an address, through a reference or a pointer. *)
Definition poke (p : Ptr) (f : inner K V -> inner K V) : M (simple K V) unit :=
  let! m := sget in
  let! n := slift (peek m p) in
  smod (set_mem (<[p := f n]> (s_mem m))).

(** Initialising a place, and moving the node out of it. *)
Definition place (p : Ptr) (n : inner K V) : M (simple K V) unit :=
  smod (fun m => set_mem (<[p := n]> (s_mem m)) m).
Definition move_out (p : Ptr) : M (simple K V) (inner K V) :=
  let! m := sget in
  let! n := slift (peek m p) in
  let! _ := smod (set_mem (delete p (s_mem m))) in
  sret n.

(** An address that is not in use. *)
Definition unused m : N := 1 + foldr N.max 0 ((map_to_list (s_mem m)).*1.*2).

(** [Box::new(n)]. The allocator may reuse addresses, but never hands out one
    that is in use. A box takes at least 16 bytes (its two child pointers), so at
    most [2^60] boxes fit in the address space. *)
Definition box_new (e : benv) (n : inner K V) : M (simple K V) Ptr :=
  let! m := sget in
  if 2 ^ 60 <=? N.of_nat (size (s_mem m)) then slift Abort
  else
    match b_addr e (s_boxes m) with
    | None => slift Abort
    | Some a =>
      let p := boxed (match s_mem m !! boxed a with Some _ => unused m | None => a end) in
      let! _ := smod (fun m => mkSimple (<[p := n]> (s_mem m)) (s_len m) (s_boxes m + 1)) in
      sret p
    end.

(** [*b] for a box [b]: move the node out, free the box. *)
Definition unbox (p : Ptr) : M (simple K V) (inner K V) := move_out p.

(** [o.map(Box::new)] and [o.map(|node| *node)] *)
Definition box_opt (e : benv) (o : option (inner K V)) : M (simple K V) (option Ptr) :=
  match o with Some n => let! p := box_new e n in sret (Some p) | None => sret None end.
Definition unbox_opt (o : option Ptr) : M (simple K V) (option (inner K V)) :=
  match o with Some p => let! n := unbox p in sret (Some n) | None => sret None end.

(** ** node.rs *)

(** node.rs:12-19 is [inner_new]; the accessors of node.rs:25-59 read the fields.
    node.rs:61-63 [take_left], 65-67 [take_right] *)
Definition take_left (p : Ptr) : M (simple K V) (option (inner K V)) :=
  let! m := sget in
  let! n := slift (peek m p) in
  let! _ := poke p (with_left None) in
  unbox_opt (n_left n).
Definition take_right (p : Ptr) : M (simple K V) (option (inner K V)) :=
  let! m := sget in
  let! n := slift (peek m p) in
  let! _ := poke p (with_right None) in
  unbox_opt (n_right n).

(** node.rs:70-73 [set_left], 76-79 [set_right], on a node in memory *)
Definition set_left (e : benv) (p : Ptr) (new_node : inner K V) : M (simple K V) unit :=
  let! m := sget in
  let! n := slift (peek m p) in
  let! _ := slift (dassert (b_chk e) (match n_left n with None => true | Some _ => false end)) in
  let! b := box_new e new_node in
  poke p (with_left (Some b)).
Definition set_right (e : benv) (p : Ptr) (new_node : inner K V) : M (simple K V) unit :=
  let! m := sget in
  let! n := slift (peek m p) in
  let! _ := slift (dassert (b_chk e) (match n_right n with None => true | Some _ => false end)) in
  let! b := box_new e new_node in
  poke p (with_right (Some b)).

(** The same on a node in a local variable whose address is not taken. *)
Definition set_left_val (e : benv) (n new_node : inner K V) : M (simple K V) (inner K V) :=
  let! _ := slift (dassert (b_chk e) (match n_left n with None => true | Some _ => false end)) in
  let! b := box_new e new_node in
  sret (with_left (Some b) n).
Definition set_right_val (e : benv) (n new_node : inner K V) : M (simple K V) (inner K V) :=
  let! _ := slift (dassert (b_chk e) (match n_right n with None => true | Some _ => false end)) in
  let! b := box_new e new_node in
  sret (with_right (Some b) n).

(** node.rs:82-84 [replace_left], 87-89 [replace_right] *)
Definition replace_left (e : benv) (p : Ptr) (new_node : option (inner K V)) : M (simple K V) (option (inner K V)) :=
  let! b := box_opt e new_node in
  let! m := sget in
  let! n := slift (peek m p) in
  let! _ := poke p (with_left b) in
  unbox_opt (n_left n).
Definition replace_right (e : benv) (p : Ptr) (new_node : option (inner K V)) : M (simple K V) (option (inner K V)) :=
  let! b := box_opt e new_node in
  let! m := sget in
  let! n := slift (peek m p) in
  let! _ := poke p (with_right b) in
  unbox_opt (n_right n).

Definition unwrap {A} (o : option A) : M (simple K V) A :=
  match o with Some x => sret x | None => sfail PUnwrap end.

(** ** map.rs *)

(** map.rs:25-32, 63-65 *)
Definition simple_new : simple K V := mkSimple ∅ 0 0.
(** map.rs:82-84 *)
Definition simple_len m : N := s_len m.
(** map.rs:602-604, 614-616 [root], [root_mut] *)
Definition simple_root m : option Ptr :=
  match s_mem m !! root_place with Some _ => Some root_place | None => None end.
(** map.rs:100-103 *)
Definition simple_is_empty (e : benv) m : res bool :=
  let* _ := dassert (b_chk e) (negb (s_len m =? 0) || match simple_root m with None => true | Some _ => false end) in
  Ret (s_len m =? 0).

(** The fuel of the loops: a tree is not higher than it has nodes. *)
Definition simple_fuel m : nat := S (size (s_mem m)).

(** map.rs:122-136 [contains_key] *)
Fixpoint simple_contains_loop m (o : oracle K) (fuel i : nat) (current : option Ptr) : res bool :=
  match fuel with
  | O => Diverge
  | S fuel =>
    match current with
    | None => Ret false
    | Some p =>
      let* node := peek m p in
      let* c := ask o i (n_key node) in
      match c with
      | Lt => simple_contains_loop m o fuel (S i) (n_left node)
      | Gt => simple_contains_loop m o fuel (S i) (n_right node)
      | Eq => Ret true
      end
    end
  end.
Definition simple_contains_key m (o : oracle K) : res bool :=
  simple_contains_loop m o (simple_fuel m) 0 (simple_root m).

(** map.rs:156-170 [get] *)
Fixpoint simple_get_loop m (o : oracle K) (fuel i : nat) (current : option Ptr) : res (option V) :=
  match fuel with
  | O => Diverge
  | S fuel =>
    match current with
    | None => Ret None
    | Some p =>
      let* node := peek m p in
      let* c := ask o i (n_key node) in
      match c with
      | Lt => simple_get_loop m o fuel (S i) (n_left node)
      | Gt => simple_get_loop m o fuel (S i) (n_right node)
      | Eq => Ret (Some (n_value node))
      end
    end
  end.
Definition simple_get m (o : oracle K) : res (option V) :=
  simple_get_loop m o (simple_fuel m) 0 (simple_root m).

(** map.rs:195-209 [get_mut]: the address of the node whose value is returned. *)
Fixpoint simple_get_mut_loop m (o : oracle K) (fuel i : nat) (current : option Ptr) : res (option Ptr) :=
  match fuel with
  | O => Diverge
  | S fuel =>
    match current with
    | None => Ret None
    | Some p =>
      let* node := peek m p in
      let* c := ask o i (n_key node) in
      match c with
      | Lt => simple_get_mut_loop m o fuel (S i) (n_left node)
      | Gt => simple_get_mut_loop m o fuel (S i) (n_right node)
      | Eq => Ret (Some p)
      end
    end
  end.
Definition simple_get_mut m (o : oracle K) : res (option Ptr) :=
  simple_get_mut_loop m o (simple_fuel m) 0 (simple_root m).

(** map.rs:229-243 [get_entry] *)
Fixpoint simple_get_entry_loop m (o : oracle K) (fuel i : nat) (current : option Ptr) : res (option (K * V)) :=
  match fuel with
  | O => Diverge
  | S fuel =>
    match current with
    | None => Ret None
    | Some p =>
      let* node := peek m p in
      let* c := ask o i (n_key node) in
      match c with
      | Lt => simple_get_entry_loop m o fuel (S i) (n_left node)
      | Gt => simple_get_entry_loop m o fuel (S i) (n_right node)
      | Eq => Ret (Some (n_key node, n_value node))
      end
    end
  end.
Definition simple_get_entry m (o : oracle K) : res (option (K * V)) :=
  simple_get_entry_loop m o (simple_fuel m) 0 (simple_root m).

(** [self.len += 1], [self.len -= 1] *)
Definition len_add_one (e : benv) : M (simple K V) unit :=
  let! m := sget in
  let! n := slift (uadd (b_chk e) (s_len m) 1) in
  smod (set_len_field n).
Definition len_sub_one (e : benv) : M (simple K V) unit :=
  let! m := sget in
  let! n := slift (usub (b_chk e) (s_len m) 1) in
  smod (set_len_field n).

(** map.rs:278-306, the loop of [insert] *)
Fixpoint simple_insert_loop (e : benv) (o : oracle K) (fuel i : nat) (k : K) (v : V) (current : option Ptr)
  : M (simple K V) (option V) :=
  match fuel with
  | O => slift Diverge
  | S fuel =>
    match current with
    | None => sret None
    | Some p =>
      let! m := sget in
      let! node := slift (peek m p) in
      let! c := slift (ask o i (n_key node)) in
      match c with
      | Lt =>
        match n_left node with
        | None =>
          let! _ := set_left e p (inner_new k v) in
          let! _ := len_add_one e in
          sret None
        | Some q => simple_insert_loop e o fuel (S i) k v (Some q)
        end
      | Gt =>
        match n_right node with
        | None =>
          let! _ := set_right e p (inner_new k v) in
          let! _ := len_add_one e in
          sret None
        | Some q => simple_insert_loop e o fuel (S i) k v (Some q)
        end
      | Eq =>
        let! _ := poke p (with_value v) in
        sret (Some (n_value node))
      end
    end
  end.

(** map.rs:264-310 [insert] *)
Definition simple_insert (e : benv) (o : oracle K) (k : K) (v : V) : M (simple K V) (option V) :=
  let! m := sget in
  match simple_root m with
  | Some root => simple_insert_loop e o (simple_fuel m) 0 k v (Some root)
  | None =>
    let! _ := place root_place (inner_new k v) in
    let! m := sget in
    let! _ := slift (dassert (b_chk e) (s_len m =? 0)) in
    let! _ := smod (set_len_field 1) in
    sret None
  end.

(** map.rs:367-389, the search of [remove_entry]; [None] is the null pointer. *)
Fixpoint simple_remove_find m (o : oracle K) (fuel i : nat) (parent current : option Ptr)
  : res (option Ptr * option Ptr) :=
  match fuel with
  | O => Diverge
  | S fuel =>
    match current with
    | None => Ret (parent, current)
    | Some p =>
      let* node := peek m p in
      let* c := ask o i (n_key node) in
      match c with
      | Lt => simple_remove_find m o fuel (S i) current (n_left node)
      | Gt => simple_remove_find m o fuel (S i) current (n_right node)
      | Eq => Ret (parent, current)
      end
    end
  end.

(** map.rs:412-425, the search of the in-order successor and its parent *)
Fixpoint simple_succ_loop m (fuel : nat) (inorder_succ_parent inorder_succ : Ptr) : res (Ptr * Ptr) :=
  match fuel with
  | O => Diverge
  | S fuel =>
    let* node := peek m inorder_succ in
    match n_left node with
    | Some inorder_succ_left => simple_succ_loop m fuel inorder_succ inorder_succ_left
    | None => Ret (inorder_succ_parent, inorder_succ)
    end
  end.

(** map.rs:396-471: the node that replaces the one at [current]. *)
Definition simple_replacement (e : benv) (current : Ptr) : M (simple K V) (option (inner K V)) :=
  let! l := take_left current in
  let! r := take_right current in
  match l, r with
  | None, None => sret None
  | Some child, None => sret (Some child)
  | None, Some child => sret (Some child)
  | Some left_child, Some right_child =>
    let! _ := place right_child_place right_child in
    let! inorder_succ_node :=
      (match n_left right_child with
       | Some right_child_left =>
         let! m := sget in
         let! '(inorder_succ_parent, inorder_succ) :=
           slift (simple_succ_loop m (simple_fuel m) right_child_place right_child_left) in
         let! inorder_succ_right := take_right inorder_succ in
         let! old := replace_left e inorder_succ_parent inorder_succ_right in
         let! inorder_succ_node := unwrap old in
         let! right_child := move_out right_child_place in
         set_right_val e inorder_succ_node right_child
       | None => move_out right_child_place
       end) in
    let! inorder_succ_node := set_left_val e inorder_succ_node left_child in
    sret (Some inorder_succ_node)
  end.

(** map.rs:351-506 [remove_entry]. [into_inner] (node.rs:21-23) also drops the
    children of the removed node, which were taken. *)
Definition simple_remove_entry (e : benv) (o : oracle K) : M (simple K V) (option (K * V)) :=
  let! m := sget in
  match simple_root m with
  | None => sret None
  | Some root =>
    let! '(parent, current) := slift (simple_remove_find m o (simple_fuel m) 0 None (Some root)) in
    match current with
    | None => sret None
    | Some cur =>
      let! _ := len_sub_one e in
      let! replace_with := simple_replacement e cur in
      match parent with
      | Some par =>
        let! m := sget in
        let! parent_node := slift (peek m par) in
        let! old := (if bool_decide (n_left parent_node = Some cur) then replace_left e par replace_with
                     else replace_right e par replace_with) in
        let! node := unwrap old in
        sret (Some (n_key node, n_value node))
      | None =>
        let! m := sget in
        let! node := unwrap (s_mem m !! root_place) in
        let! _ := smod (set_mem (match replace_with with
                                 | Some n => <[root_place := n]> (s_mem m)
                                 | None => delete root_place (s_mem m)
                                 end)) in
        sret (Some (n_key node, n_value node))
      end
    end
  end.

(** map.rs:328-333 [remove] *)
Definition simple_remove (e : benv) (o : oracle K) : M (simple K V) (option V) :=
  let! r := simple_remove_entry e o in sret (option_map snd r).

(** The destructor of [Option<Box<Node>>]: the children, then the box. *)
Fixpoint drop_box (fuel : nat) (b : option Ptr) : M (simple K V) unit :=
  match fuel with
  | O => slift Diverge
  | S fuel =>
    match b with
    | None => sret tt
    | Some p =>
      let! m := sget in
      let! n := slift (peek m p) in
      let! _ := drop_box fuel (n_left n) in
      let! _ := drop_box fuel (n_right n) in
      let! _ := unbox p in
      sret tt
    end
  end.

(** The destructor of the map. *)
Definition simple_drop : M (simple K V) unit :=
  let! m := sget in
  drop_box (simple_fuel m) (simple_root m).

(** map.rs:521-523 [clear]: the old value is dropped. *)
Definition simple_clear : M (simple K V) unit :=
  let! _ := simple_drop in
  smod (set_len_field 0).

(** map.rs:619-625, 627-637: the insertion loop, as in [insert_all]. *)
Fixpoint simple_insert_all (e : benv) (os : nat -> K -> oracle K) (j : nat) (items : list (K * V)) (panics : bool)
  : M (simple K V) unit :=
  match items with
  | [] => if panics then sfail PIter else sret tt
  | (k, v) :: items =>
    let! _ := simple_insert e (os j k) k v in
    simple_insert_all e os (S j) items panics
  end.
Definition simple_extend (e : benv) (os : nat -> K -> oracle K) (it : user_iter (K * V)) : M (simple K V) unit :=
  simple_insert_all e os 0 (ui_items it) (ui_panics it).
Definition simple_from_iter (e : benv) (os : nat -> K -> oracle K) (it : user_iter (K * V)) : res unit * simple K V :=
  simple_insert_all e os 0 (ui_items it) (ui_panics it) simple_new.

(** ** [derive(Clone)] (map.rs:18, node.rs:3)

    Key, value, left child, right child. [ck j k] and [cv j v] clone the key and
    the value of the [j]-th visited node. The clone is a new map; the number of
    visited nodes is part of the state. *)
Fixpoint clone_box (e : benv) (src : simple K V) (ck : nat -> K -> option K) (cv : nat -> V -> option V)
    (fuel : nat) (b : option Ptr) : M (nat * simple K V) (option (inner K V)) :=
  match fuel with
  | O => slift Diverge
  | S fuel =>
    match b with
    | None => sret None
    | Some p =>
      let! n := slift (peek src p) in
      let! s := sget in
      match ck s.1 (n_key n), cv s.1 (n_value n) with
      | Some k, Some v =>
        let! _ := smod (fun s => (S s.1, s.2)) in
        let! l := clone_box e src ck cv fuel (n_left n) in
        let! lb := zoom snd (fun m s => (s.1, m)) (box_opt e l) in
        let! r := clone_box e src ck cv fuel (n_right n) in
        let! rb := zoom snd (fun m s => (s.1, m)) (box_opt e r) in
        sret (Some (mkInner k v lb rb))
      | _, _ => sfail PClone
      end
    end
  end.

Definition simple_clone (e : benv) (ck : nat -> K -> option K) (cv : nat -> V -> option V) (src : simple K V)
  : res unit * simple K V :=
  match clone_box e src ck cv (simple_fuel src) (simple_root src) (0%nat, simple_new) with
  | (Ret (Some n), (_, m)) => (Ret tt, set_len_field (s_len src) (set_mem (<[root_place := n]> (s_mem m)) m))
  | (Ret None, (_, m)) => (Ret tt, set_len_field (s_len src) m)
  | (Panic p, (_, m)) => (Panic p, m)
  | (Abort, (_, m)) => (Abort, m)
  | (UB u, (_, m)) => (UB u, m)
  | (Diverge, (_, m)) => (Diverge, m)
  end.

(** ** Iterators: the stack of references, its top first *)
Definition siter : Type := list Ptr.

Definition s_push (p : Ptr) : M siter unit := smod (cons p).
Definition s_extend (o : option Ptr) : M siter unit := smod (push_opt o).
Definition s_pop : M siter (option Ptr) :=
  fun st => match st with [] => (Ret None, []) | p :: st => (Ret (Some p), st) end.

(** preorder.rs:10-14 [new], 21-26 [next] *)
Definition spre_new m : res siter := Ret (opt_list (simple_root m)).
Definition spre_next m : M siter (option (K * V)) :=
  let! top := s_pop in
  match top with
  | None => sret None
  | Some p =>
    let! node := slift (peek m p) in
    let! _ := s_extend (n_right node) in
    let! _ := s_extend (n_left node) in
    sret (Some (n_key node, n_value node))
  end.

(** The loops of inorder.rs:13-17 and 30-34 *)
Fixpoint sin_descend m (fuel : nat) (current : option Ptr) : M siter unit :=
  match fuel with
  | O => slift Diverge
  | S fuel =>
    match current with
    | None => sret tt
    | Some p =>
      let! _ := s_push p in
      let! node := slift (peek m p) in
      sin_descend m fuel (n_left node)
    end
  end.
(** inorder.rs:11-20 [new], 27-37 [next] *)
Definition sin_new m : res siter :=
  let '(r, st) := sin_descend m (simple_fuel m) (simple_root m) [] in rmap (fun _ => st) r.
Definition sin_next m : M siter (option (K * V)) :=
  let! top := s_pop in
  match top with
  | None => sret None
  | Some p =>
    let! node := slift (peek m p) in
    let! _ := sin_descend m (simple_fuel m) (n_right node) in
    sret (Some (n_key node, n_value node))
  end.

(** postorder.rs:14-20 *)
Fixpoint spost_descend m (fuel : nat) (current : option Ptr) : M siter unit :=
  match fuel with
  | O => slift Diverge
  | S fuel =>
    match current with
    | None => sret tt
    | Some p =>
      let! node := slift (peek m p) in
      let! _ := s_extend (n_right node) in
      let! _ := s_push p in
      spost_descend m fuel (n_left node)
    end
  end.
(** postorder.rs:12-23 [new] *)
Definition spost_new m : res siter :=
  let '(r, st) := spost_descend m (simple_fuel m) (simple_root m) [] in rmap (fun _ => st) r.
(** postorder.rs:27-31 [node_eq]: equal addresses *)
Definition top_eq (right : Ptr) : M siter bool :=
  fun st => (Ret (match st with [] => false | p :: _ => bool_decide (p = right) end), st).
(** postorder.rs:54-64, the inner loop *)
Fixpoint spost_inner m (fuel : nat) (node : Ptr) : M siter unit :=
  match fuel with
  | O => slift Diverge
  | S fuel =>
    let! n := slift (peek m node) in
    let! _ := s_extend (n_right n) in
    let! _ := s_push node in
    match n_left n with
    | Some l => spost_inner m fuel l
    | None => sret tt
    end
  end.
(** postorder.rs:37-69 [next] *)
Fixpoint spost_next_loop m (fuel : nat) : M siter (option (K * V)) :=
  match fuel with
  | O => slift Diverge
  | S fuel =>
    let! top := s_pop in
    match top with
    | None => sret None
    | Some p =>
      let! node := slift (peek m p) in
      let! b := (match n_right node with Some q => top_eq q | None => sret false end) in
      match n_right node, b with
      | Some q, true =>
        let! _ := s_pop in
        let! _ := s_push p in
        let! _ := spost_inner m (simple_fuel m) q in
        spost_next_loop m fuel
      | _, _ => sret (Some (n_key node, n_value node))
      end
    end
  end.
Definition spost_next m : M siter (option (K * V)) := spost_next_loop m (simple_fuel m).

(** map.rs:526-538 *)
Definition simple_iter_start m (d : order) : res siter :=
  match d with Pre => spre_new m | In => sin_new m | Post => spost_new m end.
Definition simple_iter_next m (d : order) : M siter (option (K * V)) :=
  match d with Pre => spre_next m | In => sin_next m | Post => spost_next m end.

Fixpoint simple_nexts {A} (next : M siter (option A)) (n : nat) : M siter (list (option A)) :=
  match n with
  | O => sret []
  | S n =>
    let! x := next in
    let! xs := simple_nexts next n in
    sret (x :: xs)
  end.

(** map.rs:541-553: [iter_mut_*] return [std::iter::from_fn(|| todo!())]. The
    program of [ModelIter.v] that uses such an iterator: its first [next] panics;
    there is never a reference to write through. *)
Fixpoint simple_mut_run (evs : list (mut_event V)) : res (out K V) :=
  match evs with
  | [] => Ret (OutMut [] 0)
  | EvNext :: _ => Panic PTodo
  | EvWrite _ _ :: evs => simple_mut_run evs
  end.

(** ** PartialEq (map.rs:34-50) *)
Fixpoint simple_eq_loop (eqK : K -> K -> bool) (eqV : V -> V -> bool) (m1 m2 : simple K V)
    (fuel : nat) (i1 i2 : siter) : res bool :=
  match fuel with
  | O => Diverge
  | S fuel =>
    let '(x1, i1) := sin_next m1 i1 in
    let* x1 := x1 in
    match x1 with
    | None => Ret true
    | Some (k1, v1) =>
      let '(x2, i2) := sin_next m2 i2 in
      let* x2 := x2 in
      match x2 with
      | None => Ret true
      | Some (k2, v2) =>
        if eqK k1 k2 && eqV v1 v2 then simple_eq_loop eqK eqV m1 m2 fuel i1 i2
        else Ret false
      end
    end
  end.
Definition simple_eq (eqK : K -> K -> bool) (eqV : V -> V -> bool) (m1 m2 : simple K V) : res bool :=
  if negb (s_len m1 =? s_len m2) then Ret false
  else
    let* i1 := sin_new m1 in
    let* i2 := sin_new m2 in
    simple_eq_loop eqK eqV m1 m2 (simple_fuel m1) i1 i2.

(** ** Debug (map.rs:18, node.rs:3: derived) *)
Fixpoint box_debug m (fuel : nat) (b : option Ptr) : res (dbg K V) :=
  match fuel with
  | O => Diverge
  | S fuel =>
    match b with
    | None => Ret DNone
    | Some p =>
      let* n := peek m p in
      let* l := box_debug m fuel (n_left n) in
      let* r := box_debug m fuel (n_right n) in
      Ret (DSome (DStruct "Node" [("key", DKey (n_key n)); ("value", DValue (n_value n));
                                  ("left", l); ("right", r)]))%string
    end
  end.
Definition simple_debug m : res (dbg K V) :=
  let* r := box_debug m (simple_fuel m) (simple_root m) in
  Ret (DStruct "SimpleBSTMap" [("root", r); ("len", DNum (s_len m))])%string.

(** ** Walking with [left]/[right] or [left_mut]/[right_mut] (node.rs:45-59) *)
Fixpoint simple_walk m (path : list dir) (n : option Ptr) : res (option Ptr) :=
  match path, n with
  | [], _ => Ret n
  | _, None => Ret None
  | GoLeft :: path, Some p => let* n := peek m p in simple_walk m path (n_left n)
  | GoRight :: path, Some p => let* n := peek m p in simple_walk m path (n_right n)
  end.
Definition simple_show m (p : Ptr) : res (shown K V) :=
  let* n := peek m p in
  Ret (n_key n, n_value n, bool_decide (is_Some (n_left n)), bool_decide (is_Some (n_right n))).

(** ** Programs

    The calls of [ModelHistory.v]. SimpleBSTMap has no [get_entry_mut],
    [capacity], [reserve] and [shrink_to_fit]; [simple_has] says which calls exist. *)
Definition simple_has (c : op K V) : bool :=
  match c with
  | OGetEntryMut _ _ | OCapacity | OReserve _ | OShrink => false
  | _ => true
  end.

Definition opt_poke (p : Ptr) (w : option V) : M (simple K V) unit :=
  match w with Some w => poke p (with_value w) | None => sret tt end.

Definition simple_exec (e : benv) (c : op K V) : M (simple K V) (out K V) :=
  match c with
  | OInsert o k v => let! r := simple_insert e o k v in sret (OutValue r)
  | ORemove o => let! r := simple_remove e o in sret (OutValue r)
  | ORemoveEntry o => let! r := simple_remove_entry e o in sret (OutEntry r)
  | OGet o => let! m := sget in let! r := slift (simple_get m o) in sret (OutValue r)
  | OGetEntry o => let! m := sget in let! r := slift (simple_get_entry m o) in sret (OutEntry r)
  | OContains o => let! m := sget in let! r := slift (simple_contains_key m o) in sret (OutBool r)
  | OGetMut o w =>
    let! m := sget in
    let! r := slift (simple_get_mut m o) in
    match r with
    | None => sret (OutValue None)
    | Some p =>
      let! n := slift (peek m p) in
      let! _ := opt_poke p w in
      sret (OutValue (Some (n_value n)))
    end
  | OLen => let! m := sget in sret (OutNum (simple_len m))
  | OIsEmpty => let! m := sget in let! b := slift (simple_is_empty e m) in sret (OutBool b)
  | OClear => let! _ := simple_clear in sret OutUnit
  | OExtend os it => let! _ := simple_extend e os it in sret OutUnit
  | OIter d n =>
    let! m := sget in
    let! it := slift (simple_iter_start m d) in
    let! l := slift (fst (simple_nexts (simple_iter_next m d) n it)) in
    sret (OutSeq l)
  | OIterMut d evs => slift (simple_mut_run evs)
  | OWalk path =>
    let! m := sget in
    let! n := slift (simple_walk m path (simple_root m)) in
    match n with
    | None => sret (OutNode None)
    | Some p => let! x := slift (simple_show m p) in sret (OutNode (Some x))
    end
  | OWalkMut path w =>
    let! m := sget in
    let! n := slift (simple_walk m path (simple_root m)) in
    match n with
    | None => sret (OutNode None)
    | Some p =>
      let! x := slift (simple_show m p) in
      let! _ := opt_poke p w in
      sret (OutNode (Some x))
    end
  | ODebug => let! m := sget in let! d := slift (simple_debug m) in sret (OutDebug d)
  | OClone _ ck cv => fun m =>
    match simple_clone e ck cv m with
    | (Ret _, m2) =>
      match simple_drop m with
      | (Ret _, _) => (Ret OutUnit, m2)
      | (Panic p, m1) => (Panic p, m1)
      | (Abort, m1) => (Abort, m1)
      | (UB u, m1) => (UB u, m1)
      | (Diverge, m1) => (Diverge, m1)
      end
    | (Panic p, _) => (Panic p, m)
    | (Abort, _) => (Abort, m)
    | (UB u, _) => (UB u, m)
    | (Diverge, _) => (Diverge, m)
    end
  | OGetEntryMut _ _ | OCapacity | OReserve _ | OShrink => sret OutUnit (* no such method *)
  end.

Fixpoint simple_run (e : benv) (cs : list (op K V)) m : list (res (out K V)) * simple K V :=
  match cs with
  | [] => ([], m)
  | c :: cs =>
    match simple_exec e c m with
    | (Ret x, m') => let '(rs, m'') := simple_run e cs m' in (Ret x :: rs, m'')
    | (Panic p, m') => let '(rs, m'') := simple_run e cs m' in (Panic p :: rs, m'')
    | (r, m') => ([r], m')
    end
  end.

(** How a SimpleBSTMap comes into being: [new] or [from_iter]. *)
Definition simple_has_start (s : start K V) : bool :=
  match s with SWithCapacity _ => false | _ => true end.
Definition simple_begin (e : benv) (s : start K V) : res unit * simple K V :=
  match s with
  | SFromIter os it => simple_from_iter e os it
  | _ => (Ret tt, simple_new)
  end.

Definition simple_reached (e : benv) (s : start K V) (cs : list (op K V)) (rs : list (res (out K V))) m : Prop :=
  exists m0, simple_begin e s = (Ret tt, m0) /\ simple_run e cs m0 = (rs, m).

End simple.
