(** * Model of src/map.rs and src/map/node.rs (BSTMap, Node, NodeMut) *)

From Verif Require Export ModelSlab.
Local Open Scope N_scope.

(** map.rs:21-26 [InnerNode] *)
Record inner (K V : Type) := mkInner {
  n_key : K;
  n_value : V;
  n_left : option Ptr;
  n_right : option Ptr;
}.
Arguments mkInner {K V}.
Arguments n_key {K V}.
Arguments n_value {K V}.
Arguments n_left {K V}.
Arguments n_right {K V}.

(** map.rs:54-57 [BSTMap]. [m_drops] is a ghost log of the keys ([inl]) and
    values ([inr]) dropped by map methods themselves, outside of the slab. *)
Record bstmap (K V : Type) := mkMap {
  m_nodes : slab (inner K V);
  m_root : option Ptr;
  m_drops : list (K + V);
}.
Arguments mkMap {K V}.
Arguments m_nodes {K V}.
Arguments m_root {K V}.
Arguments m_drops {K V}.

(** The answers of [Ord::cmp] during one call: [o i k] is the result of the
    [i]-th comparison of the call, of the searched key with the stored key [k];
    [None] means that [cmp] panics. A lawful order does not depend on [i]; a
    broken one may answer anything. *)
Definition oracle (K : Type) : Type := nat -> K -> option comparison.

Definition ask {K} (o : oracle K) (i : nat) (k : K) : res comparison :=
  match o i k with
  | Some c => Ret c
  | None => Panic PCmp
  end.

Section map.
Context {K V : Type}.
Implicit Types m : bstmap K V.

Definition set_nodes (s : slab (inner K V)) m : bstmap K V := mkMap s (m_root m) (m_drops m).
Definition set_root (r : option Ptr) m : bstmap K V := mkMap (m_nodes m) r (m_drops m).
Definition log_drops (d : list (K + V)) m : bstmap K V :=
  mkMap (m_nodes m) (m_root m) (m_drops m ++ d).

(** Running a slab method on [self.nodes]. *)
Definition on_nodes {A} (f : M (slab (inner K V)) A) : M (bstmap K V) A := zoom m_nodes set_nodes f.

(** map.rs:32-41 [InnerNode::new] *)
Definition inner_new (k : K) (v : V) : inner K V := mkInner k v None None.

(** map.rs:59-66, 131-133 [default], [new] *)
Definition map_new : bstmap K V := mkMap slab_new None [].

(** map.rs:146-151 [with_capacity] *)
Definition map_with_capacity (e : env) (capacity : N) : res unit * bstmap K V :=
  let '(r, s) := slab_with_capacity e capacity in (r, mkMap s None []).

(** map.rs:168-170 [len], 186-188 [capacity] *)
Definition map_len (e : env) m : res N := slab_len e (m_nodes m).
Definition map_capacity m : N := slab_capacity (m_nodes m).

(** map.rs:204-207 [is_empty] *)
Definition map_is_empty (e : env) m : res bool :=
  let* b := (if e_chk e then
               let* b := slab_is_empty e (m_nodes m) in
               dassert (e_chk e) (eqb b (match m_root m with None => true | Some _ => false end))
             else Ret tt) in
  slab_is_empty e (m_nodes m).

(** ** Node (node.rs:9-95)

    [nodes] is the map's slab; the reference [node] is kept as address and
    contents (the map cannot change while a [Node] exists). *)
Record Node := mkNode { nd_ptr : Ptr; nd_inner : inner K V }.

(** node.rs:57-62 [Node::new] *)
Definition node_new m (p : Ptr) : res Node :=
  let* n := slab_get (m_nodes m) p in Ret (mkNode p n).

Definition opt_node m (p : option Ptr) : res (option Node) :=
  match p with
  | None => Ret None
  | Some p => let* n := node_new m p in Ret (Some n)
  end.

(** node.rs:65-94 *)
Definition node_key (n : Node) : K := n_key (nd_inner n).
Definition node_value (n : Node) : V := n_value (nd_inner n).
Definition node_has_left (n : Node) : bool :=
  match n_left (nd_inner n) with Some _ => true | None => false end.
Definition node_has_right (n : Node) : bool :=
  match n_right (nd_inner n) with Some _ => true | None => false end.
Definition node_left m (n : Node) : res (option Node) := opt_node m (n_left (nd_inner n)).
Definition node_right m (n : Node) : res (option Node) := opt_node m (n_right (nd_inner n)).

(** map.rs:734-737 [root] *)
Definition map_root m : res (option Node) := opt_node m (m_root m).

(** node.rs:35-47 [PartialEq for Node].
    [same_map] is [ptr::eq(self.nodes, other.nodes)]. *)
Definition node_eq (eqK : K -> K -> bool) (eqV : V -> V -> bool) (same_map : bool) (n1 n2 : Node) : bool :=
  let ptr_eq := same_map && bool_decide (nd_ptr n1 = nd_ptr n2) in
  ptr_eq || (eqK (node_key n1) (node_key n2) && eqV (node_value n1) (node_value n2)).

(** Number of loop iterations that is always enough: one per slot and one. *)
Definition map_fuel m : nat := S (N.to_nat (arena_len (s_items (m_nodes m)))).

(** map.rs:226-240 [contains_key] *)
Fixpoint contains_loop m (o : oracle K) (fuel i : nat) (current : option Node) : res bool :=
  match fuel with
  | O => Diverge
  | S fuel =>
    match current with
    | None => Ret false
    | Some node =>
      let* c := ask o i (node_key node) in
      match c with
      | Lt => let* cur := node_left m node in contains_loop m o fuel (S i) cur
      | Gt => let* cur := node_right m node in contains_loop m o fuel (S i) cur
      | Eq => Ret true
      end
    end
  end.
Definition map_contains_key m (o : oracle K) : res bool :=
  let* r := map_root m in contains_loop m o (map_fuel m) 0 r.

(** map.rs:260-274 [get]. The reference [&V] is modelled by the value and the
    address of its node. *)
Fixpoint get_loop m (o : oracle K) (fuel i : nat) (current : option Node) : res (option (Ptr * V)) :=
  match fuel with
  | O => Diverge
  | S fuel =>
    match current with
    | None => Ret None
    | Some node =>
      let* c := ask o i (node_key node) in
      match c with
      | Lt => let* cur := node_left m node in get_loop m o fuel (S i) cur
      | Gt => let* cur := node_right m node in get_loop m o fuel (S i) cur
      | Eq => Ret (Some (nd_ptr node, node_value node))
      end
    end
  end.
Definition map_get_ref m (o : oracle K) : res (option (Ptr * V)) :=
  let* r := map_root m in get_loop m o (map_fuel m) 0 r.
Definition map_get m (o : oracle K) : res (option V) :=
  let* x := map_get_ref m o in Ret (snd <$> x).

(** map.rs:333-347 [get_entry] *)
Fixpoint get_entry_loop m (o : oracle K) (fuel i : nat) (current : option Node)
  : res (option (Ptr * (K * V))) :=
  match fuel with
  | O => Diverge
  | S fuel =>
    match current with
    | None => Ret None
    | Some node =>
      let* c := ask o i (node_key node) in
      match c with
      | Lt => let* cur := node_left m node in get_entry_loop m o fuel (S i) cur
      | Gt => let* cur := node_right m node in get_entry_loop m o fuel (S i) cur
      | Eq => Ret (Some (nd_ptr node, (node_key node, node_value node)))
      end
    end
  end.
Definition map_get_entry_ref m (o : oracle K) : res (option (Ptr * (K * V))) :=
  let* r := map_root m in get_entry_loop m o (map_fuel m) 0 r.
Definition map_get_entry m (o : oracle K) : res (option (K * V)) :=
  let* x := map_get_entry_ref m o in Ret (snd <$> x).

(** ** NodeMut (node.rs:97-265)

    A [NodeMut] is a mutable reference to a node: the model keeps its address
    and reads the memory whenever a field is used. *)
Definition NodeMut : Type := Ptr.

(** node.rs:148-157 [NodeMut::new]: forming the reference needs a valid node. *)
Definition nodemut_new m (p : Ptr) : res NodeMut :=
  let* _ := slab_get (m_nodes m) p in Ret p.

Definition opt_nodemut m (p : option Ptr) : res (option NodeMut) :=
  match p with
  | None => Ret None
  | Some p => let* n := nodemut_new m p in Ret (Some n)
  end.

(** node.rs:160-192 [key], [value], [has_left], [has_right] *)
Definition nodemut_key m (n : NodeMut) : res K := rmap n_key (slab_get (m_nodes m) n).
Definition nodemut_value m (n : NodeMut) : res V := rmap n_value (slab_get (m_nodes m) n).
Definition nodemut_has_left m (n : NodeMut) : res bool :=
  rmap (fun x => match n_left x with Some _ => true | None => false end) (slab_get (m_nodes m) n).
Definition nodemut_has_right m (n : NodeMut) : res bool :=
  rmap (fun x => match n_right x with Some _ => true | None => false end) (slab_get (m_nodes m) n).

(** node.rs:195-224 [left], [into_left], [right], [into_right] *)
Definition nodemut_left m (n : NodeMut) : res (option NodeMut) :=
  let* x := slab_get (m_nodes m) n in opt_nodemut m (n_left x).
Definition nodemut_right m (n : NodeMut) : res (option NodeMut) :=
  let* x := slab_get (m_nodes m) n in opt_nodemut m (n_right x).

Definition with_left (p : option Ptr) (n : inner K V) : inner K V :=
  mkInner (n_key n) (n_value n) p (n_right n).
Definition with_right (p : option Ptr) (n : inner K V) : inner K V :=
  mkInner (n_key n) (n_value n) (n_left n) p.
Definition with_value (v : V) (n : inner K V) : inner K V :=
  mkInner (n_key n) v (n_left n) (n_right n).

(** node.rs:227-234 [set_left], [set_right] *)
Definition nodemut_set_left (n : NodeMut) (p : Ptr) : M (bstmap K V) unit :=
  let! _ := on_nodes (slab_update n (with_left (Some p))) in sret tt.
Definition nodemut_set_right (n : NodeMut) (p : Ptr) : M (bstmap K V) unit :=
  let! _ := on_nodes (slab_update n (with_right (Some p))) in sret tt.

(** node.rs:238-258 [push_left], [push_right] *)
Definition nodemut_push_left (e : env) (n : NodeMut) (k : K) (v : V) : M (bstmap K V) Ptr :=
  let! p := on_nodes (slab_push e (inner_new k v)) in
  let! _ := nodemut_set_left n p in
  sret p.
Definition nodemut_push_right (e : env) (n : NodeMut) (k : K) (v : V) : M (bstmap K V) Ptr :=
  let! p := on_nodes (slab_push e (inner_new k v)) in
  let! _ := nodemut_set_right n p in
  sret p.

(** node.rs:262-264 [replace_value]: [mem::replace] returns the old value. *)
Definition nodemut_replace_value (n : NodeMut) (v : V) : M (bstmap K V) V :=
  let! x := on_nodes (slab_update n (with_value v)) in
  sret (n_value x).

(** An assignment [*r = v] by the caller through a [&mut V] obtained from
    [value_mut], [into_value_mut], [into_entry_mut], [get_mut], or a mutable
    iterator (node.rs:170-182): the old value is dropped. *)
Definition write_value (n : NodeMut) (v : V) : M (bstmap K V) unit :=
  let! x := on_nodes (slab_update n (with_value v)) in
  smod (log_drops [inr (n_value x)]).

(** map.rs:747-750 [root_mut] *)
Definition map_root_mut m : res (option NodeMut) := opt_nodemut m (m_root m).

(** map.rs:299-313 [get_mut]: returns the address of the [&mut V]. *)
Fixpoint get_mut_loop m (o : oracle K) (fuel i : nat) (current : option NodeMut) : res (option Ptr) :=
  match fuel with
  | O => Diverge
  | S fuel =>
    match current with
    | None => Ret None
    | Some node =>
      let* k := nodemut_key m node in
      let* c := ask o i k in
      match c with
      | Lt => let* cur := nodemut_left m node in get_mut_loop m o fuel (S i) cur
      | Gt => let* cur := nodemut_right m node in get_mut_loop m o fuel (S i) cur
      | Eq => Ret (Some node)
      end
    end
  end.
Definition map_get_mut m (o : oracle K) : res (option Ptr) :=
  let* r := map_root_mut m in get_mut_loop m o (map_fuel m) 0 r.

(** map.rs:372-386 [get_entry_mut] *)
Fixpoint get_entry_mut_loop m (o : oracle K) (fuel i : nat) (current : option NodeMut)
  : res (option (K * Ptr)) :=
  match fuel with
  | O => Diverge
  | S fuel =>
    match current with
    | None => Ret None
    | Some node =>
      let* k := nodemut_key m node in
      let* c := ask o i k in
      match c with
      | Lt => let* cur := nodemut_left m node in get_entry_mut_loop m o fuel (S i) cur
      | Gt => let* cur := nodemut_right m node in get_entry_mut_loop m o fuel (S i) cur
      | Eq => let* k := nodemut_key m node in Ret (Some (k, node))
      end
    end
  end.
Definition map_get_entry_mut m (o : oracle K) : res (option (K * Ptr)) :=
  let* r := map_root_mut m in get_entry_mut_loop m o (map_fuel m) 0 r.

(** map.rs:417-445, the loop of [insert]. In the [Equal] case the argument [key]
    is dropped when the function returns. *)
Fixpoint insert_loop (e : env) (o : oracle K) (fuel i : nat) (k : K) (v : V) (current : option NodeMut)
  : M (bstmap K V) (option V) :=
  match fuel with
  | O => slift Diverge
  | S fuel =>
    match current with
    | None => sret None
    | Some node =>
      let! m := sget in
      let! nk := slift (nodemut_key m node) in
      let! c := slift (ask o i nk) in
      match c with
      | Lt =>
        let! hl := slift (nodemut_has_left m node) in
        if negb hl then
          let! _ := nodemut_push_left e node k v in sret None
        else
          let! cur := slift (nodemut_left m node) in
          insert_loop e o fuel (S i) k v cur
      | Gt =>
        let! hr := slift (nodemut_has_right m node) in
        if negb hr then
          let! _ := nodemut_push_right e node k v in sret None
        else
          let! cur := slift (nodemut_right m node) in
          insert_loop e o fuel (S i) k v cur
      | Eq =>
        let! prev_value := nodemut_replace_value node v in
        let! _ := smod (log_drops [inl k]) in
        sret (Some prev_value)
      end
    end
  end.

(** map.rs:407-446 [insert]. If a comparison or the allocation panics, the
    arguments [key] and [value] are dropped by unwinding. *)
Definition bstmap_insert (e : env) (o : oracle K) (k : K) (v : V) : M (bstmap K V) (option V) :=
  on_panic (log_drops [inl k; inr v])
    (let! m := sget in
     let! r := slift (map_root_mut m) in
     match r with
     | Some root => insert_loop e o (map_fuel m) 0 k v (Some root)
     | None =>
       let! p := on_nodes (slab_push e (inner_new k v)) in
       let! _ := smod (set_root (Some p)) in
       sret None
     end).

(** map.rs:494-511, the search loop of [remove_entry]: returns (parent, current). *)
Fixpoint remove_find m (o : oracle K) (fuel i : nat) (parent current : option Ptr)
  : res (option Ptr * option Ptr) :=
  match fuel with
  | O => Diverge
  | S fuel =>
    match current with
    | None => Ret (parent, current)
    | Some ptr =>
      let* node := slab_get (m_nodes m) ptr in
      let* c := ask o i (n_key node) in
      match c with
      | Lt => remove_find m o fuel (S i) current (n_left node)
      | Gt => remove_find m o fuel (S i) current (n_right node)
      | Eq => Ret (parent, current)
      end
    end
  end.

(** map.rs:540-552, the loop that finds the in-order successor and its parent. *)
Fixpoint succ_loop m (fuel : nat) (inorder_succ_parent inorder_succ : Ptr) : res (Ptr * Ptr) :=
  match fuel with
  | O => Diverge
  | S fuel =>
    let* inorder_succ_node := slab_get (m_nodes m) inorder_succ in
    match n_left inorder_succ_node with
    | Some inorder_succ_left => succ_loop m fuel inorder_succ inorder_succ_left
    | None => Ret (inorder_succ_parent, inorder_succ)
    end
  end.

(** Assignments [node.left = p] and [node.right = p] through
    [get_unchecked_mut] (map.rs:571, 578, 594, 610, 615). *)
Definition store_left (n : Ptr) (p : option Ptr) : M (bstmap K V) unit :=
  let! _ := on_nodes (slab_update n (with_left p)) in sret tt.
Definition store_right (n : Ptr) (p : option Ptr) : M (bstmap K V) unit :=
  let! _ := on_nodes (slab_update n (with_right p)) in sret tt.

(** map.rs:518-599: compute [replace_with]. *)
Definition remove_replacement (ptr : Ptr) : M (bstmap K V) (option Ptr) :=
  let! m := sget in
  let! node := slift (slab_get (m_nodes m) ptr) in
  match n_left node, n_right node with
  | None, None => sret None
  | Some child_ptr, None => sret (Some child_ptr)
  | None, Some child_ptr => sret (Some child_ptr)
  | Some left_ptr, Some right_ptr =>
    let! right_child := slift (slab_get (m_nodes m) right_ptr) in
    let! inorder_succ :=
      (match n_left right_child with
       | Some right_child_left =>
         let! '(inorder_succ_parent, inorder_succ) :=
           slift (succ_loop m (map_fuel m) right_ptr right_child_left) in
         let! inorder_succ_node := slift (slab_get (m_nodes m) inorder_succ) in
         let inorder_succ_right := n_right inorder_succ_node in
         let! _ := store_left inorder_succ_parent inorder_succ_right in
         let! _ := store_right inorder_succ (Some right_ptr) in
         sret inorder_succ
       | None => sret right_ptr
       end) in
    let! _ := store_left inorder_succ (Some left_ptr) in
    sret (Some inorder_succ)
  end.

(** map.rs:487-631 [remove_entry] *)
Definition map_remove_entry (e : env) (o : oracle K) : M (bstmap K V) (option (K * V)) :=
  let! m := sget in
  let! '(parent, current) := slift (remove_find m o (map_fuel m) 0 None (m_root m)) in
  match current with
  | None => sret None
  | Some ptr =>
    let! replace_with := remove_replacement ptr in
    let! _ :=
      (match parent with
       | Some parent_ptr =>
         let! m := sget in
         let! parent_node := slift (slab_get (m_nodes m) parent_ptr) in
         if bool_decide (n_left parent_node = current) then store_left parent_ptr replace_with
         else store_right parent_ptr replace_with
       | None => smod (set_root replace_with)
       end) in
    let! node := on_nodes (slab_remove e ptr) in
    sret (Some (n_key node, n_value node))
  end.

(** map.rs:464-469 [remove]: the key is dropped. *)
Definition map_remove (e : env) (o : oracle K) : M (bstmap K V) (option V) :=
  let! r := map_remove_entry e o in
  match r with
  | None => sret None
  | Some (k, v) => let! _ := smod (log_drops [inl k]) in sret (Some v)
  end.

(** map.rs:650-655 [clear] *)
Definition map_clear (e : env) (panics : inner K V -> bool) : M (bstmap K V) unit :=
  let! _ := on_nodes (slab_clear e panics) in
  smod (set_root None).

(** map.rs:758-767 [reserve], [shrink_to_fit] *)
Definition map_reserve (e : env) (additional : N) : M (bstmap K V) unit :=
  on_nodes (slab_reserve e additional).
Definition map_shrink_to_fit (e : env) : M (bstmap K V) unit :=
  on_nodes (slab_shrink_to_fit e).

(** Dropping a map drops its field [nodes] (slab.rs:289-298). *)
Definition map_drop (e : env) (panics : inner K V -> bool) : M (bstmap K V) unit :=
  on_nodes (slab_drop e panics).

(** ** Iterator arguments

    What [extend] and [collect] see of a user iterator: its [size_hint], the
    items it yields, and whether it then panics instead of returning [None]. *)
Record user_iter (A : Type) := mkUserIter {
  ui_lo : N;
  ui_hi : option N;
  ui_items : list A;
  ui_panics : bool;
}.
Arguments mkUserIter {A}.
Arguments ui_lo {A}.
Arguments ui_hi {A}.
Arguments ui_items {A}.
Arguments ui_panics {A}.

Definition hint_len {A} (it : user_iter A) : N :=
  match ui_hi it with Some n => n | None => ui_lo it end.

(** map.rs:779-781 and 794-796: the insertion loop. [os j k] answers the
    comparisons made while inserting the [j]-th item, whose key is [k]. A
    returned previous value is dropped at once. *)
Fixpoint insert_all (e : env) (os : nat -> K -> oracle K) (j : nat) (items : list (K * V)) (panics : bool)
  : M (bstmap K V) unit :=
  match items with
  | [] => if panics then sfail PIter else sret tt
  | (k, v) :: items =>
    let! prev := bstmap_insert e (os j k) k v in
    let! _ := smod (log_drops (match prev with Some v => [inr v] | None => [] end)) in
    insert_all e os (S j) items panics
  end.

(** map.rs:770-783 [Extend::extend] *)
Definition map_extend (e : env) (os : nat -> K -> oracle K) (it : user_iter (K * V)) : M (bstmap K V) unit :=
  let! _ := map_reserve e (hint_len it) in
  insert_all e os 0 (ui_items it) (ui_panics it).

(** Run a constructor that builds a local map; on a panic the local map is
    dropped by unwinding. *)
Definition build (e : env) (start : res unit * bstmap K V) (body : M (bstmap K V) unit) : res unit * bstmap K V :=
  match start with
  | (Ret _, m0) =>
    match body m0 with
    | (Panic p, m1) =>
      match map_drop e (fun _ => false) m1 with
      | (Ret _, m2) => (Panic p, m2)
      | x => x
      end
    | x => x
    end
  | x => x
  end.

(** map.rs:785-800 [FromIterator::from_iter] *)
Definition map_from_iter (e : env) (os : nat -> K -> oracle K) (it : user_iter (K * V)) : res unit * bstmap K V :=
  build e (map_with_capacity e (hint_len it))
    (insert_all e os 0 (ui_items it) (ui_panics it)).

(** ** Clone (map.rs:79-97)

    [ck j k] and [cv j v] are the results of cloning the key and the value of
    the [j]-th visited node ([None]: the clone panics). The stack holds [Node]s;
    the head of the list is the top. *)
Definition opt_list {A} (o : option A) : list A := match o with Some x => [x] | None => [] end.

Fixpoint clone_loop (e : env) (os : nat -> K -> oracle K) (ck : nat -> K -> option K) (cv : nat -> V -> option V)
    (src : bstmap K V) (fuel j : nat) (stack : list Node) : M (bstmap K V) unit :=
  match fuel with
  | O => slift Diverge
  | S fuel =>
    match stack with
    | [] => sret tt
    | node :: stack =>
      match ck j (node_key node) with
      | None => sfail PClone
      | Some k =>
        match cv j (node_value node) with
        | None => let! _ := smod (log_drops [inl k]) in sfail PClone
        | Some v =>
          let! prev := bstmap_insert e (os j k) k v in
          let! _ := smod (log_drops (match prev with Some v => [inr v] | None => [] end)) in
          let! r := slift (node_right src node) in
          let! l := slift (node_left src node) in
          clone_loop e os ck cv src fuel (S j) (opt_list l ++ opt_list r ++ stack)
        end
      end
    end
  end.

(** The result is the outcome and the local map [cloned]. *)
Definition map_clone (e : env) (os : nat -> K -> oracle K) (ck : nat -> K -> option K) (cv : nat -> V -> option V)
    (src : bstmap K V) : res unit * bstmap K V :=
  match map_len e src with
  | Ret n =>
    build e (map_with_capacity e n)
      (let! r := slift (map_root src) in
       clone_loop e os ck cv src (map_fuel src) 0 (opt_list r))
  | Panic p => (Panic p, map_new)
  | Abort => (Abort, map_new)
  | UB u => (UB u, map_new)
  | Diverge => (Diverge, map_new)
  end.

End map.
Arguments user_iter A : clear implicits.
Arguments mkUserIter {A}.
Arguments ui_lo {A}.
Arguments ui_hi {A}.
Arguments ui_items {A}.
Arguments ui_panics {A}.
Arguments Node : clear implicits.
