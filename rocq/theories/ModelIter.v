(** * Model of src/map/{preorder,inorder,postorder}.rs, and of the trait
    implementations of src/map.rs that use the iterators *)

From Verif Require Export ModelMap.
From Coq Require Import String.
Local Open Scope N_scope.

(** The changing part of an iterator: [it_stack] is the field [stack: Vec<Ptr>]
    (head of the list = top of the stack). [it_reads] is a ghost log of the
    addresses read with [get_unchecked]/[get_unchecked_mut], oldest first. *)
Record iter := mkIter { it_stack : list Ptr; it_reads : list Ptr }.

(** [self.stack.extend(o)] for an [Option<Ptr>] *)
Definition push_opt (o : option Ptr) (st : list Ptr) : list Ptr :=
  match o with Some p => p :: st | None => st end.

Section iter.
Context {K V : Type}.
Implicit Types m : bstmap K V.

(** [nodes.get_unchecked(ptr)] or [nodes.get_unchecked_mut(ptr)] by an iterator. *)
Definition it_read m (p : Ptr) : M iter (inner K V) :=
  fun it => (slab_get (m_nodes m) p, mkIter (it_stack it) (it_reads it ++ [p])).

Definition it_push (p : Ptr) : M iter unit :=
  smod (fun it => mkIter (p :: it_stack it) (it_reads it)).
Definition it_extend (o : option Ptr) : M iter unit :=
  smod (fun it => mkIter (push_opt o (it_stack it)) (it_reads it)).
Definition it_pop : M iter (option Ptr) :=
  fun it => match it_stack it with
            | [] => (Ret None, it)
            | p :: st => (Ret (Some p), mkIter st (it_reads it))
            end.

(** What an iterator yields: the address of the node and the entry behind the
    references [(&K, &V)] or [(&K, &mut V)]. *)
Definition item : Type := (Ptr * (K * V))%type.
Definition item_of (p : Ptr) (n : inner K V) : item := (p, (n_key n, n_value n)).

(** ** Pre-order *)

(** preorder.rs:14-19 and 45-51 [new] *)
Definition preorder_new m : res iter := Ret (mkIter (opt_list (m_root m)) []).

(** preorder.rs:26-33 [IterPreorder::next] *)
Definition preorder_next m : M iter (option item) :=
  let! top := it_pop in
  match top with
  | None => sret None
  | Some top_ptr =>
    let! node := it_read m top_ptr in
    let! _ := it_extend (n_right node) in
    let! _ := it_extend (n_left node) in
    sret (Some (item_of top_ptr node))
  end.

(** preorder.rs:58-72 [IterMutPreorder::next] *)
Definition preorder_mut_next m : M iter (option item) :=
  let! top := it_pop in
  match top with
  | None => sret None
  | Some top_ptr =>
    let! node := it_read m top_ptr in
    let! _ := it_extend (n_right node) in
    let! _ := it_extend (n_left node) in
    sret (Some (item_of top_ptr node))
  end.

(** ** In-order *)

(** The loop of inorder.rs:18-23, 39-44, 63-69 and 91-96. *)
Fixpoint inorder_descend m (fuel : nat) (current : option Ptr) : M iter unit :=
  match fuel with
  | O => slift Diverge
  | S fuel =>
    match current with
    | None => sret tt
    | Some ptr =>
      let! _ := it_push ptr in
      let! current_node := it_read m ptr in
      inorder_descend m fuel (n_left current_node)
    end
  end.

(** inorder.rs:15-26 and 60-72 [new] *)
Definition inorder_new m : res iter * iter :=
  match inorder_descend m (map_fuel m) (m_root m) (mkIter [] []) with
  | (r, it) => (rmap (fun _ => it) r, it)
  end.

(** inorder.rs:33-47 [IterInorder::next] *)
Definition inorder_next m : M iter (option item) :=
  let! top := it_pop in
  match top with
  | None => sret None
  | Some top_ptr =>
    let! node := it_read m top_ptr in
    let! _ := inorder_descend m (map_fuel m) (n_right node) in
    sret (Some (item_of top_ptr node))
  end.

(** inorder.rs:79-102 [IterMutInorder::next]: the node is read again, mutably,
    after the loop. *)
Definition inorder_mut_next m : M iter (option item) :=
  let! top := it_pop in
  match top with
  | None => sret None
  | Some top_ptr =>
    let! node := it_read m top_ptr in
    let! _ := inorder_descend m (map_fuel m) (n_right node) in
    let! node := it_read m top_ptr in
    sret (Some (item_of top_ptr node))
  end.

(** ** Post-order *)

(** The loop of postorder.rs:18-26 and 91-99. *)
Fixpoint postorder_descend m (fuel : nat) (current : option Ptr) : M iter unit :=
  match fuel with
  | O => slift Diverge
  | S fuel =>
    match current with
    | None => sret tt
    | Some ptr =>
      let! current_node := it_read m ptr in
      let! _ := it_extend (n_right current_node) in
      let! _ := it_push ptr in
      postorder_descend m fuel (n_left current_node)
    end
  end.

(** postorder.rs:15-29 and 88-102 [new] *)
Definition postorder_new m : res iter * iter :=
  match postorder_descend m (map_fuel m) (m_root m) (mkIter [] []) with
  | (r, it) => (rmap (fun _ => it) r, it)
  end.

(** The inner loop of postorder.rs:58-71 and 140-153. *)
Fixpoint postorder_inner m (fuel : nat) (current_ptr : Ptr) (node : inner K V) : M iter unit :=
  match fuel with
  | O => slift Diverge
  | S fuel =>
    let! _ := it_extend (n_right node) in
    let! _ := it_push current_ptr in
    match n_left node with
    | Some ptr =>
      let! node := it_read m ptr in
      postorder_inner m fuel ptr node
    | None => sret tt
    end
  end.

(** [self.stack.last().copied() == Some(right)], postorder.rs:43 and 121. *)
Definition top_is (right_ptr : Ptr) : M iter bool :=
  fun it => (Ret (bool_decide (head (it_stack it) = Some right_ptr)), it).

(** postorder.rs:36-75 [IterPostorder::next] *)
Fixpoint postorder_next_loop m (fuel : nat) : M iter (option item) :=
  match fuel with
  | O => slift Diverge
  | S fuel =>
    let! top := it_pop in
    match top with
    | None => sret None
    | Some current_ptr =>
      let! node := it_read m current_ptr in
      let! b := (match n_right node with
                 | Some right_ptr => top_is right_ptr
                 | None => sret false
                 end) in
      match n_right node, b with
      | Some right_ptr, true =>
        let! _ := it_pop in
        let! _ := it_push current_ptr in
        let! node := it_read m right_ptr in
        let! _ := postorder_inner m (map_fuel m) right_ptr node in
        postorder_next_loop m fuel
      | _, _ => sret (Some (item_of current_ptr node))
      end
    end
  end.
Definition postorder_next m : M iter (option item) := postorder_next_loop m (map_fuel m).

(** postorder.rs:109-157 [IterMutPostorder::next]: before being yielded, the
    node is read again, mutably. *)
Fixpoint postorder_mut_next_loop m (fuel : nat) : M iter (option item) :=
  match fuel with
  | O => slift Diverge
  | S fuel =>
    let! top := it_pop in
    match top with
    | None => sret None
    | Some current_ptr =>
      let! node := it_read m current_ptr in
      let! b := (match n_right node with
                 | Some right_ptr => top_is right_ptr
                 | None => sret false
                 end) in
      match n_right node, b with
      | Some right_ptr, true =>
        let! _ := it_pop in
        let! _ := it_push current_ptr in
        let! node := it_read m right_ptr in
        let! _ := postorder_inner m (map_fuel m) right_ptr node in
        postorder_mut_next_loop m fuel
      | _, _ =>
        let! node := it_read m current_ptr in
        sret (Some (item_of current_ptr node))
      end
    end
  end.
Definition postorder_mut_next m : M iter (option item) := postorder_mut_next_loop m (map_fuel m).

(** ** The three orders, shared and mutable (map.rs:657-685) *)

Inductive order := Pre | In | Post.

Definition iter_start m (d : order) : res iter :=
  match d with
  | Pre => preorder_new m
  | In => fst (inorder_new m)
  | Post => fst (postorder_new m)
  end.

Definition iter_next m (d : order) : M iter (option item) :=
  match d with
  | Pre => preorder_next m
  | In => inorder_next m
  | Post => postorder_next m
  end.

Definition iter_mut_next m (d : order) : M iter (option item) :=
  match d with
  | Pre => preorder_mut_next m
  | In => inorder_mut_next m
  | Post => postorder_mut_next m
  end.

(** Calling [next] until it returns [None] (as [collect] or a [for] loop does). *)
Fixpoint drain (next : M iter (option item)) (fuel : nat) : M iter (list item) :=
  match fuel with
  | O => slift Diverge
  | S fuel =>
    let! x := next in
    match x with
    | None => sret []
    | Some y => let! ys := drain next fuel in sret (y :: ys)
    end
  end.

(** [map.iter_xxx().collect::<Vec<_>>()] *)
Definition iter_collect m (d : order) : res (list item) :=
  let* it := iter_start m d in
  fst (drain (iter_next m d) (S (map_fuel m)) it).

(** The results of the first [n] calls of [next] on a shared iterator,
    whatever they are. *)
Fixpoint nexts (next : M iter (option item)) (n : nat) : M iter (list (option item)) :=
  match n with
  | O => sret []
  | S n =>
    let! x := next in
    let! xs := nexts next n in
    sret (x :: xs)
  end.

(** ** A program using a mutable iterator

    While the mutable iterator is alive the caller can call [next], and assign
    through any reference yielded so far: [EvWrite j v] assigns [v] through the
    [j]-th yielded reference (nothing happens if there is no such reference). *)
Inductive mut_event := EvNext | EvWrite (j : nat) (v : V).

Record mut_state := mkMut {
  mu_map : bstmap K V;       (* the memory *)
  mu_iter : iter;
  mu_yielded : list item;    (* what was yielded so far, in order, as seen when yielded *)
  mu_ended : nat;            (* how many times [next] returned [None] *)
}.

Definition mut_step (d : order) (ev : mut_event) : M mut_state unit :=
  fun st =>
    match ev with
    | EvNext =>
      let '(r, it) := iter_mut_next (mu_map st) d (mu_iter st) in
      let st1 := mkMut (mu_map st) it (mu_yielded st) (mu_ended st) in
      match r with
      | Ret (Some x) => (Ret tt, mkMut (mu_map st) it (mu_yielded st ++ [x]) (mu_ended st))
      | Ret None => (Ret tt, mkMut (mu_map st) it (mu_yielded st) (S (mu_ended st)))
      | Panic p => (Panic p, st1)
      | Abort => (Abort, st1)
      | UB u => (UB u, st1)
      | Diverge => (Diverge, st1)
      end
    | EvWrite j v =>
      match mu_yielded st !! j with
      | None => (Ret tt, st)
      | Some (p, _) =>
        let '(r, m') := write_value p v (mu_map st) in
        (r, mkMut m' (mu_iter st) (mu_yielded st) (mu_ended st))
      end
    end.

Fixpoint mut_run (d : order) (evs : list mut_event) : M mut_state unit :=
  match evs with
  | [] => sret tt
  | ev :: evs => let! _ := mut_step d ev in mut_run d evs
  end.

(** [iter_mut_xxx()], then the events. *)
Definition iter_mut_program (d : order) (evs : list mut_event) m : res mut_state :=
  let* it := iter_start m d in
  let '(r, st) := mut_run d evs (mkMut m it [] 0) in
  let* _ := r in Ret st.

(** ** PartialEq for BSTMap (map.rs:99-115): [zip(..).all(..)] *)
Fixpoint map_eq_loop (eqK : K -> K -> bool) (eqV : V -> V -> bool) (m1 m2 : bstmap K V)
    (fuel : nat) (i1 i2 : iter) : res bool :=
  match fuel with
  | O => Diverge
  | S fuel =>
    let '(x1, i1) := inorder_next m1 i1 in
    let* x1 := x1 in
    match x1 with
    | None => Ret true
    | Some (_, (k1, v1)) =>
      let '(x2, i2) := inorder_next m2 i2 in
      let* x2 := x2 in
      match x2 with
      | None => Ret true
      | Some (_, (k2, v2)) =>
        if eqK k1 k2 && eqV v1 v2 then map_eq_loop eqK eqV m1 m2 fuel i1 i2
        else Ret false
      end
    end
  end.

Definition map_eq (e : env) (eqK : K -> K -> bool) (eqV : V -> V -> bool) (m1 m2 : bstmap K V) : res bool :=
  let* l1 := map_len e m1 in
  let* l2 := map_len e m2 in
  if negb (l1 =? l2) then Ret false
  else
    let* i1 := iter_start m1 In in
    let* i2 := iter_start m2 In in
    map_eq_loop eqK eqV m1 m2 (map_fuel m1) i1 i2.

(** ** Debug (map.rs:68-77, node.rs:15-27, 109-121)

    [f.debug_struct(name).field(..)...finish()], as a tree of printed parts. *)
Inductive dbg :=
| DStruct (name : string) (fields : list (string * dbg))
| DSome (d : dbg)
| DNone
| DKey (k : K)
| DValue (v : V)
| DStr (s : string)
| DNum (n : N).

(** node.rs:15-27 *)
Fixpoint node_debug m (fuel : nat) (n : Node K V) : res dbg :=
  match fuel with
  | O => Diverge
  | S fuel =>
    let sub := fun (o : option (Node K V)) =>
      match o with
      | None => Ret DNone
      | Some c => rmap DSome (node_debug m fuel c)
      end in
    let* l := node_left m n in
    let* ld := sub l in
    let* r := node_right m n in
    let* rd := sub r in
    Ret (DStruct "Node" [("key", DKey (node_key n)); ("value", DValue (node_value n));
                         ("left", ld); ("right", rd)])%string
  end.

(** map.rs:68-77 *)
Definition map_debug m : res dbg :=
  let* r := map_root m in
  let* d := (match r with
             | None => Ret DNone
             | Some n => rmap DSome (node_debug m (map_fuel m) n)
             end) in
  Ret (DStruct "BSTMap" [("root", d)])%string.

(** node.rs:109-121 [Debug for NodeMut] *)
Definition nodemut_debug m (n : NodeMut) : res dbg :=
  let* k := nodemut_key m n in
  let* v := nodemut_value m n in
  Ret (DStruct "NodeMut" [("key", DKey k); ("value", DValue v);
                          ("left", DStr "..."); ("right", DStr "...")])%string.

(** node.rs:123-135 [PartialEq for NodeMut], on two maps (or twice the same). *)
Definition nodemut_eq (eqK : K -> K -> bool) (eqV : V -> V -> bool) (same_map : bool) (m1 m2 : bstmap K V)
    (n1 n2 : NodeMut) : res bool :=
  let ptr_eq := same_map && bool_decide (n1 = n2) in
  if ptr_eq then Ret true
  else
    let* k1 := nodemut_key m1 n1 in
    let* k2 := nodemut_key m2 n2 in
    if eqK k1 k2 then
      let* v1 := nodemut_value m1 n1 in
      let* v2 := nodemut_value m2 n2 in
      Ret (eqV v1 v2)
    else Ret false.

End iter.
Arguments item : clear implicits.
Arguments mut_event : clear implicits.
Arguments mut_state : clear implicits.
Arguments dbg : clear implicits.
