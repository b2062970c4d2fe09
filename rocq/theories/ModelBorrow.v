(** * The references that the code makes, under Stacked Borrows and Tree Borrows

    Every reference to a node, to a part of a node, or to the slab itself gets a tag. There
    are two sets of rules for using a tag; breaking them is undefined behaviour.

    - Stacked Borrows (Jung et al., POPL 2020): every location has a stack of tags. Using a
      tag that has been removed from the stack is wrong.
    - Tree Borrows (Villani et al., PLDI 2025): the tags form a tree, and every tag has a
      state at every location. A use is seen by all tags, and changes their states.

    The field [b_rules] says which of them a program runs under.

    The methods are those of ModelMap.v and ModelIter.v, with the references of the source.
    Left out: references to local variables, the vector inside an iterator and the [root]
    field of a map; retagging when a reference is passed on or returned (it adds a child
    that is used in place of the original); protectors; interior mutability inside keys and
    values; the rule for neighbouring raw items (there are never two). *)

From Verif Require Export ModelIter.
Local Open Scope nat_scope.

(** ** Stacks *)
Inductive perm := Unique | SharedRW | SharedRO | Disabled.
#[global] Instance perm_eq_dec : EqDecision perm.
Proof. solve_decision. Defined.

Inductive field := FKey | FValue | FLeft | FRight.
#[global] Instance field_eq_dec : EqDecision field.
Proof. solve_decision. Defined.

(** [LSlab] is the memory of the struct [UnsafeSlab] (with its arena), [LNode p f] a field
    of the node in slot [p]. *)
Inductive loc := LSlab | LNode (p : Ptr) (f : field).
#[global] Instance loc_eq_dec : EqDecision loc.
Proof. solve_decision. Defined.

(** The head of a list is the top of the stack. *)
Definition stack : Type := list (nat * perm).

(** The tag of the raw pointers to the chunks, from which every [Ptr] is copied
    (arena.rs:262-269, 424-434), and of the owner of the slab. *)
Definition base : nat := 0.

Inductive rules := Stacked | Tree.

(** A read through [t] needs an item of [t]; unique items above it are disabled. *)
Definition disable (R : rules) (x : nat * perm) : nat * perm :=
  match R, x with
  | _, (u, Unique) => (u, Disabled)
  | Tree, (u, SharedRW) => (u, Disabled)
  | _, _ => x
  end.
Fixpoint use_read (R : rules) (t : nat) (st : stack) : option stack :=
  match st with
  | [] => None
  | (u, p) :: st' =>
    if bool_decide (u = t /\ p <> Disabled) then Some st
    else match use_read R t st' with
         | Some st'' => Some (disable R (u, p) :: st'')
         | None => None
         end
  end.

(** A write through [t] needs a writable item of [t]; all items above it are removed. *)
Fixpoint use_write (t : nat) (st : stack) : option stack :=
  match st with
  | [] => None
  | (u, p) :: st' =>
    if bool_decide (u = t /\ (p = Unique \/ p = SharedRW)) then Some st else use_write t st'
  end.
Definition use_stack (R : rules) (wr : bool) (t : nat) (st : stack) : option stack :=
  if wr then use_write t st else use_read R t st.

(** ** Trees

    A new [&mut] is [Reserved] until its first write makes it [Active]; a new [&] is
    [Frozen]. A [Gone] tag may not be used any more. *)
Inductive tperm := Reserved | Active | Frozen | Gone.
#[global] Instance tperm_eq_dec : EqDecision tperm.
Proof. solve_decision. Defined.

(** What a use through the tag itself, or through a tag made from it, does to its state *)
Definition own_use (wr : bool) (x : tperm) : option tperm :=
  match x with
  | Reserved => Some (if wr then Active else Reserved)
  | Active => Some Active
  | Frozen => if wr then None else Some Frozen
  | Gone => None
  end.
(** and what any other use does. *)
Definition other_use (wr : bool) (x : tperm) : tperm :=
  if wr then Gone else match x with Active => Frozen | _ => x end.

(** [path] is the tag that is used, and the tags it was made from. *)
Definition use_tree (wr : bool) (path : list nat) (pm : nat -> tperm) : option (nat -> tperm) :=
  if forallb (fun u => if own_use wr (pm u) then true else false) path
  then Some (fun u => if decide (u ∈ path) then default Gone (own_use wr (pm u)) else other_use wr (pm u))
  else None.

(** The owner's state of memory in which there are no references. *)
Definition no_tags (u : nat) : tperm := if decide (u = base) then Reserved else Gone.

(** ** Both *)

Record borrows := mkB {
  b_rules : rules;
  b_next : nat;                     (* the next tag *)
  b_at : loc -> stack;
  b_path : nat -> list nat;         (* a tag, the tag it was made from, and so on *)
  b_perm : loc -> nat -> tperm;
}.

Definition set_at (l : loc) (st : stack) (b : borrows) : borrows :=
  mkB (b_rules b) (b_next b) (fun l' => if decide (l' = l) then st else b_at b l') (b_path b) (b_perm b).
Definition set_perm (l : loc) (pm : nat -> tperm) (b : borrows) : borrows :=
  mkB (b_rules b) (b_next b) (b_at b) (b_path b) (fun l' => if decide (l' = l) then pm else b_perm b l').

(** A use of [t], which is [wr] for the stacks and [twr] for the tree. Under [Tree] the stacks
    do not decide anything: they are kept up, where that is possible, for the proofs. *)
Definition access_as (wr twr : bool) (t : nat) (l : loc) : M borrows unit :=
  fun b =>
    match b_rules b with
    | Stacked =>
      match use_stack Stacked wr t (b_at b l) with
      | Some st => (Ret tt, set_at l st b)
      | None => (UB UAlias, b)
      end
    | Tree =>
      match use_tree twr (b_path b t) (b_perm b l) with
      | Some pm => (Ret tt, set_perm l pm (set_at l (default (b_at b l) (use_stack Tree wr t (b_at b l))) b))
      | None => (UB UAlias, b)
      end
    end.
Fixpoint access_all_as (wr twr : bool) (t : nat) (ls : list loc) : M borrows unit :=
  match ls with
  | [] => sret tt
  | l :: ls => let! _ := access_as wr twr t l in access_all_as wr twr t ls
  end.
Definition access (wr : bool) : nat -> loc -> M borrows unit := access_as wr wr.
Definition access_all (wr : bool) : nat -> list loc -> M borrows unit := access_all_as wr wr.

Definition push_item (n : nat) (p : perm) (l : loc) : M borrows unit :=
  smod (fun b => set_at l ((n, p) :: b_at b l) b).
Fixpoint push_all (n : nat) (p : perm) (ls : list loc) : M borrows unit :=
  match ls with
  | [] => sret tt
  | l :: ls => let! _ := push_item n p l in push_all n p ls
  end.

(** Slots of one chunk are in the same memory. *)
Definition same_memory (l l' : loc) : bool :=
  match l, l' with
  | LSlab, LSlab => true
  | LNode (c, _) _, LNode (c', _) _ => bool_decide (c = c')
  | _, _ => false
  end.

(** The new tag [n] is made from [t]. Its state is the same in all of the memory that [ls]
    is in, not only at [ls]. *)
Definition new_tag (n : nat) (p : perm) (t : nat) (ls : list loc) (b : borrows) : borrows :=
  mkB (b_rules b) (b_next b) (b_at b)
    (fun u => if decide (u = n) then n :: b_path b t else b_path b u)
    (fun l u => if decide (u = n)
                then (if existsb (same_memory l) ls then match p with SharedRO => Frozen | _ => Reserved end else Gone)
                else b_perm b l u).

(** New references from an old one of tag [t]. For the stacks [&mut] counts as a write and
    [&] as a read; for the tree both are reads. *)
Definition retag_as (p : perm) (t : nat) (ls : list loc) : M borrows nat :=
  let! b := sget in
  let n := b_next b in
  let! _ := smod (fun b => mkB (b_rules b) (S n) (b_at b) (b_path b) (b_perm b)) in
  let! _ := access_all_as (negb (bool_decide (p = SharedRO))) false t ls in
  let! _ := smod (new_tag n p t ls) in
  let! _ := push_all n p ls in
  sret n.
Definition retag_mut (t : nat) (ls : list loc) : M borrows nat := retag_as Unique t ls.
Definition retag_shr (t : nat) (ls : list loc) : M borrows nat := retag_as SharedRO t ls.
(** [&mut *x as *mut _]. Under Tree Borrows a raw pointer has the tag of the reference that
    it was made from; a tag of its own is stricter. *)
Definition retag_raw (t : nat) (ls : list loc) : M borrows nat := retag_as SharedRW t ls.
Definition retag (mut : bool) (t : nat) (ls : list loc) : M borrows nat :=
  if mut then retag_mut t ls else retag_shr t ls.

Definition node_locs (p : Ptr) : list loc := [LNode p FKey; LNode p FValue; LNode p FLeft; LNode p FRight].

Section borrow.
Context {K V : Type}.
Implicit Types m : bstmap K V.

(** slab.rs:130-142 [get_unchecked], [get_unchecked_mut] called through the reference [h]
    to the slab: a reference to the entry (arena.rs:222-238), then one to the node in it. *)
Definition b_get (mut : bool) m (h : nat) (p : Ptr) : M borrows nat :=
  let! _ := retag mut h [LSlab] in
  let! entry := retag mut base (node_locs p) in
  let! _ := slift (slab_get (m_nodes m) p) in
  retag mut entry (node_locs p).

(** Reading [node.left], [node.right] through a reference [n] to the node [p]. *)
Definition b_left m (n : nat) (p : Ptr) : M borrows (option Ptr) :=
  let! _ := access false n (LNode p FLeft) in
  let! x := slift (slab_get (m_nodes m) p) in
  sret (n_left x).
Definition b_right m (n : nat) (p : Ptr) : M borrows (option Ptr) :=
  let! _ := access false n (LNode p FRight) in
  let! x := slift (slab_get (m_nodes m) p) in
  sret (n_right x).

(** ** Mutable iterators

    The state of an iterator: its stack of pointers, with the borrow stacks. [r] is the tag
    of its field [nodes: *mut UnsafeSlab<..>]. *)
Definition biter : Type := (list Ptr * borrows)%type.
Definition on_b {A} (f : M borrows A) : M biter A := zoom snd (fun b it => (it.1, b)) f.
Definition bi_pop : M biter (option Ptr) :=
  fun it => match it.1 with
            | [] => (Ret None, it)
            | p :: st => (Ret (Some p), (st, it.2))
            end.
Definition bi_push (p : Ptr) : M biter unit := smod (fun it => (p :: it.1, it.2)).
Definition bi_extend (o : option Ptr) : M biter unit := smod (fun it => (push_opt o it.1, it.2)).
Definition bi_top_is (right_ptr : Ptr) : M biter bool :=
  fun it => (Ret (bool_decide (head it.1 = Some right_ptr)), it).

(** What [next] yields: the tags of the [&K] and the [&mut V] (or [&V]), and the node. *)
Record refs := mkRefs { rf_node : Ptr; rf_key : nat; rf_value : nat }.

(** [(&node.key, &mut node.value)] and [(&node.key, &node.value)] *)
Definition b_entry (mut : bool) (n : nat) (p : Ptr) : M borrows refs :=
  let! k := retag_shr n [LNode p FKey] in
  let! v := retag mut n [LNode p FValue] in
  sret (mkRefs p k v).

(** preorder.rs:58-72 *)
Definition b_preorder_next m (r : nat) : M biter (option refs) :=
  let! top := bi_pop in
  match top with
  | None => sret None
  | Some top_ptr =>
    let! nodes := on_b (retag_mut r [LSlab]) in
    let! node := on_b (b_get true m nodes top_ptr) in
    let! c := on_b (b_right m node top_ptr) in
    let! _ := bi_extend c in
    let! c := on_b (b_left m node top_ptr) in
    let! _ := bi_extend c in
    let! x := on_b (b_entry true node top_ptr) in
    sret (Some x)
  end.

(** inorder.rs:63-69 and 91-96 *)
Fixpoint b_inorder_descend m (nodes : nat) (fuel : nat) (current : option Ptr) : M biter unit :=
  match fuel with
  | O => slift Diverge
  | S fuel =>
    match current with
    | None => sret tt
    | Some ptr =>
      let! _ := bi_push ptr in
      let! current_node := on_b (b_get false m nodes ptr) in
      let! c := on_b (b_left m current_node ptr) in
      b_inorder_descend m nodes fuel c
    end
  end.

(** inorder.rs:79-102 *)
Definition b_inorder_next m (r : nat) : M biter (option refs) :=
  let! top := bi_pop in
  match top with
  | None => sret None
  | Some top_ptr =>
    let! nodes := on_b (retag_mut r [LSlab]) in
    let! node := on_b (b_get false m nodes top_ptr) in
    let! c := on_b (b_right m node top_ptr) in
    let! _ := b_inorder_descend m nodes (map_fuel m) c in
    let! node := on_b (b_get true m nodes top_ptr) in
    let! x := on_b (b_entry true node top_ptr) in
    sret (Some x)
  end.

(** postorder.rs:91-99 *)
Fixpoint b_postorder_descend m (nodes : nat) (fuel : nat) (current : option Ptr) : M biter unit :=
  match fuel with
  | O => slift Diverge
  | S fuel =>
    match current with
    | None => sret tt
    | Some ptr =>
      let! current_node := on_b (b_get false m nodes ptr) in
      let! c := on_b (b_right m current_node ptr) in
      let! _ := bi_extend c in
      let! _ := bi_push ptr in
      let! c := on_b (b_left m current_node ptr) in
      b_postorder_descend m nodes fuel c
    end
  end.

(** postorder.rs:140-153 *)
Fixpoint b_postorder_inner m (nodes : nat) (fuel : nat) (current_ptr : Ptr) (node : nat) : M biter unit :=
  match fuel with
  | O => slift Diverge
  | S fuel =>
    let! c := on_b (b_right m node current_ptr) in
    let! _ := bi_extend c in
    let! _ := bi_push current_ptr in
    let! c := on_b (b_left m node current_ptr) in
    match c with
    | Some ptr =>
      let! node := on_b (b_get false m nodes ptr) in
      b_postorder_inner m nodes fuel ptr node
    | None => sret tt
    end
  end.

(** postorder.rs:109-157. [nodes] is made once, before the loop. *)
Fixpoint b_postorder_loop m (nodes : nat) (fuel : nat) : M biter (option refs) :=
  match fuel with
  | O => slift Diverge
  | S fuel =>
    let! top := bi_pop in
    match top with
    | None => sret None
    | Some current_ptr =>
      let! node := on_b (b_get false m nodes current_ptr) in
      let! right := on_b (b_right m node current_ptr) in
      let! b := (match right with
                 | Some right_ptr => bi_top_is right_ptr
                 | None => sret false
                 end) in
      match right, b with
      | Some right_ptr, true =>
        let! _ := bi_pop in
        let! _ := bi_push current_ptr in
        let! node := on_b (b_get false m nodes right_ptr) in
        let! _ := b_postorder_inner m nodes (map_fuel m) right_ptr node in
        b_postorder_loop m nodes fuel
      | _, _ =>
        let! node := on_b (b_get true m nodes current_ptr) in
        let! x := on_b (b_entry true node current_ptr) in
        sret (Some x)
      end
    end
  end.
Definition b_postorder_next m (r : nat) : M biter (option refs) :=
  let! nodes := on_b (retag_mut r [LSlab]) in
  b_postorder_loop m nodes (map_fuel m).

(** map.rs:672-685 [iter_mut_xxx(&mut self)] and the [new] functions: a reference to
    [self.nodes], used to fill the stack, then turned into the raw pointer. *)
Definition b_iter_start m (d : order) : M biter nat :=
  let! nodes := on_b (retag_mut base [LSlab]) in
  let! _ := (match d with
             | Pre => bi_extend (m_root m)
             | In => b_inorder_descend m nodes (map_fuel m) (m_root m)
             | Post => b_postorder_descend m nodes (map_fuel m) (m_root m)
             end) in
  on_b (retag_raw nodes [LSlab]).

Definition b_iter_next m (d : order) (r : nat) : M biter (option refs) :=
  match d with
  | Pre => b_preorder_next m r
  | In => b_inorder_next m r
  | Post => b_postorder_next m r
  end.

(** A program with a mutable iterator: it calls [next] and uses any of the references
    yielded so far, in any order. *)
Inductive bm_event := BNext | BReadKey (j : nat) | BReadValue (j : nat) | BWrite (j : nat) (v : V).

Record bm_state := mkBM {
  bm_map : bstmap K V;
  bm_stack : list Ptr;
  bm_refs : list refs;
  bm_borrows : borrows;
}.

Definition bm_step (d : order) (r : nat) (ev : bm_event) : M bm_state unit :=
  fun st =>
    match ev with
    | BNext =>
      let '(x, (stk, b)) := b_iter_next (bm_map st) d r (bm_stack st, bm_borrows st) in
      (rmap (fun _ => tt) x,
       mkBM (bm_map st) stk (bm_refs st ++ match x with Ret (Some y) => [y] | _ => [] end) b)
    | BReadKey j =>
      match bm_refs st !! j with
      | None => (Ret tt, st)
      | Some y =>
        let '(x, b) := access false (rf_key y) (LNode (rf_node y) FKey) (bm_borrows st) in
        (x, mkBM (bm_map st) (bm_stack st) (bm_refs st) b)
      end
    | BReadValue j =>
      match bm_refs st !! j with
      | None => (Ret tt, st)
      | Some y =>
        let '(x, b) := access false (rf_value y) (LNode (rf_node y) FValue) (bm_borrows st) in
        (x, mkBM (bm_map st) (bm_stack st) (bm_refs st) b)
      end
    | BWrite j v =>
      match bm_refs st !! j with
      | None => (Ret tt, st)
      | Some y =>
        match access true (rf_value y) (LNode (rf_node y) FValue) (bm_borrows st) with
        | (Ret _, b) =>
          let '(x, m') := write_value (rf_node y) v (bm_map st) in
          (x, mkBM m' (bm_stack st) (bm_refs st) b)
        | (x, b) => (x, mkBM (bm_map st) (bm_stack st) (bm_refs st) b)
        end
      end
    end.
Fixpoint bm_run (d : order) (r : nat) (evs : list bm_event) : M bm_state unit :=
  match evs with
  | [] => sret tt
  | ev :: evs => let! _ := bm_step d r ev in bm_run d r evs
  end.
Definition bm_program (d : order) (evs : list bm_event) m (b : borrows) : res unit * bm_state :=
  match b_iter_start m d ([], b) with
  | (Ret r, (stk, b)) => bm_run d r evs (mkBM m stk [] b)
  | (x, (stk, b)) => (rmap (fun _ => tt) x, mkBM m stk [] b)
  end.

(** ** Methods that take [&mut self]

    A map with the borrow stacks. The memory is changed by the functions of ModelMap.v. *)
Definition bmap : Type := (bstmap K V * borrows)%type.
Definition on_r {A} (f : M borrows A) : M bmap A := zoom snd (fun b s => (s.1, b)) f.
Definition on_m {A} (f : M (bstmap K V) A) : M bmap A := zoom fst (fun m s => (m, s.2)) f.
(** A result that only depends on the memory. *)
Definition of_m {A} (f : bstmap K V -> res A) : M bmap A :=
  let! s := sget in slift (f s.1).

(** [get_unchecked], [get_unchecked_mut] through the reference [h] to the slab *)
Definition b_node (mut : bool) (h : nat) (p : Ptr) : M bmap nat :=
  let! s := sget in on_r (b_get mut s.1 h p).

(** node.rs:101-104 [NodeMut]: the raw pointer [nodes], the reference [node] and its
    address. *)
Record bnode := mkBNode { bn_nodes : nat; bn_node : nat; bn_ptr : Ptr }.

(** node.rs:148-157 [NodeMut::new] *)
Definition b_nodemut_new (nodes : nat) (p : Ptr) : M bmap bnode :=
  let! h := on_r (retag_mut nodes [LSlab]) in
  let! n := b_node true h p in
  sret (mkBNode nodes n p).
Definition b_opt_nodemut (nodes : nat) (p : option Ptr) : M bmap (option bnode) :=
  match p with
  | None => sret None
  | Some p => let! n := b_nodemut_new nodes p in sret (Some n)
  end.

(** node.rs:160-167 [key], [value], and a read through the reference they return *)
Definition b_nodemut_key (n : bnode) : M bmap K :=
  let! k := on_r (retag_shr (bn_node n) [LNode (bn_ptr n) FKey]) in
  let! _ := on_r (access false k (LNode (bn_ptr n) FKey)) in
  of_m (fun m => nodemut_key m (bn_ptr n)).
Definition b_nodemut_value (n : bnode) : M bmap V :=
  let! v := on_r (retag_shr (bn_node n) [LNode (bn_ptr n) FValue]) in
  let! _ := on_r (access false v (LNode (bn_ptr n) FValue)) in
  of_m (fun m => nodemut_value m (bn_ptr n)).

(** node.rs:185-192 [has_left], [has_right] *)
Definition b_nodemut_has_left (n : bnode) : M bmap bool :=
  let! _ := on_r (access false (bn_node n) (LNode (bn_ptr n) FLeft)) in
  of_m (fun m => nodemut_has_left m (bn_ptr n)).
Definition b_nodemut_has_right (n : bnode) : M bmap bool :=
  let! _ := on_r (access false (bn_node n) (LNode (bn_ptr n) FRight)) in
  of_m (fun m => nodemut_has_right m (bn_ptr n)).

(** node.rs:195-224 [left], [into_left], [right], [into_right] *)
Definition b_nodemut_left (n : bnode) : M bmap (option bnode) :=
  let! s := sget in
  let! c := on_r (b_left s.1 (bn_node n) (bn_ptr n)) in
  b_opt_nodemut (bn_nodes n) c.
Definition b_nodemut_right (n : bnode) : M bmap (option bnode) :=
  let! s := sget in
  let! c := on_r (b_right s.1 (bn_node n) (bn_ptr n)) in
  b_opt_nodemut (bn_nodes n) c.

(** slab.rs:149-168 [push] through the reference [h]. The new value overwrites the whole
    entry; where the link of a free entry lies in it is not specified, so that all of it
    counts as read. arena.rs:242-270 [alloc] writes through [item_ptr.as_mut()]. *)
Definition b_push (e : env) (h : nat) (x : inner K V) : M bmap Ptr :=
  let! _ := on_r (access false h LSlab) in
  let! s := sget in
  match s_head (m_nodes s.1) with
  | Some q =>
    let! _ := on_r (retag_mut h [LSlab]) in
    let! entry := on_r (retag_mut base (node_locs q)) in
    let! _ := on_r (access_all false entry (node_locs q)) in
    let! _ := on_r (access true h LSlab) in
    let! p := on_m (on_nodes (slab_push e x)) in
    let! _ := on_r (access_all true entry (node_locs q)) in
    sret p
  | None =>
    let! items := on_r (retag_mut h [LSlab]) in
    let! _ := on_r (access true items LSlab) in
    let! p := on_m (on_nodes (slab_push e x)) in
    let! item := on_r (retag_mut base (node_locs p)) in
    let! _ := on_r (access_all true item (node_locs p)) in
    let! _ := on_r (access true items LSlab) in
    sret p
  end.

(** node.rs:227-258 [push_left], [push_right] with [set_left], [set_right] *)
Definition b_push_left (e : env) (n : bnode) (k : K) (v : V) : M bmap Ptr :=
  let! h := on_r (retag_mut (bn_nodes n) [LSlab]) in
  let! p := b_push e h (inner_new k v) in
  let! _ := on_r (access true (bn_node n) (LNode (bn_ptr n) FLeft)) in
  let! _ := on_m (nodemut_set_left (bn_ptr n) p) in
  sret p.
Definition b_push_right (e : env) (n : bnode) (k : K) (v : V) : M bmap Ptr :=
  let! h := on_r (retag_mut (bn_nodes n) [LSlab]) in
  let! p := b_push e h (inner_new k v) in
  let! _ := on_r (access true (bn_node n) (LNode (bn_ptr n) FRight)) in
  let! _ := on_m (nodemut_set_right (bn_ptr n) p) in
  sret p.

(** node.rs:262-264 [replace_value] *)
Definition b_replace_value (n : bnode) (v : V) : M bmap V :=
  let! r := on_r (retag_mut (bn_node n) [LNode (bn_ptr n) FValue]) in
  let! _ := on_r (access false r (LNode (bn_ptr n) FValue)) in
  let! _ := on_r (access true r (LNode (bn_ptr n) FValue)) in
  on_m (nodemut_replace_value (bn_ptr n) v).

(** map.rs:747-750 [root_mut]; [self] is the tag of the [&mut self]. *)
Definition b_root_mut (self : nat) : M bmap (option bnode) :=
  let! s := sget in
  match m_root s.1 with
  | None => sret None
  | Some p =>
    let! h := on_r (retag_mut self [LSlab]) in
    let! nodes := on_r (retag_raw h [LSlab]) in
    let! n := b_nodemut_new nodes p in
    sret (Some n)
  end.

(** map.rs:417-445, the loop of [insert] *)
Fixpoint b_insert_loop (e : env) (o : oracle K) (fuel i : nat) (k : K) (v : V) (current : option bnode)
  : M bmap (option V) :=
  match fuel with
  | O => slift Diverge
  | S fuel =>
    match current with
    | None => sret None
    | Some node =>
      let! nk := b_nodemut_key node in
      let! c := slift (ask o i nk) in
      match c with
      | Lt =>
        let! hl := b_nodemut_has_left node in
        if negb hl then
          let! _ := b_push_left e node k v in sret None
        else
          let! cur := b_nodemut_left node in
          b_insert_loop e o fuel (S i) k v cur
      | Gt =>
        let! hr := b_nodemut_has_right node in
        if negb hr then
          let! _ := b_push_right e node k v in sret None
        else
          let! cur := b_nodemut_right node in
          b_insert_loop e o fuel (S i) k v cur
      | Eq =>
        let! prev_value := b_replace_value node v in
        let! _ := on_m (smod (log_drops [inl k])) in
        sret (Some prev_value)
      end
    end
  end.

(** map.rs:407-446 [insert] *)
Definition b_insert (e : env) (o : oracle K) (k : K) (v : V) : M bmap (option V) :=
  on_panic (fun s => (log_drops [inl k; inr v] s.1, s.2))
    (let! self := on_r (retag_mut base [LSlab]) in
     let! s := sget in
     let! r := b_root_mut self in
     match r with
     | Some root => b_insert_loop e o (map_fuel s.1) 0 k v (Some root)
     | None =>
       let! nodes := on_r (retag_mut self [LSlab]) in
       let! p := b_push e nodes (inner_new k v) in
       let! _ := on_m (smod (set_root (Some p))) in
       sret None
     end).

(** Uses of a reference [&mut V] of tag [t] to the value of the node [p]: [None] is a read,
    [Some w] an assignment. *)
Fixpoint b_uses (t : nat) (p : Ptr) (ws : list (option V)) : M bmap unit :=
  match ws with
  | [] => sret tt
  | None :: ws =>
    let! _ := on_r (access false t (LNode p FValue)) in
    b_uses t p ws
  | Some w :: ws =>
    let! _ := on_r (access true t (LNode p FValue)) in
    let! _ := on_m (write_value p w) in
    b_uses t p ws
  end.
Fixpoint uses (p : Ptr) (ws : list (option V)) : M (bstmap K V) unit :=
  match ws with
  | [] => sret tt
  | None :: ws => uses p ws
  | Some w :: ws => let! _ := write_value p w in uses p ws
  end.

(** map.rs:299-313 [get_mut]: the tag of the [&mut V] and the node. *)
Fixpoint b_get_mut_loop (o : oracle K) (fuel i : nat) (current : option bnode) : M bmap (option (nat * Ptr)) :=
  match fuel with
  | O => slift Diverge
  | S fuel =>
    match current with
    | None => sret None
    | Some node =>
      let! k := b_nodemut_key node in
      let! c := slift (ask o i k) in
      match c with
      | Lt => let! cur := b_nodemut_left node in b_get_mut_loop o fuel (S i) cur
      | Gt => let! cur := b_nodemut_right node in b_get_mut_loop o fuel (S i) cur
      | Eq =>
        let! v := on_r (retag_mut (bn_node node) [LNode (bn_ptr node) FValue]) in
        sret (Some (v, bn_ptr node))
      end
    end
  end.
Definition b_get_mut (o : oracle K) : M bmap (option (nat * Ptr)) :=
  let! self := on_r (retag_mut base [LSlab]) in
  let! s := sget in
  let! r := b_root_mut self in
  b_get_mut_loop o (map_fuel s.1) 0 r.
(** [if let Some(v) = map.get_mut(key) { .. }], and the same without references. *)
Definition b_get_mut_program (o : oracle K) (ws : list (option V)) : M bmap (option Ptr) :=
  let! x := b_get_mut o in
  match x with
  | None => sret None
  | Some (t, p) => let! _ := b_uses t p ws in sret (Some p)
  end.
Definition get_mut_program (o : oracle K) (ws : list (option V)) : M (bstmap K V) (option Ptr) :=
  let! m := sget in
  let! x := slift (map_get_mut m o) in
  match x with
  | None => sret None
  | Some p => let! _ := uses p ws in sret (Some p)
  end.

(** map.rs:372-386 [get_entry_mut] *)
Fixpoint b_get_entry_mut_loop (o : oracle K) (fuel i : nat) (current : option bnode) : M bmap (option (K * refs)) :=
  match fuel with
  | O => slift Diverge
  | S fuel =>
    match current with
    | None => sret None
    | Some node =>
      let! k := b_nodemut_key node in
      let! c := slift (ask o i k) in
      match c with
      | Lt => let! cur := b_nodemut_left node in b_get_entry_mut_loop o fuel (S i) cur
      | Gt => let! cur := b_nodemut_right node in b_get_entry_mut_loop o fuel (S i) cur
      | Eq =>
        let! x := on_r (b_entry true (bn_node node) (bn_ptr node)) in
        let! k := of_m (fun m => nodemut_key m (bn_ptr node)) in
        sret (Some (k, x))
      end
    end
  end.
Definition b_get_entry_mut (o : oracle K) : M bmap (option (K * refs)) :=
  let! self := on_r (retag_mut base [LSlab]) in
  let! s := sget in
  let! r := b_root_mut self in
  b_get_entry_mut_loop o (map_fuel s.1) 0 r.
(** The caller uses the [&mut V] and reads the [&K] afterwards. *)
Definition b_get_entry_mut_program (o : oracle K) (ws : list (option V)) : M bmap (option (K * Ptr)) :=
  let! x := b_get_entry_mut o in
  match x with
  | None => sret None
  | Some (k, x) =>
    let! _ := b_uses (rf_value x) (rf_node x) ws in
    let! _ := on_r (access false (rf_key x) (LNode (rf_node x) FKey)) in
    sret (Some (k, rf_node x))
  end.
Definition get_entry_mut_program (o : oracle K) (ws : list (option V)) : M (bstmap K V) (option (K * Ptr)) :=
  let! m := sget in
  let! x := slift (map_get_entry_mut m o) in
  match x with
  | None => sret None
  | Some (k, p) => let! _ := uses p ws in sret (Some (k, p))
  end.

(** A walk with [root_mut], [left], [right], [into_left], [into_right]; [NRead] reads the
    key, the value and [has_left], [has_right], [NWrite] assigns through [value_mut]. At the
    end [into_value_mut] (node.rs:175-177). *)
Inductive nw_event := NRead | NWrite (w : V) | NLeft | NRight.

Definition nw_step (ev : nw_event) (n : NodeMut) : M (bstmap K V) (option NodeMut) :=
  let! m := sget in
  match ev with
  | NRead =>
    let! _ := slift (nodemut_key m n) in
    let! _ := slift (nodemut_value m n) in
    let! _ := slift (nodemut_has_left m n) in
    let! _ := slift (nodemut_has_right m n) in
    sret (Some n)
  | NWrite w => let! _ := write_value n w in sret (Some n)
  | NLeft => slift (nodemut_left m n)
  | NRight => slift (nodemut_right m n)
  end.
Fixpoint nw_run (evs : list nw_event) (ws : list (option V)) (cur : option NodeMut) : M (bstmap K V) unit :=
  match cur with
  | None => sret tt
  | Some n =>
    match evs with
    | [] => uses n ws
    | ev :: evs => let! c := nw_step ev n in nw_run evs ws c
    end
  end.
Definition nw_program (evs : list nw_event) (ws : list (option V)) : M (bstmap K V) unit :=
  let! m := sget in
  let! r := slift (map_root_mut m) in
  nw_run evs ws r.

Definition b_nw_step (ev : nw_event) (n : bnode) : M bmap (option bnode) :=
  match ev with
  | NRead =>
    let! _ := b_nodemut_key n in
    let! _ := b_nodemut_value n in
    let! _ := b_nodemut_has_left n in
    let! _ := b_nodemut_has_right n in
    sret (Some n)
  | NWrite w =>
    let! r := on_r (retag_mut (bn_node n) [LNode (bn_ptr n) FValue]) in
    let! _ := on_r (access true r (LNode (bn_ptr n) FValue)) in
    let! _ := on_m (write_value (bn_ptr n) w) in
    sret (Some n)
  | NLeft => b_nodemut_left n
  | NRight => b_nodemut_right n
  end.
Fixpoint b_nw_run (evs : list nw_event) (ws : list (option V)) (cur : option bnode) : M bmap unit :=
  match cur with
  | None => sret tt
  | Some n =>
    match evs with
    | [] =>
      let! v := on_r (retag_mut (bn_node n) [LNode (bn_ptr n) FValue]) in
      b_uses v (bn_ptr n) ws
    | ev :: evs => let! c := b_nw_step ev n in b_nw_run evs ws c
    end
  end.
Definition b_nw_program (evs : list nw_event) (ws : list (option V)) : M bmap unit :=
  let! self := on_r (retag_mut base [LSlab]) in
  let! r := b_root_mut self in
  b_nw_run evs ws r.

(** map.rs:494-511, the search loop of [remove_entry] *)
Fixpoint b_remove_find (self : nat) (o : oracle K) (fuel i : nat) (parent current : option Ptr)
  : M bmap (option Ptr * option Ptr) :=
  match fuel with
  | O => slift Diverge
  | S fuel =>
    match current with
    | None => sret (parent, current)
    | Some ptr =>
      let! s := sget in
      let! node := b_node false self ptr in
      let! k := on_r (retag_shr node [LNode ptr FKey]) in
      let! _ := on_r (access false k (LNode ptr FKey)) in
      let! x := of_m (fun m => slab_get (m_nodes m) ptr) in
      let! c := slift (ask o i (n_key x)) in
      match c with
      | Lt => let! c := on_r (b_left s.1 node ptr) in b_remove_find self o fuel (S i) current c
      | Gt => let! c := on_r (b_right s.1 node ptr) in b_remove_find self o fuel (S i) current c
      | Eq => sret (parent, current)
      end
    end
  end.

(** map.rs:540-552 *)
Fixpoint b_succ_loop (self : nat) (fuel : nat) (inorder_succ_parent inorder_succ : Ptr) : M bmap (Ptr * Ptr) :=
  match fuel with
  | O => slift Diverge
  | S fuel =>
    let! s := sget in
    let! inorder_succ_node := b_node false self inorder_succ in
    let! l := on_r (b_left s.1 inorder_succ_node inorder_succ) in
    match l with
    | Some inorder_succ_left => b_succ_loop self fuel inorder_succ inorder_succ_left
    | None => sret (inorder_succ_parent, inorder_succ)
    end
  end.

(** [let n = self.nodes.get_unchecked_mut(p); n.left = q], map.rs:567-571, 575-578, 588-594,
    606-617 *)
Definition b_store_left (self : nat) (p : Ptr) (q : option Ptr) : M bmap unit :=
  let! n := b_node true self p in
  let! _ := on_r (access true n (LNode p FLeft)) in
  on_m (store_left p q).
Definition b_store_right (self : nat) (p : Ptr) (q : option Ptr) : M bmap unit :=
  let! n := b_node true self p in
  let! _ := on_r (access true n (LNode p FRight)) in
  on_m (store_right p q).

(** map.rs:518-599 *)
Definition b_remove_replacement (self : nat) (ptr : Ptr) : M bmap (option Ptr) :=
  let! s := sget in
  let! node := b_node true self ptr in
  let! l := on_r (b_left s.1 node ptr) in
  let! r := on_r (b_right s.1 node ptr) in
  match l, r with
  | None, None => sret None
  | Some child_ptr, None => sret (Some child_ptr)
  | None, Some child_ptr => sret (Some child_ptr)
  | Some left_ptr, Some right_ptr =>
    let! right_child := b_node false self right_ptr in
    let! rl := on_r (b_left s.1 right_child right_ptr) in
    let! inorder_succ :=
      (match rl with
       | Some right_child_left =>
         let! '(inorder_succ_parent, inorder_succ) := b_succ_loop self (map_fuel s.1) right_ptr right_child_left in
         let! inorder_succ_node := b_node true self inorder_succ in
         let! inorder_succ_right := on_r (b_right s.1 inorder_succ_node inorder_succ) in
         let! _ := b_store_left self inorder_succ_parent inorder_succ_right in
         let! _ := b_store_right self inorder_succ (Some right_ptr) in
         sret inorder_succ
       | None => sret right_ptr
       end) in
    let! _ := b_store_left self inorder_succ (Some left_ptr) in
    sret (Some inorder_succ)
  end.

(** slab.rs:183-198 [remove] through the reference [h] *)
Definition b_slab_remove (e : env) (h : nat) (p : Ptr) : M bmap (inner K V) :=
  let! _ := on_r (retag_mut h [LSlab]) in
  let! entry := on_r (retag_mut base (node_locs p)) in
  let! _ := on_r (access false h LSlab) in
  let! _ := on_r (access_all false entry (node_locs p)) in
  let! _ := on_r (access_all true entry (node_locs p)) in
  let! _ := on_r (access true h LSlab) in
  on_m (on_nodes (slab_remove e p)).

(** map.rs:487-631 [remove_entry] *)
Definition b_remove_entry (e : env) (o : oracle K) : M bmap (option (K * V)) :=
  let! self := on_r (retag_mut base [LSlab]) in
  let! s := sget in
  let! '(parent, current) := b_remove_find self o (map_fuel s.1) 0 None (m_root s.1) in
  match current with
  | None => sret None
  | Some ptr =>
    let! replace_with := b_remove_replacement self ptr in
    let! _ :=
      (match parent with
       | Some parent_ptr =>
         let! s := sget in
         let! parent_node := b_node true self parent_ptr in
         let! l := on_r (b_left s.1 parent_node parent_ptr) in
         if bool_decide (l = current) then
           let! _ := on_r (access true parent_node (LNode parent_ptr FLeft)) in
           on_m (store_left parent_ptr replace_with)
         else
           let! _ := on_r (access true parent_node (LNode parent_ptr FRight)) in
           on_m (store_right parent_ptr replace_with)
       | None => on_m (smod (set_root replace_with))
       end) in
    let! nodes := on_r (retag_mut self [LSlab]) in
    let! node := b_slab_remove e nodes ptr in
    sret (Some (n_key node, n_value node))
  end.

(** ** Methods that take [&self]

    node.rs:9-12 [Node]: two shared references; the record is the one of [NodeMut].
    node.rs:57-62 [Node::new] *)
Definition b_node_new m (nodes : nat) (p : Ptr) : M borrows bnode :=
  let! n := b_get false m nodes p in
  sret (mkBNode nodes n p).
Definition b_opt_node m (nodes : nat) (p : option Ptr) : M borrows (option bnode) :=
  match p with
  | None => sret None
  | Some p => let! n := b_node_new m nodes p in sret (Some n)
  end.
(** node.rs:65-72 [key], [value]: the tag of the reference they return *)
Definition b_node_field (f : field) (n : bnode) : M borrows nat :=
  retag_shr (bn_node n) [LNode (bn_ptr n) f].
(** node.rs:85-94 [left], [right] *)
Definition b_node_left m (n : bnode) : M borrows (option bnode) :=
  let! c := b_left m (bn_node n) (bn_ptr n) in
  b_opt_node m (bn_nodes n) c.
Definition b_node_right m (n : bnode) : M borrows (option bnode) :=
  let! c := b_right m (bn_node n) (bn_ptr n) in
  b_opt_node m (bn_nodes n) c.
(** map.rs:734-737 [root] *)
Definition b_root m : M borrows (option bnode) :=
  let! self := retag_shr base [LSlab] in
  let! nodes := retag_shr self [LSlab] in
  b_opt_node m nodes (m_root m).

(** The loop of map.rs:226-240 [contains_key], 260-274 [get], 333-347 [get_entry]: the node
    it stops at. *)
Fixpoint b_find_loop m (o : oracle K) (fuel i : nat) (current : option bnode) : M borrows (option bnode) :=
  match fuel with
  | O => slift Diverge
  | S fuel =>
    match current with
    | None => sret None
    | Some node =>
      let! k := b_node_field FKey node in
      let! _ := access false k (LNode (bn_ptr node) FKey) in
      let! x := slift (slab_get (m_nodes m) (bn_ptr node)) in
      let! c := slift (ask o i (n_key x)) in
      match c with
      | Lt => let! cur := b_node_left m node in b_find_loop m o fuel (S i) cur
      | Gt => let! cur := b_node_right m node in b_find_loop m o fuel (S i) cur
      | Eq => sret (Some node)
      end
    end
  end.
Definition b_find m (o : oracle K) : M borrows (option bnode) :=
  let! r := b_root m in b_find_loop m o (map_fuel m) 0 r.

(** preorder.rs:26-33 [IterPreorder::next]; [nodes] is the tag of its field [nodes]. *)
Definition b_preorder_shr_next m (nodes : nat) : M biter (option refs) :=
  let! top := bi_pop in
  match top with
  | None => sret None
  | Some top_ptr =>
    let! node := on_b (b_get false m nodes top_ptr) in
    let! c := on_b (b_right m node top_ptr) in
    let! _ := bi_extend c in
    let! c := on_b (b_left m node top_ptr) in
    let! _ := bi_extend c in
    let! x := on_b (b_entry false node top_ptr) in
    sret (Some x)
  end.

(** inorder.rs:33-47 [IterInorder::next] *)
Definition b_inorder_shr_next m (nodes : nat) : M biter (option refs) :=
  let! top := bi_pop in
  match top with
  | None => sret None
  | Some top_ptr =>
    let! node := on_b (b_get false m nodes top_ptr) in
    let! c := on_b (b_right m node top_ptr) in
    let! _ := b_inorder_descend m nodes (map_fuel m) c in
    let! x := on_b (b_entry false node top_ptr) in
    sret (Some x)
  end.

(** postorder.rs:36-75 [IterPostorder::next] *)
Fixpoint b_postorder_shr_loop m (nodes : nat) (fuel : nat) : M biter (option refs) :=
  match fuel with
  | O => slift Diverge
  | S fuel =>
    let! top := bi_pop in
    match top with
    | None => sret None
    | Some current_ptr =>
      let! node := on_b (b_get false m nodes current_ptr) in
      let! right := on_b (b_right m node current_ptr) in
      let! b := (match right with
                 | Some right_ptr => bi_top_is right_ptr
                 | None => sret false
                 end) in
      match right, b with
      | Some right_ptr, true =>
        let! _ := bi_pop in
        let! _ := bi_push current_ptr in
        let! node := on_b (b_get false m nodes right_ptr) in
        let! _ := b_postorder_inner m nodes (map_fuel m) right_ptr node in
        b_postorder_shr_loop m nodes fuel
      | _, _ =>
        let! x := on_b (b_entry false node current_ptr) in
        sret (Some x)
      end
    end
  end.

(** map.rs:658-670 [iter_xxx(&self)] and the [new] functions *)
Definition b_iter_shr_start m (d : order) : M biter nat :=
  let! self := on_b (retag_shr base [LSlab]) in
  let! nodes := on_b (retag_shr self [LSlab]) in
  let! _ := (match d with
             | Pre => bi_extend (m_root m)
             | In => b_inorder_descend m nodes (map_fuel m) (m_root m)
             | Post => b_postorder_descend m nodes (map_fuel m) (m_root m)
             end) in
  sret nodes.
Definition b_iter_shr_next m (d : order) (nodes : nat) : M biter (option refs) :=
  match d with
  | Pre => b_preorder_shr_next m nodes
  | In => b_inorder_shr_next m nodes
  | Post => b_postorder_shr_loop m nodes (map_fuel m)
  end.

(** A program that reads a map. It makes any number of [Node]s and iterators, advances them
    and uses all the references it got, in any order. [VLeft j] and the like refer to the
    [j]-th [Node], [VNext j] to the [j]-th iterator, [VUse j] to the [j]-th reference to a
    key or value. *)
Inductive v_event :=
  | VRoot | VLeft (j : nat) | VRight (j : nat) | VKey (j : nat) | VValue (j : nat)
  | VContains (o : oracle K) | VGet (o : oracle K) | VGetEntry (o : oracle K)
  | VIter (d : order) | VNext (j : nat) | VUse (j : nat).

(** Without references: the [Node]s, the iterators, and what the [&K] and [&V] point to. *)
Record v_state := mkV {
  v_nodes : list (Node K V);
  v_iters : list (order * iter);
  v_refs : list (Ptr * field);
}.
Definition v_step m (ev : v_event) (st : v_state) : res v_state :=
  let add_node (x : option (Node K V)) := mkV (v_nodes st ++ opt_list x) (v_iters st) (v_refs st) in
  let add_refs l := mkV (v_nodes st) (v_iters st) (v_refs st ++ l) in
  match ev with
  | VRoot => rmap add_node (map_root m)
  | VLeft j => match v_nodes st !! j with None => Ret st | Some n => rmap add_node (node_left m n) end
  | VRight j => match v_nodes st !! j with None => Ret st | Some n => rmap add_node (node_right m n) end
  | VKey j => match v_nodes st !! j with None => Ret st | Some n => Ret (add_refs [(nd_ptr n, FKey)]) end
  | VValue j => match v_nodes st !! j with None => Ret st | Some n => Ret (add_refs [(nd_ptr n, FValue)]) end
  | VContains o => rmap (fun _ => st) (map_contains_key m o)
  | VGet o => rmap (fun x => match x with None => st | Some (p, _) => add_refs [(p, FValue)] end) (map_get_ref m o)
  | VGetEntry o => rmap (fun x => match x with None => st | Some (p, _) => add_refs [(p, FKey); (p, FValue)] end) (map_get_entry_ref m o)
  | VIter d => rmap (fun it => mkV (v_nodes st) (v_iters st ++ [(d, it)]) (v_refs st)) (iter_start m d)
  | VNext j =>
    match v_iters st !! j with
    | None => Ret st
    | Some (d, it) =>
      let '(x, it) := iter_next m d it in
      rmap (fun x => mkV (v_nodes st) (<[j:=(d, it)]> (v_iters st))
        (v_refs st ++ match x with None => [] | Some (p, _) => [(p, FKey); (p, FValue)] end)) x
    end
  | VUse j => Ret st
  end.
Fixpoint v_run m (evs : list v_event) (st : v_state) : res v_state :=
  match evs with
  | [] => Ret st
  | ev :: evs => let* st := v_step m ev st in v_run m evs st
  end.

(** With references. *)
Record bv_state := mkBV {
  bv_nodes : list bnode;
  bv_iters : list (order * nat * list Ptr);
  bv_refs : list (nat * loc);
}.
Definition of_refs (y : refs) : list (nat * loc) :=
  [(rf_key y, LNode (rf_node y) FKey); (rf_value y, LNode (rf_node y) FValue)].
Definition bv_step m (ev : v_event) (st : bv_state) : M borrows bv_state :=
  let add_node (x : option bnode) := mkBV (bv_nodes st ++ opt_list x) (bv_iters st) (bv_refs st) in
  let add_refs l := mkBV (bv_nodes st) (bv_iters st) (bv_refs st ++ l) in
  match ev with
  | VRoot => let! x := b_root m in sret (add_node x)
  | VLeft j => match bv_nodes st !! j with None => sret st | Some n => let! x := b_node_left m n in sret (add_node x) end
  | VRight j => match bv_nodes st !! j with None => sret st | Some n => let! x := b_node_right m n in sret (add_node x) end
  | VKey j =>
    match bv_nodes st !! j with
    | None => sret st
    | Some n => let! t := b_node_field FKey n in sret (add_refs [(t, LNode (bn_ptr n) FKey)])
    end
  | VValue j =>
    match bv_nodes st !! j with
    | None => sret st
    | Some n => let! t := b_node_field FValue n in sret (add_refs [(t, LNode (bn_ptr n) FValue)])
    end
  | VContains o => let! _ := b_find m o in sret st
  | VGet o =>
    let! x := b_find m o in
    match x with
    | None => sret st
    | Some n => let! t := b_node_field FValue n in sret (add_refs [(t, LNode (bn_ptr n) FValue)])
    end
  | VGetEntry o =>
    let! x := b_find m o in
    match x with
    | None => sret st
    | Some n =>
      let! k := b_node_field FKey n in
      let! v := b_node_field FValue n in
      sret (add_refs [(k, LNode (bn_ptr n) FKey); (v, LNode (bn_ptr n) FValue)])
    end
  | VIter d =>
    fun b =>
      let '(x, (stk, b)) := b_iter_shr_start m d ([], b) in
      (rmap (fun t => mkBV (bv_nodes st) (bv_iters st ++ [(d, t, stk)]) (bv_refs st)) x, b)
  | VNext j =>
    match bv_iters st !! j with
    | None => sret st
    | Some (d, t, stk) =>
      fun b =>
        let '(x, (stk, b)) := b_iter_shr_next m d t (stk, b) in
        (rmap (fun x => mkBV (bv_nodes st) (<[j:=(d, t, stk)]> (bv_iters st))
          (bv_refs st ++ match x with None => [] | Some y => of_refs y end)) x, b)
    end
  | VUse j =>
    match bv_refs st !! j with
    | None => sret st
    | Some (t, l) => let! _ := access false t l in sret st
    end
  end.
Fixpoint bv_run m (evs : list v_event) (st : bv_state) : M borrows bv_state :=
  match evs with
  | [] => sret st
  | ev :: evs => let! st := bv_step m ev st in bv_run m evs st
  end.

(** ** Programs *)

(** The events of a program with a mutable iterator that the model without references knows. *)
Definition bm_ev (ev : bm_event) : option (mut_event V) :=
  match ev with BNext => Some EvNext | BWrite j v => Some (EvWrite j v) | _ => None end.

(** Calls on one map: [insert]; [remove_entry] ([remove] drops the key it returns); [get_mut]
    and [get_entry_mut], and what is done with the result; a walk with [root_mut]; a mutable
    iterator, its items used in any order; a program that only reads. *)
Inductive a_op :=
  | AInsert (o : oracle K) (k : K) (v : V)
  | ARemove (o : oracle K)
  | AGetMut (o : oracle K) (ws : list (option V))
  | AGetEntryMut (o : oracle K) (ws : list (option V))
  | AWalkMut (evs : list nw_event) (ws : list (option V))
  | AIterMut (d : order) (evs : list bm_event)
  | AView (evs : list v_event).

Definition a_exec (e : env) (c : a_op) : M (bstmap K V) unit :=
  match c with
  | AInsert o k v => let! _ := bstmap_insert e o k v in sret tt
  | ARemove o => let! _ := map_remove_entry e o in sret tt
  | AGetMut o ws => let! _ := get_mut_program o ws in sret tt
  | AGetEntryMut o ws => let! _ := get_entry_mut_program o ws in sret tt
  | AWalkMut evs ws => nw_program evs ws
  | AIterMut d evs =>
    let! m := sget in
    let! st := slift (iter_mut_program d (omap bm_ev evs) m) in
    smod (fun _ => mu_map st)
  | AView evs =>
    let! m := sget in
    let! _ := slift (v_run m evs (mkV [] [] [])) in
    sret tt
  end.
Definition b_exec (e : env) (c : a_op) : M bmap unit :=
  match c with
  | AInsert o k v => let! _ := b_insert e o k v in sret tt
  | ARemove o => let! _ := b_remove_entry e o in sret tt
  | AGetMut o ws => let! _ := b_get_mut_program o ws in sret tt
  | AGetEntryMut o ws => let! _ := b_get_entry_mut_program o ws in sret tt
  | AWalkMut evs ws => b_nw_program evs ws
  | AIterMut d evs => fun s => let '(r, st) := bm_program d evs s.1 s.2 in (r, (bm_map st, bm_borrows st))
  | AView evs =>
    let! s := sget in
    let! _ := on_r (bv_run s.1 evs (mkBV [] [] [])) in
    sret tt
  end.

(** One call after the other; a panic is caught, anything worse ends the program. *)
Fixpoint runs {S A C} (f : C -> M S A) (cs : list C) (s : S) : list (res A) * S :=
  match cs with
  | [] => ([], s)
  | c :: cs =>
    match f c s with
    | (Ret x, s) => let '(rs, s) := runs f cs s in (Ret x :: rs, s)
    | (Panic p, s) => let '(rs, s) := runs f cs s in (Panic p :: rs, s)
    | (r, s) => ([r], s)
    end
  end.

End borrow.

(** Before the first call only the owner of the map can reach it, through [base]. *)
Definition fresh_borrows (R : rules) : borrows :=
  mkB R 1 (fun _ => [(base, SharedRW)]) (fun t => [t]) (fun _ => no_tags).

(** The states of the stacks between two calls: tags are not reused, and the owner is at the
    bottom of every stack. *)
Definition ok_stack (n : nat) (st : stack) : Prop :=
  NoDup st.*1 /\ (forall t, t ∈ st.*1 -> t < n) /\ last st = Some (base, SharedRW).

(** A tag that is readable or writable in the stack of a location is so in the tree, and was
    made from the tags below it, except that an [&] need not be made from another [&]. *)
Definition allows (p : perm) (x : tperm) : Prop :=
  match p with
  | Unique | SharedRW => x = Reserved \/ x = Active
  | SharedRO => x <> Gone
  | Disabled => True
  end.
Definition both_shared (p q : perm) : Prop := p = SharedRO /\ q = SharedRO.
Fixpoint fits (path : nat -> list nat) (pm : nat -> tperm) (st : stack) : Prop :=
  match st with
  | [] => True
  | (t, p) :: st' =>
    fits path pm st' /\
    (p = Disabled \/
     (forall u, u ∈ path t -> allows p (pm u)) /\
     (forall u q, (u, q) ∈ st' -> q <> Disabled -> ~ both_shared p q -> u ∈ path t))
  end.
(** The tags from which [t] was made are older, and so are those from which they were made. *)
Definition ok_path (n : nat) (path : nat -> list nat) (t : nat) : Prop :=
  t ∈ path t /\ forall u, u ∈ path t -> u < n /\ path u ⊆ path t.
Record ok (R : rules) (b : borrows) : Prop := mkOk {
  ok_rules : b_rules b = R;
  ok_at : forall l, ok_stack (b_next b) (b_at b l);
  ok_tree : R = Tree -> b_path b base = [base] /\
    forall l, (forall t, t ∈ (b_at b l).*1 -> ok_path (b_next b) (b_path b) t) /\
              fits (b_path b) (b_perm b l) (b_at b l);
}.

Arguments bm_event : clear implicits.
Arguments bm_state : clear implicits.
Arguments bmap : clear implicits.
Arguments nw_event : clear implicits.
Arguments v_event : clear implicits.
Arguments v_state : clear implicits.
Arguments a_op : clear implicits.
