(** * The raw pointers of [SimpleBSTMap::remove_entry], under Stacked and Tree Borrows

    [remove_entry] of simple_bst/src/map.rs:351-506 is the only unsafe code of simple_bst.
    It walks down with raw pointers to nodes. Here it is again with the references and
    pointers of the source; the rules are those of ModelBorrow.v, with a tag for every raw
    pointer. "map.rs" and "node.rs" are the files of simple_bst.

    A [Box] has the tag [base] at its own memory and keeps it when it is moved. Moving it
    counts as a write to that memory, which is how the rules retag it. Locals other than
    [right_child] have no stacks. *)

From Verif Require Export ModelSimple ModelBorrow.
Local Open Scope nat_scope.

(** The memory of the field [len]; the field [root] is [node_locs root_place]. *)
Definition len_loc : loc := LSlab.

(** Memory that has just been allocated, or a new local variable. *)
Definition new_memory (p : Ptr) : M borrows unit :=
  smod (fun b =>
    mkB (b_rules b) (b_next b) (fun l => if decide (l ∈ node_locs p) then [(base, SharedRW)] else b_at b l)
      (b_path b) (fun l => if decide (l ∈ node_locs p) then no_tags else b_perm b l)).

Section simple_borrow.
Context {K V : Type}.

Definition bsimple : Type := (simple K V * borrows)%type.
Definition on_br {A} (f : M borrows A) : M bsimple A := zoom snd (fun b s => (s.1, b)) f.
Definition on_h {A} (f : M (simple K V) A) : M bsimple A := zoom fst (fun m s => (m, s.2)) f.
Definition bs_peek (p : Ptr) : M bsimple (inner K V) := let! s := sget in slift (peek s.1 p).

(** [Box::new], and [*b] for a box [b] that was moved out of its field *)
Definition bs_box_new (e : benv) (n : inner K V) : M bsimple Ptr :=
  let! p := on_h (box_new e n) in
  let! _ := on_br (new_memory p) in
  sret p.
Definition bs_unbox (p : Ptr) : M bsimple (inner K V) :=
  let! _ := on_br (access_all true base (node_locs p)) in
  on_h (unbox p).
Definition bs_box_opt (e : benv) (o : option (inner K V)) : M bsimple (option Ptr) :=
  match o with Some n => let! p := bs_box_new e n in sret (Some p) | None => sret None end.
Definition bs_unbox_opt (o : option Ptr) : M bsimple (option (inner K V)) :=
  match o with Some p => let! n := bs_unbox p in sret (Some n) | None => sret None end.

(** ** node.rs, through a reference [n] to the node at [p] *)

(** node.rs:25-27 [key], and a read through the reference it returns *)
Definition bs_key (n : nat) (p : Ptr) : M bsimple K :=
  let! self := on_br (retag_shr n (node_locs p)) in
  let! key := on_br (retag_shr self [LNode p FKey]) in
  let! _ := on_br (access false key (LNode p FKey)) in
  let! x := bs_peek p in
  sret (n_key x).

(** node.rs:45-47 [left] *)
Definition bs_child_left (n : nat) (p : Ptr) : M bsimple (option Ptr) :=
  let! self := on_br (retag_shr n (node_locs p)) in
  let! left := on_br (retag_shr self [LNode p FLeft]) in
  let! _ := on_br (access false left (LNode p FLeft)) in
  let! x := bs_peek p in
  match n_left x with
  | None => sret None
  | Some q => let! _ := on_br (retag_shr base (node_locs q)) in sret (Some q)
  end.

(** node.rs:53-55 [left_mut], 57-59 [right_mut]: the tag of the reference and the address *)
Definition bs_left_mut (n : nat) (p : Ptr) : M bsimple (option (nat * Ptr)) :=
  let! self := on_br (retag_mut n (node_locs p)) in
  let! left := on_br (retag_mut self [LNode p FLeft]) in
  let! _ := on_br (access false left (LNode p FLeft)) in
  let! x := bs_peek p in
  match n_left x with
  | None => sret None
  | Some q => let! c := on_br (retag_mut base (node_locs q)) in sret (Some (c, q))
  end.
Definition bs_right_mut (n : nat) (p : Ptr) : M bsimple (option (nat * Ptr)) :=
  let! self := on_br (retag_mut n (node_locs p)) in
  let! right := on_br (retag_mut self [LNode p FRight]) in
  let! _ := on_br (access false right (LNode p FRight)) in
  let! x := bs_peek p in
  match n_right x with
  | None => sret None
  | Some q => let! c := on_br (retag_mut base (node_locs q)) in sret (Some (c, q))
  end.

(** node.rs:61-63 [take_left], 65-67 [take_right] *)
Definition bs_take_left (n : nat) (p : Ptr) : M bsimple (option (inner K V)) :=
  let! self := on_br (retag_mut n (node_locs p)) in
  let! left := on_br (retag_mut self [LNode p FLeft]) in
  let! _ := on_br (access true left (LNode p FLeft)) in
  let! x := bs_peek p in
  let! _ := on_h (poke p (with_left None)) in
  bs_unbox_opt (n_left x).
Definition bs_take_right (n : nat) (p : Ptr) : M bsimple (option (inner K V)) :=
  let! self := on_br (retag_mut n (node_locs p)) in
  let! right := on_br (retag_mut self [LNode p FRight]) in
  let! _ := on_br (access true right (LNode p FRight)) in
  let! x := bs_peek p in
  let! _ := on_h (poke p (with_right None)) in
  bs_unbox_opt (n_right x).

(** node.rs:82-84 [replace_left], 87-89 [replace_right] *)
Definition bs_replace_left (e : benv) (n : nat) (p : Ptr) (new_node : option (inner K V))
  : M bsimple (option (inner K V)) :=
  let! self := on_br (retag_mut n (node_locs p)) in
  let! left := on_br (retag_mut self [LNode p FLeft]) in
  let! b := bs_box_opt e new_node in
  let! _ := on_br (access true left (LNode p FLeft)) in
  let! x := bs_peek p in
  let! _ := on_h (poke p (with_left b)) in
  bs_unbox_opt (n_left x).
Definition bs_replace_right (e : benv) (n : nat) (p : Ptr) (new_node : option (inner K V))
  : M bsimple (option (inner K V)) :=
  let! self := on_br (retag_mut n (node_locs p)) in
  let! right := on_br (retag_mut self [LNode p FRight]) in
  let! b := bs_box_opt e new_node in
  let! _ := on_br (access true right (LNode p FRight)) in
  let! x := bs_peek p in
  let! _ := on_h (poke p (with_right b)) in
  bs_unbox_opt (n_right x).

(** node.rs:70-79 [set_left], [set_right] on a local *)
Definition bs_set_left_val (e : benv) (n new_node : inner K V) : M bsimple (inner K V) :=
  let! _ := slift (dassert (b_chk e) (match n_left n with None => true | Some _ => false end)) in
  let! b := bs_box_new e new_node in
  sret (with_left (Some b) n).
Definition bs_set_right_val (e : benv) (n new_node : inner K V) : M bsimple (inner K V) :=
  let! _ := slift (dassert (b_chk e) (match n_right n with None => true | Some _ => false end)) in
  let! b := bs_box_new e new_node in
  sret (with_right (Some b) n).

(** ** map.rs *)

(** map.rs:362-365 [as_ptr_mut]; [None] is the null pointer. *)
Definition bs_as_ptr_mut (o : option (nat * Ptr)) : M bsimple (option (nat * Ptr)) :=
  match o with
  | None => sret None
  | Some (c, q) => let! t := on_br (retag_raw c (node_locs q)) in sret (Some (t, q))
  end.

(** map.rs:370-388 *)
Fixpoint bs_remove_find (o : oracle K) (fuel i : nat) (parent current : option (nat * Ptr))
  : M bsimple (option (nat * Ptr) * option (nat * Ptr)) :=
  match fuel with
  | O => slift Diverge
  | S fuel =>
    match current with
    | None => sret (parent, current)
    | Some (t, p) =>
      let! node := on_br (retag_mut t (node_locs p)) in
      let! k := bs_key node p in
      let! c := slift (ask o i k) in
      match c with
      | Lt =>
        let! l := bs_left_mut node p in
        let! l := bs_as_ptr_mut l in
        bs_remove_find o fuel (S i) current l
      | Gt =>
        let! r := bs_right_mut node p in
        let! r := bs_as_ptr_mut r in
        bs_remove_find o fuel (S i) current r
      | Eq => sret (parent, current)
      end
    end
  end.

(** map.rs:412-425 *)
Fixpoint bs_succ_loop (fuel : nat) (inorder_succ_parent inorder_succ : nat * Ptr)
  : M bsimple ((nat * Ptr) * (nat * Ptr)) :=
  match fuel with
  | O => slift Diverge
  | S fuel =>
    let! inorder_succ_node := on_br (retag_mut inorder_succ.1 (node_locs inorder_succ.2)) in
    let! l := bs_left_mut inorder_succ_node inorder_succ.2 in
    match l with
    | Some (c, q) =>
      let! inorder_succ_left := on_br (retag_raw c (node_locs q)) in
      bs_succ_loop fuel inorder_succ (inorder_succ_left, q)
    | None => sret (inorder_succ_parent, inorder_succ)
    end
  end.

(** Moving the local [right_child]. *)
Definition bs_move_right_child : M bsimple (inner K V) :=
  let! _ := on_br (access_all false base (node_locs right_child_place)) in
  on_h (move_out right_child_place).

(** map.rs:396-471, with the reference [node] to the node at [current] *)
Definition bs_replacement (e : benv) (node : nat) (current : Ptr) : M bsimple (option (inner K V)) :=
  let! l := bs_take_left node current in
  let! r := bs_take_right node current in
  match l, r with
  | None, None => sret None
  | Some child, None => sret (Some child)
  | None, Some child => sret (Some child)
  | Some left_child, Some right_child =>
    let! _ := on_h (place right_child_place right_child) in
    let! _ := on_br (new_memory right_child_place) in
    let! right_child_left := bs_left_mut base right_child_place in
    let! inorder_succ_node :=
      (match right_child_left with
       | Some (c, q) =>
         let! inorder_succ := on_br (retag_raw c (node_locs q)) in
         let! rc := on_br (retag_mut base (node_locs right_child_place)) in
         let! inorder_succ_parent := on_br (retag_raw rc (node_locs right_child_place)) in
         let! s := sget in
         let! '(inorder_succ_parent, inorder_succ) :=
           bs_succ_loop (simple_fuel s.1) (inorder_succ_parent, right_child_place) (inorder_succ, q) in
         let! inorder_succ_node := on_br (retag_mut inorder_succ.1 (node_locs inorder_succ.2)) in
         let! inorder_succ_right := bs_take_right inorder_succ_node inorder_succ.2 in
         let! inorder_succ_parent_node := on_br (retag_mut inorder_succ_parent.1 (node_locs inorder_succ_parent.2)) in
         let! old := bs_replace_left e inorder_succ_parent_node inorder_succ_parent.2 inorder_succ_right in
         let! inorder_succ_node := on_h (unwrap old) in
         let! right_child := bs_move_right_child in
         bs_set_right_val e inorder_succ_node right_child
       | None => bs_move_right_child
       end) in
    let! inorder_succ_node := bs_set_left_val e inorder_succ_node left_child in
    sret (Some inorder_succ_node)
  end.

(** map.rs:351-506 [remove_entry] *)
Definition bs_remove_entry (e : benv) (o : oracle K) : M bsimple (option (K * V)) :=
  let! self := on_br (retag_mut base (len_loc :: node_locs root_place)) in
  let! s := sget in
  match simple_root s.1 with
  | None => sret None
  | Some root =>
    let! root_ref := on_br (retag_mut self (node_locs root)) in
    let! root_raw := on_br (retag_raw root_ref (node_locs root)) in
    let! '(parent, current) := bs_remove_find o (simple_fuel s.1) 0 None (Some (root_raw, root)) in
    match current with
    | None => sret None
    | Some (t, cur) =>
      let! node := on_br (retag_mut t (node_locs cur)) in
      let! _ := on_br (access true self len_loc) in
      let! _ := on_h (len_sub_one e) in
      let! replace_with := bs_replacement e node cur in
      match parent with
      | Some (tp, par) =>
        let! parent_node := on_br (retag_mut tp (node_locs par)) in
        let! left := bs_child_left parent_node par in
        let! old := (if bool_decide (left = Some cur) then bs_replace_left e parent_node par replace_with
                     else bs_replace_right e parent_node par replace_with) in
        let! node := on_h (unwrap old) in
        sret (Some (n_key node, n_value node))
      | None =>
        let! root := on_br (retag_mut self (node_locs root_place)) in
        let! _ := on_br (access_all true root (node_locs root_place)) in
        let! s := sget in
        let! node := on_h (unwrap (s_mem s.1 !! root_place)) in
        let! _ := on_h (smod (set_mem (match replace_with with
                                       | Some n => <[root_place := n]> (s_mem s.1)
                                       | None => delete root_place (s_mem s.1)
                                       end))) in
        sret (Some (n_key node, n_value node))
      end
    end
  end.

(** map.rs:328-333 [remove] *)
Definition bs_remove (e : benv) (o : oracle K) : M bsimple (option V) :=
  let! r := bs_remove_entry e o in sret (option_map snd r).

End simple_borrow.
Arguments bsimple : clear implicits.
