(** * Clearing a map and giving its memory back, under Stacked and Tree Borrows

    [clear], [reserve], [shrink_to_fit] and [drop] of ModelMap.v, with the references of the
    source (see ModelBorrow.v). A chunk is given back with

    [Vec::from_raw_parts(chunk.as_mut(), chunk_len, chunk_len)]

    (arena.rs:363, 451). [chunk.as_mut()] is a [&mut MaybeUninit<T>]: a reference to the
    first element of the chunk only, which then becomes a raw pointer. Whether the other
    elements may be given back through that pointer depends on whether a raw pointer has a
    tag of its own. It has none in the POPL 2020 paper ([tagged = false]), where one raw
    pointer is as good as another. It has one in later versions, such as the one that Miri
    checks ([tagged = true]), and under Tree Borrows, where a tag can be used in all of the
    memory that its reference points into. *)

From Verif Require Export ModelBorrow.
Local Open Scope N_scope.

Section free.
Context {K V : Type}.
Notation bmap := (bmap K V).

Definition on_arena {A} (f : M (arena (entry (inner K V))) A) : M bmap A := on_m (on_nodes (on_items f)).
Definition items_of (s : bmap) : arena (entry (inner K V)) := s_items (m_nodes s.1).

(** ** [clear] *)

(** slab.rs:257-266 [reset_internal_state] and arena.rs:286-292 *)
Definition b_reset (e : env) (h : nat) : M bmap unit :=
  let! items := on_r (retag_mut h [LSlab]) in
  let! _ := on_r (access true items LSlab) in
  let! _ := on_r (access true h LSlab) in
  on_m (on_nodes (reset_internal_state e)).

(** slab.rs:224-233: [get_unchecked] of the arena (arena.rs:223-227), then a read. *)
Fixpoint b_collect_free (h : nat) (fuel : nat) (current : option Ptr) (acc : gset Ptr) : M bmap (gset Ptr) :=
  match fuel with
  | O => slift Diverge
  | S fuel =>
    match current with
    | None => sret acc
    | Some ptr =>
      let acc := {[ ptr ]} ∪ acc in
      let! _ := on_r (retag_shr h [LSlab]) in
      let! entry := on_r (retag_shr base (node_locs ptr)) in
      let! _ := on_r (access_all false entry (node_locs ptr)) in
      let! en := of_m (fun m => arena_get (s_items (m_nodes m)) ptr) in
      let! next_free := slift (entry_next en) in
      b_collect_free h fuel next_free acc
    end
  end.

(** slab.rs:235-245. [it] is the [&mut StableArena] in the iterator. [next_ptr]
    (arena.rs:624-633) calls [ptr_at(&self)] and makes a [&mut] of the entry. *)
Fixpoint b_drop_loop (e : env) (panics : inner K V -> bool) (it : nat) (fuel : nat) (free : gset Ptr) (r : range)
  : M bmap unit :=
  match fuel with
  | O => slift Diverge
  | S fuel =>
    let! s := sget in
    let '(x, r') := next_ptr e (items_of s) r in
    let! x := slift x in
    match x with
    | None => sret tt
    | Some (ptr, _) =>
      let! _ := on_r (retag_shr it [LSlab]) in
      let! entry := on_r (retag_mut base (node_locs ptr)) in
      if decide (ptr ∈ free) then b_drop_loop e panics it fuel free r'
      else
        let! value := on_r (retag_mut entry (node_locs ptr)) in
        let! _ := on_r (access_all true value (node_locs ptr)) in
        let! _ := on_m (on_nodes (drop_value panics ptr)) in
        b_drop_loop e panics it fuel free r'
    end
  end.

(** slab.rs:205-249 [clear] *)
Definition b_slab_clear (e : env) (panics : inner K V -> bool) (h : nat) : M bmap unit :=
  let! _ := on_r (access false h LSlab) in
  let! s := sget in
  if negb (e_nd e) || (arena_len (items_of s) =? s_free (m_nodes s.1)) then b_reset e h
  else
    let! free_pointers := b_collect_free h (S (N.to_nat (arena_len (items_of s)))) (s_head (m_nodes s.1)) ∅ in
    let! it := on_r (retag_mut h [LSlab]) in
    let! _ := b_drop_loop e panics it (S (N.to_nat (arena_len (items_of s)))) free_pointers (iter_new (items_of s)) in
    b_reset e h.

(** map.rs:650-655 [clear] *)
Definition b_clear (e : env) (panics : inner K V -> bool) : M bmap unit :=
  let! self := on_r (retag_mut base [LSlab]) in
  let! nodes := on_r (retag_mut self [LSlab]) in
  let! _ := b_slab_clear e panics nodes in
  on_m (smod (set_root None)).

(** ** [reserve]: map.rs:758-760, slab.rs:273-275, arena.rs:337-343, 393-420 *)
Definition b_reserve (e : env) (additional : N) : M bmap unit :=
  let! self := on_r (retag_mut base [LSlab]) in
  let! nodes := on_r (retag_mut self [LSlab]) in
  let! _ := on_r (access true nodes LSlab) in
  on_m (map_reserve e additional).

(** ** Giving chunks back *)

(** [&mut T] as [*mut T] *)
Definition as_raw (tagged : bool) (t : nat) (ls : list loc) : M borrows nat :=
  if tagged then retag_raw t ls
  else
    let! _ := access_all true t ls in
    let! _ := push_all base SharedRW ls in
    sret base.

(** The memory of the chunk [c] of [cl] elements. *)
Definition chunk_locs (c cl : N) : list loc :=
  flat_map (fun i => node_locs (c, N.of_nat i)) (seq 0 (N.to_nat cl)).

(** Memory that has been given back has no references to it any more. *)
Definition forget (c : N) : M borrows unit :=
  smod (fun b =>
    let gone l := match l with LNode (c', _) _ => c' =? c | LSlab => false end in
    mkB (b_rules b) (b_next b) (fun l => if gone l then [(base, SharedRW)] else b_at b l)
      (b_path b) (fun l => if gone l then no_tags else b_perm b l)).

(** arena.rs:363, 451. [chunk] is the [&mut NonNull<MaybeUninit<T>>] in the vector of the
    arena. Giving memory back counts as a write to all of it. *)
Definition b_free_chunk (tagged : bool) (chunk : nat) (c cl : N) : M bmap unit :=
  let! _ := on_r (access false chunk LSlab) in
  let! first := on_r (retag_mut base (node_locs (c, 0))) in
  let! ptr := on_r (as_raw tagged first (node_locs (c, 0))) in
  let! _ := on_r (access_all true ptr (chunk_locs c cl)) in
  let! _ := on_r (forget c) in
  on_arena (free_chunk c cl).

(** arena.rs:350-374 *)
Fixpoint b_shrink_loop (tagged : bool) (e : env) (h : nat) (fuel : nat) (chunks_len : N) : M bmap unit :=
  match fuel with
  | O => slift Diverge
  | S fuel =>
    let! chunk := on_r (retag_mut h [LSlab]) in
    let! s := sget in
    let a := items_of s in
    match list.last (a_chunks a) with
    | None => sret tt
    | Some c =>
      let! cl1 := slift (usub (e_chk e) chunks_len 1) in
      let chunk_i := cl1 mod U32 in
      let! cl := slift (chunk_len e chunk_i) in
      let! room := slift (usub (e_chk e) (a_cap a) cl) in
      if a_len a <=? room then
        let! _ := b_free_chunk tagged chunk c cl in
        let! _ := on_r (access true h LSlab) in
        let! _ := on_arena (smod (fun a => set_chunks (removelast (a_chunks a)) a)) in
        let! chunks_len' := slift (usub (e_chk e) chunks_len 1) in
        let! cap := slift (usub (e_chk e) (a_cap a) cl) in
        let! _ := on_arena (smod (set_acap cap)) in
        b_shrink_loop tagged e h fuel chunks_len'
      else sret tt
    end
  end.

(** map.rs:765-767, slab.rs:280-282, arena.rs:348-378 [shrink_to_fit] *)
Definition b_shrink_to_fit (tagged : bool) (e : env) : M bmap unit :=
  let! self := on_r (retag_mut base [LSlab]) in
  let! nodes := on_r (retag_mut self [LSlab]) in
  let! items := on_r (retag_mut nodes [LSlab]) in
  let! s := sget in
  let a := items_of s in
  let! _ := b_shrink_loop tagged e items (S (length (a_chunks a))) (N.of_nat (length (a_chunks a))) in
  on_r (access true items LSlab).

(** arena.rs:444-452; [it] is the iterator over [&mut self.chunks]. *)
Fixpoint b_free_chunks (tagged : bool) (e : env) (it : nat) (chunk_i : N) (chunks : list N) : M bmap unit :=
  match chunks with
  | [] => sret tt
  | c :: chunks' =>
    let! cl := slift (chunk_len e chunk_i) in
    let! _ := b_free_chunk tagged it c cl in
    b_free_chunks tagged e it (chunk_i + 1) chunks'
  end.

(** arena.rs:439-454. The slab's entries never need to be dropped, so [clear] only sets the
    length. *)
Definition b_arena_drop (tagged : bool) (e : env) : M bmap unit :=
  let! self := on_r (retag_mut base [LSlab]) in
  let! clear_self := on_r (retag_mut self [LSlab]) in
  let! _ := on_r (access true clear_self LSlab) in
  let! _ := on_arena (arena_clear e false (fun _ => false)) in
  let! it := on_r (retag_mut self [LSlab]) in
  let! s := sget in
  let! _ := b_free_chunks tagged e it 0 (a_chunks (items_of s)) in
  on_arena (smod (set_chunks [])).

(** slab.rs:289-298, then the field [items] is dropped, also if a destructor panicked. *)
Definition b_drop (tagged : bool) (e : env) (panics : inner K V -> bool) : M bmap unit :=
  fun s =>
    let '(r, s1) :=
      (let! self := on_r (retag_mut base [LSlab]) in
       if negb (e_nd e) then sret tt
       else
         let! nodes := on_r (retag_mut self [LSlab]) in
         b_slab_clear e panics nodes) s in
    match r with
    | Ret _ => b_arena_drop tagged e s1
    | Panic p =>
      match b_arena_drop tagged e s1 with
      | (Ret _, s2) => (Panic p, s2)
      | x => x
      end
    | _ => (r, s1)
    end.

(** ** Programs: the calls of ModelBorrow.v and the ones of this file *)
Inductive f_op :=
  | FCall (c : a_op K V)
  | FClear
  | FReserve (additional : N)
  | FShrink.
Definition fa_exec (e : env) (c : f_op) : M (bstmap K V) unit :=
  match c with
  | FCall c => a_exec e c
  | FClear => map_clear e (fun _ => false)
  | FReserve n => map_reserve e n
  | FShrink => map_shrink_to_fit e
  end.
Definition fb_exec (tagged : bool) (e : env) (c : f_op) : M bmap unit :=
  match c with
  | FCall c => b_exec e c
  | FClear => b_clear e (fun _ => false)
  | FReserve n => b_reserve e n
  | FShrink => b_shrink_to_fit tagged e
  end.

End free.
Arguments f_op : clear implicits.
