(** * Properties of the references: C88–C90

    Vocabulary: [ModelBorrow.v] and, for C89 and C90, [ModelBorrowFree.v]. The functions [b_..] and [bv_..] are the methods with the
    references that the source makes; the functions without prefix, or with [a_], [v_], are
    the methods without them. [ok Stacked b]: no tag is used twice and the owner of the map is at
    the bottom of every stack, which is so before the first call ([C88_case]). *)

From Verif Require Export ModelBorrow ModelBorrowFree.
From Verif Require Import Samples ProofIterProps ProofBorrow ProofBorrowRun ProofBorrowFree.
From Verif Require Import ModelIter.
Local Open Scope nat_scope.

(** ** C88. The references obey Stacked Borrows

    Any sequence of calls, with their references in use in between, gives the same answers
    and the same map as without references: no reference is used that has been invalidated. *)
Theorem C88_programs {K V : Type} : forall e (m : bstmap K V) cs b, reachable e m -> ok Stacked b ->
  exists rs m' b', runs (a_exec e) cs m = (rs, m') /\ runs (b_exec e) cs (m, b) = (rs, (m', b')) /\ ok Stacked b' /\
    forall r, r ∈ rs -> (forall u, r <> UB u) /\ r <> Diverge.
Proof. exact borrow_programs. Qed.
Print Assumptions C88_programs.

(** The single calls, with what they return. *)
Theorem C88_insert {K V : Type} : forall e o k v (m : bstmap K V) b, reachable e m -> ok Stacked b ->
  exists r m' b', bstmap_insert e o k v m = (r, m') /\ b_insert e o k v (m, b) = (r, (m', b')) /\ ok Stacked b' /\
    (forall u, r <> UB u) /\ r <> Diverge.
Proof. exact borrow_insert. Qed.
Print Assumptions C88_insert.

Theorem C88_remove_entry {K V : Type} : forall e o (m : bstmap K V) b, reachable e m -> ok Stacked b ->
  exists r m' b', map_remove_entry e o m = (r, m') /\ b_remove_entry e o (m, b) = (r, (m', b')) /\ ok Stacked b' /\
    (forall u, r <> UB u) /\ r <> Diverge.
Proof. exact borrow_remove_entry. Qed.
Print Assumptions C88_remove_entry.

Theorem C88_get_mut {K V : Type} : forall e o ws (m : bstmap K V) b, reachable e m -> ok Stacked b ->
  exists r m' b', get_mut_program o ws m = (r, m') /\ b_get_mut_program o ws (m, b) = (r, (m', b')) /\ ok Stacked b' /\
    (forall u, r <> UB u) /\ r <> Diverge.
Proof. exact borrow_get_mut. Qed.
Print Assumptions C88_get_mut.

Theorem C88_get_entry_mut {K V : Type} : forall e o ws (m : bstmap K V) b, reachable e m -> ok Stacked b ->
  exists r m' b', get_entry_mut_program o ws m = (r, m') /\ b_get_entry_mut_program o ws (m, b) = (r, (m', b')) /\ ok Stacked b' /\
    (forall u, r <> UB u) /\ r <> Diverge.
Proof. exact borrow_get_entry_mut. Qed.
Print Assumptions C88_get_entry_mut.

Theorem C88_node_mut {K V : Type} : forall e evs ws (m : bstmap K V) b, reachable e m -> ok Stacked b ->
  exists m' b', nw_program evs ws m = (Ret tt, m') /\ b_nw_program evs ws (m, b) = (Ret tt, (m', b')) /\ ok Stacked b'.
Proof. exact borrow_node_mut. Qed.
Print Assumptions C88_node_mut.

(** A mutable iterator: every reference it has yielded stays usable, in any order, while it
    goes on and after it has ended. *)
Theorem C88_iter_mut {K V : Type} : forall e d evs (m : bstmap K V) b, reachable e m -> ok Stacked b ->
  exists st st', bm_program d evs m b = (Ret tt, st) /\ iter_mut_program d (omap bm_ev evs) m = Ret st' /\
    bm_map st = mu_map st' /\ bm_stack st = it_stack (mu_iter st') /\
    rf_node <$> bm_refs st = (mu_yielded st').*1 /\ ok Stacked (bm_borrows st).
Proof. exact borrow_iter_mut. Qed.
Print Assumptions C88_iter_mut.

(** Any number of nodes, iterators and references at once, while only [&self] methods are
    called. Such a program ends normally, unless a comparison panics. *)
Theorem C88_views {K V : Type} : forall e evs (m : bstmap K V) b, reachable e m -> ok Stacked b ->
  exists b', ok Stacked b' /\
  ((exists st st', v_run m evs (mkV [] [] []) = Ret st /\ bv_run m evs (mkBV [] [] []) b = (Ret st', b') /\
      bn_ptr <$> bv_nodes st' = nd_ptr <$> v_nodes st /\
      (bv_refs st').*2 = (fun x => LNode x.1 x.2) <$> v_refs st /\
      (bv_iters st').*2 = (fun x => it_stack x.2) <$> v_iters st) \/
   (v_run m evs (mkV [] [] []) = Panic PCmp /\ bv_run m evs (mkBV [] [] []) b = (Panic PCmp, b'))).
Proof. exact borrow_views. Qed.
Print Assumptions C88_views.

(** ** Cases *)
Definition borrow_ops : list (a_op SK N) :=
  [ AInsert (so (sq 50)) (50, 0)%N 7%N;
    AIterMut In [BNext; BNext; BWrite 1 3%N; BNext; BWrite 0 4%N; BReadKey 2; BReadValue 0];
    AView [VRoot; VLeft 0; VIter Post; VNext 0; VGetEntry (so (sq 50)); VKey 1; VIter In; VNext 1; VUse 0; VNext 0; VUse 3];
    AGetEntryMut (so (sq 50)) [Some 1%N; None; Some 2%N];
    AWalkMut [NRead; NLeft; NWrite 5%N; NRight; NRead] [None; Some 6%N];
    ARemove (so (sq 70)); ARemove (so (sq 50));
    AGetMut (so (sq 40)) [Some 1%N]; AInsert (so (sq 40)) (40, 0)%N 8%N;
    AView [VIter Pre; VNext 0; VNext 0; VUse 1; VUse 3] ].

Example C88_case : reachable senv sample /\ ok Stacked (fresh_borrows Stacked) /\
  (runs (b_exec senv) borrow_ops (sample, fresh_borrows Stacked)).1 = replicate 10 (Ret tt).
Proof. split; [exact sample_reachable|]. split; [exact fresh_ok|]. by vm_compute. Qed.

(** The stacks do tell: a reference from an earlier [get_mut] cannot be used after a later
    one, nor a [&V] after an insertion, nor an item of a mutable iterator after a new one has
    been made. *)
Definition stale_mut : M (bmap SK N) unit :=
  let! a := b_get_mut (so (sq 30)) in
  let! _ := b_get_mut (so (sq 30)) in
  match a with Some (t, p) => b_uses t p [Some 1%N] | None => sret tt end.
Definition stale_shared : M (bmap SK N) unit :=
  let! s := sget in
  let! st := on_r (bv_run s.1 [VIter In; VNext 0] (mkBV [] [] [])) in
  let! _ := b_insert senv (so (sq 50)) (50, 0)%N 7%N in
  match bv_refs st !! 1 with Some (t, l) => on_r (access false t l) | None => sret tt end.
Definition stale_item : M (bmap SK N) unit :=
  fun s => let st := (bm_program In [BNext] s.1 s.2).2 in
           let st' := (bm_program Pre [BNext; BNext; BNext] (bm_map st) (bm_borrows st)).2 in
           match bm_refs st !! 0 with
           | Some y => on_r (access true (rf_value y) (LNode (rf_node y) FValue)) (bm_map st', bm_borrows st')
           | None => (Ret tt, s)
           end.
Example C88_stale_case :
  (stale_mut (sample, fresh_borrows Stacked)).1 = UB UAlias /\
  (stale_shared (sample, fresh_borrows Stacked)).1 = UB UAlias /\
  (stale_item (sample, fresh_borrows Stacked)).1 = UB UAlias.
Proof. by vm_compute. Qed.

(** ** C89. Clearing, growing, shrinking and dropping, with untagged raw pointers

    Any sequence of calls, now with [clear], [reserve] and [shrink_to_fit], and then the
    destructor of the map: the same answers and the same map as without references. *)
Theorem C89_programs {K V : Type} : forall e (m : bstmap K V) cs b pn, reachable e m -> ok Stacked b ->
  exists rs m' b', runs (fa_exec e) cs m = (rs, m') /\ runs (fb_exec false e) cs (m, b) = (rs, (m', b')) /\
    (forall r, r ∈ rs -> (forall u, r <> UB u) /\ r <> Diverge) /\
    exists r m'' b'', map_drop e pn m' = (r, m'') /\ b_drop false e pn (m', b') = (r, (m'', b'')) /\
      (r = Ret tt \/ r = Panic PDrop).
Proof. exact free_programs. Qed.
Print Assumptions C89_programs.

(** [clear] when destructors of keys or values panic *)
Theorem C89_clear {K V : Type} : forall e pn (m : bstmap K V) b, reachable e m -> ok Stacked b ->
  exists r m' b', map_clear e pn m = (r, m') /\ b_clear e pn (m, b) = (r, (m', b')) /\ ok Stacked b' /\
    (r = Ret tt \/ r = Panic PDrop).
Proof. exact free_clear. Qed.
Print Assumptions C89_clear.

Definition free_ops : list (f_op SK N) :=
  [ FCall (AInsert (so (sq 50)) (50, 0)%N 7%N); FReserve 100%N; FShrink; FCall (ARemove (so (sq 70)));
    FCall (AIterMut In [BNext; BNext; BWrite 1 3%N; BNext; BWrite 0 4%N]); FClear; FShrink;
    FCall (AInsert (so (sq 50)) (50, 0)%N 7%N) ].
Example C89_case : reachable senv sample /\ ok Stacked (fresh_borrows Stacked) /\
  (runs (fb_exec false senv) free_ops (sample, fresh_borrows Stacked)).1 = replicate 8 (Ret tt) /\
  (b_drop false senv (fun _ => false) (runs (fb_exec false senv) free_ops (sample, fresh_borrows Stacked)).2).1 = Ret tt /\
  (b_drop false senv (fun n => bool_decide ((n_key n).1 = 60%N)) (sample, fresh_borrows Stacked)).1 = Panic PDrop.
Proof. split; [exact sample_reachable|]. split; [exact fresh_ok|]. by vm_compute. Qed.

(** ** C90. The same with tagged raw pointers

    The claim would be that [shrink_to_fit] and the destructor obey the rules in this
    version too. It is false: [chunk.as_mut()] only covers the first element of the chunk
    that is given back. *)
Theorem C90_refuted : exists e (m : bstmap SK N) b, reachable e m /\ ok Stacked b /\
  (map_drop e (fun _ => false) m).1 = Ret tt /\ (b_drop true e (fun _ => false) (m, b)).1 = UB UAlias.
Proof.
  exists senv, sample, (fresh_borrows Stacked). split; [exact sample_reachable|]. split; [exact fresh_ok|]. by vm_compute.
Qed.
Print Assumptions C90_refuted.

(** Exactly when it happens: [shrink_to_fit] whenever it gives a chunk back, *)
Theorem C90_shrink {K V : Type} : forall e (m : bstmap K V) b, reachable e m -> ok Stacked b ->
  exists m', map_shrink_to_fit e m = (Ret tt, m') /\
    ((map_capacity m' < map_capacity m)%N -> (b_shrink_to_fit true e (m, b)).1 = UB UAlias) /\
    (map_capacity m' = map_capacity m -> exists b', b_shrink_to_fit true e (m, b) = (Ret tt, (m', b')) /\ ok Stacked b').
Proof. exact free_shrink_tagged. Qed.
Print Assumptions C90_shrink.

(** and the destructor of every map that ever allocated. *)
Theorem C90_drop {K V : Type} : forall e pn (m : bstmap K V) b, reachable e m -> ok Stacked b ->
  ((0 < map_capacity m)%N -> (b_drop true e pn (m, b)).1 = UB UAlias) /\
  (map_capacity m = 0%N -> exists r m' b', map_drop e pn m = (r, m') /\ b_drop true e pn (m, b) = (r, (m', b'))).
Proof. exact free_drop_tagged. Qed.
Print Assumptions C90_drop.

(** After [reserve] there is a chunk to give back, which is an error. Without it
    [shrink_to_fit] does nothing. *)
Example C90_case : reachable senv sample /\ map_capacity sample = 8%N /\
  (b_shrink_to_fit true senv (sample, fresh_borrows Stacked)).1 = Ret tt /\
  (runs (fb_exec true senv) [FReserve 10%N; FShrink] (sample, fresh_borrows Stacked)).1 = [Ret tt; UB UAlias] /\
  (b_drop true senv (fun _ => false) (map_new (K:=SK) (V:=N), fresh_borrows Stacked)).1 = Ret tt.
Proof. split; [exact sample_reachable|]. by vm_compute. Qed.
