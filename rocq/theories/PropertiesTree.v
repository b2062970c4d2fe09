(** * The references under Tree Borrows: C96

    Vocabulary: [ModelBorrow.v], [ModelBorrowFree.v] and [ModelSimpleBorrow.v], as for
    C88–C91; now the rules are those of Tree Borrows. [ok Tree b] holds before the first call
    ([C96_case]) and between two calls. *)

From Verif Require Export ModelBorrow ModelBorrowFree ModelSimpleBorrow.
From Verif Require Import Samples PropertiesSimple PropertiesSimpleBorrow PropertiesBorrow.
From Verif Require Import ProofIterProps ProofBorrow ProofBorrowRun ProofBorrowFree ProofSimpleBorrow.
From Verif Require Import ModelIter.
Local Open Scope nat_scope.

(** ** C96. The references obey Tree Borrows

    Any sequence of calls, with their references in use in between, and then the destructor
    of the map: the same answers and the same map as without references. Unlike under Stacked
    Borrows (C90), a raw pointer made from a reference to the first element of a chunk can be
    used to give all of the chunk back. *)
Theorem C96_programs {K V : Type} : forall e (m : bstmap K V) cs b pn, reachable e m -> ok Tree b ->
  exists rs m' b', runs (fa_exec e) cs m = (rs, m') /\ runs (fb_exec true e) cs (m, b) = (rs, (m', b')) /\
    (forall r, r ∈ rs -> (forall u, r <> UB u) /\ r <> Diverge) /\
    exists r m'' b'', map_drop e pn m' = (r, m'') /\ b_drop true e pn (m', b') = (r, (m'', b'')) /\
      (r = Ret tt \/ r = Panic PDrop).
Proof. exact free_programs. Qed.
Print Assumptions C96_programs.

(** [clear] when destructors of keys or values panic *)
Theorem C96_clear {K V : Type} : forall e pn (m : bstmap K V) b, reachable e m -> ok Tree b ->
  exists r m' b', map_clear e pn m = (r, m') /\ b_clear e pn (m, b) = (r, (m', b')) /\ ok Tree b' /\
    (r = Ret tt \/ r = Panic PDrop).
Proof. exact free_clear. Qed.
Print Assumptions C96_clear.

(** The single calls, with what they return. *)
Theorem C96_insert {K V : Type} : forall e o k v (m : bstmap K V) b, reachable e m -> ok Tree b ->
  exists r m' b', bstmap_insert e o k v m = (r, m') /\ b_insert e o k v (m, b) = (r, (m', b')) /\ ok Tree b' /\
    (forall u, r <> UB u) /\ r <> Diverge.
Proof. exact borrow_insert. Qed.
Print Assumptions C96_insert.

Theorem C96_remove_entry {K V : Type} : forall e o (m : bstmap K V) b, reachable e m -> ok Tree b ->
  exists r m' b', map_remove_entry e o m = (r, m') /\ b_remove_entry e o (m, b) = (r, (m', b')) /\ ok Tree b' /\
    (forall u, r <> UB u) /\ r <> Diverge.
Proof. exact borrow_remove_entry. Qed.
Print Assumptions C96_remove_entry.

Theorem C96_get_mut {K V : Type} : forall e o ws (m : bstmap K V) b, reachable e m -> ok Tree b ->
  exists r m' b', get_mut_program o ws m = (r, m') /\ b_get_mut_program o ws (m, b) = (r, (m', b')) /\ ok Tree b' /\
    (forall u, r <> UB u) /\ r <> Diverge.
Proof. exact borrow_get_mut. Qed.
Print Assumptions C96_get_mut.

Theorem C96_get_entry_mut {K V : Type} : forall e o ws (m : bstmap K V) b, reachable e m -> ok Tree b ->
  exists r m' b', get_entry_mut_program o ws m = (r, m') /\ b_get_entry_mut_program o ws (m, b) = (r, (m', b')) /\ ok Tree b' /\
    (forall u, r <> UB u) /\ r <> Diverge.
Proof. exact borrow_get_entry_mut. Qed.
Print Assumptions C96_get_entry_mut.

Theorem C96_node_mut {K V : Type} : forall e evs ws (m : bstmap K V) b, reachable e m -> ok Tree b ->
  exists m' b', nw_program evs ws m = (Ret tt, m') /\ b_nw_program evs ws (m, b) = (Ret tt, (m', b')) /\ ok Tree b'.
Proof. exact borrow_node_mut. Qed.
Print Assumptions C96_node_mut.

(** A mutable iterator: every reference it has yielded stays usable, in any order, while it
    goes on and after it has ended. *)
Theorem C96_iter_mut {K V : Type} : forall e d evs (m : bstmap K V) b, reachable e m -> ok Tree b ->
  exists st st', bm_program d evs m b = (Ret tt, st) /\ iter_mut_program d (omap bm_ev evs) m = Ret st' /\
    bm_map st = mu_map st' /\ bm_stack st = it_stack (mu_iter st') /\
    rf_node <$> bm_refs st = (mu_yielded st').*1 /\ ok Tree (bm_borrows st).
Proof. exact borrow_iter_mut. Qed.
Print Assumptions C96_iter_mut.

(** Any number of nodes, iterators and references at once, while only [&self] methods are
    called. Such a program ends normally, unless a comparison panics. *)
Theorem C96_views {K V : Type} : forall e evs (m : bstmap K V) b, reachable e m -> ok Tree b ->
  exists b', ok Tree b' /\
  ((exists st st', v_run m evs (mkV [] [] []) = Ret st /\ bv_run m evs (mkBV [] [] []) b = (Ret st', b') /\
      bn_ptr <$> bv_nodes st' = nd_ptr <$> v_nodes st /\
      (bv_refs st').*2 = (fun x => LNode x.1 x.2) <$> v_refs st /\
      (bv_iters st').*2 = (fun x => it_stack x.2) <$> v_iters st) \/
   (v_run m evs (mkV [] [] []) = Panic PCmp /\ bv_run m evs (mkBV [] [] []) b = (Panic PCmp, b'))).
Proof. exact borrow_views. Qed.
Print Assumptions C96_views.

(** The raw pointers of [SimpleBSTMap] *)
Theorem C96_simple_remove_entry {K V : Type} : forall e o (m : simple K V) b, simple_reachable e m -> ok Tree b ->
  exists r m' b', simple_remove_entry e o m = (r, m') /\ bs_remove_entry e o (m, b) = (r, (m', b')) /\ ok Tree b' /\
    (forall u, r <> UB u) /\ r <> Diverge.
Proof. exact simple_borrow_remove_entry. Qed.
Print Assumptions C96_simple_remove_entry.

Theorem C96_simple_remove {K V : Type} : forall e o (m : simple K V) b, simple_reachable e m -> ok Tree b ->
  exists r m' b', simple_remove e o m = (r, m') /\ bs_remove e o (m, b) = (r, (m', b')) /\ ok Tree b' /\
    (forall u, r <> UB u) /\ r <> Diverge.
Proof. exact simple_borrow_remove. Qed.
Print Assumptions C96_simple_remove.

(** ** Cases *)
Notation fresh := (fresh_borrows Tree).
Example C96_case : reachable senv sample /\ ok Tree fresh /\
  (runs (fb_exec true senv) (FCall <$> borrow_ops) (sample, fresh)).1 = replicate 10 (Ret tt) /\
  (runs (fb_exec true senv) free_ops (sample, fresh)).1 = replicate 8 (Ret tt) /\
  (runs (fb_exec true senv) [FReserve 10%N; FShrink] (sample, fresh)).1 = [Ret tt; Ret tt] /\
  (b_drop true senv (fun _ => false) (sample, fresh)).1 = Ret tt /\
  (b_drop true senv (fun n => bool_decide ((n_key n).1 = 60%N)) (sample, fresh)).1 = Panic PDrop.
Proof. split; [exact sample_reachable|]. split; [exact fresh_ok|]. by vm_compute. Qed.

Example C96_simple_case : simple_reachable benv0 deep /\
  (removes 50 60 (deep, fresh)).1 = Ret (Some ((50, 0), 1), Some ((60, 0), 5))%N /\
  (removes 30 80 (deep, fresh)).1 = Ret (Some ((30, 0), 2), Some ((80, 0), 3))%N /\
  (bs_remove_entry benv0 (so_panic 2 (sq 60)) (deep, fresh)).1 = Panic PCmp.
Proof. split; [exact deep_reachable|]. by vm_compute. Qed.

(** The tree does tell. Two [&mut] to the same value: the older one can be used for as long as
    nothing is written through the newer one, which Stacked Borrows forbids
    ([C88_stale_case]), but not after that. Once written through, a [&mut] can only be read
    after another read, and only in its own chunk. A [&V] cannot be used after the value has
    been replaced, cannot be written through (not even after a cast to [&mut V]), and cannot be used after the memory was given
    back. *)
Definition two_mut : M (bmap SK N) unit :=
  let! a := b_get_mut (so (sq 30)) in
  let! a' := b_get_mut (so (sq 30)) in
  match a, a' with
  | Some (t, p), Some (t', p') => let! _ := b_uses t' p' [Some 1%N] in b_uses t p [Some 2%N]
  | _, _ => sret tt
  end.
Definition shared_30 (then_do : M (bmap SK N) unit) (wr : bool) : M (bmap SK N) unit :=
  let! s := sget in
  let! st := on_r (bv_run s.1 [VGetEntry (so (sq 30))] (mkBV [] [] [])) in
  let! _ := then_do in
  match bv_refs st !! 1 with Some (t, l) => on_r (access wr t l) | None => sret tt end.
Definition mut_30 (then_do : M (bmap SK N) unit) (w : option N) (far : bool) : M (bmap SK N) unit :=
  let! a := b_get_mut (so (sq 30)) in
  match a with
  | Some (t, p) =>
    let! _ := b_uses t p [Some 1%N] in
    let! _ := then_do in
    if far then on_r (access false t (LNode (p.1 + 1, p.2)%N FValue)) else b_uses t p [w]
  | None => sret tt
  end.
Definition cast_30 : M (bmap SK N) unit :=
  let! s := sget in
  let! st := on_r (bv_run s.1 [VGetEntry (so (sq 30))] (mkBV [] [] [])) in
  match bv_refs st !! 1 with
  | Some (t, l) => let! t' := on_r (retag_mut t [l]) in on_r (access true t' l)
  | None => sret tt
  end.
Definition replace (k : N) : M (bmap SK N) unit := let! _ := b_insert senv (so (sq k)) (k, 0)%N 7%N in sret tt.
Example C96_stale_case :
  (stale_mut (sample, fresh)).1 = Ret tt /\ (two_mut (sample, fresh)).1 = UB UAlias /\
  (mut_30 (sret tt) (Some 2%N) false (sample, fresh)).1 = Ret tt /\
  (mut_30 (shared_30 (sret tt) false) None false (sample, fresh)).1 = Ret tt /\
  (mut_30 (shared_30 (sret tt) false) (Some 2%N) false (sample, fresh)).1 = UB UAlias /\
  (mut_30 (sret tt) None true (sample, fresh)).1 = UB UAlias /\
  (shared_30 (sret tt) false (sample, fresh)).1 = Ret tt /\
  (shared_30 (sret tt) true (sample, fresh)).1 = UB UAlias /\
  (cast_30 (sample, fresh)).1 = UB UAlias /\
  (shared_30 (replace 40) false (sample, fresh)).1 = Ret tt /\
  (shared_30 (replace 30) false (sample, fresh)).1 = UB UAlias /\
  (shared_30 (let! _ := b_clear senv (fun _ => false) in b_shrink_to_fit true senv) false (sample, fresh)).1 = UB UAlias.
Proof. by vm_compute. Qed.
