(** * The raw pointers of SimpleBSTMap: C91

    Vocabulary: [ModelBorrow.v] (the rules) and [ModelSimpleBorrow.v]. [bs_remove_entry] and
    [bs_remove] are the methods with the references and raw pointers that the source makes.
    [ok Stacked b]: no tag is used twice and the owner is at the bottom of every stack. *)

From Verif Require Export ModelSimpleBorrow.
From Verif Require Import PropertiesSimple ProofBorrowRun ProofSimpleBorrow.
From Verif Require Import ModelSimpleBorrow.
Local Open Scope nat_scope.

(** ** C91. The raw pointers of [remove_entry] obey Stacked Borrows

    The answer and the map are the same as without references: no pointer is used that has
    been invalidated, and no call ends in undefined behaviour or does not end. *)
Theorem C91_remove_entry {K V : Type} : forall e o (m : simple K V) b, simple_reachable e m -> ok Stacked b ->
  exists r m' b', simple_remove_entry e o m = (r, m') /\ bs_remove_entry e o (m, b) = (r, (m', b')) /\ ok Stacked b' /\
    (forall u, r <> UB u) /\ r <> Diverge.
Proof. exact simple_borrow_remove_entry. Qed.
Print Assumptions C91_remove_entry.

Theorem C91_remove {K V : Type} : forall e o (m : simple K V) b, simple_reachable e m -> ok Stacked b ->
  exists r m' b', simple_remove e o m = (r, m') /\ bs_remove e o (m, b) = (r, (m', b')) /\ ok Stacked b' /\
    (forall u, r <> UB u) /\ r <> Diverge.
Proof. exact simple_borrow_remove. Qed.
Print Assumptions C91_remove.

(** ** Cases *)

(** The successor of 50 is two steps below its right child and has a right child itself. *)
Definition deep_ops : list (op SK N) :=
  [ins 50 0 1; ins 30 0 2; ins 80 0 3; ins 70 0 4; ins 60 0 5; ins 65 0 6; ins 90 0 7; ins 20 0 8; ins 40 0 9]%N.
Definition deep_run := simple_run benv0 deep_ops simple_new.
Definition deep : simple SK N := deep_run.2.
Lemma deep_reachable : simple_reachable benv0 deep.
Proof.
  exists SNew, deep_ops, deep_run.1. split; [done|]. split; [by repeat constructor|].
  split; [exists simple_new; split; [done|]; apply surjective_pairing|]. vm_compute. repeat constructor; discriminate.
Qed.

(** Removing [k], then [k']. *)
Definition removes (k k' : N) : M (bsimple SK N) (option (SK * N) * option (SK * N)) :=
  let! a := bs_remove_entry benv0 (so (sq k)) in
  let! a' := bs_remove_entry benv0 (so (sq k')) in
  sret (a, a').

Example C91_case : simple_reachable benv0 deep /\ ok Stacked (fresh_borrows Stacked) /\
  (removes 50 60 (deep, fresh_borrows Stacked)).1 = Ret (Some ((50, 0), 1), Some ((60, 0), 5))%N /\
  (removes 30 80 (deep, fresh_borrows Stacked)).1 = Ret (Some ((30, 0), 2), Some ((80, 0), 3))%N /\
  (removes 65 99 (deep, fresh_borrows Stacked)).1 = Ret (Some ((65, 0), 6), None)%N /\
  (bs_remove_entry benv0 (so_panic 2 (sq 60)) (deep, fresh_borrows Stacked)).1 = Panic PCmp.
Proof. split; [exact deep_reachable|]. split; [exact fresh_ok|]. by vm_compute. Qed.

(** The stacks do tell. The pointer to a node cannot be used after its owner has been
    borrowed again: the pointer to the root after [&mut self.root], a pointer to
    [right_child] made before [right_child.left_mut()], a child's pointer after another
    [left_mut()] of its parent. *)
Definition stale_root : M (bsimple SK N) SK :=
  let! self := on_br (retag_mut base (len_loc :: node_locs root_place)) in
  let! r := on_br (retag_mut self (node_locs root_place)) in
  let! raw := on_br (retag_raw r (node_locs root_place)) in
  let! _ := on_br (retag_mut self (node_locs root_place)) in
  bs_key raw root_place.
Definition stale_parent : M (bsimple SK N) (option (nat * Ptr)) :=
  let! rc := on_br (retag_mut base (node_locs root_place)) in
  let! inorder_succ_parent := on_br (retag_raw rc (node_locs root_place)) in
  let! _ := bs_left_mut base root_place in
  bs_left_mut inorder_succ_parent root_place.
Definition stale_child : M (bsimple SK N) SK :=
  let! l := bs_left_mut base root_place in
  let! l := bs_as_ptr_mut l in
  let! l' := bs_left_mut base root_place in
  match l, l' with
  | Some (t, p), Some (t', _) => let! _ := bs_key t' p in bs_key t p
  | _, _ => slift Diverge
  end.
Example C91_stale_case :
  (stale_root (deep, fresh_borrows Stacked)).1 = UB UAlias /\
  (stale_parent (deep, fresh_borrows Stacked)).1 = UB UAlias /\
  (stale_child (deep, fresh_borrows Stacked)).1 = UB UAlias.
Proof. by vm_compute. Qed.
