(** * [&mut self] lives as long as the call: C98

    Vocabulary: [SpecProtect.v], [ModelBorrow.v] and [ModelBorrowFree.v]. Tags are numbered: the
    first one that a call makes, [b_next b], is that of its [&mut self] ([C98_enter]). *)

From Verif Require Export ModelBorrow ModelBorrowFree SpecProtect.
From Verif Require Import Samples PropertiesBorrow.
From Verif Require Import ProofIterProps ProofBorrow ProofBorrowRun ProofBorrowFree ProofProtect.
From Verif Require Import ModelIter.
Local Open Scope nat_scope.

(** ** C98. [&mut self] lives as long as the call

    Whatever the call does, and however it ends: a comparison may have panicked, or the
    capacity may have overflowed. Under both sets of rules. *)
Theorem C98_self {R : rules} {K V : Type} : forall e (c : f_op K V) (m : bstmap K V) b, reachable e m -> ok R b -> self_call c ->
  usable (b_next b) (fb_exec (tag_mode R) e c (m, b)).2.2.
Proof. exact self_usable. Qed.
Print Assumptions C98_self.

(** [clear] when destructors of keys or values panic, and the destructor of the arena *)
Theorem C98_clear {R : rules} {K V : Type} : forall e pn (m : bstmap K V) b, ok R b ->
  usable (b_next b) (b_clear e pn (m, b)).2.2.
Proof. exact clear_usable. Qed.
Print Assumptions C98_clear.

Theorem C98_arena_drop {R : rules} {K V : Type} : forall e (m : bstmap K V) b, ok R b ->
  usable (b_next b) (b_arena_drop (tag_mode R) e (m, b)).2.2.
Proof. exact arena_drop_usable. Qed.
Print Assumptions C98_arena_drop.

(** How a call begins *)
Theorem C98_enter {R : rules} : forall b, ok R b ->
  exists b', retag_mut base [LSlab] b = (Ret (b_next b), b') /\ made (b_next b) b' /\ usable (b_next b) b'.
Proof. exact enter_made. Qed.
Print Assumptions C98_enter.

(** The [&mut self] of [push], [remove] and [clear] of the slab, which the methods of the map
    make from their own *)
Theorem C98_passed_on {R : rules} : forall b, ok R b ->
  (forall b' n, retag_mut base [LSlab] b = (Ret n, b') -> passed n b') /\
  (forall h, passed h b -> usable h b /\
     exists b', retag_mut h [LSlab] b = (Ret (b_next b), b') /\ ok R b' /\ passed h b' /\ passed (b_next b) b').
Proof.
  intros b Hok. split; [intros b' n; by apply enter_passed|]. intros h Hh.
  split; [by apply (passed_usable (Ru := R))|by apply pass_on].
Qed.
Print Assumptions C98_passed_on.

Theorem C98_slab_push {R : rules} {K V : Type} : forall e h x (m : bstmap K V) b, ok R b -> passed h b ->
  usable h (b_push e h x (m, b)).2.2.
Proof. exact push_usable. Qed.
Print Assumptions C98_slab_push.

Theorem C98_slab_remove {R : rules} {K V : Type} : forall e h p (m : bstmap K V) b, ok R b -> passed h b ->
  usable h (b_slab_remove e h p (m, b)).2.2.
Proof. exact slab_remove_usable. Qed.
Print Assumptions C98_slab_remove.

Theorem C98_slab_clear {R : rules} {K V : Type} : forall e pn h (m : bstmap K V) b, ok R b -> passed h b ->
  usable h (b_slab_clear e pn h (m, b)).2.2.
Proof. exact slab_clear_usable. Qed.
Print Assumptions C98_slab_clear.

(** What happens to be usable at the end has been so all the time. *)
Theorem C98_lost : forall t l xs b, made t b -> lost t l b -> lost t l (foldl do_step b xs).
Proof. exact steps_lost. Qed.
Print Assumptions C98_lost.

(** ** Cases *)
Definition self_after {A} (R : rules) (f : M (bmap SK N) A) : res unit :=
  let b := fresh_borrows R in (access true (b_next b) LSlab (f (sample, b)).2.2).1.
Definition self_ops : list (f_op SK N) :=
  [ FCall (AInsert (so (sq 50)) (50, 0)%N 7%N); FCall (AInsert (so (sq 55)) (55, 0)%N 7%N);
    FCall (AInsert (so_panic 1 (sq 55)) (55, 0)%N 7%N); FCall (ARemove (so (sq 50))); FCall (ARemove (so_panic 1 (sq 60)));
    FCall (AGetMut (so (sq 40)) [Some 1%N]); FCall (AGetEntryMut (so (sq 50)) [Some 1%N; None]);
    FCall (AWalkMut [NRead; NLeft; NWrite 5%N; NRight; NRead] [None; Some 6%N]);
    FCall (AIterMut Post [BNext; BNext; BWrite 1 3%N]); FClear; FReserve 100%N; FShrink ].
Example C98_case : reachable senv sample /\ ok Stacked (fresh_borrows Stacked) /\ ok Tree (fresh_borrows Tree) /\
  (fb_exec false senv (FCall (AInsert (so_panic 1 (sq 55)) (55, 0)%N 7%N)) (sample, fresh_borrows Stacked)).1 = Panic PCmp /\
  (fun c => self_after Stacked (fb_exec false senv c)) <$> self_ops = replicate 12 (Ret tt) /\
  (fun c => self_after Tree (fb_exec true senv c)) <$> self_ops = replicate 12 (Ret tt).
Proof. split; [exact sample_reachable|]. split; [exact fresh_ok|]. split; [exact fresh_ok|]. by vm_compute. Qed.

(** A method that goes back to the map itself, past its own [&mut self], does not do anything
    wrong otherwise. *)
Definition past_self (then_do : nat -> M (bmap SK N) unit) : M (bmap SK N) unit :=
  let! _ := on_r (retag_mut base [LSlab]) in
  let! nodes := on_r (retag_mut base [LSlab]) in
  then_do nodes.
Definition push_past : M (bmap SK N) unit :=
  past_self (fun nodes => let! _ := b_push senv nodes (inner_new (55, 0)%N 7%N) in sret tt).
Example C98_past_case :
  (push_past (sample, fresh_borrows Stacked)).1 = Ret tt /\ self_after Stacked push_past = UB UAlias /\
  (push_past (sample, fresh_borrows Tree)).1 = Ret tt /\ self_after Tree push_past = UB UAlias /\
  self_after Tree (let! _ := push_past in b_reserve senv 1) = UB UAlias.
Proof. by vm_compute. Qed.

(** A state in which it has been lost *)
Example C98_lost_case : let b := (push_past (sample, fresh_borrows Tree)).2.2 in
  made 1 b /\ lost 1 LSlab b /\ b_next (fresh_borrows Tree) = 1 /\ b_path b 1 = [1; 0].
Proof.
  assert (H : b_next (push_past (sample, fresh_borrows Tree)).2.2 = 5 /\
              b_path (push_past (sample, fresh_borrows Tree)).2.2 1 = [1; 0]) by (by vm_compute).
  destruct H as [H1 H2]. cbv zeta. split_and!; [..|done|done]; [|by vm_compute].
  split; [rewrite H1; lia|]. intros _ v. rewrite H1, H2. intros [->|[->|[]%elem_of_nil]%elem_of_cons]%elem_of_cons; lia.
Qed.

(** A reference that has been passed on: that of [push] *)
Definition slab_after {A} (R : rules) (f : nat -> M (bmap SK N) A) : res unit :=
  ((let! self := on_r (retag_mut base [LSlab]) in
    let! nodes := on_r (retag_mut self [LSlab]) in
    fun s => on_r (access true nodes LSlab) (f nodes s).2) (sample, fresh_borrows R)).1.
Example C98_slab_case :
  (fun R => slab_after R (fun nodes => b_push senv nodes (inner_new (55, 0)%N 7%N))) <$> [Stacked; Tree] = [Ret tt; Ret tt] /\
  (fun R => slab_after R (fun nodes => b_slab_remove senv nodes (0, 1)%N)) <$> [Stacked; Tree] = [Ret tt; Ret tt] /\
  (fun R => slab_after R (b_slab_clear senv (fun n => bool_decide ((n_key n).1 = 60%N)))) <$> [Stacked; Tree] = [Ret tt; Ret tt] /\
  (fun R => slab_after R (fun _ => on_r (access true base LSlab))) <$> [Stacked; Tree] = [UB UAlias; UB UAlias].
Proof. by vm_compute. Qed.
