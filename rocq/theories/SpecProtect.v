(** * What it means that [&mut self] lives as long as the call

    Both sets of rules say of a reference that is an argument of a function: it must not become
    unusable before the function returns ("protectors"). The model has no protectors. Instead,
    the reference is looked at when the call has ended. That is enough: a reference that has
    become unusable stays so ([C98_lost]). *)

From Verif Require Export ModelBorrow ModelBorrowFree.
Local Open Scope nat_scope.

(** The reference [t] to the map can be written through. Its item in the stack has not been
    disabled either. *)
Definition usable (t : nat) (b : borrows) : Prop :=
  (t, Unique) ∈ b_at b LSlab /\ exists b', access true t LSlab b = (Ret tt, b').

(** [t] cannot be written through. *)
Definition lost (t : nat) (l : loc) (b : borrows) : Prop := (access true t l b).1 = UB UAlias.

(** Steps of any kind, whether they are allowed or not *)
Inductive b_step := BUse (wr : bool) (u : nat) (l : loc) | BRetag (p : perm) (u : nat) (ls : list loc).
Definition do_step (b : borrows) (x : b_step) : borrows :=
  match x with
  | BUse wr u l => (access wr u l b).2
  | BRetag p u ls => (retag_as p u ls b).2
  end.

(** [t], and the tags it was made from, exist. *)
Definition made (t : nat) (b : borrows) : Prop :=
  t < b_next b /\ (b_rules b = Tree -> forall v, v ∈ b_path b t -> v < b_next b).

(** Calls of methods with [&mut self]. Mutable iterators, nodes and the [&mut V] of [get_mut]
    are used before they end, which lasts longer than the method itself. *)
Definition self_call {K V} (c : f_op K V) : Prop := match c with FCall (AView _) => False | _ => True end.

(** A reference [h] to the map that has been passed on to a function of the slab: the references
    below it are older, among them the [&mut self] it was made from. *)
Definition passed (h : nat) (b : borrows) : Prop :=
  exists s, (h, Unique) :: s `suffix_of` b_at b LSlab /\ h < b_next b /\ Forall (fun x => x.1 < h) s.
