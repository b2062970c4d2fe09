(** * What the private containers keep allocated

    Vocabulary for the capacities of an arena and of a slab that are used directly. *)

From Verif Require Export SpecArena SpecMem.
Local Open Scope N_scope.

(** The number of elements for which memory is held at the moment. *)
Definition footprint {T} (h : gmap N (block T)) : N := map_fold (fun _ b n => b_size b + n) 0 h.

(** Calls of an arena that have no reason to touch its memory. *)
Definition arena_keeps_room {T} (c : arena_op T) : Prop :=
  match c with AAlloc _ | AReserve _ | AShrink => False | _ => True end.

Section slab_room.
Context {T : Type}.

Definition slab_keeps_room (c : slab_op T) : Prop :=
  match c with SPush _ | SReserve _ | SShrink => False | _ => True end.

(** The addresses that were in use and are free again, the last freed one first. *)
Definition free_after (fl : list Ptr) (c : slab_op T) (r : res (slab_out T)) : list Ptr :=
  match c, r with
  | SPush _, Ret _ => tail fl
  | SRemove p, Ret _ => p :: fl
  | SClear _, Ret _ => []
  | _, _ => fl
  end.
Fixpoint slab_free (fl : list Ptr) (cs : list (slab_op T)) (rs : list (res (slab_out T))) : list Ptr :=
  match cs, rs with
  | c :: cs, r :: rs => slab_free (free_after fl c r) cs rs
  | _, _ => fl
  end.

(** The largest number of values held at one time since the last [clear]. *)
Definition peak_after (most : nat) (L : gmap Ptr T) (c : slab_op T) (r : res (slab_out T)) : nat :=
  match c, r with
  | SClear _, Ret _ => 0%nat
  | _, _ => Nat.max most (size (slab_after L c r))
  end.
Fixpoint slab_peak (most : nat) (L : gmap Ptr T) (cs : list (slab_op T)) (rs : list (res (slab_out T))) : nat :=
  match cs, rs with
  | c :: cs, r :: rs => slab_peak (peak_after most L c r) (slab_after L c r) cs rs
  | _, _ => most
  end.

End slab_room.
