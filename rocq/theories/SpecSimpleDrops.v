(** * Vocabulary for what SimpleBSTMap destroys *)

From Verif Require Export SpecSimple SpecDrops ModelSimpleDrops.

Section drops.
Context {K V : Type}.

(** How many of the destructors of [l] panic. *)
Fixpoint bads (bad : K + V -> bool) (l : list (K + V)) : nat :=
  match l with [] => 0 | x :: l => (if bad x then 1 else 0) + bads bad l end.

(** [c'] is what the call [c] had done when a destructor panicked: the first items of
    an [extend], and everything for the other calls. *)
Definition cut_of (c c' : op K V) : Prop :=
  match c with
  | OExtend os it => exists n, c' = OExtend os (mkUserIter (ui_lo it) (ui_hi it) (take n (ui_items it)) false)
  | _ => c' = c
  end.

(** The call [c] with result [r] did what the call [c'] with result [r'] does, which
    meets no destructor that panics. *)
Definition acts_as (c : op K V) (r : res (out K V)) (c' : op K V) (r' : res (out K V)) : Prop :=
  (c' = c /\ r' = r) \/ (r = Panic PDrop /\ cut_of c c' /\ exists x, r' = Ret x).

Fixpoint all_act_as (cs : list (dcall K V)) (rs : list (res (out K V))) (cs' : list (op K V)) (rs' : list (res (out K V))) : Prop :=
  match cs, rs, cs', rs' with
  | [], [], [], [] => True
  | c :: cs, r :: rs, c' :: cs', r' :: rs' => acts_as c.2 r c' r' /\ all_act_as cs rs cs' rs'
  | _, _, _, _ => False
  end.

(** The history consists of calls that SimpleBSTMap has. *)
Definition simple_calls (s : start K V) (cs : list (dcall K V)) : Prop :=
  simple_has_start s = true /\ Forall (fun c => simple_has c.2 = true) cs.

(** What cloning the entries [l] one after the other makes, up to the first panic. *)
Fixpoint cloned (ck : nat -> K -> option K) (cv : nat -> V -> option V) (j : nat) (l : list (K * V)) : list (K + V) :=
  match l with
  | [] => []
  | (k, v) :: l =>
    match ck j k with
    | None => []
    | Some k' => inl k' :: match cv j v with None => [] | Some v' => inr v' :: cloned ck cv (S j) l end
    end
  end.

(** [g] is what the call [c] with the result [r] took from its caller, or made by
    cloning; [l] are the entries in pre-order. *)
Definition took (l : list (K * V)) (c : op K V) (r : res (out K V)) (g : list (K + V)) : Prop :=
  match c with OClone _ ck cv => g = cloned ck cv 0 l | _ => taken c r g end.

(** What a history gave back to its callers. *)
Fixpoint all_back (cs : list (dcall K V)) (rs : list (res (out K V))) : list (K + V) :=
  match cs, rs with
  | c :: cs, r :: rs => handed c.2 r ++ all_back cs rs
  | _, _ => []
  end.

(** The result, log and map of a call which, if no destructor panicked, would return
    [r] and leave [m0], having destroyed [y] last of all when its result, which owns
    [x], was ready. *)
Definition ends_with (leaky : bool) (bad : K + V -> bool) (x y : K + V) (r : res (out K V)) (log : list (K + V))
    (m0 : simple K V) (r' : res (out K V)) (log' : list (K + V)) (m' : simple K V) : Prop :=
  if bad y then
    if negb leaky && bad x then r' = Abort
    else r' = Panic PDrop /\ m' = m0 /\ log' = log ++ y :: (if leaky then [] else [x])
  else r' = r /\ m' = m0 /\ log' = log ++ [y].

(** The value that a call replaces by the one it is given. *)
Definition replaced (c : op K V) (r : res (out K V)) : option V :=
  match c, r with
  | OGetMut _ (Some _), Ret (OutValue (Some v)) => Some v
  | OWalkMut _ (Some _), Ret (OutNode (Some (_, v, _, _))) => Some v
  | _, _ => None
  end.

End drops.
