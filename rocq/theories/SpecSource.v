(** * What [extend] and [collect] may ask of an iterator *)

From Verif Require Import ModelSource.

Section spec.
Context {S A : Type}.

(** The answers to the first [n] calls of [next()], and the state after them. *)
Fixpoint asked (src : source S A) (n : nat) (st : S) : list (answer A) * S :=
  match n with
  | O => ([], st)
  | Datatypes.S n =>
    let '(x, st1) := src_next src st in
    let '(l, st2) := asked src n st1 in
    (x :: l, st2)
  end.

(** The iterator yields [items]; then [next()] returns [None] ([panics = false]) or
    panics. Nothing is said about later calls. *)
Definition yields (src : source S A) (st : S) (items : list A) (panics : bool) : Prop :=
  (asked src (Datatypes.S (length items)) st).1 = (Gives <$> items) ++ [if panics then NextPanics else Ends].

(** The iterator never ends. *)
Definition endless (src : source S A) (st : S) : Prop :=
  forall n, exists items, (asked src n st).1 = Gives <$> items.

(** How often [next()] is called. [upto l] is the outcome if the iterator yielded just
    [l] and ended; [one j x c] is the result of inserting the [j]-th item [x] into [c].
    - No call: no room could be reserved.
    - One call more than there are items: all were inserted and the last call ended the
      loop or panicked.
    - [j + 1] calls: inserting the [j]-th item failed; those before it went in. *)
Definition asked_until {C} (upto : list A -> res unit * C) (one : nat -> A -> C -> res unit)
    (items : list A) (panics : bool) (r : res unit) (n : nat) : Prop :=
  match n with
  | O => (upto []).1 = r /\ r <> Ret tt
  | Datatypes.S j =>
    (j = length items /\ (upto items).1 = Ret tt /\ r = (if panics then Panic PIter else Ret tt)) \/
    (exists x c, items !! j = Some x /\ upto (take j items) = (Ret tt, c) /\ one j x c = r /\ r <> Ret tt)
  end.

End spec.
