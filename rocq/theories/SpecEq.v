(** * Questions that [==] asks the [PartialEq] of the elements *)

From Verif Require Export SpecNodes ModelEq.

(** The answer of the user's code to a question may depend on the questions before
    it. Every question is written down. *)
Definition inquire {Q : Type} (u : list Q -> Q -> res bool) (q : Q) : M (list Q) bool :=
  fun log => (u log q, log ++ [q]).

(** [asks u last log qs r log']: with [log] asked already, the questions [qs] are asked
    in this order up to the first one that is not answered [true]. That answer
    (or panic) is the result [r]; it is [last] if there is none. [log'] is what has been
    asked in the end. *)
Inductive asks {Q : Type} (u : list Q -> Q -> res bool) (last : bool) : list Q -> list Q -> res bool -> list Q -> Prop :=
| asks_all log : asks u last log [] (Ret last) log
| asks_next log q qs r log' :
    u log q = Ret true -> asks u last (log ++ [q]) qs r log' -> asks u last log (q :: qs) r log'
| asks_stop log q qs r : u log q = r -> r <> Ret true -> asks u last log (q :: qs) r (log ++ [q]).

(** The questions of a map: about keys and about values. *)
Inductive question (K V : Type) :=
| QKey (k1 k2 : K)
| QValue (v1 v2 : V).
Arguments QKey {K V}. Arguments QValue {K V}.

Section questions.
Context {K V : Type}.

(** Entry by entry, the key before the value. *)
Fixpoint questions (l1 l2 : list (K * V)) : list (question K V) :=
  match l1, l2 with
  | (k1, v1) :: l1, (k2, v2) :: l2 => QKey k1 k2 :: QValue v1 v2 :: questions l1 l2
  | _, _ => []
  end.

(** Node by node in pre-order, up to the first place where the shapes differ; and
    whether there is none. *)
Fixpoint tree_questions (t1 t2 : tree K V) : list (question K V) * bool :=
  match t1, t2 with
  | tleaf, tleaf => ([], true)
  | tnode l1 k1 v1 r1, tnode l2 k2 v2 r2 =>
    let l := tree_questions l1 l2 in
    let r := tree_questions r1 r2 in
    (QKey k1 k2 :: QValue v1 v2 :: l.1 ++ (if l.2 then r.1 else []), l.2 && r.2)
  | _, _ => ([], false)
  end.

(** [==] of two keys and of two values, answered by the user's code. *)
Definition ask_key (u : list (question K V) -> question K V -> res bool) k1 k2 : M _ bool := inquire u (QKey k1 k2).
Definition ask_value (u : list (question K V) -> question K V -> res bool) v1 v2 : M _ bool := inquire u (QValue v1 v2).
End questions.

Section questions.
Context {T : Type}.

Fixpoint stree_questions (t1 t2 : stree T) : list (T * T) * bool :=
  match t1, t2 with
  | sleaf, sleaf => ([], true)
  | snode l1 x1 r1, snode l2 x2 r2 =>
    let l := stree_questions l1 l2 in
    let r := stree_questions r1 r2 in
    ((x1, x2) :: l.1 ++ (if l.2 then r.1 else []), l.2 && r.2)
  | _, _ => ([], false)
  end.
Definition ask_item (u : list (T * T) -> T * T -> res bool) (x1 x2 : T) : M _ bool := inquire u (x1, x2).
End questions.
