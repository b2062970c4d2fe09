(** * What [{:?}] writes, piece by piece and as a text *)

From Coq Require Import String.
From Verif Require Export SpecEq ModelFmt.
Local Open Scope string_scope.
Local Open Scope list_scope.

(** One write: a text, or the [Debug] of a key, of a value or of a number. *)
Inductive piece (K V : Type) :=
| PText (s : string)
| PKey (k : K)
| PValue (v : V)
| PNum (n : N).
Arguments PText {K V}. Arguments PKey {K V}. Arguments PValue {K V}. Arguments PNum {K V}.

Section pieces.
Context {K V : Type}.
Notation piece := (piece K V).

Definition texts (l : list string) : list piece := PText <$> l.

(** [Some(Node { key: .., value: .., left: .., right: .. })], or [None]. *)
Fixpoint tree_pieces (t : tree K V) : list piece :=
  match t with
  | tleaf => texts ["None"]
  | tnode l k v r =>
    texts ["Some"; "("; "Node"; " { "; "key"; ": "] ++ PKey k :: texts [", "; "value"; ": "] ++ PValue v ::
    texts [", "; "left"; ": "] ++ tree_pieces l ++ texts [", "; "right"; ": "] ++ tree_pieces r ++ texts [" }"; ")"]
  end.
Definition node_pieces (t : tree K V) : list piece :=
  match t with
  | tleaf => []
  | tnode l k v r =>
    texts ["Node"; " { "; "key"; ": "] ++ PKey k :: texts [", "; "value"; ": "] ++ PValue v ::
    texts [", "; "left"; ": "] ++ tree_pieces l ++ texts [", "; "right"; ": "] ++ tree_pieces r ++ texts [" }"]
  end.
Definition map_pieces (t : tree K V) : list piece :=
  texts ["BSTMap"; " { "; "root"; ": "] ++ tree_pieces t ++ texts [" }"].
Definition simple_pieces (t : tree K V) (len : N) : list piece :=
  texts ["SimpleBSTMap"; " { "; "root"; ": "] ++ tree_pieces t ++ texts [", "; "len"; ": "] ++ PNum len :: texts [" }"].
Definition nodemut_pieces (k : K) (v : V) : list piece :=
  texts ["NodeMut"; " { "; "key"; ": "] ++ PKey k :: texts [", "; "value"; ": "] ++ PValue v ::
  texts [", "; "left"; ": "; quote; "..."; quote; ", "; "right"; ": "; quote; "..."; quote; " }"].

(** The text, given the texts of keys, values and numbers. *)
Context (tk : K -> string) (tv : V -> string) (tn : N -> string).
Definition piece_text (p : piece) : string :=
  match p with PText s => s | PKey k => tk k | PValue v => tv v | PNum n => tn n end.
Definition printed (l : list piece) : string := foldr String.append "" (piece_text <$> l).
Fixpoint tree_text (t : tree K V) : string :=
  match t with
  | tleaf => "None"
  | tnode l k v r =>
    "Some(Node { key: " ++ tk k ++ ", value: " ++ tv v ++ ", left: " ++ tree_text l ++ ", right: " ++ tree_text r ++ " })"
  end%string.
End pieces.

(** Sets: the values are the keys of the map underneath. *)
Section pieces.
Context {T : Type}.
Notation piece := (piece T unit).

Fixpoint stree_pieces (t : stree T) : list piece :=
  match t with
  | sleaf => texts ["None"]
  | snode l x r =>
    texts ["Some"; "("; "Node"; " { "; "value"; ": "] ++ PKey x ::
    texts [", "; "left"; ": "] ++ stree_pieces l ++ texts [", "; "right"; ": "] ++ stree_pieces r ++ texts [" }"; ")"]
  end.
Definition snode_pieces (t : stree T) : list piece :=
  match t with
  | sleaf => []
  | snode l x r =>
    texts ["Node"; " { "; "value"; ": "] ++ PKey x ::
    texts [", "; "left"; ": "] ++ stree_pieces l ++ texts [", "; "right"; ": "] ++ stree_pieces r ++ texts [" }"]
  end.
Definition set_pieces (name : string) (t : stree T) : list piece :=
  texts [name; " { "; "root"; ": "] ++ stree_pieces t ++ texts [" }"].

(** [[x, y, z]] *)
Fixpoint item_pieces (l : list T) : list piece :=
  match l with
  | [] => []
  | [x] => [PKey x]
  | x :: l => PKey x :: PText ", " :: item_pieces l
  end.
Definition arena_pieces (l : list T) : list piece := texts ["["] ++ item_pieces l ++ texts ["]"].

Context (tk : T -> string).
Fixpoint stree_text (t : stree T) : string :=
  match t with
  | sleaf => "None"
  | snode l x r => "Some(Node { value: " ++ tk x ++ ", left: " ++ stree_text l ++ ", right: " ++ stree_text r ++ " })"
  end%string.
End pieces.

(** The formatter and the elements answer [Ok], [Err] or panic; the answer may depend on
    all pieces before. *)
Section write.
Context {K V : Type} (u : list (piece K V) -> piece K V -> res bool).
Definition say_text (s : string) : M (list (piece K V)) bool := inquire u (PText s).
Definition say_key (k : K) : M (list (piece K V)) bool := inquire u (PKey k).
Definition say_value (v : V) : M (list (piece K V)) bool := inquire u (PValue v).
Definition say_num (n : N) : M (list (piece K V)) bool := inquire u (PNum n).
End write.

(** [format!("{:?}", ..)]: the formatter is a string that grows, and the elements write
    their texts into it. *)
Definition push (s : string) : M string bool := let! _ := smod (fun b => (b ++ s)%string) in sret true.

(** The pieces of the printed structures of ModelIter.v. *)
Fixpoint dbg_pieces {K V : Type} (d : dbg K V) : list (piece K V) :=
  match d with
  | DStruct name fields =>
    PText name ::
    match fields with
    | [] => []
    | (f, d) :: fields =>
      texts [" { "; f; ": "] ++ dbg_pieces d ++
      (fix go l := match l with [] => [] | (f, d) :: l => texts [", "; f; ": "] ++ dbg_pieces d ++ go l end) fields ++
      texts [" }"]
    end
  | DSome d => texts ["Some"; "("] ++ dbg_pieces d ++ texts [")"]
  | DNone => texts ["None"]
  | DKey k => [PKey k]
  | DValue v => [PValue v]
  | DStr s => texts [quote; s; quote]
  | DNum n => [PNum n]
  end.
