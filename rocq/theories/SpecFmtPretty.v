(** * What [{:#?}] writes *)

From Coq Require Import String Ascii.
From Verif Require Export SpecFmt ModelFmtPretty.
Local Open Scope string_scope.
Local Open Scope list_scope.
Local Open Scope nat_scope.

(** A text with four spaces in front of every line, also of an empty one.
    [start]: the text begins a line. *)
Fixpoint indent_from (start : bool) (s : string) : string :=
  match s with
  | EmptyString => ""
  | String c s => (if start then "    " else "") ++ String c (indent_from (Ascii.eqb c newline) s)
  end%string.
Definition indent (s : string) : string := indent_from true s.

(** The text of an element, and whether its [Debug] succeeds. *)
Definition script_text (x : script) : string := String.concat "" x.1.
Definition script_ok (x : script) : Prop := x.2 = Ret true.

(** A field on lines of its own. *)
Definition field_text (name text : string) : string := indent (name ++ ": " ++ text ++ "," ++ newline_str)%string.

Section texts.
Context {K V : Type} (tk : K -> string) (tv : V -> string).
Definition node_lines (k : K) (v : V) (left right : string) : string :=
  ("Node {" ++ newline_str ++ field_text "key" (tk k) ++ field_text "value" (tv v) ++
   field_text "left" left ++ field_text "right" right ++ "}")%string.
Fixpoint tree_pretty_text (t : tree K V) : string :=
  match t with
  | tleaf => "None"
  | tnode l k v r =>
    "Some(" ++ newline_str ++
    indent (node_lines k v (tree_pretty_text l) (tree_pretty_text r) ++ "," ++ newline_str) ++ ")"
  end%string.
Definition node_pretty_text (t : tree K V) : string :=
  match t with
  | tleaf => ""
  | tnode l k v r => node_lines k v (tree_pretty_text l) (tree_pretty_text r)
  end.
Definition map_pretty_text (t : tree K V) : string :=
  ("BSTMap {" ++ newline_str ++ field_text "root" (tree_pretty_text t) ++ "}")%string.
Definition simple_pretty_text (t : tree K V) (len : string) : string :=
  ("SimpleBSTMap {" ++ newline_str ++ field_text "root" (tree_pretty_text t) ++ field_text "len" len ++ "}")%string.
Definition nodemut_pretty_text (k : K) (v : V) : string :=
  ("NodeMut {" ++ newline_str ++ field_text "key" (tk k) ++ field_text "value" (tv v) ++
   field_text "left" (quote ++ "..." ++ quote) ++ field_text "right" (quote ++ "..." ++ quote) ++ "}")%string.
End texts.

Section texts.
Context {T : Type} (tk : T -> string).
Definition snode_lines (x : T) (left right : string) : string :=
  ("Node {" ++ newline_str ++ field_text "value" (tk x) ++ field_text "left" left ++ field_text "right" right ++ "}")%string.
Fixpoint stree_pretty_text (t : stree T) : string :=
  match t with
  | sleaf => "None"
  | snode l x r =>
    "Some(" ++ newline_str ++
    indent (snode_lines x (stree_pretty_text l) (stree_pretty_text r) ++ "," ++ newline_str) ++ ")"
  end%string.
Definition snode_pretty_text (t : stree T) : string :=
  match t with
  | sleaf => ""
  | snode l x r => snode_lines x (stree_pretty_text l) (stree_pretty_text r)
  end.
Definition set_pretty_text (name : string) (t : stree T) : string :=
  (name ++ " {" ++ newline_str ++ field_text "root" (stree_pretty_text t) ++ "}")%string.
(** [[]], or one item per line. *)
Definition arena_pretty_text (l : list T) : string :=
  match l with
  | [] => "[]"
  | _ => "[" ++ newline_str ++ String.concat "" ((fun x => indent (tk x ++ "," ++ newline_str)%string) <$> l) ++ "]"
  end%string.
End texts.

(** ** Line by line, for elements that print on one line

    A line is its depth and its text; depth is four spaces. *)
Fixpoint spaces (n : nat) : string := match n with O => "" | S n => String " " (spaces n) end.
Definition line_text (l : nat * string) : string := (spaces (4 * l.1) ++ l.2)%string.
Definition lines_text (ls : list (nat * string)) : string := String.concat newline_str (line_text <$> ls).
Definition one_line (s : string) : Prop := forall i, String.get i s <> Some newline.

Section lines.
Context {K V : Type} (tk : K -> string) (tv : V -> string).
Fixpoint tree_lines (d : nat) (label : string) (t : tree K V) : list (nat * string) :=
  match t with
  | tleaf => [(d, label ++ ": None,")%string]
  | tnode l k v r =>
    [(d, label ++ ": Some(")%string;
     (d + 1, "Node {");
     (d + 2, "key: " ++ tk k ++ ",")%string;
     (d + 2, "value: " ++ tv v ++ ",")%string] ++
    tree_lines (d + 2) "left" l ++ tree_lines (d + 2) "right" r ++
    [(d + 1, "},"); (d, "),")]
  end.
Definition map_lines (t : tree K V) : list (nat * string) :=
  [(0, "BSTMap {")] ++ tree_lines 1 "root" t ++ [(0, "}")].
Definition simple_lines (t : tree K V) (len : string) : list (nat * string) :=
  [(0, "SimpleBSTMap {")] ++ tree_lines 1 "root" t ++ [(1, "len: " ++ len ++ ",")%string; (0, "}")].
End lines.

Section lines.
Context {T : Type} (tk : T -> string).
Fixpoint stree_lines (d : nat) (label : string) (t : stree T) : list (nat * string) :=
  match t with
  | sleaf => [(d, label ++ ": None,")%string]
  | snode l x r =>
    [(d, label ++ ": Some(")%string;
     (d + 1, "Node {");
     (d + 2, "value: " ++ tk x ++ ",")%string] ++
    stree_lines (d + 2) "left" l ++ stree_lines (d + 2) "right" r ++
    [(d + 1, "},"); (d, "),")]
  end.
Definition set_lines (name : string) (t : stree T) : list (nat * string) :=
  [(0, name ++ " {")%string] ++ stree_lines 1 "root" t ++ [(0, "}")].
Definition arena_lines (l : list T) : list (nat * string) :=
  match l with
  | [] => [(0, "[]")]
  | _ => [(0, "[")] ++ ((fun x => (1, tk x ++ ",")%string) <$> l) ++ [(0, "]")]
  end.
End lines.

(** The elements in the order of printing: a node before its left and its right subtree. *)
Definition tree_scripts {K V : Type} (xk : K -> script) (xv : V -> script) (t : tree K V) : list script :=
  tree_preorder t ≫= (fun kv => [xk kv.1; xv kv.2]).
Definition stree_scripts {T : Type} (xt : T -> script) (t : stree T) : list script := xt <$> stree_order Pre t.

(** What was written when the formatter, or an element, may refuse. [u] answers the
    writes; the answer may depend on all writes before. [xs] are the elements in order.
    What is written is a beginning of the text. Success means that all of it was written
    and no element failed; any other result is the answer to the last write, or that of
    the first element that fails. *)
Definition writes (u : list string -> string -> res bool) (xs : list script) (text : string) (r : res bool) (log : list string) : Prop :=
  (exists rest, text = (String.concat "" log ++ rest)%string /\ (r = Ret true -> rest = "")) /\
  (r = Ret true -> Forall script_ok xs) /\
  (r <> Ret true ->
    (exists log' s, log = log' ++ [s] /\ u log' s = r) \/
    (exists xs1 x xs2, xs = xs1 ++ x :: xs2 /\ Forall script_ok xs1 /\ x.2 = r)).
