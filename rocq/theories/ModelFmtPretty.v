(** * Printing with [{:#?}]

    As in ModelFmt.v the text is written piece by piece, but the builders of the
    standard library put every field on a line of its own, indented by an adapter
    around the writer. An adapter remembers whether it is at the start of a line; a
    writer inside [n] adapters therefore works on a state with [n] more booleans.

    The element types write texts and return: [script]. An element that meets an
    error of the writer returns it at once, as the [?] of its [fmt] does. *)

From Coq Require Import String Ascii.
From Verif Require Export ModelFmt.
From Verif Require Import ModelIter.
Local Open Scope string_scope.
Local Open Scope list_scope.

Definition newline : ascii := ascii_of_nat 10.
Definition newline_str : string := String newline "".

(** What [Debug::fmt] of an element does: the texts it writes, and what it returns
    (or the panic) after them. *)
Definition script : Type := (list string * res bool)%type.
Fixpoint write_all {S} (w : string -> M S bool) (l : list string) (r : res bool) : M S bool :=
  match l with
  | [] => slift r
  | s :: l => and_then (w s) (write_all w l r)
  end.
Definition fmt_script {S} (x : script) (w : string -> M S bool) : M S bool := write_all w x.1 x.2.

(** ** [core::fmt::builders] (standard library) *)

(** [s.split_inclusive('\n')] *)
Fixpoint split_lines (s : string) : list string :=
  match s with
  | EmptyString => []
  | String c s =>
    if Ascii.eqb c newline then String c "" :: split_lines s
    else match split_lines s with
         | [] => [String c ""]
         | l :: ls => String c l :: ls
         end
  end.
(** [s.ends_with('\n')] *)
Fixpoint ends_line (s : string) : bool :=
  match s with
  | EmptyString => false
  | String c EmptyString => Ascii.eqb c newline
  | String _ s => ends_line s
  end.

Section builders.
Context {S : Type} (w : string -> M S bool).

(** [PadAdapter { buf, state }]: the first component of the state is
    [state.on_newline], the second one is behind [buf]. *)
Definition on_buf {A} (x : M S A) : M (bool * S) A := zoom snd (fun t s => (s.1, t)) x.
Fixpoint pad_lines (ls : list string) : M (bool * S) bool :=
  match ls with
  | [] => sret true
  | l :: ls =>
    let! s := sget in
    and_then (if (s : bool * S).1 then on_buf (w "    ") else sret true)
      (let! _ := smod (fun s => (ends_line l, s.2)) in
       and_then (on_buf (w l)) (pad_lines ls))
  end.
(** [<PadAdapter as Write>::write_str] *)
Definition pad (s : string) : M (bool * S) bool := pad_lines (split_lines s).
(** [PadAdapter::wrap(self.fmt, ..)], used by [body]. *)
Definition padded (body : (string -> M (bool * S) bool) -> M (bool * S) bool) : M S bool :=
  fun s => let '(r, (_, s')) := body pad (true, s) in (r, s').

(** [DebugStruct]: [field], [finish] *)
Definition pfield (b : dstruct) (name : string) (value : (string -> M (bool * S) bool) -> M (bool * S) bool) : M S dstruct :=
  let! ok :=
    if b.1 then
      and_then (if b.2 then sret true else w (" {" ++ newline_str)%string)
        (padded (fun w => and_then (w name) (and_then (w ": ") (and_then (value w) (w ("," ++ newline_str)%string)))))
    else sret false in
  sret (ok, true).
Definition pfinish (b : dstruct) : M S bool :=
  if b.2 then (if b.1 then w "}" else sret false) else sret b.1.

(** [Debug for Option], derived: [None], or [Some] as a tuple with one field. *)
Definition pfmt_option {A} (f : A -> (string -> M (bool * S) bool) -> M (bool * S) bool) (o : option A) : M S bool :=
  match o with
  | None => w "None"
  | Some x =>
    and_then (w "Some")
      (and_then (and_then (w ("(" ++ newline_str)%string) (padded (fun w => and_then (f x w) (w ("," ++ newline_str)%string))))
        (w ")"))
  end.

(** [DebugList]: [entry]; [finish] is [list_finish]. *)
Definition plist_entry (b : dstruct) (value : (string -> M (bool * S) bool) -> M (bool * S) bool) : M S dstruct :=
  let! ok :=
    if b.1 then
      and_then (if b.2 then sret true else w newline_str)
        (padded (fun w => and_then (value w) (w ("," ++ newline_str)%string)))
    else sret false in
  sret (ok, true).
End builders.

(** ** src/map.rs:68-77, src/map/node.rs:15-27, 109-121 *)

Section map.
Context {K V : Type} (xk : K -> script) (xv : V -> script) (xn : N -> script).

(** node.rs:15-27 *)
Fixpoint node_pretty {S} (m : bstmap K V) (fuel : nat) (n : Node K V) (w : string -> M S bool) : M S bool :=
  match fuel with
  | O => slift Diverge
  | Datatypes.S fuel =>
    let! b := debug_struct w "Node" in
    let! b := pfield w b "key" (fmt_script (xk (node_key n))) in
    let! b := pfield w b "value" (fmt_script (xv (node_value n))) in
    let! l := slift (node_left m n) in
    let! b := pfield w b "left" (fun w => pfmt_option w (node_pretty m fuel) l) in
    let! r := slift (node_right m n) in
    let! b := pfield w b "right" (fun w => pfmt_option w (node_pretty m fuel) r) in
    pfinish w b
  end.

(** map.rs:68-77 *)
Definition map_pretty {S} (m : bstmap K V) (w : string -> M S bool) : M S bool :=
  let! b := debug_struct w "BSTMap" in
  let! r := slift (map_root m) in
  let! b := pfield w b "root" (fun w => pfmt_option w (node_pretty m (map_fuel m)) r) in
  pfinish w b.

(** node.rs:109-121 *)
Definition nodemut_pretty {S} (m : bstmap K V) (n : NodeMut) (w : string -> M S bool) : M S bool :=
  let! b := debug_struct w "NodeMut" in
  let! k := slift (nodemut_key m n) in
  let! b := pfield w b "key" (fmt_script (xk k)) in
  let! v := slift (nodemut_value m n) in
  let! b := pfield w b "value" (fmt_script (xv v)) in
  let! b := pfield w b "left" (fun w => fmt_str w "...") in
  let! b := pfield w b "right" (fun w => fmt_str w "...") in
  pfinish w b.

(** ** simple_bst/src/map/node.rs:3, simple_bst/src/map.rs:18 (derived) *)
Fixpoint box_pretty {S} (m : simple K V) (fuel : nat) (p : Ptr) (w : string -> M S bool) : M S bool :=
  match fuel with
  | O => slift Diverge
  | Datatypes.S fuel =>
    let! n := slift (peek m p) in
    let! b := debug_struct w "Node" in
    let! b := pfield w b "key" (fmt_script (xk (n_key n))) in
    let! b := pfield w b "value" (fmt_script (xv (n_value n))) in
    let! b := pfield w b "left" (fun w => pfmt_option w (box_pretty m fuel) (n_left n)) in
    let! b := pfield w b "right" (fun w => pfmt_option w (box_pretty m fuel) (n_right n)) in
    pfinish w b
  end.
Definition simple_pretty {S} (m : simple K V) (w : string -> M S bool) : M S bool :=
  let! b := debug_struct w "SimpleBSTMap" in
  let! b := pfield w b "root" (fun w => pfmt_option w (box_pretty m (simple_fuel m)) (simple_root m)) in
  let! b := pfield w b "len" (fmt_script (xn (s_len m))) in
  pfinish w b.
End map.

Section set.
Context {T : Type} (xt : T -> script).

(** ** src/set/node.rs:9-19, src/set.rs:38-46 *)
Fixpoint setnode_pretty {S} (m : bstset T) (fuel : nat) (n : SetNode T) (w : string -> M S bool) : M S bool :=
  match fuel with
  | O => slift Diverge
  | Datatypes.S fuel =>
    let! b := debug_struct w "Node" in
    let! b := pfield w b "value" (fmt_script (xt (setnode_value n))) in
    let! l := slift (setnode_left m n) in
    let! b := pfield w b "left" (fun w => pfmt_option w (setnode_pretty m fuel) l) in
    let! r := slift (setnode_right m n) in
    let! b := pfield w b "right" (fun w => pfmt_option w (setnode_pretty m fuel) r) in
    pfinish w b
  end.
Definition set_pretty {S} (m : bstset T) (w : string -> M S bool) : M S bool :=
  let! b := debug_struct w "BSTSet" in
  let! r := slift (bstset_root m) in
  let! b := pfield w b "root" (fun w => pfmt_option w (setnode_pretty m (map_fuel m)) r) in
  pfinish w b.

(** ** simple_bst/src/set/node.rs:9-19, simple_bst/src/set.rs:31-39 *)
Fixpoint ssetnode_pretty {S} (m : sset T) (fuel : nat) (p : Ptr) (w : string -> M S bool) : M S bool :=
  match fuel with
  | O => slift Diverge
  | Datatypes.S fuel =>
    let! b := debug_struct w "Node" in
    let! x := slift (ssetnode_value m p) in
    let! b := pfield w b "value" (fmt_script (xt x)) in
    let! l := slift (ssetnode_left m p) in
    let! b := pfield w b "left" (fun w => pfmt_option w (ssetnode_pretty m fuel) l) in
    let! r := slift (ssetnode_right m p) in
    let! b := pfield w b "right" (fun w => pfmt_option w (ssetnode_pretty m fuel) r) in
    pfinish w b
  end.
Definition sset_pretty {S} (m : sset T) (w : string -> M S bool) : M S bool :=
  let! b := debug_struct w "SimpleBSTSet" in
  let! b := pfield w b "root" (fun w => pfmt_option w (ssetnode_pretty m (simple_fuel m)) (sset_root m)) in
  pfinish w b.

(** ** src/arena.rs:158-162 *)
Fixpoint arena_pretty_loop {S} (e : env) (fuel : nat) (a : arena T) (w : string -> M S bool) (b : dstruct) (r : range) : M S dstruct :=
  match fuel with
  | O => slift Diverge
  | Datatypes.S fuel =>
    let '(x, r') := next_ptr e a r in
    let! x := slift x in
    match x with
    | None => sret b
    | Some (_, x) => let! b := plist_entry w b (fmt_script (xt x)) in arena_pretty_loop e fuel a w b r'
    end
  end.
Definition arena_pretty {S} (e : env) (a : arena T) (w : string -> M S bool) : M S bool :=
  let! ok := w "[" in
  let! b := arena_pretty_loop e (Datatypes.S (N.to_nat (arena_len a))) a w (ok, false) (iter_new a) in
  list_finish w b.
End set.
