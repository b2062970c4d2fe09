(** * Printing with [{:?}], as calls to the formatter and to the [Debug] of the elements

    [map_debug], [set_debug] and the others (ModelIter.v, ModelSet.v, ModelSimple.v,
    ModelSimpleSet.v) give the printed structure. Here the text is written piece by
    piece, in the order of the program, and every write may fail or panic.

    A printing function has type [M S bool]: [true] is [Ok(())], [false] is
    [Err(fmt::Error)]. [w] is [write_str] of the formatter ([write_char] is a write
    of one character), [fk], [fv] and [fn] are [Debug::fmt] of the keys, of the values
    and of [usize]. The alternate form [{:#?}] is in ModelFmtPretty.v. *)

From Coq Require Import String.
From Verif Require Export ModelSimpleSet ModelArenaRun.
From Verif Require Import ModelIter.
Local Open Scope string_scope.
Local Open Scope list_scope.

(** ** [core::fmt::builders] (standard library) *)

Section builders.
Context {S : Type} (w : string -> M S bool).

(** [Result::and_then] *)
Definition and_then (a b : M S bool) : M S bool := let! ok := a in if ok then b else sret false.

(** [DebugStruct { result, has_fields }] *)
Definition dstruct : Type := (bool * bool)%type.
Definition debug_struct (name : string) : M S dstruct := let! ok := w name in sret (ok, false).
Definition field (b : dstruct) (name : string) (value : M S bool) : M S dstruct :=
  let! ok :=
    if b.1 then and_then (w (if b.2 then ", " else " { ")) (and_then (w name) (and_then (w ": ") value))
    else sret false in
  sret (ok, true).
Definition finish (b : dstruct) : M S bool :=
  if b.2 then (if b.1 then w " }" else sret false) else sret b.1.

(** [Debug for Option], derived: [None], or [Some] as a tuple with one field. *)
Definition fmt_option {A} (f : A -> M S bool) (o : option A) : M S bool :=
  match o with
  | None => w "None"
  | Some x => and_then (w "Some") (and_then (and_then (w "(") (f x)) (w ")"))
  end.

(** [Debug for str]. The model only prints strings without characters to escape. *)
Definition quote : string := String (Ascii.ascii_of_nat 34) "".
Definition fmt_str (s : string) : M S bool := and_then (w quote) (and_then (w s) (w quote)).

(** [DebugList { result, has_fields }] *)
Definition list_entry (b : dstruct) (value : M S bool) : M S dstruct :=
  let! ok :=
    if b.1 then (if b.2 then and_then (w ", ") value else value) else sret false in
  sret (ok, true).
Definition list_finish (b : dstruct) : M S bool := if b.1 then w "]" else sret false.
End builders.

(** ** src/map.rs:68-77, src/map/node.rs:15-27, 109-121 *)

Section map.
Context {K V S : Type} (w : string -> M S bool) (fk : K -> M S bool) (fv : V -> M S bool) (fn : N -> M S bool).

(** node.rs:15-27 *)
Fixpoint node_fmt (m : bstmap K V) (fuel : nat) (n : Node K V) : M S bool :=
  match fuel with
  | O => slift Diverge
  | Datatypes.S fuel =>
    let! b := debug_struct w "Node" in
    let! b := field w b "key" (fk (node_key n)) in
    let! b := field w b "value" (fv (node_value n)) in
    let! l := slift (node_left m n) in
    let! b := field w b "left" (fmt_option w (node_fmt m fuel) l) in
    let! r := slift (node_right m n) in
    let! b := field w b "right" (fmt_option w (node_fmt m fuel) r) in
    finish w b
  end.

(** map.rs:68-77 *)
Definition map_fmt (m : bstmap K V) : M S bool :=
  let! b := debug_struct w "BSTMap" in
  let! r := slift (map_root m) in
  let! b := field w b "root" (fmt_option w (node_fmt m (map_fuel m)) r) in
  finish w b.

(** node.rs:109-121 *)
Definition nodemut_fmt (m : bstmap K V) (n : NodeMut) : M S bool :=
  let! b := debug_struct w "NodeMut" in
  let! k := slift (nodemut_key m n) in
  let! b := field w b "key" (fk k) in
  let! v := slift (nodemut_value m n) in
  let! b := field w b "value" (fv v) in
  let! b := field w b "left" (fmt_str w "...") in
  let! b := field w b "right" (fmt_str w "...") in
  finish w b.

(** ** simple_bst/src/map/node.rs:3, simple_bst/src/map.rs:19 (derived)

    [Box] prints what it holds. *)
Fixpoint box_fmt (m : simple K V) (fuel : nat) (p : Ptr) : M S bool :=
  match fuel with
  | O => slift Diverge
  | Datatypes.S fuel =>
    let! n := slift (peek m p) in
    let! b := debug_struct w "Node" in
    let! b := field w b "key" (fk (n_key n)) in
    let! b := field w b "value" (fv (n_value n)) in
    let! b := field w b "left" (fmt_option w (box_fmt m fuel) (n_left n)) in
    let! b := field w b "right" (fmt_option w (box_fmt m fuel) (n_right n)) in
    finish w b
  end.
Definition simple_fmt (m : simple K V) : M S bool :=
  let! b := debug_struct w "SimpleBSTMap" in
  let! b := field w b "root" (fmt_option w (box_fmt m (simple_fuel m)) (simple_root m)) in
  let! b := field w b "len" (fn (s_len m)) in
  finish w b.
End map.

Section set.
Context {T S : Type} (w : string -> M S bool) (ft : T -> M S bool).

(** ** src/set/node.rs:9-19, src/set.rs:38-46 *)
Fixpoint setnode_fmt (m : bstset T) (fuel : nat) (n : SetNode T) : M S bool :=
  match fuel with
  | O => slift Diverge
  | Datatypes.S fuel =>
    let! b := debug_struct w "Node" in
    let! b := field w b "value" (ft (setnode_value n)) in
    let! l := slift (setnode_left m n) in
    let! b := field w b "left" (fmt_option w (setnode_fmt m fuel) l) in
    let! r := slift (setnode_right m n) in
    let! b := field w b "right" (fmt_option w (setnode_fmt m fuel) r) in
    finish w b
  end.
Definition set_fmt (m : bstset T) : M S bool :=
  let! b := debug_struct w "BSTSet" in
  let! r := slift (bstset_root m) in
  let! b := field w b "root" (fmt_option w (setnode_fmt m (map_fuel m)) r) in
  finish w b.

(** ** simple_bst/src/set/node.rs:9-19, simple_bst/src/set.rs:31-39 *)
Fixpoint ssetnode_fmt (m : sset T) (fuel : nat) (p : Ptr) : M S bool :=
  match fuel with
  | O => slift Diverge
  | Datatypes.S fuel =>
    let! b := debug_struct w "Node" in
    let! x := slift (ssetnode_value m p) in
    let! b := field w b "value" (ft x) in
    let! l := slift (ssetnode_left m p) in
    let! b := field w b "left" (fmt_option w (ssetnode_fmt m fuel) l) in
    let! r := slift (ssetnode_right m p) in
    let! b := field w b "right" (fmt_option w (ssetnode_fmt m fuel) r) in
    finish w b
  end.
Definition sset_fmt (m : sset T) : M S bool :=
  let! b := debug_struct w "SimpleBSTSet" in
  let! b := field w b "root" (fmt_option w (ssetnode_fmt m (simple_fuel m)) (sset_root m)) in
  finish w b.

(** ** src/arena.rs:158-162

    [entries] takes every item from the iterator, also after an error. *)
Fixpoint arena_fmt_loop (e : env) (fuel : nat) (a : arena T) (b : dstruct) (r : range) : M S dstruct :=
  match fuel with
  | O => slift Diverge
  | Datatypes.S fuel =>
    let '(x, r') := next_ptr e a r in
    let! x := slift x in
    match x with
    | None => sret b
    | Some (_, x) => let! b := list_entry w b (ft x) in arena_fmt_loop e fuel a b r'
    end
  end.
Definition arena_fmt (e : env) (a : arena T) : M S bool :=
  let! ok := w "[" in
  let! b := arena_fmt_loop e (Datatypes.S (N.to_nat (arena_len a))) a (ok, false) (iter_new a) in
  list_finish w b.
End set.
