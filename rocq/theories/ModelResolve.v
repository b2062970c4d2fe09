(** * Model of the client program benches/name_resolution.rs

    As in [ModelBenches.v] the program is generic in the map (trait [Map],
    name_resolution.rs:29-35) and is modelled for [BSTMap] and [SimpleBSTMap]. The
    generation of random programs and the time measurements are left out.

    Simplifications: [Rc<str>] is a type of keys with a comparator that does not
    panic, and a clone of an [Rc] is the same key; the maps are not dropped when
    they are popped; the vector of scopes is a list with its last element in front,
    and cannot run out of memory. *)

From Verif Require Export ModelBenches.

(** name_resolution.rs:120-146 [struct Block] and [enum Stmt]: a block is the list
    of its statements. *)
Inductive rstmt (K : Type) : Type :=
| RDecl (name : K) (params : N)
| RCall (name : K) (args : N)
| RBlock (stmts : list (rstmt K)).
Arguments RDecl {K} name params.
Arguments RCall {K} name args.
Arguments RBlock {K} stmts.

Section resolve.
Context {S K : Type}.
Variable chk : bool.
Variable cmp : K -> K -> comparison.
Variable new : S.
Variable get : S -> oracle K -> res (option N).
Variable insert : oracle K -> K -> N -> M S (option N).

(** The scopes, innermost first, and the fields [valid_calls], [unresolved] and
    [incorrect_num_args] of [struct Counters] (name_resolution.rs:61-69). *)
Definition resolver : Type := list S * (N * N * N).

Definition count_valid : M resolver unit :=
  let! s := sget in
  let '(a, b, c) := s.2 in
  let! a := slift (uadd chk a 1) in smod (fun s => (s.1, (a, b, c))).
Definition count_unresolved : M resolver unit :=
  let! s := sget in
  let '(a, b, c) := s.2 in
  let! b := slift (uadd chk b 1) in smod (fun s => (s.1, (a, b, c))).
Definition count_incorrect : M resolver unit :=
  let! s := sget in
  let '(a, b, c) := s.2 in
  let! c := slift (uadd chk c 1) in smod (fun s => (s.1, (a, b, c))).

(** [scope_stack.last_mut().unwrap()] (name_resolution.rs:92) and what is done with
    it *)
Definition on_top_scope {A} (f : M S A) : M resolver A :=
  fun s =>
    match s.1 with
    | [] => (Panic PUnwrap, s)
    | top :: rest => let '(r, top) := f top in (r, (top :: rest, s.2))
    end.

(** name_resolution.rs:97-107, the loop over the scopes: the number of parameters
    at which it stops, [None] if it runs to the end. *)
Fixpoint scopes_find (o : oracle K) (scopes : list S) : res (option N) :=
  match scopes with
  | [] => Ret None
  | scope :: scopes =>
    let* r := get scope o in
    match r with
    | Some params => Ret (Some params)
    | None => scopes_find o scopes
    end
  end.

Definition push_scope : M resolver unit := smod (fun s => (new :: s.1, s.2)).
Definition pop_scope : M resolver unit :=
  fun s => match s.1 with [] => (Panic PUnwrap, s) | _ :: rest => (Ret tt, (rest, s.2)) end.

(** name_resolution.rs:80-118 [resolve_block], with the loop over the statements as
    an inner function *)
Fixpoint resolve_stmt (stmt : rstmt K) : M resolver unit :=
  match stmt with
  | RDecl name params =>
    let! _ := on_top_scope (insert (name_oracle cmp name) name params) in sret tt
  | RCall name args =>
    let! s := sget in
    let! r := slift (scopes_find (name_oracle cmp name) s.1) in
    match r with
    | Some params => if (args =? params)%N then count_valid else count_incorrect
    | None => count_unresolved
    end
  | RBlock stmts =>
    let! _ := push_scope in
    let! _ :=
      (fix resolve_stmts (stmts : list (rstmt K)) : M resolver unit :=
         match stmts with
         | [] => sret tt
         | stmt :: stmts => let! _ := resolve_stmt stmt in resolve_stmts stmts
         end) stmts in
    pop_scope
  end.

(** name_resolution.rs:71-78 *)
Definition resolve_program (program : list (rstmt K)) : res (N * N * N) :=
  match resolve_stmt (RBlock program) ([], (0, 0, 0)%N) with
  | (Ret _, s) => Ret s.2
  | (Panic p, _) => Panic p
  | (Abort, _) => Abort
  | (UB u, _) => UB u
  | (Diverge, _) => Diverge
  end.
End resolve.

(** name_resolution.rs:71-78 [resolve_program::<BSTMap<Rc<str>, usize>>] *)
Definition map_resolve {K} (e : env) (cmp : K -> K -> comparison) (program : list (rstmt K)) : res (N * N * N) :=
  resolve_program (e_chk e) cmp map_new map_get (bstmap_insert e) program.

(** name_resolution.rs:71-78 [resolve_program::<SimpleBSTMap<Rc<str>, usize>>] *)
Definition simple_resolve {K} (e : benv) (cmp : K -> K -> comparison) (program : list (rstmt K)) : res (N * N * N) :=
  resolve_program (b_chk e) cmp simple_new simple_get (simple_insert e) program.
