(** * Specification of name resolution: lexical scoping

    The declarations in view are one list, the latest first. A block starts with
    those in view before it, and what it declares is forgotten at its end. *)

From Verif Require Export ModelResolve SpecHistory.
Local Open Scope N_scope.

Section scoping.
Context {K : Type}.
Variable cmp : K -> K -> comparison.

Definition plus3 (x y : N * N * N) : N * N * N := (x.1.1 + y.1.1, x.1.2 + y.1.2, x.2 + y.2).

(** The declarations in view after a statement. *)
Definition view_after (view : list (K * N)) (stmt : rstmt K) : list (K * N) :=
  match stmt with RDecl name params => (name, params) :: view | _ => view end.

(** The calls of a statement: how many are valid, how many name nothing in view,
    how many have a wrong number of arguments. *)
Fixpoint tally (view : list (K * N)) (stmt : rstmt K) : N * N * N :=
  match stmt with
  | RDecl _ _ => (0, 0, 0)
  | RCall name args =>
    match assoc_find (cmp name) view with
    | Some (_, params) => if args =? params then (1, 0, 0) else (0, 0, 1)
    | None => (0, 1, 0)
    end
  | RBlock stmts =>
    (fix tallies (view : list (K * N)) (stmts : list (rstmt K)) : N * N * N :=
       match stmts with
       | [] => (0, 0, 0)
       | stmt :: stmts => plus3 (tally view stmt) (tallies (view_after view stmt) stmts)
       end) view stmts
  end.

(** The number of calls of a statement. *)
Fixpoint calls_of (stmt : rstmt K) : N :=
  match stmt with
  | RDecl _ _ => 0
  | RCall _ _ => 1
  | RBlock stmts => foldr (fun stmt n => calls_of stmt + n) 0 stmts
  end.
End scoping.
