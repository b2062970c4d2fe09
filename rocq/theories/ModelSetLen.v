(** * Histories of calls to StableArena that also use [set_len]

    src/arena.rs. [set_len] is the one unsafe method of StableArena that changes its
    length without touching its slots. *)

From Verif Require Export ModelArenaRun.
Local Open Scope N_scope.

(** One call: a call of [ModelArenaRun.v], or [set_len(n)]. *)
Inductive len_op (T : Type) :=
| LCall (c : arena_op T)
| LSetLen (n : N).
Arguments LCall {T}.
Arguments LSetLen {T}.

Section set_len.
Context {T : Type}.
Implicit Types a : arena T.

(** arena.rs:380-390 [set_len] *)
Definition arena_set_len (len : N) : M (arena T) unit := smod (set_alen len).

Definition len_exec (e : env) (c : len_op T) : M (arena T) (arena_out T) :=
  match c with
  | LCall c => arena_exec e c
  | LSetLen n => let! _ := arena_set_len n in sret AUnit
  end.

(** As [arena_run]. *)
Fixpoint len_run (e : env) (cs : list (len_op T)) a : list (res (arena_out T)) * arena T :=
  match cs with
  | [] => ([], a)
  | c :: cs =>
    match len_exec e c a with
    | (Ret x, a') => let '(rs, a'') := len_run e cs a' in (Ret x :: rs, a'')
    | (Panic p, a') => let '(rs, a'') := len_run e cs a' in (Panic p :: rs, a'')
    | (r, a') => ([r], a')
    end
  end.

Definition len_reached (e : env) (n : option N) (cs : list (len_op T)) (rs : list (res (arena_out T))) a : Prop :=
  exists a0, arena_begin e n = (Ret tt, a0) /\ len_run e cs a0 = (rs, a).

End set_len.
