(** * Properties of the client program benches/name_resolution.rs *)

From Coq Require Import ZArith.
From Verif Require Import ModelResolve SpecResolve ProofBenches ProofResolve Samples PropertiesSimple.
Local Open Scope N_scope.

(** ** C107: resolve_program *)

Theorem C107_map_resolve : forall (K : Type) (e : env) (cmp : K -> K -> comparison) (program : list (rstmt K)),
  lawful cmp -> calls_of (RBlock program) < 2 ^ 64 ->
  match map_resolve e cmp program with
  | Ret c => c = tally cmp [] (RBlock program)
  | r => alloc_refused r
  end.
Proof. exact @map_resolve_ok. Qed.
Print Assumptions C107_map_resolve.

Theorem C107_simple_resolve : forall (K : Type) (e : benv) (cmp : K -> K -> comparison) (program : list (rstmt K)),
  lawful cmp -> calls_of (RBlock program) < 2 ^ 64 ->
  match simple_resolve e cmp program with
  | Ret c => c = tally cmp [] (RBlock program)
  | r => alloc_refused r
  end.
Proof. exact @simple_resolve_ok. Qed.
Print Assumptions C107_simple_resolve.

(** Shadowing in a block and in one scope, a name forgotten after its block, a wrong
    number of arguments. *)
Definition c107_program : list (rstmt Z) :=
  [RDecl 5%Z 2; RCall 5%Z 2; RCall 3%Z 0;
   RBlock [RDecl 5%Z 1; RCall 5%Z 1; RDecl 3%Z 0; RBlock [RCall 3%Z 0; RCall 5%Z 2]];
   RCall 5%Z 2; RCall 3%Z 0; RDecl 5%Z 7; RCall 5%Z 7].

Example C107_case :
  lawful Z.compare /\ calls_of (RBlock c107_program) < 2 ^ 64 /\
  map_resolve senv Z.compare c107_program = Ret (5, 2, 1) /\
  simple_resolve benv0 Z.compare c107_program = Ret (5, 2, 1) /\
  tally Z.compare [] (RBlock c107_program) = (5, 2, 1).
Proof.
  split; [exact zcmp_lawful|]. split; [vm_compute; reflexivity|]. split; [vm_compute; reflexivity|].
  split; vm_compute; reflexivity.
Qed.
