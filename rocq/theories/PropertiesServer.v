(** * Properties of the client program benches/web_server.rs *)

From Verif Require Import ModelServer SpecServer ProofServer Samples PropertiesSimple SpecObs SpecSimple.
Local Open Scope N_scope.

(** ** C108: run_requests *)

Theorem C108_map_serve : forall (T : Type) (e : env) (reqs : list (request T)),
  N.of_nat (length reqs) < 2 ^ 64 ->
  match map_serve e reqs with
  | (Ret x, m) => x = ((answers_to reqs (fun _ => None)).1, counted (answers_to reqs (fun _ => None)).1) /\ reachable e m /\
      forall i o, surely o (N.compare i) -> exec e (OGet o) m = (Ret (OutValue ((answers_to reqs (fun _ => None)).2 i)), m)
  | (r, _) => alloc_refused r
  end.
Proof. exact @map_serve_ok. Qed.
Print Assumptions C108_map_serve.

Theorem C108_simple_serve : forall (T : Type) (e : benv) (reqs : list (request T)),
  N.of_nat (length reqs) < 2 ^ 64 ->
  match simple_serve e reqs with
  | (Ret x, m) => x = ((answers_to reqs (fun _ => None)).1, counted (answers_to reqs (fun _ => None)).1) /\ simple_reachable e m /\
      forall i o, surely o (N.compare i) -> simple_exec e (OGet o) m = (Ret (OutValue ((answers_to reqs (fun _ => None)).2 i)), m)
  | (r, _) => alloc_refused r
  end.
Proof. exact @simple_serve_ok. Qed.
Print Assumptions C108_simple_serve.

Definition c108_reqs : list (request N) :=
  [QCreate 4 (SEntry 1 10 2); QCreate 9 (SEntry 3 11 4); QCreate 4 (SEntry 5 12 6); QUpdate 4 (VPhone 99);
   QGet 4 FPhone; QGet 4 FName; QDelete 9; QGet 9 FEmail; QDelete 9; QUpdate 7 (VName 8)].
Definition c108_answers : list (response N) :=
  [ACreated 4; ACreated 9; ABadRequest; AField 4 (VPhone 99); AField 4 (VPhone 99); AField 4 (VName 1);
   ADeleted 9 (SEntry 3 11 4); ANotFound; ANotFound; ANotFound].

Example C108_case :
  N.of_nat (length c108_reqs) < 2 ^ 64 /\
  (map_serve senv c108_reqs).1 = Ret (c108_answers, (6, 3, 1)) /\
  (simple_serve benv0 c108_reqs).1 = Ret (c108_answers, (6, 3, 1)) /\
  (answers_to c108_reqs (fun _ => None)).1 = c108_answers.
Proof. split; [vm_compute; reflexivity|]. split; [vm_compute; reflexivity|]. split; vm_compute; reflexivity. Qed.
