(** * Specification of the web server: a table from ids to entries *)

From Verif Require Export ModelServer SpecHistory.
Local Open Scope N_scope.

Section server.
Context {T : Type}.

Definition table : Type := N -> option (sentry T).
Definition table_with (id : N) (x : option (sentry T)) (d : table) : table := fun i => if i =? id then x else d i.

Definition field_of (f : field) (x : sentry T) : field_value T :=
  match f with FName => VName (se_name x) | FPhone => VPhone (se_phone x) | FEmail => VEmail (se_email x) end.
Definition entry_with (f : field_value T) (x : sentry T) : sentry T :=
  match f, x with
  | VName n, SEntry _ p e => SEntry n p e
  | VPhone p, SEntry n _ e => SEntry n p e
  | VEmail e, SEntry n p _ => SEntry n p e
  end.

(** The response to a request, and the table afterwards (web_server.rs:96-131). *)
Definition answer (req : request T) (d : table) : response T * table :=
  match req with
  | QCreate id x => match d id with Some _ => (ABadRequest, d) | None => (ACreated id, table_with id (Some x) d) end
  | QGet id f => (match d id with Some x => AField id (field_of f x) | None => ANotFound end, d)
  | QUpdate id f => match d id with Some x => (AField id f, table_with id (Some (entry_with f x)) d) | None => (ANotFound, d) end
  | QDelete id => match d id with Some x => (ADeleted id x, table_with id None d) | None => (ANotFound, d) end
  end.

Fixpoint answers_to (reqs : list (request T)) (d : table) : list (response T) * table :=
  match reqs with
  | [] => ([], d)
  | req :: reqs => let '(a, d) := answer req d in let '(l, d) := answers_to reqs d in (a :: l, d)
  end.

Definition is_not_found (a : response T) : bool := match a with ANotFound => true | _ => false end.
Definition is_bad_request (a : response T) : bool := match a with ABadRequest => true | _ => false end.
Definition how_many (f : response T -> bool) (l : list (response T)) : N := N.of_nat (length (List.filter f l)).

(** Successes, not found, bad requests. *)
Definition counted (l : list (response T)) : N * N * N :=
  (how_many (fun a => negb (is_not_found a || is_bad_request a)) l, how_many is_not_found l, how_many is_bad_request l).
End server.
