(** * Model of the client program benches/web_server.rs

    As in [ModelBenches.v] the program is generic in the map (trait [Map],
    web_server.rs:30-51) and is modelled for [BSTMap] and [SimpleBSTMap]. The
    generation of random requests and the time measurements are left out.

    Simplifications: [Rc<str>] is any type [T], a clone of an [Rc] is the same
    value; the responses are collected in a list instead of going to [black_box]. *)

From Verif Require Export ModelBenches.
Local Open Scope N_scope.

(** web_server.rs:95-175 *)
Inductive field : Type := FName | FPhone | FEmail.
Inductive field_value (T : Type) : Type := VName (name : T) | VPhone (phone : N) | VEmail (email : T).
Arguments VName {T} name.
Arguments VPhone {T} phone.
Arguments VEmail {T} email.
Record sentry (T : Type) : Type := SEntry { se_name : T; se_phone : N; se_email : T }.
Arguments SEntry {T} se_name se_phone se_email.
Arguments se_name {T} s.
Arguments se_phone {T} s.
Arguments se_email {T} s.
Inductive request (T : Type) : Type :=
| QCreate (id : N) (entry : sentry T)
| QGet (id : N) (f : field)
| QUpdate (id : N) (f : field_value T)
| QDelete (id : N).
Arguments QCreate {T} id entry.
Arguments QGet {T} id f.
Arguments QUpdate {T} id f.
Arguments QDelete {T} id.
(** [Result<Response, Error>] *)
Inductive response (T : Type) : Type :=
| ACreated (id : N)
| AField (id : N) (f : field_value T)
| ADeleted (id : N) (entry : sentry T)
| ANotFound
| ABadRequest.
Arguments ACreated {T} id.
Arguments AField {T} id f.
Arguments ADeleted {T} id entry.
Arguments ANotFound {T}.
Arguments ABadRequest {T}.

Section server.
Context {S T : Type}.
Variable chk : bool.
Variable contains : oracle N -> M S bool.
Variable get : oracle N -> M S (option (sentry T)).
Variable get_mut : oracle N -> M S (option Ptr).
Variable read : Ptr -> M S (sentry T).
Variable write : Ptr -> sentry T -> M S unit.
Variable insert : oracle N -> N -> sentry T -> M S (option (sentry T)).
Variable remove : oracle N -> M S (option (sentry T)).

(** [Ord] of [usize] *)
Definition usize_oracle (x : N) : oracle N := fun _ y => Some (N.compare x y).

(** web_server.rs:193-250 [Server::handle]. An assignment to a field of [*entry] is
    a read of the entry and a write of the entry with that field changed. *)
Definition server_handle (req : request T) : M S (response T) :=
  match req with
  | QCreate id entry =>
    let! b := contains (usize_oracle id) in
    if b : bool then sret ABadRequest
    else
      let! _ := insert (usize_oracle id) id entry in
      sret (ACreated id)
  | QGet id f =>
    let! r := get (usize_oracle id) in
    match r with
    | None => sret ANotFound
    | Some entry =>
      sret (AField id (match f with
        | FName => VName (se_name entry)
        | FPhone => VPhone (se_phone entry)
        | FEmail => VEmail (se_email entry)
        end))
    end
  | QUpdate id f =>
    let! r := get_mut (usize_oracle id) in
    match r with
    | None => sret ANotFound
    | Some p =>
      let! entry := read p in
      let! _ := write p (match f with
        | VName name => SEntry name (se_phone entry) (se_email entry)
        | VPhone phone => SEntry (se_name entry) phone (se_email entry)
        | VEmail email => SEntry (se_name entry) (se_phone entry) email
        end) in
      sret (AField id f)
    end
  | QDelete id =>
    let! r := remove (usize_oracle id) in
    match r with
    | None => sret ANotFound
    | Some entry => sret (ADeleted id entry)
    end
  end.

(** web_server.rs:257-268, the loop of [run_requests]; the counters [successes],
    [not_found] and [bad_requests] *)
Fixpoint run_loop (reqs : list (request T)) (out : list (response T)) (c : N * N * N) : M S (list (response T) * (N * N * N)) :=
  match reqs with
  | [] => sret (out, c)
  | req :: reqs =>
    let! a := server_handle req in
    let! c :=
      slift (match a with
        | ANotFound => rmap (fun n => (c.1.1, n, c.2)) (uadd chk c.1.2 1)
        | ABadRequest => rmap (fun n => (c.1.1, c.1.2, n)) (uadd chk c.2 1)
        | _ => rmap (fun n => (n, c.1.2, c.2)) (uadd chk c.1.1 1)
        end) in
    run_loop reqs (out ++ [a]) c
  end.
End server.

(** web_server.rs:253-271 [run_requests::<BSTMap<usize, Entry>>]: the responses, the
    counters, and the server *)
Definition map_serve {T} (e : env) (reqs : list (request T)) : res (list (response T) * (N * N * N)) * bstmap N (sentry T) :=
  run_loop (e_chk e)
    (fun o => let! m := sget in slift (map_contains_key m o))
    (fun o => let! m := sget in slift (map_get m o))
    (fun o => let! m := sget in slift (map_get_mut m o))
    (fun p => let! m := sget in slift (nodemut_value m p))
    write_value (bstmap_insert e) (map_remove e) reqs [] (0, 0, 0) map_new.

(** web_server.rs:253-271 [run_requests::<SimpleBSTMap<usize, Entry>>] *)
Definition simple_serve {T} (e : benv) (reqs : list (request T)) : res (list (response T) * (N * N * N)) * simple N (sentry T) :=
  run_loop (b_chk e)
    (fun o => let! m := sget in slift (simple_contains_key m o))
    (fun o => let! m := sget in slift (simple_get m o))
    (fun o => let! m := sget in slift (simple_get_mut m o))
    (fun p => let! m := sget in let! n := slift (peek m p) in sret (n_value n))
    (fun p v => poke p (with_value v)) (simple_insert e) (simple_remove e) reqs [] (0, 0, 0) simple_new.
