(** * [extend] and [collect] with the iterator as a running object

    In [ModelMap.v] and [ModelSimple.v] an iterator argument is the list of items it
    yields. Here it is an object with a state of its own: what [next()] returns may be
    anything, also an item after [None], items without end, or a panic; [size_hint()]
    may panic too. The calls made to it are recorded. Its own destructor is not
    modelled. *)

From Verif Require Export ModelSimpleSet.
Local Open Scope N_scope.

(** What [next()] does: returns [Some], returns [None], or panics. *)
Inductive answer (A : Type) := Gives (x : A) | Ends | NextPanics.
Arguments Gives {A}.
Arguments Ends {A}.
Arguments NextPanics {A}.

(** An implementation of [Iterator] with states [S] and items [A]. [size_hint] takes
    [&self]; [None] stands for a panic. *)
Record source (S A : Type) := mkSource {
  src_hint : S -> option (N * option N);
  src_next : S -> answer A * S;
}.
Arguments mkSource {S A}.
Arguments src_hint {S A}.
Arguments src_next {S A}.

Inductive src_call := AskedHint | AskedNext.

Section pull.
Context {S A C : Type}.

(** The collection, the state of the iterator and the calls made to it. *)
Definition pulling : Type := C * (S * list src_call).

Definition on_coll {B} (f : M C B) : M pulling B :=
  fun s => let '(r, c) := f s.1 in (r, (c, s.2)).

Definition ask_hint (src : source S A) : M pulling (N * option N) :=
  fun s => let s' := (s.1, (s.2.1, s.2.2 ++ [AskedHint])) in
    match src_hint src s.2.1 with
    | Some h => (Ret h, s')
    | None => (Panic PIter, s')
    end.

Definition ask_next (src : source S A) : M pulling (answer A) :=
  fun s => let '(x, st) := src_next src s.2.1 in (Ret x, (s.1, (st, s.2.2 ++ [AskedNext]))).

(** The [for] loop: map.rs:779-781, 794-796; simple_bst/src/map.rs:621-623, 631-633.
    [ins j x] is the body for the [j]-th item. There may be no end, so the number of
    rounds is a parameter; [Diverge] means that more are needed. *)
Fixpoint pull_loop (src : source S A) (ins : nat -> A -> M C unit) (fuel : nat) (j : nat) : M pulling unit :=
  match fuel with
  | O => slift Diverge
  | Datatypes.S fuel =>
    let! a := ask_next src in
    match a with
    | Ends => sret tt
    | NextPanics => sfail PIter
    | Gives x => let! _ := on_coll (ins j x) in pull_loop src ins fuel (Datatypes.S j)
    end
  end.

End pull.
Arguments pulling : clear implicits.

Definition hinted_len (h : N * option N) : N := match h.2 with Some n => n | None => h.1 end.

Section maps.
Context {S K V : Type}.
Notation source := (source S (K * V)).

(** The body of the loop in BSTMap: a previous value is dropped. *)
Definition map_take_in (e : env) (os : nat -> K -> oracle K) (j : nat) (kv : K * V) : M (bstmap K V) unit :=
  let! prev := bstmap_insert e (os j kv.1) kv.1 kv.2 in
  smod (log_drops (match prev with Some v => [inr v] | None => [] end)).

(** map.rs:770-783 [Extend::extend] *)
Definition map_extend_from (e : env) (os : nat -> K -> oracle K) (src : source) (fuel : nat)
  : M (pulling S (bstmap K V)) unit :=
  let! h := ask_hint src in
  let! _ := on_coll (map_reserve e (hinted_len h)) in
  pull_loop src (map_take_in e os) fuel 0.

(** map.rs:785-800 [FromIterator::from_iter]. On a panic the local map is dropped. *)
Definition map_collect_from (e : env) (os : nat -> K -> oracle K) (src : source) (fuel : nat) (st : S)
  : res unit * pulling S (bstmap K V) :=
  match src_hint src st with
  | None => (Panic PIter, (map_new, (st, [AskedHint])))
  | Some h =>
    match map_with_capacity e (hinted_len h) with
    | (Ret _, m0) =>
      match pull_loop src (map_take_in e os) fuel 0 (m0, (st, [AskedHint])) with
      | (Panic p, (m1, s1)) =>
        match map_drop e (fun _ => false) m1 with
        | (Ret _, m2) => (Panic p, (m2, s1))
        | (r, m2) => (r, (m2, s1))
        end
      | x => x
      end
    | (r, m0) => (r, (m0, (st, [AskedHint])))
    end
  end.

(** The body of the loop in SimpleBSTMap. *)
Definition simple_take_in (e : benv) (os : nat -> K -> oracle K) (j : nat) (kv : K * V) : M (simple K V) unit :=
  let! _ := simple_insert e (os j kv.1) kv.1 kv.2 in
  sret tt.

(** simple_bst/src/map.rs:619-625, 627-637. The size hint is not asked for. *)
Definition simple_extend_from (e : benv) (os : nat -> K -> oracle K) (src : source) (fuel : nat)
  : M (pulling S (simple K V)) unit :=
  pull_loop src (simple_take_in e os) fuel 0.
Definition simple_collect_from (e : benv) (os : nat -> K -> oracle K) (src : source) (fuel : nat) (st : S)
  : res unit * pulling S (simple K V) :=
  pull_loop src (simple_take_in e os) fuel 0 (simple_new, (st, [])).

End maps.

Section sets.
Context {S T : Type}.

(** [iter.into_iter().map(|value| (value, ()))] *)
Definition units_source (src : source S T) : source S (T * unit) :=
  mkSource (src_hint src) (fun st =>
    let '(x, st') := src_next src st in
    (match x with Gives x => Gives (x, tt) | Ends => Ends | NextPanics => NextPanics end, st')).

(** set.rs:372-384 *)
Definition set_extend_from (e : env) (os : nat -> T -> oracle T) (src : source S T) (fuel : nat)
  : M (pulling S (bstset T)) unit :=
  map_extend_from e os (units_source src) fuel.
Definition set_collect_from (e : env) (os : nat -> T -> oracle T) (src : source S T) (fuel : nat) (st : S)
  : res unit * pulling S (bstset T) :=
  map_collect_from e os (units_source src) fuel st.

(** simple_bst/src/set.rs:298-310 *)
Definition sset_extend_from (e : benv) (os : nat -> T -> oracle T) (src : source S T) (fuel : nat)
  : M (pulling S (sset T)) unit :=
  simple_extend_from e os (units_source src) fuel.
Definition sset_collect_from (e : benv) (os : nat -> T -> oracle T) (src : source S T) (fuel : nat) (st : S)
  : res unit * pulling S (sset T) :=
  simple_collect_from e os (units_source src) fuel st.

End sets.
