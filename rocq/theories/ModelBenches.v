(** * Model of two client programs: benches/two_sum.rs and benches/movie_requests.rs

    Both programs are generic in the map (trait [Map], two_sum.rs:25-40 and
    movie_requests.rs:26-41), whose methods only forward to the methods of the map
    (macro [impl_map], two_sum.rs:42-72). Modelled for [BSTMap] and
    [SimpleBSTMap]; [HashMap] and [BTreeMap] are not code of this repository. The
    generation of random inputs and the time measurements are left out.

    Simplifications: the maps are not dropped at the end; [Rc<str>] is a type of
    keys with a comparator that does not panic, and a clone of an [Rc] is the same
    key. *)

From Coq Require Import ZArith.
From Verif Require Export ModelHistory ModelSimple.

(** ** 64-bit signed integers *)

Definition I64_HALF : Z := 2 ^ 63.

(** [a - b]: an overflow panics if overflow checks are on, and wraps around if
    not. *)
Definition i64_sub (chk : bool) (a b : Z) : res Z :=
  if ((- I64_HALF <=? a - b) && (a - b <? I64_HALF))%Z then Ret (a - b)%Z
  else if chk then Panic POverflow else Ret ((a - b + I64_HALF) mod (2 * I64_HALF) - I64_HALF)%Z.

(** ** two_sum.rs *)
Section two_sum.
Context {S : Type}.
Variable chk : bool.
Variable get : oracle Z -> M S (option N).
Variable insert : oracle Z -> Z -> N -> M S (option N).

(** [Ord] of [i64] *)
Definition i64_oracle (x : Z) : oracle Z := fun _ y => Some (Z.compare x y).

(** two_sum.rs:88-94, the loop of [two_sum] from index [i] on. [None] stands for the
    panic "no solution" that follows the loop (two_sum.rs:96). *)
Fixpoint two_sum_loop (target : Z) (i : N) (numbers : list Z) : M S (option (N * N)) :=
  match numbers with
  | [] => sret None
  | num :: numbers =>
    let! complement := slift (i64_sub chk target num) in
    let! r := get (i64_oracle complement) in
    match r with
    | Some j => sret (Some (i, j))
    | None =>
      let! _ := insert (i64_oracle num) num i in
      two_sum_loop target (i + 1)%N numbers
    end
  end.
End two_sum.

(** two_sum.rs:85-97 [two_sum::<BSTMap<i64, usize>>]; [M::default()] is [new()]
    (src/map.rs:59-63). *)
Definition map_two_sum (e : env) (numbers : list Z) (target : Z) : res (option (N * N)) :=
  (two_sum_loop (e_chk e) (fun o => let! m := sget in slift (map_get m o)) (bstmap_insert e)
     target 0 numbers map_new).1.

(** two_sum.rs:85-97 [two_sum::<SimpleBSTMap<i64, usize>>] (simple_bst/src/map.rs:25-32) *)
Definition simple_two_sum (e : benv) (numbers : list Z) (target : Z) : res (option (N * N)) :=
  (two_sum_loop (b_chk e) (fun o => let! m := sget in slift (simple_get m o)) (simple_insert e)
     target 0 numbers simple_new).1.

(** ** movie_requests.rs *)
Section counters.
Context {S K : Type}.
Variable chk : bool.
Variable cmp : K -> K -> comparison.
Variable get_mut : oracle K -> M S (option Ptr).
Variable read : Ptr -> M S N.
Variable write : Ptr -> N -> M S unit.
Variable insert : oracle K -> K -> N -> M S (option N).

(** [Ord] of [Rc<str>] *)
Definition name_oracle (x : K) : oracle K := fun _ y => Some (cmp x y).

(** movie_requests.rs:107-115 *)
Definition increment_counter (name : K) : M S unit :=
  let! r := get_mut (name_oracle name) in
  match r with
  | Some counter =>
    let! c := read counter in
    let! c := slift (uadd chk c 1) in
    write counter c
  | None =>
    let! _ := insert (name_oracle name) name 1%N in
    sret tt
  end.

(** movie_requests.rs:87-91 [struct Counters]: the pair of the fields [titles] and
    [genres] *)
Definition on_titles {A} : M S A -> M (S * S) A := zoom fst (fun t s => (t, s.2)).
Definition on_genres {A} : M S A -> M (S * S) A := zoom snd (fun g s => (s.1, g)).

(** movie_requests.rs:97-102, the loop of [tabulate_requests] *)
Fixpoint tabulate_loop (reqs : list (K * K)) : M (S * S) unit :=
  match reqs with
  | [] => sret tt
  | (title, genre) :: reqs =>
    let! _ := on_titles (increment_counter title) in
    let! _ := on_genres (increment_counter genre) in
    tabulate_loop reqs
  end.
End counters.

(** movie_requests.rs:94-105 [tabulate_requests::<BSTMap<Rc<str>, usize>>] *)
Definition map_tabulate {K} (e : env) (cmp : K -> K -> comparison) (reqs : list (K * K)) : res unit * (bstmap K N * bstmap K N) :=
  tabulate_loop (e_chk e) cmp
    (fun o => let! m := sget in slift (map_get_mut m o))
    (fun p => let! m := sget in slift (nodemut_value m p))
    write_value (bstmap_insert e) reqs (map_new, map_new).

(** movie_requests.rs:94-105 [tabulate_requests::<SimpleBSTMap<Rc<str>, usize>>] *)
Definition simple_tabulate {K} (e : benv) (cmp : K -> K -> comparison) (reqs : list (K * K)) : res unit * (simple K N * simple K N) :=
  tabulate_loop (b_chk e) cmp
    (fun o => let! m := sget in slift (simple_get_mut m o))
    (fun p => let! m := sget in let! n := slift (peek m p) in sret (n_value n))
    (fun p c => poke p (with_value c)) (simple_insert e) reqs (simple_new, simple_new).
