(** * Specification of the client programs *)

From Coq Require Import ZArith.
From Verif Require Export ModelBase SpecHistory.

(** The values of [i64]. *)
Definition is_i64 (z : Z) : Prop := (- 2 ^ 63 <= z < 2 ^ 63)%Z.

(** [a] and [b] add up to [target]: exactly if overflow is checked, and in 64-bit
    wrap-around arithmetic if not. *)
Definition adds_up (chk : bool) (target a b : Z) : Prop :=
  if chk then (a + b = target)%Z else ((a + b) mod 2 ^ 64 = target mod 2 ^ 64)%Z.

(** No two of the numbers add up to [target]. *)
Definition no_pair (chk : bool) (target : Z) (numbers : list Z) : Prop :=
  forall i j a b, (j < i)%nat -> numbers !! i = Some a -> numbers !! j = Some b -> ~ adds_up chk target a b.

(** What [two_sum] may return: the pair that ends first in the list, and of these
    the one that starts last. [None] is the panic "no solution". Otherwise it
    can only stop because [target - num] overflows or because memory is refused. *)
Definition two_sum_spec (chk : bool) (numbers : list Z) (target : Z) (r : res (option (N * N))) : Prop :=
  match r with
  | Ret (Some (i, j)) =>
      exists a b, (j < i)%N /\ numbers !! N.to_nat i = Some a /\ numbers !! N.to_nat j = Some b /\
        adds_up chk target a b /\ no_pair chk target (take (N.to_nat i) numbers) /\
        forall j', (j < j' < i)%N -> forall b', numbers !! N.to_nat j' = Some b' -> ~ adds_up chk target a b'
  | Ret None => no_pair chk target numbers
  | _ => alloc_refused r \/
      (r = Panic POverflow /\ chk = true /\ exists i a, numbers !! i = Some a /\
        ~ is_i64 (target - a) /\ no_pair chk target (take i numbers))
  end.

(** How often a name equal to [k] was requested; [None] if never. *)
Definition times_requested {K} (cmp : K -> K -> comparison) (k : K) (names : list K) : option N :=
  match length (filter (fun x => cmp k x = Eq) names) with O => None | n => Some (N.of_nat n) end.
