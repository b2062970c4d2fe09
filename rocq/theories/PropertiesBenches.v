(** * Properties of the client programs of benches/ *)

From Coq Require Import String ZArith.
From Verif Require Import ModelBenches SpecBenches ProofBenches Samples PropertiesSimple SpecObs SpecSimple.
Local Open Scope N_scope.

(** ** C105: two_sum *)

Theorem C105_map_two_sum : forall (e : env) (numbers : list Z) (target : Z),
  Forall is_i64 numbers -> two_sum_spec (e_chk e) numbers target (map_two_sum e numbers target).
Proof. exact map_two_sum_ok. Qed.
Print Assumptions C105_map_two_sum.

Theorem C105_simple_two_sum : forall (e : benv) (numbers : list Z) (target : Z),
  Forall is_i64 numbers -> two_sum_spec (b_chk e) numbers target (simple_two_sum e numbers target).
Proof. exact simple_two_sum_ok. Qed.
Print Assumptions C105_simple_two_sum.

Lemma c105_range (l : list Z) : forallb (fun z => (- 2 ^ 63 <=? z) && (z <? 2 ^ 63))%Z l = true -> Forall is_i64 l.
Proof.
  rewrite forallb_forall. intros H. apply List.Forall_forall. intros z Hz. specialize (H z Hz).
  apply andb_true_iff in H as [H1 H2]. apply Z.leb_le in H1. apply Z.ltb_lt in H2. by split.
Qed.

(** Without overflow checks the two numbers need not add up to the target exactly. *)
Theorem C105_exact_refuted : exists (e : env) (numbers : list Z) (target : Z) (i j : N) (a b : Z),
  Forall is_i64 numbers /\ is_i64 target /\ map_two_sum e numbers target = Ret (Some (i, j)) /\
  numbers !! N.to_nat i = Some a /\ numbers !! N.to_nat j = Some b /\ (a + b <> target)%Z.
Proof.
  exists senv_release, [1; 2 ^ 63 - 1]%Z, (- 2 ^ 63)%Z, 1, 0, (2 ^ 63 - 1)%Z, 1%Z.
  split; [apply c105_range; vm_compute; reflexivity|]. split; [unfold is_i64; lia|].
  split; [vm_compute; reflexivity|]. split; [reflexivity|]. split; [reflexivity|]. lia.
Qed.
Print Assumptions C105_exact_refuted.

(** With overflow checks a solution may be missed: the subtraction panics before. *)
Theorem C105_finds_refuted : exists (e : env) (numbers : list Z) (target : Z) (i j : nat) (a b : Z),
  Forall is_i64 numbers /\ is_i64 target /\ map_two_sum e numbers target = Panic POverflow /\
  (j < i)%nat /\ numbers !! i = Some a /\ numbers !! j = Some b /\ (a + b = target)%Z.
Proof.
  exists senv, [- 2 ^ 63; 0; 1]%Z, 1%Z, 2%nat, 1%nat, 1%Z, 0%Z.
  split; [apply c105_range; vm_compute; reflexivity|]. split; [unfold is_i64; lia|].
  split; [vm_compute; reflexivity|]. split; [lia|]. split; [reflexivity|]. split; [reflexivity|]. reflexivity.
Qed.
Print Assumptions C105_finds_refuted.

Example C105_case :
  Forall is_i64 [3; 8; -4; 8; 3; -3]%Z /\
  map_two_sum senv [3; 8; -4; 8; 3; -3]%Z 5 = Ret (Some (5, 3)) /\
  simple_two_sum benv0 [3; 8; -4; 8; 3; -3]%Z 5 = Ret (Some (5, 3)) /\
  map_two_sum senv [3; 8; -4; 8; 3; -3]%Z 100 = Ret None /\
  simple_two_sum benv0 [3; 8; -4; 8; 3; -3]%Z 100 = Ret None.
Proof.
  split; [apply c105_range; vm_compute; reflexivity|]. split; [vm_compute; reflexivity|]. split; [vm_compute; reflexivity|].
  split; vm_compute; reflexivity.
Qed.

(** ** C106: tabulate_requests *)

Theorem C106_map_tabulate : forall (K : Type) (e : env) (cmp : K -> K -> comparison) (reqs : list (K * K)),
  lawful cmp -> N.of_nat (length reqs) < 2 ^ 64 ->
  match map_tabulate e cmp reqs with
  | (Ret _, (titles, genres)) => reachable e titles /\ reachable e genres /\ forall k o, surely o (cmp k) ->
      exec e (OGet o) titles = (Ret (OutValue (times_requested cmp k reqs.*1)), titles) /\
      exec e (OGet o) genres = (Ret (OutValue (times_requested cmp k reqs.*2)), genres)
  | (r, _) => alloc_refused r
  end.
Proof. exact @map_tabulate_ok. Qed.
Print Assumptions C106_map_tabulate.

Theorem C106_simple_tabulate : forall (K : Type) (e : benv) (cmp : K -> K -> comparison) (reqs : list (K * K)),
  lawful cmp -> N.of_nat (length reqs) < 2 ^ 64 ->
  match simple_tabulate e cmp reqs with
  | (Ret _, (titles, genres)) => simple_reachable e titles /\ simple_reachable e genres /\ forall k o, surely o (cmp k) ->
      simple_exec e (OGet o) titles = (Ret (OutValue (times_requested cmp k reqs.*1)), titles) /\
      simple_exec e (OGet o) genres = (Ret (OutValue (times_requested cmp k reqs.*2)), genres)
  | (r, _) => alloc_refused r
  end.
Proof. exact @simple_tabulate_ok. Qed.
Print Assumptions C106_simple_tabulate.

Definition c106_reqs : list (Z * Z) := [(7, 1); (3, 1); (7, 2); (9, 1); (7, 2)]%Z.

Example C106_case :
  lawful Z.compare /\ N.of_nat (length c106_reqs) < 2 ^ 64 /\
  (map_tabulate senv Z.compare c106_reqs).1 = Ret tt /\ (simple_tabulate benv0 Z.compare c106_reqs).1 = Ret tt /\
  times_requested Z.compare 7%Z c106_reqs.*1 = Some 3 /\ times_requested Z.compare 2%Z c106_reqs.*2 = Some 2 /\
  times_requested Z.compare 8%Z c106_reqs.*1 = None.
Proof.
  split; [exact zcmp_lawful|]. split; [vm_compute; reflexivity|]. split; [vm_compute; reflexivity|]. split; [vm_compute; reflexivity|].
  split; [vm_compute; reflexivity|]. split; vm_compute; reflexivity.
Qed.
