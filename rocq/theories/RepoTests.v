(** * The unit tests of the repository, run in the model

    Evidence that the model is the program: the tests of /repo, with their calls and
    the results they assert, evaluated in Coq. The tests with random data and the
    compile-time tests are left out. Where a test only bounds a number (a capacity),
    the number that the model gives is stated. A test that occurs in both crates is
    run in both. *)

From Coq Require Import String ZArith.
From Verif Require Import ModelSimpleSet ModelArenaRun Samples ModelIter.
Local Open Scope Z_scope.

(** ** Scripts *)

Section script.
Context {K V : Type} (cmp : K -> K -> comparison).
Definition at_key (k : K) : oracle K := fun _ k' => Some (cmp k k').
Definition insert (k : K) (v : V) : op K V := OInsert (at_key k) k v.
Definition get (k : K) : op K V := OGet (at_key k).
Definition remove (k : K) : op K V := ORemove (at_key k).
Definition remove_entry (k : K) : op K V := ORemoveEntry (at_key k).
Definition clone_it : op K V := OClone (fun _ k => at_key k) (fun _ k => Some k) (fun _ v => Some v).

(** Calls, each with the result that the test asserts. *)
Definition script : Type := list (op K V * out K V).
Definition none : out K V := OutValue None.
Definition some (v : V) : out K V := OutValue (Some v).
End script.

Definition box_debug : benv := BEnv true (fun n => Some (n mod 5)%N).
Definition box_release : benv := BEnv false (fun n => Some n).

Definition passes {K V : Type} (s : script (K := K) (V := V)) : Prop :=
  (run senv s.*1 map_new).1 = (fun r => Ret r) <$> s.*2 /\
  (run senv_release s.*1 map_new).1 = (fun r => Ret r) <$> s.*2.
Definition simple_passes {K V : Type} (s : script (K := K) (V := V)) : Prop :=
  (simple_run box_debug s.*1 simple_new).1 = (fun r => Ret r) <$> s.*2 /\
  (simple_run box_release s.*1 simple_new).1 = (fun r => Ret r) <$> s.*2.

Notation zins := (insert (V := Z) Z.compare).
Notation zget := (get (V := Z) Z.compare).
Notation zrem := (remove (V := Z) Z.compare).
Notation zrem_entry := (remove_entry (V := Z) Z.compare).
Notation is x := (some (K := Z) (V := Z) x).
Notation isn't := (none (K := Z) (V := Z)).

(** ** src/map.rs:803-1336, simple_bst/src/map.rs:640-1076 *)

(** map.rs:811 *)
Definition test_map_insert_get : script :=
  [(zget 3, isn't); (zins 3 1, isn't); (zget 3, is 1);
   (zget 4, isn't); (zins 4 (-2), isn't); (zget 3, is 1); (zget 4, is (-2));
   (zget 0, isn't); (zins 0 44, isn't); (zget 3, is 1); (zget 4, is (-2)); (zget 0, is 44)].
Example map_insert_get : passes test_map_insert_get /\ simple_passes test_map_insert_get.
Proof. by vm_compute. Qed.

(** map.rs:831 *)
Definition test_map_insert_get_remove : script :=
  [(zrem 0, isn't); (zins 99 (-3), isn't); (zrem 99, is (-3));
   (zget 3, isn't); (zins 3 1, isn't); (zget 3, is 1);
   (zget 4, isn't); (zins 4 (-2), isn't); (zget 3, is 1);
   (zrem_entry 4, OutEntry (Some (4, -2))); (zrem_entry 4, OutEntry None); (zget 3, is 1);
   (zget 0, isn't); (zins 0 44, isn't); (zget 3, is 1); (zget 4, isn't); (zget 0, is 44);
   (zrem 0, is 44); (zrem 0, isn't); (zget 3, is 1); (zget 4, isn't)].
Example map_insert_get_remove : passes test_map_insert_get_remove /\ simple_passes test_map_insert_get_remove.
Proof. by vm_compute. Qed.

(** map.rs:866 *)
Notation sins := (insert (V := Z) String.compare).
Notation sget := (get (V := Z) String.compare).
Notation srem := (remove (V := Z) String.compare).
Definition test_map_insert_remove_two_children : script :=
  [(sins "b" 0, none); (sins "a" 89, none); (sins "c" 391, none);
   (srem "b", some 0); (srem "b", none); (sget "a", some 89); (sget "c", some 391); (srem "", none)]%string.
Example map_insert_remove_two_children :
  passes test_map_insert_remove_two_children /\ simple_passes test_map_insert_remove_two_children.
Proof. by vm_compute. Qed.

(** map.rs:887 *)
Definition test_map_insert_replace : script :=
  [(zget 3, isn't); (zins 3 1, isn't); (zget 3, is 1);
   (zget 4, isn't); (zins 4 (-2), isn't); (zget 3, is 1); (zget 4, is (-2));
   (zins 3 933, is 1); (zget 3, is 933); (zget 4, is (-2));
   (zins 3 11, is 933); (zget 3, is 11); (zget 4, is (-2));
   (zins 4 3, is (-2)); (zget 3, is 11); (zget 4, is 3)].
Example map_insert_replace : passes test_map_insert_replace /\ simple_passes test_map_insert_replace.
Proof. by vm_compute. Qed.

(** map.rs:913 *)
Definition test_map_insert_get_borrow : script :=
  [(sget "abc", none); (sins "abc" 1, none); (sget "abc", some 1);
   (sget "COOL", none); (sins "COOL" 3, none); (sget "abc", some 1); (sget "COOL", some 3);
   (sget "", none); (sins "" 898989, none); (sget "abc", some 1); (sget "COOL", some 3); (sget "", some 898989)]%string.
Example map_insert_get_borrow : passes test_map_insert_get_borrow /\ simple_passes test_map_insert_get_borrow.
Proof. by vm_compute. Qed.

(** map.rs:1057. The iterators run to their end and once more. *)
Definition listed (l : list Z) : out Z Z := OutSeq (((fun k => Some (k, k)) <$> l) ++ [None; None])%list.
Definition listed_mut (l : list Z) : out Z Z := OutMut ((fun k => (k, k)) <$> l) 2.
Definition test_traversals : script :=
  [(zins 4 4, isn't); (zins 5 5, isn't); (zins 2 2, isn't); (zins 3 3, isn't); (zins 1 1, isn't);
   (OIter Pre 7, listed [4; 2; 1; 3; 5]); (OIter In 7, listed [1; 2; 3; 4; 5]); (OIter Post 7, listed [1; 3; 2; 5; 4])].
Definition test_traversals_mut : script :=
  [(OIterMut Pre (replicate 7 EvNext), listed_mut [4; 2; 1; 3; 5]);
   (OIterMut In (replicate 7 EvNext), listed_mut [1; 2; 3; 4; 5]);
   (OIterMut Post (replicate 7 EvNext), listed_mut [1; 3; 2; 5; 4])].
Example map_traversals : passes (test_traversals ++ test_traversals_mut) /\ simple_passes test_traversals.
Proof. by vm_compute. Qed.

(** map.rs:1183 *)
Definition test_map_remove_traverse : script :=
  [(zins 4 4, isn't); (zins 2 2, isn't); (zins 5 5, isn't); (zins 1 1, isn't);
   (OIter Pre 6, listed [4; 2; 1; 5]); (zrem 2, is 2); (zrem 2, isn't); (OIter Pre 5, listed [4; 1; 5])].
Example map_remove_traverse : passes test_map_remove_traverse /\ simple_passes test_map_remove_traverse.
Proof. by vm_compute. Qed.

(** map.rs:1214. The four nodes that [find_score] visits, from the root. *)
Definition test_custom_traversal : script :=
  [(zins 1 39382, isn't); (zins 0 400, isn't); (zins 40 999, isn't); (zins 42 33, isn't);
   (OWalk [], OutNode (Some (1, 39382, true, true)));
   (OWalk [GoLeft], OutNode (Some (0, 400, false, false)));
   (OWalk [GoRight], OutNode (Some (40, 999, false, true)));
   (OWalk [GoRight; GoRight], OutNode (Some (42, 33, false, false)));
   (OWalk [GoLeft; GoLeft], OutNode None); (OWalk [GoRight; GoLeft], OutNode None)].
Example map_custom_traversal : passes test_custom_traversal /\ simple_passes test_custom_traversal.
Proof. by vm_compute. Qed.

(** map.rs:1255 *)
Definition built (l : list (Z * Z)) : bstmap Z Z := (run senv ((fun kv => zins kv.1 kv.2) <$> l) map_new).2.
Definition simple_build (l : list (Z * Z)) : simple Z Z := (simple_run box_debug ((fun kv => zins kv.1 kv.2) <$> l) simple_new).2.
Definition upto (a : Z) (f : Z -> Z) : list (Z * Z) := (fun i => (a + Z.of_nat i, f (a + Z.of_nat i))) <$> seq 0 10.
Definition eq_inputs : list (list (Z * Z)) :=
  [upto 0 id; reverse (upto 0 id); upto 10 id; upto 10 (Z.mul 10); []].
(** Row [i], column [j]: [map_i == map_j]. *)
Definition eq_table : list (list (res bool)) :=
  map (map (fun b => Ret b))
  [[true; true; false; false; false];
   [true; true; false; false; false];
   [false; false; true; false; false];
   [false; false; false; true; false];
   [false; false; false; false; true]].
Example map_test_eq :
  let ms := built <$> eq_inputs in
  ((fun m1 => (fun m2 => map_eq senv Z.eqb Z.eqb m1 m2) <$> ms) <$> ms) = eq_table /\
  (map_len senv <$> ms) = (fun n => Ret n) <$> [10; 10; 10; 10; 0]%N /\
  map_is_empty senv (built []) = Ret true.
Proof. by vm_compute. Qed.
Example simple_test_eq :
  let ms := simple_build <$> eq_inputs in
  ((fun m1 => (fun m2 => simple_eq Z.eqb Z.eqb m1 m2) <$> ms) <$> ms) = eq_table /\
  (s_len <$> ms) = [10; 10; 10; 10; 0]%N /\ simple_is_empty box_debug (simple_build []) = Ret true.
Proof. by vm_compute. Qed.

(** map.rs:1323 *)
Definition clone_ops : list (op Z Z) := ((fun kv => zins kv.1 kv.2) <$> upto 0 (fun i => - i * 25)) ++ [zrem 0; zrem 1; zrem 5].
Example map_test_clone_eq :
  map_eq senv Z.eqb Z.eqb (run senv clone_ops map_new).2 (run senv (clone_ops ++ [clone_it Z.compare]) map_new).2 = Ret true /\
  map_len senv (run senv (clone_ops ++ [clone_it Z.compare]) map_new).2 = Ret 7%N.
Proof. by vm_compute. Qed.
Example simple_test_clone_eq :
  simple_eq Z.eqb Z.eqb (simple_run box_debug clone_ops simple_new).2
    (simple_run box_debug (clone_ops ++ [clone_it Z.compare]) simple_new).2 = Ret true.
Proof. by vm_compute. Qed.

(** ** src/set.rs:387-620, simple_bst/src/set.rs:313-546 *)

Section set_script.
Context {T : Type} (cmp : T -> T -> comparison).
Definition set_insert (x : T) : set_op T := SetInsert (at_key cmp x) x.
Definition set_contains (x : T) : set_op T := SetContains (at_key cmp x).
End set_script.
Definition set_script {T : Type} : Type := list (set_op T * bool).
Definition set_passes {T : Type} (s : set_script (T := T)) : Prop :=
  (set_run senv s.*1 map_new).1 = (fun b => Ret (SetBool b)) <$> s.*2 /\
  (sset_run box_debug s.*1 simple_new).1 = (fun b => Ret (SetBool b)) <$> s.*2.
Notation zset := (set_insert Z.compare).
Notation zhas := (set_contains Z.compare).
Notation sset' := (set_insert String.compare).
Notation shas := (set_contains String.compare).

(** set.rs:395, 415, 437 *)
Example set_insert_get : set_passes
  [(zhas 3, false); (zset 3, true); (zhas 3, true);
   (zhas 4, false); (zset 4, true); (zhas 3, true); (zhas 4, true);
   (zhas 0, false); (zset 0, true); (zhas 3, true); (zhas 4, true); (zhas 0, true)].
Proof. by vm_compute. Qed.
Example set_insert_replace : set_passes
  [(zhas 3, false); (zset 3, true); (zhas 3, true);
   (zhas 4, false); (zset 4, true); (zhas 3, true); (zhas 4, true);
   (zset 3, false); (zhas 3, true); (zhas 4, true);
   (zset 4, false); (zhas 3, true); (zhas 4, true)].
Proof. by vm_compute. Qed.
Example set_insert_get_borrow : set_passes
  [(shas "abc", false); (sset' "abc", true); (shas "abc", true);
   (shas "COOL", false); (sset' "COOL", true); (shas "abc", true); (shas "COOL", true);
   (shas "", false); (sset' "", true); (shas "abc", true); (shas "COOL", true); (shas "", true)]%string.
Proof. by vm_compute. Qed.

(** set.rs:559 *)
Definition set_traversal_ops : list (set_op Z) := (zset <$> [4; 5; 2; 3; 1]) ++ [SetIter Pre 6; SetIter In 6; SetIter Post 6].
Definition set_traversal_results : list (res (set_out Z)) :=
  (replicate 5 (Ret (SetBool true)) ++
   ((fun l => Ret (SetSeq ((Some <$> l) ++ [None]))) <$> [[4; 2; 1; 3; 5]; [1; 2; 3; 4; 5]; [1; 3; 2; 5; 4]]))%list.
Example set_traversals :
  (set_run senv set_traversal_ops map_new).1 = set_traversal_results /\
  (sset_run box_debug set_traversal_ops simple_new).1 = set_traversal_results.
Proof. by vm_compute. Qed.

(** set.rs:588. A set of one: the root and no children. *)
Definition person_ops : list (set_op string) := [sset' "Manish"; SetWalk []; SetWalk [GoLeft]; SetWalk [GoRight]]%string.
Definition person_results : list (res (set_out string)) :=
  [Ret (SetBool true); Ret (SetNodeShown (Some ("Manish", false, false))); Ret (SetNodeShown None); Ret (SetNodeShown None)]%string.
Example set_custom_traversal :
  (set_run senv person_ops map_new).1 = person_results /\ (sset_run box_debug person_ops simple_new).1 = person_results.
Proof. by vm_compute. Qed.

(** ** src/lib.rs:47-103 *)

Definition pairs_of (m : bstmap Z Z) : list (res (out Z Z)) := (run senv [OIter In 4] m).1.
Definition zos : nat -> Z -> oracle Z := fun _ => at_key Z.compare.
Example test_bstmap_macro :
  pairs_of (bstmap_macro senv zos [(1, 2); (3, 4); (2, 3)] false).2 = [Ret (OutSeq [Some (1, 2); Some (2, 3); Some (3, 4); None])] /\
  pairs_of (bstmap_macro senv zos [(3, 4)] false).2 = [Ret (OutSeq [Some (3, 4); None; None; None])] /\
  pairs_of (bstmap_macro senv zos [] false).2 = [Ret (OutSeq [None; None; None; None])].
Proof. by vm_compute. Qed.
Example test_bstset_macro :
  (set_run senv [SetIter In 4] (bstset_macro senv zos [1; 3; 2] 0).2).1 = [Ret (SetSeq [Some 1; Some 2; Some 3; None])] /\
  (set_run senv [SetIter In 2] (bstset_macro senv zos [99] 0).2).1 = [Ret (SetSeq [Some 99; None])] /\
  (set_run senv [SetIter In 1] (bstset_macro senv zos [] 0).2).1 = [Ret (SetSeq [None])].
Proof. by vm_compute. Qed.

(** ** src/arena.rs:683-976 *)

(** arena.rs:691. Six chunks. *)
Definition chunk_starts : list N := (fun i => 8 * (2 ^ N.of_nat i - 1))%N <$> seq 0 6.
Definition same_position (r : res ChunkPos) (c i : N) : bool :=
  match r with Ret p => if (chunk_index p =? c)%N then (item_index p =? i)%N else false | _ => false end.
Example exponential_strategy_indexes :
  forallb (fun c => forallb (fun i =>
    same_position (position_for senv (default 0%N (chunk_starts !! c) + N.of_nat i)) (N.of_nat c) (N.of_nat i))
    (seq 0 (match chunk_len senv (N.of_nat c) with Ret n => N.to_nat n | _ => 0%nat end))) (seq 0 6) = true /\
  (chunk_len senv <$> [0; 1; 2; 3; 4; 5]%N) = (fun n => Ret n) <$> [8; 16; 32; 64; 128; 256]%N.
Proof. by vm_compute. Qed.

(** arena.rs:718. Both are dropped without a value, and all memory is given back. *)
Example drop_empty_arena :
  let d a := arena_drop senv true (fun _ => false) a in
  (d (arena_new (T := Z))).1 = Ret tt /\ size (a_heap (d arena_new).2) = 0%nat /\
  (arena_with_capacity (T := Z) senv 1000).1 = Ret tt /\ size (a_heap (arena_with_capacity (T := Z) senv 1000).2) = 7%nat /\
  (d (arena_with_capacity senv 1000).2).1 = Ret tt /\ size (a_heap (d (arena_with_capacity senv 1000).2).2) = 0%nat.
Proof. by vm_compute. Qed.

(** arena.rs:726, with 64 values: after each one all of them are read again. *)
Fixpoint push_all (n : nat) (i : Z) (ptrs : list Ptr) (a : arena Z) : bool :=
  match n with
  | O => true
  | S n =>
    match arena_alloc senv i a with
    | (Ret p, a) =>
      let ptrs := (ptrs ++ [p])%list in
      if forallb (fun x => match arena_get a x.2 with Ret v => v =? Z.of_nat x.1 | _ => false end) (imap pair ptrs)
      then push_all n (i + 1) ptrs a else false
    | _ => false
    end
  end.
Example arena_push : push_all 64 0 [] arena_new = true.
Proof. by vm_compute. Qed.

(** arena.rs:751 *)
Definition nums {T} (l : list N) : list (res (arena_out T)) := (fun n => Ret (ANum n)) <$> l.
Definition where_is (i : N) : Ptr := if (i <? 8)%N then (0, i)%N else (1, i - 8)%N.
Definition arena_fill24 : list (arena_op Z) := (fun i => AAlloc (Z.of_nat i)) <$> seq 0 24.
Definition arena_read24 : list (arena_op Z) := (fun i => AGet (where_is (N.of_nat i))) <$> seq 0 24.
Definition arena_capacity_ops : list (arena_op Z) :=
  ([ACapacity; AReserve 0; ACapacity; AReserve 10; ACapacity; ALen] ++ arena_fill24 ++
   [ALen; ACapacity; AShrink; ACapacity] ++ arena_read24 ++ [ACapacity; AReserve 72; ACapacity; AShrink; ACapacity])%list.
Example arena_capacity :
  ModelArena.arena_capacity (arena_new (T := Z)) = 0%N /\
  (arena_run senv arena_capacity_ops (arena_with_capacity senv 10).2).1 =
    ([Ret (ANum 24); Ret AUnit; Ret (ANum 24); Ret AUnit; Ret (ANum 24); Ret (ANum 0)] ++
     ((fun i => Ret (APtr (where_is (N.of_nat i)))) <$> seq 0 24) ++
     [Ret (ANum 24); Ret (ANum 24); Ret AUnit; Ret (ANum 24)] ++
     ((fun i => Ret (AValue (Z.of_nat i))) <$> seq 0 24) ++
     [Ret (ANum 24); Ret AUnit; Ret (ANum 120); Ret AUnit; Ret (ANum 24)])%list.
Proof. by vm_compute. Qed.

(** arena.rs:927 *)
Definition arena_of (l : list Z) : arena Z := (arena_run senv (AAlloc <$> l) arena_new).2.
Definition arena_eq_inputs : list (list Z) := [(upto 0 id).*1; (upto 0 id).*1; (upto 10 id).*1; []].
Example arena_test_eq :
  let xs := arena_of <$> arena_eq_inputs in
  ((fun a => (fun b => arena_eq Z.eqb senv a b) <$> xs) <$> xs) =
    map (map (fun b => Ret b))
    [[true; true; false; false]; [true; true; false; false]; [false; false; true; false]; [false; false; false; true]] /\
  (arena_len <$> xs) = [10; 10; 10; 0]%N /\ arena_is_empty (arena_of []) = true.
Proof. by vm_compute. Qed.

(** ** src/slab.rs:301-601 *)

Notation num n := (Ret (SlabNum n)).
Notation ptr c i := (Ret (SlabPtr (c%N, i%N))).
Notation val x := (Ret (SlabValue x)).
Notation yes := (Ret (SlabBool true)).
Notation no := (Ret (SlabBool false)).
Notation done_ := (Ret SlabUnit).
(** Calls, each with its result. *)
Definition slab_passes (start : slab Z) (s : list (slab_op Z * res (slab_out Z))) : Prop :=
  (slab_run senv s.*1 start).1 = s.*2.
Definition sized (n : N) (empty : bool) : list (slab_op Z * res (slab_out Z)) :=
  [(SLen, num n); (SIsEmpty, Ret (SlabBool empty)); (SCapacity, num 8)].

(** slab.rs:305. The third and fourth value go to the place that was freed. *)
Example slab_push_remove : slab_passes slab_new
  ([(SLen, num 0); (SIsEmpty, yes); (SCapacity, num 0);
    (SPush 19384, ptr 0 0); (SGet (0, 0)%N, val 19384)] ++ sized 1 false ++
   [(SRemove (0, 0)%N, val 19384)] ++ sized 0 true ++
   [(SPush 831783, ptr 0 0); (SGet (0, 0)%N, val 831783)] ++ sized 1 false ++
   [(SPush 57, ptr 0 1); (SGet (0, 0)%N, val 831783); (SGet (0, 1)%N, val 57)] ++ sized 2 false ++
   [(SRemove (0, 0)%N, val 831783); (SGet (0, 1)%N, val 57)] ++ sized 1 false ++
   [(SPush 999, ptr 0 0); (SGet (0, 1)%N, val 57); (SGet (0, 0)%N, val 999)] ++ sized 2 false ++
   [(SRemove (0, 1)%N, val 57); (SGet (0, 0)%N, val 999)] ++ sized 1 false).
Proof. by vm_compute. Qed.

(** slab.rs:373. The loop stops after 24 values, when the capacity is 56. *)
Definition place (i : N) : Ptr := if (i <? 8)%N then (0, i)%N else if (i <? 24)%N then (1, i - 8)%N else (2, i - 24)%N.
Definition reads (f : Z -> Z) : list (slab_op Z * res (slab_out Z)) :=
  ((SGet (0, 0)%N, val (f (-12))) :: ((fun i => (SGet (place (N.of_nat i + 1)), val (f (Z.of_nat i)))) <$> seq 0 24))%list.
Example slab_stable_get : slab_passes slab_new
  ([(SPush (-12), ptr 0 0); (SGet (0, 0)%N, val (-12)); (SCapacity, num 8)] ++
   ((fun i => (SPush (Z.of_nat i), Ret (SlabPtr (place (N.of_nat i + 1))))) <$> seq 0 23) ++
   [(SCapacity, num 24); (SPush 23, ptr 2 0); (SCapacity, num 56)] ++ reads id ++
   [(SLen, num 25); (SShrink, done_); (SCapacity, num 56)] ++ reads id ++
   ((fun i => (SUpdate (place (N.of_nat i)) Z.opp, val (if Nat.eqb i 0 then -12 else Z.of_nat i - 1))) <$> seq 0 25) ++ reads Z.opp).
Proof. by vm_compute. Qed.

(** slab.rs:423 *)
Definition cleared : list (slab_op Z * res (slab_out Z)) :=
  [(SClear (fun _ => false), done_); (SIsEmpty, yes); (SCapacity, num 8)].
Example slab_clear : slab_passes slab_new
  ([(SPush 1, ptr 0 0); (SIsEmpty, no); (SCapacity, num 8)] ++ cleared ++ cleared ++
   [(SPush 2, ptr 0 0); (SPush 3, ptr 0 1); (SCapacity, num 8); (SRemove (0, 0)%N, val 2); (SIsEmpty, no)] ++ cleared ++
   [(SPush 4, ptr 0 0); (SPush 5, ptr 0 1); (SCapacity, num 8); (SRemove (0, 1)%N, val 5); (SRemove (0, 0)%N, val 4); (SIsEmpty, yes)] ++
   cleared).
Proof. by vm_compute. Qed.

(** slab.rs:469, 496: which destructors have run. A removed value is the caller's. *)
Example drop_non_empty :
  let s := (slab_run senv [SPush 1; SPush 2] slab_new).2 in
  s_drops s = [] /\ s_drops (slab_drop senv (fun _ => false) s).2 = [1; 2].
Proof. by vm_compute. Qed.
Example drop_removed :
  let s := (slab_run senv [SPush 1; SPush 2; SRemove (0, 0)%N; SPush 3] slab_new).2 in
  s_drops s = [] /\ s_drops (slab_drop senv (fun _ => false) s).2 = [3; 2].
Proof. by vm_compute. Qed.

(** slab.rs:542 *)
Example slab_capacity :
  ModelSlab.slab_capacity (slab_new (T := Z)) = 0%N /\
  slab_passes (slab_with_capacity senv 10).2
  ([(SCapacity, num 24); (SReserve 0, done_); (SCapacity, num 24); (SReserve 10, done_); (SCapacity, num 24); (SLen, num 0)] ++
   ((fun i => (SPush (Z.of_nat i), Ret (SlabPtr (where_is (N.of_nat i))))) <$> seq 0 24) ++
   [(SLen, num 24); (SCapacity, num 24); (SShrink, done_); (SCapacity, num 24)] ++
   ((fun i => (SGet (where_is (N.of_nat i)), val (Z.of_nat i))) <$> seq 0 24) ++
   [(SReserve 72, done_); (SCapacity, num 120); (SShrink, done_); (SCapacity, num 24)] ++
   ((fun i => (SRemove (where_is (N.of_nat i)), val (Z.of_nat i))) <$> seq 0 24) ++
   [(SCapacity, num 24); (SIsEmpty, yes); (SShrink, done_); (SCapacity, num 24); (SLen, num 0)]).
Proof. by vm_compute. Qed.
