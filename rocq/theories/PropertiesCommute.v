(** * C104: two updates, in either order

    Two updates of different keys give the same answers and the same contents in
    either order. Two insertions also give the same tree if one of the keys was
    there before or a stored key lies between them, and otherwise never. Two removals
    need not give the same tree. *)

From Verif Require Import SpecCommute ProofCommute.
From Verif Require Import Samples PropertiesCalls PropertiesCost PropertiesSimple PropertiesSet PropertiesSimpleSet.
From Verif Require Import ModelIter.

(** ** BSTMap *)

Theorem C104_map_contents {K V : Type} (cmp : K -> K -> comparison) : lawful cmp ->
  forall e (m : bstmap K V) t c1 c2 d1 d2 u1 u2 x1 m1 x2 m2 y2 n1 y1 n2,
  reachable e m -> shows m t -> sorted cmp (tree_inorder t) -> apart cmp u1 u2 ->
  makes cmp c1 u1 -> makes cmp c2 u2 -> makes cmp d1 u1 -> makes cmp d2 u2 ->
  exec e c1 m = (Ret x1, m1) -> exec e c2 m1 = (Ret x2, m2) ->
  exec e d2 m = (Ret y2, n1) -> exec e d1 n1 = (Ret y1, n2) ->
  x1 = y1 /\ x2 = y2 /\ exists ta tb, shows m2 ta /\ shows n2 tb /\ tree_inorder ta = tree_inorder tb.
Proof. exact (map_commute cmp). Qed.
Print Assumptions C104_map_contents.

Theorem C104_map_inserts {K V : Type} (cmp : K -> K -> comparison) : lawful cmp ->
  forall e (m : bstmap K V) t k v k' v' o1 o2 o3 o4 x1 m1 x2 m2 y2 n1 y1 n2,
  reachable e m -> shows m t -> sorted cmp (tree_inorder t) -> cmp k k' <> Eq ->
  answers o1 (cmp k) -> answers o2 (cmp k') -> answers o3 (cmp k') -> answers o4 (cmp k) ->
  exec e (OInsert o1 k v) m = (Ret x1, m1) -> exec e (OInsert o2 k' v') m1 = (Ret x2, m2) ->
  exec e (OInsert o3 k' v') m = (Ret y2, n1) -> exec e (OInsert o4 k v) n1 = (Ret y1, n2) ->
  (exists u, shows m2 u /\ shows n2 u) <->
  x1 <> OutValue None \/ x2 <> OutValue None \/ separated cmp k k' (tree_inorder t).*1.
Proof. exact (map_inserts_commute cmp). Qed.
Print Assumptions C104_map_inserts.

(** ** SimpleBSTMap *)

Theorem C104_simple_contents {K V : Type} (cmp : K -> K -> comparison) : lawful cmp ->
  forall e (m : simple K V) t c1 c2 d1 d2 u1 u2 x1 m1 x2 m2 y2 n1 y1 n2,
  simple_reachable e m -> simple_shows m t -> sorted cmp (tree_inorder t) -> apart cmp u1 u2 ->
  makes cmp c1 u1 -> makes cmp c2 u2 -> makes cmp d1 u1 -> makes cmp d2 u2 ->
  simple_exec e c1 m = (Ret x1, m1) -> simple_exec e c2 m1 = (Ret x2, m2) ->
  simple_exec e d2 m = (Ret y2, n1) -> simple_exec e d1 n1 = (Ret y1, n2) ->
  x1 = y1 /\ x2 = y2 /\ exists ta tb, simple_shows m2 ta /\ simple_shows n2 tb /\ tree_inorder ta = tree_inorder tb.
Proof. exact (simple_commute cmp). Qed.
Print Assumptions C104_simple_contents.

Theorem C104_simple_inserts {K V : Type} (cmp : K -> K -> comparison) : lawful cmp ->
  forall e (m : simple K V) t k v k' v' o1 o2 o3 o4 x1 m1 x2 m2 y2 n1 y1 n2,
  simple_reachable e m -> simple_shows m t -> sorted cmp (tree_inorder t) -> cmp k k' <> Eq ->
  answers o1 (cmp k) -> answers o2 (cmp k') -> answers o3 (cmp k') -> answers o4 (cmp k) ->
  simple_exec e (OInsert o1 k v) m = (Ret x1, m1) -> simple_exec e (OInsert o2 k' v') m1 = (Ret x2, m2) ->
  simple_exec e (OInsert o3 k' v') m = (Ret y2, n1) -> simple_exec e (OInsert o4 k v) n1 = (Ret y1, n2) ->
  (exists u, simple_shows m2 u /\ simple_shows n2 u) <->
  x1 <> OutValue None \/ x2 <> OutValue None \/ separated cmp k k' (tree_inorder t).*1.
Proof. exact (simple_inserts_commute cmp). Qed.
Print Assumptions C104_simple_inserts.

(** ** BSTSet *)

Theorem C104_set_contents {T : Type} (cmp : T -> T -> comparison) : lawful cmp ->
  forall e (m : bstset T) (st : stree T) c1 c2 d1 d2 u1 u2 x1 m1 x2 m2 y2 n1 y1 n2,
  set_reachable e m -> set_shows m st -> set_sorted cmp (stree_order In st) -> apart cmp u1 u2 ->
  set_makes cmp c1 u1 -> set_makes cmp c2 u2 -> set_makes cmp d1 u1 -> set_makes cmp d2 u2 ->
  set_exec e c1 m = (Ret x1, m1) -> set_exec e c2 m1 = (Ret x2, m2) ->
  set_exec e d2 m = (Ret y2, n1) -> set_exec e d1 n1 = (Ret y1, n2) ->
  x1 = y1 /\ x2 = y2 /\ exists ta tb, set_shows m2 ta /\ set_shows n2 tb /\ stree_order In ta = stree_order In tb.
Proof. exact (set_commute cmp). Qed.
Print Assumptions C104_set_contents.

Theorem C104_set_inserts {T : Type} (cmp : T -> T -> comparison) : lawful cmp ->
  forall e (m : bstset T) (st : stree T) x x' o1 o2 o3 o4 b1 m1 b2 m2 c2 n1 c1 n2,
  set_reachable e m -> set_shows m st -> set_sorted cmp (stree_order In st) -> cmp x x' <> Eq ->
  answers o1 (cmp x) -> answers o2 (cmp x') -> answers o3 (cmp x') -> answers o4 (cmp x) ->
  set_exec e (SetInsert o1 x) m = (Ret b1, m1) -> set_exec e (SetInsert o2 x') m1 = (Ret b2, m2) ->
  set_exec e (SetInsert o3 x') m = (Ret c2, n1) -> set_exec e (SetInsert o4 x) n1 = (Ret c1, n2) ->
  (exists u : stree T, set_shows m2 u /\ set_shows n2 u) <->
  b1 = SetBool false \/ b2 = SetBool false \/ separated cmp x x' (stree_order In st).
Proof. exact (set_inserts_commute cmp). Qed.
Print Assumptions C104_set_inserts.

(** ** SimpleBSTSet *)

Theorem C104_sset_contents {T : Type} (cmp : T -> T -> comparison) : lawful cmp ->
  forall e (m : sset T) (st : stree T) c1 c2 d1 d2 u1 u2 x1 m1 x2 m2 y2 n1 y1 n2,
  sset_reachable e m -> sset_shows m st -> set_sorted cmp (stree_order In st) -> apart cmp u1 u2 ->
  set_makes cmp c1 u1 -> set_makes cmp c2 u2 -> set_makes cmp d1 u1 -> set_makes cmp d2 u2 ->
  sset_exec e c1 m = (Ret x1, m1) -> sset_exec e c2 m1 = (Ret x2, m2) ->
  sset_exec e d2 m = (Ret y2, n1) -> sset_exec e d1 n1 = (Ret y1, n2) ->
  x1 = y1 /\ x2 = y2 /\ exists ta tb, sset_shows m2 ta /\ sset_shows n2 tb /\ stree_order In ta = stree_order In tb.
Proof. exact (sset_commute cmp). Qed.
Print Assumptions C104_sset_contents.

Theorem C104_sset_inserts {T : Type} (cmp : T -> T -> comparison) : lawful cmp ->
  forall e (m : sset T) (st : stree T) x x' o1 o2 o3 o4 b1 m1 b2 m2 c2 n1 c1 n2,
  sset_reachable e m -> sset_shows m st -> set_sorted cmp (stree_order In st) -> cmp x x' <> Eq ->
  answers o1 (cmp x) -> answers o2 (cmp x') -> answers o3 (cmp x') -> answers o4 (cmp x) ->
  sset_exec e (SetInsert o1 x) m = (Ret b1, m1) -> sset_exec e (SetInsert o2 x') m1 = (Ret b2, m2) ->
  sset_exec e (SetInsert o3 x') m = (Ret c2, n1) -> sset_exec e (SetInsert o4 x) n1 = (Ret c1, n2) ->
  (exists u : stree T, sset_shows m2 u /\ sset_shows n2 u) <->
  b1 = SetBool false \/ b2 = SetBool false \/ separated cmp x x' (stree_order In st).
Proof. exact (sset_inserts_commute cmp). Qed.
Print Assumptions C104_sset_inserts.

(** ** Removals in either order

    2 has the children 1 and 4, and 3 is left of 4. Without 1 and then 2, 4 is the
    root; without 2 and then 1, 3 is. *)
Local Open Scope N_scope.
Definition c104_run := run senv [ins 2 0 0; ins 1 0 0; ins 4 0 0; ins 3 0 0] map_new.
Definition c104_map : bstmap SK N := c104_run.2.
Definition c104_tree : tree SK N :=
  tnode (tnode tleaf (1, 0) 0 tleaf) (2, 0) 0 (tnode (tnode tleaf (3, 0) 0 tleaf) (4, 0) 0 tleaf).
Definition c104_a := exec senv (ORemove (so (sq 1))) c104_map.
Definition c104_ab := exec senv (ORemove (so (sq 2))) c104_a.2.
Definition c104_b := exec senv (ORemove (so (sq 2))) c104_map.
Definition c104_ba := exec senv (ORemove (so (sq 1))) c104_b.2.

Lemma c104_reachable : reachable senv c104_map.
Proof.
  eexists SNew, _, c104_run.1. split; [exists map_new; split; [done|]; apply surjective_pairing|].
  vm_compute. repeat constructor; discriminate.
Qed.
Ltac show_tree := eexists; split; [vm_compute; reflexivity|];
  repeat first [apply exposes_none | eapply exposes_some; [vm_compute; reflexivity| |vm_compute; reflexivity|]].
Lemma c104_shows : shows c104_map c104_tree.
Proof. show_tree. Qed.
Lemma c104_call {A B} (x : A * B) a : x.1 = a -> x = (a, x.2).
Proof. by destruct x as [? ?]; cbn; intros ->. Qed.

Theorem C104_removals_refuted : exists (m m1 m2 n1 n2 : bstmap SK N) (t ta tb : tree SK N),
  reachable senv m /\ shows m t /\ sorted scmp (tree_inorder t) /\
  exec senv (ORemove (so (sq 1))) m = (Ret (OutValue (Some 0)), m1) /\ exec senv (ORemove (so (sq 2))) m1 = (Ret (OutValue (Some 0)), m2) /\
  exec senv (ORemove (so (sq 2))) m = (Ret (OutValue (Some 0)), n1) /\ exec senv (ORemove (so (sq 1))) n1 = (Ret (OutValue (Some 0)), n2) /\
  shows m2 ta /\ shows n2 tb /\ ta <> tb.
Proof.
  exists c104_map, c104_a.2, c104_ab.2, c104_b.2, c104_ba.2, c104_tree,
    (tnode (tnode tleaf (3, 0) 0 tleaf) (4, 0) 0 tleaf), (tnode tleaf (3, 0) 0 (tnode tleaf (4, 0) 0 tleaf)).
  split; [exact c104_reachable|]. split; [exact c104_shows|]. split; [repeat constructor|].
  split; [exact (c104_call c104_a _ ltac:(vm_compute; reflexivity))|]. split; [exact (c104_call c104_ab _ ltac:(vm_compute; reflexivity))|].
  split; [exact (c104_call c104_b _ ltac:(vm_compute; reflexivity))|]. split; [exact (c104_call c104_ba _ ltac:(vm_compute; reflexivity))|].
  split; [show_tree|]. split; [show_tree|]. discriminate.
Qed.
Print Assumptions C104_removals_refuted.

(** The sample: an insertion and a removal; two insertions with a key between them;
    two without. *)
Lemma c104_makes_insert n v : makes scmp (ins n 0 v) (UInsert (n, 0) v).
Proof. split; [done|]. split; [done|]. apply so_answers. Qed.
Lemma c104_makes_remove n : makes scmp (ORemove (V:=N) (so (sq n))) (URemove (sq n)).
Proof. split; [apply sq_query|apply so_answers]. Qed.
Definition c104_ins a b := exec senv (ins b 0 1) (exec senv (ins a 0 1) sample).2.

Example C104_case :
  reachable senv sample /\ shows sample sample_tree /\ sorted scmp (tree_inorder sample_tree) /\
  (apart (V:=N) scmp (UInsert (35, 0) 1) (URemove (sq 70)) /\
   makes scmp (ins 35 0 1) (UInsert (35, 0) 1) /\ makes scmp (ORemove (V:=N) (so (sq 70))) (URemove (sq 70)) /\
   (exec senv (ins 35 0 1) sample).1 = Ret (OutValue None) /\
   (exec senv (ORemove (so (sq 70))) (exec senv (ins 35 0 1) sample).2).1 = Ret (OutValue (Some 6)) /\
   (exec senv (ORemove (so (sq 70))) sample).1 = Ret (OutValue (Some 6)) /\
   (exec senv (ins 35 0 1) (exec senv (ORemove (so (sq 70))) sample).2).1 = Ret (OutValue None)) /\
  (scmp (35, 0) (45, 0) <> Eq /\ separated scmp (35, 0) (45, 0) (tree_inorder sample_tree).*1 /\
   (c104_ins 35 45).1 = Ret (OutValue None) /\ (c104_ins 45 35).1 = Ret (OutValue None)) /\
  (scmp (41, 0) (42, 0) <> Eq /\ ~ separated scmp (41, 0) (42, 0) (tree_inorder sample_tree).*1 /\
   (c104_ins 41 42).1 = Ret (OutValue None) /\ (c104_ins 42 41).1 = Ret (OutValue None)) /\
  simple_reachable benv0 simple_sample /\ simple_shows simple_sample simple_sample_tree /\
  sorted scmp (tree_inorder simple_sample_tree) /\
  set_reachable senv set_sample /\ set_shows set_sample set_sample_tree /\ set_sorted scmp (stree_order In set_sample_tree) /\
  sset_reachable sset_env sset_sample /\ sset_shows sset_sample sset_sample_tree /\
  set_sorted scmp (stree_order In sset_sample_tree).
Proof.
  split; [exact sample_reachable|]. split; [exact sample_shows|]. split; [repeat constructor|].
  split. { split. { intros [x tag]. unfold target, scmp, sq. cbn [fst]. rewrite !N.compare_eq_iff. intros <-. discriminate. }
    split; [exact (c104_makes_insert 35 1)|]. split; [exact (c104_makes_remove 70)|]. split; [by vm_compute|]. split; [by vm_compute|]. split; by vm_compute. }
  split. { split; [discriminate|]. split; [exists (40, 0); split; [by vm_compute; repeat constructor|by left]|]. split; by vm_compute. }
  split. { split; [discriminate|]. split; [|split; by vm_compute].
    intros ([x tag] & _ & [[H1 H2]|[H1 H2]]); unfold scmp in H1, H2; cbn [fst] in H1, H2; rewrite N.compare_lt_iff in H1, H2; lia. }
  split; [exact simple_sample_reachable|]. split; [exact simple_sample_shows|]. split; [repeat constructor|].
  split; [exact set_sample_reachable|]. split; [exact set_sample_shows|]. split; [repeat constructor|].
  split; [exact sset_sample_reachable|]. split; [exact sset_sample_shows|]. repeat constructor.
Qed.

(** The other collections: an insertion and a removal, in either order. *)
Definition c104_sins : set_op SK := SetInsert (so (scmp (35, 0))) (35, 0).
Example C104_others_case :
  set_makes scmp c104_sins (UInsert (35, 0) tt) /\ set_makes scmp (SetTake (so (sq 70))) (URemoveEntry (sq 70)) /\
  ((simple_exec benv0 (ins 35 0 1) simple_sample).1 = Ret (OutValue None) /\
   (simple_exec benv0 (ORemove (so (sq 70))) (simple_exec benv0 (ins 35 0 1) simple_sample).2).1 = Ret (OutValue (snd <$> tree_find (sq 70) simple_sample_tree)) /\
   (simple_exec benv0 (ORemove (so (sq 70))) simple_sample).1 = Ret (OutValue (snd <$> tree_find (sq 70) simple_sample_tree)) /\
   (simple_exec benv0 (ins 35 0 1) (simple_exec benv0 (ORemove (so (sq 70))) simple_sample).2).1 = Ret (OutValue None)) /\
  ((set_exec senv c104_sins set_sample).1 = Ret (SetBool true) /\
   (set_exec senv (SetTake (so (sq 70))) (set_exec senv c104_sins set_sample).2).1 = Ret (SetValue (Some (70, 0))) /\
   (set_exec senv (SetTake (so (sq 70))) set_sample).1 = Ret (SetValue (Some (70, 0))) /\
   (set_exec senv c104_sins (set_exec senv (SetTake (so (sq 70))) set_sample).2).1 = Ret (SetBool true)) /\
  ((sset_exec sset_env c104_sins sset_sample).1 = Ret (SetBool true) /\
   (sset_exec sset_env (SetTake (so (sq 70))) (sset_exec sset_env c104_sins sset_sample).2).1 = (sset_exec sset_env (SetTake (so (sq 70))) sset_sample).1 /\
   (sset_exec sset_env c104_sins (sset_exec sset_env (SetTake (so (sq 70))) sset_sample).2).1 = Ret (SetBool true)).
Proof.
  split; [split; [done|apply so_answers]|]. split; [split; [apply sq_query|apply so_answers]|].
  split. { split; [by vm_compute|]. split; [by vm_compute|]. split; by vm_compute. }
  split. { split; [by vm_compute|]. split; [by vm_compute|]. split; by vm_compute. }
  split; [by vm_compute|]. split; by vm_compute.
Qed.
