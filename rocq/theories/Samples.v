(** * Concrete programs used as examples

    Keys are pairs (number, tag) compared by the number only, so that equal keys
    need not be identical; values are numbers. *)

From Verif Require Export SpecObs.
Local Open Scope N_scope.

Definition SK : Type := (N * N)%type.
Definition scmp (a b : SK) : comparison := N.compare a.1 b.1.

Lemma scmp_lawful : lawful scmp.
Proof.
  unfold scmp. split.
  - intros a. apply N.compare_refl.
  - intros a b. apply N.compare_antisym.
  - intros a b c. rewrite !N.compare_lt_iff. apply N.lt_trans.
  - intros a b c. rewrite N.compare_eq_iff. by intros ->.
Qed.

(** Searches for a number, a borrowed form of the key. *)
Definition sq (n : N) (k : SK) : comparison := N.compare n k.1.

Lemma N_lawful : lawful N.compare.
Proof.
  split.
  - intros a. apply N.compare_refl.
  - intros a b. apply N.compare_antisym.
  - intros a b c. rewrite !N.compare_lt_iff. apply N.lt_trans.
  - intros a b c. rewrite N.compare_eq_iff. by intros ->.
Qed.

Lemma sq_query n : is_query scmp (sq n).
Proof. exists N, N.compare, fst, n. split; [apply N_lawful|done]. Qed.

Definition so (f : SK -> comparison) : oracle SK := fun _ k => Some (f k).
Definition sos : nat -> SK -> oracle SK := fun _ k => so (scmp k).

Lemma so_surely f : surely (so f) f.
Proof. done. Qed.
Lemma so_answers f : answers (so f) f.
Proof. by left. Qed.
Lemma sos_legal : legal_inserts scmp sos.
Proof. intros j k. apply so_answers. Qed.

(** An oracle that panics at its [n]-th comparison. *)
Definition so_panic (n : nat) (f : SK -> comparison) : oracle SK :=
  fun i k => if Nat.eqb i n then None else Some (f k).
Lemma so_panic_answers n f : answers (so_panic n f) f.
Proof. intros i k. unfold so_panic. destruct (Nat.eqb i n); [by right|by left]. Qed.

(** A comparison that answers nonsense. *)
Definition so_mad : oracle SK := fun i k => Some (if Nat.even i then Gt else Lt).

Lemma runs_to {A B} (x : A * B) a : x.1 = a -> exists b, x = (a, b).
Proof. destruct x as [a' b]. simpl. intros ->. by exists b. Qed.
Lemma runs_to_with {A B} (P : B -> Prop) (x : A * B) a : x.1 = a -> P x.2 -> exists b, x = (a, b) /\ P b.
Proof. destruct x as [a' b]. simpl. intros -> ?. by exists b. Qed.

(** A debug build with an allocator that grants everything; a release build. *)
Definition senv : env := Env true 40 true (fun _ n => Some n).
Definition senv_release : env := Env false 40 true (fun _ n => Some n).
(** An allocator that refuses everything above eight elements. *)
Definition senv_tight : env := Env true 40 true (fun _ n => if n <=? 8 then Some n else None).
(** An allocator whose second chunk has a wrong capacity: the [assert_eq!] fails. *)
Definition senv_assert : env := Env true 40 true (fun i n => if i =? 0 then Some n else Some (n + 1)).

Definition ins (n tag v : N) : op SK N := OInsert (so (scmp (n, tag))) (n, tag) v.

(** Seven inserts, one over an equal key, a removal of the root (two children),
    a removal that panics, a write, a shrink, an extend, a clone. *)
Definition sample_ops : list (op SK N) :=
  [ins 50 0 1; ins 30 0 2; ins 80 0 3; ins 10 0 4; ins 40 0 5; ins 70 0 6; ins 90 0 7;
   ins 30 9 20; ORemoveEntry (so (sq 50)); ORemove (so_panic 1 (sq 10));
   OGetMut (so (sq 40)) (Some 55); OShrink;
   OExtend sos (mkUserIter 3 (Some 3) [((60, 0), 8); ((65, 0), 9); ((60, 1), 10)] false);
   OReserve 20; OIterMut In [EvNext; EvNext; EvWrite 0 44; EvNext];
   OClone sos (fun _ k => Some k) (fun _ v => Some v);
   ORemove (so (sq 10)); OLen].

Definition sample_run := run senv sample_ops map_new.
Definition sample : bstmap SK N := sample_run.2.

Lemma sample_reached : reached senv SNew sample_ops sample_run.1 sample.
Proof. exists map_new. split; [done|]. apply surjective_pairing. Qed.

Lemma sample_legal : Forall (legal scmp) sample_ops.
Proof.
  assert (Hs : forall n, legal_search scmp (so (sq n))) by (intros n; exists (sq n); split; [apply sq_query|apply so_answers]).
  repeat constructor; try apply so_answers; try apply Hs; try apply sos_legal.
  - exists (sq 10). split; [apply sq_query|apply so_panic_answers].
  - intros j k k' [= ->]. apply scmp_lawful.
Qed.

Lemma sample_alive : alive sample_run.1.
Proof. vm_compute. repeat constructor; discriminate. Qed.

Lemma sample_ordered : ordered_reachable scmp senv sample.
Proof.
  exists SNew, sample_ops, sample_run.1. split; [done|]. split; [apply sample_legal|].
  split; [apply sample_reached|apply sample_alive].
Qed.

Definition sample_entries : list (SK * N) :=
  [((30, 0), 20); ((40, 0), 55); ((60, 0), 10); ((65, 0), 9); ((70, 0), 6); ((80, 0), 3); ((90, 0), 7)].

Lemma sample_yields : yields sample In sample_entries.
Proof. eexists. split; vm_compute; reflexivity. Qed.

Lemma sample_reachable : reachable senv sample.
Proof. destruct sample_ordered as (s & cs & rs & _ & _ & H). by exists s, cs, rs. Qed.

(** A program with a comparison that answers nonsense. *)
Definition mad_ops : list (op SK N) :=
  [ins 50 0 1; OInsert so_mad (30, 0) 2; OInsert so_mad (20, 0) 3; OInsert (so_panic 1 (fun _ => Lt)) (10, 0) 4;
   OInsert so_mad (30, 0) 5; ORemove (fun i k => Some (if Nat.eqb i 1 then Eq else Gt)); OInsert so_mad (60, 0) 6].
Definition mad_run := run senv_release mad_ops map_new.
Definition mad : bstmap SK N := mad_run.2.

Lemma mad_reachable : reachable senv_release mad.
Proof.
  exists SNew, mad_ops, mad_run.1. split.
  - exists map_new. split; [done|]. apply surjective_pairing.
  - vm_compute. repeat constructor; discriminate.
Qed.

(** Any program whose calls all return or panic leads to a reachable map. *)
Lemma reachable_of {K V} e (cs : list (op K V)) : alive (run e cs map_new).1 -> reachable e (run e cs map_new).2.
Proof.
  intros H. exists SNew, cs, (run e cs map_new).1. split; [|done].
  exists map_new. split; [done|]. apply surjective_pairing.
Qed.
