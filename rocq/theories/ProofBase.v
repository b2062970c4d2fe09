(** * Reasoning about results and state, and machine arithmetic in range *)

From Verif Require Export ModelBase.
From Coq Require Export Lia.

(** [wp m Q E s]: running [m] from [s] neither exhibits UB nor diverges; if it
    returns, [Q] holds of result and state; if it panics (or the allocator
    aborts), [E] holds of the reason ([None] for an abort) and state. *)
Definition wp {S A : Type} (m : M S A) (Q : A -> S -> Prop)
    (E : option panic_reason -> S -> Prop) (s : S) : Prop :=
  match m s with
  | (Ret a, s') => Q a s'
  | (Panic p, s') => E (Some p) s'
  | (Abort, s') => E None s'
  | (UB _, _) => False
  | (Diverge, _) => False
  end.

Global Arguments wp : simpl never.
Global Arguments N.add : simpl never.
Global Arguments N.sub : simpl never.
Global Arguments N.mul : simpl never.
Global Arguments N.pow : simpl never.
Global Arguments N.div : simpl never.
Global Arguments N.modulo : simpl never.
Global Arguments N.eqb : simpl never.
Global Arguments N.leb : simpl never.
Global Arguments N.ltb : simpl never.
Global Arguments N.of_nat : simpl never.
Global Arguments N.to_nat : simpl never.

Section wp.
Context {S : Type}.

Lemma wp_ret {A} (a : A) (Q : A -> S -> Prop) E (s : S) : Q a s -> wp (sret a) Q E s.
Proof. done. Qed.

Lemma wp_bind {A B} (m : M S A) (f : A -> M S B) Q E s :
  wp m (fun a s' => wp (f a) Q E s') E s -> wp (sbind m f) Q E s.
Proof.
  unfold wp, sbind. destruct (m s) as [[] s']; done.
Qed.

Lemma wp_get (Q : S -> S -> Prop) E (s : S) : Q s s -> wp sget Q E s.
Proof. done. Qed.

Lemma wp_mod (f : S -> S) (Q : unit -> S -> Prop) E (s : S) : Q tt (f s) -> wp (smod f) Q E s.
Proof. done. Qed.

Lemma wp_lift_ret {A} (r : res A) (a : A) (Q : A -> S -> Prop) E (s : S) :
  r = Ret a -> Q a s -> wp (slift r) Q E s.
Proof. intros ->. done. Qed.

Lemma wp_fail {A} p (Q : A -> S -> Prop) (E : option panic_reason -> S -> Prop) (s : S) : E (Some p) s -> wp (sfail p) Q E s.
Proof. done. Qed.

Lemma wp_mono {A} (m : M S A) (Q Q' : A -> S -> Prop) (E E' : option panic_reason -> S -> Prop) s :
  wp m Q E s -> (forall a s', Q a s' -> Q' a s') -> (forall p s', E p s' -> E' p s') ->
  wp m Q' E' s.
Proof. unfold wp. destruct (m s) as [[] s']; naive_solver. Qed.

Lemma wp_ret_inv {A} (m : M S A) (Q : A -> S -> Prop) E s a s' : wp m Q E s -> m s = (Ret a, s') -> Q a s'.
Proof. unfold wp. intros H Heq. by rewrite Heq in H. Qed.

Lemma wp_zoom {T A} (proj : S -> T) (inj : T -> S -> S) (m : M T A) (Q : A -> S -> Prop) (E : option panic_reason -> S -> Prop) s :
  wp m (fun a t => Q a (inj t s)) (fun p t => E p (inj t s)) (proj s) ->
  wp (zoom proj inj m) Q E s.
Proof. unfold wp, zoom. destruct (m (proj s)) as [[] t]; done. Qed.

Lemma wp_on_panic {A} (h : S -> S) (m : M S A) Q (E : option panic_reason -> S -> Prop) s :
  wp m Q (fun p s' => match p with Some _ => E p (h s') | None => E p s' end) s ->
  wp (on_panic h m) Q E s.
Proof. unfold wp, on_panic. destruct (m s) as [[] t]; done. Qed.

End wp.

(** Same for computations without state. *)
Definition rwp {A : Type} (r : res A) (Q : A -> Prop) (E : option panic_reason -> Prop) : Prop :=
  match r with
  | Ret a => Q a
  | Panic p => E (Some p)
  | Abort => E None
  | _ => False
  end.

Lemma rwp_bind {A B} (r : res A) (f : A -> res B) Q E :
  rwp r (fun a => rwp (f a) Q E) E -> rwp (rbind r f) Q E.
Proof. destruct r; done. Qed.

Lemma rwp_mono {A} (r : res A) (Q Q' : A -> Prop) (E E' : option panic_reason -> Prop) :
  rwp r Q E -> (forall a, Q a -> Q' a) -> (forall p, E p -> E' p) -> rwp r Q' E'.
Proof. destruct r; naive_solver. Qed.

Lemma wp_lift {S A} (r : res A) (Q : A -> S -> Prop) (E : option panic_reason -> S -> Prop) s :
  rwp r (fun a => Q a s) (fun p => E p s) -> wp (slift r) Q E s.
Proof. unfold wp, slift. destruct r; done. Qed.

Lemma rbind_ret {A B} (r : res A) (a : A) (f : A -> res B) : r = Ret a -> rbind r f = f a.
Proof. intros ->. done. Qed.

Lemma rbind_ret_inv {A B} (r : res A) (f : A -> res B) b :
  rbind r f = Ret b -> exists a, r = Ret a /\ f a = Ret b.
Proof. destruct r; simpl; try done. eauto. Qed.

(** Arithmetic in range does not depend on the build profile. *)
Local Open Scope N_scope.

Lemma uadd_ret chk a b : a + b < USIZE -> uadd chk a b = Ret (a + b).
Proof. intros H. unfold uadd. apply N.ltb_lt in H. by rewrite H. Qed.

Lemma usub_ret chk a b : b <= a -> usub chk a b = Ret (a - b).
Proof. intros H. unfold usub. apply N.leb_le in H. by rewrite H. Qed.

Lemma umul_ret chk a b : a * b < USIZE -> umul chk a b = Ret (a * b).
Proof. intros H. unfold umul. apply N.ltb_lt in H. by rewrite H. Qed.

Lemma ushl_ret chk a i : i < 64 -> a * 2 ^ i < USIZE -> ushl chk a i = Ret (a * 2 ^ i).
Proof.
  intros Hi H. unfold ushl. apply N.ltb_lt in Hi. rewrite Hi. f_equal. by apply N.mod_small.
Qed.

Lemma u32sub_ret chk a b : b <= a -> u32sub chk a b = Ret (a - b).
Proof. intros H. unfold u32sub. apply N.leb_le in H. by rewrite H. Qed.

Lemma dassert_ret chk b : b = true -> dassert chk b = Ret tt.
Proof. intros ->. unfold dassert. by rewrite andb_false_r. Qed.

(** [nl]: linear arithmetic where powers, divisions and logarithms are opaque
    (constant powers are evaluated). *)
Ltac hide_powers :=
  repeat match goal with
  | H : context [N.pow ?a ?b] |- _ =>
      first [ let b' := eval vm_compute in b in
              lazymatch b' with N0 => idtac | Npos _ => idtac end;
              let v := eval vm_compute in (N.pow a b) in
              lazymatch v with N0 => idtac | Npos _ => idtac end;
              change (N.pow a b) with v in *
            | generalize dependent (N.pow a b); intros ]
  | |- context [N.pow ?a ?b] =>
      first [ let b' := eval vm_compute in b in
              lazymatch b' with N0 => idtac | Npos _ => idtac end;
              let v := eval vm_compute in (N.pow a b) in
              lazymatch v with N0 => idtac | Npos _ => idtac end;
              change (N.pow a b) with v in *
            | generalize dependent (N.pow a b); intros ]
  | H : context [N.div ?a ?b] |- _ => generalize dependent (N.div a b); intros
  | |- context [N.div ?a ?b] => generalize dependent (N.div a b); intros
  | H : context [N.modulo ?a ?b] |- _ => generalize dependent (N.modulo a b); intros
  | |- context [N.modulo ?a ?b] => generalize dependent (N.modulo a b); intros
  end.
Ltac nl := hide_powers; lia.
