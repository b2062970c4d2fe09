(** * Proofs about ModelTypes.v *)

From Coq Require Import Bool List Arith.
Import ListNotations.
From Verif Require Import ModelTypes.

(** Induction over types, with the hypothesis for the fields. *)
Section ind.
  Variable P : vty -> Prop.
  Hypothesis Hparam : forall i, P (VParam i).
  Hypothesis Hplain : P VPlain.
  Hypothesis Hself : P VSelf.
  Hypothesis Hown : forall t, P t -> P (VOwn t).
  Hypothesis Hmanual : forall t, P t -> P (VManual t).
  Hypothesis Hphantom : forall t, P t -> P (VPhantom t).
  Hypothesis Hnonnull : forall t, P t -> P (VNonNull t).
  Hypothesis Hmut : forall t, P t -> P (VMutPtr t).
  Hypothesis Href : forall a t, P t -> P (VRef a t).
  Hypothesis Hrefmut : forall a t, P t -> P (VRefMut a t).
  Hypothesis Hdata : forall d l, Forall P l -> P (VData d l).
  Fixpoint vty_ind' (t : vty) : P t :=
    match t with
    | VParam i => Hparam i
    | VPlain => Hplain
    | VSelf => Hself
    | VOwn t => Hown t (vty_ind' t)
    | VManual t => Hmanual t (vty_ind' t)
    | VPhantom t => Hphantom t (vty_ind' t)
    | VNonNull t => Hnonnull t (vty_ind' t)
    | VMutPtr t => Hmut t (vty_ind' t)
    | VRef a t => Href a t (vty_ind' t)
    | VRefMut a t => Hrefmut a t (vty_ind' t)
    | VData d l =>
      Hdata d l ((fix go l : Forall P l :=
                    match l with
                    | [] => Forall_nil P
                    | t :: l => Forall_cons t (vty_ind' t) (go l)
                    end) l)
    end.
End ind.

Section proofs.
  Variable out le : nat -> nat -> Prop.
  Notation related := (related out le).
  Notation subtype := (subtype out le).

  Lemma related_dirs t : forall t',
    (related Down t t' <-> related Up t' t) /\
    (related Up t t' <-> related Down t' t) /\
    (related Both t t' <-> related Up t t' /\ related Up t' t) /\
    (related Both t' t <-> related Up t t' /\ related Up t' t).
  Proof.
    induction t as [i| | |t IH|t IH|t IH|t IH|t IH|a t IH|a t IH|d l IH] using vty_ind';
      intros t'; destruct t' as [j| |u|u|u|u|u|b u|b u| |e l'];
      simpl; try specialize (IH u); try tauto.
    revert l'. induction IH as [|t l Ht _ IH]; intros [|t' l']; simpl.
    - intuition congruence.
    - tauto.
    - tauto.
    - specialize (Ht t'). specialize (IH l').
      assert (d = e <-> e = d) by (split; congruence).
      revert IH. generalize (d = e) (e = d) H. intros. tauto.
  Qed.

  Lemma related_both t t' : related Both t t' <-> subtype t t' /\ subtype t' t.
  Proof. apply related_dirs. Qed.

  Lemma subtype_refl : (forall i, out i i) -> (forall i, le i i) -> forall t, subtype t t.
  Proof.
    intros Ho Hl t. unfold ModelTypes.subtype.
    induction t as [i| | |t IH|t IH|t IH|t IH|t IH|a t IH|a t IH|d l IH] using vty_ind';
      simpl; auto; rewrite ?related_both; auto.
    split; [reflexivity|]. induction IH; auto.
  Qed.

  Lemma subtype_trans :
    (forall a b c, out a b -> out b c -> out a c) -> (forall a b c, le a b -> le b c -> le a c) ->
    forall t1 t2 t3, subtype t1 t2 -> subtype t2 t3 -> subtype t1 t3.
  Proof.
    intros Ho Hl t1.
    enough (H : forall t2 t3, (related Up t1 t2 -> related Up t2 t3 -> related Up t1 t3) /\
                      (related Up t3 t2 -> related Up t2 t1 -> related Up t3 t1))
      by (intros; eapply H; eauto).
    induction t1 as [i| | |t IH|t IH|t IH|t IH|t IH|a t IH|a t IH|d l IH] using vty_ind';
      intros [j| |u|u|u|u|u|b u|b u| |e l'] [k| |w|w|w|w|w|c w|c w| |f l''];
      simpl; rewrite ?related_both; unfold ModelTypes.subtype; try (specialize (IH u w)); try tauto; eauto.
    - intuition eauto.
    - intuition eauto.
    - revert l' l''. induction IH as [|t l Ht _ IH]; intros [|u l'] [|w l'']; simpl; try tauto.
      + intuition congruence.
      + specialize (Ht u w). specialize (IH l' l''). intuition congruence.
  Qed.

  Ltac rel := intros; unfold ModelTypes.subtype; simpl; rewrite ?related_both; unfold ModelTypes.subtype; tauto.

  Lemma sub_arena t t' : subtype (VStableArena t) (VStableArena t') <-> subtype t t'.
  Proof. rel. Qed.
  Lemma sub_slab t t' : subtype (VUnsafeSlab t) (VUnsafeSlab t') <-> subtype t t'.
  Proof. rel. Qed.
  Lemma sub_map k v k' v' : subtype (VBSTMap k v) (VBSTMap k' v') <-> subtype k k' /\ subtype v v'.
  Proof. rel. Qed.
  Lemma sub_set t t' : subtype (VBSTSet t) (VBSTSet t') <-> subtype t t'.
  Proof. rel. Qed.
  Lemma sub_simple k v k' v' : subtype (VSimpleBSTMap k v) (VSimpleBSTMap k' v') <-> subtype k k' /\ subtype v v'.
  Proof. rel. Qed.
  Lemma sub_sset t t' : subtype (VSimpleBSTSet t) (VSimpleBSTSet t') <-> subtype t t'.
  Proof. rel. Qed.
  Lemma sub_simple_node k v k' v' : subtype (VSimpleNode k v) (VSimpleNode k' v') <-> subtype k k' /\ subtype v v'.
  Proof. rel. Qed.
  Lemma sub_node a b k v k' v' : subtype (VNode a k v) (VNode b k' v') <-> out a b /\ subtype k k' /\ subtype v v'.
  Proof. rel. Qed.
  Lemma sub_iter a b k v k' v' : subtype (VIter a k v) (VIter b k' v') <-> out a b /\ subtype k k' /\ subtype v v'.
  Proof. rel. Qed.
  Lemma sub_simple_iter a b k v k' v' :
    subtype (VSimpleIter a k v) (VSimpleIter b k' v') <-> out a b /\ subtype k k' /\ subtype v v'.
  Proof. rel. Qed.
  Lemma sub_set_node a b t t' : subtype (VSetNode a t) (VSetNode b t') <-> out a b /\ subtype t t'.
  Proof. rel. Qed.
  Lemma sub_set_iter a b t t' : subtype (VSetIter a t) (VSetIter b t') <-> out a b /\ subtype t t'.
  Proof. rel. Qed.
  Lemma sub_sset_node a b t t' : subtype (VSimpleSetNode a t) (VSimpleSetNode b t') <-> out a b /\ subtype t t'.
  Proof. rel. Qed.
  Lemma sub_sset_iter a b t t' : subtype (VSimpleSetIter a t) (VSimpleSetIter b t') <-> out a b /\ subtype t t'.
  Proof. rel. Qed.
  Lemma sub_arena_into_iter t t' : subtype (VArenaIntoIter t) (VArenaIntoIter t') <-> subtype t t'.
  Proof. rel. Qed.
  Lemma sub_arena_iter a b t t' : subtype (VArenaIter a t) (VArenaIter b t') <-> out a b /\ subtype t t'.
  Proof. rel. Qed.
  Lemma sub_node_mut a b k v k' v' :
    subtype (VNodeMut a k v) (VNodeMut b k' v') <->
    out a b /\ (subtype k k' /\ subtype k' k) /\ (subtype v v' /\ subtype v' v).
  Proof. rel. Qed.
  Lemma sub_iter_mut a b k v k' v' :
    subtype (VIterMut a k v) (VIterMut b k' v') <->
    out a b /\ (subtype k k' /\ subtype k' k) /\ (subtype v v' /\ subtype v' v).
  Proof. rel. Qed.
  Lemma sub_arena_iter_mut a b t t' :
    subtype (VArenaIterMut a t) (VArenaIterMut b t') <-> out a b /\ subtype t t' /\ subtype t' t.
  Proof. rel. Qed.
  Lemma sub_pointers t t' : subtype (VPointers t) (VPointers t') <-> subtype t t'.
  Proof. rel. Qed.
End proofs.

(** ** Drop check *)

Lemma needs_occurs x t : needs x t = true -> occurs x t = true.
Proof.
  induction t as [i| | |t IH|t IH|t IH|t IH|t IH|a t IH|a t IH|d l IH] using vty_ind';
    simpl; try discriminate; auto.
  destruct d; auto. rewrite !existsb_exists. intros (t & Hin & Ht).
  rewrite Forall_forall in IH. eauto.
Qed.

Ltac dck := intros; simpl; rewrite ?orb_false_r; repeat (destruct (occurs _ _) || destruct (needs _ _)); reflexivity.

Lemma needs_arena x t : needs x (VStableArena t) = occurs x t.
Proof. dck. Qed.
Lemma needs_slab x t : needs x (VUnsafeSlab t) = occurs x t.
Proof. dck. Qed.
Lemma needs_map x k v : needs x (VBSTMap k v) = occurs x k || occurs x v.
Proof. dck. Qed.
Lemma needs_set x t : needs x (VBSTSet t) = occurs x t.
Proof. dck. Qed.
Lemma needs_simple x k v : needs x (VSimpleBSTMap k v) = needs x k || needs x v.
Proof. dck. Qed.
Lemma needs_simple_node x k v : needs x (VSimpleNode k v) = needs x k || needs x v.
Proof. dck. Qed.
Lemma needs_sset x t : needs x (VSimpleBSTSet t) = needs x t.
Proof. dck. Qed.
Lemma needs_views x a k v :
  needs x (VNode a k v) = false /\ needs x (VNodeMut a k v) = false /\
  needs x (VIter a k v) = false /\ needs x (VIterMut a k v) = false /\
  needs x (VSetNode a k) = false /\ needs x (VSetIter a k) = false /\
  needs x (VSimpleIter a k v) = false /\ needs x (VSimpleSetNode a k) = false /\
  needs x (VSimpleSetIter a k) = false /\
  needs x (VArenaIter a k) = false /\ needs x (VArenaIterMut a k) = false.
Proof. repeat split. Qed.
Lemma needs_entry x t : needs x (VEntry t) = false.
Proof. reflexivity. Qed.

(** ** Unwind safety *)

Ltac uns := intros; simpl; rewrite ?andb_true_r; repeat destruct (safe _ _ _); reflexivity.

Section unwind.
  Variable flags : nat -> safety -> bool.
  Notation safe := (safe flags).
  Lemma unwind_arena t :
    safe Unwind (VStableArena t) = safe Unwind t && safe RefUnwind t /\
    safe RefUnwind (VStableArena t) = safe RefUnwind t.
  Proof. split; uns. Qed.
  Lemma unwind_slab t :
    safe Unwind (VUnsafeSlab t) = safe Unwind t && safe RefUnwind t /\
    safe RefUnwind (VUnsafeSlab t) = safe RefUnwind t.
  Proof. split; uns. Qed.
  Lemma unwind_map k v :
    safe Unwind (VBSTMap k v) = (safe Unwind k && safe RefUnwind k) && (safe Unwind v && safe RefUnwind v) /\
    safe RefUnwind (VBSTMap k v) = safe RefUnwind k && safe RefUnwind v.
  Proof. split; uns. Qed.
  Lemma unwind_set t :
    safe Unwind (VBSTSet t) = safe Unwind t && safe RefUnwind t /\
    safe RefUnwind (VBSTSet t) = safe RefUnwind t.
  Proof. split; uns. Qed.
  Lemma unwind_simple a k v :
    safe a (VSimpleBSTMap k v) = safe a k && safe a v /\
    safe a (VSimpleNode k v) = safe a k && safe a v /\
    safe a (VSimpleBSTSet k) = safe a k.
  Proof. repeat split; uns. Qed.
  Lemma unwind_shared a l k v :
    safe a (VNode l k v) = safe RefUnwind k && safe RefUnwind v /\
    safe a (VIter l k v) = safe RefUnwind k && safe RefUnwind v /\
    safe a (VSimpleIter l k v) = safe RefUnwind k && safe RefUnwind v /\
    safe a (VSetNode l k) = safe RefUnwind k /\
    safe a (VSetIter l k) = safe RefUnwind k /\
    safe a (VSimpleSetNode l k) = safe RefUnwind k /\
    safe a (VSimpleSetIter l k) = safe RefUnwind k /\
    safe a (VArenaIter l k) = safe RefUnwind k.
  Proof. repeat split; uns. Qed.
  Lemma unwind_mutable l k v :
    (safe Unwind (VNodeMut l k v) = false /\ safe Unwind (VIterMut l k v) = false /\
     safe Unwind (VArenaIterMut l k) = false) /\
    (safe RefUnwind (VNodeMut l k v) = safe RefUnwind k && safe RefUnwind v /\
     safe RefUnwind (VIterMut l k v) = safe RefUnwind k && safe RefUnwind v /\
     safe RefUnwind (VArenaIterMut l k) = safe RefUnwind k).
  Proof. repeat split; uns. Qed.
End unwind.
