(** * Proofs about [extend] and [collect] with a running iterator *)

From Verif Require Import ProofCalls ProofDrops.
From Verif Require Import ModelSource SpecSource.
Local Open Scope nat_scope.

Section generic.
Context {S A C : Type}.
Implicit Types (src : source S A) (ins : nat -> A -> M C unit).

(** The loop over a list of items. *)
Fixpoint list_loop ins (j : nat) (items : list A) (panics : bool) : M C unit :=
  match items with
  | [] => if panics then sfail PIter else sret tt
  | x :: items => let! _ := ins j x in list_loop ins (Datatypes.S j) items panics
  end.

Lemma asked_S src n st :
  asked src (Datatypes.S n) st =
  ((src_next src st).1 :: (asked src n (src_next src st).2).1, (asked src n (src_next src st).2).2).
Proof. cbn [asked]. destruct (src_next src st) as [x st1]. cbn [fst snd]. by destruct (asked src n st1). Qed.

Definition loop_count ins (j : nat) (items : list A) (panics : bool) (c : C) (r : res unit) (k : nat) : Prop :=
  (k = length items /\ (list_loop ins j items false c).1 = Ret tt /\ r = (if panics then Panic PIter else Ret tt)) \/
  (exists x c1, items !! k = Some x /\ list_loop ins j (take k items) false c = (Ret tt, c1) /\
                (ins (j + k) x c1).1 = r /\ r <> Ret tt).

Lemma pull_list src ins items panics fuel j c st calls :
  yields src st items panics ->
  length items < fuel ->
  exists k,
    pull_loop src ins fuel j (c, (st, calls)) =
      ((list_loop ins j items panics c).1,
       ((list_loop ins j items panics c).2,
        ((asked src (Datatypes.S k) st).2, calls ++ repeat AskedNext (Datatypes.S k)))) /\
    loop_count ins j items panics c (list_loop ins j items panics c).1 k.
Proof.
  revert fuel j c st calls. induction items as [|x items IH]; intros fuel j c st calls Hy Hf.
  - destruct fuel as [|fuel]; [cbn in Hf; lia|]. exists 0.
    unfold yields in Hy. cbn [length] in Hy. rewrite asked_S in Hy. cbn in Hy.
    cbn [pull_loop]. unfold sbind, ask_next. cbn [fst snd].
    rewrite asked_S. destruct (src_next src st) as [a st1]. cbn [fst snd asked] in *.
    injection Hy as ->. split.
    + by destruct panics.
    + left. split; [done|]. split; [done|]. by destruct panics.
  - destruct fuel as [|fuel]; [cbn in Hf; lia|]. cbn in Hf.
    unfold yields in Hy. cbn [length] in Hy. rewrite asked_S in Hy. cbn [fst] in Hy.
    rewrite fmap_cons in Hy. cbn [app] in Hy.
    cbn [pull_loop]. unfold sbind at 1. unfold ask_next at 1. cbn [fst snd].
    destruct (src_next src st) as [a st1] eqn:En. cbn [fst snd] in *.
    injection Hy as -> Hy.
    unfold sbind at 1, on_coll at 1. cbn [fst snd list_loop]. unfold sbind.
    destruct (ins j x c) as [[[]| | | |] c1] eqn:Ei;
      [destruct (IH fuel (Datatypes.S j) c1 st1 (calls ++ [AskedNext]) Hy ltac:(lia)) as [k [Hk Hc]];
       exists (Datatypes.S k)| | | |].
    { split.
      - rewrite Hk. rewrite (asked_S src (Datatypes.S k) st), En. cbn [fst snd].
        rewrite <- app_assoc. done.
      - destruct Hc as [(-> & Hl & Hr)|(y & c2 & Hy2 & Hl & Ho & Hr)].
        + left. split; [done|]. split; [|done]. cbn [list_loop]. unfold sbind. by rewrite Ei.
        + right. exists y, c2. split; [done|]. split.
          * cbn [take list_loop]. unfold sbind. by rewrite Ei.
          * split; [|done]. by replace (j + Datatypes.S k) with (Datatypes.S j + k) by lia. }
    all: exists 0; split;
      [rewrite asked_S, En; done
      |right; exists x, c; split; [done|]; split; [done|]; split; [|done];
       rewrite Nat.add_0_r, Ei; done].
Qed.

(** The first [fuel] answers are items. *)
Lemma pull_endless src ins items j c st calls :
  (asked src (length items) st).1 = Gives <$> items ->
  exists k,
    pull_loop src ins (length items) j (c, (st, calls)) =
      (match (list_loop ins j items false c).1 with Ret _ => Diverge | r => r end,
       ((list_loop ins j items false c).2,
        ((asked src k st).2, calls ++ repeat AskedNext k))) /\
    k <= length items /\
    ((list_loop ins j items false c).1 = Ret tt -> k = length items).
Proof.
  revert j c st calls. induction items as [|x items IH]; intros j c st calls Hy.
  - exists 0. cbn. by rewrite app_nil_r.
  - cbn [length] in *. rewrite asked_S in Hy. cbn [fst] in Hy. rewrite fmap_cons in Hy.
    cbn [pull_loop]. unfold sbind at 1. unfold ask_next at 1. cbn [fst snd].
    destruct (src_next src st) as [a st1] eqn:En. cbn [fst snd] in *.
    injection Hy as -> Hy.
    unfold sbind at 1, on_coll at 1. cbn [fst snd list_loop]. unfold sbind.
    destruct (ins j x c) as [[[]| | | |] c1] eqn:Ei;
      [destruct (IH (Datatypes.S j) c1 st1 (calls ++ [AskedNext]) Hy) as (k & Hk & Hle & Hc);
       exists (Datatypes.S k)| | | |].
    { split; [|split; [lia|]].
      - rewrite Hk. rewrite asked_S, En. cbn [fst snd]. rewrite <- app_assoc. done.
      - intros H. by rewrite (Hc H). }
    all: exists 1; split; [rewrite asked_S, En; done|split; [lia|done]].
Qed.

(** More rounds change nothing once the loop has ended. *)
Lemma pull_more src ins fuel fuel' j s :
  (pull_loop src ins fuel j s).1 <> Diverge -> fuel <= fuel' ->
  pull_loop src ins fuel' j s = pull_loop src ins fuel j s.
Proof.
  revert fuel' j s. induction fuel as [|fuel IH]; intros fuel' j s Hd Hle; [by destruct Hd|].
  destruct fuel' as [|fuel']; [lia|]. revert Hd. cbn [pull_loop]. unfold sbind at 1 3 5.
  destruct (ask_next src s) as [[[x| |]| | | |] s1]; try done.
  unfold sbind. destruct (on_coll (ins j x) s1) as [[[]| | | |] s2]; try done.
  intros Hd. apply IH; [done|lia].
Qed.

End generic.

Section maps.
Context {S K V : Type}.
Implicit Types (src : source S (K * V)).

Lemma insert_all_loop (e : env) (os : nat -> K -> oracle K) j (items : list (K * V)) panics m :
  insert_all e os j items panics m = list_loop (map_take_in e os) j items panics m.
Proof.
  revert j m. induction items as [|[k v] items IH]; intros j m; [done|].
  cbn [insert_all list_loop]. unfold map_take_in at 1. unfold sbind. cbn [fst snd].
  destruct (bstmap_insert e (os j k) k v m) as [[prev| | | |] m1]; try done.
  unfold smod. apply IH.
Qed.

Lemma simple_all_loop (e : benv) (os : nat -> K -> oracle K) j (items : list (K * V)) panics m :
  simple_insert_all e os j items panics m = list_loop (simple_take_in e os) j items panics m.
Proof.
  revert j m. induction items as [|[k v] items IH]; intros j m; [done|].
  cbn [simple_insert_all list_loop]. unfold simple_take_in at 1. unfold sbind. cbn [fst snd].
  destruct (simple_insert e (os j k) k v m) as [[prev| | | |] m1]; try done.
  apply IH.
Qed.

Lemma map_take_in_res (e : env) (os : nat -> K -> oracle K) j x (m : bstmap K V) :
  (map_take_in e os j x m).1 = rmap (fun _ => tt) (bstmap_insert e (os j x.1) x.1 x.2 m).1.
Proof.
  unfold map_take_in, sbind. destruct (bstmap_insert e (os j x.1) x.1 x.2 m) as [[prev| | | |] m1]; done.
Qed.
Lemma simple_take_in_res (e : benv) (os : nat -> K -> oracle K) j x (m : simple K V) :
  (simple_take_in e os j x m).1 = rmap (fun _ => tt) (simple_insert e (os j x.1) x.1 x.2 m).1.
Proof.
  unfold simple_take_in, sbind. destruct (simple_insert e (os j x.1) x.1 x.2 m) as [[prev| | | |] m1]; done.
Qed.

Lemma count_mono {A C} (upto : list A -> res unit * C) one ins items panics c r k :
  (forall l, upto l = list_loop ins 0 l false c) ->
  (forall j x c, one j x c = (ins j x c).1) ->
  loop_count ins 0 items panics c r k ->
  asked_until upto one items panics r (Datatypes.S k).
Proof.
  intros Hu Ho [(-> & Hl & Hr)|(x & c1 & Hx & Hl & Hi & Hr)].
  - left. by rewrite Hu.
  - right. exists x, c1. rewrite Hu, Ho. done.
Qed.

Lemma map_extend_unfold (e : env) (os : nat -> K -> oracle K) lo hi (l : list (K * V)) b m :
  map_extend e os (mkUserIter lo hi l b) m =
  (let! _ := map_reserve e (hinted_len (lo, hi)) in list_loop (map_take_in e os) 0 l b) m.
Proof.
  unfold map_extend, sbind. change (hint_len (mkUserIter lo hi l b)) with (hinted_len (lo, hi)).
  destruct (map_reserve e (hinted_len (lo, hi)) m) as [[[]| | | |] m1]; try done.
  apply insert_all_loop.
Qed.

Lemma map_extend_from_yields (e : env) (os : nat -> K -> oracle K) src st lo hi items panics fuel (m : bstmap K V) :
  src_hint src st = Some (lo, hi) ->
  yields src st items panics ->
  length items < fuel ->
  let out := map_extend e os (mkUserIter lo hi items panics) m in
  exists n,
    map_extend_from e os src fuel (m, (st, [])) =
      (out.1, (out.2, ((asked src n st).2, AskedHint :: repeat AskedNext n))) /\
    asked_until (fun l => map_extend e os (mkUserIter lo hi l false) m)
      (fun j x m => rmap (fun _ => tt) (bstmap_insert e (os j x.1) x.1 x.2 m).1)
      items panics out.1 n.
Proof.
  intros Hh Hy Hf out. subst out. rewrite map_extend_unfold.
  unfold map_extend_from, sbind at 1, ask_hint. cbn [fst snd]. rewrite Hh. cbn [app].
  unfold sbind, on_coll. cbn [fst snd].
  destruct (map_reserve e (hinted_len (lo, hi)) m) as [[[]| | | |] m1] eqn:Er.
  { destruct (pull_list src (map_take_in e os) items panics fuel 0 m1 st [AskedHint] Hy Hf) as (k & Hk & Hc).
    exists (Datatypes.S k). split; [exact Hk|].
    eapply count_mono; [| |exact Hc].
    - intros l. cbn beta. rewrite map_extend_unfold. unfold sbind. by rewrite Er.
    - intros. symmetry. apply map_take_in_res. }
  all: exists 0; split; [done|]; split; [|done]; rewrite map_extend_unfold; unfold sbind; by rewrite Er.
Qed.

Lemma map_extend_from_endless (e : env) (os : nat -> K -> oracle K) src st lo hi items (m : bstmap K V) :
  src_hint src st = Some (lo, hi) ->
  (asked src (length items) st).1 = Gives <$> items ->
  let out := map_extend e os (mkUserIter lo hi items false) m in
  exists n,
    map_extend_from e os src (length items) (m, (st, [])) =
      (match out.1 with Ret _ => Diverge | r => r end,
       (out.2, ((asked src n st).2, AskedHint :: repeat AskedNext n))) /\
    n <= length items /\ (out.1 = Ret tt -> n = length items).
Proof.
  intros Hh Hy out. subst out. rewrite map_extend_unfold.
  unfold map_extend_from, sbind at 1, ask_hint. cbn [fst snd]. rewrite Hh. cbn [app].
  unfold sbind, on_coll. cbn [fst snd].
  destruct (map_reserve e (hinted_len (lo, hi)) m) as [[[]| | | |] m1] eqn:Er.
  { apply (pull_endless src (map_take_in e os) items 0 m1 st [AskedHint] Hy). }
  all: exists 0; split; [done|]; split; [lia|done].
Qed.

Lemma map_extend_from_more (e : env) (os : nat -> K -> oracle K) src fuel fuel' (s : pulling S (bstmap K V)) :
  (map_extend_from e os src fuel s).1 <> Diverge -> fuel <= fuel' ->
  map_extend_from e os src fuel' s = map_extend_from e os src fuel s.
Proof.
  unfold map_extend_from, sbind. destruct (ask_hint src s) as [[h| | | |] s1]; try done.
  destruct (on_coll (map_reserve e (hinted_len h)) s1) as [[[]| | | |] s2]; try done.
  apply pull_more.
Qed.

(** Dropping the half-built map returns. *)
Lemma half_built_drop (e : env) (os : nat -> K -> oracle K) n j (l : list (K * V)) b m0 p m1 :
  map_with_capacity e n = (Ret tt, m0) ->
  list_loop (map_take_in e os) j l b m0 = (Panic p, m1) ->
  exists m2, map_drop e (fun _ => false) m1 = (Ret tt, m2).
Proof.
  intros H0 H1. pose proof (with_capacity_rep (K:=K) (V:=V) e n) as Hr. rewrite H0 in Hr.
  destruct Hr as (t & fl & Hr). rewrite <- insert_all_loop in H1.
  pose proof (insert_all_spec e os b l j m0 t fl Hr) as Hw. unfold wp in Hw. rewrite H1 in Hw.
  destruct Hw as (_ & t' & fl' & Hr' & _).
  destruct (map_drop_spec e (fun _ => false) m1 t' fl' Hr') as (m2 & _ & H & _); [done|]. by exists m2.
Qed.

Lemma map_collect_unfold (e : env) (os : nat -> K -> oracle K) lo hi (l : list (K * V)) b :
  map_from_iter e os (mkUserIter lo hi l b) =
  build e (map_with_capacity e (hinted_len (lo, hi))) (list_loop (map_take_in e os) 0 l b).
Proof.
  unfold map_from_iter, build. change (hint_len (mkUserIter lo hi l b)) with (hinted_len (lo, hi)).
  destruct (map_with_capacity e (hinted_len (lo, hi))) as [[[]| | | |] m0]; try done.
  cbn [ui_items ui_panics]. by rewrite insert_all_loop.
Qed.

Lemma map_collect_from_yields (e : env) (os : nat -> K -> oracle K) src st lo hi items panics fuel :
  src_hint src st = Some (lo, hi) ->
  yields src st items panics ->
  length items < fuel ->
  let out := map_from_iter (V:=V) e os (mkUserIter lo hi items panics) in
  exists n,
    map_collect_from e os src fuel st =
      (out.1, (out.2, ((asked src n st).2, AskedHint :: repeat AskedNext n))) /\
    asked_until (fun l => map_from_iter e os (mkUserIter lo hi l false))
      (fun j x m => rmap (fun _ => tt) (bstmap_insert e (os j x.1) x.1 x.2 m).1)
      items panics out.1 n.
Proof.
  intros Hh Hy Hf out. subst out. rewrite map_collect_unfold.
  unfold map_collect_from. rewrite Hh. unfold build.
  destruct (map_with_capacity e (hinted_len (lo, hi))) as [[[]| | | |] m0] eqn:Er.
  { destruct (pull_list src (map_take_in e os) items panics fuel 0 m0 st [AskedHint] Hy Hf) as (k & Hk & Hc).
    exists (Datatypes.S k). rewrite Hk.
    assert (Hd : match list_loop (map_take_in e os) 0 items panics m0 with
                 | (Panic p, m1) => exists m2, map_drop e (fun _ => false) m1 = (Ret tt, m2)
                 | _ => True end).
    { destruct (list_loop (map_take_in e os) 0 items panics m0) as [[[]| | | |] m1] eqn:El; try done.
      by eapply half_built_drop. }
    assert (Hret : forall l c, list_loop (map_take_in e os) 0 l false m0 = (Ret tt, c) ->
              map_from_iter e os (mkUserIter lo hi l false) = (Ret tt, c)).
    { intros l c Hl. rewrite map_collect_unfold. unfold build. by rewrite Er, Hl. }
    assert (Hu : asked_until (fun l => map_from_iter e os (mkUserIter lo hi l false))
      (fun j x m => rmap (fun _ => tt) (bstmap_insert e (os j x.1) x.1 x.2 m).1)
      items panics (list_loop (map_take_in e os) 0 items panics m0).1 (Datatypes.S k)).
    { destruct Hc as [(-> & Hl & Hr)|(x & c1 & Hx & Hl & Hi & Hr)].
      - left. split; [done|]. split; [|done].
        destruct (list_loop (map_take_in e os) 0 items false m0) as [r c] eqn:El. cbn [fst] in Hl.
        subst r. by rewrite (Hret _ _ El).
      - right. exists x, c1. split; [done|]. split; [by apply Hret|]. split; [|done].
        by rewrite <- map_take_in_res. }
    clear Hc Hk Hret.
    destruct (list_loop (map_take_in e os) 0 items panics m0) as [[[]| | | |] m1]; cbn [fst snd] in *; try done.
    destruct Hd as [m2 ->]. done. }
  all: exists 0; split; [done|]; split; [|done]; rewrite map_collect_unfold; unfold build; by rewrite Er.
Qed.

Lemma map_collect_from_endless (e : env) (os : nat -> K -> oracle K) src st lo hi items :
  src_hint src st = Some (lo, hi) ->
  (asked src (length items) st).1 = Gives <$> items ->
  let out := map_from_iter (V:=V) e os (mkUserIter lo hi items false) in
  exists n,
    map_collect_from e os src (length items) st =
      (match out.1 with Ret _ => Diverge | r => r end,
       (out.2, ((asked src n st).2, AskedHint :: repeat AskedNext n))) /\
    n <= length items /\ (out.1 = Ret tt -> n = length items).
Proof.
  intros Hh Hy out. subst out. rewrite map_collect_unfold.
  unfold map_collect_from. rewrite Hh. unfold build.
  destruct (map_with_capacity e (hinted_len (lo, hi))) as [[[]| | | |] m0] eqn:Er.
  { destruct (pull_endless src (map_take_in e os) items 0 m0 st [AskedHint] Hy) as (k & Hk & Hle & Hc).
    exists k. rewrite Hk. clear Hk.
    destruct (list_loop (map_take_in e os) 0 items false m0) as [[[]|p| | |] m1] eqn:El; cbn [fst snd] in *;
      try (split; [done|]; split; done).
    destruct (half_built_drop _ _ _ _ _ _ _ _ _ Er El) as [m2 ->]. split; [done|]. split; done. }
  all: exists 0; split; [done|]; split; [lia|done].
Qed.

Lemma map_collect_from_more (e : env) (os : nat -> K -> oracle K) src fuel fuel' st :
  (map_collect_from (V:=V) e os src fuel st).1 <> Diverge -> fuel <= fuel' ->
  map_collect_from e os src fuel' st = map_collect_from e os src fuel st.
Proof.
  unfold map_collect_from. destruct (src_hint src st) as [h|]; [|done].
  destruct (map_with_capacity e (hinted_len h)) as [[[]| | | |] m0]; try done.
  intros Hd Hle. rewrite (pull_more src (map_take_in e os) fuel fuel'); [done| |done].
  intros He. apply Hd. revert He.
  destruct (pull_loop src (map_take_in e os) fuel 0 (m0, (st, [AskedHint]))) as [[[]| | | |] [m1 s1]]; done.
Qed.

Lemma simple_from_yields (e : benv) (os : nat -> K -> oracle K) src st lo hi items panics fuel calls (m : simple K V) :
  yields src st items panics ->
  length items < fuel ->
  let out := simple_extend e os (mkUserIter lo hi items panics) m in
  exists n,
    simple_extend_from e os src fuel (m, (st, calls)) =
      (out.1, (out.2, ((asked src n st).2, calls ++ repeat AskedNext n))) /\
    asked_until (fun l => simple_extend e os (mkUserIter lo hi l false) m)
      (fun j x m => rmap (fun _ => tt) (simple_insert e (os j x.1) x.1 x.2 m).1)
      items panics out.1 n.
Proof.
  intros Hy Hf out. subst out.
  destruct (pull_list src (simple_take_in e os) items panics fuel 0 m st calls Hy Hf) as (k & Hk & Hc).
  exists (Datatypes.S k). unfold simple_extend_from, simple_extend. cbn [ui_items ui_panics].
  rewrite simple_all_loop. split; [exact Hk|].
  eapply count_mono; [| |exact Hc].
  - intros l. apply simple_all_loop.
  - intros. symmetry. apply simple_take_in_res.
Qed.

Lemma simple_from_endless (e : benv) (os : nat -> K -> oracle K) src st lo hi items calls (m : simple K V) :
  (asked src (length items) st).1 = Gives <$> items ->
  let out := simple_extend e os (mkUserIter lo hi items false) m in
  exists n,
    simple_extend_from e os src (length items) (m, (st, calls)) =
      (match out.1 with Ret _ => Diverge | r => r end,
       (out.2, ((asked src n st).2, calls ++ repeat AskedNext n))) /\
    n <= length items /\ (out.1 = Ret tt -> n = length items).
Proof.
  intros Hy out. subst out. unfold simple_extend_from, simple_extend. cbn [ui_items ui_panics].
  rewrite simple_all_loop. apply pull_endless, Hy.
Qed.

Lemma hint_panics (e : env) (os : nat -> K -> oracle K) src st fuel (m : bstmap K V) :
  src_hint src st = None ->
  map_extend_from e os src fuel (m, (st, [])) = (Panic PIter, (m, (st, [AskedHint]))) /\
  map_collect_from (V:=V) e os src fuel st = (Panic PIter, (map_new, (st, [AskedHint]))).
Proof.
  intros Hh. unfold map_extend_from, map_collect_from, sbind, ask_hint. cbn [fst snd]. by rewrite Hh.
Qed.

Lemma asked_length {B} (sr : source S B) n st : length (asked sr n st).1 = n.
Proof. revert st. induction n as [|n IH]; intros st; [done|]. rewrite asked_S. cbn. by rewrite IH. Qed.
Lemma endless_items {B} (sr : source S B) st n : endless sr st ->
  exists items, length items = n /\ (asked sr (length items) st).1 = Gives <$> items.
Proof.
  intros He. destruct (He n) as [items H]. exists items.
  assert (length items = n) as Hl by (by rewrite <- (asked_length sr n st), H, fmap_length).
  by rewrite Hl.
Qed.

Lemma endless_never_returns src st : endless src st -> forall fuel,
  (forall e os (m : bstmap K V), (map_extend_from e os src fuel (m, (st, []))).1 <> Ret tt) /\
  (forall e os, (map_collect_from e os src fuel st).1 <> Ret tt) /\
  (forall e os (m : simple K V), (simple_extend_from e os src fuel (m, (st, []))).1 <> Ret tt) /\
  (forall e os, (simple_collect_from e os src fuel st).1 <> Ret tt).
Proof.
  intros He fuel. destruct (endless_items src st fuel He) as (items & <- & Hi).
  assert (Hs : forall e os (m : simple K V), (simple_extend_from e os src (length items) (m, (st, []))).1 <> Ret tt).
  { intros e os m. destruct (simple_from_endless e os src st 0%N None items [] m Hi) as (n & -> & _). cbn [fst].
    by destruct (simple_extend e os (mkUserIter 0%N None items false) m).1 as [[]| | | |]. }
  split; [|split; [|split]].
  - intros e os m. destruct (src_hint src st) as [[lo hi]|] eqn:Hh.
    + destruct (map_extend_from_endless e os src st lo hi items m Hh Hi) as (n & -> & _). cbn [fst].
      by destruct (map_extend e os (mkUserIter lo hi items false) m).1 as [[]| | | |].
    + by rewrite (proj1 (hint_panics e os src st (length items) m Hh)).
  - intros e os. destruct (src_hint src st) as [[lo hi]|] eqn:Hh.
    + destruct (map_collect_from_endless e os src st lo hi items Hh Hi) as (n & -> & _). cbn [fst].
      by destruct (map_from_iter e os (mkUserIter lo hi items false)).1 as [[]| | | |].
    + by rewrite (proj2 (hint_panics e os src st (length items) map_new Hh)).
  - exact Hs.
  - intros e os. exact (Hs e os simple_new).
Qed.

End maps.

Section sets.
Context {S T : Type}.
Implicit Types (src : source S T).

Lemma asked_units src n st :
  asked (units_source src) n st =
  ((fun a => match a with Gives x => Gives (x, tt) | Ends => Ends | NextPanics => NextPanics end) <$> (asked src n st).1,
   (asked src n st).2).
Proof.
  revert st. induction n as [|n IH]; intros st; [done|].
  rewrite !asked_S. cbn [units_source src_next].
  destruct (src_next src st) as [x st1]. cbn [fst snd]. rewrite IH. done.
Qed.

Lemma asked_units_state src n st : (asked (units_source src) n st).2 = (asked src n st).2.
Proof. by rewrite asked_units. Qed.

Lemma yields_units src st items b :
  yields src st items b -> yields (units_source src) st ((fun x => (x, tt)) <$> items) b.
Proof.
  unfold yields. rewrite fmap_length, asked_units. cbn [fst]. intros ->.
  rewrite fmap_app. cbn. f_equal; [|by destruct b].
  rewrite <- !list_fmap_compose. done.
Qed.

Lemma gives_units src st items :
  (asked src (length items) st).1 = Gives <$> items ->
  (asked (units_source src) (length ((fun x => (x, tt)) <$> items)) st).1 = Gives <$> ((fun x => (x, tt)) <$> items).
Proof.
  rewrite fmap_length, asked_units. cbn [fst]. intros ->. by rewrite <- !list_fmap_compose.
Qed.

Lemma until_units {C} (upto : list T -> res unit * C) (upto' : list (T * unit) -> res unit * C)
    one one' items b r n :
  (forall l, upto l = upto' ((fun x => (x, tt)) <$> l)) ->
  (forall j x c, one j x c = one' j (x, tt) c) ->
  asked_until upto' one' ((fun x => (x, tt)) <$> items) b r n ->
  asked_until upto one items b r n.
Proof.
  intros Hu Ho. destruct n as [|j]; cbn [asked_until].
  - intros [H1 H2]. split; [|done]. by rewrite Hu.
  - intros [(H1 & H2 & H3)|(x & c & H1 & H2 & H3 & H4)].
    + left. rewrite fmap_length in H1. by rewrite Hu.
    + right. rewrite list_lookup_fmap in H1. destruct (items !! j) as [y|] eqn:E; [|done].
      cbn in H1. injection H1 as <-. exists y, c. split; [done|]. split; [|split; [|done]].
      * rewrite Hu, fmap_take. done.
      * by rewrite Ho.
Qed.

Lemma set_insert_res (e : env) (o : oracle T) x m :
  rmap (fun _ => tt) (set_insert e o x m).1 = rmap (fun _ => tt) (bstmap_insert e o x tt m).1.
Proof. unfold set_insert, sbind. destruct (bstmap_insert e o x tt m) as [[[]| | | |] m1]; done. Qed.
Lemma sset_insert_res (e : benv) (o : oracle T) x m :
  rmap (fun _ => tt) (sset_insert e o x m).1 = rmap (fun _ => tt) (simple_insert e o x tt m).1.
Proof. unfold sset_insert, sbind. destruct (simple_insert e o x tt m) as [[[]| | | |] m1]; done. Qed.

Lemma set_extend_from_yields (e : env) (os : nat -> T -> oracle T) src st lo hi items panics fuel (m : bstset T) :
  src_hint src st = Some (lo, hi) ->
  yields src st items panics ->
  length items < fuel ->
  let out := set_extend e os (mkUserIter lo hi items panics) m in
  exists n,
    set_extend_from e os src fuel (m, (st, [])) =
      (out.1, (out.2, ((asked src n st).2, AskedHint :: repeat AskedNext n))) /\
    asked_until (fun l => set_extend e os (mkUserIter lo hi l false) m)
      (fun j x m => rmap (fun _ => tt) (set_insert e (os j x) x m).1)
      items panics out.1 n.
Proof.
  intros Hh Hy Hf out.
  destruct (map_extend_from_yields e os (units_source src) st lo hi _ panics fuel m Hh (yields_units _ _ _ _ Hy))
    as (n & Hn & Hu); [by rewrite fmap_length|].
  exists n. rewrite asked_units_state in Hn. split; [exact Hn|].
  revert Hu. apply until_units; [done|]. intros. apply set_insert_res.
Qed.
Lemma set_collect_from_yields (e : env) (os : nat -> T -> oracle T) src st lo hi items panics fuel :
  src_hint src st = Some (lo, hi) ->
  yields src st items panics ->
  length items < fuel ->
  let out := set_from_iter e os (mkUserIter lo hi items panics) in
  exists n,
    set_collect_from e os src fuel st =
      (out.1, (out.2, ((asked src n st).2, AskedHint :: repeat AskedNext n))) /\
    asked_until (fun l => set_from_iter e os (mkUserIter lo hi l false))
      (fun j x m => rmap (fun _ => tt) (set_insert e (os j x) x m).1)
      items panics out.1 n.
Proof.
  intros Hh Hy Hf out.
  destruct (map_collect_from_yields e os (units_source src) st lo hi _ panics fuel Hh (yields_units _ _ _ _ Hy))
    as (n & Hn & Hu); [by rewrite fmap_length|].
  exists n. rewrite asked_units_state in Hn. split; [exact Hn|].
  revert Hu. apply until_units; [done|]. intros. apply set_insert_res.
Qed.
Lemma sset_from_yields (e : benv) (os : nat -> T -> oracle T) src st lo hi items panics fuel calls (m : sset T) :
  yields src st items panics ->
  length items < fuel ->
  let out := sset_extend e os (mkUserIter lo hi items panics) m in
  exists n,
    sset_extend_from e os src fuel (m, (st, calls)) =
      (out.1, (out.2, ((asked src n st).2, calls ++ repeat AskedNext n))) /\
    asked_until (fun l => sset_extend e os (mkUserIter lo hi l false) m)
      (fun j x m => rmap (fun _ => tt) (sset_insert e (os j x) x m).1)
      items panics out.1 n.
Proof.
  intros Hy Hf out.
  destruct (simple_from_yields e os (units_source src) st lo hi _ panics fuel calls m (yields_units _ _ _ _ Hy))
    as (n & Hn & Hu); [by rewrite fmap_length|].
  exists n. rewrite asked_units_state in Hn. split; [exact Hn|].
  revert Hu. apply until_units; [done|]. intros. apply sset_insert_res.
Qed.

Lemma set_extend_from_endless (e : env) (os : nat -> T -> oracle T) src st lo hi items (m : bstset T) :
  src_hint src st = Some (lo, hi) ->
  (asked src (length items) st).1 = Gives <$> items ->
  let out := set_extend e os (mkUserIter lo hi items false) m in
  exists n,
    set_extend_from e os src (length items) (m, (st, [])) =
      (match out.1 with Ret _ => Diverge | r => r end,
       (out.2, ((asked src n st).2, AskedHint :: repeat AskedNext n))) /\
    n <= length items /\ (out.1 = Ret tt -> n = length items).
Proof.
  intros Hh Hy out.
  destruct (map_extend_from_endless e os (units_source src) st lo hi _ m Hh (gives_units _ _ _ Hy)) as (n & Hn & Hu).
  rewrite fmap_length in Hn, Hu. exists n. rewrite asked_units_state in Hn. split; [exact Hn|exact Hu].
Qed.
Lemma set_collect_from_endless (e : env) (os : nat -> T -> oracle T) src st lo hi items :
  src_hint src st = Some (lo, hi) ->
  (asked src (length items) st).1 = Gives <$> items ->
  let out := set_from_iter e os (mkUserIter lo hi items false) in
  exists n,
    set_collect_from e os src (length items) st =
      (match out.1 with Ret _ => Diverge | r => r end,
       (out.2, ((asked src n st).2, AskedHint :: repeat AskedNext n))) /\
    n <= length items /\ (out.1 = Ret tt -> n = length items).
Proof.
  intros Hh Hy out.
  destruct (map_collect_from_endless e os (units_source src) st lo hi _ Hh (gives_units _ _ _ Hy)) as (n & Hn & Hu).
  rewrite fmap_length in Hn, Hu. exists n. rewrite asked_units_state in Hn. split; [exact Hn|exact Hu].
Qed.
Lemma sset_from_endless (e : benv) (os : nat -> T -> oracle T) src st lo hi items calls (m : sset T) :
  (asked src (length items) st).1 = Gives <$> items ->
  let out := sset_extend e os (mkUserIter lo hi items false) m in
  exists n,
    sset_extend_from e os src (length items) (m, (st, calls)) =
      (match out.1 with Ret _ => Diverge | r => r end,
       (out.2, ((asked src n st).2, calls ++ repeat AskedNext n))) /\
    n <= length items /\ (out.1 = Ret tt -> n = length items).
Proof.
  intros Hy out.
  destruct (simple_from_endless e os (units_source src) st lo hi _ calls m (gives_units _ _ _ Hy)) as (n & Hn & Hu).
  rewrite fmap_length in Hn, Hu. exists n. rewrite asked_units_state in Hn. split; [exact Hn|exact Hu].
Qed.

Lemma endless_units src st : endless src st -> endless (units_source src) st.
Proof.
  intros He n. destruct (endless_items src st n He) as (items & <- & Hi).
  exists ((fun x => (x, tt)) <$> items). apply gives_units in Hi. by rewrite fmap_length in Hi.
Qed.

Lemma set_endless_never_returns src st : endless src st -> forall fuel,
  (forall e os (m : bstset T), (set_extend_from e os src fuel (m, (st, []))).1 <> Ret tt) /\
  (forall e os, (set_collect_from e os src fuel st).1 <> Ret tt) /\
  (forall e os (m : sset T), (sset_extend_from e os src fuel (m, (st, []))).1 <> Ret tt) /\
  (forall e os, (sset_collect_from e os src fuel st).1 <> Ret tt).
Proof. intros He. exact (endless_never_returns (units_source src) st (endless_units _ _ He)). Qed.

End sets.
