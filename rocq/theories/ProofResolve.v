(** * Proofs: name resolution *)

From Coq Require Import String.
From Verif Require Import ModelResolve SpecResolve ProofBenches ProofExtend ProofStack ProofSimpleProps ProofMapProps ProofObs ProofOracle SpecFacts SpecSteps.
Local Open Scope N_scope.

Section rind.
Context {K : Type} (P : rstmt K -> Prop).
Hypothesis Hdecl : forall name params, P (RDecl name params).
Hypothesis Hcall : forall name args, P (RCall name args).
Hypothesis Hblock : forall stmts, Forall P stmts -> P (RBlock stmts).
Fixpoint rstmt_nested (stmt : rstmt K) : P stmt :=
  match stmt with
  | RDecl name params => Hdecl name params
  | RCall name args => Hcall name args
  | RBlock stmts => Hblock stmts ((fix go (l : list (rstmt K)) : Forall P l :=
      match l with [] => Forall_nil_2 P | x :: l => Forall_cons_2 P x l (rstmt_nested x) (go l) end) stmts)
  end.
End rind.

Lemma tally_total {K} (cmp : K -> K -> comparison) (stmt : rstmt K) :
  forall view, (tally cmp view stmt).1.1 + (tally cmp view stmt).1.2 + (tally cmp view stmt).2 = calls_of stmt.
Proof.
  induction stmt as [name params|name args|stmts IH] using rstmt_nested; intros view.
  - done.
  - cbn [tally calls_of]. destruct (assoc_find _ _) as [[? ?]|]; [destruct (_ =? _)|]; done.
  - revert view. induction IH as [|x l Hx Hl IHl]; intros view; [done|].
    change (tally cmp view (RBlock (x :: l))) with (plus3 (tally cmp view x) (tally cmp (view_after view x) (RBlock l))).
    change (calls_of (RBlock (x :: l))) with (calls_of x + calls_of (RBlock l)).
    specialize (Hx view). specialize (IHl (view_after view x)). unfold plus3. cbn [fst snd]. lia.
Qed.

Lemma assoc_find_app {K V} f (l1 l2 : list (K * V)) : assoc_find f (l1 ++ l2) = match assoc_find f l1 with Some x => Some x | None => assoc_find f l2 end.
Proof. induction l1 as [|[k v] l1 IH]; cbn; [done|]. by destruct (f k). Qed.

Section resolve.
Context {S K : Type}.
Variable chk : bool.
Variable cmp : K -> K -> comparison.
Hypothesis Hlaw : lawful cmp.
Variable new : S.
Variable get : S -> oracle K -> res (option N).
Variable insert : oracle K -> K -> N -> M S (option N).
Variable R : S -> tree K N -> Prop.
Hypothesis Hnew : R new tleaf.
Hypothesis Hget : forall s t o f, R s t -> surely o f -> get s o = Ret (snd <$> tree_find f t).
Hypothesis Hins : forall s t o k v r s', R s t -> surely o (cmp k) -> insert o k v s = (r, s') ->
  match r with Ret _ => R s' (tree_insert cmp k v t) | _ => alloc_refused r end.

Definition scope_is (s : S) (v : list (K * N)) : Prop :=
  exists t, R s t /\ forall k, snd <$> tree_find (cmp k) t = snd <$> assoc_find (cmp k) v.
Definition fits (x : N * N * N) : Prop := x.1.1 < USIZE /\ x.1.2 < USIZE /\ x.2 < USIZE.

Definition stmt_ok (stmt : rstmt K) : Prop := forall scopes v vs c,
  Forall2 scope_is scopes (v :: vs) -> fits (plus3 c (tally cmp (v ++ concat vs) stmt)) ->
  match resolve_stmt chk cmp new get insert stmt (scopes, c) with
  | (Ret _, (scopes', c')) => c' = plus3 c (tally cmp (v ++ concat vs) stmt) /\
      exists v', Forall2 scope_is scopes' (v' :: vs) /\ v' ++ concat vs = view_after (v ++ concat vs) stmt
  | (r, _) => alloc_refused r
  end.

Definition resolve_stmts : list (rstmt K) -> M (resolver (S:=S)) unit :=
  fix resolve_stmts (stmts : list (rstmt K)) : M resolver unit :=
    match stmts with
    | [] => sret tt
    | stmt :: stmts => let! _ := resolve_stmt chk cmp new get insert stmt in resolve_stmts stmts
    end.

Lemma plus3_assoc x y z : plus3 (plus3 x y) z = plus3 x (plus3 y z).
Proof. unfold plus3. cbn. by rewrite !N.add_assoc. Qed.
Lemma fits_mono x y : fits (plus3 x y) -> fits x.
Proof. unfold fits, plus3. cbn [fst snd]. lia. Qed.

Lemma scopes_find_ok k scopes views : Forall2 scope_is scopes views ->
  scopes_find get (name_oracle cmp k) scopes = Ret (snd <$> assoc_find (cmp k) (concat views)).
Proof using Hget.
  induction 1 as [|s v scopes views (t & Ht & Hv) _ IH]; cbn [scopes_find concat]; [done|].
  rewrite (Hget s t (name_oracle cmp k) (cmp k) Ht (fun _ _ => eq_refl)). cbn [rbind]. rewrite Hv, assoc_find_app.
  destruct (assoc_find (cmp k) v) as [[? ?]|]; [done|]. exact IH.
Qed.

Lemma decl_ok name params : stmt_ok (RDecl name params).
Proof using Hlaw Hins.
  intros scopes v vs c Hs Hc. apply Forall2_cons_inv_r in Hs as (s & scopes' & (t & Ht & Hv) & Hs & ->).
  cbn [resolve_stmt tally view_after]. unfold sbind, on_top_scope. cbn [fst snd].
  destruct (insert (name_oracle cmp name) name params s) as [r s'] eqn:Hi.
  pose proof (Hins _ _ _ _ _ _ _ Ht (fun _ _ => eq_refl) Hi) as Hr.
  destruct r as [x|p| | |]; [|unfold alloc_refused in *; naive_solver..]. cbn [sret].
  split; [destruct c as [[? ?] ?]; unfold plus3; cbn [fst snd]; by rewrite !N.add_0_r|].
  exists ((name, params) :: v). split; [|done]. constructor; [|done]. eexists. split; [exact Hr|].
  intros k. rewrite (ProofBenches.find_insert _ Hlaw). cbn [assoc_find]. by destruct (cmp k name).
Qed.

Lemma call_ok name args : stmt_ok (RCall name args).
Proof using Hget.
  intros scopes v vs [[a b] c] Hs Hc. cbn [resolve_stmt tally view_after] in *. unfold sbind at 1, sget. unfold sbind at 1, slift.
  cbn [fst snd]. rewrite (scopes_find_ok name _ _ Hs). cbn [concat].
  destruct (assoc_find (cmp name) (v ++ concat vs)) as [[? params]|]; cbn [fmap option_fmap option_map snd];
    [destruct (args =? params)|]; unfold fits, plus3 in Hc; cbn [fst snd] in Hc;
    unfold count_valid, count_incorrect, count_unresolved, sbind, sget, slift, smod, uadd; cbn [fst snd];
    (rewrite (proj2 (N.ltb_lt _ _)) by lia); (split; [unfold plus3; cbn [fst snd]; by rewrite ?N.add_0_r|by exists v]).
Qed.

Lemma stmts_ok stmts : Forall stmt_ok stmts -> forall scopes v vs c,
  Forall2 scope_is scopes (v :: vs) -> fits (plus3 c (tally cmp (v ++ concat vs) (RBlock stmts))) ->
  match resolve_stmts stmts (scopes, c) with
  | (Ret _, (scopes', c')) => c' = plus3 c (tally cmp (v ++ concat vs) (RBlock stmts)) /\
      exists v', Forall2 scope_is scopes' (v' :: vs)
  | (r, _) => alloc_refused r
  end.
Proof.
  induction 1 as [|x l Hx Hl IH]; intros scopes v vs c Hs Hc.
  { cbn. split; [|by exists v]. destruct c as [[? ?] ?]. unfold plus3. cbn [fst snd]. by rewrite !N.add_0_r. }
  change (tally cmp (v ++ concat vs) (RBlock (x :: l))) with
    (plus3 (tally cmp (v ++ concat vs) x) (tally cmp (view_after (v ++ concat vs) x) (RBlock l))) in *.
  rewrite <- plus3_assoc in *.
  cbn [resolve_stmts]. unfold sbind. pose proof (Hx scopes v vs c Hs (fits_mono _ _ Hc)) as H1.
  destruct (resolve_stmt chk cmp new get insert x (scopes, c)) as [[[]|p| | |] [scopes1 c1]]; [|unfold alloc_refused in *; naive_solver..].
  destruct H1 as (-> & v1 & Hs1 & Hv1). rewrite <- Hv1 in *. by apply IH.
Qed.

Lemma block_ok stmts : Forall stmt_ok stmts -> forall scopes vs c,
  Forall2 scope_is scopes vs -> fits (plus3 c (tally cmp (concat vs) (RBlock stmts))) ->
  match resolve_stmt chk cmp new get insert (RBlock stmts) (scopes, c) with
  | (Ret _, (scopes', c')) => c' = plus3 c (tally cmp (concat vs) (RBlock stmts)) /\ Forall2 scope_is scopes' vs
  | (r, _) => alloc_refused r
  end.
Proof using Hnew.
  intros Hl scopes vs c Hs Hc.
  change (resolve_stmt chk cmp new get insert (RBlock stmts) (scopes, c)) with
    ((let! _ := push_scope new in let! _ := resolve_stmts stmts in pop_scope) (scopes, c)).
  unfold sbind, push_scope, smod. cbn [fst snd].
  assert (Hs' : Forall2 scope_is (new :: scopes) ([] :: vs)) by (constructor; [by exists tleaf|done]).
  pose proof (stmts_ok stmts Hl (new :: scopes) [] vs c Hs' Hc) as H.
  destruct (resolve_stmts stmts (new :: scopes, c)) as [[[]|p| | |] [scopes1 c1]]; [|unfold alloc_refused in *; naive_solver..].
  destruct H as (-> & v1 & H1). apply Forall2_cons_inv_r in H1 as (s & scopes' & _ & H1 & ->). done.
Qed.

Lemma all_ok stmt : stmt_ok stmt.
Proof using Hlaw Hget Hins Hnew.
  induction stmt as [name params|name args|stmts IH] using rstmt_nested; [apply decl_ok|apply call_ok|].
  intros scopes v vs c Hs Hc. pose proof (block_ok stmts IH scopes (v :: vs) c Hs Hc) as H.
  destruct (resolve_stmt _ _ _ _ _ _ _) as [[[]|p| | |] [scopes1 c1]]; try done. destruct H as [-> H]. split; [done|]. by exists v.
Qed.

Lemma resolve_program_ok program : calls_of (RBlock program) < USIZE ->
  match resolve_program chk cmp new get insert program with
  | Ret c => c = tally cmp [] (RBlock program)
  | r => alloc_refused r
  end.
Proof using Hlaw Hget Hins Hnew.
  intros Hl. pose proof (tally_total cmp (RBlock program) []) as Ht.
  assert (H0 : plus3 (0, 0, 0) (tally cmp [] (RBlock program)) = tally cmp [] (RBlock program)).
  { destruct (tally cmp [] (RBlock program)) as [[? ?] ?]. done. }
  pose proof (block_ok program (proj2 (List.Forall_forall _ _) (fun x _ => all_ok x)) [] [] (0, 0, 0) (Forall2_nil_2 _ _ _)) as H.
  cbn [concat] in H. rewrite H0 in H. specialize (H ltac:(unfold fits; lia)). unfold resolve_program.
  destruct (resolve_stmt _ _ _ _ _ _ _) as [[[]|p| | |] [scopes1 c1]]; try (unfold alloc_refused in *; naive_solver).
Qed.
End resolve.

Lemma map_resolve_ok {K} e (cmp : K -> K -> comparison) (program : list (rstmt K)) : lawful cmp -> calls_of (RBlock program) < USIZE ->
  match map_resolve e cmp program with Ret c => c = tally cmp [] (RBlock program) | r => alloc_refused r end.
Proof.
  intros Hlaw Hl. apply (resolve_program_ok _ cmp Hlaw _ _ _ (fun m t => reachable e m /\ shows m t)); [| | |done].
  - split; [apply new_reachable|apply new_shows].
  - intros s t o f [Hr Hs] Ho. pose proof (map_get_tree e s t o f Hr Hs Ho) as G. revert G. unfold sbind, sget, slift. by intros [= ->].
  - intros s t o k v r s' [Hr Hs] Ho Hi. by apply (map_insert_step _ Hlaw e s t o k v r s').
Qed.

Lemma simple_resolve_ok {K} e (cmp : K -> K -> comparison) (program : list (rstmt K)) : lawful cmp -> calls_of (RBlock program) < USIZE ->
  match simple_resolve e cmp program with Ret c => c = tally cmp [] (RBlock program) | r => alloc_refused r end.
Proof.
  intros Hlaw Hl. apply (resolve_program_ok _ cmp Hlaw _ _ _ (fun m t => simple_reachable e m /\ simple_shows m t)); [| | |done].
  - split; [apply simple_reachable_new|apply simple_new_shows].
  - intros s t o f [Hr Hs] Ho. pose proof (simple_get_tree e s t o f Hr Hs Ho) as G. revert G. unfold sbind, sget, slift. by intros [= ->].
  - intros s t o k v r s' [Hr Hs] Ho Hi. by apply (simple_insert_step _ e s t o k v r s').
Qed.
