(** * The log of destroyed keys and values is never read *)

From Verif Require Export ModelHistory.

Section ghost.
Context {K V : Type}.
Implicit Types m : bstmap K V.

Definition relog (d : list (K + V)) m : bstmap K V := mkMap (m_nodes m) (m_root m) d.

(** ** Reading *)

Lemma contains_loop_relog d m o fuel : forall i cur, contains_loop (relog d m) o fuel i cur = contains_loop m o fuel i cur.
Proof.
  induction fuel as [|fuel IH]; intros i cur; [done|]. cbn [contains_loop]. destruct cur as [n|]; [|done].
  destruct (ask o i (node_key n)) as [[]| | | |]; cbn [rbind]; try done.
  - change (node_left (relog d m) n) with (node_left m n). destruct (node_left m n); cbn [rbind]; auto.
  - change (node_right (relog d m) n) with (node_right m n). destruct (node_right m n); cbn [rbind]; auto.
Qed.

Lemma get_loop_relog d m o fuel : forall i cur, get_loop (relog d m) o fuel i cur = get_loop m o fuel i cur.
Proof.
  induction fuel as [|fuel IH]; intros i cur; [done|]. cbn [get_loop]. destruct cur as [n|]; [|done].
  destruct (ask o i (node_key n)) as [[]| | | |]; cbn [rbind]; try done.
  - change (node_left (relog d m) n) with (node_left m n). destruct (node_left m n); cbn [rbind]; auto.
  - change (node_right (relog d m) n) with (node_right m n). destruct (node_right m n); cbn [rbind]; auto.
Qed.

Lemma get_entry_loop_relog d m o fuel : forall i cur, get_entry_loop (relog d m) o fuel i cur = get_entry_loop m o fuel i cur.
Proof.
  induction fuel as [|fuel IH]; intros i cur; [done|]. cbn [get_entry_loop]. destruct cur as [n|]; [|done].
  destruct (ask o i (node_key n)) as [[]| | | |]; cbn [rbind]; try done.
  - change (node_left (relog d m) n) with (node_left m n). destruct (node_left m n); cbn [rbind]; auto.
  - change (node_right (relog d m) n) with (node_right m n). destruct (node_right m n); cbn [rbind]; auto.
Qed.

Lemma get_mut_loop_relog d m o fuel : forall i cur, get_mut_loop (relog d m) o fuel i cur = get_mut_loop m o fuel i cur.
Proof.
  induction fuel as [|fuel IH]; intros i cur; [done|]. cbn [get_mut_loop]. destruct cur as [n|]; [|done].
  change (nodemut_key (relog d m) n) with (nodemut_key m n). destruct (nodemut_key m n) as [k| | | |]; cbn [rbind]; try done.
  destruct (ask o i k) as [[]| | | |]; cbn [rbind]; try done.
  - change (nodemut_left (relog d m) n) with (nodemut_left m n). destruct (nodemut_left m n); cbn [rbind]; auto.
  - change (nodemut_right (relog d m) n) with (nodemut_right m n). destruct (nodemut_right m n); cbn [rbind]; auto.
Qed.

Lemma get_entry_mut_loop_relog d m o fuel : forall i cur, get_entry_mut_loop (relog d m) o fuel i cur = get_entry_mut_loop m o fuel i cur.
Proof.
  induction fuel as [|fuel IH]; intros i cur; [done|]. cbn [get_entry_mut_loop]. destruct cur as [n|]; [|done].
  change (nodemut_key (relog d m) n) with (nodemut_key m n). destruct (nodemut_key m n) as [k| | | |]; cbn [rbind]; try done.
  destruct (ask o i k) as [[]| | | |]; cbn [rbind]; try done.
  - change (nodemut_left (relog d m) n) with (nodemut_left m n). destruct (nodemut_left m n); cbn [rbind]; auto.
  - change (nodemut_right (relog d m) n) with (nodemut_right m n). destruct (nodemut_right m n); cbn [rbind]; auto.
Qed.

Lemma remove_find_relog d m o fuel : forall i par cur, remove_find (relog d m) o fuel i par cur = remove_find m o fuel i par cur.
Proof.
  induction fuel as [|fuel IH]; intros i par cur; [done|]. cbn [remove_find]. destruct cur as [n|]; [|done].
  change (slab_get (m_nodes (relog d m)) n) with (slab_get (m_nodes m) n).
  destruct (slab_get (m_nodes m) n) as [x| | | |]; cbn [rbind]; try done.
  destruct (ask o i (n_key x)) as [[]| | | |]; cbn [rbind]; try done; apply IH.
Qed.

Lemma succ_loop_relog d m fuel : forall a b, succ_loop (relog d m) fuel a b = succ_loop m fuel a b.
Proof.
  induction fuel as [|fuel IH]; intros a b; [done|]. cbn [succ_loop].
  change (slab_get (m_nodes (relog d m)) b) with (slab_get (m_nodes m) b).
  destruct (slab_get (m_nodes m) b) as [x| | | |]; cbn [rbind]; try done. destruct (n_left x); [|done]. auto.
Qed.

Lemma inorder_descend_relog d m fuel : forall cur it, inorder_descend (relog d m) fuel cur it = inorder_descend m fuel cur it.
Proof.
  induction fuel as [|fuel IH]; intros cur it; [done|]. cbn [inorder_descend]. destruct cur as [p|]; [|done].
  unfold it_push, smod, sbind, it_read. cbn [it_stack it_reads relog m_nodes].
  destruct (slab_get (m_nodes m) p); auto.
Qed.

Lemma postorder_descend_relog d m fuel : forall cur it, postorder_descend (relog d m) fuel cur it = postorder_descend m fuel cur it.
Proof.
  induction fuel as [|fuel IH]; intros cur it; [done|]. cbn [postorder_descend]. destruct cur as [p|]; [|done].
  unfold it_push, it_extend, smod, sbind, it_read. cbn [it_stack it_reads relog m_nodes].
  destruct (slab_get (m_nodes m) p); auto.
Qed.

Lemma postorder_inner_relog d m fuel : forall p n it, postorder_inner (relog d m) fuel p n it = postorder_inner m fuel p n it.
Proof.
  induction fuel as [|fuel IH]; intros p n it; [done|]. cbn [postorder_inner].
  unfold it_push, it_extend, smod, sbind, it_read. cbn [it_stack it_reads relog m_nodes].
  destruct (n_left n) as [q|]; [|done]. cbn [it_stack it_reads]. destruct (slab_get (m_nodes m) q); auto.
Qed.

Lemma sbind_ext {S A B} (f f' : M S A) (g g' : A -> M S B) s :
  f s = f' s -> (forall a s, g a s = g' a s) -> sbind f g s = sbind f' g' s.
Proof. intros Hf Hg. unfold sbind. rewrite Hf. destruct (f' s) as [[] ?]; auto. Qed.

Lemma postorder_next_relog d m fuel : forall it, postorder_next_loop (relog d m) fuel it = postorder_next_loop m fuel it.
Proof.
  induction fuel as [|fuel IH]; intros it; [done|]. cbn [postorder_next_loop].
  apply sbind_ext; [done|]. intros [p|] it1; [|done].
  apply sbind_ext; [done|]. intros n it2. apply sbind_ext; [done|]. intros b it3.
  destruct (n_right n) as [q|]; [|done]. destruct b; [|done].
  do 3 (apply sbind_ext; [done|]; intros ? ?).
  apply sbind_ext; [apply postorder_inner_relog|]. intros ? ?. apply IH.
Qed.

Lemma postorder_mut_next_relog d m fuel : forall it, postorder_mut_next_loop (relog d m) fuel it = postorder_mut_next_loop m fuel it.
Proof.
  induction fuel as [|fuel IH]; intros it; [done|]. cbn [postorder_mut_next_loop].
  apply sbind_ext; [done|]. intros [p|] it1; [|done].
  apply sbind_ext; [done|]. intros n it2. apply sbind_ext; [done|]. intros b it3.
  destruct (n_right n) as [q|]; [|by apply sbind_ext]. destruct b; [|by apply sbind_ext].
  do 3 (apply sbind_ext; [done|]; intros ? ?).
  apply sbind_ext; [apply postorder_inner_relog|]. intros ? ?. apply IH.
Qed.

Lemma iter_start_relog d m o : iter_start (relog d m) o = iter_start m o.
Proof.
  destruct o; [done| |]; cbn [iter_start]; unfold inorder_new, postorder_new;
    change (map_fuel (relog d m)) with (map_fuel m); change (m_root (relog d m)) with (m_root m).
  - by rewrite inorder_descend_relog.
  - by rewrite postorder_descend_relog.
Qed.

Lemma iter_next_relog d m o it : iter_next (relog d m) o it = iter_next m o it.
Proof.
  destruct o; cbn [iter_next]; [done| |apply postorder_next_relog].
  unfold inorder_next. apply sbind_ext; [done|]. intros [p|] it1; [|done].
  apply sbind_ext; [done|]. intros n it2. apply sbind_ext; [apply inorder_descend_relog|done].
Qed.

Lemma iter_mut_next_relog d m o it : iter_mut_next (relog d m) o it = iter_mut_next m o it.
Proof.
  destruct o; cbn [iter_mut_next]; [done| |apply postorder_mut_next_relog].
  unfold inorder_mut_next. apply sbind_ext; [done|]. intros [p|] it1; [|done].
  apply sbind_ext; [done|]. intros n it2. apply sbind_ext; [apply inorder_descend_relog|]. intros ? ?. by apply sbind_ext.
Qed.

Lemma nexts_relog d m o n : forall it, nexts (iter_next (relog d m) o) n it = nexts (iter_next m o) n it.
Proof.
  induction n as [|n IH]; intros it; [done|]. cbn [nexts]. apply sbind_ext; [apply iter_next_relog|].
  intros x it1. by apply sbind_ext.
Qed.

Lemma walk_relog d m path : forall n, walk (relog d m) path n = walk m path n.
Proof.
  induction path as [|[] path IH]; intros [n|]; try done; cbn [walk].
  - change (node_left (relog d m) n) with (node_left m n). destruct (node_left m n); cbn [rbind]; auto.
  - change (node_right (relog d m) n) with (node_right m n). destruct (node_right m n); cbn [rbind]; auto.
Qed.

Lemma walk_mut_relog d m path : forall n, walk_mut (relog d m) path n = walk_mut m path n.
Proof.
  induction path as [|[] path IH]; intros [n|]; try done; cbn [walk_mut].
  - change (nodemut_left (relog d m) n) with (nodemut_left m n). destruct (nodemut_left m n); cbn [rbind]; auto.
  - change (nodemut_right (relog d m) n) with (nodemut_right m n). destruct (nodemut_right m n); cbn [rbind]; auto.
Qed.

Lemma node_debug_relog d m fuel : forall n, node_debug (relog d m) fuel n = node_debug m fuel n.
Proof.
  induction fuel as [|fuel IH]; intros n; [done|]. cbn [node_debug].
  change (node_left (relog d m) n) with (node_left m n). change (node_right (relog d m) n) with (node_right m n).
  destruct (node_left m n) as [[l|]| | | |]; cbn [rbind]; try done; rewrite ?IH;
    destruct (node_right m n) as [[r|]| | | |]; cbn [rbind]; try done; rewrite ?IH; done.
Qed.

Lemma map_debug_relog d m : map_debug (relog d m) = map_debug m.
Proof.
  unfold map_debug. change (map_root (relog d m)) with (map_root m).
  destruct (map_root m) as [[n|]| | | |]; cbn [rbind]; try done.
  change (map_fuel (relog d m)) with (map_fuel m). by rewrite node_debug_relog.
Qed.

Lemma clone_loop_relog e os ck cv d m fuel : forall j st m', clone_loop e os ck cv (relog d m) fuel j st m' = clone_loop e os ck cv m fuel j st m'.
Proof.
  induction fuel as [|fuel IH]; intros j st m'; [done|]. cbn [clone_loop]. destruct st as [|n st]; [done|].
  destruct (ck j (node_key n)); [|done]. destruct (cv j (node_value n)); [|done].
  do 4 (apply sbind_ext; [done|]; intros ? ?). apply IH.
Qed.

Lemma map_clone_relog e os ck cv d m : map_clone e os ck cv (relog d m) = map_clone e os ck cv m.
Proof.
  unfold map_clone. change (map_len e (relog d m)) with (map_len e m). destruct (map_len e m) as [n| | | |]; try done.
  unfold build. destruct (map_with_capacity e n) as [[] m0]; try done.
  match goal with |- match ?x with _ => _ end = match ?y with _ => _ end => assert (x = y) as ->; [|done] end.
  apply sbind_ext; [done|]. intros r m1. apply clone_loop_relog.
Qed.

(** ** Calls *)

Definition blind {A} (f : M (bstmap K V) A) : Prop :=
  forall d m, exists d', f (relog d m) = ((f m).1, relog d' (f m).2).

Lemma blind_sret {A} (a : A) : blind (sret a).
Proof. intros d m. by exists d. Qed.
Lemma blind_slift {A} (r : res A) : blind (slift r).
Proof. intros d m. by exists d. Qed.
Lemma blind_sbind {A B} (f : M (bstmap K V) A) (g : A -> M (bstmap K V) B) :
  blind f -> (forall a, blind (g a)) -> blind (sbind f g).
Proof.
  intros Hf Hg d m. destruct (Hf d m) as [d1 H1]. unfold sbind. rewrite H1.
  destruct (f m) as [[a| | | |] m1]; cbn [fst snd]; try (by eexists). apply Hg.
Qed.
Lemma blind_get {A B} (f : bstmap K V -> A) (g : A -> M (bstmap K V) B) :
  (forall d m, f (relog d m) = f m) -> (forall a, blind (g a)) -> blind (fun m => g (f m) m).
Proof. intros Hf Hg d m. rewrite Hf. apply Hg. Qed.
Lemma blind_ext {A} (f f' : M (bstmap K V) A) : (forall m, f m = f' m) -> blind f' -> blind f.
Proof. intros He Hf d m. rewrite !He. apply Hf. Qed.
Lemma blind_log x : blind (smod (log_drops x)).
Proof. intros d m. eexists. done. Qed.
Lemma blind_root p : blind (smod (set_root p)).
Proof. intros d m. eexists. done. Qed.
Lemma blind_nodes {A} (f : M (slab (inner K V)) A) : blind (on_nodes f).
Proof.
  intros d m. unfold on_nodes, zoom. change (m_nodes (relog d m)) with (m_nodes m). destruct (f (m_nodes m)). by eexists.
Qed.
Lemma blind_on_panic {A} x (f : M (bstmap K V) A) : blind f -> blind (on_panic (log_drops x) f).
Proof.
  intros Hf d m. destruct (Hf d m) as [d1 H1]. unfold on_panic. rewrite H1.
  destruct (f m) as [[a| | | |] m1]; cbn [fst snd]; by eexists.
Qed.
Lemma blind_read {A B} (f : bstmap K V -> res A) (g : A -> M (bstmap K V) B) :
  (forall d m, f (relog d m) = f m) -> (forall a, blind (g a)) -> blind (let! m := sget in let! a := slift (f m) in g a).
Proof.
  intros Hf Hg d m. unfold sbind, sget, slift. rewrite Hf. destruct (f m) as [a| | | |]; try (by eexists). apply Hg.
Qed.

Lemma blind_sget {B} (k : bstmap K V -> M (bstmap K V) B) :
  (forall m, blind (k m)) -> (forall d m x, k (relog d m) x = k m x) -> blind (let! m := sget in k m).
Proof. intros Hk He d m. unfold sbind, sget. rewrite He. apply Hk. Qed.

Lemma blind_update n f : blind (let! _ := on_nodes (slab_update n f) in sret tt).
Proof. apply blind_sbind; [apply blind_nodes|]. intros ?. apply blind_sret. Qed.
Lemma blind_write n v : blind (write_value n v).
Proof. apply blind_sbind; [apply blind_nodes|]. intros ?. apply blind_log. Qed.
Lemma blind_opt_write n w : blind (opt_write n w).
Proof. destruct w; [apply blind_write|apply blind_sret]. Qed.

Lemma blind_insert_loop e o fuel : forall i k v cur, blind (insert_loop e o fuel i k v cur).
Proof.
  induction fuel as [|fuel IH]; intros i k v cur; [apply blind_slift|]. cbn [insert_loop].
  destruct cur as [n|]; [|apply blind_sret].
  apply blind_sget; [|done]. intros m.
  apply blind_sbind; [apply blind_slift|]. intros nk. apply blind_sbind; [apply blind_slift|]. intros [].
  - apply blind_sbind; [apply blind_sbind; [apply blind_nodes|intros; apply blind_sret]|].
    intros ?. apply blind_sbind; [apply blind_log|intros; apply blind_sret].
  - apply blind_sbind; [apply blind_slift|]. intros []; cbn [negb].
    + apply blind_sbind; [apply blind_slift|auto].
    + apply blind_sbind; [|intros; apply blind_sret]. apply blind_sbind; [apply blind_nodes|]. intros ?.
      apply blind_sbind; [apply blind_update|intros; apply blind_sret].
  - apply blind_sbind; [apply blind_slift|]. intros []; cbn [negb].
    + apply blind_sbind; [apply blind_slift|auto].
    + apply blind_sbind; [|intros; apply blind_sret]. apply blind_sbind; [apply blind_nodes|]. intros ?.
      apply blind_sbind; [apply blind_update|intros; apply blind_sret].
Qed.

Lemma blind_insert e o k v : blind (bstmap_insert e o k v).
Proof.
  apply blind_on_panic. apply blind_sget; [|done]. intros m.
  apply blind_sbind; [apply blind_slift|]. intros [r|]; [apply blind_insert_loop|].
  apply blind_sbind; [apply blind_nodes|]. intros p. apply blind_sbind; [apply blind_root|intros; apply blind_sret].
Qed.

Lemma blind_insert_all e os items b : forall j, blind (insert_all e os j items b).
Proof.
  induction items as [|[k v] items IH]; intros j; cbn [insert_all].
  - destruct b; apply (blind_slift (Panic PIter)) || apply blind_sret.
  - apply blind_sbind; [apply blind_insert|]. intros x. apply blind_sbind; [apply blind_log|auto].
Qed.

Lemma blind_replacement p : blind (remove_replacement p).
Proof.
  apply blind_sget.
  - intros m. apply blind_sbind; [apply blind_slift|]. intros n.
    destruct (n_left n) as [pl|], (n_right n) as [pr|]; try apply blind_sret.
    apply blind_sbind; [apply blind_slift|]. intros c. apply blind_sbind.
    + destruct (n_left c) as [pcl|]; [|apply blind_sret].
      apply blind_sbind; [apply blind_slift|]. intros [a b]. apply blind_sbind; [apply blind_slift|]. intros x.
      apply blind_sbind; [apply blind_update|]. intros ?. apply blind_sbind; [apply blind_update|intros; apply blind_sret].
    + intros ?. apply blind_sbind; [apply blind_update|intros; apply blind_sret].
  - intros d m x. apply sbind_ext; [done|]. intros n x1. destruct (n_left n) as [pl|], (n_right n) as [pr|]; try done.
    apply sbind_ext; [done|]. intros c x2. apply sbind_ext; [|done]. destruct (n_left c) as [pcl|]; [|done].
    apply sbind_ext; [|done]. unfold slift. change (map_fuel (relog d m)) with (map_fuel m). by rewrite succ_loop_relog.
Qed.

Lemma blind_remove_entry e o : blind (map_remove_entry e o).
Proof.
  apply blind_sget.
  - intros m. apply blind_sbind; [apply blind_slift|]. intros [par [p|]]; [|apply blind_sret].
    apply blind_sbind; [apply blind_replacement|]. intros rw. apply blind_sbind.
    + destruct par as [q|]; [|apply blind_root]. apply blind_sget; [|done]. intros m1.
      apply blind_sbind; [apply blind_slift|]. intros n. destruct (bool_decide _); apply blind_update.
    + intros ?. apply blind_sbind; [apply blind_nodes|intros; apply blind_sret].
  - intros d m x. apply sbind_ext; [|done]. unfold slift. change (map_fuel (relog d m)) with (map_fuel m).
    by rewrite remove_find_relog.
Qed.

Lemma blind_remove e o : blind (map_remove e o).
Proof.
  apply blind_sbind; [apply blind_remove_entry|]. intros [[k v]|]; [|apply blind_sret].
  apply blind_sbind; [apply blind_log|intros; apply blind_sret].
Qed.

Lemma mut_run_relog o evs : forall d m it y n, exists d',
  mut_run o evs (mkMut (relog d m) it y n) =
    let '(r, st) := mut_run o evs (mkMut m it y n) in
    (r, mkMut (relog d' (mu_map st)) (mu_iter st) (mu_yielded st) (mu_ended st)).
Proof.
  induction evs as [|ev evs IH]; intros d m it y n; [by exists d|]. cbn [mut_run]. unfold sbind.
  destruct ev as [|j w]; cbn [mut_step mu_map mu_iter mu_yielded mu_ended].
  - rewrite iter_mut_next_relog. destruct (iter_mut_next m o it) as [[[x|]| | | |] it1]; try (by exists d).
    + destruct (IH d m it1 (y ++ [x]) n) as [d' ->]. by exists d'.
    + destruct (IH d m it1 y (S n)) as [d' ->]. by exists d'.
  - destruct (y !! j) as [[p z]|].
    + destruct (blind_write p w d m) as [d1 ->]. destruct (write_value p w m) as [[a| | | |] m1]; cbn [fst snd]; try (by exists d1).
      destruct (IH d1 m1 it y n) as [d' ->]. by exists d'.
    + destruct (IH d m it y n) as [d' ->]. by exists d'.
Qed.

Lemma iter_mut_program_relog o evs d m : exists d',
  iter_mut_program o evs (relog d m) =
    rmap (fun st => mkMut (relog d' (mu_map st)) (mu_iter st) (mu_yielded st) (mu_ended st)) (iter_mut_program o evs m).
Proof.
  unfold iter_mut_program. rewrite iter_start_relog. destruct (iter_start m o) as [it| | | |]; try (by exists d).
  cbn [rbind]. destruct (mut_run_relog o evs d m it [] 0) as [d' ->].
  exists d'. by destruct (mut_run o evs (mkMut m it [] 0)) as [[] st].
Qed.

Lemma blind_clone_and_replace e os ck cv : blind (clone_and_replace e os ck cv).
Proof.
  intros d m. unfold clone_and_replace. rewrite map_clone_relog.
  destruct (map_clone e os ck cv m) as [[] m2]; try (by exists d).
  destruct (blind_nodes (slab_drop e (fun _ => false)) d m) as [d1 H1]. unfold map_drop. rewrite H1.
  destruct (on_nodes _ m) as [[] m1]; cbn [fst snd]; try (by exists d1). exists (m_drops m2). by destruct m2.
Qed.

Theorem blind_exec e c : blind (exec e c).
Proof.
  destruct c; cbn [exec].
  - apply blind_sbind; [apply blind_insert|intros; apply blind_sret].
  - apply blind_sbind; [apply blind_remove|intros; apply blind_sret].
  - apply blind_sbind; [apply blind_remove_entry|intros; apply blind_sret].
  - apply blind_read; [|intros; apply blind_sret]. intros d m. unfold map_get, map_get_ref.
    change (map_root (relog d m)) with (map_root m). change (map_fuel (relog d m)) with (map_fuel m).
    destruct (map_root m); cbn [rbind]; try done. by rewrite get_loop_relog.
  - apply blind_read; [|intros; apply blind_sret]. intros d m. unfold map_get_entry, map_get_entry_ref.
    change (map_root (relog d m)) with (map_root m). change (map_fuel (relog d m)) with (map_fuel m).
    destruct (map_root m); cbn [rbind]; try done. by rewrite get_entry_loop_relog.
  - apply blind_read; [|intros; apply blind_sret]. intros d m. unfold map_contains_key.
    change (map_root (relog d m)) with (map_root m). change (map_fuel (relog d m)) with (map_fuel m).
    destruct (map_root m); cbn [rbind]; try done. by rewrite contains_loop_relog.
  - apply blind_sget.
    + intros m. apply blind_sbind; [apply blind_slift|]. intros [p|]; [|apply blind_sret].
      apply blind_sbind; [apply blind_slift|]. intros v. apply blind_sbind; [apply blind_opt_write|intros; apply blind_sret].
    + intros d m x. apply sbind_ext; [|by intros []]. unfold slift, map_get_mut. change (map_root_mut (relog d m)) with (map_root_mut m).
      change (map_fuel (relog d m)) with (map_fuel m). destruct (map_root_mut m); cbn [rbind]; try done. by rewrite get_mut_loop_relog.
  - apply blind_sget.
    + intros m. apply blind_sbind; [apply blind_slift|]. intros [[k p]|]; [|apply blind_sret].
      apply blind_sbind; [apply blind_slift|]. intros v. apply blind_sbind; [apply blind_opt_write|intros; apply blind_sret].
    + intros d m x. apply sbind_ext; [|by intros [[]|]]. unfold slift, map_get_entry_mut. change (map_root_mut (relog d m)) with (map_root_mut m).
      change (map_fuel (relog d m)) with (map_fuel m). destruct (map_root_mut m); cbn [rbind]; try done. by rewrite get_entry_mut_loop_relog.
  - apply blind_read; [done|intros; apply blind_sret].
  - apply blind_read; [done|intros; apply blind_sret].
  - intros d m. by exists d.
  - apply blind_sbind; [|intros; apply blind_sret]. apply blind_sbind; [apply blind_nodes|intros; apply blind_root].
  - apply blind_sbind; [apply blind_nodes|intros; apply blind_sret].
  - apply blind_sbind; [apply blind_nodes|intros; apply blind_sret].
  - apply blind_sbind; [|intros; apply blind_sret]. apply blind_sbind; [apply blind_nodes|intros; apply blind_insert_all].
  - intros dr m. exists dr. unfold sbind, sget, slift. rewrite iter_start_relog. destruct (iter_start m d) as [it| | | |]; try done.
    rewrite nexts_relog. by destruct (nexts _ n it) as [[] ?].
  - intros dr m. unfold sbind, sget, slift. destruct (iter_mut_program_relog d evs dr m) as [d' ->].
    destruct (iter_mut_program d evs m) as [st| | | |]; cbn [rmap rbind]; [by exists d'|by exists dr..].
  - intros d m. exists d. unfold sbind, sget, slift. change (map_root (relog d m)) with (map_root m).
    destruct (map_root m) as [r| | | |]; try done. rewrite walk_relog. by destruct (walk m path r).
  - apply blind_sget.
    + intros m. apply blind_sbind; [apply blind_slift|]. intros r. apply blind_sbind; [apply blind_slift|]. intros [p|]; [|apply blind_sret].
      apply blind_sbind; [apply blind_slift|]. intros v. apply blind_sbind; [apply blind_opt_write|intros; apply blind_sret].
    + intros d m x. apply sbind_ext; [done|]. intros r x1. apply sbind_ext; [|by intros []]. unfold slift. by rewrite walk_mut_relog.
  - apply blind_read; [apply map_debug_relog|intros; apply blind_sret].
  - apply blind_sbind; [apply blind_clone_and_replace|intros; apply blind_sret].
Qed.

Lemma blind_run e cs : forall d m, exists d', run e cs (relog d m) = ((run e cs m).1, relog d' (run e cs m).2).
Proof.
  induction cs as [|c cs IH]; intros d m; [by exists d|]. cbn [run]. destruct (blind_exec e c d m) as [d1 ->].
  destruct (exec e c m) as [[] m1]; cbn [fst snd]; try (by exists d1).
  - destruct (IH d1 m1) as [d' ->]. destruct (run e cs m1). by exists d'.
  - destruct (IH d1 m1) as [d' ->]. destruct (run e cs m1). by exists d'.
Qed.

End ghost.
