(** * What a program observes of a map

    The vocabulary of the property files: the maps that programs can reach, the
    tree that the public methods [root], [left], [right] show, and the sequences
    that the public iterators yield. *)

From Verif Require Export SpecHistory.

Section observe.
Context {K V : Type}.
Implicit Types m : bstmap K V.

(** No call of a history ended the process. *)
Definition alive {A} (rs : list (res A)) : Prop := Forall (fun r => r <> Abort) rs.

(** Maps that some program reaches. The comparisons of its calls may answer
    anything, or panic. *)
Definition reachable (e : env) m : Prop := exists s cs rs, reached e s cs rs m /\ alive rs.

(** Maps that a program reaches whose comparisons follow the order [cmp] (or
    panic). *)
Definition ordered_reachable (cmp : K -> K -> comparison) (e : env) m : Prop :=
  exists s cs rs, legal_start cmp s /\ Forall (legal cmp) cs /\ reached e s cs rs m /\ alive rs.

(** The tree seen by following [left] and [right] from a node. *)
Inductive exposes m : option (Node K V) -> tree K V -> Prop :=
| exposes_none : exposes m None tleaf
| exposes_some n nl nr l r :
    node_left m n = Ret nl -> exposes m nl l ->
    node_right m n = Ret nr -> exposes m nr r ->
    exposes m (Some n) (tnode l (node_key n) (node_value n) r).

(** The tree seen from [root]. *)
Definition shows m (t : tree K V) : Prop := exists r, map_root m = Ret r /\ exposes m r t.

(** The entries that an iterator yields until it returns [None]; with their
    addresses, this is [iter_collect]. *)
Definition yields m (d : order) (l : list (K * V)) : Prop :=
  exists lp, iter_collect m d = Ret lp /\ lp.*2 = l.

(** Address [p] holds the entry [(k, v)]. *)
Definition stored m (p : Ptr) (k : K) (v : V) : Prop :=
  exists lp, iter_collect m In = Ret lp /\ (p, (k, v)) ∈ lp.

(** Every comparison answers the query [f]; none panics. *)
Definition surely (o : oracle K) (f : K -> comparison) : Prop := forall i k, o i k = Some (f k).

(** No entry, shape, address or capacity changed. *)
Definition same_map m m' : Prop :=
  map_root m' = map_root m /\ (forall n, node_left m' n = node_left m n) /\
  (forall n, node_right m' n = node_right m n) /\
  (forall d, iter_collect m' d = iter_collect m d) /\ map_capacity m' = map_capacity m.

(** The listing [lp], after assigning [w] to the value at address [p]. *)
Definition assign (p : Ptr) (w : V) (lp : list (Ptr * (K * V))) : list (Ptr * (K * V)) :=
  (fun x => if decide (x.1 = p) then (x.1, (x.2.1, w)) else x) <$> lp.

(** A [Node] (or, by its address, a [NodeMut]) that a program gets by walking from
    the root. *)
Definition handle m (n : Node K V) : Prop :=
  exists path r, map_root m = Ret r /\ walk m path r = Ret (Some n).
Definition handle_mut m (p : Ptr) : Prop :=
  exists path r, map_root_mut m = Ret r /\ walk_mut m path r = Ret (Some p).

(** How often [p] occurs in [l]. *)
Definition times (p : Ptr) (l : list Ptr) : nat := length (filter (fun q => q = p) l).

(** Bounds for the stack of an iterator over a tree of height [h], and for how
    often an iteration reads one node; [b] tells whether the iterator is mutable. *)
Definition stack_bound (d : order) (h : nat) : nat := match d with Post => 2 * h | _ => h end.
Definition read_bound (d : order) (b : bool) : nat :=
  match d, b with Pre, _ => 1 | In, false => 2 | In, true => 3 | Post, false => 3 | Post, true => 4 end.

(** The shape of a tree, without its contents. *)
Fixpoint tree_shape (t : tree K V) : tree unit unit :=
  match t with
  | tleaf => tleaf
  | tnode l k v r => tnode (tree_shape l) tt tt (tree_shape r)
  end.

End observe.
