(** * Comparing nodes, and assigning to a node of SimpleBSTMap

    The [PartialEq] of the nodes of src/set/node.rs, simple_bst/src/map/node.rs and
    simple_bst/src/set/node.rs. ([PartialEq for Node] of src/map/node.rs is
    [node_eq] in [ModelMap.v].)

    A [&mut Node] of SimpleBSTMap is a reference to the node itself, and [Node] is
    [Clone], so a safe program can also assign a whole node through it:
    [*node = other.clone()]. (A [NodeMut] of BSTMap is a handle; assigning to it
    does not touch the map.) [std::mem::swap] between two maps is two such
    assignments up to the addresses of the boxes, and is not modelled apart. *)

From Verif Require Export ModelSimpleSet.
Local Open Scope N_scope.

(** src/set/node.rs:4: derived; [()] equals [()]. [same_set]: the nodes are of one
    set. *)
Definition setnode_eq {T : Type} (eqT : T -> T -> bool) (same_set : bool) (n1 n2 : SetNode T) : bool :=
  node_eq eqT (fun _ _ => true) same_set n1 n2.

Section nodes.
Context {K V : Type}.

(** simple_bst/src/map/node.rs:3: derived. [Option<Box<Node>>] compares the nodes
    in the boxes: key, value, left, right, up to the first difference. *)
Fixpoint box_eq (eqK : K -> K -> bool) (eqV : V -> V -> bool) (m1 m2 : simple K V) (fuel : nat)
    (b1 b2 : option Ptr) : res bool :=
  match fuel with
  | O => Diverge
  | S fuel =>
    match b1, b2 with
    | None, None => Ret true
    | Some p1, Some p2 =>
      let* n1 := peek m1 p1 in
      let* n2 := peek m2 p2 in
      if eqK (n_key n1) (n_key n2) && eqV (n_value n1) (n_value n2) then
        let* l := box_eq eqK eqV m1 m2 fuel (n_left n1) (n_left n2) in
        if l then box_eq eqK eqV m1 m2 fuel (n_right n1) (n_right n2) else Ret false
      else Ret false
    | _, _ => Ret false
    end
  end.
Definition simple_node_eq (eqK : K -> K -> bool) (eqV : V -> V -> bool) (m1 m2 : simple K V) (p1 p2 : Ptr) : res bool :=
  box_eq eqK eqV m1 m2 (simple_fuel m1) (Some p1) (Some p2).

(** [*node = other.clone()], where [node : &mut Node] is at [p] in the map and
    [other : &Node] at [q] in [src]. The clone is made first; then the node at [p]
    is dropped with its child boxes and the clone moved in. If a clone function
    panics, unwinding drops the boxes made so far. *)
Definition simple_assign (e : benv) (ck : nat -> K -> option K) (cv : nat -> V -> option V)
    (src : simple K V) (q p : Ptr) : M (simple K V) unit :=
  fun m =>
    match clone_box e src ck cv (simple_fuel src) (Some q) (0%nat, m) with
    | (Ret (Some n), (_, m1)) =>
      (let! old := slift (peek m1 p) in
       let! _ := drop_box (simple_fuel m1) (n_left old) in
       let! _ := drop_box (simple_fuel m1) (n_right old) in
       poke p (fun _ => n)) m1
    | (Ret None, (_, m1)) => (Ret tt, m1)
    | (Panic x, _) => (Panic x, m)
    | (Abort, _) => (Abort, m)
    | (UB u, _) => (UB u, m)
    | (Diverge, _) => (Diverge, m)
    end.

End nodes.

(** simple_bst/src/set/node.rs:4: derived; the references are followed. *)
Definition ssetnode_eq {T : Type} (eqT : T -> T -> bool) (m1 m2 : sset T) (p1 p2 : Ptr) : res bool :=
  simple_node_eq eqT (fun _ _ => true) m1 m2 p1 p2.
