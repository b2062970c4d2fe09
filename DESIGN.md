# Formal model of sunjay/bst: design

## 1. What is modelled

The model is a function-by-function transcription of the Rust code into Coq
8.16.1, in `rocq/theories/`. Files whose name starts with `Model` contain only
definitions, each citing the lines of `/repo` it transcribes.

| model file | code |
|---|---|
| `ModelBase.v` | results (return / panic / abort / undefined behaviour / out of fuel), `usize` arithmetic |
| `ModelArena.v` | `src/arena.rs` |
| `ModelSlab.v` | `src/slab.rs` |
| `ModelMap.v` | `src/map.rs`, `src/map/node.rs` |
| `ModelIter.v` | `src/map/{preorder,inorder,postorder}.rs` |
| `ModelHistory.v` | calls as data, and runs of lists of calls on a `BSTMap` |
| `ModelSet.v` | `src/set.rs`, `src/set/*.rs`, macros of `src/lib.rs` |
| `ModelSimple.v` | `simple_bst/src/map.rs`, `simple_bst/src/map/*.rs` |
| `ModelSimpleSet.v` | `simple_bst/src/set.rs`, `simple_bst/src/set/*.rs` |
| `ModelBenches.v` | `benches/two_sum.rs` (`two_sum`), `benches/movie_requests.rs` (`tabulate_requests`, `increment_counter`), for the two maps |
| `ModelResolve.v` | `benches/name_resolution.rs` (`resolve_program`, `resolve_block`), for the two maps |
| `ModelServer.v` | `benches/web_server.rs` (`Server::handle`, `run_requests`), for the two maps |
| `ModelArenaRun.v` | calls and runs on `StableArena` and `UnsafeSlab` used directly; arena `Debug` and `into_iter` |
| `ModelNodes.v` | `PartialEq` of the nodes in `src/set/node.rs`, `simple_bst/src/map/node.rs`, `simple_bst/src/set/node.rs`; assigning a node through `root_mut` |
| `ModelDrops.v` | the methods of `src/map.rs` again, with destructors that may panic |
| `ModelSimpleDrops.v` | the methods of `simple_bst/src/map.rs` again, with a log of what is destroyed and destructors that may panic |
| `ModelStack.v` | the recursive functions and destructors on a finite stack |
| `ModelEq.v` | `==` as calls to the `PartialEq` of the elements, which may keep a state and panic |
| `ModelFmt.v` | `{:?}` as writes to a formatter and calls to the `Debug` of the elements, which may fail and panic |
| `ModelSetLen.v` | `StableArena::set_len` and runs that use it (no other code calls it) |
| `ModelSource.v` | `extend` and `from_iter` with the iterator as an object with its own state |
| `ModelFmtPretty.v` | `{:#?}` as writes to a formatter, with the indenting adapters of the standard library |
| `ModelTypes.v` | declarations of the data types with the rules for subtyping, drop check and unwind safety |
| `ModelBorrow.v` | the methods, nodes and iterators of `src/map.rs` again, with the references they make, under Stacked Borrows and Tree Borrows |
| `ModelBorrowFree.v` | `clear`, `reserve`, `shrink_to_fit` and the destructor of `BSTMap` in the same way, with both versions of the rules for raw pointers |
| `ModelBorrowArena.v` | `StableArena` used directly, with its iterators and the references they yield, in the same way |
| `ModelSimpleBorrow.v` | the raw pointers of `SimpleBSTMap::remove_entry` in the same way |
| `ModelSetDrops.v` | the methods of `src/set.rs` and `simple_bst/src/set.rs` again, on top of `ModelDrops.v` and `ModelSimpleDrops.v` |
| `ModelAutoTraits.v` | the Send/Sync structure of the types |

`Spec.v` is the independent specification: naive association lists, naive
recursive traversals, sortedness, an abstract order. It does not import the
model. The other `Spec*.v` files add vocabulary per topic. They use types and
observers of the model, not its algorithms.

| specification file | topic |
|---|---|
| `SpecFacts.v` | lemmas about `Spec.v` alone |
| `SpecHistory.v`, `SpecSteps.v` | which result and which contents each call may produce |
| `SpecObs.v` | the tree a caller can see through `root/left/right` |
| `SpecSafety.v` | no UB, no divergence, accounting of keys and values |
| `SpecProfiles.v` | debug and release builds compared |
| `SpecMem.v` | capacity and memory |
| `SpecOracle.v` | arbitrary (unlawful, panicking) comparators |
| `SpecSet.v`, `SpecSimple.v`, `SpecSimpleSet.v` | sets and the simple_bst crate |
| `SpecSetSafety.v`, `SpecAlloc.v`, `SpecRoom.v`, `SpecDrops.v`, `SpecSimpleDrops.v`, `SpecSetDrops.v`, `SpecCost.v`, `SpecStack.v`, `SpecUpdates.v` | safety of sets, failing allocations, room of arena and slab, panicking destructors, costs, recursion depth, costs after updates |
| `SpecArena.v` | arena as a list, slab as a finite map |

`Samples.v` has the concrete maps used by the `Example`s. `RepoTests.v` runs the unit
tests of the repository in the model (all except the random and the compile-time ones).

### Semantics

* A call is a function `state -> result * state`. The state is returned also
  when the call panics, so every panic is a visible crash point, and histories
  may continue after it (`catch_unwind`) or drop the map while unwinding.
* `result` is one of `Ret x`, `Panic why`, `Abort` (allocator gave up),
  `UB why`, `Diverge` (loop fuel exhausted). UB and Diverge are explicit so that
  proving them unreachable is a theorem, not an assumption.
* `usize` is `N` with explicit checks at 2^64. The build profile is a parameter
  `chk`: with it, overflow panics and `debug_assert!` is active; without it,
  arithmetic wraps and `debug_assert!` is skipped. Theorems hold for both.
* Memory is a finite map from block ids to blocks. A block has a size and a
  finite map of initialised cells. A pointer is (block, offset). Reading a
  missing block, an offset past the end, or an uninitialised cell is UB.
  Freeing a missing block, or with a size other than its own, is UB.
* The slab's `union Entry` is a tagged cell (value / free / already dropped).
  Reading the wrong variant, or a dropped value, is UB.
* The allocator is an arbitrary oracle: for each request it grants the
  requested capacity, grants another capacity (the code's `assert_eq!` then
  panics), or aborts. Requests above `isize::MAX` bytes panic, as `Vec` does.
* A comparison is an oracle `nat -> K -> answer`: the answer to the n-th
  comparison of the call against a stored key may be anything, including a
  panic. The lawful case instantiates it with an order on a borrowed form of
  the key. The order is only a total preorder with congruence: equal keys
  need not be identical.
* Destructors are recorded in ghost logs; in `clear` they may panic, driven by
  an oracle.
* Loops that Coq cannot see terminate take fuel computed from the state, and
  running out is `Diverge`.

### Not modelled

* Byte layout, alignment, and, outside `ModelBorrow.v`, `ModelBorrowFree.v`, `ModelBorrowArena.v` and `ModelSimpleBorrow.v`
  (C88–C91, C96), provenance finer than "block and offset". These files have Stacked Borrows and Tree Borrows for `BSTMap`
  and for the unsafe code of `SimpleBSTMap`, without protectors (C98 looks at `&mut self` when the call has ended instead) and, but for `right_child`, without references to locals. A slot keeps its stack
  when it is freed and reused, which only makes the rules stricter. Under
  Tree Borrows raw pointers get tags of their own (stricter than sharing the tag of their
  reference), and the stacks are kept as a ghost: they decide nothing, and the proofs show
  that the tree allows whatever the stacks would allow.
* `Vec` used as a stack or as the list of chunks, `HashSet` in `Slab::clear`:
  modelled as lists and finite sets; their own allocation failures are left out.
* Compile-time checks other than Send/Sync, variance, drop check and unwind safety (borrow checking of function bodies, `Unpin`).
* Width or precision flags of the formatter. (`{:?}`: C48 as a tree of tokens, C84 as text; `{:#?}`: C92.)
* The methods of `arena::IntoIter` (`todo!()`): no value of that type can be
  made, because `into_iter` itself panics (C58). The trait `AllocStrategy` has one instance, `ExponentialAlloc`,
  which the model uses directly.
* Destructors that panic in the direct use of arena and slab outside `clear` and
  drop. (For maps and sets: C63, C73, C75, C78, C79.)
* The destructor of a user iterator given to `extend` or `collect`. (What it still
  owns when they stop is its state after the calls made to it: C94.)
* Stack overflow, outside `ModelStack.v` (C81). The boxes of `SimpleBSTMap` are
  model addresses with one owner each.
* Zero-sized elements inside a slab: slab entries are at least a pointer wide. (For the arena alone: C97.)

## 2. Proof architecture

1. Arena invariant: chunk i has 8*2^i cells, chunk ids distinct, capacity =
   8*(2^n - 1), len <= capacity, exactly the slots below len are initialised,
   heap domain = chunk ids.
2. Slab abstraction: a finite map `live : gmap Ptr T` and a free list. Each slab
   function is specified against `live`.
3. Map representation: `rep live root t`, where `t` is a tree carrying
   node addresses; addresses distinct; their set is the domain of `live`.
   Contexts (zippers) describe the pointer surgery of `insert`/`remove_entry`.
4. Functional trees: with a lawful order, trees are search trees and their
   in-order list is the abstract map.
5. Histories: induction over call lists with the invariant.

`Properties*.v` restate each property and close it with `exact`, followed by
`Print Assumptions`, and an `Example` showing a concrete case that meets the
hypotheses.

## 3. Plan per property

| id | modelled by | proved by |
|---|---|---|
| C01 | all map calls as ops, `run` over histories | refinement to association list, induction on history |
| C02 | `insert` | insert lemma on trees + slab spec |
| C03 | `remove`, `remove_entry` | zipper lemmas for pointer surgery |
| C04 | `len`, `is_empty` | slab invariant |
| C05 | `clear` | slab clear spec, then C01 from the cleared state |
| C06 | in-order iterator | traversal lemma + search-tree sortedness |
| C07-C09 | iterators with explicit stacks; `root/left/right` as observer | stack invariant: pending output = traversal of the stack |
| C10 | iterators | from C07-C09, permutations of tree traversals |
| C11 | `next` as step function | stack invariant, any number of calls |
| C12, C13 | mutable iterators, events next/write, access log | stack invariant + frame of value writes |
| C14 | `root/left/right` | search-tree invariant |
| C15 | `get_mut`, `get_entry_mut` + write | value-update lemma |
| C16 | `eq` loop over two iterators | both sides are sorted lists |
| C17 | `clone` loop | re-inserting a pre-order list rebuilds the tree |
| C18 | UB outcomes everywhere, comparison oracle | invariant independent of the order |
| C19 | Diverge outcomes | fuel bounds from the invariant |
| C20 | addresses returned by lookups | tree carries addresses |
| C21-C25 | arena capacity functions | arena invariant, arithmetic |
| C26, C27 | ghost drop logs | permutation invariant over histories |
| C28, C30 | panic crash points | per-call lemma: state equal or allocation-extended |
| C29 | `clear` with panicking destructor | expected false: counterexample theorem `_refuted`, and what does hold |
| C31 | `extend`, `collect`, macros | fold lemma |
| C32 | same, size hint | expected false: counterexample |
| C33 | `reserve` in both profiles | proved with checks on; counterexample with checks off |
| C34, C35 | set wrappers | from the map with unit values |
| C36 | comparison budget as an oracle that panics at call n | path length; counterexample family for O(log n) |
| C37 | `borrow : K -> Q` in every lookup | part of the refinement |
| C38 | raw pointers as paths into an owned tree | refinement |
| C39 | both models | both equal the same function on trees, any comparator |
| C40 | `from_fn(todo!())` | expected false: counterexample |
| C41-C43, C54, C58 | `ExponentialAlloc`, arena, histories of arena calls | arithmetic on powers of two; invariant |
| C44 | `chk` parameter | results equal for both values of `chk` |
| C45 | auto-trait calculus | computed for all parameter traits |
| C46 | slab `reserve` | expected false: counterexample |
| C47 | `eq` on nodes | distinct keys in search trees |
| C48 | formatting as token tree | structural induction |
| C49 | stack lengths, access counts | stack invariant |
| C50 | `NodeMut` walks | representation |
| C51 | comparison oracle | permutation of entries over histories |
| C52 | simple set | from C38, C39 |
| C53 | histories of slab calls | slab abstraction |
| C55-C57 | as C21-C33, C31 and C38 | see the statements in `properties.jsonl` |
| C59 | allocator requests of arena, slab, map, set | every failure traced to a refused request |
| C60 | boxes of the simple map and set | counting of boxes and nodes |
| C61 | reserve, then insert: extend, from_iter, clone | insertions below the capacity ask for nothing |
| C62 | slab_clear, slab_drop without needs_drop | the record of the slab stays empty through every call |
| C63 | drop and clear with panicking destructors | the loop stops at the first one; memory is freed by unwinding |
| C64 | setnode_eq, simple_node_eq, ssetnode_eq | compared with equality of the trees seen from the nodes |
| C65 | simple_assign mixed with all calls | calls agree with those on the map with the right length, up to the length |
| C66-C70 | every set call, any comparator | each set call is a map call on `BSTMap<T, ()>` with the same state; C18-C30, C44, C56 carried over to values |
| C73 | destructors that panic outside `clear` | per-call simulation by an ordinary call; the ghost log is never read |
| C74 | ownership in `SimpleBSTMap` | a log of destroyed items beside the map; per-call balance, then induction over histories |
| C75 | destructors that panic in `SimpleBSTMap` | per-call simulation by an ordinary call; induction over the tree for drop and clone |
| C76 | `SimpleBSTSet` with any comparator | per-call simulation by a tree of values |
| C77 | what `SimpleBSTSet` destroys | C74 through the translation of set calls to map calls |
| C78 | destructors that panic in `SimpleBSTSet` | C75 through the same translation |
| C79 | destructors that panic in `BSTSet` | C73 through the translation of set calls to map calls |
| C80 | comparisons and iterator space of `SimpleBSTMap`, `BSTSet`, `SimpleBSTSet` | a comparator that agrees with another one for `height` questions gives the same run; a bound on the stack that `next` keeps; C36 and C49 through the translation of set calls |
| C81 | recursion depth | the recursive functions with their depth counter bounded: equal to the unbounded ones from the height of the tree on, `Diverge` (read as an abort) below |
| C82 | what `==` asks | the loops run in a state monad over the log of questions; compared with one pass over the two in-order listings (or two trees) |
| C83 | build profiles of arena and slab | each call in release equals the call in debug whenever the latter ends neither at an assertion nor at an overflow check; C42 and C53 say that it does not |
| C84 | what `{:?}` writes | every printing function equals one pass over a list of pieces, by induction on the tree; then the pass is compared with `asks`, and with the text |
| C99 | memory over whole histories | per call: the capacity stays below any chunk-aligned bound of the need; chunks held and requests made grow together |
| C100 | references from the arena's iterators | the yielded `&mut` are on top of the stacks of distinct slots; shared ones are never removed by reads |
| C101 | updates that undo one another | a new key becomes a leaf, and removing a leaf moves nothing |
| C102 | the tree of a sequence of insertions | below a node, the two subtrees are built from the two subsequences, independently |
| C103 | the links that a call changes | nodes by address; induction over the tree of the insertion or removal: the parent, the successor and the successor's parent |
| C104 | two updates in either order | association lists commute up to permutation, sorted contents are unique; for two insertions, induction over the tree |
| C105 | the client `two_sum` (benches/two_sum.rs) | loop invariant: the map holds, for each number seen, its last index, and no pair has been passed over; i64 subtraction modulo 2^64 |
| C106 | the client `tabulate_requests` (benches/movie_requests.rs) | loop invariant: `get` of any name gives its number of occurrences so far |
| C107 | the client `resolve_program` (benches/name_resolution.rs) | nested induction over programs: the stack of maps, flattened, answers like one list of declarations |
| C108 | the client `run_requests` (benches/web_server.rs) | invariant: `get` of any id gives the entry of the table; one case per request |
| C71, C72 | capacity of arena and slab used directly | free list and number of slots followed through the history; sum of block sizes = capacity |

### Claims that turned out false, or true only with a restriction

Each has a theorem ending in `_refuted` with a concrete witness.

* C22, C33: in release builds `reserve` wraps and silently reserves too little.
* C29, C54: after a destructor panics in `clear`, the next `clear` or drop
  destroys values a second time.
* C32: `collect` and `extend` ask for room for the upper bound of `size_hint`.
* C46: `reserve` may grow although free slots would suffice.
* C36: the tree is not balanced, so lookups are not O(log n).
* C39: with an unlawful comparator, cloning a `BSTMap` may change its contents,
  cloning a `SimpleBSTMap` does not.
* C40: `SimpleBSTMap::iter_mut_*` always panic.

Other observations, proved or visible in the model:

* `StableArena<T>` with a zero-sized `T` cannot allocate: the `assert_eq!` of
  `push_chunk` fails. The slab's entries are never zero-sized.
* The exclusive iterators are never Send nor Sync (C45).
* `SimpleBSTMap::remove` allocates, so it can run out of memory.
* `shrink_to_fit` does not reclaim slots freed by `remove`.

## 4. Trusted base

* Coq 8.16.1 kernel (and `coqchk`).
* The axioms printed by `Print Assumptions` under each theorem. Target: none.
* The faithfulness of the `Model*.v` transcription to `/repo`, as cited.
* std++ (definitions and lemmas, no axioms).
