# Formal model of oooutlk/trees 0.4.2 in Coq 8.16.1

## 1. Approach

The library is a heap of `Node`s linked by raw pointers (`prev/next/head/tail/up`) with cached sizes,
stored either one by one (`Rc<RefCell<Node>>`, "scattered") or in a buffer (`NodeVec`, "piled").
The model keeps exactly that: an explicit memory (finite map from addresses to node records, reference
counters, buffers with their own counter, an allocation counter and a log of dropped data values), an error monad whose
errors are `EPanic` (Rust panic), `EUB` (access to memory that is not allocated: undefined behaviour) and `EFuel`
(a loop did not finish within a bound larger than the number of allocated nodes), and one executable Gallina function
per Rust function.  `Ok` results only; a theorem that says "runs to `Done`" therefore says: no panic, no access to released
memory, no endless loop.

Layers:

* **Specification side** (no pointers, no counters, no model helpers): `Spec.v` (rose trees `Tr a [children]`, paths, level
  order, postorder), `ClientSpec.v` (what 31 API operations mean on named immutable trees), `CmpSpec.v`, `WalkSpec.v`,
  `TupleSpec.v`, `NotationSpec.v`, `ThreadSpec.v`, `RcSpec.v` (shared trees: handles, weak handles, borrow guards, child iterators).
* **Model** (definitions only, each with the file and lines of /repo): `Machine.v` (memory, monad), `NodeModel.v`, `BfsModel.v`,
  `ClientModel.v`, `SizeModel.v`, `CmpModel.v`, `WalkModel.v`, `IterModel.v`, `TupleModel.v`, `NotationModel.v`,
  `ThreadModel.v`, `MisuseModel.v`, `RcModel.v`.
* **Proofs**: everything else.  The ghost state is an address-annotated rose tree (`Rep.v`); the invariant `MInvX` (`Inv.v`)
  says that the memory holds exactly the layout of the live trees plus the dead slots of live buffers, and that every
  counter is exact.  `Reach.v` derives what holds of reachable states; `RcRef.v`–`RcStep4.v` do the same for shared trees.
* **Property files** (`Prop*.v`): only theorems, each closed by `exact lemma.`, each followed by `Print Assumptions` and by a
  concrete non-trivial example meeting its hypotheses (`Demo.v`, `RcDemo.v` and local `Example`s).

A state is *reachable* when it is the result of running some finite list of client operations from the empty memory.
What a client can see of a tree is *read out of the modelled memory* with the public observers (`data()`, `iter()`), function
`contents`, so theorem statements need no representation predicate.

A property that is **false of the code** is stated as `..._refuted : exists history, <its negation>` and accompanied by the
largest part we proved, suffix `_partial`.

## 2. Properties: what is modelled and how it is proved

| id | model | theorem file | method |
|----|-------|------|--------|
| C01 | client machine, 31 operations incl. clone, bfs, into_bfs, bfs().map, into_iter, iter_mut loops | PropClient | simulation by induction over the history |
| C02–C04 | observers of node.rs/iter.rs on reachable states | PropClient | corollaries of the memory invariant |
| C05–C09 | node.rs/tree.rs/forest.rs operations at any path | PropClient | per-operation layout lemmas, stated through contents and ClientSpec |
| C10 | CountedRawIter + insert/detach/push/modify at any node yielded so far | PropIter | induction over the children |
| C11 | error monad: no `EUB`, `EFuel`, `EPanic` | PropClient | part of the simulation |
| C12, C13 | Drop, heap.rs, node_vec.rs: allocation map, buffers, drop log | PropClient | exact-domain part of the invariant |
| C14 | bfs_impls.rs deep_clone(_forest) | PropBfs | C19 + C20 + invariant |
| C15–C18, C46 | macros.rs comparison, hash and display as recursive functions reading the memory | PropCmp | structural induction; laws on rose trees; C46 refuted |
| C19–C22, C37 | Splitted queue, From<Bfs>, into_bfs (also abandoned half-way) | PropBfs | queue invariant, induction over levels; C37 refuted for wrong sizes; the exact outcome (returns / panics / out of bounds) of every sequence is proved; the enum Bfs (wrap, iter, iter_and_size, tree_iter, forest_iter) is in PropWrap |
| C23–C28, C41 | walk.rs state machine on the memory | PropWalk | cursor invariant (path = zipper); C28 refuted, partial |
| C29, C30, C39 | nested tuples as an inductive type; construct_tree/construct_forest closures as state machines | PropTuple | C29, C39 refuted; C29: proved right on a class of shapes and wrong on all others |
| C31–C33, C35, C42 | rc.rs, iter_rc.rs: Rc strong counts, Shared::count, NodeVec::ref_cnt, RefCell flags | PropRc, PropRc5 | refinement of `RcSpec` by induction over allowed histories; C32, C33, C35 refuted in general: for every state with a handle of a node in a buffer, by induction over the buffer's count |
| C49 | bfs.rs map between a visit and the From impls that build from it | PropBfs | the mapped iterator yields the mapped sequence; uniqueness of the tree of a breadth-first sequence |
| C50–C53 | PanicModel: bfs_impls.rs From with a closure that panics, tree.rs/forest.rs Drop with a T::drop that panics, node.rs insert/detach on roots; unwinding drops the locals | PropPanic | the memory invariant carries the buffers and trees that a panic leaves behind; C53 refuted, partial without panics of foreign code. `deep_clone` of a shared node: RcClonePanicModel, PropRcClone |
| C56 | RcPanicModel: the checks the methods of RcNode begin with, and the drops done by unwinding | PropRc4 | a panicking call is matched by dropping its arguments, so the state stays reached (C31); case analysis |
| C57 | MoveSpec: which operations make nodes or write data | PropMove | a relation between the memory before and after (cells with data), proved function by function; MInv says the cells with data are exactly the reachable nodes |
| C67 | RcNodeModel: `RcNode::node`/`node_mut`: the borrow, then the methods of Node on the node or the descendant at a path | PropRc10 | the reading lemmas of the exclusive trees, lifted to the memory with the handles' counts (CountFrame `hp`) in the world of a reached shared state; node_mut: the address reached by the path is that of the handle, as identities are unique |
| C68 | DropRunModel: `Drop` of Tree/Forest, `drop_node` and `*data_mut() = v` with `T::drop` a program (free-monad syntax over the client operations), nested to any depth of stack | PropDropRun | induction on the stack depth; inside, the drop loop by induction with the trees being dropped kept as a frame of the invariant, programs by induction on syntax with the step lemma of every operation |
| C69 | RcReentModel: `Drop for RcNode` with `T::drop` a program over the handle operations, nested to any depth of stack; an observer (`strict`) stops at the last handle of a piled node | PropRc11 | refuted by a run; partial by simulation with the reached states of C31: induction on the stack depth and on program syntax, the handles whose release is under way as a frame; idle T::drop: equal to the drop loop step by step |
| C58 | DebugModel: the three Debug impls over the modelled memory, with any printer of values and of addresses ; RcDebugModel: Debug of RcNode | PropDebug, PropRc9 | induction over the located tree (CmpProofs); the printed addresses are those of the nodes reached by their paths; for RcNode those of the handles, any text |
| C59 | RcDropPanicModel: Drop for RcNode with a T::drop that panics at the k+1st call, and unwinding | PropRc6 | refuted; partial by a simulation: the panicking drop against the drop without panic, state by state |
| C60 | SplitModel: Splitted over any client source (bfs.rs:147-195) | PropSplit | induction over the levels: the concatenation of the queue is the rest of the level followed by the children gathered so far; building is equal, call by call, to building from the list of visits |
| C61 | the counters n_deg, n_desc, m_cnt, m_vec of the machine | PropCounter | from the invariants: addresses of live nodes are distinct cells; the counters of shared nodes are 1 plus the handles beyond the one of the root |
| C62 | RcOwnModel: drop of a handle where the destructor of a value drops the handles it owns (any function from values to handles) | PropRc7 | the nested drop does what a run of ordinary calls does (take a child away, drop a handle that is not the last, drop the last handle of a leaf), by induction over the fuel with an invariant on the handles and values of the run; the least set from the order in which handles are dropped |
| C63 | OwnModel: drop of a tree or forest where the destructor of a value drops the trees and forests it owns | PropOwn | the nested drop does what a run of pop_front and drops of leaves does; induction over the fuel, the specification (OwnSpec) is a big-step relation |
| C64 | CallModel: programs as a free monad of operations and constructions (bfs_impls.rs From, bfs.rs map, deep_clone) whose closures are programs again; borrowed variables readable, the one being built unnameable | PropCall | induction over the program, generalised over a frame (trees being visited), the buffers under construction and the borrowed variables; the construction loop is proved for any visit source that preserves a relation |
| C65 | CursorModel: iterators, walks, the mutable references of iter_mut and the data references of bfs_mut as values held in variables beside the trees (iter.rs Iter, IterMut, bfs.rs Splitted of Iter, IterMut and IntoIter, into_iter.rs IntoIter, walk.rs), borrowed trees apart; any interleaving of calls | PropCursor | invariant over the whole run: each held iterator or walk is related to what it has still to give and to the trees it owns; the trees of the others, and the borrowed ones, are the frame of every call |
| C66 | ApiModel: one definition per method of Tree and Forest (tree.rs, forest.rs, the forwarders of bfs_impls.rs, front_mut, back_mut, iter_mut of node.rs); ApiSpec: what each does to the list of top trees, without paths | each call is shown to be one operation of the client model (or none), so C01's step lemma gives result, contents and reachability; the loop over iter_mut is related to the general one by induction | proved |
| C55 | StackModel, StackCmpModel, StackRcModel, StackRcCmpModel: Drop, eq, ne, partial_cmp, cmp, hash, Display and Debug of Node and of RcNode with a bound on the depth of the recursion | PropStack, PropStack2, PropRc9 | induction over the bound; refuted with trees and RcNodes built by a history, exact depth proved |
| C54 | rc.rs Extend for RcNode: the loop of push_back, each with its own mutable borrow; also with an iterator that itself runs library operations or panics between two items | PropRc3, PropRc8 | induction over the trees (over the iterator's program) with the step theorem of C31 |
| C47, C48 | rc.rs into_tree; comparison macros over iter_rc and data(), with the handles IterRc makes and drops | PropRc2 | execution lemmas relative to a pure traversal that stops at mutably borrowed nodes |
| C34 | notation.rs operators as model functions, expressions of any nesting | PropNotation | induction over expressions |
| C36, C38 | iter.rs/into_iter.rs | PropIter, PropBfs | induction |
| C40 | size.rs | PropClient | arithmetic |
| C43 | operations of several threads cut at every counter access, all interleavings (sequential consistency) | PropSafety | invariant over all schedules; leak refuted |
| C44, C45 | misuse allowed by the types: mem::swap of pinned roots, node reference after detach | PropSafety | refuted; partial for what stays safe |

## 3. Defects of the code found while proving

* **C28** walk.rs: `get()` after `to_child(n)`/`to_sib(n)` with `n` too large panics (unwrap of `None`).
* **C29** tuple.rs/node_vec.rs: `(0,(1,(2,3)),4)` builds `0( 4 )`; the buffer is left inconsistent and dropping it panics. Exactly the shapes in which a node off the last-child path has a last child with children go wrong: two nodes get the same slot.
* **C32** rc.rs:110-123: `RcNode::clone` of a piled node increments the node's count but not the buffer's `ref_cnt`, `Drop`
  (125-153) decrements both: the buffer is freed while handles exist.
* **C33** rc.rs:455, 538-565: piled `downgrade`/`upgrade` do not count in `ref_cnt`, dropping the weak reference does.
* **C35** iter_rc.rs:14-33: `IterRc` keeps a raw cursor and owns nothing; popping the next child and dropping it leaves it dangling.
* **C37** bfs_impls.rs: `From<BfsTree>` trusts the sizes of the caller; more visits than declared write outside the buffer; too few give a tree with a wrong node_count whose drop panics.
* **C39** tuple.rs:101: `postorder_with_size_hint` emits Branch, children, Frame — the preorder.
* **C43** walk.rs:460-461, 641-642: walks are `Send`, the buffer counter is not atomic: a lost decrement leaks the buffer.
* **C44** node.rs: `Node` is `Unpin` when `T` is; swapping two roots through `Pin<&mut Node>` leads to use after free.
* **C45** node.rs:263: `detach(&mut self)` does not consume the reference; it can be used after the detached tree is dropped.
* **C46** macros.rs: hashing feeds no shape: `0( 1 2 )` and `0( 1( 2 ) )` feed the hasher the same sequence.
* **C58** macros.rs:102, rc.rs:519: `Debug` of an `RcNode` prints after each value the address of the *handle* (`self as *const _` of the variable or of the loop variable `child`), not of the node: siblings are printed with the same address and two handles of one node with different ones.
* **C55** tree.rs:244, forest.rs:277, rc.rs:125, macros.rs:110, 129, 136, 149, 163: recursion as deep as the tree is high; a tall tree overflows the stack when it is dropped, compared, hashed or printed (cloning and breadth-first iteration do not recurse).
* **C59** rc.rs:125-153: when `T::drop` panics in the loop that pops the children, unwinding still drops the `Rc` field of a scattered node, so the node is freed while the remaining children keep their `up` pointer to it; `parent()` of such a child, through a handle of its own, uses freed memory. (A piled node is leaked with count 0 instead.)
* **C69** rc.rs:125-153, 27-36: while the children of a piled node are being released its count is already 0; if `T::drop` of one of them calls `parent()` on a sibling, `RefCount::incr` panics in the middle of the release; a scattered node in the same situation gives a handle and lives on, emptied of its children.
* **C53** bfs_impls.rs:279, 327: the buffer under construction is held by a raw pointer; a panic in `T::clone` or in a mapping closure leaks it with the values in it.

## 4. Trusted base

* Coq 8.16.1's kernel, including `vm_compute` (used for concrete examples and refutations only).
* The correspondence between /repo and the model; each definition cites file and lines.
* std++ (definitions and lemmas; no axioms).  `Print Assumptions` reports **"Closed under the global context" for every
  theorem of MANIFEST.json**: no axiom is used, not even from the standard library.

### Modelled
node.rs (all public functions), tree.rs, forest.rs, heap.rs, node_vec.rs, iter.rs, into_iter.rs, iter_rc.rs, bfs.rs, bfs_impls.rs, size.rs,
walk.rs, tuple.rs, notation.rs, macros.rs, rc.rs.  Accessors that only
forward (`Tree::root`, `Forest::root_`, `Tree::push_back`, …) are modelled by what they forward to.  COVERAGE.md lists every function of /repo/src with the definitions that model it.

### Simplifications and what is not modelled
* One word is a `nat`: no overflow of `usize` counters or sizes (C61: between calls each is bounded by the nodes and handles in memory), no allocation failure; the call stack is
  unbounded except in StackModel, StackCmpModel, StackRcModel and StackRcCmpModel (C55).
* The data type is a type parameter `A` (for bfs with values, any type).  `T`'s own `Drop`/`Clone`/`Ord` are functions without effect on the tree.
  A `Drop` that panics while a tree or forest is dropped and a `Clone` that panics are modelled (C50–C53); a `Drop` that panics while an RcNode is dropped is C59; a second panic during
  unwinding (abort) is not.  A `Drop` that runs operations of the library on other trees is C68, on shared nodes C69; values that own `RcNode` handles are C62, values that own trees and forests C63.  A mapping closure or `Clone` that runs operations of the library itself is C64.
* Undefined behaviour means access to memory that is not allocated (or a broken counter).  Rust's aliasing rules (Stacked Borrows), uninitialised
  padding and pointer provenance are not modelled.
* The iterators from which the client makes a `BfsTree`/`BfsForest` for `from` are lists, or maps over the library's own; one that panics between two items is modelled for the mapped breadth-first visits (C50–C53), one that runs library operations for the mapped visits (C64) and for `Extend` of `RcNode` (C54; also panics).
* The borrow checker is modelled by the client language: an operation refers to nodes by owner and path, and a program that moves a borrowed
  tree is `RBad` in specification and model alike.  For shared trees borrows are dynamic and modelled (C42).
* Tuples of arity > 12 do not exist in Rust; the model proves all arities.
* Threads: sequentially consistent memory; each counter access is a separate step (C43).
* rc.rs: `node()`/`node_mut()` (176-179, unsafe) are modelled as far as C67 says (RcNodeModel); Rust's aliasing rules, which the caller must respect, are not.
