{"id": "C01", "title": "API histories refine rose trees", "statement": "Whatever sequence of public Tree/Forest/Node operations (new, push_*, pop_*, prepend, append, insert_*_sib, detach, abandon, data_mut, deep_clone, deep_clone_forest, drop, and the observers) a client runs, on roots or on nodes reached through any path of children, every result and every later content of every tree and forest is what ordinary immutable rose trees (a value and an ordered list of subtrees) would give; trees not named by an operation do not change.", "quantifier": "all finite operation histories, all numbers of live trees/forests, all node paths, all data values", "why_tests_cant": "the state space of linked structures reachable by histories is infinite; unit tests sample a few short histories on trees of 3-7 nodes", "anchors": ["src/node.rs Node", "src/tree.rs Tree", "src/forest.rs Forest", "src/bfs_impls.rs deep_clone"]}
{"id": "C02", "title": "degree and node_count are exact", "statement": "After any history, at every node, degree() is the number of children that iter() yields, and node_count() is the number of nodes of the subtree (for a Forest: of all its trees, the forest itself not counted); has_no_child() holds exactly when degree() is 0.", "quantifier": "all histories, all nodes of all live trees and forests", "why_tests_cant": "the counters are cached and propagated to all ancestors; an error in one ancestor shows only for particular depths and operation orders", "anchors": ["src/node.rs degree/node_count/inc_sizes/dec_sizes", "src/size.rs Size"]}
{"id": "C03", "title": "front, back and iter agree", "statement": "After any history, at every node, iter() yields the children in order, front() is the first one it yields and back() the last one, both None exactly when there is no child.", "quantifier": "all histories, all nodes", "why_tests_cant": "front/back/iter read different link fields that many operations update separately", "anchors": ["src/node.rs front/back/iter", "src/iter.rs"]}
{"id": "C04", "title": "parent() is right", "statement": "After any history, parent() of a node reached through a non-empty path below a tree root (or below a forest's top level) is the node reached through the path without its last step; parent() of a tree root, and of a top-level node of a forest, is None.", "quantifier": "all histories, all nodes and depths", "why_tests_cant": "parent links must be re-established by every structural operation including bulk moves (append/prepend/abandon)", "anchors": ["src/node.rs parent", "src/forest.rs set_up"]}
{"id": "C05", "title": "push and pop are inverse deque operations", "statement": "push_front/push_back of a tree adds it as first/last child and keeps the other children; pop_front/pop_back removes and returns exactly the first/last child subtree (None iff no children); a pop at the end just pushed returns the pushed tree and restores the content.", "quantifier": "all trees/forests, all receiver nodes, all pushed trees", "why_tests_cant": "must hold for every number of children and depth, including the 0/1/many boundary cases of the link surgery", "anchors": ["src/node.rs push_front/push_back/pop_front/pop_back"]}
{"id": "C06", "title": "prepend/append concatenate", "statement": "prepend/append of a forest puts all its trees, in order, before/after the existing children and consumes the forest; an empty forest changes nothing; node_count of every ancestor grows by the forest's node_count.", "quantifier": "all receivers and forests of all sizes (0 included)", "why_tests_cant": "bulk relinking has four emptiness combinations and touches every moved top-level node and all ancestors", "anchors": ["src/node.rs prepend/append", "src/forest.rs set_up/clear"]}
{"id": "C07", "title": "insert_prev_sib/insert_next_sib", "statement": "On a node that has a parent (or is top-level in a forest) insert_prev_sib/insert_next_sib inserts the given tree immediately before/after it among its siblings and changes nothing else; on a tree root the call panics.", "quantifier": "all nodes at all positions, all inserted trees", "why_tests_cant": "first/middle/last positions at all depths with size propagation", "anchors": ["src/node.rs insert_prev_sib/insert_next_sib"]}
{"id": "C08", "title": "detach", "statement": "On a node that has a parent (or is top-level in a forest) detach removes exactly this subtree from its siblings and returns it as a standalone tree; on a tree root it panics.", "quantifier": "all nodes at all positions", "why_tests_cant": "four link cases combined with size propagation through all ancestors", "anchors": ["src/node.rs detach"]}
{"id": "C09", "title": "abandon", "statement": "abandon() returns a forest of exactly the former children in order and leaves the tree as a single root with its data; no node is leaked or duplicated.", "quantifier": "all trees, scattered or piled", "why_tests_cant": "the old root is recycled as the forest's hidden root; consistency must hold for all later operations on both", "anchors": ["src/tree.rs abandon", "src/node.rs Data::take"]}
{"id": "C10", "title": "iterating while inserting siblings or detaching", "statement": "A running iter_mut yields exactly the children present when it was created, in order, each once, whatever combination of insert_prev_sib, insert_next_sib and detach is applied to the nodes already yielded; the resulting child list is the one obtained by replacing each child by (inserted-before, itself unless detached, inserted-after).", "quantifier": "all child lists and all per-child choices of inserted trees and detaching", "why_tests_cant": "iterator/mutation interference depends on the interleaving", "anchors": ["src/iter.rs IterMut/CountedRawIter", "src/node.rs insert_prev_sib/insert_next_sib/detach"]}
{"id": "C11", "title": "memory safety and panic freedom of the exclusive-ownership API", "statement": "No history of the operations of C01 ever dereferences a freed or foreign node, underflows a size counter, loops forever, or panics, except for the documented misuse of calling insert_*_sib/detach on a tree root.", "quantifier": "all histories", "why_tests_cant": "undefined behaviour may be silent; tests can only exercise finitely many histories", "anchors": ["src/node.rs", "src/tree.rs", "src/forest.rs", "src/heap.rs"]}
{"id": "C12", "title": "drop releases everything exactly once", "statement": "Dropping a Tree or Forest releases every node of it and drops every data value of it exactly once (children before their parent, in order), without touching any other tree; once all trees and forests are dropped no allocation remains.", "quantifier": "all histories, all trees", "why_tests_cant": "leaks and double drops depend on shape and history and are invisible to value-level tests", "anchors": ["src/tree.rs Drop", "src/forest.rs Drop", "src/heap.rs drop_node", "src/node_vec.rs decr_ref"]}
{"id": "C13", "title": "a contiguous buffer lives as long as its last node", "statement": "A buffer created by from_tuple/deep_clone/From<Bfs> stays allocated while at least one of its nodes is alive, even after nodes have been moved into other trees or detached, and is released with the last of them.", "quantifier": "all histories mixing scattered and piled nodes", "why_tests_cant": "requires arbitrary redistribution of the nodes of one buffer among many trees before dropping them in any order", "anchors": ["src/node_vec.rs decr_ref", "src/heap.rs drop_node"]}
{"id": "C14", "title": "clones are equal and independent", "statement": "clone/deep_clone of any node gives a tree equal to the subtree, deep_clone_forest a forest equal to its children, the source is unchanged, and later operations on one never affect the other.", "quantifier": "all nodes of all trees/forests, all later histories", "why_tests_cant": "aliasing between the copy and the source would show only under particular later operations", "anchors": ["src/bfs_impls.rs deep_clone/deep_clone_forest", "src/tree.rs Clone", "src/forest.rs Clone"]}
{"id": "C15", "title": "equality is structural", "statement": "== on Tree/Node/Forest is true exactly when the shapes are the same and the data are pairwise ==; != is its negation; it is reflexive, symmetric and transitive when the data's == is.", "quantifier": "all pairs/triples of trees, nodes, forests, all data equalities", "why_tests_cant": "relation laws quantify over all triples", "anchors": ["src/macros.rs impl_order_relations_for_node/impl_order_relations_for_collection"]}
{"id": "C16", "title": "ordering laws", "statement": "cmp is the lexicographic order (data first, then children lexicographically): it is a total order when the data's cmp is, cmp is Equal exactly when == holds (if so for the data), and partial_cmp agrees with cmp when the data's does; an incomparable pair of data met first makes partial_cmp None.", "quantifier": "all pairs/triples of trees/forests, all data orders", "why_tests_cant": "antisymmetry/transitivity quantify over all triples of unbounded trees", "anchors": ["src/macros.rs impl_order_relations_for_node/impl_order_relations_for_collection"]}
{"id": "C17", "title": "Hash agrees with Eq", "statement": "Equal trees (nodes, forests) feed the same sequence of data hashes to the Hasher, whatever their storage (scattered or piled) and history.", "quantifier": "all pairs of equal trees", "why_tests_cant": "must hold for every pair of equal trees with arbitrary different histories", "anchors": ["src/macros.rs impl_hash_for_node/impl_hash_for_collection/impl_hash_for_forest"]}
{"id": "C18", "title": "Display format", "statement": "to_string() of a node is its data followed, if it has children, by '( ', each child followed by a space, and ')'; a forest prints '()' or '( ' children ')'; for data printed as non-empty words without blanks and parentheses different trees (forests) have different strings.", "quantifier": "all trees and forests", "why_tests_cant": "injectivity quantifies over all pairs of trees", "anchors": ["src/macros.rs impl_debug_display_for_node/impl_debug_display_for_forest"]}
{"id": "C19", "title": "bfs() is the level order with exact sizes", "statement": "bfs() yields every node of the subtree exactly once, level by level and left to right inside a level, each with its data and its true degree and number of descendants; bfs_children()/Forest::bfs() do the same starting with the children; the size reported with the iterator is right. A visit wrapped as a Bfs value gives the same items and size, and is a tree or a forest according to how it was made.", "quantifier": "all trees/forests and nodes", "why_tests_cant": "queue-of-iterators algorithm must be right for all shapes", "anchors": ["src/bfs.rs Splitted", "src/bfs_impls.rs bfs/bfs_children", "src/bfs.rs enum Bfs"]}
{"id": "C20", "title": "From<Bfs> inverts bfs", "statement": "Building a Tree (Forest) from the breadth-first visits of any tree (forest) gives an equal tree (forest), contiguously stored, and never touches memory outside the buffer.", "quantifier": "all trees/forests", "why_tests_cant": "index arithmetic (parent/child/remains) must be right for all shapes including chains, leaves between branches and empty forests", "anchors": ["src/bfs_impls.rs From<BfsTree>/From<BfsForest>", "src/node_vec.rs append_child"]}
{"id": "C21", "title": "bfs_mut updates every node once", "statement": "Applying a function to the data through bfs_mut()/bfs_children_mut() changes the n-th node in level order by the n-th application, each node exactly once, and leaves the shape unchanged.", "quantifier": "all trees, all update functions", "why_tests_cant": "aliasing of mutable visits would only show for certain shapes", "anchors": ["src/bfs_impls.rs bfs_mut/bfs_children_mut, Split for Pin<&mut Node>"]}
{"id": "C22", "title": "into_bfs yields owned data and releases the nodes", "statement": "into_bfs() yields the same sequence as bfs() with owned data; each data value is handed out exactly once; when the iterator has been exhausted or dropped at any point, all nodes are released and the data not handed out are dropped exactly once.", "quantifier": "all trees/forests and every point at which the iteration is given up", "why_tests_cant": "partial consumption can stop at any point", "anchors": ["src/bfs_impls.rs into_bfs, Split for Tree", "src/into_iter.rs IntoIter", "src/tree.rs abandon/into_data"]}
{"id": "C23", "title": "TreeWalk/ForestWalk perform a full depth-first traversal", "statement": "get() followed by repeated forward()/next() visits, for every branched node, Begin, then the visits of its children in order, then End, and for every childless node one Leaf; after the last visit get() is None.", "quantifier": "all trees and forests", "why_tests_cant": "the cursor is a state machine over a stack; must be right for all shapes", "anchors": ["src/walk.rs Walk::forward/get, TreeWalk, ForestWalk"]}
{"id": "C24", "title": "forward always terminates and stays at the end", "statement": "From every cursor state reachable by any sequence of walk operations forward() returns; once the traversal is completed it stays completed under forward()/next().", "quantifier": "all sequences of forward/to_parent/to_child/to_sib/revisit on all trees", "why_tests_cant": "the loop in forward has no obvious bound and would spin on an empty path in direction Right", "anchors": ["src/walk.rs Walk::forward"]}
{"id": "C25", "title": "to_parent and get_parent", "statement": "get_parent() is the parent of the current node within the traversed tree/forest (None at top level); to_parent() moves there with an End visit (continuing forward() skips the rest of its subtree), or ends the traversal at top level.", "quantifier": "all cursor positions", "why_tests_cant": "depends on arbitrary cursor histories", "anchors": ["src/walk.rs to_parent/get_parent"]}
{"id": "C26", "title": "to_child and to_sib", "statement": "to_child(n) moves to the n-th child and to_sib(n) to the n-th next sibling when they exist, visiting it as Begin or Leaf, and forward() continues the depth-first traversal from there; otherwise they return None.", "quantifier": "all cursor positions and all n", "why_tests_cant": "depends on arbitrary cursor histories and n", "anchors": ["src/walk.rs to_child/to_sib"]}
{"id": "C27", "title": "revisit", "statement": "revisit() has no observable effect on a Begin or Leaf visit (now and for all later operations), turns an End visit into the Begin visit of the same node (so that its subtree is traversed again), and after completion restarts the traversal.", "quantifier": "all cursor positions and continuations", "why_tests_cant": "quantifies over all later operation sequences", "anchors": ["src/walk.rs revisit"]}
{"id": "C28", "title": "walk.get() is always safe to call", "statement": "get() never panics, whatever walk operations preceded it.", "quantifier": "all sequences of walk operations on all trees", "why_tests_cant": "needs the particular operation sequences that leave the cursor without a node", "anchors": ["src/walk.rs get/to_sib/to_child"]}
{"id": "C29", "title": "from_tuple builds the denoted tree", "statement": "Tree::from_tuple / Forest::from_tuple of any nested tuple gives the tree / forest the tuple denotes (first component is the data, the others are the children; a bare value or 1-tuple is a leaf).", "quantifier": "all nested tuple shapes and values", "why_tests_cant": "shapes are unbounded; the tests use tuples of height at most 3", "anchors": ["src/tree.rs from_tuple", "src/forest.rs from_tuple", "src/node_vec.rs construct_tree/construct_forest"]}
{"id": "C30", "title": "tuple shape metadata", "statement": "For every tuple SIZE.degree is the number of children, SIZE.descendants the number of nodes below the root, height() the number of levels, descendants(k) the number of nodes k+1 levels below the root, and preorder/preorder_with_size_hint visit Branch, children, Frame (Leaf for leaves) with these sizes.", "quantifier": "all nested tuple shapes, all levels", "why_tests_cant": "unbounded shapes", "anchors": ["src/tuple.rs TupleTree/TupleForest"]}
{"id": "C31", "title": "shared ownership keeps nodes alive (RcNode)", "statement": "A node is released exactly when no RcNode refers to it and it is not part of a tree that is kept alive; while a handle exists its data, children and subtree stay accessible, all handles to a node see the same data and children, and when the last handle of a root goes away, the subtrees that still have handles live on as separate trees.", "quantifier": "all histories of RcNode operations (clone, drop, front/back/parent, push/pop, prepend/append, insert, detach, data_mut)", "why_tests_cant": "aliasing and release order depend on history", "anchors": ["src/rc.rs RcNode, Drop, Clone", "src/node.rs"]}
{"id": "C32", "title": "cloning an RcNode handle does not affect the node's lifetime", "statement": "For every RcNode (scattered or piled), making a clone and dropping it again leaves the node alive and its buffer allocated.", "quantifier": "all RcNodes", "why_tests_cant": "the premature release frees memory silently", "anchors": ["src/rc.rs Clone for RcNode, Drop for RcNode", "src/node_vec.rs decr_ref"]}
{"id": "C33", "title": "weak references", "statement": "downgrade() then dropping the WeakNode has no effect on the node; upgrade() succeeds exactly while the node is alive and then gives a handle that keeps it alive.", "quantifier": "all RcNodes and histories", "why_tests_cant": "lifetime bugs are silent", "anchors": ["src/rc.rs WeakNode, downgrade, upgrade"]}
{"id": "C34", "title": "operator notations", "statement": "The operators '-' and '/' in all owned/borrowed combinations build the forest/tree whose children are those of the left operand followed by the right operand (a single tree, all trees of a forest, or nothing for ()), and borrowed operands are left unchanged.", "quantifier": "all operands", "why_tests_cant": "22 operator impls over unbounded operands; evaluation uses clone for borrowed operands", "anchors": ["src/notation.rs impl_notations"]}
{"id": "C35", "title": "iter_rc is safe and complete", "statement": "iter_rc() yields a handle for each child in order when the children are not changed meanwhile, and never accesses released memory whatever is done with the tree between two next() calls.", "quantifier": "all histories between next() calls", "why_tests_cant": "use-after-free is silent and depends on the interleaving", "anchors": ["src/iter_rc.rs IterRc", "src/rc.rs iter_rc"]}
{"id": "C36", "title": "exact size hints and fused iterators", "statement": "At every moment size_hint() of Iter/IterMut/IntoIter is exactly the number of items still to be yielded, and after None they keep returning None.", "quantifier": "all child lists, all positions of the iterator", "why_tests_cant": "quantifies over all positions and lengths", "anchors": ["src/iter.rs", "src/into_iter.rs"]}
{"id": "C37", "title": "From<BfsTree>/From<BfsForest> is memory safe on every visit sequence", "statement": "Converting any BfsTree/BfsForest value (its fields are public, so any iterator of visits with any sizes can be supplied by safe code) never touches memory outside the new buffer.", "quantifier": "all visit sequences and sizes", "why_tests_cant": "out-of-bounds accesses are silent", "anchors": ["src/bfs_impls.rs From<BfsTree>", "src/bfs.rs BfsTree/Visit pub fields", "src/node_vec.rs get_unchecked"]}
{"id": "C38", "title": "IntoIter", "statement": "Forest::into_iter yields the forest's trees in order as independent trees, Tree::into_iter yields the tree itself once; dropping the iterator early releases the rest.", "quantifier": "all forests, every stopping point", "why_tests_cant": "every stopping point", "anchors": ["src/into_iter.rs"]}
{"id": "C39", "title": "tuple postorder", "statement": "postorder and postorder_with_size_hint visit the same nodes in the same order: Frame, children, Branch (Leaf for leaves).", "quantifier": "all nested tuple shapes", "why_tests_cant": "unbounded shapes", "anchors": ["src/tuple.rs postorder/postorder_with_size_hint"]}
{"id": "C40", "title": "Size arithmetic", "statement": "Size + and - are component-wise, (a+b)-b = a, + is associative and commutative with Size::default() as unit, += and -= agree with + and -, and - panics (checked arithmetic) exactly if a component would become negative.", "quantifier": "all sizes", "why_tests_cant": "all values", "anchors": ["src/size.rs"]}
{"id": "C41", "title": "walk ownership round trip", "statement": "Converting a Tree/Forest into a TreeWalk/ForestWalk, moving the cursor arbitrarily, and converting back returns the same tree/forest unchanged.", "quantifier": "all trees, all walk operation sequences", "why_tests_cant": "all operation sequences", "anchors": ["src/walk.rs From impls"]}
{"id": "C42", "title": "dynamic borrow checking of RcNode", "statement": "While a Ref from data() of a node is alive, structural modification through that node panics instead of mutating, while a RefMut from data_mut() is alive any access through that node panics, and operations through other nodes are unaffected.", "quantifier": "all nodes and operations", "why_tests_cant": "interleavings of borrows", "anchors": ["src/rc.rs node_borrow/node_borrow_mut"]}
{"id": "C43", "title": "sending a walk to another thread is safe", "statement": "TreeWalk/ForestWalk are declared Send: moving one to another thread and using or dropping it there, while the first thread keeps working with the other trees and forests it owns, never loses a reference-count update: no buffer is freed early and none is leaked, for every interleaving of the two threads.", "quantifier": "all pairs of thread programs on disjointly owned trees, all schedules", "why_tests_cant": "depends on the interleaving of non-atomic loads and stores", "anchors": ["src/walk.rs:460,641 unsafe impl Send", "src/rc.rs RefCount", "src/node_vec.rs NodeVec::ref_cnt", "src/node.rs Node::decr_ref"]}
{"id": "C44", "title": "nodes cannot be moved out through a pinned reference", "statement": "Safe code holding Pin<&mut Node<T>> cannot move or exchange the nodes themselves, so parent and sibling links stay consistent and dropping the trees is safe.", "quantifier": "all trees and all safe client code", "why_tests_cant": "a soundness property of every client program, tests only try some", "anchors": ["src/node.rs Node", "src/tree.rs Tree::root_mut"]}
{"id": "C45", "title": "a node reference is dead after detach", "statement": "After detach() on a node reference, safe code cannot use that reference to reach memory that the returned Tree has already freed.", "quantifier": "all trees, all nodes, all later uses", "why_tests_cant": "soundness property of every client program", "anchors": ["src/node.rs Node::detach"]}
{"id": "C46", "title": "hashes distinguish shapes", "statement": "What hashing a tree feeds to the hasher determines the tree: two different trees feed different sequences (when the data's own hash does).", "quantifier": "all pairs of trees", "why_tests_cant": "all pairs of trees", "anchors": ["src/macros.rs Hash impls"]}
{"id": "C47", "title": "into_tree gives the tree back", "statement": "RcNode::into_tree() on a root (with no other handle, weak handle or iterator left for its nodes, as its safety contract says) returns the tree of that node, exclusively owned, without touching memory and without affecting other trees; on a node that has a parent it panics; RcNode::from(tree).into_tree() is the same tree.", "quantifier": "all reachable states, all nodes", "why_tests_cant": "all shapes, storage kinds and histories", "anchors": ["src/rc.rs RcNode::into_tree", "src/rc.rs From<Tree<T>> for RcNode<T>"]}
{"id": "C48", "title": "comparing, hashing and printing shared nodes", "statement": "==, !=, partial_cmp, cmp, hash and Display of RcNodes give the result of the trees below the nodes whatever the sharing and storage; they never change anything; they panic only when some node of the trees is mutably borrowed (hash and Display exactly then).", "quantifier": "all reachable states, all pairs of handles, all borrows", "why_tests_cant": "all shapes and borrow states", "anchors": ["src/rc.rs impls_partial_eq etc.", "src/macros.rs", "src/rc.rs RcNode::data", "src/iter_rc.rs"]}
{"id": "C49", "title": "mapping a breadth-first visit keeps the shape", "statement": "Tree::from / Forest::from of a breadth-first visit passed through map (consuming, or cloning, or over the children only) yields a tree of the same shape whose data are the closure's results, with the closure called exactly once per node, in breadth-first order; the tree visited is unchanged by a cloning visit and consumed by a consuming one.", "quantifier": "all reachable states, all trees, all closures (their results may depend on the history of calls)", "why_tests_cant": "all shapes, storage kinds and closures", "anchors": ["src/bfs.rs BfsTree::map", "src/bfs.rs BfsForest::map", "src/bfs_impls.rs From impls"]}
{"id": "C50", "title": "panics that are caught are safe", "statement": "Whatever panics during a history of calls — T::clone, the closure given to map of a breadth-first visit, T::drop, or the library itself (insert_prev_sib/insert_next_sib/detach on a root) — and however often, if the panics are caught then nothing is accessed after release or released twice, every variable still reads back as the sequence of successful calls prescribes, and every later call works on it as if no panic had happened.", "quantifier": "all histories, all points where foreign code panics (also depending on its earlier calls)", "why_tests_cant": "a panic point is a crash point: every prefix of every call, in every reachable state", "anchors": ["src/bfs_impls.rs From impls", "src/heap.rs drop_node", "src/tree.rs Drop", "src/forest.rs Drop", "src/node.rs insert_prev_sib/insert_next_sib/detach"]}
{"id": "C51", "title": "a panicking call on a borrowed node changes nothing", "statement": "clone, deep_clone, deep_clone_forest or a map over the visits of a borrowed node that panics, and detach on a root, leave every variable, every content and every node address as they were and drop no value; a map panics exactly if its closure does for some visit. insert_prev_sib/insert_next_sib on a root drop their argument and change nothing else. deep_clone of a shared node (RcNode) whose T::clone panics likewise leaves every variable, borrow, node, and reference count as it was and drops nothing.", "quantifier": "all reachable states (also after earlier panics), all closures and panic points", "why_tests_cant": "all states and panic points", "anchors": ["src/bfs_impls.rs deep_clone", "src/bfs.rs BfsTree::map", "src/node.rs insert_prev_sib/insert_next_sib/detach", "src/rc.rs RcNode::deep_clone"]}
{"id": "C52", "title": "a panic drops no value twice", "statement": "When the closure mapped over an owned breadth-first visit panics, every value of the tree that was not handed out before is dropped exactly once; when T::drop panics while a tree is dropped, the values up to that one are dropped, once each and in the usual order, and no other. Other variables keep their contents.", "quantifier": "all reachable states, trees, forests, panic points", "why_tests_cant": "all panic points; double drops are invisible to value-based tests", "anchors": ["src/bfs_impls.rs From impls", "src/into_iter.rs Drop", "src/tree.rs Drop", "src/heap.rs drop_node"]}
{"id": "C53", "title": "a panic leaks nothing", "statement": "When every variable has been dropped no memory of the library is left, even if calls have panicked in between.", "quantifier": "all histories with caught panics", "why_tests_cant": "leaks are invisible to functional tests; all panic points", "anchors": ["src/bfs_impls.rs From impls", "src/node_vec.rs", "src/tree.rs Drop"]}
{"id": "C54", "title": "extending a shared node", "statement": "handle.extend(trees) on a shared node appends the trees in order as its last children: the children it had stay the same nodes in the same order, no other node or variable changes, nothing is dropped, other handles of the node see the new children, and the program continues as after any history of the shared interface. While a guard on the node is alive, extending it with at least one tree panics. The same holds for an iterator whose next() itself uses the library: each of its operations takes effect when next() is called, and a panic of it is passed on with the children appended so far in place.", "quantifier": "all reached states of the shared interface, all handles, all lists of trees, all iterators that run operations of the interface between two items", "why_tests_cant": "all shapes of the shared forest, all lists of trees, scattered and buffered nodes", "anchors": ["src/rc.rs Extend for RcNode", "src/rc.rs RcNode::push_back"]}
{"id": "C55", "title": "tall trees do not exhaust the stack", "statement": "Dropping, comparing, hashing and printing a tree works for trees of every height: the call stack these operations need does not grow with the tree.", "quantifier": "all trees and shared trees, all stack sizes", "why_tests_cant": "tests use small trees; the stack needed must be known for every shape", "anchors": ["src/tree.rs Drop", "src/forest.rs Drop", "src/rc.rs Drop for RcNode", "src/macros.rs eq/ne/partial_cmp/cmp/hash/Display/Debug of Node and RcNode"]}
{"id": "C56", "title": "caught panics of shared-node methods", "statement": "A method of a shared node that panics - because the node is borrowed in a conflicting way, because a sibling is inserted next to a root or a root is detached, or because into_tree is called on a node that has a parent - has changed nothing when the panic is caught: every node, handle, guard, borrow flag, weak reference and iterator is as before, and only what had been moved into the call (the tree or forest, for into_tree the handle itself) has been dropped. The program can go on as if the call had not been made, with all guarantees of the shared interface.", "quantifier": "all histories of allowed calls of the shared interface, with panics caught at any of them", "why_tests_cant": "the panic may be raised in any reachable shape and borrow state, and everything that happens afterwards must be unaffected", "anchors": ["src/rc.rs node_borrow, node_borrow_mut, push_front, push_back, prepend, append, insert_prev_sib, insert_next_sib, detach, into_tree", "src/node.rs insert_prev_sib, insert_next_sib, detach"]}
{"id": "C57", "title": "nodes do not move", "statement": "An operation on trees and forests never moves a node in memory: pushing, popping, inserting, detaching, concatenating, iterating and taking apart only relink nodes, so every node that is reachable afterwards is at the address where it was before, with its data, in whatever tree it is now. Only constructors, copies, conversions from visits and Tree::abandon make nodes, and none of them puts other data into a node in use. This is what handing out Pin<&mut Node> and raw addresses relies on.", "quantifier": "all reachable states and operations; all sequences of operations that make no nodes", "why_tests_cant": "the address of every node must be unchanged for every shape and every operation", "anchors": ["src/node.rs push_front, push_back, pop_front, pop_back, prepend, append, insert_prev_sib, insert_next_sib, detach", "src/tree.rs root_mut, abandon, into_iter", "src/bfs_impls.rs into_bfs, From<BfsTree>"]}
{"id": "C58", "title": "Debug output", "statement": "Debug of a node, tree or forest prints, for every node in preorder, its value, an at sign and the address of that node, with the children in parentheses if there are any; the addresses of different nodes differ and each is the address at which the node is reached by iterating from the root. Nothing is changed. Debug of a shared node prints the values in the same layout, each followed by the address of the handle it was printed through, and panics exactly when some node of the subtree is mutably borrowed.", "quantifier": "all reachable states, all nodes, trees and forests, all Debug implementations of T", "why_tests_cant": "the text must identify each node of every shape in every reachable state", "anchors": ["src/macros.rs impl_debug_display_for_node, impl_debug_display_for_collection", "src/node.rs", "src/tree.rs", "src/forest.rs", "src/rc.rs Debug for RcNode"]}
{"id": "C59", "title": "T::drop panics while a shared node is dropped", "statement": "If T::drop panics while a handle of a shared node is dropped and the panic is caught, no value is dropped twice and the other handles stay usable: no call of theirs accesses freed memory.", "quantifier": "all reachable states of the shared interface, all handles, all values whose drop panics", "why_tests_cant": "any value in any shape may be the one that panics, with any other handles outstanding", "anchors": ["src/rc.rs Drop for RcNode, pop_front, parent"]}
{"id": "C60", "title": "breadth-first iteration over a client's own tree-like data", "statement": "For a client's own implementation of Split (tree-like data that is no Tree), the iterator yields data, length and size of every item level by level from left to right, also of infinite data, and None for ever after the last level. Tree::from(BfsTree::from(item)) is the tree the item looks like, Forest::from(BfsForest::from(items)) the forest, without touching other trees or dropping anything. If the lengths and sizes are wrong, the outcome is that of building from the sequence of the visits.", "quantifier": "all sources (any item type, any split), finite or infinite, all depths, all reachable states the tree is built in", "why_tests_cant": "ranges over every client implementation of a trait", "anchors": ["src/bfs.rs Split, Splitted, BfsTree, BfsForest", "src/bfs_impls.rs From<BfsTree>, From<BfsForest>"]}
{"id": "C61", "title": "counters are exact and cannot overflow", "statement": "In every state between calls, degree() and node_count() of every node, the reference counter of every node and of every buffer are bounded by the number of nodes in memory and of handles held, so a usize cannot overflow; the reference counter of a node is exactly the number of RcNodes for it, plus one if it has a parent or is the root of a Tree or Forest.", "quantifier": "all reachable states, all nodes and buffers", "why_tests_cant": "ranges over every history of calls", "anchors": ["src/node.rs inc_sizes, dec_sizes", "src/rc.rs RefCount", "src/node_vec.rs ref_cnt"]}
{"id": "C62", "title": "dropping a handle whose node values own handles", "statement": "If the values of shared nodes own RcNode handles (T has fields of type RcNode<T>), dropping a handle, which in the middle of the drop drops the handles owned by the dropped values, and so on, ends without a panic or access to freed memory. The handles that disappear are exactly the dropped one and those owned by the values dropped; they are the least set closed under: a value which no remaining handle reaches drops what it owns. Every value is dropped at most once; the nodes kept are those a remaining handle reaches, with their subtrees unchanged; cycles of owners are kept. All further calls behave as C31 etc. say.", "quantifier": "all assignments of owned handles to values in which every handle has one owner, all reachable states without Ref/RefMut guards, all handles", "why_tests_cant": "ranges over every shape of forests and every pattern of ownership, with re-entrant destructors", "anchors": ["src/rc.rs Drop for RcNode"]}
{"id": "C63", "title": "dropping a tree whose node values own trees", "statement": "If the values of nodes own trees or forests (T has fields of type Tree<T> or Forest<T>), drop of a tree or forest, which in the middle drops the trees owned by the dropped values, and so on, ends without a panic or access to freed memory. The values are dropped in one determined order: the children of a node first, from left to right, then its value, then the trees its value owns. The trees that disappear are exactly the dropped one and those owned by values dropped; all others are unchanged, no value is dropped twice or lost, and every later call behaves as if the trees had been dropped one after the other.", "quantifier": "all assignments of owned trees to values in which every tree has one owner, all reachable states, all trees and forests", "why_tests_cant": "ranges over every shape of trees and every nesting of ownership, with re-entrant destructors", "anchors": ["src/tree.rs Drop for Tree", "src/forest.rs Drop for Forest", "src/heap.rs drop_node"]}
{"id": "C64", "title": "closures and T::clone that use the library themselves", "statement": "The closure passed to BfsTree::map or BfsForest::map, when Tree::from or Forest::from builds a tree from bfs(), bfs_children() or into_bfs(), and T::clone in deep_clone, deep_clone_forest and Clone, may themselves create, change, move and drop trees and forests that are not borrowed, read the borrowed ones, and build trees with such closures again, to any depth. Each closure call sees the effects of all calls before it, once per node, in level order; the tree that is built has the shape of its source and the values returned, in order; the borrowed source is unchanged, a consumed one is gone; every other tree is what the closures' operations made of it; no memory is leaked, freed twice or used after it is freed; and if a panic occurs it is one that a closure's own operation raised.", "quantifier": "all client programs: all operations, all closures with any memory of their own, any nesting depth, all trees", "why_tests_cant": "ranges over all programs that closures may be, re-entering the library between any two steps of a construction in progress", "anchors": ["src/bfs_impls.rs From<BfsTree<Iter>> for Tree", "src/bfs_impls.rs From<BfsForest<Iter>> for Forest", "src/bfs_impls.rs Node::deep_clone", "src/bfs_impls.rs Node::deep_clone_forest", "src/bfs.rs BfsTree::map", "src/bfs.rs BfsForest::map"]}
{"id": "C65", "title": "iterators and walks held while the library is used", "statement": "A client may hold any number of iterators (iter, iter_mut, bfs, bfs_children, bfs_mut, bfs_children_mut, into_iter, into_bfs) and walks (TreeWalk, ForestWalk) at once, and call them in any order, interleaved with any operations on trees and forests that are not borrowed. An iterator gives exactly the items its node had when the iterator was made, in order, then None for ever, whatever is done in between; size hints count what is left; a walk behaves as if it were used alone; trees taken from into_iter can be changed at once without affecting the iterator or the other trees; any of the mutable references iter_mut has given can be used in any order, also while the iteration goes on, to read, change, push, pop, append, insert siblings and detach, with the effect these calls have on that child alone, and when the borrow ends everything outside the node's children is as it was; any of the references to data that bfs_mut and bfs_children_mut have given can be read and written in any order, also while the iteration goes on, and when the borrow ends the data of each visit is what was last written and nothing else has changed; dropping into_iter or into_bfs half way drops exactly what is left, once; a walk gives its tree or forest back unchanged, or drops it; borrowed trees are unchanged; and when all iterators and walks are gone nothing is leaked.", "quantifier": "all sequences of calls on all trees, any number of iterators and walks held at once, all interleavings", "why_tests_cant": "the interleavings of several held iterators and walks with arbitrary operations are unbounded in number and length", "anchors": ["src/iter.rs Iter", "src/bfs.rs Splitted", "src/into_iter.rs IntoIter", "src/walk.rs TreeWalk", "src/walk.rs ForestWalk", "src/bfs_impls.rs Node::bfs", "src/bfs_impls.rs Node::bfs_children", "src/bfs_impls.rs Tree::into_bfs", "src/bfs_impls.rs Forest::into_bfs", "src/iter.rs IterMut", "src/node.rs Node::iter_mut", "src/bfs_impls.rs Node::bfs_mut", "src/bfs_impls.rs Node::bfs_children_mut", "src/bfs_impls.rs Forest::bfs_mut"]}
{"id": "C66", "title": "the methods Tree and Forest have themselves", "statement": "Called on a variable of type Tree or Forest, push_front, push_back, pop_front, pop_back, prepend, append, has_no_child, degree, node_count, iter, iter_mut, front, back, front_mut, back_mut, clone, bfs, bfs_mut, and for a Tree also root, root_mut, abandon, bfs_children and bfs_children_mut, act on the children of the root of the tree, or on the trees of the forest, as a list: they give the values, counts and order of that list, change exactly that list (front_mut and back_mut reach its first and last element, iter_mut each element once, in order), leave the root's data and every other variable alone, drop no value, never panic, and any number of such calls can follow each other, also after any other history.", "quantifier": "all reachable states, all trees and forests, all sequences of these calls", "why_tests_cant": "ranges over every tree or forest and every history before the call", "anchors": ["src/tree.rs Tree", "src/forest.rs Forest", "src/bfs_impls.rs Tree::bfs_mut", "src/bfs_impls.rs Tree::bfs_children_mut", "src/node.rs Node::front_mut", "src/node.rs Node::back_mut", "src/node.rs Node::iter_mut"]}
{"id": "C67", "title": "reading and changing a shared node through node() and node_mut()", "statement": "The reference RcNode::node() returns gives access to the methods of Node. Whatever shared history came before, called on the node or on any of its descendants they see the subtree as it is: data, degree, node_count, has_no_child, iter, front, back, bfs, bfs_children, ==, partial_cmp, cmp, hash and Display, and change nothing; node() panics exactly if there is a RefMut on the node itself, and does not look at the descendants' borrows. node_mut() panics exactly if there is any Ref or RefMut on the node; data_mut, push_front, push_back, prepend, append, insert_prev_sib, insert_next_sib, pop_front and pop_back called through it on an unborrowed node or descendant leave the program exactly as the safe methods of a handle of that node do.", "quantifier": "all reached shared states, all handles, all descendants, all data types and operations of the data", "why_tests_cant": "ranges over every history of shared handles, borrows and moves before the call and every tree", "anchors": ["src/rc.rs RcNode::node", "src/rc.rs RcNode::node_mut", "src/node.rs Node::iter", "src/node.rs Node::front", "src/node.rs Node::back"]}
{"id": "C68", "title": "T::drop that uses the library itself", "statement": "Dropping a tree or a forest, and assigning to a node's data, runs T::drop for each value that goes away. If that code itself operates on other trees and forests (creates, changes, reads, moves, drops them, assigns to their data - whose values run T::drop again, nested without bound), then every program still does what its operations say on rose trees: a tree being dropped gives up its values in post-order, each value's T::drop completes before the next value goes, sees none of the tree being dropped or assigned to, and what it did to the other variables and to the other state is there afterwards; an assigned node has its new value at the end. Each value is dropped once; the memory holds exactly the nodes of the live trees; nothing fails except by a documented panic or an exhausted stack, and with more stack the result is the same.", "quantifier": "all programs of operations, drops and assignments, all T::drop code (a program for each value), all states it keeps, all nesting depths, trees of any shape", "why_tests_cant": "the code that runs in the middle of the library's loops is arbitrary and nests arbitrarily; it ranges over all programs and trees", "anchors": ["src/tree.rs Drop for Tree", "src/forest.rs Drop for Forest", "src/heap.rs drop_node", "src/node.rs Node::data_mut", "src/node.rs Node::pop_front"]}
{"id": "C69", "title": "Dropping shared nodes with a T::drop that uses the library", "statement": "Dropping the last RcNode handle of a root releases its children front to back and runs T::drop for each value that goes away. If that code itself uses RcNode handles, weak references, trees and forests (gets a new handle of the node that is being released through parent() of a child, drops other handles - nested without bound -, detaches, pushes, pops, borrows), then the program still does what its operations say on labelled trees: a child is taken off before it is released, a node's T::drop runs after its children are gone, a node for which a new handle was taken meanwhile lives on without its children, and each value is dropped once; the only failures are documented panics and an exhausted stack. With a T::drop that does nothing this is the ordinary drop.", "quantifier": "all programs of handle operations, all T::drop code (a program for each value), all states it keeps, all nesting depths, trees of any shape", "why_tests_cant": "the code that runs in the middle of Drop for RcNode is arbitrary, nests arbitrarily and can resurrect the node being dropped; it ranges over all programs and trees", "anchors": ["src/rc.rs Drop for RcNode", "src/rc.rs RcNode::parent", "src/rc.rs RefCount::incr", "src/rc.rs RcNode::pop_front", "src/rc.rs WeakNode::upgrade"]}
