(** RcNodeModel.v — [RcNode::node]: a dynamically borrowed reference to the node itself, on which the methods of [Node] can be called.  No proofs. *)
From stdpp Require Import base gmap list.
From Verif Require Import Spec ClientSpec RcSpec Machine NodeModel BfsModel ClientModel RcModel.

Section model.
Context {A : Type}.
(** rc.rs:176 [RcNode::node]: the [Ref]; dereferencing it gives the node *)
Definition rc_node (B : borrows) (r : rnode) : M A ptr := node_borrow B r ;; ret (raddr r).
(** [node.iter().nth(i).unwrap()] along [path] (node.rs:313) *)
Definition descend (p : ptr) (path : list nat) : M A ptr := let! o := resolve p path in unwrap o.
(** [unsafe { h.node() }…m()]: a method [m] of [Node] called on the node, or on the descendant at [path]; the [Ref] lives until the end of the statement.  The methods of
    [Node] follow the pointers directly: they make no dynamic borrows. *)
Definition via_node {X} (B : borrows) (r : rnode) (path : list nat) (m : ptr -> M A X) : M A X := let! p := rc_node B r in let! q := descend p path in m q.
(** [unsafe { h.node() }… op unsafe { h'.node() }…] *)
Definition via_nodes {X} (B : borrows) (r r' : rnode) (path path' : list nat) (m : ptr -> ptr -> M A X) : M A X :=
  let! p := rc_node B r in let! p' := rc_node B r' in let! q := descend p path in let! q' := descend p' path' in m q q'.
(** [node.front().map(|n| n.data().clone())] (node.rs:342), the same for [back] (node.rs:354), and [node.iter().map(|n| n.data().clone()).collect()] (node.rs:313) *)
Definition front_val (p : ptr) : M A (option A) := let! o := front p in data_opt o.
Definition back_val (p : ptr) : M A (option A) := let! o := back p in data_opt o.
Definition kid_vals (p : ptr) : M A (list A) := let! ps := children p in datas ps.
End model.

Section model_mut.
Context {A : Type}.
(** rc.rs:179 [RcNode::node_mut]: the [RefMut]; dereferencing it gives the node *)
Definition rc_node_mut (B : borrows) (r : rnode) : M A ptr := node_borrow_mut B r ;; ret (raddr r).
(** [unsafe { h.node_mut() }…m(args)]: the same with a method that may change the node (node.rs:112-531), on the descendant at [path]: [iter_mut().nth(i).unwrap()] (node.rs:324) *)
Definition via_node_mut {X} (B : borrows) (r : rnode) (path : list nat) (m : ptr -> M A X) : M A X := let! p := rc_node_mut B r in let! q := descend p path in m q.
(** the methods of [Node] behind the two sides of a node *)
Definition node_push (e : side) p t : M A unit := match e with Front => push_front p t | Back => push_back p t end.
Definition node_concat (e : side) p f : M A unit := match e with Front => prepend p f | Back => append p f end.
Definition node_insert (e : side) p t : M A unit := match e with Front => insert_prev_sib p t | Back => insert_next_sib p t end.
Definition node_pop (e : side) p : M A (option ptr) := match e with Front => pop_front p | Back => pop_back p end.
End model_mut.

(** the node at [path] under a shared node (specification) *)
Fixpoint lsub_at {A} (t : ltree A) (path : list nat) : option (ltree A) := match path with [] => Some t | i :: path' => match lkids t !! i with Some k => lsub_at k path' | None => None end end.
