(** PropRc10.v — C67: reading a shared node through the [Ref<Node<T>>] that [RcNode::node()] returns.
    [reached c σ] (RcClient): any history of the shared interface within what rc.rs allows; [handle_for c σ r t] (RcCmpClient): a variable of the client holds [r], a
    handle of the node whose subtree is [t]; [readable σ i]: there is no [RefMut] on the node [i]; [evals]/[panics]: the call returns the value and has no effect / panics. *)
From Coq Require Import Ascii String.
From stdpp Require Import base gmap list.
From Verif Require Import Spec ClientSpec RcSpec Machine NodeModel BfsModel ClientModel CmpSpec CmpModel RcModel RcCmpModel RcAllowed RcClient RcCmpClient RcNodeModel RcStep4 RcProps2 RcDemo RcNodeProofs.

(** the method [m] called on the descendant at [path] of the node [unsafe { r.node() }] returns [v] without any effect; but [node()] itself panics if there is a [RefMut] on [r]'s node *)
Definition reads_through {A X} (c : rst A) (σ : rss A) (r : rnode) (t : ltree A) (path : list nat) (m : ptr -> M A X) (v : X) : Prop :=
  (readable σ (lid t) = true -> evals c (via_node (r_b c) r path m) v) /\ (readable σ (lid t) = false -> panics c (via_node (r_b c) r path m)).
(** a binary operator on two such references *)
Definition reads_through2 {A X} (c : rst A) (σ : rss A) (r r' : rnode) (t u : ltree A) (path path' : list nat) (m : ptr -> ptr -> M A X) (v : X) : Prop :=
  (readable σ (lid t) = true -> readable σ (lid u) = true -> evals c (via_nodes (r_b c) r r' path path' m) v) /\
  (readable σ (lid t) = false \/ readable σ (lid u) = false -> panics c (via_nodes (r_b c) r r' path path' m)).

(** * C67.  The methods of [Node] that read, called on the reference, see the subtree as it is: data, degree, number of nodes, children, first and last child, breadth-first
    traversals, hash and [Display].  Only the borrow of the node itself is checked: the descendants may be mutably borrowed (which is why [node()] is unsafe). *)
Section C67.
Context {A : Type} (c : rst A) (σ : rss A) (r : rnode) (t : ltree A) (path : list nat) (a : A) (xs : list (tree A)).
Theorem C67_node_read : reached c σ -> handle_for c σ r t -> subtree (erase t) path = Some (Tr a xs) ->
  reads_through c σ r t path data a /\
  reads_through c σ r t path degree (length xs) /\
  reads_through c σ r t path node_count (nodes (Tr a xs)) /\
  reads_through c σ r t path has_no_child (match xs with [] => true | _ => false end) /\
  reads_through c σ r t path kid_vals (root_of <$> xs) /\
  reads_through c σ r t path front_val (root_of <$> head xs) /\
  reads_through c σ r t path back_val (root_of <$> last xs) /\
  reads_through c σ r t path bfs_visits (visit_of <$> level_order (Tr a xs)) /\
  reads_through c σ r t path bfs_children_visits (visit_of <$> level_order_f xs) /\
  (forall H (h : A -> list H), reads_through c σ r t path (node_hash h) (flat_map h (preorder (Tr a xs)))) /\
  (forall show, reads_through c σ r t path (node_fmt show) (display show (Tr a xs))).
Proof. exact (call_node_read c σ r t path a xs). Qed.
End C67.
Print Assumptions C67_node_read.

(** [==], [partial_cmp] and [cmp] between two such references *)
Section C67_cmp.
Context {A : Type} (c : rst A) (σ : rss A) (r r' : rnode) (t u : ltree A) (path path' : list nat) (x y : tree A).
Theorem C67_node_compare : reached c σ -> handle_for c σ r t -> handle_for c σ r' u -> subtree (erase t) path = Some x -> subtree (erase u) path' = Some y ->
  (forall eqA, exists b, (b = true <-> tree_rel (fun a b => eqA a b = true) x y) /\ reads_through2 c σ r r' t u path path' (node_eq eqA) b) /\
  (forall pc, reads_through2 c σ r r' t u path path' (node_pcmp pc) (tree_pcmp pc x y)) /\
  (forall cm, reads_through2 c σ r r' t u path path' (node_cmp cm) (tree_cmp cm x y)).
Proof. exact (call_node_compare c σ r r' t u path path' x y). Qed.
End C67_cmp.
Print Assumptions C67_node_compare.

(** * The same through the [RefMut<Node<T>>] of [RcNode::node_mut()], which panics if there is any [Ref] or [RefMut] on the node.  Calling a method of [Node] that changes the
    node, on the node or on a descendant that has a handle [r2] too and is not borrowed, leaves the program exactly as the safe method of [r2] does (C14 and following): writing
    the data, [push_front]/[push_back] of a tree, [prepend]/[append] of a forest, [insert_prev_sib]/[insert_next_sib], and [pop_front]/[pop_back] if the tree is turned into an [RcNode]. *)
Section C67_mut.
Context {A : Type} (c : rst A) (σ : rss A) (r r2 : rnode) (t u : ltree A) (path : list nat).
Theorem C67_node_mut : reached c σ -> handle_for c σ r t -> lsub_at t path = Some u -> handle_for c σ r2 u ->
  (writable σ (lid t) = false -> forall X (m : ptr -> M A X), panics c (via_node_mut (r_b c) r path m)) /\
  (writable σ (lid t) = true -> writable σ (lid u) = true ->
    (forall f, via_node_mut (r_b c) r path (fun p => modify_data p f) (r_mem c) = rc_modify (r_b c) r2 f (r_mem c)) /\
    (forall e y, via_node_mut (r_b c) r path (fun p => node_push e p y) (r_mem c) = rc_push e (r_b c) r2 y (r_mem c)) /\
    (forall e y, via_node_mut (r_b c) r path (fun p => node_concat e p y) (r_mem c) = rc_concat e (r_b c) r2 y (r_mem c)) /\
    (forall e y, via_node_mut (r_b c) r path (fun p => node_insert e p y) (r_mem c) = rc_insert e (r_b c) r2 y (r_mem c)) /\
    (forall e, (let! o := via_node_mut (r_b c) r path (node_pop e) in match o with None => ret None | Some y => let! k := rc_from y in ret (Some k) end) (r_mem c) = rc_pop e (r_b c) r2 (r_mem c))).
Proof. exact (call_node_mut c σ r t path u r2). Qed.
End C67_mut.
Print Assumptions C67_node_mut.
Example C67_mut_ex : reached (after_c shared_ops) (after_s shared_ops) /\
  handle_for (after_c shared_ops) (after_s shared_ops) (RScat (1, 0)) (LN 1 1 [LN 2 2 []; LN 3 3 []]) /\ lsub_at (LN 1 1 [LN 2 2 []; LN 3 3 []]) [1] = Some (LN 3 3 []) /\
  handle_for (after_c shared_ops) (after_s shared_ops) (RScat (3, 0)) (LN 3 3 []) /\ writable (after_s shared_ops) 1 = true /\ writable (after_s shared_ops) 3 = true /\
  match via_node_mut (r_b (after_c shared_ops)) (RScat (1, 0)) [1] (fun p => modify_data p (fun _ => 9)) (r_mem (after_c shared_ops)) with
  | Ok _ s => match via_node (r_b (after_c shared_ops)) (RScat (1, 0)) [] kid_vals s with Ok l _ => l = [2; 9] | Err _ => False end | Err _ => False end.
Proof.
  split; [apply after_reached; [vm_compute; reflexivity|vm_compute; eauto]|]. split; [exists 1, 1; vm_compute; auto|]. split; [reflexivity|].
  split; [exists 3, 3; vm_compute; auto|]. split; [vm_compute; reflexivity|]. split; [vm_compute; reflexivity|]. vm_compute. reflexivity.
Qed.

(** the demo client: variable 1 is the node 1( 2 3 ), with a [RefMut] on its child 3: reading through [node()] still works there; and not with the [RefMut] on the node itself *)
Definition guard3 : list (rop nat) := shared_ops ++ [SGuard true 3 0].
Definition guard1 : list (rop nat) := shared_ops ++ [SGuard true 1 0].
Definition via67 {X} (os : list (rop nat)) (path : list nat) (m : ptr -> M nat X) : option X :=
  match via_node (r_b (after_c os)) (RScat (1, 0)) path m (r_mem (after_c os)) with Ok v _ => Some v | Err _ => None end.
Example C67_ex : reached (after_c guard3) (after_s guard3) /\ reached (after_c guard1) (after_s guard1) /\
  handle_for (after_c guard3) (after_s guard3) (RScat (1, 0)) (LN 1 1 [LN 2 2 []; LN 3 3 []]) /\ handle_for (after_c guard1) (after_s guard1) (RScat (1, 0)) (LN 1 1 [LN 2 2 []; LN 3 3 []]) /\
  readable (after_s guard3) 1 = true /\ readable (after_s guard3) 3 = false /\ readable (after_s guard1) 1 = false /\
  via67 guard3 [] kid_vals = Some [2; 3] /\ via67 guard3 [1] data = Some 3 /\ via67 guard3 [] back_val = Some (Some 3) /\ via67 guard3 [] node_count = Some 3 /\ via67 guard1 [] kid_vals = None.
Proof.
  split; [apply after_reached; [vm_compute; reflexivity|vm_compute; eauto]|]. split; [apply after_reached; [vm_compute; reflexivity|vm_compute; eauto]|].
  split; [exists 1, 1; vm_compute; auto|]. split; [exists 1, 1; vm_compute; auto|]. repeat (split; [vm_compute; reflexivity|]). vm_compute. reflexivity.
Qed.
