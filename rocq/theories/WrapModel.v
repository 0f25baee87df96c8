(** WrapModel.v — bfs.rs: the enum [Bfs], which holds either kind of breadth-first iterator.  No proofs. *)
From stdpp Require Import base gmap list.
From Verif Require Import Spec ClientSpec Machine NodeModel BfsModel ClientModel.

Section model.
Context {A : Type}.

(** bfs.rs:15-18 [BfsTree], 59-62 [BfsForest]: the iterator and the size *)
Record bfs_tree (I : Type) : Type := BT { bt_iter : I; bt_size : nat * nat }.
Record bfs_forest (I : Type) : Type := BF { bf_iter : I; bf_size : nat * nat }.
(** bfs.rs:103-106 [Bfs] *)
Inductive bfs_any (I : Type) : Type := BTree (t : bfs_tree I) | BForest (f : bfs_forest I).
(** bfs.rs:31 [BfsTree::wrap] *)
Definition bt_wrap {I} (t : bfs_tree I) : bfs_any I := BTree I t.
(** bfs.rs:75 [BfsForest::wrap] *)
Definition bf_wrap {I} (f : bfs_forest I) : bfs_any I := BForest I f.
(** bfs.rs:112-117 [Bfs::iter] *)
Definition any_iter {I} (b : bfs_any I) : I := match b with BTree _ t => bt_iter I t | BForest _ f => bf_iter I f end.
(** bfs.rs:120-125 [Bfs::iter_and_size] *)
Definition any_iter_and_size {I} (b : bfs_any I) : I * (nat * nat) :=
  match b with BTree _ t => (bt_iter I t, bt_size I t) | BForest _ f => (bf_iter I f, bf_size I f) end.
(** bfs.rs:129-134 [Bfs::tree_iter] *)
Definition any_tree_iter {I} (b : bfs_any I) : option I := match b with BTree _ t => Some (bt_iter I t) | BForest _ _ => None end.
(** bfs.rs:138-143 [Bfs::forest_iter] *)
Definition any_forest_iter {I} (b : bfs_any I) : option I := match b with BTree _ _ => None | BForest _ f => Some (bf_iter I f) end.

(** bfs_impls.rs:103-105 [Node::bfs] and 69 [Node::bfs_children] with their result types *)
Definition node_bfs (p : ptr) : M A (bfs_tree (list citer)) := let! b := bfs p in ret (BT _ b.1 b.2).
Definition node_bfs_children (p : ptr) : M A (bfs_forest (list citer)) := let! b := bfs_children p in ret (BF _ b.1 b.2).

(** the client: [let b = node.bfs().wrap(); let (iter, size) = b.iter_and_size(); (iter.collect(), size)] and the same with the other methods; [b] tells which
    kind of iterator is wrapped *)
Definition any_of (tr : bool) (p : ptr) : M A (bfs_any (list citer)) :=
  if tr then let! b := node_bfs p in ret (bt_wrap b) else let! b := node_bfs_children p in ret (bf_wrap b).
Definition collect_any (q : list citer) : M A (list visit) := let! f := fuel in collect sp_next f q.
Definition visits_iter (tr : bool) (p : ptr) : M A (list visit) := let! b := any_of tr p in collect_any (any_iter b).
Definition visits_and_size (tr : bool) (p : ptr) : M A (list visit * (nat * nat)) :=
  let! b := any_of tr p in let! l := collect_any (any_iter_and_size b).1 in ret (l, (any_iter_and_size b).2).
Definition opt_visits (o : option (list citer)) : M A (option (list visit)) :=
  match o with Some q => let! l := collect_any q in ret (Some l) | None => ret None end.
Definition visits_tree_iter (tr : bool) (p : ptr) : M A (option (list visit)) := let! b := any_of tr p in opt_visits (any_tree_iter b).
Definition visits_forest_iter (tr : bool) (p : ptr) : M A (option (list visit)) := let! b := any_of tr p in opt_visits (any_forest_iter b).
End model.
