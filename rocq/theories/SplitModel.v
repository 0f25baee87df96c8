(** SplitModel.v — breadth-first iteration over tree-like data of the client: [Splitted] with a client's own implementation of [Split].  No proofs. *)
From stdpp Require Import base gmap list.
From Verif Require Import Spec ClientSpec Machine NodeModel BfsModel.

Section model.
Context {A I : Type}.
(** bfs.rs:147-153 [Split]: an item is split into its data, the items its iterator yields, and a number of descendants; [slen] is what [ExactSizeIterator::len] of that
    iterator says.  (Simplification: the client's [split], [next] and [len] have no effects of their own.) *)
Record source : Type := Source { sdata : I -> A; skids : I -> list I; slen : I -> nat; sdesc : I -> nat }.
Context (S : source).

(** bfs.rs:174-195 [Iterator for Splitted] on a queue of iterators *)
Fixpoint gsp_next (q : list (list I)) : option (A * nat * nat) * list (list I) :=
  match q with
  | [] => (None, [])
  | [] :: q' => gsp_next q'
  | (i :: l) :: q' => (Some (sdata S i, slen S i, sdesc S i), (l :: q') ++ [skids S i])
  end.
(** bfs.rs:161-170 [From<Treelike> for Splitted], 19-28 [BfsTree::from], 63-72 [BfsForest::from] *)
Definition gsp_from (l : list I) : list (list I) := [l].

(** [n] calls of [next] *)
Fixpoint calls (n : nat) (q : list (list I)) : list (option (A * nat * nat)) * list (list I) :=
  match n with
  | 0 => ([], q)
  | Datatypes.S n' => let r := gsp_next q in let rs := calls n' r.2 in (r.1 :: rs.1, rs.2)
  end.

(** [Tree::from(BfsTree::from(l, size))], [Forest::from(BfsForest::from(l, size))] (bfs_impls.rs:271-306, 320-355) *)
Definition tree_from_source (l : list I) : M A ptr := tree_from_bfs (fun q => ret (gsp_next q)) (gsp_from l).
Definition forest_from_source (l : list I) (dg ds : nat) : M A ptr := forest_from_bfs (fun q => ret (gsp_next q)) (gsp_from l) dg ds.
End model.
Arguments source : clear implicits.
