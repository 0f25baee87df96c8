(** Spec.v — the specification side.
    Ordinary immutable rose trees and simple recursive functions on them.
    Nothing in this file mentions pointers, cached sizes, memory or any helper of the model. *)
From stdpp Require Import base list numbers.

(** A tree: a value and an ordered list of subtrees.  A forest is a [list (tree A)]. *)
Inductive tree (A : Type) : Type := Tr (a : A) (ts : list (tree A)).
Arguments Tr {A} a ts.

Section spec.
Context {A : Type}.
Implicit Types (t : tree A) (ts : list (tree A)) (a : A).

Definition root_of t : A := let 'Tr a _ := t in a.
Definition kids t : list (tree A) := let 'Tr _ ts := t in ts.

(** number of nodes *)
Fixpoint nodes t : nat := let 'Tr _ ts := t in S (list_sum (map nodes ts)).
Definition nodes_f ts : nat := list_sum (map nodes ts).

(** values in the order: all subtrees left to right, then the root (drop order) *)
Fixpoint postorder t : list A := let 'Tr a ts := t in flat_map postorder ts ++ [a].
Definition postorder_f ts : list A := flat_map postorder ts.

(** values root first *)
Fixpoint preorder t : list A := let 'Tr a ts := t in a :: flat_map preorder ts.

(** the subtree reached by a path of child indices *)
Fixpoint subtree t (path : list nat) : option (tree A) :=
  match path with
  | [] => Some t
  | i :: path' => match kids t !! i with Some k => subtree k path' | None => None end
  end.

(** apply [f] to the subtree reached by a path *)
Fixpoint update_at (path : list nat) (f : tree A -> tree A) t : tree A :=
  match path with
  | [] => f t
  | i :: path' => let 'Tr a ts := t in Tr a (alter (update_at path' f) i ts)
  end.

(** nodes of level [n] (distance [n] from the root), left to right, as subtrees *)
Fixpoint level (n : nat) t : list (tree A) :=
  match n with
  | 0 => [t]
  | S n' => flat_map (level n') (kids t)
  end.

(** number of levels *)
Fixpoint height t : nat := let 'Tr _ ts := t in S (list_max (map height ts)).
Definition height_f ts : nat := list_max (map height ts).

(** level order: level 0, level 1, ... *)
Definition level_order t : list (tree A) := flat_map (fun n => level n t) (seq 0 (height t)).
Definition level_order_f ts : list (tree A) :=
  flat_map (fun n => flat_map (level n) ts) (seq 0 (height_f ts)).

(** the paths of the nodes of level [n], left to right; all paths in level order *)
Fixpoint level_paths (n : nat) t : list (list nat) :=
  match n with
  | 0 => [[]]
  | S n' => concat (imap (fun i k => cons i <$> level_paths n' k) (kids t))
  end.
Definition bfs_paths t : list (list nat) := flat_map (fun n => level_paths n t) (seq 0 (height t)).
Definition bfs_paths_f ts : list (list nat) :=
  flat_map (fun n => concat (imap (fun i k => cons i <$> level_paths n k) ts)) (seq 0 (height_f ts)).

(** apply [f path] to the data of the node at [path], for every node *)
Fixpoint pmap (f : list nat -> A -> A) t : tree A :=
  let 'Tr a ts := t in
  Tr (f [] a) ((fix go (i : nat) (ts : list (tree A)) : list (tree A) :=
                  match ts with
                  | [] => []
                  | k :: ts' => pmap (fun path => f (i :: path)) k :: go (S i) ts'
                  end) 0 ts).
Definition pmap_f (f : list nat -> A -> A) ts : list (tree A) := imap (fun i k => pmap (fun path => f (i :: path)) k) ts.

(** position of a path in a list *)
Fixpoint pos (path : list nat) (l : list (list nat)) : nat :=
  match l with [] => 0 | x :: l' => if decide (x = path) then 0 else S (pos path l') end.

(** the [n]-th node in level order gets its data changed by [g n] *)
Definition bfs_map (g : nat -> A -> A) t : tree A := pmap (fun path => g (pos path (bfs_paths t))) t.
Definition bfs_map_f (g : nat -> A -> A) ts : list (tree A) := pmap_f (fun path => g (pos path (bfs_paths_f ts))) ts.

(** the subtrees waiting after [n] steps of a breadth-first traversal which started with [q] *)
Fixpoint bfs_rest (n : nat) (q : list (tree A)) : list (tree A) :=
  match n, q with
  | 0, _ => q
  | _, [] => []
  | S n', t :: q' => bfs_rest n' (q' ++ kids t)
  end.

(** what a breadth-first visit of a node reports: data, number of children, number of descendants *)
Definition visit_of t : A * nat * nat := (root_of t, length (kids t), nodes_f (kids t)).

End spec.

Fixpoint tmap {A B} (f : A -> B) (t : tree A) : tree B :=
  let 'Tr a ts := t in Tr (f a) (map (tmap f) ts).

(** trees of the same shape *)
Inductive same_shape {B C} : tree B -> tree C -> Prop :=
  | SS (a : B) (b : C) (ts : list (tree B)) (us : list (tree C)) : Forall2 same_shape ts us -> same_shape (Tr a ts) (Tr b us).

(** induction principle for the nested type *)
Lemma tree_ind' {A} (P : tree A -> Prop)
  (H : forall a ts, Forall P ts -> P (Tr a ts)) : forall t, P t.
Proof.
  fix IH 1. intros [a ts]. apply H.
  induction ts as [|t ts IHts]; constructor; [apply IH | apply IHts].
Qed.
