(** TupleSpec.v — what a nested tuple denotes; which shapes from_tuple gets right.  No proofs. *)
From stdpp Require Import base list.
From Verif Require Import Spec TupleModel.

Section spec.
Context {A : Type}.

(** the first component is the data, the others are the children; a bare value is a leaf *)
Fixpoint denote (t : tuple A) : tree A :=
  match t with Val a => Tr a [] | Tup a ts => Tr a (map denote ts) end.

(** in every node the last child has no children *)
Inductive flat_end : tree A -> Prop :=
  | FlatEnd a ts : Forall flat_end ts -> (forall k, last ts = Some k -> kids k = []) -> flat_end (Tr a ts).

(** a node whose last child has children is only found on the path root - last child - last child ... *)
Inductive supported : tree A -> Prop :=
  | SupLeaf a : supported (Tr a [])
  | SupNode a ts k : Forall flat_end ts -> supported k -> supported (Tr a (ts ++ [k])).
Inductive supported_f : list (tree A) -> Prop :=
  | SupNil : supported_f []
  | SupSnoc ts k : Forall flat_end ts -> supported k -> supported_f (ts ++ [k]).

(** the calls of the visitor for a tree: [Branch], the children, [Frame]; [Leaf] for a leaf.  Sizes: number of children,
    number of nodes below *)
Fixpoint visits_pre (x : tree A) : list (tvisit A) :=
  match x with
  | Tr a [] => [Leaf a]
  | Tr a ts => Branch a :: flat_map visits_pre ts ++ [Frame]
  end.
Fixpoint visits_pre_sized (x : tree A) : list (tvisit A * (nat * nat)) :=
  match x with
  | Tr a [] => [(Leaf a, (0, 0))]
  | Tr a ts => (Branch a, (length ts, nodes_f ts)) :: flat_map visits_pre_sized ts ++ [(Frame, (length ts, nodes_f ts))]
  end.
(** [Frame], the children, [Branch]; [Leaf] for a leaf *)
Fixpoint visits_post (x : tree A) : list (tvisit A) :=
  match x with
  | Tr a [] => [Leaf a]
  | Tr a ts => Frame :: flat_map visits_post ts ++ [Branch a]
  end.
End spec.
