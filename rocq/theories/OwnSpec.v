(** OwnSpec.v — values that own trees and forests: what is dropped and in which order.  No proofs. *)
From stdpp Require Import base gmap list.
From Verif Require Import Spec ClientSpec MoveSpec.

Section spec.
Context {A : Type} (own : A -> list nat).

(** every variable has one owner: the client or one value; [h] belongs to the client *)
Definition sole_owner (env : gmap nat (item A)) (h : nat) : Prop :=
  NoDup (h :: flat_map own (values env)) /\ forall g, g ∈ flat_map own (values env) -> is_Some (env !! g).

Definition trees_of (it : item A) : list (tree A) := match it with ITree t => [t] | IForest ts => ts end.
(** The values dropped, in order: for a node first those of the children, then its own value, then those of the trees its value owns. *)
Inductive drops_tree (env : gmap nat (item A)) : tree A -> list A -> Prop :=
  | drops_node a ts l l' : drops_trees env ts l -> drops_vars env (own a) l' -> drops_tree env (Tr a ts) (l ++ a :: l')
with drops_trees (env : gmap nat (item A)) : list (tree A) -> list A -> Prop :=
  | drops_no_tree : drops_trees env [] []
  | drops_next_tree t ts l l' : drops_tree env t l -> drops_trees env ts l' -> drops_trees env (t :: ts) (l ++ l')
with drops_vars (env : gmap nat (item A)) : list nat -> list A -> Prop :=
  | drops_no_var : drops_vars env [] []
  | drops_next_var g gs it l l' : env !! g = Some it -> drops_trees env (trees_of it) l -> drops_vars env gs l' -> drops_vars env (g :: gs) (l ++ l').
End spec.
