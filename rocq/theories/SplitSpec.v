(** SplitSpec.v — what breadth-first iteration over a client's own tree-like data gives.  No proofs. *)
From stdpp Require Import base gmap list.
From Verif Require Import Spec SplitModel.

Section spec.
Context {A I : Type} (S : source A I).

(** the items [k] levels below [l], from left to right; the levels above [k] *)
Fixpoint below_by (k : nat) (l : list I) : list I := match k with 0 => l | Datatypes.S k' => flat_map (skids S) (below_by k' l) end.
Definition levels (k : nat) (l : list I) : list I := flat_map (fun j => below_by j l) (seq 0 k).
(** what a visit of an item says *)
Definition shown (i : I) : A * nat * nat := (sdata S i, slen S i, sdesc S i).

(** the item looks like the tree, and what it says about lengths and sizes is right *)
Inductive looks_like : I -> tree A -> Prop :=
  | LooksLike i ts : Forall2 looks_like (skids S i) ts -> slen S i = length ts -> sdesc S i = nodes_f ts -> looks_like i (Tr (sdata S i) ts).
End spec.
