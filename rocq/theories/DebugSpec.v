(** DebugSpec.v — what [Debug] prints: the value and the address of every node.  No proofs. *)
From Coq Require Import Ascii String.
From stdpp Require Import base gmap list.
From Verif Require Import Spec ClientSpec Machine NodeModel ClientModel.

Section spec.
Context {A : Type}.
Local Open Scope string_scope.

(** a tree whose nodes are labelled with values and addresses: each value is followed by [@] and the address, then the children in parentheses, if there are any *)
Fixpoint debug (show : A -> string) (showp : ptr -> string) (t : tree (A * ptr)) : string :=
  match t with Tr (a, p) ts =>
    show a ++ "@" ++ showp p ++ " " ++ match ts with [] => "" | _ => "( " ++ fold_right (fun k w => debug show showp k ++ w) "" ts ++ ")" end end.
Definition debug_f (show : A -> string) (showp : ptr -> string) (ts : list (tree (A * ptr))) : string :=
  match ts with [] => "()" | _ => "( " ++ fold_right (fun k w => debug show showp k ++ " " ++ w) "" ts ++ ")" end.

(** the tree [y] is the tree [x], at [p], with the address of each node beside its value; different nodes have different addresses *)
Definition with_addresses (c : cst A) (p : ptr) (x : tree A) (y : tree (A * ptr)) : Prop :=
  tmap fst y = x /\ NoDup (snd <$> preorder y) /\
  forall path z, subtree y path = Some z -> resolve p path (c_mem c) = Ok (Some (root_of z).2) (c_mem c).
(** the same for a forest *)
Definition with_addresses_f (c : cst A) (p : ptr) (xs : list (tree A)) (ys : list (tree (A * ptr))) : Prop :=
  (tmap fst <$> ys) = xs /\ NoDup (snd <$> flat_map preorder ys) /\
  forall i path y z, ys !! i = Some y -> subtree y path = Some z -> resolve p (i :: path) (c_mem c) = Ok (Some (root_of z).2) (c_mem c).
End spec.
