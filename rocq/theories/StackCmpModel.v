(** StackCmpModel.v — comparing nodes ([==], [partial_cmp], [cmp]) with a bound on the depth of the call stack, and how much of it is needed.  No proofs. *)
From stdpp Require Import base gmap list.
From Verif Require Import Spec ClientSpec Machine NodeModel ClientModel CmpModel StackModel.

Section spec.
Context {A : Type} (same : A -> A -> bool).

(** the trees have the same shape and pairwise the same data *)
Fixpoint tree_same (x y : tree A) : bool :=
  match x, y with
  | Tr a xs, Tr b ys =>
    same a b && (fix go (xs ys : list (tree A)) : bool := match xs, ys with [], [] => true | x :: xs, y :: ys => tree_same x y && go xs ys | _, _ => false end) xs ys
  end.
(** how many calls nest when two nodes are compared: one; if their data are the same, also the calls for the children, pair by pair, up to and including the
    first pair that differs *)
Fixpoint depth_needed (x y : tree A) : nat :=
  match x, y with
  | Tr a xs, Tr b ys =>
    S (if same a b then
         (fix go (xs ys : list (tree A)) : nat :=
            match xs, ys with x :: xs, y :: ys => max (depth_needed x y) (if tree_same x y then go xs ys else 0) | _, _ => 0 end) xs ys
       else 0)
  end.
End spec.

Section model.
Context {A : Type}.
Implicit Types (p q : ptr).

(** macros.rs:136-145 [Node::partial_cmp] with room for [D] calls of it on the stack; [iter_pcmp] (CmpModel): [Iterator::partial_cmp] *)
Fixpoint pcmp_stack (pcmpA : A -> A -> option comparison) (D : nat) p q : M A (option comparison) :=
  match D with
  | 0 => fail EStack
  | S D' =>
    let! x := data p in
    let! y := data q in
    match pcmpA x y with
    | None => ret None
    | Some Lt => ret (Some Lt)
    | Some Gt => ret (Some Gt)
    | Some Eq => let! a := iter p in let! b := iter q in let! g := fuel in iter_pcmp (pcmp_stack pcmpA D') g a b
    end
  end.
(** macros.rs:149-155 [Node::cmp] *)
Fixpoint cmp_stack (cmpA : A -> A -> comparison) (D : nat) p q : M A comparison :=
  match D with
  | 0 => fail EStack
  | S D' =>
    let! x := data p in
    let! y := data q in
    match cmpA x y with
    | Lt => ret Lt
    | Gt => ret Gt
    | Eq => let! a := iter p in let! b := iter q in let! g := fuel in iter_cmp (cmp_stack cmpA D') g a b
    end
  end.
(** macros.rs:130 [Node::ne]: the data are compared with [!=], the children with [Iterator::ne] of the standard library, the negation of [Iterator::eq], and
    so with [==]; the call of [ne] itself takes one level *)
Definition ne_stack (eqA neA : A -> A -> bool) (D : nat) p q : M A bool :=
  match D with
  | 0 => fail EStack
  | S D' =>
    let! x := data p in
    let! y := data q in
    if neA x y then ret true else let! a := iter p in let! b := iter q in let! g := fuel in let! e := iter_eq (eq_stack eqA D') g a b in ret (negb e)
  end.
End model.
