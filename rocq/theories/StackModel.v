(** StackModel.v — the recursive functions with a bound on the depth of the call stack.  No proofs.
    [D]: how many more calls of the same function fit on the stack.  The other models have no such bound. *)
From Coq Require Import Ascii String.
From stdpp Require Import base gmap list.
From Verif Require Import Spec ClientSpec Machine NodeModel ClientModel CmpModel.

Section model.
Context {A : Type}.
Implicit Types (p q : ptr).

(** specification: the height of a variable's contents; the root node of a [Forest] counts as a level *)
Definition item_height (it : item A) : nat := match it with ITree x => height x | IForest xs => S (height_f xs) end.

(** tree.rs:246, forest.rs:279 [while let Some(_) = pop_front() {}]: the popped tree is dropped by [dropc] *)
Fixpoint drop_kids (dropc : ptr -> M A unit) (g : nat) p : M A unit :=
  match g with
  | 0 => fail EFuel
  | S g' =>
    let! o := pop_front p in
    match o with
    | Some c => dropc c ;; drop_kids dropc g' p
    | None => ret tt
    end
  end.
(** tree.rs:244-249, forest.rs:277-282 [Drop] *)
Fixpoint drop_stack (D : nat) p : M A unit :=
  match D with
  | 0 => fail EStack
  | S D' => let! g := fuel in drop_kids (drop_stack D') g p ;; drop_node p
  end.

(** macros.rs:163-168 [Node::hash] *)
Fixpoint hash_stack {B : Type} (hashA : A -> list B) (D : nat) p : M A (list B) :=
  match D with
  | 0 => fail EStack
  | S D' => let! x := data p in let! a := iter p in let! g := fuel in let! l := iter_hash (hash_stack hashA D') g a in ret (hashA x ++ l)%list
  end.

(** macros.rs:110-120 [Display for Node] *)
Fixpoint fmt_stack (show : A -> string) (D : nat) p : M A string :=
  match D with
  | 0 => fail EStack
  | S D' =>
    let! e := has_no_child p in
    if e then let! x := data p in ret (show x)
    else let! x := data p in let! a := iter p in let! g := fuel in let! w := iter_fmt (fmt_stack show D') g a in ret (show x ++ "( " ++ w ++ ")")%string
  end.

(** macros.rs:129 [Node::eq] *)
Fixpoint eq_stack (eqA : A -> A -> bool) (D : nat) p q : M A bool :=
  match D with
  | 0 => fail EStack
  | S D' =>
    let! x := data p in
    let! y := data q in
    if eqA x y then let! a := iter p in let! b := iter q in let! g := fuel in iter_eq (eq_stack eqA D') g a b else ret false
  end.
End model.
