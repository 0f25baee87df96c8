(** CmpModel.v — macros.rs: comparison, hashing and printing of nodes, trees and forests.  No proofs.
    The operations of the data type ([PartialEq], [PartialOrd], [Ord], [Hash], [Display] of [T]) are parameters.
    [Tree] delegates to its root node (tree.rs:251-253), [Forest] to its iterator over the top-level nodes (forest.rs:290-292). *)
From Coq Require Import Ascii String.
From stdpp Require Import base gmap list.
From Verif Require Import Machine NodeModel.

Section model.
Context {A : Type}.
Implicit Types (p q : ptr) (a b : citer) (f g : nat).

(** ** equality *)
Section eq.
Context (eqA neA : A -> A -> bool).

(** [Iterator::eq] of the standard library: both iterators are advanced in step, the first difference decides *)
Fixpoint iter_eq (eqn : ptr -> ptr -> M A bool) g a b : M A bool :=
  match g with
  | 0 => fail EFuel
  | S g' =>
    let! r := ci_next a in
    let! r' := ci_next b in
    match r.1, r'.1 with
    | None, None => ret true
    | Some x, Some y => let! e := eqn x y in if e then iter_eq eqn g' r.2 r'.2 else ret false
    | _, _ => ret false
    end
  end.

(** macros.rs:129 [Node::eq]; [g] bounds the length, [f] the depth of the recursion *)
Fixpoint node_eq_ g f p q : M A bool :=
  match f with
  | 0 => fail EFuel
  | S f' =>
    let! x := data p in
    let! y := data q in
    if eqA x y then
      let! a := iter p in let! b := iter q in iter_eq (node_eq_ g f') g a b
    else ret false
  end.
Definition node_eq p q : M A bool := let! f := fuel in node_eq_ f f p q.
(** macros.rs:130 [Node::ne]; [Iterator::ne] of the standard library is the negation of [Iterator::eq] *)
Definition node_ne p q : M A bool :=
  let! x := data p in
  let! y := data q in
  if neA x y then ret true
  else let! f := fuel in let! a := iter p in let! b := iter q in let! e := iter_eq (node_eq_ f f) f a b in ret (negb e).
(** macros.rs:53-54 for [Forest]: [self.iter().eq(other.iter())], [self.iter().ne(other.iter())] *)
Definition forest_eq p q : M A bool :=
  let! f := fuel in let! a := iter p in let! b := iter q in iter_eq (node_eq_ f f) f a b.
Definition forest_ne p q : M A bool := let! e := forest_eq p q in ret (negb e).
End eq.

(** ** order *)
(** [Iterator::partial_cmp] of the standard library *)
Fixpoint iter_pcmp (cmpn : ptr -> ptr -> M A (option comparison)) g a b : M A (option comparison) :=
  match g with
  | 0 => fail EFuel
  | S g' =>
    let! r := ci_next a in
    let! r' := ci_next b in
    match r.1, r'.1 with
    | None, None => ret (Some Eq)
    | None, Some _ => ret (Some Lt)
    | Some _, None => ret (Some Gt)
    | Some x, Some y =>
      let! o := cmpn x y in
      match o with Some Eq => iter_pcmp cmpn g' r.2 r'.2 | _ => ret o end
    end
  end.
(** macros.rs:136-145 [Node::partial_cmp] *)
Fixpoint node_pcmp_ (pcmpA : A -> A -> option comparison) g f p q : M A (option comparison) :=
  match f with
  | 0 => fail EFuel
  | S f' =>
    let! x := data p in
    let! y := data q in
    match pcmpA x y with
    | None => ret None
    | Some Lt => ret (Some Lt)
    | Some Gt => ret (Some Gt)
    | Some Eq => let! a := iter p in let! b := iter q in iter_pcmp (node_pcmp_ pcmpA g f') g a b
    end
  end.
Definition node_pcmp pcmpA p q : M A (option comparison) := let! f := fuel in node_pcmp_ pcmpA f f p q.
(** macros.rs:60 for [Forest] *)
Definition forest_pcmp pcmpA p q : M A (option comparison) :=
  let! f := fuel in let! a := iter p in let! b := iter q in iter_pcmp (node_pcmp_ pcmpA f f) f a b.

(** [Iterator::cmp] of the standard library *)
Fixpoint iter_cmp (cmpn : ptr -> ptr -> M A comparison) g a b : M A comparison :=
  match g with
  | 0 => fail EFuel
  | S g' =>
    let! r := ci_next a in
    let! r' := ci_next b in
    match r.1, r'.1 with
    | None, None => ret Eq
    | None, Some _ => ret Lt
    | Some _, None => ret Gt
    | Some x, Some y =>
      let! o := cmpn x y in
      match o with Eq => iter_cmp cmpn g' r.2 r'.2 | _ => ret o end
    end
  end.
(** macros.rs:149-155 [Node::cmp] *)
Fixpoint node_cmp_ (cmpA : A -> A -> comparison) g f p q : M A comparison :=
  match f with
  | 0 => fail EFuel
  | S f' =>
    let! x := data p in
    let! y := data q in
    match cmpA x y with
    | Lt => ret Lt
    | Gt => ret Gt
    | Eq => let! a := iter p in let! b := iter q in iter_cmp (node_cmp_ cmpA g f') g a b
    end
  end.
Definition node_cmp cmpA p q : M A comparison := let! f := fuel in node_cmp_ cmpA f f p q.
(** macros.rs:64 for [Forest] *)
Definition forest_cmp cmpA p q : M A comparison :=
  let! f := fuel in let! a := iter p in let! b := iter q in iter_cmp (node_cmp_ cmpA f f) f a b.

(** ** hashing: what is written to the [Hasher], given what [T::hash] writes *)
Section hash.
Context {B : Type} (hashA : A -> list B).
(** [for child in iter { child.hash(state) }] *)
Fixpoint iter_hash (hashn : ptr -> M A (list B)) g a : M A (list B) :=
  match g with
  | 0 => fail EFuel
  | S g' =>
    let! r := ci_next a in
    match r.1 with
    | None => ret []
    | Some x => let! l := hashn x in let! l' := iter_hash hashn g' r.2 in ret (l ++ l')%list
    end
  end.
(** macros.rs:163-168 [Node::hash] *)
Fixpoint node_hash_ g f p : M A (list B) :=
  match f with
  | 0 => fail EFuel
  | S f' => let! x := data p in let! a := iter p in let! l := iter_hash (node_hash_ g f') g a in ret (hashA x ++ l)%list
  end.
Definition node_hash p : M A (list B) := let! f := fuel in node_hash_ f f p.
(** macros.rs:82-86 [Forest::hash] *)
Definition forest_hash p : M A (list B) := let! f := fuel in let! a := iter p in iter_hash (node_hash_ f f) f a.
End hash.

(** ** printing: the characters written, given what [T]'s [Display] writes *)
Section fmt.
Context (show : A -> string).
Local Open Scope string_scope.
(** [for child in iter { write!(f, "{} ", child) }] *)
Fixpoint iter_fmt (fmtn : ptr -> M A string) g a : M A string :=
  match g with
  | 0 => fail EFuel
  | S g' =>
    let! r := ci_next a in
    match r.1 with
    | None => ret ""
    | Some x => let! w := fmtn x in let! w' := iter_fmt fmtn g' r.2 in ret (w ++ " " ++ w')
    end
  end.
(** macros.rs:114-127 [Display for Node] *)
Fixpoint node_fmt_ g f p : M A string :=
  match f with
  | 0 => fail EFuel
  | S f' =>
    let! e := has_no_child p in
    if e then let! x := data p in ret (show x)
    else let! x := data p in let! a := iter p in let! w := iter_fmt (node_fmt_ g f') g a in ret (show x ++ "( " ++ w ++ ")")
  end.
Definition node_fmt p : M A string := let! f := fuel in node_fmt_ f f p.
(** macros.rs:34-46 [Display for Forest] *)
Definition forest_fmt p : M A string :=
  let! e := has_no_child p in
  if e then ret "()"
  else let! f := fuel in let! a := iter p in let! w := iter_fmt (node_fmt_ f f) f a in ret ("( " ++ w ++ ")").
End fmt.

End model.
