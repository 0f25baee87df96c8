(** IterModel.v — iterators over children, stepped by hand.  No proofs. *)
From stdpp Require Import base gmap list.
From Verif Require Import Machine NodeModel.

Section model.
Context {A : Type}.

(** [size_hint()] and [next()], [n] times (iter.rs:67-79, 105-112 [Iter], 139-148 [IterMut]) *)
Fixpoint iter_trace (n : nat) (it : citer) : M A (list (nat * option ptr)) :=
  match n with
  | 0 => ret []
  | S n' => let! r := ci_next it in let! l := iter_trace n' r.2 in ret ((ci_size_hint it, r.1) :: l)
  end.
(** [let mut it = node.iter(); ...] (node.rs:313-338; forest.rs [Forest::iter], [Forest::iter_mut] act on the forest's root node) *)
Definition iter_run (n : nat) (p : ptr) : M A (list (nat * option ptr)) := let! it := iter p in iter_trace n it.
(** [let mut it = (&node).into_iter(); ...] (into_iter.rs:51-67) *)
Definition once_run (n : nat) (p : ptr) : M A (list (nat * option ptr)) := iter_trace n (ci_once p).
End model.
