(** MisuseModel.v — two things safe client code can do besides calling the API.  No proofs. *)
From stdpp Require Import base gmap list.
From Verif Require Import Machine NodeModel ClientModel.

Section model.
Context {A : Type}.
Implicit Types (p q : ptr).

(** [std::mem::swap(&mut *a, &mut *b)] on two nodes reached as [Pin<&mut Node<T>>] (tree.rs [root_mut], node.rs:333-338
    [iter_mut]): node.rs:92-102 [Node] has no [PhantomPinned], so it is [Unpin] whenever [T] is, and [Pin] gives out
    [&mut Node<T>].  The two records are exchanged as a whole. *)
Definition swap_nodes p q : M A unit :=
  let! n := get p in let! m := get q in put p m ;; put q n.

(** node.rs:263 [detach(&mut self)]: the [Tree] returned does not borrow from [self], so the reference may be used afterwards,
    also after the tree is dropped: [let t = c.detach(); drop(t); c.data()] *)
Definition detach_drop_data p : M A A :=
  let! t := detach p in drop_tree t ;; data p.
(** the same without dropping the tree before *)
Definition detach_data p : M A (ptr * A) :=
  let! t := detach p in let! a := data p in ret (t, a).
End model.
