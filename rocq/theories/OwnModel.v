(** OwnModel.v — dropping a tree or forest when the values of the nodes own trees and forests themselves ([T] has fields of type [Tree<T>] or [Forest<T>]), so that
    dropping a value drops further trees in the middle of the drop.  No proofs. *)
From stdpp Require Import base gmap list.
From Verif Require Import Spec ClientSpec Machine NodeModel ClientModel.

Section model.
(** [own a]: the variables of type [Tree] or [Forest] that are fields of the value [a], in the order they are dropped in *)
Context {A : Type} (own : A -> list nat).
Implicit Types (p : ptr) (env : gmap nat handle).

(** tree.rs:244-249, forest.rs:277-282 [Drop] (NodeModel.v [drop_loop]), heap.rs:32-46 [drop_node].  [env]: the variables that exist besides the one being dropped; the result
    is what is left of them.  The data is dropped at the end of [drop_node], and with it what it owns.
    (Simplification: the destructor of [T] itself does nothing but drop its fields.) *)
Fixpoint od_loop (f : nat) env p : M A (gmap nat handle) :=
  match f with
  | 0 => fail EFuel
  | S f' =>
    let! o := pop_front p in
    match o with
    | Some q => let! env1 := od_loop f' env q in od_loop f' env1 p
    | None => let! n := get p in drop_node p ;; od_all f' env (flat_map own (dat_vals (n_dat n)))
    end
  end
with od_all (f : nat) env (gs : list nat) : M A (gmap nat handle) :=
  match f with
  | 0 => fail EFuel
  | S f' =>
    match gs with
    | [] => ret env
    | g :: gs' =>
      match env !! g with
      | Some hd => let! env1 := od_loop f' (delete g env) (addr hd) in od_all f' env1 gs'
      | None => fail EUB (* a tree that has been dropped already *)
      end
    end
  end.
(** enough for all loops and recursion: every round takes a child from its parent or drops a variable *)
Definition od_tree env p : M A (gmap nat handle) := fun s => od_loop (2 * size (m_heap s) + 2 * size env + 2) env p s.

(** [drop(h)], as [ODrop] in ClientModel.v *)
Definition drop_owning (c : cst A) (h : nat) : cres (out A) :=
  match c_env c !! h with
  | Some hd => match od_tree (delete h (c_env c)) (addr hd) (c_mem c) with Ok env s => Done RUnit (CSt env s) | Err e => Fails e end
  | None => Done RBad c
  end.
End model.
