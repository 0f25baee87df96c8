(** RcClonePanicModel.v — [deep_clone] of a shared node where [T::clone] may panic.  No proofs. *)
From stdpp Require Import base gmap list.
From Verif Require Import Spec ClientSpec RcSpec PanicSpec Machine NodeModel BfsModel ClientModel PanicModel RcModel.

Section model.
Context {A : Type}.
(** rc.rs:508 [RcNode::deep_clone]: [self.node_borrow().deep_clone()], with bfs_impls.rs:21-31 [Node::deep_clone].  [f hist a]: what [T::clone] gives for [a] after
    it was asked to clone the values [hist]; [None]: it panics.  [inr]: the panic leaves the call; unwinding drops the breadth-first iterator, which holds references
    only, and the [Ref] of [node_borrow]: no borrow is left. *)
Definition rc_pdeep_clone (B : borrows) (f : list A -> A -> option A) (r : rnode) : M A (ptr + list citer) :=
  node_borrow B r ;; let! b := bfs (raddr r) in ptree_from_bfs (pmap_next (fun _ => ret tt) f sp_next) (b.1, []).
(** the client: [catch_unwind(|| { let x = h.deep_clone(); })]; as [SDeepClone] of RcModel.v *)
Definition rp_deep_clone (c : rst A) (f : list A -> A -> option A) (h x : nat) : rres (pout A) :=
  match r_h c !! h, r_env c !! x with
  | Some r, None =>
    match rc_pdeep_clone (r_b c) f r (r_mem c) with
    | Ok (inl q) s => RDone (PRet RUnit) (set_renv (set_mem c s) (<[x := HT q]> (r_env c)))
    | Ok (inr _) s => RDone PPanic (set_mem c s)
    | Err e => RFails e
    end
  | _, _ => RDone (PRet RBad) c
  end.
End model.
