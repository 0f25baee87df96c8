(** RcExtModel.v — [Extend<Tree<T>>] for [RcNode] (src/rc.rs).  No proofs. *)
From stdpp Require Import base gmap list.
From Verif Require Import Spec ClientSpec Machine NodeModel ClientModel RcSpec RcModel.

Section ext.
Context {A : Type}.

(** rc.rs:511-517 [Extend::extend]: for each tree of the iterator, borrow the node mutably, push the tree back, release the borrow.
    Simplification: the trees [ps] are the items of an iterator that owns them (e.g. a [Vec]) and runs no code of the client. *)
Fixpoint rc_extend (B : borrows) (r : rnode) (ps : list ptr) : M A unit :=
  match ps with
  | [] => ret tt
  | p :: ps' => rc_push Back B r p ;; rc_extend B r ps'
  end.

(** the call [h.extend(vec![y1, y2, ..])]: the variables [ys] are moved into the argument *)
Definition rextend (c : rst A) (h : nat) (ys : list nat) : rres (out A) :=
  match r_h c !! h, mapM (fun y => match r_env c !! y with Some (HT p) => Some p | _ => None end) ys with
  | Some r, Some ps => call c (rc_extend (r_b c) r ps)
      (fun _ s => RDone RUnit (set_renv (set_mem c s) (foldl (fun e y => delete y e) (r_env c) ys)))
  | _, _ => RDone RBad c
  end.
End ext.
