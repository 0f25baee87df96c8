(** RcAllowed.v — the histories of the reference-counting client for which the handles keep nodes alive (see PropRc for the
    others).  No proofs. *)
From stdpp Require Import base gmap list.
From Verif Require Import Spec ClientSpec RcSpec Machine NodeModel ClientModel RcModel.

(** [clone] and [downgrade] are not called on a node stored in a buffer (rc.rs:110-123, 455-460 do not count the handle for the
    buffer), and an [IterRc] is not advanced when the node it would yield next has been released (iter_rc.rs:21-23: it does not own it).
    [into_tree] is an unsafe function: the caller has to know that no other handle, weak reference or iterator is left for the nodes of the
    tree.  The nodes stored in a buffer are those made by [deep_clone], from breadth-first visits or from tuples. *)
Definition op_allowed {A} (c : rst A) (σ : rss A) (o : rop A) : Prop :=
  match o with
  | SClone h _ | SDown h _ => match r_h c !! h with Some (RPile _ _) => False | _ => True end
  | SNext it _ => match rs_it σ !! it with Some (Some j, S _) => j ∈ lids (rs_sh σ) | _ => True end
  | SIntoTree h _ => forall i t, rs_h σ !! h = Some i -> lfind i (rs_sh σ) = Some t ->
      (forall h' j, h' <> h -> rs_h σ !! h' = Some j -> j ∉ lid <$> lsubs t) /\
      (forall w j, rs_w σ !! w = Some j -> j ∉ lid <$> lsubs t) /\
      (forall it j n, rs_it σ !! it = Some (Some j, n) -> j ∉ lid <$> lsubs t)
  | _ => True
  end.
(** all operations of the history are allowed when they are called *)
Fixpoint allowed {A} (c : rst A) (σ : rss A) (os : list (rop A)) : Prop :=
  match os with
  | [] => True
  | o :: os' => op_allowed c σ o /\
    match rstep c o, rsstep σ o with RDone _ c', Some (_, σ') => allowed c' σ' os' | _, _ => True end
  end.
