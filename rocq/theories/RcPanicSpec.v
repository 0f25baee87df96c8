(** RcPanicSpec.v — what a client of [RcNode]s sees when a call panics and the panic is caught.  No proofs.

    The methods of [RcNode] panic when the node is borrowed in a way that excludes the call, when a node without parent is asked to take a sibling or to detach,
    and when [into_tree] is called for a node with a parent. *)
From stdpp Require Import base gmap list.
From Verif Require Import Spec ClientSpec RcSpec PanicSpec.

Section spec.
Context {A : Type}.

(** the owned variable [y] is dropped *)
Definition drop_var (σ : rss A) (y : nat) : rss A :=
  match env_of σ !! y with
  | Some it => set_x σ (SSt (delete y (env_of σ)) (s_log (rs_x σ) ++ item_post it))
  | None => σ
  end.
(** after a call has panicked: what the caller had moved into the call is gone, all else is as before *)
Definition unwound (σ : rss A) (o : rop A) : rss A :=
  match o with
  | SPush _ _ y | SConcat _ _ y | SInsert _ _ y | SX (OInsert _ _ _ y) => drop_var σ y
  | SIntoTree h _ => set_h σ (delete h (rs_h σ))
  | _ => σ
  end.
Definition rpsstep (σ : rss A) (o : rop A) : pout A * rss A :=
  match rsstep σ o with Some (r, σ') => (PRet r, σ') | None => (PPanic, unwound σ o) end.
Fixpoint rpsrun (σ : rss A) (os : list (rop A)) : list (pout A) * rss A :=
  match os with
  | [] => ([], σ)
  | o :: os' => let '(r, σ') := rpsstep σ o in let '(rs, σ'') := rpsrun σ' os' in (r :: rs, σ'')
  end.
End spec.
