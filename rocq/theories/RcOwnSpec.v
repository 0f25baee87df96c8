(** RcOwnSpec.v — values that own handles of shared nodes.  No proofs. *)
From stdpp Require Import base gmap list.
From Verif Require Import Spec ClientSpec RcSpec Machine NodeModel ClientModel RcModel.

Section spec.
Context {A : Type} (own : A -> list nat).
Implicit Types (σ : rss A) (c : rst A).

(** the handles owned by the values of shared nodes *)
Definition owned_by (ts : list (ltree A)) : list nat := flat_map own (lval <$> lall ts).
(** every handle has one owner: the client or one value; [h] belongs to the client *)
Definition one_owner σ (h : nat) : Prop := NoDup (h :: owned_by (rs_sh σ)) /\ forall g, g ∈ owned_by (rs_sh σ) -> is_Some (rs_h σ !! g).
(** [S] contains [h] and, with all handles at or above a node, the handles owned by its value: these handles have to be dropped when [h] is *)
Definition closed σ (h : nat) (S : nat -> Prop) : Prop := S h /\
  forall t, t ∈ lall (rs_sh σ) -> (forall u g, u ∈ lall (rs_sh σ) -> rs_h σ !! g = Some (lid u) -> t ∈ lsubs u -> S g) -> forall g, g ∈ own (lval t) -> S g.
(** the same state with another list of values dropped so far *)
Definition with_log c (l : list A) : rst A := let s := r_mem c in set_mem c (Mem (m_heap s) (m_cnt s) (m_vec s) (m_fresh s) l).
End spec.
