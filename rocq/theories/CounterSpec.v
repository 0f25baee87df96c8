(** CounterSpec.v — the references to a node of a shared tree.  No proofs. *)
From stdpp Require Import base gmap list.
From Verif Require Import Spec ClientSpec RcSpec Machine NodeModel ClientModel RcModel.

Section spec.
Context {A : Type}.
Implicit Types (c : rst A) (p : ptr).

(** how many [RcNode]s of the client are for the node at [p] *)
Definition refs c p : nat := length (filter (fun r => raddr r = p) (map_to_list (r_h c)).*2).
(** the node at [p] has a parent, or it is the root of a [Tree] or [Forest] of the client *)
Definition owned c p : Prop := (exists n q, m_heap (r_mem c) !! p = Some n /\ n_up n = Some q) \/ exists x hd, r_env c !! x = Some hd /\ addr hd = p.
End spec.
