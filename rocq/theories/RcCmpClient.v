(** RcCmpClient.v — notions used in the statements of PropRcCmp.  No proofs. *)
From stdpp Require Import base gmap list.
From Verif Require Import Spec ClientSpec RcSpec Machine NodeModel ClientModel RcModel.

Section client.
Context {A : Type}.

(** the client has a variable holding the handle [r], for the node [t] *)
Definition handle_for (c : rst A) (σ : rss A) (r : rnode) (t : ltree A) : Prop :=
  exists h i, r_h c !! h = Some r /\ rs_h σ !! h = Some i /\ lfind i (rs_sh σ) = Some t.
(** a [RefMut] is alive on some node of the tree [t] *)
Definition locked (σ : rss A) (t : ltree A) : Prop := exists j, j ∈ lid <$> lsubs t /\ readable σ j = false.
(** the call [m] returns [x] and has no effect *)
Definition evals {X} (c : rst A) (m : M A X) (x : X) : Prop := m (r_mem c) = Ok x (r_mem c).
Definition panics {X} (c : rst A) (m : M A X) : Prop := m (r_mem c) = Err EPanic.

End client.
