(** Reach.v — vocabulary for properties of nodes a client can get at.  No proofs. *)
From stdpp Require Import base gmap list.
From Verif Require Import Spec ClientSpec Machine NodeModel ClientModel.

Section reach.
Context {A : Type}.

(** [p] is the address of a node which a client reaches from one of its variables, and reading it back gives the tree [x] *)
Definition node_is (c : cst A) (env : gmap nat (item A)) (p : ptr) (x : tree A) : Prop :=
  exists h hd it path, env !! h = Some it /\ c_env c !! h = Some hd /\
    resolve (addr hd) path (c_mem c) = Ok (Some p) (c_mem c) /\ node_at it path = Some x.

(** [p] is the address held by a variable of type [Forest] with the top-level trees [xs] *)
Definition forest_is (c : cst A) (env : gmap nat (item A)) (p : ptr) (xs : list (tree A)) : Prop :=
  exists h, env !! h = Some (IForest xs) /\ c_env c !! h = Some (HF p).

(** the call [m] on the client's memory returns [r] and changes nothing *)
Definition returns {X : Type} (c : cst A) (m : M A X) (r : X) : Prop := m (c_mem c) = Ok r (c_mem c).
(** the returned value alone, for examples *)
Definition result {X : Type} (c : cst A) (m : M A X) : option X := match m (c_mem c) with Ok r _ => Some r | Err _ => None end.
End reach.
