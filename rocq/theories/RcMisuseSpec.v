(** RcMisuseSpec.v — notions used in the statements of PropRc5.  No proofs. *)
From stdpp Require Import base gmap list.
From Verif Require Import Spec ClientSpec RcSpec Machine NodeModel ClientModel RcModel RcAllowed RcClient.

(** [l] repeated [n] times *)
Definition times {X} (n : nat) (l : list X) : list X := mjoin (replicate n l).

(** the handle an operation uses *)
Definition uses {A} (o : rop A) : option nat :=
  match o with SClone h _ | SDrop h => Some h | _ => match changes_via o with Some h => Some h | None => looks_via o end end.
(** the program type-checks; in particular no guard borrowed from a variable is alive when it is dropped *)
Definition well_typed {A} (c : rst A) (o : rop A) : Prop := typed c o /\ match o with SClone _ h' => r_h c !! h' = None | SDrop h => h ∉ ((map_to_list (r_g c)).*2).*1 | _ => True end.

(** In the specification, the operations [os] change nothing, however often they are repeated.  In the code, some number of repetitions leaves the variables as they
    are, but then every use of the handle [h] accesses memory that has been released. *)
Definition wears_out {A} (c : rst A) (σ : rss A) (h : nat) (os : list (rop A)) : Prop :=
  (forall n, exists rs, rsrun σ (times n os) = Some (rs, σ)) /\
  exists n rs c', 0 < n /\ rrun c (times n os) = RDone rs c' /\ r_h c' = r_h c /\ r_env c' = r_env c /\ r_w c' = r_w c /\ r_g c' = r_g c /\ r_it c' = r_it c /\
    forall o, uses o = Some h -> well_typed c o -> rstep c' o = RFails EUB.
