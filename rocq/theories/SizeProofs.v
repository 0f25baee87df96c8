(** SizeProofs.v *)
From stdpp Require Import prelude.
From Coq Require Import Lia.
From Verif Require Import SizeModel.

Lemma size_laws :
  (forall a b, sz_degree (size_add a b) = sz_degree a + sz_degree b /\ sz_descendants (size_add a b) = sz_descendants a + sz_descendants b) /\
  (forall a b, size_sub (size_add a b) b = Some a) /\
  (forall a b c, size_add a (size_add b c) = size_add (size_add a b) c) /\
  (forall a b, size_add a b = size_add b a) /\
  (forall a, size_add a size_default = a) /\
  (forall a b, size_add_assign a b = size_add a b) /\
  (forall a b, size_sub_assign a b = size_sub a b) /\
  (forall a b, size_sub a b = None <-> (sz_degree a < sz_degree b \/ sz_descendants a < sz_descendants b)) /\
  (forall a b d, size_sub a b = Some d -> size_add d b = a).
Proof.
  unfold size_add, size_sub, size_add_assign, usub. split_and!; try done.
  - intros [a1 a2] [b1 b2]; simpl. destruct (Nat.leb_spec b1 (a1 + b1)); [|lia]. destruct (Nat.leb_spec b2 (a2 + b2)); [|lia].
    do 2 f_equal; lia.
  - intros [] [] []; simpl; f_equal; lia.
  - intros [] []; simpl; f_equal; lia.
  - intros []; simpl; f_equal; lia.
  - intros [a1 a2] [b1 b2]; simpl. destruct (Nat.leb_spec b1 a1), (Nat.leb_spec b2 a2); (split; [first [done | intros _; lia]|intros; first [done | exfalso; lia]]).
  - intros [a1 a2] [b1 b2] d; simpl. destruct (Nat.leb_spec b1 a1), (Nat.leb_spec b2 a2); try done. intros [= <-]. simpl. f_equal; lia.
Qed.
