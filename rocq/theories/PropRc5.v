(** PropRc5.v — C32, C33, C35: what happens in the histories left out in PropRc, for all states.
    [reached] (RcClient): the state after a history without the operations that go wrong; [wears_out], [times], [uses], [well_typed]: RcMisuseSpec. *)
From stdpp Require Import base gmap list.
From Verif Require Import Spec ClientSpec RcSpec Machine NodeModel ClientModel RcModel RcAllowed RcClient RcMisuseSpec RcProps2 RcDemo RcMisuse.

(** C32.  For every node in a buffer: [let b = a.clone(); drop(b)], repeated often enough, makes [a] unusable. *)
Theorem C32_every_clone_refuted {A : Type} (c : rst A) (σ : rss A) (h h' v i : nat) :
  reached c σ -> r_h c !! h = Some (RPile v i) -> rs_h σ !! h' = None -> wears_out c σ h [SClone h h'; SDrop h'].
Proof. exact (clone_wears_out c σ h h' v i). Qed.
Print Assumptions C32_every_clone_refuted.
(** a copy of a tree with two children: the first three repetitions do not show, after the fourth the handle cannot be used *)
Example C32_every_ex : reached rdemo_c rdemo_s /\ r_h rdemo_c !! 4 = Some (RPile 5 0) /\ rs_h rdemo_s !! 9 = None /\ rs_w rdemo_s !! 5 = None /\ rs_h rdemo_s !! 4 = Some 5 /\
  match rrun rdemo_c (times 3 [SClone 4 9; SDrop 9; SData 4]) with RDone rs _ => rs = [RUnit; RUnit; RVal 1; RUnit; RUnit; RVal 1; RUnit; RUnit; RVal 1] | RFails _ => False end /\
  rrun rdemo_c (times 4 [SClone 4 9; SDrop 9; SData 4]) = RFails EUB.
Proof. split; [exact rdemo_reached|]. vm_compute. auto 10. Qed.

(** C33.  So does [let w = a.downgrade(); drop(w)] ... *)
Theorem C33_every_weak_refuted {A : Type} (c : rst A) (σ : rss A) (h w v i : nat) :
  reached c σ -> r_h c !! h = Some (RPile v i) -> rs_w σ !! w = None -> wears_out c σ h [SDown h w; SDropWeak w].
Proof. exact (weak_wears_out c σ h w v i). Qed.
Print Assumptions C33_every_weak_refuted.
(** ... and, after [let w = a.downgrade()], [drop(w.upgrade())] *)
Theorem C33_every_upgrade_refuted {A : Type} (c : rst A) (σ : rss A) (h h' w v i j : nat) :
  reached c σ -> r_h c !! h = Some (RPile v i) -> rs_h σ !! h = Some j -> rs_w σ !! w = None -> rs_h σ !! h' = None ->
  exists c1 σ1, rstep c (SDown h w) = RDone RUnit c1 /\ rsstep σ (SDown h w) = Some (RUnit, σ1) /\ wears_out c1 σ1 h [SUp w h'; SDrop h'].
Proof. exact (up_wears_out' c σ h h' w v i j). Qed.
Print Assumptions C33_every_upgrade_refuted.

(** C35.  [next] of an [IterRc] with a node to yield works if the node is alive and accesses released memory if not. *)
Theorem C35_next_exact_refuted {A : Type} (c : rst A) (σ : rss A) (it h' j n : nat) :
  reached c σ -> rs_it σ !! it = Some (Some j, S n) -> rs_h σ !! h' = None ->
  (j ∈ lids (rs_sh σ) -> exists c', rstep c (SNext it h') = RDone (RBool true) c') /\ (j ∉ lids (rs_sh σ) -> rstep c (SNext it h') = RFails EUB).
Proof. exact (next_exact c σ it h' j n). Qed.
Print Assumptions C35_next_exact_refuted.
(** the iterator over the children 1 and 4 of node 0 has yielded 1; then node 0 is released, and node 4 with it *)
Definition iter_ops : list (rop nat) := shared_ops2 ++ [SNext 0 7; SDrop 0].
Example C35_next_ex : reached (after_c iter_ops) (after_s iter_ops) /\ rs_it (after_s iter_ops) !! 0 = Some (Some 4, 1) /\ rs_h (after_s iter_ops) !! 8 = None /\
  bool_decide (4 ∈ lids (rs_sh (after_s iter_ops))) = false /\
  rs_it rdemo_s !! 0 = Some (Some 1, 2) /\ bool_decide (1 ∈ lids (rs_sh rdemo_s)) = true.
Proof. split; [apply after_reached; vm_compute; eauto|]. vm_compute. auto 10. Qed.
