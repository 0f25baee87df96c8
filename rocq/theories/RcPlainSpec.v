(** RcPlainSpec.v — two classes of programs with shared nodes, by the operations they use.  No proofs. *)
From stdpp Require Import base gmap list.
From Verif Require Import Spec ClientSpec RcSpec.

(** programs that do not copy handles: no [clone], no [downgrade]; handles are still made by [from], [front], [back], [parent], [pop_front] and
    [pop_back], so there may be many of them for one node *)
Definition copy_free {A} (o : rop A) : Prop :=
  match o with SClone _ _ | SDown _ _ | SNext _ _ | SIntoTree _ _ => False | _ => True end.
(** programs that do not make trees in a buffer, as [clone] and [deep_clone] of trees and the conversions from breadth-first visits do *)
Definition buffer_free {A} (o : rop A) : Prop :=
  match o with
  | SDeepClone _ _ | SX (OClone _ _ _) | SX (OCloneForest _ _ _) | SX (OFromBfs _ _) | SX (OFromVisits _ _)
  | SX (OMapInto _ _ _) | SX (OMapBfs _ _ _ _) | SX (OMapBfsChildren _ _ _ _) | SNext _ _ | SIntoTree _ _ => False
  | _ => True
  end.
