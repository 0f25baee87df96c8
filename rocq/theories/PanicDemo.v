(** PanicDemo.v — a history with panics, used to show that the hypotheses of the theorems in PropPanic.v are satisfiable. *)
From stdpp Require Import base gmap list.
From Verif Require Import Spec ClientSpec Machine NodeModel ClientModel PanicSpec PanicModel PanicProps Demo.

(** a closure that panics when it is given [b], otherwise adds 10 *)
Definition fussy (b : nat) (hist : list nat) (a : nat) : option nat := if decide (a = b) then None else Some (a + 10).
(** after the history of Demo.v: cloning variable 0 panics at the value 3; variable 6 is turned into a new tree with a panic at 2; the drop of variable 5
    panics with its first value; inserting next to the root of variable 0 panics *)
Definition pdemo_ops : list (pop nat) :=
  (POp <$> demo_ops) ++ [PMapBfs 0 [] 3 (fussy 3); PMapInto 6 3 (fussy 2); PDrop 5 0; POp (OInsert Back 0 [] 1)].
Definition pdemo_env : gmap nat (item nat) := s_env (psrun sst0 pdemo_ops).2.
Definition pdemo_c : cst nat := match prun cst0 pdemo_ops with Done _ c => c | Fails _ => cst0 end.
Lemma pdemo_ok : preachable pdemo_c /\ contents pdemo_c pdemo_env.
Proof.
  destruct (prefinement pdemo_ops) as (c & Hc & Hcont & _). unfold pdemo_c. rewrite Hc. split; [|exact Hcont]. exists pdemo_ops, (psrun sst0 pdemo_ops).1. exact Hc.
Qed.
Lemma pdemo_lookups : pdemo_env !! 0 = Some (ITree demo_tree) /\ pdemo_env !! 1 = None /\ pdemo_env !! 2 = Some (IForest demo_forest) /\
  pdemo_env !! 3 = None /\ pdemo_env !! 5 = None /\ pdemo_env !! 6 = None.
Proof. vm_compute. auto 10. Qed.
