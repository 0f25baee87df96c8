(** Demo.v — a concrete non-trivial history, used to show that the hypotheses of the property theorems are satisfiable. *)
From stdpp Require Import base gmap list.
From Verif Require Import Spec ClientSpec Machine NodeModel ClientModel ClientRead.

(** variable 0: the tree 0( 1( 2 3 ) 4 ), variable 1: the tree 9, variable 2: the forest ( 7( 8 ) 6 ), variables 5 and 6:
    the trees 0( 4 ) and 1( 2 3 ) which share one buffer (a clone of variable 0, then a detach); variable 3 is free *)
Definition demo_ops : list (op nat) :=
  [ONewTree 0 0; ONewTree 1 1; ONewTree 2 2; OPush Back 1 [] 2; ONewTree 2 3; OPush Back 1 [] 2;
   OPush Front 0 [] 1; ONewTree 1 4; OPush Back 0 [] 1;
   ONewTree 1 9; ONewForest 2; ONewTree 3 7; ONewTree 4 8; OPush Back 3 [] 4; OPush Back 2 [] 3;
   ONewTree 3 6; OPush Back 2 [] 3; OClone 0 [] 5; ODetach 5 [0] 6].
Definition demo_tree : tree nat := Tr 0 [Tr 1 [Tr 2 []; Tr 3 []]; Tr 4 []].
Definition demo_forest : list (tree nat) := [Tr 7 [Tr 8 []]; Tr 6 []].
Definition demo_env : gmap nat (item nat) :=
  match srun sst0 demo_ops with Some (_, σ) => s_env σ | None => ∅ end.
Definition demo_c : cst nat := match run cst0 demo_ops with Done _ c => c | Fails _ => cst0 end.

Lemma demo_lookups : demo_env !! 0 = Some (ITree demo_tree) /\ demo_env !! 1 = Some (ITree (Tr 9 [])) /\
  demo_env !! 2 = Some (IForest demo_forest) /\ demo_env !! 3 = None /\
  demo_env !! 5 = Some (ITree (Tr 0 [Tr 4 []])) /\ demo_env !! 6 = Some (ITree (Tr 1 [Tr 2 []; Tr 3 []])).
Proof. vm_compute. auto 10. Qed.

Lemma demo_some : is_Some (srun sst0 demo_ops).
Proof. vm_compute. eauto. Qed.

Lemma demo_ok : reachable demo_c /\ contents demo_c demo_env.
Proof.
  destruct demo_some as [[rs σ] E]. pose proof (refinement demo_ops) as H. unfold demo_env, demo_c. rewrite E in *.
  destruct H as (c & Hc & Hcont & _). rewrite Hc. split; [|exact Hcont]. exists demo_ops, rs. exact Hc.
Qed.
