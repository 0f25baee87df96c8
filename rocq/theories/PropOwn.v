(** PropOwn.v — C63: the values of the nodes own trees and forests, and a tree or forest is dropped.
    [own a]: the variables of type [Tree] or [Forest] that are fields of the value [a].  [drop_owning own c h] (OwnModel): [drop(h)], where dropping a value drops what it owns. *)
From stdpp Require Import base gmap list.
From Verif Require Import Spec ClientSpec MoveSpec Machine NodeModel ClientModel ClientRead OwnModel OwnSpec OwnProofs.

(** [l]: the values dropped, in order.  The drop ends, without a panic and without touching freed memory; the order is: a node's children first, then its value, then what the value owns.
    The variables that are gone are [h] and those owned by values dropped; all the others are as before.  The new state is one that is reached without owning values. *)
Theorem C63_drop_owning {A : Type} (own : A -> list nat) (c : cst A) (env : gmap nat (item A)) (h : nat) (it : item A) :
  reachable c -> contents c env -> env !! h = Some it -> sole_owner own env h ->
  exists c' env' l, drop_owning own c h = Done RUnit c' /\ reachable c' /\ contents c' env' /\ m_log (c_mem c') = m_log (c_mem c) ++ l /\ drops_trees own env (trees_of it) l /\
    (forall g, env' !! g = if decide (g ∈ h :: flat_map own l) then None else env !! g) /\ values env ≡ₚ l ++ values env' /\
    (forall h', h' ∉ flat_map own (values env) -> sole_owner own env' h').
Proof. exact (drop_owning_ok own c env h it). Qed.
Print Assumptions C63_drop_owning.
(** There is only one such order. *)
Theorem C63_one_order {A : Type} (own : A -> list nat) (env : gmap nat (item A)) (ts : list (tree A)) (l l' : list A) :
  drops_trees own env ts l -> drops_trees own env ts l' -> l = l'.
Proof. exact (drops_fun own env ts l l'). Qed.
Print Assumptions C63_one_order.

(** the tree 0( 1( 2 ) 3 ) in variable 0, the forest 5 6( 7 ) in variable 1, the tree 8 in variable 2 and a copy of 0( 1( 2 ) 3 ) in variable 3; 1 is the owner of variable 1, 7 of variable 2 *)
Definition own_history : list (op nat) :=
  [ONewTree 3 0; ONewTree 4 1; ONewTree 5 2; OPush Back 4 [] 5; OPush Back 3 [] 4; ONewTree 4 3; OPush Back 3 [] 4; OModify 3 [] (fun n => n + 10); OModify 3 [0] (fun n => n + 10);
   OClone 3 [] 0; OModify 0 [] (fun n => 0); OModify 0 [0] (fun n => 1);
   ONewForest 1; ONewTree 4 5; OPush Back 1 [] 4; ONewTree 4 6; ONewTree 5 7; OPush Back 4 [] 5; OPush Back 1 [] 4; ONewTree 2 8].
Definition own_c : cst nat := match run cst0 own_history with Done _ c => c | Fails _ => cst0 end.
Definition own_env : gmap nat (item nat) := match srun sst0 own_history with Some (_, σ) => s_env σ | None => ∅ end.
Definition own_fields (a : nat) : list nat := match a with 1 => [1] | 7 => [2] | _ => [] end.
Lemma own_ok : reachable own_c /\ contents own_c own_env.
Proof.
  assert (is_Some (srun sst0 own_history)) as [[rs σ] E] by (vm_compute; eauto). pose proof (refinement own_history) as H. unfold own_env, own_c. rewrite E in *.
  destruct H as (c & Hc & Hcont & _). rewrite Hc. split; [|exact Hcont]. exists own_history, rs. exact Hc.
Qed.
Lemma own_lookups : own_env !! 0 = Some (ITree (Tr 0 [Tr 1 [Tr 2 []]; Tr 3 []])) /\ own_env !! 1 = Some (IForest [Tr 5 []; Tr 6 [Tr 7 []]]) /\ own_env !! 2 = Some (ITree (Tr 8 [])) /\
  own_env !! 3 = Some (ITree (Tr 10 [Tr 11 [Tr 2 []]; Tr 3 []])).
Proof. vm_compute. auto. Qed.
Example C63_ex : reachable own_c /\ contents own_c own_env /\ sole_owner own_fields own_env 0 /\
  match drop_owning own_fields own_c 0 with Done r c' => r = RUnit /\ m_log (c_mem c') = [2; 1; 5; 7; 8; 6; 3; 0] /\ (map_to_list (c_env c')).*1 = [3] | Fails _ => False end.
Proof.
  split; [exact (proj1 own_ok)|]. split; [exact (proj2 own_ok)|]. split; [|vm_compute; auto].
  assert (Ho : flat_map own_fields (values own_env) = [2; 1] \/ flat_map own_fields (values own_env) = [1; 2]) by (vm_compute; tauto).
  destruct own_lookups as (_ & H1 & H2 & _).
  split; [destruct Ho as [->| ->]; apply (bool_decide_eq_true_1 _); vm_compute; reflexivity|]. intros g.
  destruct Ho as [->| ->]; rewrite !elem_of_cons; intros [->|[->|Hg]]; try (exact (ex_intro _ _ H1) || exact (ex_intro _ _ H2)); destruct (not_elem_of_nil _ Hg).
Qed.
