(** PropRc7.v — C62: the values of shared nodes own handles of shared nodes, and a handle is dropped.
    [own a]: the variables of type [RcNode] that are fields of the value [a].  [rdrop_owning own c h] (RcOwnModel): [drop(h)], where dropping a value drops the handles it owns. *)
From stdpp Require Import base gmap list.
From Verif Require Import Spec ClientSpec RcSpec Machine NodeModel ClientModel RcModel RcAllowed RcClient RcRef RcDemo RcOwnModel RcOwnSpec RcOwnTop.

(** [l]: the values dropped.  The drop ends, without a panic and without touching freed memory.  The handles that are gone are [h] and those owned by [l], and these
    are the least set that contains [h] and what is owned by values no remaining handle reaches.  No value is dropped twice or lost; the nodes kept are those that some
    remaining handle reaches, and they look as before.  Up to the list of values dropped so far the state is one that is reached without owning values,
    so that all other properties of shared nodes go on to hold. *)
Theorem C62_drop_owning {A : Type} (own : A -> list nat) (c : rst A) (σ : rss A) (h : nat) : reached c σ -> rs_g σ = ∅ -> is_Some (rs_h σ !! h) -> one_owner own σ h ->
  exists c' σ' l, reached c' σ' /\ rdrop_owning own c h = RDone RUnit (with_log c' (m_log (r_mem c) ++ l)) /\ m_log (r_mem c') ≡ₚ m_log (r_mem c) ++ l /\
    (forall g, rs_h σ' !! g = if decide (g ∈ h :: flat_map own l) then None else rs_h σ !! g) /\
    (closed own σ h (fun g => g ∈ h :: flat_map own l) /\ forall S, closed own σ h S -> forall g, g ∈ h :: flat_map own l -> S g) /\
    env_of σ' = env_of σ /\ lval <$> lall (rs_sh σ) ≡ₚ l ++ (lval <$> lall (rs_sh σ')) /\
    (forall i, i ∈ lids (rs_sh σ') <-> kept (rs_h σ') (rs_sh σ) i) /\ (forall g i, rs_h σ' !! g = Some i -> lfind i (rs_sh σ') = lfind i (rs_sh σ)) /\
    (forall h', h' ∉ owned_by own (rs_sh σ) -> one_owner own σ' h').
Proof. exact (drop_owning own c σ h). Qed.
Print Assumptions C62_drop_owning.

(** the trees 0( 1( 2 3 ) 4 ), 5( 6 ) and 7, with handles 0, 1 and 2, and another handle 3 of 7; the value 3 owns handle 1, 6 owns 2 *)
Definition own_ops : list (rop nat) := scattered_tree ++ map SX [ONewTree 1 5; ONewTree 2 6; OPush Back 1 [] 2; ONewTree 2 7] ++ [SFrom 1 1; SFrom 2 2; SClone 2 3].
Definition own_demo (a : nat) : list nat := match a with 3 => [1] | 6 => [2] | _ => [] end.
Example C62_ex : reached (after_c own_ops) (after_s own_ops) /\ rs_g (after_s own_ops) = ∅ /\ is_Some (rs_h (after_s own_ops) !! 0) /\ one_owner own_demo (after_s own_ops) 0 /\
  match rdrop_owning own_demo (after_c own_ops) 0 with
  | RDone r c' => r = RUnit /\ m_log (r_mem c') = [2; 3; 6; 5; 1; 4; 0] /\ (map_to_list (r_h c')).*1 = [3] /\ (map_to_list (m_heap (r_mem c')) ≫= fun z => dat_vals (n_dat z.2)) = [7]
  | RFails _ => False
  end.
Proof.
  split; [apply after_reached; vm_compute; [reflexivity|eexists; reflexivity]|]. split; [vm_compute; reflexivity|]. split; [vm_compute; eexists; reflexivity|].
  split; [|vm_compute; auto].
  assert (Ho : owned_by own_demo (rs_sh (after_s own_ops)) = [2; 1] \/ owned_by own_demo (rs_sh (after_s own_ops)) = [1; 2]) by (vm_compute; tauto).
  assert (H1 : is_Some (rs_h (after_s own_ops) !! 1)) by (vm_compute; eexists; reflexivity). assert (H2 : is_Some (rs_h (after_s own_ops) !! 2)) by (vm_compute; eexists; reflexivity).
  split; [destruct Ho as [->| ->]; repeat constructor; set_solver|]. intros g. destruct Ho as [->| ->]; rewrite !elem_of_cons; intros [->|[->|Hg]]; try (exact H1 || exact H2); destruct (not_elem_of_nil _ Hg).
Qed.
(** A cycle of owners is not released: 7 owns handle 2 of 7 itself, and dropping handle 3 drops no value. *)
Definition own_cycle (a : nat) : list nat := match a with 7 => [2] | _ => [] end.
Example C62_cycle : match rdrop_owning own_cycle (after_c own_ops) 3 with
  | RDone r c' => r = RUnit /\ m_log (r_mem c') = [] /\ (map_to_list (r_h c')).*1 ≡ₚ [0; 1; 2] | RFails _ => False end.
Proof. vm_compute. split; [reflexivity|]. split; [reflexivity|]. reflexivity. Qed.
