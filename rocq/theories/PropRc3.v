(** PropRc3.v — C54: [Extend] for [RcNode]. *)
From stdpp Require Import base gmap list.
From Verif Require Import Spec ClientSpec RcSpec Machine NodeModel ClientModel RcModel RcAllowed RcClient RcStep4 RcProps2 RcDemo RcExtModel RcExtProofs.

(** * C54.  [h.extend(ys)] for the trees [ts] in the variables [ys], no guard of the node alive: the children of the node become the old ones, the same nodes, then
    new ones that are the trees [ts] in order; no other node, no other variable changes, nothing is dropped, and the program goes on as after an allowed history. *)
Theorem C54_extend {A : Type} (c : rst A) (σ : rss A) (h : nat) (r : rnode) (i : nat) (u : ltree A) (ys : list nat) (ts : list (tree A)) :
  reached c σ -> r_h c !! h = Some r -> rs_h σ !! h = Some i -> lfind i (rs_sh σ) = Some u -> writable σ i = true -> NoDup ys ->
  Forall2 (fun y t => env_of σ !! y = Some (ITree t)) ys ts ->
  exists c' σ' news, rextend c h ys = RDone RUnit c' /\ reached c' σ' /\ map erase news = ts /\
    lfind i (rs_sh σ') = Some (set_lkids (fun ks => ks ++ news) u) /\ rs_sh σ' = map (lmap_at i (set_lkids (fun ks => ks ++ news))) (rs_sh σ) /\
    (forall x, env_of σ' !! x = if decide (x ∈ ys) then None else env_of σ !! x) /\
    rs_h σ' = rs_h σ /\ rs_w σ' = rs_w σ /\ rs_g σ' = rs_g σ /\ rs_it σ' = rs_it σ /\ s_log (rs_x σ') = s_log (rs_x σ).
Proof. exact (extend_done c σ h r i u ys ts). Qed.
Print Assumptions C54_extend.

(** While a guard of the node is alive and there is a tree to push, it panics. *)
Theorem C54_extend_panics {A : Type} (c : rst A) (σ : rss A) (h : nat) (r : rnode) (i : nat) (ys : list nat) (ts : list (tree A)) :
  reached c σ -> r_h c !! h = Some r -> rs_h σ !! h = Some i -> writable σ i = false -> ys <> [] ->
  Forall2 (fun y t => env_of σ !! y = Some (ITree t)) ys ts -> rextend c h ys = RFails EPanic.
Proof. exact (extend_panics c σ h r i ys ts). Qed.
Print Assumptions C54_extend_panics.

Definition ext_ops : list (rop nat) := shared_ops2 ++ [SX (ONewTree 20 7); SX (ONewTree 21 8); SDeepClone 0 22; SGuard false 0 3].
Example C54_ex : allowed rst0 rss0 ext_ops /\
  match rrun rst0 ext_ops, rsrun rss0 ext_ops with
  | RDone _ c, Some (_, σ) => is_Some (r_h c !! 1) /\ is_Some (r_h c !! 0) /\
      (exists i u, rs_h σ !! 1 = Some i /\ lfind i (rs_sh σ) = Some u /\ length (lkids u) = 2 /\ writable σ i = true) /\ (exists i, rs_h σ !! 0 = Some i /\ writable σ i = false) /\
      exists t, nodes t = 5 /\ Forall2 (fun y t => env_of σ !! y = Some (ITree t)) [21; 22; 20] [Tr 8 []; t; Tr 7 []]
  | _, _ => False
  end.
Proof.
  split; [apply allowedb_ok; vm_compute; reflexivity|]. vm_compute. split_and!; [eauto|eauto|do 2 eexists; split_and!; reflexivity|eexists; split; reflexivity|].
  eexists. split; cycle 1. { repeat constructor. } reflexivity.
Qed.
