(** PropRc.v — C31-C33, C35, C42: nodes with shared ownership ([RcNode], [WeakNode], [IterRc]).
    [rsrun] (RcSpec) says what a history of calls returns when handles keep nodes alive; [rrun] (RcModel) is the code. *)
From stdpp Require Import base gmap list.
From Verif Require Import Spec ClientSpec RcSpec Machine NodeModel ClientModel RcModel RcAllowed RcClient RcStep4 RcBorrow RcProps RcProps2 RcDemo.

(** The histories [os] are within the specification and the code accesses released memory. *)
Definition breaks (os : list (rop nat)) : Prop := is_Some (rsrun rss0 os) /\ rrun rst0 os = RFails EUB.

(** C32.  [let b = a.clone(); drop(b); a.data()] for a node in a buffer *)
Theorem C32_clone_drop_refuted : exists os os', os = piled_tree ++ [SClone 0 1; SDrop 1] ++ os' /\ os' = [SData 0] /\ breaks os.
Proof. eexists _, _. split_and!; [reflexivity..|]. split; vm_compute; [eauto|reflexivity]. Qed.

(** C33.  [let w = a.downgrade(); drop(w); a.data()] *)
Theorem C33_weak_drop_refuted : exists os, os = piled_tree ++ [SDown 0 1; SDropWeak 1; SData 0] /\ breaks os.
Proof. eexists. split; [reflexivity|]. split; vm_compute; [eauto|reflexivity]. Qed.
(** [let w = a.downgrade(); drop(w.upgrade()); a.data()] *)
Theorem C33_upgrade_drop_refuted : exists os, os = piled_tree ++ [SDown 0 1; SUp 1 2; SDrop 2; SData 0] /\ breaks os.
Proof. eexists. split; [reflexivity|]. split; vm_compute; [eauto|reflexivity]. Qed.
(** [let w = a.downgrade(); drop(a); w.upgrade()] *)
Theorem C33_upgrade_refuted : exists os, os = piled_tree ++ [SDown 0 1; SDrop 0; SUp 1 2] /\ breaks os.
Proof. eexists. split; [reflexivity|]. split; vm_compute; [eauto|reflexivity]. Qed.

(** C35.  [let mut it = a.iter_rc(); let b = it.next(); drop(a); it.next()]: the second call looks at the node 4, released with [a] *)
Theorem C35_iter_rc_refuted : exists os, os = scattered_tree ++ [SIter 0 0; SNext 0 1; SDrop 0; SNext 0 2] /\ rrun rst0 os = RFails EUB.
Proof. eexists. split; [reflexivity|]. vm_compute. reflexivity. Qed.

Print Assumptions C32_clone_drop_refuted.
Print Assumptions C33_weak_drop_refuted.
Print Assumptions C33_upgrade_drop_refuted.
Print Assumptions C33_upgrade_refuted.
Print Assumptions C35_iter_rc_refuted.

(** * C31.  Shared ownership.  The full claim is false when handles of nodes in a buffer are cloned (C32) or downgraded (C33).  The theorems hold for
    all histories without these operations ([allowed] in RcAllowed.v, [reached] in RcClient.v); all missing from the full claim is these histories. *)
(** The code computes the results of the specification and drops the values in the order given there; it panics when the specification does and never
    accesses memory that is not allocated. *)
Theorem C31_refines_partial {A : Type} (os : list (rop A)) : allowed rst0 rss0 os ->
  match rsrun rss0 os with
  | Some (rs, σ) => exists c, rrun rst0 os = RDone rs c /\ m_log (r_mem c) = s_log (rs_x σ)
  | None => rrun rst0 os = RFails EPanic
  end.
Proof. exact (safety os). Qed.
Print Assumptions C31_refines_partial.
Example C31_refines_ex : allowed rst0 rss0 shared_ops2 /\ is_Some (rsrun rss0 shared_ops2) /\
  allowed rst0 rss0 (shared_ops2 ++ [SDrop 0; SDrop 1; SDrop 4; SDrop 5; SDrop 2; SDrop 3]) /\
  match rsrun rss0 (shared_ops2 ++ [SDrop 0; SDrop 1; SDrop 4; SDrop 5; SDrop 2; SDrop 3]) with Some (_, σ) => s_log (rs_x σ) = [4; 0; 3; 1; 2; 2; 11; 3] | None => False end.
Proof. split; [exact shared_allowed|]. split; [vm_compute; eauto|]. split; [apply allowedb_ok; vm_compute; reflexivity|vm_compute; reflexivity]. Qed.

(** The node of a handle is alive and its memory is allocated. *)
Theorem C31_handle_alive_partial {A : Type} (c : rst A) (σ : rss A) (h : nat) (r : rnode) : reached c σ -> r_h c !! h = Some r ->
  allocated c r /\ exists i t, rs_h σ !! h = Some i /\ lfind i (rs_sh σ) = Some t /\ lid t = i.
Proof. exact (handle_node c σ h r). Qed.
Print Assumptions C31_handle_alive_partial.

(** A node is alive exactly when it is on or below a node with a handle. *)
Theorem C31_alive_exactly_partial {A : Type} (c : rst A) (σ : rss A) (i : nat) : reached c σ -> i ∈ lids (rs_sh σ) <-> kept (rs_h σ) (rs_sh σ) i.
Proof. exact (alive_kept c σ i). Qed.
Print Assumptions C31_alive_exactly_partial.

(** A node is released exactly when a handle is dropped and the remaining handles do not keep the node ([into_tree] hands the nodes over to the [Tree], C47). *)
Theorem C31_released_exactly_partial {A : Type} (c : rst A) (σ : rss A) (o : rop A) (r : out A) (σ' : rss A) (i : nat) :
  reached c σ -> rsstep σ o = Some (r, σ') -> (forall h x, o <> SIntoTree h x) -> i ∈ lids (rs_sh σ) ->
  i ∉ lids (rs_sh σ') <-> exists h, o = SDrop h /\ r = RUnit /\ ~ kept (delete h (rs_h σ)) (rs_sh σ) i.
Proof. exact (released_exactly c σ o r σ' i). Qed.
Print Assumptions C31_released_exactly_partial.
(** dropping variable 0 releases 0 and 4; the nodes 1, 2 and 3 live on as a tree *)
Example C31_released_ex : reached rdemo_c rdemo_s /\ lids (rs_sh rdemo_s) = [0; 1; 2; 3; 4; 5; 6; 7] /\
  match rsstep rdemo_s (SDrop 0) with Some (r, σ') => r = RUnit /\ lids (rs_sh σ') = [1; 2; 3; 5; 6; 7] /\ s_log (rs_x σ') = [4; 0] | None => False end.
Proof. split; [exact rdemo_reached|]. vm_compute. auto. Qed.

(** Whatever survives keeps its value, its children and everything below. *)
Theorem C31_drop_keeps_partial {A : Type} (c : rst A) (σ : rss A) (h : nat) (σ' : rss A) (i : nat) :
  reached c σ -> rsstep σ (SDrop h) = Some (RUnit, σ') -> i ∈ lids (rs_sh σ') -> lfind i (rs_sh σ') = lfind i (rs_sh σ).
Proof. exact (drop_keeps c σ h σ' i). Qed.
Print Assumptions C31_drop_keeps_partial.

(** Every value is dropped once when its node is released. *)
Theorem C31_drop_values_partial {A : Type} (c : rst A) (σ : rss A) (h : nat) (σ' : rss A) : reached c σ -> rsstep σ (SDrop h) = Some (RUnit, σ') ->
  exists l, s_log (rs_x σ') = s_log (rs_x σ) ++ l /\ lval <$> lall (rs_sh σ) ≡ₚ l ++ (lval <$> lall (rs_sh σ')).
Proof. exact (drop_values c σ h σ'). Qed.
Print Assumptions C31_drop_values_partial.

(** Every separate tree has a handle at its root. *)
Theorem C31_root_has_handle_partial {A : Type} (c : rst A) (σ : rss A) (t : ltree A) : reached c σ -> t ∈ rs_sh σ -> exists h, rs_h σ !! h = Some (lid t).
Proof. exact (root_has_handle c σ t). Qed.
Print Assumptions C31_root_has_handle_partial.

(** Two handles are for the same node in the code exactly when they are in the specification; a change made through one is seen through the other. *)
Theorem C31_same_node_partial {A : Type} (c : rst A) (σ : rss A) (h h' : nat) (r r' : rnode) : reached c σ -> r_h c !! h = Some r -> r_h c !! h' = Some r' ->
  raddr r = raddr r' <-> rs_h σ !! h = rs_h σ !! h'.
Proof. exact (handles_same c σ h h' r r'). Qed.
Print Assumptions C31_same_node_partial.
Theorem C31_change_seen_partial {A : Type} (c : rst A) (σ : rss A) (h h' i : nat) (f : A -> A) :
  reached c σ -> rs_h σ !! h = Some i -> rs_h σ !! h' = Some i -> rs_g σ = ∅ ->
  exists a c1 c2 c3, rstep c (SData h) = RDone (RVal a) c1 /\ rstep c (SModify h f) = RDone RUnit c2 /\ rstep c2 (SData h') = RDone (RVal (f a)) c3.
Proof. exact (write_seen c σ h h' i f). Qed.
Print Assumptions C31_change_seen_partial.
Example C31_same_ex : reached rdemo_c rdemo_s /\ rs_h rdemo_s !! 1 = Some 1 /\ rs_h rdemo_s !! 2 = Some 1 /\ map_to_list (rs_g rdemo_s) = [] /\
  rs_h rdemo_s !! 3 = Some 3 /\ match rstep rdemo_c (SData 1) with RDone r _ => r = RVal 11 | RFails _ => False end.
Proof. split; [exact rdemo_reached|]. vm_compute. auto 10. Qed.

(** The memory in use is that of the nodes the client can get at and of the buffers they are in; when the client has no variables left, nothing is allocated. *)
Theorem C31_memory_exact_partial {A : Type} (c : rst A) (σ : rss A) : reached c σ ->
  (forall p, rlive c p -> is_Some (m_heap (r_mem c) !! p)) /\
  (forall p, is_Some (m_heap (r_mem c) !! p) ->
     rlive c p \/ exists cap rc q, m_vec (r_mem c) !! p.1 = Some (cap, rc) /\ p.2 < cap /\ rlive c q /\ q.1 = p.1) /\
  (forall v, is_Some (m_vec (r_mem c) !! v) -> exists q, rlive c q /\ q.1 = v) /\
  (forall p, is_Some (m_cnt (r_mem c) !! p) -> is_Some (m_heap (r_mem c) !! p) \/ exists q, rlive c q /\ q.1 = p.1).
Proof. exact (fun H => rmemory_exact c σ (reached_RI c σ H)). Qed.
Print Assumptions C31_memory_exact_partial.
Theorem C31_nothing_left_partial {A : Type} (c : rst A) (σ : rss A) : reached c σ -> r_env c = ∅ -> r_h c = ∅ ->
  m_heap (r_mem c) = ∅ /\ m_cnt (r_mem c) = ∅ /\ m_vec (r_mem c) = ∅.
Proof. exact (fun H => RI_empty c σ (reached_RI c σ H)). Qed.
Print Assumptions C31_nothing_left_partial.
Example C31_nothing_ex : match rrun rdemo_c [SDrop 0; SDrop 1; SDrop 4; SDrop 5; SDrop 2] with
    RDone _ c => size (m_heap (r_mem c)) = 1 /\ map_to_list (m_vec (r_mem c)) = [] | RFails _ => False end /\
  match rrun rdemo_c [SDrop 0; SDrop 1; SDrop 4; SDrop 5; SDrop 2; SDrop 3] with
    RDone _ c => map_to_list (r_env c) = [] /\ map_to_list (r_h c) = [] /\ map_to_list (m_heap (r_mem c)) = [] | RFails _ => False end.
Proof. vm_compute. auto 10. Qed.

(** * C32.  [let b = a.clone(); drop(b)] has no effect if the node is not in a buffer.  Missing: nodes in a buffer, where the claim is false. *)
Theorem C32_clone_drop_partial {A : Type} (c : rst A) (h h' : nat) (p : ptr) (x : out A) (c1 : rst A) :
  rreachable c -> r_h c !! h = Some (RScat p) -> r_h c !! h' = None -> rstep c (SClone h h') = RDone x c1 ->
  x = RUnit /\ r_h c1 = <[h' := RScat p]> (r_h c) /\ (is_Some (m_heap (r_mem c) !! p) -> rstep c1 (SDrop h') = RDone RUnit c).
Proof. exact (clone_drop_scattered c h h' p c1 x). Qed.
Print Assumptions C32_clone_drop_partial.
Example C32_ex : rreachable rdemo_c /\ r_h rdemo_c !! 1 = Some (RScat (1, 0)) /\ r_h rdemo_c !! 7 = None /\
  match rstep rdemo_c (SClone 1 7) with RDone _ _ => True | RFails _ => False end.
Proof. split; [exact (reached_reachable _ _ rdemo_reached)|]. vm_compute. auto. Qed.

(** * C33.  Missing: nodes in a buffer, where the claims are false. *)
Theorem C33_weak_drop_partial {A : Type} (c : rst A) (h w : nat) (p : ptr) (x : out A) (c1 : rst A) :
  r_h c !! h = Some (RScat p) -> r_w c !! w = None -> rstep c (SDown h w) = RDone x c1 -> x = RUnit /\ rstep c1 (SDropWeak w) = RDone RUnit c.
Proof. exact (down_drop_scattered c h w p c1 x). Qed.
Print Assumptions C33_weak_drop_partial.
(** [upgrade] succeeds exactly while the node is alive; then there is one more handle, which keeps the node alive (C31). *)
Theorem C33_upgrade_partial {A : Type} (c : rst A) (σ : rss A) (w h i : nat) : reached c σ -> rs_w σ !! w = Some i -> rs_h σ !! h = None ->
  exists c', (i ∈ lids (rs_sh σ) -> rstep c (SUp w h) = RDone (RBool true) c' /\ reached c' (set_h σ (<[h := i]> (rs_h σ)))) /\
             (i ∉ lids (rs_sh σ) -> rstep c (SUp w h) = RDone (RBool false) c' /\ reached c' σ).
Proof. exact (upgrade_exact c σ w h i). Qed.
Print Assumptions C33_upgrade_partial.
Example C33_ex : reached rdemo_c rdemo_s /\ rs_w rdemo_s !! 0 = Some 0 /\
  match rrun rdemo_c [SUp 0 7; SDrop 0; SDrop 7; SUp 0 7] with RDone rs _ => rs = [RBool true; RUnit; RUnit; RBool false] | RFails _ => False end.
Proof. split; [exact rdemo_reached|]. vm_compute. auto. Qed.

(** * C35.  [iter_rc] yields the children in order, as long as they stay the children of one node.  Missing: safety of [next] when the node to be yielded has
    been released, which is false. *)
Theorem C35_iter_new_partial {A : Type} (c : rst A) (σ : rss A) (h i : nat) (t : ltree A) (it : nat) :
  reached c σ -> rs_h σ !! h = Some i -> lfind i (rs_sh σ) = Some t -> rs_g σ = ∅ -> rs_it σ !! it = None ->
  exists c' σ', rstep c (SIter h it) = RDone RUnit c' /\ reached c' σ' /\ to_yield σ' it (lid <$> lkids t).
Proof. exact (iter_new c σ h i t it). Qed.
Print Assumptions C35_iter_new_partial.
Theorem C35_iter_next_partial {A : Type} (c : rst A) (σ : rss A) (it j : nat) (l : list nat) (h' : nat) :
  reached c σ -> to_yield σ it (j :: l) -> rs_h σ !! h' = None ->
  exists c' σ', rstep c (SNext it h') = RDone (RBool true) c' /\ reached c' σ' /\ rs_h σ' = <[h' := j]> (rs_h σ) /\ rs_sh σ' = rs_sh σ /\ to_yield σ' it l.
Proof. exact (iter_next c σ it j l h'). Qed.
Print Assumptions C35_iter_next_partial.
Theorem C35_iter_end_partial {A : Type} (c : rst A) (σ : rss A) (it h' : nat) : reached c σ -> to_yield σ it [] -> rs_h σ !! h' = None ->
  exists c', rstep c (SNext it h') = RDone (RBool false) c' /\ reached c' σ.
Proof. exact (iter_end c σ it h'). Qed.
Print Assumptions C35_iter_end_partial.
(** other operations do not disturb the iterator if the children left stay together *)
Theorem C35_iter_frame_partial {A : Type} (σ : rss A) (o : rop A) (r : out A) (σ' : rss A) (it : nat) (l : list nat) :
  rsstep σ o = Some (r, σ') -> (forall h', o <> SNext it h') -> to_yield σ it l ->
  (l = [] \/ exists u L, u ∈ lall (rs_sh σ') /\ lid <$> lkids u = L ++ l) -> to_yield σ' it l.
Proof. exact (iter_frame σ o r σ' it l). Qed.
Print Assumptions C35_iter_frame_partial.
Example C35_ex : reached rdemo_c rdemo_s /\ to_yield rdemo_s 0 [1; 4] /\
  match rsrun rdemo_s [SNext 0 7; SHint 0; SNext 0 8; SNext 0 9] with
  | Some (rs, σ) => rs = [RBool true; RNat 1; RBool true; RBool false] /\ rs_h σ !! 7 = Some 1 /\ rs_h σ !! 8 = Some 4 | None => False end.
Proof.
  split; [exact rdemo_reached|]. split; [|vm_compute; auto]. split; [vm_compute; reflexivity|]. right.
  exists (LN 0 0 [LN 1 11 [LN 2 2 []; LN 3 3 []]; LN 4 4 []]), []. split; [vm_compute; left|reflexivity].
Qed.

(** * C42.  Dynamic borrows *)
(** While any guard of a node is alive, an operation through a handle of that node that changes it does not complete: it panics (unless the memory of the node
    is not allocated any more, C32).  All histories. *)
Theorem C42_guard_blocks_changes {A : Type} (c : rst A) (o : rop A) (h : nat) (r : rnode) (m : bool) :
  rreachable c -> changes_via o = Some h -> typed c o -> r_h c !! h = Some r -> guarded c (raddr r) m ->
  exists e, rstep c o = RFails e /\ (allocated c r -> e = EPanic).
Proof. exact (fun HR Hv Ht Hh HG => change_blocked c o h r Hv Ht Hh (proj1 (guarded_flag c _ m HR HG))). Qed.
Print Assumptions C42_guard_blocks_changes.
(** While a [RefMut] of a node is alive, so do the operations that only look at it. *)
Theorem C42_refmut_blocks_looks {A : Type} (c : rst A) (o : rop A) (h : nat) (r : rnode) :
  rreachable c -> looks_via o = Some h -> typed c o -> r_h c !! h = Some r -> guarded c (raddr r) true ->
  exists e, rstep c o = RFails e /\ (allocated c r -> e = EPanic).
Proof. exact (fun HR Hv Ht Hh HG => look_blocked c o h r Hv Ht Hh (proj2 (guarded_flag c _ true HR HG) eq_refl)). Qed.
Print Assumptions C42_refmut_blocks_looks.
(** What guards exist on other nodes makes no difference.  All states. *)
Theorem C42_other_guards {A : Type} (c : rst A) (o : rop A) (h : nat) (r : rnode) (G : gmap nat (nat * bool)) (B : borrows) :
  changes_via o = Some h \/ looks_via o = Some h -> (forall m g, o <> SGuard m h g) -> o <> SDetach h -> r_h c !! h = Some r ->
  flag B (raddr r) = flag (r_b c) (raddr r) ->
  rstep (set_rg c G B) o = match rstep c o with RDone x c' => RDone x (set_rg c' G B) | RFails e => RFails e end.
Proof. exact (other_guards c o h r G B). Qed.
Print Assumptions C42_other_guards.
(** The operations through a handle panic in no other case, except for [insert_prev_sib], [insert_next_sib] and [detach] of a root. *)
Theorem C42_panics_exactly {A : Type} (c : rst A) (σ : rss A) (o : rop A) (h : nat) (r : rnode) (i : nat) :
  reached c σ -> changes_via o = Some h \/ looks_via o = Some h -> typed c o -> r_h c !! h = Some r -> rs_h σ !! h = Some i ->
  let panics := (changes_via o = Some h /\ exists m, guarded c (raddr r) m) \/ (looks_via o = Some h /\ guarded c (raddr r) true) \/
                (needs_parent o = true /\ i ∈ lid <$> rs_sh σ) in
  (panics -> rstep c o = RFails EPanic) /\ (~ panics -> exists x c' σ', rstep c o = RDone x c' /\ x <> RBad /\ reached c' σ').
Proof. exact (outcome c σ o h r i). Qed.
Print Assumptions C42_panics_exactly.
(** a [Ref] on node 1 and a [RefMut] on node 0; through variable 2, for node 1, data can be read but no child can be taken away; node 3 is not affected *)
Example C42_ex : reached gdemo_c gdemo_s /\ guarded gdemo_c (1, 0) false /\ guarded gdemo_c (0, 0) true /\ (r_h gdemo_c !! 2 = Some (RScat (1, 0))) /\
  rstep gdemo_c (SPop Front 2 7) = RFails EPanic /\ rstep gdemo_c (SDegree 0) = RFails EPanic /\
  match rstep gdemo_c (SData 2) with RDone r _ => r = RVal 11 | RFails _ => False end /\
  match rstep gdemo_c (SDetach 3) with RDone r _ => r = RUnit | RFails _ => False end /\
  allocated gdemo_c (RScat (1, 0)).
Proof.
  split; [exact gdemo_reached|]. split; [exists 0, 1, (RScat (1, 0)); vm_compute; auto|]. split; [exists 1, 0, (RScat (0, 0)); vm_compute; auto|].
  split; [vm_compute; reflexivity|]. split; [vm_compute; reflexivity|]. split; [vm_compute; reflexivity|]. split; [vm_compute; reflexivity|]. split; [vm_compute; reflexivity|].
  split; [vm_compute; eauto|exact I].
Qed.
