(** PropCounter.v — C61: the counters of the code ([usize]) cannot overflow: each is bounded by what is in memory, and the reference counters are exact.
    [live]/[rlive] (ClientModel, RcClient): the client can get at the node; [refs]/[owned]: CounterSpec. *)
From stdpp Require Import base gmap list.
From Verif Require Import Spec ClientSpec RcSpec Machine NodeModel ClientModel RcModel RcAllowed RcClient CounterSpec CounterProofs Demo RcDemo.

Theorem C61_counters {A : Type} (c : cst A) : reachable c ->
  (forall p, live c p -> exists n, m_heap (c_mem c) !! p = Some n /\ m_cnt (c_mem c) !! p = Some 1 /\ n_deg n <= n_desc n /\ n_desc n < size (m_heap (c_mem c))) /\
  (forall v cap k, m_vec (c_mem c) !! v = Some (cap, k) -> k <= size (m_heap (c_mem c))).
Proof. exact (counters_plain c). Qed.
Print Assumptions C61_counters.
Example C61_ex : reachable demo_c /\ size (m_heap (c_mem demo_c)) = 15 /\ snd <$> map_to_list (m_vec (c_mem demo_c)) = [(5, 5)] /\
  match c_env demo_c !! 0 with Some hd => live demo_c (addr hd) | None => False end /\
  match c_env demo_c !! 0 with Some hd => match m_heap (c_mem demo_c) !! addr hd with Some n => n_deg n = 2 /\ n_desc n = 4 | None => False end | None => False end.
Proof.
  split; [exact (proj1 demo_ok)|]. split; [vm_compute; reflexivity|]. split; [vm_compute; reflexivity|]. split; [|vm_compute; auto].
  destruct (c_env demo_c !! 0) as [hd|] eqn:E; [|vm_compute in E; discriminate E]. exists 0, hd, []. split; [exact E|reflexivity].
Qed.

(** With shared nodes: the counter of a node is the number of [RcNode]s for it, one more if it has a parent or is the root of a [Tree]. *)
Theorem C61_counters_shared {A : Type} (c : rst A) (σ : rss A) : reached c σ ->
  (forall p, rlive c p -> exists n k, m_heap (r_mem c) !! p = Some n /\ m_cnt (r_mem c) !! p = Some k /\ n_deg n <= n_desc n /\ n_desc n < size (m_heap (r_mem c)) /\
     (owned c p -> k = 1 + refs c p) /\ (~ owned c p -> k = refs c p)) /\
  (forall v cap k, m_vec (r_mem c) !! v = Some (cap, k) -> k <= size (m_heap (r_mem c)) + size (r_h c)).
Proof. exact (counters_shared c σ). Qed.
Print Assumptions C61_counters_shared.
(** variables 1 and 2 are for a node with a parent; variable 0 alone is for a root *)
Definition rhandle (h : nat) : ptr := match r_h rdemo_c !! h with Some r => raddr r | None => (0, 0) end.
Example C61_shared_ex : reached rdemo_c rdemo_s /\ rlive rdemo_c (rhandle 1) /\ refs rdemo_c (rhandle 1) = 2 /\ m_cnt (r_mem rdemo_c) !! rhandle 1 = Some 3 /\
  refs rdemo_c (rhandle 0) = 1 /\ m_cnt (r_mem rdemo_c) !! rhandle 0 = Some 1.
Proof.
  split; [exact rdemo_reached|]. split; [|vm_compute; auto]. exists (rhandle 1), []. split; [|reflexivity]. right. exists 1.
  unfold rhandle. destruct (r_h rdemo_c !! 1) as [r|] eqn:E; [|vm_compute in E; discriminate E]. exists r. split; reflexivity.
Qed.
