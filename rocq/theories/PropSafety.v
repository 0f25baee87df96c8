(** PropSafety.v — C43-C45: what safe client code must not be able to do.
    C43: trees (also inside a [TreeWalk]/[ForestWalk]) sent to other threads and dropped there.
    C44: exchanging two nodes through [Pin<&mut Node<T>>].  C45: a node reference used after [detach]. *)
From stdpp Require Import base gmap list.
From Verif Require Import Spec ClientSpec Machine NodeModel ClientModel Reach ClientRead ClientProps ThreadModel ThreadSpec ThreadProofs ThreadLink
  MisuseModel MisuseProofs Demo.

Section theorems.
Context {A : Type} (c : cst A).

(** C43.  The threads own the variables [hss] (one list each, none shared) and drop them.  Whatever the schedule, no buffer is used
    after its release, and a buffer stays as long as a thread or another variable still owns a slot of it: nothing is freed early. *)
Theorem C43_threads_never_early_partial (hss : list (list nat)) (sched : list nat) :
  reachable c -> NoDup (concat hss) ->
  exists progs st, threads_events (c_env c) hss (c_mem c) = Ok progs (c_mem c) /\
    trun (start (snd <$> m_vec (c_mem c)) progs) sched = TOk st /\
    (forall v, is_Some (m_vec (c_mem c) !! v) -> used_by_others c (concat hss) v -> is_Some (t_vec st !! v)) /\
    (forall v th, th ∈ t_th st -> (0 < gives v (prog th) \/ exists n, pending th = Some (v, n)) -> is_Some (t_vec st !! v)).
Proof. exact (threads_safe c hss sched). Qed.
(** When no buffer has slots in two threads, exactly the buffers still in use are left at the end: nothing is leaked either. *)
Theorem C43_threads_exact_partial (hss : list (list nat)) (progs : list (list ev)) (sched : list nat) (st : tst) :
  reachable c -> NoDup (concat hss) ->
  threads_events (c_env c) hss (c_mem c) = Ok progs (c_mem c) -> separate progs ->
  trun (start (snd <$> m_vec (c_mem c)) progs) sched = TOk st -> finished st ->
  forall v, is_Some (t_vec st !! v) <-> is_Some (m_vec (c_mem c) !! v) /\ used_by_others c (concat hss) v.
Proof. exact (threads_exact c hss progs sched st). Qed.
(** The events of one thread are what [drop] of the client model does to the counters. *)
Theorem C43_one_thread (h : nat) (hd : handle) :
  reachable c -> c_env c !! h = Some hd ->
  exists es c', thread_events (c_env c) [h] (c_mem c) = Ok es (c_mem c) /\ step c (ODrop h) = Done RUnit c' /\
    forall sched st, trun (start (snd <$> m_vec (c_mem c)) [es]) sched = TOk st -> finished st -> t_vec st = snd <$> m_vec (c_mem c').
Proof. exact (single_thread c h hd). Qed.
(** Programs that touch and give up slots in any order, each thread only what it owns: never a released buffer. *)
Theorem C43_any_programs_partial (keep : nat -> nat) (vec : gmap nat nat) (progs : list (list ev)) (sched : list nat) :
  counted keep vec progs -> Forall (owns keep) progs -> exists st, trun (start vec progs) sched = TOk st.
Proof. exact (fun H1 H2 => let 'ex_intro _ st (conj E _) := never_early keep vec progs sched H1 H2 in ex_intro _ st E). Qed.
End theorems.

(** The counter is not atomic, so an update can be lost and the buffer leak: all threads have finished, no variable owns a slot
    of the buffer, and it is still there. *)
Definition share_ops : list (op nat) :=
  [ONewTree 0 0; ONewTree 1 1; OPush Back 0 [] 1; OClone 0 [] 2; ODetach 2 [0] 3; ODrop 0].
Definition share_c : cst nat := match run cst0 share_ops with Done _ c => c | Fails _ => cst0 end.
Definition share_progs : list (list ev) := match threads_events (c_env share_c) [[2]; [3]] (c_mem share_c) with Ok p _ => p | Err _ => [] end.
Definition share_end : tst :=
  match trun (start (snd <$> m_vec (c_mem share_c)) share_progs) [0;1;0;1;0;1] with TOk st => st | TBad => TSt ∅ [] end.
Lemma share_reachable : reachable share_c.
Proof.
  assert (match run cst0 share_ops with Done _ _ => true | Fails _ => false end = true) as H by (vm_compute; reflexivity).
  unfold share_c. destruct (run cst0 share_ops) as [rs c|] eqn:E; [|done]. exists share_ops, rs. exact E.
Qed.
Theorem C43_no_leak_refuted : exists (c : cst nat) hss progs sched st v,
  reachable c /\ NoDup (concat hss) /\ result c (threads_events (c_env c) hss) = Some progs /\
  trun (start (snd <$> m_vec (c_mem c)) progs) sched = TOk st /\ finished st /\
  is_Some (t_vec st !! v) /\ ~ used_by_others c (concat hss) v.
Proof.
  exists share_c, [[2]; [3]], [[Touch 2; Decr 2]; [Touch 2; Decr 2]], [0;1;0;1;0;1], share_end, 2. split_and!.
  - exact share_reachable.
  - simpl. repeat constructor; set_solver.
  - vm_compute. reflexivity.
  - vm_compute. reflexivity.
  - intros th Hth. vm_compute in Hth. repeat (apply elem_of_cons in Hth as [->|Hth]; [done|]). by apply elem_of_nil in Hth.
  - vm_compute. eauto.
  - intros (h & hd & path & p & Hh & Hl & _). assert (bool_decide (map_Forall (fun h _ => h ∈ [2;3]) (c_env share_c)) = true) as Hall by (vm_compute; reflexivity).
    apply bool_decide_eq_true in Hall. exact (Hh (Hall _ _ Hl)).
Qed.

Section theorems.
Context {A : Type} (c : cst A) (env : gmap nat (item A)).

(** C44.  Without exchanging nodes no history, whatever it drops, accesses released memory; *)
Theorem C44_without_swap_partial (os : list (op A)) :
  match run (A:=A) cst0 os with Done _ _ => True | Fails e => e = EPanic /\ srun sst0 os = None end.
Proof. exact (safe_prop os). Qed.
(** but for any two single-node trees, each in its own allocation, exchanging the roots and dropping both accesses released memory. *)
Theorem C44_swap_leaves_refuted (h1 h2 : nat) (p1 p2 : ptr) (a1 a2 : A) :
  reachable c -> contents c env -> h1 <> h2 ->
  env !! h1 = Some (ITree (Tr a1 [])) -> env !! h2 = Some (ITree (Tr a2 [])) ->
  c_env c !! h1 = Some (HT p1) -> c_env c !! h2 = Some (HT p2) ->
  m_vec (c_mem c) !! p1.1 = None -> m_vec (c_mem c) !! p2.1 = None ->
  exists s, swap_nodes p1 p2 (c_mem c) = Ok tt s /\ run (CSt (c_env c) s) [ODrop h1; ODrop h2] = Fails EUB.
Proof. exact (swap_leaves c env h1 h2 p1 p2 a1 a2). Qed.

(** C45.  After [detach] of the node [x] at [p] the old reference still reads [x], as long as the tree returned is alive; when it
    is dropped and the node had its own allocation, reading through the reference accesses released memory. *)
Theorem C45_reference_after_detach_partial (h : nat) (hd : handle) (it : item A) (path : list nat) (i : nat) (p : ptr) (x : tree A) :
  reachable c -> contents c env -> env !! h = Some it -> c_env c !! h = Some hd ->
  resolve (addr hd) (path ++ [i]) (c_mem c) = Ok (Some p) (c_mem c) -> node_at it (path ++ [i]) = Some x ->
  (exists s, detach_data p (c_mem c) = Ok (p, root_of x) s) /\
  (m_vec (c_mem c) !! p.1 = None -> detach_drop_data p (c_mem c) = Err EUB).
Proof. exact (detach_ref c env h hd it path i p x). Qed.
(** Once the tree is dropped reading through the old reference never works, for any node that is not a root: it accesses released memory,
    unless another node outside the dropped tree is in the same buffer, then it panics. *)
Theorem C45_reference_after_drop_refuted (h : nat) (hd : handle) (it : item A) (path : list nat) (i : nat) (p : ptr) (x : tree A) :
  reachable c -> contents c env -> env !! h = Some it -> c_env c !! h = Some hd ->
  resolve (addr hd) (path ++ [i]) (c_mem c) = Ok (Some p) (c_mem c) -> node_at it (path ++ [i]) = Some x ->
  let other := exists q, live c q /\ q.1 = p.1 /\ ~ exists sub, resolve p sub (c_mem c) = Ok (Some q) (c_mem c) in
  (other -> detach_drop_data p (c_mem c) = Err EPanic) /\ (~ other -> detach_drop_data p (c_mem c) = Err EUB).
Proof. exact (detach_ref_exact c env h hd it path i p x). Qed.
End theorems.

(** concretely: [let a = tr(5); let b = tr(6); mem::swap(a.root, b.root); drop(a); drop(b)] *)
Theorem C44_swap_refuted : exists (os : list (op nat)) (p1 p2 : ptr),
  match run cst0 os with
  | Done _ c => c_env c !! 0 = Some (HT p1) /\ c_env c !! 1 = Some (HT p2) /\
    match swap_nodes p1 p2 (c_mem c) with Ok _ s => run (CSt (c_env c) s) [ODrop 0; ODrop 1] = Fails EUB | Err _ => False end
  | Fails _ => False
  end.
Proof. exists [ONewTree 0 5; ONewTree 1 6], (0,0), (1,0). vm_compute. split_and!; reflexivity. Qed.
(** concretely: [let t = c.detach(); drop(t); c.data()] for the child [c] of [5( 6 )] *)
Theorem C45_detach_then_use_refuted : exists (os : list (op nat)) (p0 p : ptr),
  match run cst0 os with
  | Done _ c => c_env c !! 0 = Some (HT p0) /\ result c (resolve p0 [0]) = Some (Some p) /\ detach_drop_data p (c_mem c) = Err EUB
  | Fails _ => False
  end.
Proof. exists [ONewTree 0 5; ONewTree 1 6; OPush Back 0 [] 1], (0,0), (1,0). vm_compute. split_and!; reflexivity. Qed.

(** the hypotheses are met: two threads drop variables 5 and 6 of the demo, which share a buffer *)
Example C43_demo : reachable demo_c /\ NoDup (concat [[5]; [6]]) /\
  match threads_events (c_env demo_c) [[5]; [6]] (c_mem demo_c) with Ok p _ => map length p | Err _ => [] end = [4; 6].
Proof. split_and!; [exact (proj1 demo_ok)|simpl; repeat constructor; set_solver|vm_compute; reflexivity]. Qed.
(** separate buffers: variables 0 (own allocations) and 5, 6 in one thread *)
Example C43_demo_separate : exists progs, result demo_c (threads_events (c_env demo_c) [[0; 1]; [5; 6]]) = Some progs /\ separate progs.
Proof.
  eexists. split; [vm_compute; reflexivity|]. intros i j l l' v Hi Hj H1 H2.
  destruct i as [|[|i]]; simplify_eq/=; destruct j as [|[|j]]; simplify_eq/=; lia.
Qed.
Example C44_demo : exists p1, c_env demo_c !! 1 = Some (HT p1) /\ m_vec (c_mem demo_c) !! p1.1 = None /\ demo_env !! 1 = Some (ITree (Tr 9 [])).
Proof. exists (5,0). split_and!; vm_compute; reflexivity. Qed.
Example C45_demo : exists p0 p, c_env demo_c !! 0 = Some (HT p0) /\ result demo_c (resolve p0 [0]) = Some (Some p) /\
  node_at (ITree demo_tree) [0] = Some (Tr 1 [Tr 2 []; Tr 3 []]) /\ m_vec (c_mem demo_c) !! p.1 = None.
Proof. exists (0,0), (1,0). split_and!; vm_compute; reflexivity. Qed.

(** variable 6 is 1( 2 3 ) in the buffer of variable 5: the old reference to its first child panics; the child of variable 0: released memory *)
Example C45_demo_both : match c_env demo_c !! 6, c_env demo_c !! 0 with
  | Some h6, Some h0 => match resolve (addr h6) [0] (c_mem demo_c), resolve (addr h0) [0] (c_mem demo_c) with
      | Ok (Some p) _, Ok (Some q) _ => detach_drop_data p (c_mem demo_c) = Err EPanic /\ detach_drop_data q (c_mem demo_c) = Err EUB
      | _, _ => False end
  | _, _ => False end.
Proof. vm_compute. split; reflexivity. Qed.

Print Assumptions C43_threads_never_early_partial.
Print Assumptions C43_threads_exact_partial.
Print Assumptions C43_one_thread.
Print Assumptions C43_any_programs_partial.
Print Assumptions C43_no_leak_refuted.
Print Assumptions C44_without_swap_partial.
Print Assumptions C44_swap_leaves_refuted.
Print Assumptions C44_swap_refuted.
Print Assumptions C45_reference_after_detach_partial.
Print Assumptions C45_reference_after_drop_refuted.
Print Assumptions C45_detach_then_use_refuted.
