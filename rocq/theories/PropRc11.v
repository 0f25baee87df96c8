(** PropRc11.v — C69: shared nodes with a T::drop that uses the library itself. *)
From stdpp Require Import base gmap list.
From Verif Require Import Spec ClientSpec RcSpec RcPlainSpec Machine NodeModel ClientModel RcModel RcClient DropRunSpec RcReentSpec RcReentModel RcReentProofs.

(** C69: whatever [T::drop] does — take new handles for the node that is being released, drop or detach others, push, pop — a program with it gives
    the results, values and panics of the specification and ends in a state that ordinary operations reach, unless the last handle of a node that is stored in a buffer is
    dropped, or such a node is cloned or downgraded (then [qrun true] is [QOut]) *)
Theorem C69_reentrant_partial {A H X : Type} (handler : list nat -> A -> qprog (A:=A) (H:=H) unit) (n : nat) (p : qprog X) (st : H) :
  qrun true handler n p st <> QOut ->
  match sqrun handler n p st with
  | SDone x st' σ => exists c, qrun false handler n p st = QDone x st' c /\ reached c σ /\ m_log (r_mem c) = s_log (rs_x σ)
  | SPanics => qrun false handler n p st = QFails EPanic
  | SDeep => qrun false handler n p st = QFails EStack
  end.
Proof. exact (reent_run handler n p st). Qed.
Print Assumptions C69_reentrant_partial.

(** in particular for programs that make no trees in a buffer, neither themselves nor in [T::drop]: no further condition *)
Theorem C69_buffer_free_partial {A H X : Type} (handler : list nat -> A -> qprog (A:=A) (H:=H) unit) (n : nat) (p : qprog X) (st : H) :
  (forall R a, q_buffer_free (handler R a)) -> q_buffer_free p ->
  match sqrun handler n p st with
  | SDone x st' σ => exists c, qrun false handler n p st = QDone x st' c /\ reached c σ /\ m_log (r_mem c) = s_log (rs_x σ)
  | SPanics => qrun false handler n p st = QFails EPanic
  | SDeep => qrun false handler n p st = QFails EStack
  end.
Proof. exact (reent_buffer_free handler n p st). Qed.
Print Assumptions C69_buffer_free_partial.

(** the memory afterwards: the nodes of the handles are there; without handles and trees nothing is *)
Theorem C69_memory_partial {A H X : Type} (handler : list nat -> A -> qprog (A:=A) (H:=H) unit) (n : nat) (p : qprog X) (st st' : H) (x : X) (c : rst A) :
  qrun true handler n p st <> QOut -> qrun false handler n p st = QDone x st' c ->
  (forall h r, r_h c !! h = Some r -> is_Some (m_heap (r_mem c) !! raddr r)) /\
  (r_env c = ∅ -> r_h c = ∅ -> m_heap (r_mem c) = ∅ /\ m_cnt (r_mem c) = ∅ /\ m_vec (r_mem c) = ∅).
Proof. exact (reent_memory handler n p st x st' c). Qed.
Print Assumptions C69_memory_partial.

(** with more stack (or rounds of a loop), the same end, for nodes of both kinds *)
Theorem C69_stack {A H X : Type} (handler : list nat -> A -> qprog (A:=A) (H:=H) unit) (n m : nat) (p : qprog X) (st : H) : n <= m ->
  qrun false handler n p st <> QFails EStack -> qrun false handler m p st = qrun false handler n p st.
Proof. exact (mono_run false handler n m p st). Qed.
Print Assumptions C69_stack.

(** with a [T::drop] that does nothing, dropping a handle in a program is the operation [drop] of C31 to C36, of whatever kind the node is *)
Theorem C69_idle {A H X : Type} (n m : nat) (R : list nat) (h : nat) (k : bool -> qprog (A:=A) (H:=H) X) (st : H) (c : rst A) (σ σ' : rss A) :
  reached c σ -> h ∉ R -> rsstep σ (SDrop h) = Some (RUnit, σ') -> 2 * S (size (m_heap (r_mem c))) <= m ->
  exists c', rstep c (SDrop h) = RDone RUnit c' /\ reached c' σ' /\
    qbody false (qhandle false (fun _ _ => QRet tt) (S n)) m R (QDrop h k) st c = qbody false (qhandle false (fun _ _ => QRet tt) (S n)) m R (k true) st c'.
Proof. exact (drop_is_drop n m R h k st c σ σ'). Qed.
Print Assumptions C69_idle.

(** a list of operations, then [k] *)
Definition rq_ops {H X} (os : list (rop nat)) (k : qprog (A := nat) (H := H) X) : qprog (A := nat) (H := H) X := foldr (fun o k => QDo o (fun _ => k)) k os.
(** the tree 0(1 2), the node of 1 kept as handle 2: [drop(0)] *)
Definition rq_prog (piled : bool) : qprog (A := nat) (H := nat) unit :=
  rq_ops (map SX [ONewTree 0 0; ONewTree 2 1; OPush Back 0 [] 2; ONewTree 2 2; OPush Back 0 [] 2] ++
          (if piled then [SX (OClone 0 [] 1); SFrom 1 0] else [SFrom 0 0]) ++ [SEnd Back 0 2]) (QDrop 0 (fun _ => QRet tt)).
(** [T::drop] of 1 asks the node of 2 for its parent *)
Definition rq_up (R : list nat) (a : nat) : qprog (A := nat) (H := nat) unit := match a with 1 => QMem S (fun _ => QDo (SParent 2 9) (fun _ => QRet tt)) | _ => QMem S (fun _ => QRet tt) end.
(** and borrows it *)
Definition rq_borrow (R : list nat) (a : nat) : qprog (A := nat) (H := nat) unit := match a with 1 => rq_ops [SParent 2 9; SGuard true 9 0] (QRet tt) | _ => QRet tt end.

(** the root is not released: it lives on as handle 9, with its value and without its children *)
Example C69_witness :
  qrun true rq_up 10 (rq_prog false) 0 <> QOut /\
  match sqrun rq_up 10 (rq_prog false) 0 with
  | SDone _ st σ => st = 1 /\ map_to_list (rs_h σ) = [(9, 0); (2, 2)] /\ rs_sh σ = [LN 0 0 []; LN 2 2 []]
  | _ => False
  end.
Proof. split; [vm_compute; discriminate|vm_compute; split_and!; reflexivity]. Qed.
Example C69_witness_panic : qrun true rq_borrow 10 (rq_prog false) 0 <> QOut /\ sqrun rq_borrow 10 (rq_prog false) 0 = SPanics.
Proof. split; [vm_compute; discriminate|vm_compute; reflexivity]. Qed.

(** without the handles 2 and 9 nothing is left *)
Example C69_memory_witness : exists c, qrun true rq_up 10 (rq_ops [SX (ONewTree 0 0); SX (ONewTree 2 1); SX (OPush Back 0 [] 2); SFrom 0 0] (QDrop 0 (fun _ => QRet tt))) 0 = QDone tt 2 c /\
  map_to_list (r_env c) = [] /\ map_to_list (r_h c) = [].
Proof. eexists. split; [vm_compute; reflexivity|split; vm_compute; reflexivity]. Qed.
(** ** [T::drop] in [T::drop].  Trees 0(1 2 3) of handle 0 and 50(51) of handle 5; handle 2: the node of 3; weak reference 7: the node of 0.
    [T::drop] of 1 drops handle 5; that of 51 cannot drop handle 5, whose release is under way, and detaches the node of handle 2; that of 50 upgrades a weak reference of the root that is being dropped and pops a child of it *)
Definition rq_nest (R : list nat) (a : nat) : qprog (A := nat) (H := list nat) unit :=
  QMem (fun l => l ++ [a]) (fun _ =>
  match a with
  | 1 => QDrop 5 (fun _ => QRet tt)
  | 51 => QDrop 5 (fun b => if b then QMem (fun l => l ++ [1000]) (fun _ => QRet tt) else QDo (SDetach 2) (fun _ => QRet tt))
  | 50 => QDo (SUp 7 8) (fun _ => QDo (SPop Front 8 9) (fun _ => QDrop 9 (fun _ => QRet tt)))
  | _ => QRet tt
  end).
Definition rq_prog2 : qprog (A := nat) (H := list nat) unit :=
  rq_ops (map SX [ONewTree 0 0; ONewTree 2 1; OPush Back 0 [] 2; ONewTree 2 2; OPush Back 0 [] 2; ONewTree 2 3; OPush Back 0 [] 2; ONewTree 5 50; ONewTree 2 51; OPush Back 5 [] 2] ++
          [SFrom 0 0; SFrom 5 5; SEnd Back 0 2; SDown 0 7]) (QDrop 0 (fun _ => QRet tt)).
(** the value 2 is dropped in the pop of the [T::drop] of 50; the nodes of 0 and 3 live on as handles 8 and 2 *)
Example C69_witness_nested :
  qrun true rq_nest 20 rq_prog2 [] <> QOut /\
  match sqrun rq_nest 20 rq_prog2 [] with
  | SDone _ st σ => st = [1; 51; 50; 2] /\ map_to_list (rs_h σ) = [(2, 3); (8, 0)] /\ rs_sh σ = [LN 0 0 []; LN 3 3 []] /\ s_log (rs_x σ) = [1; 51; 50; 2]
  | _ => False
  end.
Proof. split; [vm_compute; discriminate|vm_compute; split_and!; reflexivity]. Qed.

Example C69_stack_witness : qrun false rq_nest 3 rq_prog2 [] = QFails EStack /\ qrun false rq_nest 20 rq_prog2 [] <> QFails EStack.
Proof. split; [vm_compute; reflexivity|vm_compute; discriminate]. Qed.
Example C69_buffer_free_witness : (forall R a, q_buffer_free (rq_nest R a)) /\ q_buffer_free rq_prog2.
Proof.
  split; [|repeat split].
  assert (H : forall P : nat -> Prop, P 1 -> P 51 -> P 50 -> (forall a, a <> 1 -> a <> 51 -> a <> 50 -> P a) -> forall a, P a).
  { intros P H1 H2 H3 H4 a. destruct (decide (a = 1)) as [->|]; [done|]. destruct (decide (a = 51)) as [->|]; [done|]. destruct (decide (a = 50)) as [->|]; auto. }
  intros R. apply H.
  - repeat split.
  - intros l [|]; repeat split.
  - repeat split.
  - intros a H1 H2 H3 l. do 52 (destruct a as [|a]; [try done; split|]). done.
Qed.

Definition rq_os : list (rop nat) := [SX (ONewTree 0 5); SX (ONewTree 1 6); SX (OPush Back 0 [] 1); SFrom 0 0].
Definition rq_c : rst nat := match rrun rst0 rq_os with RDone _ c => c | RFails _ => rst0 end.
Definition rq_σ : rss nat := match rsrun rss0 rq_os with Some (_, σ) => σ | None => rss0 end.
Example C69_idle_witness : reached rq_c rq_σ /\ 0 ∉ [] /\ 2 * S (size (m_heap (r_mem rq_c))) <= 6 /\
  match rsstep rq_σ (SDrop 0) with Some (RUnit, σ') => s_log (rs_x σ') = [6; 5] | _ => False end.
Proof.
  split; [exists rq_os, [RUnit; RUnit; RUnit; RUnit]; split; [vm_compute; tauto|split; vm_compute; reflexivity]|].
  split; [apply not_elem_of_nil|]. split; [apply Nat.leb_le; vm_compute; reflexivity|vm_compute; reflexivity].
Qed.

(** it is false of nodes stored in a buffer: [parent()] of the child panics, because [RefCount::incr] does not accept the count 0 of the node that is
    being released (rc.rs:27-36) *)
Theorem C69_reentrant_refuted : exists (handler : list nat -> nat -> qprog (A:=nat) (H:=nat) unit) n (p : qprog unit) st,
  match sqrun handler n p st with SDone _ _ _ => True | _ => False end /\ qrun false handler n p st = QFails EPanic.
Proof. exists rq_up, 10, (rq_prog true), 0. split; vm_compute; [exact I|reflexivity]. Qed.
Print Assumptions C69_reentrant_refuted.
