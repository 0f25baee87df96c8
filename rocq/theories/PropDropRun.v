(** PropDropRun.v — C68: a [T::drop] that uses the library itself. *)
From stdpp Require Import base gmap list.
From Verif Require Import Spec ClientSpec Machine NodeModel ClientModel DropRunSpec DropRunModel DropRunProofs.

(** Every client program, whatever [T::drop] of its values does to the trees that are not being dropped or borrowed, with any depth of [T::drop] in
    [T::drop]: the result, the other state, the contents of all variables and the values dropped, in order, are those of DropRunSpec.v; a program
    that panics there panics; a stack that is too small there is too small; no other failure (use of freed memory, reference-count misuse, an
    exhausted loop bound) occurs *)
Theorem C68_program {A H X : Type} (handler : A -> dprog (A := A) (H := H) unit) (n : nat) (p : dprog X) (st : H) :
  match sdrun handler n p st with
  | DDone x st' σ => exists c, mdrun handler n p st = MDone x st' c /\ contents c (s_env σ) /\ m_log (c_mem c) = s_log σ
  | DPanics => mdrun handler n p st = MFails EPanic
  | DDeep => mdrun handler n p st = MFails EStack
  end.
Proof. exact (drun_refines handler n p st). Qed.
Print Assumptions C68_program.

(** the memory afterwards: the nodes of the variables, and slots of buffers in which such a node lives; nothing when there are no variables *)
Theorem C68_memory {A H X : Type} (handler : A -> dprog (A := A) (H := H) unit) (n : nat) (p : dprog X) (st st' : H) (x : X) (c : cst A) :
  mdrun handler n p st = MDone x st' c ->
  (forall q, live c q -> is_Some (m_heap (c_mem c) !! q)) /\
  (forall q, is_Some (m_heap (c_mem c) !! q) ->
     live c q \/ exists cap rc q', m_vec (c_mem c) !! q.1 = Some (cap, rc) /\ q.2 < cap /\ live c q' /\ q'.1 = q.1) /\
  (forall v, is_Some (m_vec (c_mem c) !! v) -> exists q, live c q /\ q.1 = v) /\
  (c_env c = ∅ -> m_heap (c_mem c) = ∅ /\ m_cnt (c_mem c) = ∅ /\ m_vec (c_mem c) = ∅).
Proof. exact (drun_memory handler n p st st' x c). Qed.
Print Assumptions C68_memory.

(** with more stack, the same result, contents and values dropped *)
Theorem C68_stack {A H X : Type} (handler : A -> dprog (A := A) (H := H) unit) (n m : nat) (p : dprog X) (st : H) : n <= m ->
  mdrun handler n p st <> MFails EStack ->
  match mdrun handler n p st, mdrun handler m p st with
  | MDone x st1 c, MDone x' st2 c' => x = x' /\ st1 = st2 /\ m_log (c_mem c) = m_log (c_mem c') /\ exists e, contents c e /\ contents c' e
  | MFails e, MFails e' => e = e'
  | _, _ => False
  end.
Proof. exact (mdrun_mono handler n m p st). Qed.
Print Assumptions C68_stack.

(** a [T::drop] that does nothing: the operations of ClientSpec.v (and, for the assignment, the old value among those dropped) *)
Theorem C68_idle {A H X : Type} (n : nat) (R : list nat) (h : nat) (path : list nat) (v : A) (k : bool -> dprog X) (st : H) (σ : sst A) :
  (sbody (shandle (fun _ => DRet tt) (S n)) R (DDrop h k) st σ =
   match sstep σ (ODrop h) with
   | Some (RUnit, σ') => sbody (shandle (fun _ => DRet tt) (S n)) R (k true) st σ'
   | _ => sbody (shandle (fun _ => DRet tt) (S n)) R (k false) st σ
   end) /\
  (sbody (shandle (fun _ => DRet tt) (S n)) R (DSet h path v k) st σ =
   match sstep σ (OData h path), sstep σ (OModify h path (fun _ => v)) with
   | Some (RVal a, _), Some (RUnit, σ') => sbody (shandle (fun _ => DRet tt) (S n)) R (k true) st (SSt (s_env σ') (s_log σ' ++ [a]))
   | _, _ => sbody (shandle (fun _ => DRet tt) (S n)) R (k false) st σ
   end).
Proof. exact (conj (drop_idle n R h k st σ) (set_idle n R h path v k st σ)). Qed.
Print Assumptions C68_idle.

(** ** Examples.  Variable 0: 0( 1 2( 3 ) ); variable 1: an empty forest; variable 3: 30( 31 ).  The other state: the number of calls of [T::drop]. *)
Definition dd {X} (os : list (op nat)) (k : dprog (A := nat) (H := nat) X) : dprog X := foldr (fun o k => DDo o (fun _ => k)) k os.
(** - a value below 4 appends a tree with the value + 100 to the forest; 2 moreover drops variable 3 and tries to drop variable 0;
    - 31 assigns 500 to the first tree of the forest, and tries to use the forest in the [T::drop] of the value it replaces (101);
    - the values from 100 on create a tree under the name of the variable that is borrowed: not possible *)
Definition handler (a : nat) : dprog (A := nat) (H := nat) unit :=
  DMem S (fun _ =>
    match a with
    | 31 => DSet 1 [0] 500 (fun _ => DRet tt)
    | 30 => DRet tt
    | 2 => dd [ONewTree 9 102; OPush Back 1 [] 9] (DDrop 3 (fun b => DDrop 0 (fun b' => DMem (fun n => n + (if b then 1000 else 0) + (if b' then 5000 else 0)) (fun _ => DRet tt))))
    | 0 | 1 | 3 => dd [ONewTree 9 (100 + a); OPush Back 1 [] 9] (DRet tt)
    | _ => dd [ONewTree 1 7; OPop Front 1 [] 8] (DRet tt)
    end).
Definition prog : dprog (A := nat) (H := nat) (list (out nat)) :=
  dd [ONewTree 0 0; ONewTree 2 1; OPush Back 0 [] 2; ONewTree 2 2; ONewTree 4 3; OPush Back 2 [] 4; OPush Back 0 [] 2; ONewForest 1;
      ONewTree 3 30; ONewTree 4 31; OPush Back 3 [] 4]
    (DDrop 0 (fun _ => DDo (OBfsChildren 1 []) (fun r => DDo (OData 3 []) (fun r' => DRet [r; r'])))).
Example C68_ex : match mdrun handler 3 prog 0 with MDone x st c => Some (x, st, m_log (c_mem c), length (map_to_list (m_heap (c_mem c)))) | _ => None end =
  Some ([RVisits [(500, 0, 0); (103, 0, 0); (102, 0, 0); (100, 0, 0)]; RBad], 1007, [1; 3; 2; 31; 101; 30; 0], 5).
Proof. vm_compute. reflexivity. Qed.
Example C68_ex_deep : match mdrun handler 2 prog 0 with MFails e => Some e | _ => None end = Some EStack.
Proof. vm_compute. reflexivity. Qed.
Example C68_ex_stack : mdrun handler 3 prog 0 <> MFails EStack.
Proof. vm_compute. congruence. Qed.
(** [T::drop] that panics: [insert_next_sib] on a root *)
Example C68_ex_panic : match mdrun (fun a => dd [ONewTree 8 0; ONewTree 9 0; OInsert Back 8 [] 9] (DRet tt)) 1
    (dd [ONewTree 0 0] (DDrop 0 (fun _ => DRet tt))) 0 with MFails e => Some e | _ => None end = Some EPanic.
Proof. vm_compute. reflexivity. Qed.
(** the values from 100 on leave a tree in variable 1, whose name is free again while the forest in it is dropped *)
Example C68_ex_name : match mdrun handler 4 (dd [ONewForest 1; ONewTree 0 1] (DDrop 0 (fun b => DDrop 1 (fun b' => DRet (b, b'))))) 0 with
  MDone x st c => Some (x, st, m_log (c_mem c), map_to_list (c_env c), length (map_to_list (m_heap (c_mem c)))) | _ => None end =
  Some ((true, true), 2, [1; 101], [(1, HT (3, 0))], 1).
Proof. vm_compute. reflexivity. Qed.
(** dropping every variable leaves nothing *)
Example C68_ex_end : match mdrun (fun a => DDrop (S a) (fun _ => DMem S (fun _ => DRet tt))) 3
    (dd [ONewTree 0 0; ONewTree 1 1; ONewTree 2 2; ONewTree 5 5; OPush Back 1 [] 5] (DDrop 0 (fun b => DRet b))) 0 with
  MDone x st c => Some (x, st, m_log (c_mem c), map_to_list (c_env c), length (map_to_list (m_heap (c_mem c)))) | _ => None end =
  Some (true, 4, [0; 5; 1; 2], [], 0).
Proof. vm_compute. reflexivity. Qed.
