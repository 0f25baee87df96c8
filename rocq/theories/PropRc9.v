(** PropRc9.v — C58: [Debug] of shared nodes; C55: comparing, hashing and printing shared nodes, and [Debug] of nodes, with a bounded call stack.
    [reached c σ] (RcClient): any history of the shared interface within what rc.rs allows; [handle_for c σ r t] (RcCmpClient): a variable of the client holds [r], a
    handle of the node whose subtree is [t]; [locked σ t]: a [RefMut] on some node of [t] is alive; [evals]/[panics]: the call returns the value and has no effect / panics. *)
From Coq Require Import Ascii String.
From stdpp Require Import base gmap list.
From Verif Require Import Spec ClientSpec RcSpec Machine NodeModel ClientModel Reach Demo CmpSpec CmpModel RcModel RcCmpModel RcAllowed RcClient RcCmpClient RcStep4 RcProps2 RcDemo
  DebugModel DebugSpec RcDebugModel RcDebugProofs StackModel StackCmpModel StackRcCmpModel StackRcCmpProofs.

(** * C58.  [Debug] prints the value of every node of the subtree with its children in parentheses, and panics if a node is mutably borrowed.  After each value comes
    the address of the handle printed ([slot path]: any text), which is a variable of the client or of the recursion, and not the node's. *)
Theorem C58_debug_shared {A : Type} (show : A -> string) (slot : list nat -> string) (c : rst A) (σ : rss A) (r : rnode) (t : ltree A) :
  reached c σ -> handle_for c σ r t ->
  (~ locked σ t -> evals c (rc_dbg show slot (r_b c) r) (debug_at show slot [] (erase t))) /\ (locked σ t -> panics c (rc_dbg show slot (r_b c) r)).
Proof. exact (fun HR => rc_dbg_prop show slot c σ HR r t). Qed.
Print Assumptions C58_debug_shared.
(** the demo client: variable 1 is the node 1( 2 3 ); then with a [RefMut] on the node 3 *)
Definition dg (n : nat) : string := String (ascii_of_nat (48 + n)) "".
Definition depth_slot (path : list nat) : string := (dg (length path)).
Definition cdbg (os : list (rop nat)) (h : nat) : option (option string) :=
  match r_h (after_c os) !! h with Some r => Some (match rc_dbg dg depth_slot (r_b (after_c os)) r (r_mem (after_c os)) with Ok w _ => Some w | Err _ => None end) | None => None end.
Example C58_shared_ex : reached (after_c shared_ops) (after_s shared_ops) /\
  r_h (after_c shared_ops) !! 1 = Some (RScat (1, 0)) /\ handle_for (after_c shared_ops) (after_s shared_ops) (RScat (1, 0)) (LN 1 1 [LN 2 2 []; LN 3 3 []]) /\
  cdbg shared_ops 1 = Some (Some "1@0 ( 2@1 3@1 )"%string) /\ cdbg (shared_ops ++ [SGuard true 3 0]) 1 = Some None /\
  reached (after_c (shared_ops ++ [SGuard true 3 0])) (after_s (shared_ops ++ [SGuard true 3 0])) /\ locked (after_s (shared_ops ++ [SGuard true 3 0])) (LN 1 1 [LN 2 2 []; LN 3 3 []]).
Proof.
  split; [apply after_reached; [vm_compute; reflexivity|vm_compute; eauto]|]. split; [vm_compute; reflexivity|]. split; [exists 1, 1; vm_compute; auto|]. split; [vm_compute; reflexivity|]. split; [vm_compute; reflexivity|].
  split; [apply after_reached; [vm_compute; reflexivity|vm_compute; eauto]|]. exists 3. vm_compute. split; [repeat constructor|reflexivity].
Qed.

(** * C55.  With room for [D] nested calls, comparing two shared nodes without mutable borrows in their trees works exactly if [D] is at least [depth_needed] (one call,
    and if the data are the same those for the children, pair by pair, up to the first pair that differs); the answer is then the right one. *)
Section C55.
Context {A : Type} (c : rst A) (σ : rss A) (r r' : rnode) (t u : ltree A) (D : nat).
Theorem C55_rc_eq_depth_partial (eqA : A -> A -> bool) : reached c σ -> handle_for c σ r t -> handle_for c σ r' u -> ~ locked σ t -> ~ locked σ u ->
  exists b, (b = true <-> tree_rel (fun a b => eqA a b = true) (erase t) (erase u)) /\
    rc_eq_stack eqA (r_b c) D r r' (r_mem c) = if decide (depth_needed eqA (erase t) (erase u) <= D) then Ok b (r_mem c) else Err EStack.
Proof. exact (fun HR => call_rc_eq_lim c σ HR eqA D r r' t u). Qed.
Theorem C55_rc_ne_depth_partial (eqA neA : A -> A -> bool) : (forall a b, neA a b = negb (eqA a b)) ->
  reached c σ -> handle_for c σ r t -> handle_for c σ r' u -> ~ locked σ t -> ~ locked σ u ->
  exists b, (b = true <-> ~ tree_rel (fun a b => eqA a b = true) (erase t) (erase u)) /\
    rc_ne_stack eqA neA (r_b c) D r r' (r_mem c) = if decide (depth_needed eqA (erase t) (erase u) <= D) then Ok b (r_mem c) else Err EStack.
Proof. exact (fun Hn HR => call_rc_ne_lim c σ HR eqA neA D r r' t u Hn). Qed.
Theorem C55_rc_partial_cmp_depth_partial (pc : A -> A -> option comparison) : reached c σ -> handle_for c σ r t -> handle_for c σ r' u -> ~ locked σ t -> ~ locked σ u ->
  rc_pcmp_stack pc (r_b c) D r r' (r_mem c) =
    if decide (depth_needed (fun a b => match pc a b with Some Eq => true | _ => false end) (erase t) (erase u) <= D) then Ok (tree_pcmp pc (erase t) (erase u)) (r_mem c) else Err EStack.
Proof. exact (fun HR => call_rc_pcmp_lim c σ HR pc D r r' t u). Qed.
Theorem C55_rc_cmp_depth_partial (cm : A -> A -> comparison) : reached c σ -> handle_for c σ r t -> handle_for c σ r' u -> ~ locked σ t -> ~ locked σ u ->
  rc_cmp_stack cm (r_b c) D r r' (r_mem c) =
    if decide (depth_needed (fun a b => match cm a b with Eq => true | _ => false end) (erase t) (erase u) <= D) then Ok (tree_cmp cm (erase t) (erase u)) (r_mem c) else Err EStack.
Proof. exact (fun HR => call_rc_cmp_lim c σ HR cm D r r' t u). Qed.
(** Hashing and printing a shared node takes one nested call per level of its subtree. *)
Theorem C55_rc_read_depth_partial : reached c σ -> handle_for c σ r t -> ~ locked σ t ->
  (forall H (h : A -> list H), rc_hash_stack h (r_b c) D r (r_mem c) = if decide (height (erase t) <= D) then Ok (flat_map h (preorder (erase t))) (r_mem c) else Err EStack) /\
  (forall show, rc_fmt_stack show (r_b c) D r (r_mem c) = if decide (height (erase t) <= D) then Ok (display show (erase t)) (r_mem c) else Err EStack) /\
  (forall show slot, rc_dbg_stack show slot (r_b c) D [] r (r_mem c) = if decide (height (erase t) <= D) then Ok (debug_at show slot [] (erase t)) (r_mem c) else Err EStack).
Proof. exact (fun HR => call_rc_read_lim c σ HR D r t). Qed.
End C55.
Print Assumptions C55_rc_eq_depth_partial.
Print Assumptions C55_rc_ne_depth_partial.
Print Assumptions C55_rc_partial_cmp_depth_partial.
Print Assumptions C55_rc_cmp_depth_partial.
Print Assumptions C55_rc_read_depth_partial.
(** So does [Debug] of a node of a tree or forest that is not shared. *)
Theorem C55_debug_depth_partial {A : Type} (show : A -> string) (showp : ptr -> string) (c : cst A) (env : gmap nat (item A)) (D : nat) (p : ptr) (x : tree A) :
  reachable c -> contents c env -> node_is c env p x ->
  node_dbg_stack show showp D p (c_mem c) = if decide (height x <= D) then node_dbg show showp p (c_mem c) else Err EStack.
Proof. exact (call_dbg_stack show showp c env D p x). Qed.
Print Assumptions C55_debug_depth_partial.

(** the node 1( 2 3 ) (variable 1) and its deep clone (variable 4) *)
Definition cmp9_ops : list (rop nat) := shared_ops ++ [SDeepClone 1 9; SFrom 9 4].
Definition eq9 (D : nat) : option bool :=
  match r_h (after_c cmp9_ops) !! 1, r_h (after_c cmp9_ops) !! 4 with
  | Some r, Some r' => match rc_eq_stack Nat.eqb (r_b (after_c cmp9_ops)) D r r' (r_mem (after_c cmp9_ops)) with Ok b _ => Some b | Err _ => None end
  | _, _ => None
  end.
Example C55_rc_cmp_ex : reached (after_c cmp9_ops) (after_s cmp9_ops) /\
  r_h (after_c cmp9_ops) !! 1 = Some (RScat (1, 0)) /\ r_h (after_c cmp9_ops) !! 4 = Some (RPile 5 0) /\
  handle_for (after_c cmp9_ops) (after_s cmp9_ops) (RScat (1, 0)) (LN 1 1 [LN 2 2 []; LN 3 3 []]) /\ handle_for (after_c cmp9_ops) (after_s cmp9_ops) (RPile 5 0) (LN 5 1 [LN 6 2 []; LN 7 3 []]) /\
  map_to_list (rs_g (after_s cmp9_ops)) = [] /\
  depth_needed Nat.eqb (Tr 1 [Tr 2 []; Tr 3 []]) (Tr 1 [Tr 2 []; Tr 3 []]) = 2 /\ eq9 1 = None /\ eq9 2 = Some true.
Proof.
  split; [apply after_reached; [vm_compute; reflexivity|vm_compute; eauto]|]. split; [vm_compute; reflexivity|]. split; [vm_compute; reflexivity|].
  split; [exists 1, 1; vm_compute; auto|]. split; [exists 4, 5; vm_compute; auto|]. vm_compute. auto.
Qed.
Definition dnode : ptr := match c_env demo_c !! 0 with Some hd => addr hd | None => (0, 0) end.
Example C55_debug_ex : reachable demo_c /\ contents demo_c demo_env /\ node_is demo_c demo_env dnode demo_tree /\ height demo_tree = 3 /\
  match node_dbg_stack dg (fun _ => "p"%string) 2 dnode (c_mem demo_c), node_dbg_stack dg (fun _ => "p"%string) 3 dnode (c_mem demo_c) with
  | Err EStack, Ok w _ => w = "0@p ( 1@p ( 2@p 3@p )4@p )"%string | _, _ => False end.
Proof.
  split; [exact (proj1 demo_ok)|]. split; [exact (proj2 demo_ok)|]. split.
  - exists 0. do 2 eexists. exists []. split; [vm_compute; reflexivity|]. split; [vm_compute; reflexivity|]. split; vm_compute; reflexivity.
  - split; [vm_compute; reflexivity|]. vm_compute. reflexivity.
Qed.
