(** PropStack2.v — C55 for comparisons and for [RcNode].  [eq_stack D], [ne_stack D], [pcmp_stack D], [cmp_stack D] (StackModel, StackCmpModel): the recursive
    functions when [D] calls of them fit on the stack.  [depth_needed same x y] (StackCmpModel): one call, and if the data are the same those for the children
    too, pair by pair, up to the first pair that differs.  [tree_rel], [tree_pcmp], [tree_cmp]: CmpSpec.  For [RcNode]: the depth of the calls of [drop].  [rc_drop_stack D] (StackRcModel): [Drop for RcNode] when [D] nested calls of it fit
    on the stack; [EStack]: the stack overflows and the process is aborted.  [reached c σ] (RcClient): any history within what rc.rs allows. *)
From stdpp Require Import base gmap list.
From Verif Require Import Spec ClientSpec RcSpec Machine NodeModel ClientModel Reach CmpSpec Demo RcModel RcAllowed RcClient RcDemo StackModel StackCmpModel StackCmpProofs StackRcModel StackRcProofs.

(** Comparing any two nodes of a client takes room for exactly as many nested calls as [depth_needed] says; the answer is then the right one. *)
Theorem C55_eq_depth_partial {A : Type} (eqA : A -> A -> bool) (c : cst A) (env : gmap nat (item A)) (D : nat) (p q : ptr) (x y : tree A) :
  reachable c -> contents c env -> node_is c env p x -> node_is c env q y ->
  exists b, (b = true <-> tree_rel (fun a b => eqA a b = true) x y) /\
    eq_stack eqA D p q (c_mem c) = if decide (depth_needed eqA x y <= D) then Ok b (c_mem c) else Err EStack.
Proof. exact (fun Hr Hc => call_eq_exact c env Hr Hc eqA D p q x y). Qed.
Print Assumptions C55_eq_depth_partial.
Theorem C55_ne_depth_partial {A : Type} (eqA neA : A -> A -> bool) (c : cst A) (env : gmap nat (item A)) (D : nat) (p q : ptr) (x y : tree A) :
  (forall a b, neA a b = negb (eqA a b)) -> reachable c -> contents c env -> node_is c env p x -> node_is c env q y ->
  exists b, (b = true <-> ~ tree_rel (fun a b => eqA a b = true) x y) /\
    ne_stack eqA neA D p q (c_mem c) = if decide (depth_needed eqA x y <= D) then Ok b (c_mem c) else Err EStack.
Proof. exact (fun Hn Hr Hc => call_ne_exact c env Hr Hc eqA neA D p q x y Hn). Qed.
Print Assumptions C55_ne_depth_partial.
Theorem C55_partial_cmp_depth_partial {A : Type} (pc : A -> A -> option comparison) (c : cst A) (env : gmap nat (item A)) (D : nat) (p q : ptr) (x y : tree A) :
  reachable c -> contents c env -> node_is c env p x -> node_is c env q y ->
  pcmp_stack pc D p q (c_mem c) =
    if decide (depth_needed (fun a b => match pc a b with Some Eq => true | _ => false end) x y <= D) then Ok (tree_pcmp pc x y) (c_mem c) else Err EStack.
Proof. exact (fun Hr Hc => call_pcmp_exact c env Hr Hc pc D p q x y). Qed.
Print Assumptions C55_partial_cmp_depth_partial.
Theorem C55_cmp_depth_partial {A : Type} (cm : A -> A -> comparison) (c : cst A) (env : gmap nat (item A)) (D : nat) (p q : ptr) (x y : tree A) :
  reachable c -> contents c env -> node_is c env p x -> node_is c env q y ->
  cmp_stack cm D p q (c_mem c) =
    if decide (depth_needed (fun a b => match cm a b with Eq => true | _ => false end) x y <= D) then Ok (tree_cmp cm x y) (c_mem c) else Err EStack.
Proof. exact (fun Hr Hc => call_cmp_exact c env Hr Hc cm D p q x y). Qed.
Print Assumptions C55_cmp_depth_partial.

(** the demo client: variable 0 is 0( 1( 2 3 ) 4 ) *)
Definition demo_node : ptr := match c_env demo_c !! 0 with Some hd => addr hd | None => (0, 0) end.
Example C55_cmp_ex : reachable demo_c /\ contents demo_c demo_env /\ node_is demo_c demo_env demo_node demo_tree /\
  depth_needed Nat.eqb demo_tree demo_tree = 3 /\ depth_needed Nat.eqb demo_tree (Tr 0 [Tr 7 [Tr 2 []]]) = 2 /\ depth_needed Nat.eqb demo_tree (Tr 8 []) = 1 /\
  match cmp_stack Nat.compare 2 demo_node demo_node (c_mem demo_c), cmp_stack Nat.compare 3 demo_node demo_node (c_mem demo_c) with Err EStack, Ok Eq _ => True | _, _ => False end.
Proof.
  split; [exact (proj1 demo_ok)|]. split; [exact (proj2 demo_ok)|]. split.
  - exists 0. do 2 eexists. exists []. split; [vm_compute; reflexivity|]. split; [vm_compute; reflexivity|]. split; vm_compute; reflexivity.
  - do 3 (split; [vm_compute; reflexivity|]). vm_compute. exact I.
Qed.

(** C55 is false for [RcNode] too: whatever the size of the stack, there is an [RcNode] that a client can obtain and cannot drop. *)
Theorem C55_rc_bounded_stack_refuted : forall D : nat, exists (c : rst nat) (σ : rss nat) (h : nat) (r : rnode) (i : nat),
  reached c σ /\ rs_h σ !! h = Some i /\ rs_g σ = ∅ /\ r_h c !! h = Some r /\ rc_drop_stack D (r_b c) r (r_mem c) = Err EStack.
Proof. exact rc_stack_overflows. Qed.
Print Assumptions C55_rc_bounded_stack_refuted.

(** What holds: dropping the variable [h] of node [i] needs room for exactly [drop_height σ h i] nested calls — one if the node has a parent or another
    variable, otherwise one per level of its tree, where the nodes that still have a variable end the recursion — and then all is as without a bound. *)
Theorem C55_rc_drop_partial {A : Type} (c : rst A) (σ : rss A) (h : nat) (r : rnode) (i D : nat) :
  reached c σ -> rs_h σ !! h = Some i -> h ∉ ((map_to_list (rs_g σ)).*2).*1 -> r_h c !! h = Some r ->
  rc_drop_stack D (r_b c) r (r_mem c) = if decide (drop_height σ h i <= D) then rc_drop_handle (r_b c) r (r_mem c) else Err EStack.
Proof. exact (call_rc_drop_stack c σ h r i D). Qed.
Print Assumptions C55_rc_drop_partial.

(** the demo client: variable 0 is the root of 0( 1( 2 3 ) 4 ), whose child 1 has variables too; then all other variables are dropped *)
Definition released : list (rop nat) := shared_ops ++ [SDrop 1; SDrop 2; SDrop 3].
Example C55_rc_ex : reached rdemo_c rdemo_s /\ rs_h rdemo_s !! 0 = Some 0 /\ map_to_list (rs_g rdemo_s) = [] /\ drop_height rdemo_s 0 0 = 2 /\
  match r_h rdemo_c !! 0 with Some r => match rc_drop_stack 1 (r_b rdemo_c) r (r_mem rdemo_c), rc_drop_stack 2 (r_b rdemo_c) r (r_mem rdemo_c) with
    | Err EStack, Ok _ _ => True | _, _ => False end | None => False end /\
  reached (after_c released) (after_s released) /\ drop_height (after_s released) 0 0 = 3 /\
  match r_h (after_c released) !! 0 with Some r => match rc_drop_stack 2 (r_b (after_c released)) r (r_mem (after_c released)), rc_drop_stack 3 (r_b (after_c released)) r (r_mem (after_c released)) with
    | Err EStack, Ok _ _ => True | _, _ => False end | None => False end.
Proof.
  split; [exact rdemo_reached|]. split; [vm_compute; reflexivity|]. split; [vm_compute; reflexivity|]. split; [vm_compute; reflexivity|]. split; [vm_compute; exact I|].
  split; [apply after_reached; [vm_compute; reflexivity|vm_compute; eauto]|]. split; [vm_compute; reflexivity|vm_compute; exact I].
Qed.
