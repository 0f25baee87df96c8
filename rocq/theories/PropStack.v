(** PropStack.v — C55: the depth of the call stack.  [drop_stack D], [hash_stack D], ... (StackModel) are the recursive functions of the code when [D] calls
    of them fit on the stack; [EStack]: the stack overflows and the process is aborted. *)
From Coq Require Import Ascii String.
From stdpp Require Import base gmap list.
From Verif Require Import Spec ClientSpec Machine NodeModel ClientModel Reach CmpSpec StackModel StackProofs Demo.

(** C55 is false: whatever the size of the stack, there is a tree that a client can build and cannot drop. *)
Theorem C55_bounded_stack_refuted : forall D : nat, exists (c : cst nat) (env : gmap nat (item nat)) (h : nat) (hd : handle) (it : item nat),
  reachable c /\ contents c env /\ env !! h = Some it /\ c_env c !! h = Some hd /\ drop_stack D (addr hd) (c_mem c) = Err EStack.
Proof. exact stack_overflows. Qed.
Print Assumptions C55_bounded_stack_refuted.

(** What holds: the stack suffices exactly when it has room for as many calls as the tree has levels, and then everything is as without a bound. *)
Theorem C55_drop_partial {A : Type} (c : cst A) (env : gmap nat (item A)) (D h : nat) (hd : handle) (it : item A) :
  reachable c -> contents c env -> env !! h = Some it -> c_env c !! h = Some hd ->
  drop_stack D (addr hd) (c_mem c) = if decide (item_height it <= D) then drop_tree (addr hd) (c_mem c) else Err EStack.
Proof. exact (fun Hr Hc => call_drop_stack c env Hr Hc D h hd it). Qed.
Print Assumptions C55_drop_partial.
Theorem C55_hash_partial {A B : Type} (hashA : A -> list B) (c : cst A) (env : gmap nat (item A)) (D : nat) (p : ptr) (x : tree A) :
  reachable c -> contents c env -> node_is c env p x ->
  hash_stack hashA D p (c_mem c) = if decide (height x <= D) then Ok (flat_map hashA (preorder x)) (c_mem c) else Err EStack.
Proof. exact (fun Hr Hc => call_hash_stack c env Hr Hc hashA D p x). Qed.
Print Assumptions C55_hash_partial.
Theorem C55_display_partial {A : Type} (show : A -> string) (c : cst A) (env : gmap nat (item A)) (D : nat) (p : ptr) (x : tree A) :
  reachable c -> contents c env -> node_is c env p x ->
  fmt_stack show D p (c_mem c) = if decide (height x <= D) then Ok (display show x) (c_mem c) else Err EStack.
Proof. exact (fun Hr Hc => call_fmt_stack c env Hr Hc show D p x). Qed.
Print Assumptions C55_display_partial.
Theorem C55_eq_partial {A : Type} (eqA : A -> A -> bool) (c : cst A) (env : gmap nat (item A)) (D : nat) (p q : ptr) (x y : tree A) :
  reachable c -> contents c env -> node_is c env p x -> node_is c env q y -> tree_rel (fun a b => eqA a b = true) x y ->
  eq_stack eqA D p q (c_mem c) = if decide (height x <= D) then Ok true (c_mem c) else Err EStack.
Proof. exact (fun Hr Hc => call_eq_stack c env Hr Hc eqA D p q x y). Qed.
Print Assumptions C55_eq_partial.
(** Two trees that need not be equal: the answer is right, or the stack overflows, and then both trees have more levels than there is room for. *)
Theorem C55_eq_any_partial {A : Type} (eqA : A -> A -> bool) (c : cst A) (env : gmap nat (item A)) (D : nat) (p q : ptr) (x y : tree A) :
  reachable c -> contents c env -> node_is c env p x -> node_is c env q y ->
  (exists b, eq_stack eqA D p q (c_mem c) = Ok b (c_mem c) /\ (b = true <-> tree_rel (fun a b => eqA a b = true) x y)) \/
  (D < height x /\ D < height y /\ eq_stack eqA D p q (c_mem c) = Err EStack).
Proof. exact (fun Hr Hc => call_eq_stack_any c env Hr Hc eqA D p q x y). Qed.
Print Assumptions C55_eq_any_partial.

(** the demo client: variable 0 is 0( 1( 2 3 ) 4 ), of height 3 *)
Definition demo_addr : ptr := match c_env demo_c !! 0 with Some hd => addr hd | None => (0, 0) end.
Example C55_ex : reachable demo_c /\ contents demo_c demo_env /\ demo_env !! 0 = Some (ITree demo_tree) /\ item_height (ITree demo_tree) = 3 /\
  node_is demo_c demo_env demo_addr demo_tree /\ tree_rel (fun a b => Nat.eqb a b = true) demo_tree demo_tree /\
  match drop_stack 2 demo_addr (c_mem demo_c) with Err EStack => True | _ => False end /\ match drop_stack 3 demo_addr (c_mem demo_c) with Ok _ _ => True | _ => False end.
Proof.
  split; [exact (proj1 demo_ok)|]. split; [exact (proj2 demo_ok)|]. split; [vm_compute; reflexivity|]. split; [vm_compute; reflexivity|]. split.
  - exists 0. do 2 eexists. exists []. split; [vm_compute; reflexivity|]. split; [vm_compute; reflexivity|]. split; vm_compute; reflexivity.
  - split; [repeat constructor|]. split; vm_compute; exact I.
Qed.
