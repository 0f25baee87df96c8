(** PropDebug.v — C58: [Debug] prints the value and the address of every node.
    [node_is]/[forest_is] (Reach): [p] is the address of a node [x] / a forest [xs] of a variable; [debug], [with_addresses] (DebugSpec). *)
From Coq Require Import Ascii String.
From stdpp Require Import base gmap list.
From Verif Require Import Spec ClientSpec Machine NodeModel ClientModel Reach DebugModel DebugSpec DebugProofs Demo.

Theorem C58_debug {A : Type} (show : A -> string) (showp : ptr -> string) (c : cst A) (env : gmap nat (item A)) (p : ptr) (x : tree A) :
  reachable c -> contents c env -> node_is c env p x -> exists y, with_addresses c p x y /\ returns c (node_dbg show showp p) (debug show showp y).
Proof. exact (fun Hr Hc => call_node_dbg show showp c env Hr Hc p x). Qed.
Print Assumptions C58_debug.
Theorem C58_debug_forest {A : Type} (show : A -> string) (showp : ptr -> string) (c : cst A) (env : gmap nat (item A)) (p : ptr) (xs : list (tree A)) :
  reachable c -> contents c env -> forest_is c env p xs -> exists ys, with_addresses_f c p xs ys /\ returns c (forest_dbg show showp p) (debug_f show showp ys).
Proof. exact (fun Hr Hc => call_forest_dbg show showp c env Hr Hc p xs). Qed.
Print Assumptions C58_debug_forest.

(** the demo client: variable 0 is 0( 1( 2 3 ) 4 ), variable 2 a forest *)
Definition digit (n : nat) : string := String (ascii_of_nat (48 + n)) "".
Definition root_addr (h : nat) : ptr := match c_env demo_c !! h with Some hd => addr hd | None => (0, 0) end.
Definition text (m : M nat string) : string := match m (c_mem demo_c) with Ok w _ => w | Err _ => "" end.
Example C58_ex : reachable demo_c /\ contents demo_c demo_env /\ node_is demo_c demo_env (root_addr 0) demo_tree /\
  text (node_dbg digit (fun p => digit p.1) (root_addr 0)) = "0@0 ( 1@1 ( 2@2 3@3 )4@4 )"%string /\
  text (forest_dbg digit (fun p => digit p.1) (root_addr 2)) = "( 7@7 ( 8@8 ) 6@9  )"%string.
Proof.
  split; [exact (proj1 demo_ok)|]. split; [exact (proj2 demo_ok)|]. split.
  - exists 0. do 2 eexists. exists []. split; [vm_compute; reflexivity|]. split; [vm_compute; reflexivity|]. split; vm_compute; reflexivity.
  - split; vm_compute; reflexivity.
Qed.
