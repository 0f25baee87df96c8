(** PropMove.v — C57: nodes do not move. *)
From stdpp Require Import base gmap list.
From Verif Require Import Spec ClientSpec MoveSpec Machine NodeModel ClientModel Reach ClientRead MoveProofs Demo.

(** An operation that makes no nodes leaves every node where it is: whatever is reachable afterwards at the address [p] was reachable
    at [p] before, with the same data unless the operation writes data. *)
Theorem C57_stay_put {A : Type} (c c' : cst A) (env env' : gmap nat (item A)) (o : op A) (r : out A) (p : ptr) (y : tree A) :
  reachable c -> contents c env -> step c o = Done r c' -> contents c' env' -> creates o = false ->
  node_is c' env' p y -> exists x, node_is c env p x /\ (writes o = false -> root_of x = root_of y).
Proof. intros Hr Hc Hs. exact (stay_put c c' env env' o r p y Hr Hc Hs (reachable_next c c' o r Hr Hs)). Qed.
Print Assumptions C57_stay_put.
(** No operation at all, not even one that makes nodes, puts other data into a node that is in use: an address which is that of a
    reachable node before and after holds the same data, unless the operation writes data.  (In the model an address is never
    allocated twice; a node released and another one allocated within the operation do not count as the same.) *)
Theorem C57_same_data {A : Type} (c c' : cst A) (env env' : gmap nat (item A)) (o : op A) (r : out A) (p : ptr) (x y : tree A) :
  reachable c -> contents c env -> step c o = Done r c' -> contents c' env' -> writes o = false ->
  node_is c env p x -> node_is c' env' p y -> root_of x = root_of y.
Proof. intros Hr Hc Hs Hc'. exact (same_data c c' env env' o r p x y Hr Hc Hs (reachable_next c c' o r Hr Hs) Hc'). Qed.
Print Assumptions C57_same_data.
(** When all values are distinct, so that a value tells which node it is: after any number of operations that make no nodes and write
    no data the node with a given value is still at its old address, in whatever tree it is now. *)
Theorem C57_never_move {A : Type} (c c' : cst A) (env env' : gmap nat (item A)) (os : list (op A)) (rs : list (out A)) (p q : ptr) (x y : tree A) :
  reachable c -> contents c env -> NoDup (values env) -> run c os = Done rs c' -> contents c' env' ->
  Forall (fun o => creates o = false /\ writes o = false) os ->
  node_is c env p x -> node_is c' env' q y -> root_of x = root_of y -> p = q.
Proof. exact (never_move os c c' env env' rs p q x y). Qed.
Print Assumptions C57_never_move.

(** the history of Demo.v up to the clone: nine nodes with distinct values in a tree, a single node and a forest *)
Definition mv_ops : list (op nat) := take 17 demo_ops.
Definition mv_env : gmap nat (item nat) := match srun sst0 mv_ops with Some (_, σ) => s_env σ | None => ∅ end.
Definition mv_c : cst nat := match run cst0 mv_ops with Done _ c => c | Fails _ => cst0 end.
Lemma mv_some : is_Some (srun sst0 mv_ops).
Proof. vm_compute. eauto. Qed.
Lemma mv_ok : reachable mv_c /\ contents mv_c mv_env.
Proof.
  destruct mv_some as [[rs σ] E]. pose proof (refinement mv_ops) as H. unfold mv_env, mv_c. rewrite E in *.
  destruct H as (c & Hc & Hcont & _). rewrite Hc. split; [|exact Hcont]. exists mv_ops, rs. exact Hc.
Qed.
(** detach 1( 2 3 ), push it under 8, concatenate the forest to the tree, take the tree apart *)
Definition mv_more : list (op nat) :=
  [ODetach 0 [0] 10; OPush Back 2 [0; 0] 10; OConcat Front 0 [] 2; OInsert Back 0 [1] 1; OEach 0 [] [[ADetach 0 11]]; OIntoIter 0 [12]; OPop Front 11 [] 13].
Definition where_is (c : cst nat) (h : nat) (path : list nat) : option (ptr * nat) :=
  match c_env c !! h with
  | Some hd => match resolve (addr hd) path (c_mem c) with
               | Ok (Some p) _ => match data p (c_mem c) with Ok a _ => Some (p, a) | Err _ => None end
               | _ => None end
  | None => None
  end.
Example C57_ex : reachable mv_c /\ contents mv_c mv_env /\ bool_decide (NoDup (values mv_env)) = true /\
  forallb (fun o => negb (creates o) && negb (writes o)) mv_more = true /\
  match run mv_c mv_more with
  | Done _ c' => where_is mv_c 0 [0; 1] = where_is c' 13 [0; 1] /\ where_is mv_c 2 [0] = where_is c' 11 [] /\ where_is c' 13 [0; 1] <> None /\ where_is c' 11 [] <> None
  | Fails _ => False
  end.
Proof. split; [exact (proj1 mv_ok)|]. split; [exact (proj2 mv_ok)|]. vm_compute. split_and!; congruence. Qed.
(** [Tree::abandon] is the exception: the data of the root is in another node afterwards *)
Example C57_ex_abandon :
  match step mv_c (OAbandon 0 10) with
  | Done _ c' => match where_is mv_c 0 [], where_is c' 0 [] with Some (p, a), Some (q, b) => a = b /\ p <> q | _, _ => False end
  | Fails _ => False
  end.
Proof. vm_compute. split; congruence. Qed.
