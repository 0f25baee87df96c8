(** PropSplit.v — C60: breadth-first iteration over, and building from, a client's own tree-like data.
    [source]: what a client's [Split] says about an item (SplitModel); [below_by]/[levels]/[looks_like]: SplitSpec. *)
From stdpp Require Import base gmap list.
From Verif Require Import Spec ClientSpec Machine NodeModel BfsModel ClientModel Reach ClientProps SplitModel SplitSpec SplitProofs Demo.

(** [next] gives the items level by level, from left to right, for as many levels as one likes (the data may have infinitely many); after the last level it gives [None] for ever *)
Theorem C60_breadth_first {A I : Type} (S : source A I) (k : nat) (l : list I) :
  exists q, calls S (length (levels S k l)) (gsp_from l) = (Some <$> (shown S <$> levels S k l), q) /\ (below_by S k l = [] -> forall n, (calls S n q).1 = replicate n None).
Proof. exact (splitted_levels S k l). Qed.
Print Assumptions C60_breadth_first.

(** an item that looks like a tree becomes that tree; the rest of the client is untouched and nothing is dropped *)
Theorem C60_tree_from {A I : Type} (S : source A I) (c : cst A) (env : gmap nat (item A)) (x : nat) (i : I) (t : tree A) :
  reachable c -> contents c env -> env !! x = None -> looks_like S i t ->
  exists p s, tree_from_source S [i] (c_mem c) = Ok p s /\ reachable (CSt (<[x := HT p]> (c_env c)) s) /\ contents (CSt (<[x := HT p]> (c_env c)) s) (<[x := ITree t]> env) /\
    m_log s = m_log (c_mem c).
Proof. exact (tree_from_source_prop S c env x i t). Qed.
Print Assumptions C60_tree_from.
Theorem C60_forest_from {A I : Type} (S : source A I) (c : cst A) (env : gmap nat (item A)) (x : nat) (l : list I) (ts : list (tree A)) :
  reachable c -> contents c env -> env !! x = None -> Forall2 (looks_like S) l ts ->
  exists p s, forest_from_source S l (length ts) (nodes_f ts) (c_mem c) = Ok p s /\ reachable (CSt (<[x := HF p]> (c_env c)) s) /\
    contents (CSt (<[x := HF p]> (c_env c)) s) (<[x := IForest ts]> env) /\ m_log s = m_log (c_mem c).
Proof. exact (forest_from_source_prop S c env x l ts). Qed.
Print Assumptions C60_forest_from.

(** whatever the source says about lengths and sizes: building from it has the outcome of building from the sequence of its visits (C37 says what that is) *)
Theorem C60_any_sizes {A I : Type} (S : source A I) (k : nat) (l : list I) (s : mem A) : below_by S k l = [] ->
  tree_from_source S l s = tree_from_bfs list_next (shown S <$> levels S k l) s /\
  forall dg ds, forest_from_source S l dg ds s = forest_from_bfs list_next (shown S <$> levels S k l) dg ds s.
Proof. exact (source_as_visits S k l s). Qed.
Print Assumptions C60_any_sizes.

(** the calls made by the naive Fibonacci function, as tree-like data of the client; the infinite binary tree *)
Definition fib_kids (n : nat) : list nat := match n with 0 | 1 => [] | S (S m as m') => [m'; m] end.
Fixpoint fib_tree (f n : nat) : tree nat := match f with 0 => Tr n [] | S f' => Tr n (map (fib_tree f') (fib_kids n)) end.
Definition fib_source : source nat nat := Source (fun n => n) fib_kids (fun n => length (fib_kids n)) (fun n => nodes_f (kids (fib_tree n n))).
Definition binary_source : source nat nat := Source (fun n => n) (fun n => [2 * n; 2 * n + 1]) (fun _ => 2) (fun _ => 0).
Example C60_ex : looks_like fib_source 3 (Tr 3 [Tr 2 [Tr 1 []; Tr 0 []]; Tr 1 []]) /\ levels fib_source 3 [3] = [3; 2; 1; 1; 0] /\ below_by fib_source 3 [3] = [] /\
  (calls fib_source 7 (gsp_from [3])).1 = [Some (3, 2, 4); Some (2, 2, 2); Some (1, 0, 0); Some (1, 0, 0); Some (0, 0, 0); None; None] /\
  reachable demo_c /\ contents demo_c demo_env /\ demo_env !! 9 = None /\
  levels binary_source 3 [1] = [1; 2; 3; 4; 5; 6; 7] /\ (calls binary_source 4 (gsp_from [1])).1 = [Some (1, 2, 0); Some (2, 2, 0); Some (3, 2, 0); Some (4, 2, 0)].
Proof.
  split. { repeat constructor. }
  split; [vm_compute; reflexivity|]. split; [vm_compute; reflexivity|]. split; [vm_compute; reflexivity|]. split; [exact (proj1 demo_ok)|]. split; [exact (proj2 demo_ok)|].
  split; [vm_compute; reflexivity|]. split; vm_compute; reflexivity.
Qed.
