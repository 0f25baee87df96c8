(** PropTuple.v — C29, C30, C39: tuple notation. *)
From stdpp Require Import base gmap list.
From Verif Require Import Spec ClientSpec Machine NodeModel BfsModel ClientModel Demo TupleModel TupleSpec TupleProofs TupleProps TupleExact.

(** * C30: the metadata *)
Theorem C30_tree {A : Type} (t : tuple A) :
  tt_size t = (length (kids (denote t)), nodes (denote t) - 1) /\
  tt_height t = height (denote t) /\
  (forall l, tt_descendants t l = length (level (S l) (denote t))) /\
  tt_preorder t = visits_pre (denote t) /\
  tt_preorder_hint t = visits_pre_sized (denote t).
Proof. exact (tree_meta t). Qed.
Print Assumptions C30_tree.

Theorem C30_forest {A : Type} (ts : list (tuple A)) :
  tf_size ts = (length ts, nodes_f (map denote ts)) /\
  tf_height ts = height_f (map denote ts) /\
  (forall l, tf_descendants ts l = length (flat_map (level l) (map denote ts))) /\
  tf_preorder ts = flat_map visits_pre (map denote ts) /\
  tf_preorder_hint ts = flat_map visits_pre_sized (map denote ts).
Proof. exact (forest_meta ts). Qed.
Print Assumptions C30_forest.

Example C30_ex : let t := Tup 0 [Tup 1 [Val 3; Val 4]; Tup 2 []] in
  tt_size t = (2, 4) /\ tt_height t = 3 /\ tt_descendants t 1 = 2 /\
  tt_preorder_hint t = [(Branch 0, (2, 4)); (Branch 1, (2, 2)); (Leaf 3, (0, 0)); (Leaf 4, (0, 0)); (Frame, (2, 2)); (Leaf 2, (0, 0)); (Frame, (2, 4))].
Proof. auto. Qed.

(** the data in the visits, Frames aside, is the depth-first order of the denoted tree *)
Theorem C30_preorder_values {A : Type} (t : tuple A) :
  flat_map (fun x => match x with Branch a | Leaf a => [a] | Frame => [] end) (tt_preorder t) = preorder (denote t).
Proof. exact (preorder_values t). Qed.
Print Assumptions C30_preorder_values.

(** * C29: from_tuple *)

(** false in general: ( 0, ( 1, ( 2, 3 ) ), 4 ) gives the tree 0( 4 ), and dropping that tree panics *)
Theorem C29_from_tuple_refuted : exists (t : tuple nat) (p : ptr) (s : mem nat),
  denote t = Tr 0 [Tr 1 [Tr 2 [Tr 3 []]]; Tr 4 []] /\
  tree_from_tuple t mem0 = Ok p s /\ read_item (HT p) s = Ok (ITree (Tr 0 [Tr 4 []])) s /\ drop_tree p s = Err EPanic.
Proof. exact from_tuple_wrong. Qed.
Print Assumptions C29_from_tuple_refuted.
Theorem C29_forest_from_tuple_refuted : exists (ts : list (tuple nat)) (p : ptr) (s : mem nat),
  map denote ts = [Tr 1 [Tr 2 [Tr 3 []]]; Tr 4 []] /\
  forest_from_tuple ts mem0 = Ok p s /\ read_item (HF p) s = Ok (IForest [Tr 4 []]) s /\ drop_tree p s = Err EPanic.
Proof. exact forest_from_tuple_wrong. Qed.
Print Assumptions C29_forest_from_tuple_refuted.

(** Missing from the full property: the shapes that are not [supported] (a node whose last child has children, when this
    node is not on the path from the root that always takes the last child).  For all others, of any size and depth, the
    new variable holds the denoted tree, stored in one buffer of exactly its size, and all other variables are unchanged. *)
Theorem C29_from_tuple_partial {A : Type} (c : cst A) (env : gmap nat (item A)) (x : nat) (t : tuple A) :
  reachable c -> contents c env -> env !! x = None -> supported (denote t) ->
  exists p s v, tree_from_tuple t (c_mem c) = Ok p s /\ m_log s = m_log (c_mem c) /\
    reachable (CSt (<[x := HT p]> (c_env c)) s) /\ contents (CSt (<[x := HT p]> (c_env c)) s) (<[x := ITree (denote t)]> env) /\
    forall q, (exists path, resolve p path s = Ok (Some q) s) <-> exists k, q = (v, k) /\ k < nodes (denote t).
Proof. exact (from_tuple_tree c env x t). Qed.
Print Assumptions C29_from_tuple_partial.
Theorem C29_forest_from_tuple_partial {A : Type} (c : cst A) (env : gmap nat (item A)) (x : nat) (ts : list (tuple A)) :
  reachable c -> contents c env -> env !! x = None -> supported_f (map denote ts) ->
  exists p s v, forest_from_tuple ts (c_mem c) = Ok p s /\ m_log s = m_log (c_mem c) /\
    reachable (CSt (<[x := HF p]> (c_env c)) s) /\ contents (CSt (<[x := HF p]> (c_env c)) s) (<[x := IForest (map denote ts)]> env) /\
    forall q, (exists path, resolve p path s = Ok (Some q) s) <-> exists k, q = (v, k) /\ k < S (nodes_f (map denote ts)).
Proof. exact (from_tuple_forest c env x ts). Qed.
Print Assumptions C29_forest_from_tuple_partial.
Example C29_ex : reachable demo_c /\ contents demo_c demo_env /\ demo_env !! 3 = None /\
  supported (denote (Tup 0 [Tup 1 [Val 2; Tup 3 [Val 4; Val 5]; Val 6]; Val 7; Tup 8 [Tup 9 [Val 10]]])) /\
  supported_f (map denote [Tup 1 [Val 2; Tup 3 [Val 4; Val 5]; Val 6]; Val 7; Tup 8 [Tup 9 [Val 10]]]).
Proof.
  split; [exact (proj1 demo_ok)|]. split; [exact (proj2 demo_ok)|]. split; [vm_compute; reflexivity|].
  exact from_tuple_example.
Qed.

(** the other shapes are never right: if the call returns, it has already dropped some of the values given to it; and if the
    values are distinct, one of them is not in the tree *)
Theorem C29_unsupported_partial {A : Type} (c : cst A) (t : tuple A) (p : ptr) (s : mem A) :
  reachable c -> ~ supported (denote t) -> tree_from_tuple t (c_mem c) = Ok p s ->
  (exists l, l <> [] /\ m_log s = m_log (c_mem c) ++ l) /\
  (NoDup (preorder (denote t)) -> exists a, a ∈ preorder (denote t) /\ forall x, read_item (HT p) s = Ok (ITree x) s -> a ∉ preorder x).
Proof. exact (unsupported_tree c t p s). Qed.
Print Assumptions C29_unsupported_partial.
Theorem C29_forest_unsupported_partial {A : Type} (c : cst A) (ts : list (tuple A)) (p : ptr) (s : mem A) :
  reachable c -> ~ supported_f (map denote ts) -> forest_from_tuple ts (c_mem c) = Ok p s ->
  (exists l, l <> [] /\ m_log s = m_log (c_mem c) ++ l) /\
  (NoDup (flat_map preorder (map denote ts)) -> exists a, a ∈ flat_map preorder (map denote ts) /\
    forall xs, read_item (HF p) s = Ok (IForest xs) s -> a ∉ flat_map preorder xs).
Proof. exact (unsupported_forest c ts p s). Qed.
Print Assumptions C29_forest_unsupported_partial.

(** so with distinct values the supported shapes are exactly those for which the result is the denoted tree *)
Theorem C29_exactly_partial {A : Type} (c : cst A) (t : tuple A) : reachable c -> NoDup (preorder (denote t)) ->
  (exists p s, tree_from_tuple t (c_mem c) = Ok p s /\ read_item (HT p) s = Ok (ITree (denote t)) s) <-> supported (denote t).
Proof. exact (exactly_tree c t). Qed.
Print Assumptions C29_exactly_partial.
Theorem C29_forest_exactly_partial {A : Type} (c : cst A) (ts : list (tuple A)) : reachable c -> NoDup (flat_map preorder (map denote ts)) ->
  (exists p s, forest_from_tuple ts (c_mem c) = Ok p s /\ read_item (HF p) s = Ok (IForest (map denote ts)) s) <-> supported_f (map denote ts).
Proof. exact (exactly_forest c ts). Qed.
Print Assumptions C29_forest_exactly_partial.
Example C29_exactly_ex : reachable demo_c /\ ~ supported (denote (Tup 0 [Tup 1 [Tup 2 [Val 3]]; Val 4])) /\
  NoDup (preorder (denote (Tup 0 [Tup 1 [Tup 2 [Val 3]]; Val 4]))) /\
  exists p s, tree_from_tuple (Tup 0 [Tup 1 [Tup 2 [Val 3]]; Val 4]) mem0 = Ok p s /\ m_log s = [1].
Proof.
  split; [exact (proj1 demo_ok)|]. split; [exact unsupported_example|]. split; [repeat (constructor; [cbn; set_solver|]); constructor|].
  eexists _, _. split; vm_compute; reflexivity.
Qed.

(** every two-level tuple (children are leaves or have only leaves as children) is supported *)
Theorem C29_two_levels {A : Type} (a : A) (ts : list (tuple A)) :
  Forall (fun t => Forall (fun k => kids (denote k) = []) (match t with Val _ => [] | Tup _ ks => ks end)) ts ->
  supported (denote (Tup a ts)).
Proof. exact (two_levels a ts). Qed.
Print Assumptions C29_two_levels.

(** * C39: postorder *)

(** false: the two functions disagree as soon as there is a child: postorder gives Frame, children, Branch, the variant
    with size hints gives Branch, children, Frame *)
Theorem C39_postorder_refuted : exists (t : tuple nat), map fst (tt_postorder_hint t) <> tt_postorder t.
Proof. exact postorder_differ. Qed.
Print Assumptions C39_postorder_refuted.
Theorem C39_postorder_partial {A : Type} (t : tuple A) (ts : list (tuple A)) :
  tt_postorder t = visits_post (denote t) /\ tf_postorder ts = flat_map visits_post (map denote ts) /\
  tt_postorder_hint t = visits_pre_sized (denote t) /\ tf_postorder_hint ts = flat_map visits_pre_sized (map denote ts) /\
  (map fst (tt_postorder_hint t) = tt_postorder t <-> kids (denote t) = []).
Proof. exact (postorder_visits t ts). Qed.
Print Assumptions C39_postorder_partial.
Theorem C39_postorder_values {A : Type} (t : tuple A) :
  flat_map (fun x => match x with Branch a | Leaf a => [a] | Frame => [] end) (tt_postorder t) = postorder (denote t).
Proof. exact (postorder_values t). Qed.
Print Assumptions C39_postorder_values.
Example C39_ex : tt_postorder (Tup 0 [Tup 1 [Val 3; Val 4]; Val 2]) = [Frame; Frame; Leaf 3; Leaf 4; Branch 1; Leaf 2; Branch 0].
Proof. auto. Qed.
