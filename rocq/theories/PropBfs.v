(** PropBfs.v — property theorems: frame (C01), iter_mut loops (C10), clones (C14), breadth-first traversal (C19-C22, C37, C49),
    owning iteration (C38).  Vocabulary as in PropClient.v. *)
From stdpp Require Import base gmap list.
From Verif Require Import Spec ClientSpec Machine NodeModel BfsModel ClientModel ClientRead BfsProps FromAny FromExact Reach Demo.

(** whatever history runs, a variable none of its calls mentions keeps its content *)
Theorem C01_C14_frame {A : Type} (os : list (op A)) (c : cst A) (env : gmap nat (item A)) (rs : list (out A)) (c' : cst A) :
  reachable c -> contents c env -> run c os = Done rs c' ->
  exists env', contents c' env' /\ reachable c' /\ forall x, Forall (fun o => x ∉ op_names o) os -> env' !! x = env !! x.
Proof. exact (run_frame os c env rs c'). Qed.
Print Assumptions C01_C14_frame.
Example C01_C14_frame_ex : reachable demo_c /\ contents demo_c demo_env /\
  match run demo_c [OPush Back 0 [] 1; OModify 0 [0] S; ODrop 6] with Done _ _ => True | _ => False end /\
  Forall (fun o : op nat => 5 ∉ op_names o) [OPush Back 0 [] 1; OModify 0 [0] S; ODrop 6].
Proof.
  split; [exact (proj1 demo_ok)|]. split; [exact (proj2 demo_ok)|]. split; [vm_compute; exact I|].
  repeat constructor; cbn [op_names]; set_solver.
Qed.

Theorem C10_iter_mut {A : Type} (c : cst A) (env : gmap nat (item A)) (h : nat) (path : list nat) (acts : list (list (act A))) (it : item A) (ts : list (tree A)) :
  reachable c -> contents c env -> env !! h = Some it -> kids_at it path = Some ts ->
  exists c', step c (OEach h path acts) = Done (REach (imap (fun i (t : tree A) => (length ts - i, root_of t)) ts) 0 false) c' /\ reachable c' /\ m_log (c_mem c') = m_log (c_mem c) /\
    contents c' (<[h := set_kids it path (flat_map seg_trees (each_child h acts ts (env, [])).2)]> (each_child h acts ts (env, [])).1).
Proof. exact (each_prop c env h path acts it ts). Qed.
Print Assumptions C10_iter_mut.
(** in the loop over the children 7( 8 ) and 6 of the forest: the tree 9 is inserted before the first child, then, when the
    second one has been yielded, the first one is detached *)
Example C10_ex : reachable demo_c /\ contents demo_c demo_env /\
  match step demo_c (OEach 2 [] [[AIns 0 Front 1]; [ADetach 0 3; AMod 1 S]]) with
  | Done r c => r = REach [(2, 7); (1, 6)] 0 false /\ result c (read_item (default (HT (0,0)) (c_env c !! 2))) = Some (IForest [Tr 9 []; Tr 7 []]) /\
                result c (read_item (default (HT (0,0)) (c_env c !! 3))) = Some (ITree (Tr 7 [Tr 8 []]))
  | Fails _ => False end.
Proof. split; [exact (proj1 demo_ok)|]. split; [exact (proj2 demo_ok)|]. vm_compute. auto. Qed.

Theorem C14_clone {A : Type} (c : cst A) (env : gmap nat (item A)) (h : nat) (path : list nat) (x : nat) (it : item A) (t : tree A) :
  reachable c -> contents c env -> env !! h = Some it -> node_at it path = Some t -> env !! x = None ->
  exists c', step c (OClone h path x) = Done RUnit c' /\ reachable c' /\ m_log (c_mem c') = m_log (c_mem c) /\
    contents c' (<[x := ITree t]> env).
Proof. exact (clone_prop c env h path x it t). Qed.
Print Assumptions C14_clone.
Example C14_ex : reachable demo_c /\ contents demo_c demo_env /\ demo_env !! 0 = Some (ITree demo_tree) /\
  node_at (ITree demo_tree) [0] = Some (Tr 1 [Tr 2 []; Tr 3 []]) /\ kids_at (ITree demo_tree) [0] = Some [Tr 2 []; Tr 3 []] /\ demo_env !! 3 = None.
Proof. split; [exact (proj1 demo_ok)|]. split; [exact (proj2 demo_ok)|]. vm_compute. auto. Qed.

Theorem C14_clone_forest {A : Type} (c : cst A) (env : gmap nat (item A)) (h : nat) (path : list nat) (x : nat) (it : item A) (ts : list (tree A)) :
  reachable c -> contents c env -> env !! h = Some it -> kids_at it path = Some ts -> env !! x = None ->
  exists c', step c (OCloneForest h path x) = Done RUnit c' /\ reachable c' /\ m_log (c_mem c') = m_log (c_mem c) /\
    contents c' (<[x := IForest ts]> env).
Proof. exact (clone_forest_prop c env h path x it ts). Qed.
Print Assumptions C14_clone_forest.
Example C14_forest_ex : reachable demo_c /\ contents demo_c demo_env /\ demo_env !! 2 = Some (IForest demo_forest) /\
  kids_at (IForest demo_forest) [] = Some demo_forest /\ demo_env !! 3 = None.
Proof. split; [exact (proj1 demo_ok)|]. split; [exact (proj2 demo_ok)|]. vm_compute. auto. Qed.

Theorem C19_bfs {A : Type} (c : cst A) (env : gmap nat (item A)) (h : nat) (path : list nat) (it : item A) (t : tree A) :
  reachable c -> contents c env -> env !! h = Some it -> node_at it path = Some t ->
  exists c', step c (OBfs h path) = Done (RVisits (visit_of <$> level_order t)) c' /\ contents c' env /\ reachable c'.
Proof. exact (bfs_prop c env h path it t). Qed.
Print Assumptions C19_bfs.
Example C19_ex : reachable demo_c /\ contents demo_c demo_env /\
  match step demo_c (OBfs 0 []) with Done r _ => r = RVisits [(0, 2, 4); (1, 2, 2); (4, 0, 0); (2, 0, 0); (3, 0, 0)] | _ => False end.
Proof. split; [exact (proj1 demo_ok)|]. split; [exact (proj2 demo_ok)|]. vm_compute. auto. Qed.

Theorem C19_bfs_children {A : Type} (c : cst A) (env : gmap nat (item A)) (h : nat) (path : list nat) (it : item A) (ts : list (tree A)) :
  reachable c -> contents c env -> env !! h = Some it -> kids_at it path = Some ts ->
  exists c', step c (OBfsChildren h path) = Done (RVisits (visit_of <$> level_order_f ts)) c' /\ contents c' env /\ reachable c'.
Proof. exact (bfs_children_prop c env h path it ts). Qed.
Print Assumptions C19_bfs_children.
Example C19_children_ex : reachable demo_c /\ contents demo_c demo_env /\
  match step demo_c (OBfsChildren 2 []) with Done r _ => r = RVisits [(7, 1, 1); (6, 0, 0); (8, 0, 0)] | _ => False end.
Proof. split; [exact (proj1 demo_ok)|]. split; [exact (proj2 demo_ok)|]. vm_compute. auto. Qed.

(** the size that comes with the iterator: for [bfs()] one root and its descendants, for [bfs_children()] the children and
    all nodes below *)
Theorem C19_size {A : Type} (c : cst A) (env : gmap nat (item A)) (h : nat) (hd : handle) (path : list nat) (p : ptr) (it : item A) (ts : list (tree A)) :
  reachable c -> contents c env -> env !! h = Some it -> c_env c !! h = Some hd ->
  resolve (addr hd) path (c_mem c) = Ok (Some p) (c_mem c) -> kids_at it path = Some ts ->
  (exists q, bfs p (c_mem c) = Ok (q, (1, nodes_f ts)) (c_mem c)) /\
  (exists q, bfs_children p (c_mem c) = Ok (q, (length ts, nodes_f ts)) (c_mem c)).
Proof. exact (bfs_size_prop c env h hd path p it ts). Qed.
Print Assumptions C19_size.
Example C19_size_ex : reachable demo_c /\ contents demo_c demo_env /\ demo_env !! 0 = Some (ITree demo_tree) /\
  match c_env demo_c !! 0 with
  | Some hd => match resolve (addr hd) [0] (c_mem demo_c) with Ok (Some _) _ => True | _ => False end | None => False end /\
  kids_at (ITree demo_tree) [0] = Some [Tr 2 []; Tr 3 []].
Proof. split; [exact (proj1 demo_ok)|]. split; [exact (proj2 demo_ok)|]. vm_compute. auto. Qed.

(** the specification's level order names every node of the tree exactly once *)
Theorem C19_level_order_complete {A : Type} (t : tree A) :
  NoDup (bfs_paths t) /\ (forall path, path ∈ bfs_paths t <-> is_Some (subtree t path)) /\
  subtree t <$> bfs_paths t = Some <$> level_order t.
Proof. exact (level_order_all t). Qed.
Print Assumptions C19_level_order_complete.
Example C19_paths_ex : bfs_paths demo_tree = [[]; [0]; [1]; [0; 0]; [0; 1]].
Proof. vm_compute. reflexivity. Qed.

(** any visits that are the level order of a tree or forest, wherever they come from, are turned back into it, stored in
    the slots 0 .. n-1 of one buffer *)
Theorem C20_from_visits {A : Type} (c : cst A) (env : gmap nat (item A)) (x : nat) (it : item A) :
  reachable c -> contents c env -> env !! x = None ->
  exists c' v hd, step c (OFromVisits x it) = Done RUnit c' /\ reachable c' /\ m_log (c_mem c') = m_log (c_mem c) /\
    contents c' (<[x := it]> env) /\ c_env c' !! x = Some hd /\
    forall p, (exists path, resolve (addr hd) path (c_mem c') = Ok (Some p) (c_mem c')) <->
      exists k, p = (v, k) /\ k < match it with ITree t => nodes t | IForest ts => S (nodes_f ts) end.
Proof. exact (from_visits_contiguous c env x it). Qed.
Print Assumptions C20_from_visits.
Example C20_ex : reachable demo_c /\ contents demo_c demo_env /\ demo_env !! 3 = None /\
  match step demo_c (OFromVisits 3 (IForest demo_forest)) with
  | Done r c => result c (read_item (default (HT (0,0)) (c_env c !! 3))) = Some (IForest demo_forest) | _ => False end.
Proof. split; [exact (proj1 demo_ok)|]. split; [exact (proj2 demo_ok)|]. vm_compute. auto. Qed.

(** Tree::from(tree.into_bfs()) / Forest::from(forest.into_bfs()) *)
Theorem C20_from_into_bfs {A : Type} (c : cst A) (env : gmap nat (item A)) (h x : nat) (it : item A) :
  reachable c -> contents c env -> env !! h = Some it -> env !! x = None ->
  exists c', step c (OFromBfs h x) = Done RUnit c' /\ reachable c' /\ m_log (c_mem c') = m_log (c_mem c) /\
    contents c' (<[x := it]> (delete h env)).
Proof. exact (from_bfs_prop c env h x it). Qed.
Print Assumptions C20_from_into_bfs.
Example C20_into_ex : reachable demo_c /\ contents demo_c demo_env /\ demo_env !! 2 = Some (IForest demo_forest) /\ demo_env !! 3 = None.
Proof. split; [exact (proj1 demo_ok)|]. split; [exact (proj2 demo_ok)|]. vm_compute. auto. Qed.

Theorem C20_clone_contiguous {A : Type} (c : cst A) (env : gmap nat (item A)) (h : nat) (path : list nat) (x : nat) (it : item A) (t : tree A) :
  reachable c -> contents c env -> env !! h = Some it -> node_at it path = Some t -> env !! x = None ->
  exists c' v hd, step c (OClone h path x) = Done RUnit c' /\ c_env c' !! x = Some hd /\
    forall p, (exists path, resolve (addr hd) path (c_mem c') = Ok (Some p) (c_mem c')) <-> exists k, p = (v, k) /\ k < nodes t.
Proof. exact (clone_contiguous c env h path x it t). Qed.
Print Assumptions C20_clone_contiguous.
Example C20_clone_ex : reachable demo_c /\ contents demo_c demo_env /\ demo_env !! 0 = Some (ITree demo_tree) /\
  node_at (ITree demo_tree) [0] = Some (Tr 1 [Tr 2 []; Tr 3 []]) /\ demo_env !! 3 = None.
Proof. split; [exact (proj1 demo_ok)|]. split; [exact (proj2 demo_ok)|]. vm_compute. auto. Qed.

Theorem C21_bfs_mut {A : Type} (c : cst A) (env : gmap nat (item A)) (h : nat) (path : list nat) (g : nat -> A -> A) (it : item A) (t : tree A) :
  reachable c -> contents c env -> env !! h = Some it -> node_at it path = Some t ->
  exists c' t', step c (OBfsMut h path g) = Done RUnit c' /\ reachable c' /\ m_log (c_mem c') = m_log (c_mem c) /\
    same_shape t' t /\ root_of <$> level_order t' = imap g (root_of <$> level_order t) /\
    contents c' (<[h := set_data (set_kids it path (kids t')) path (root_of t')]> env).
Proof. exact (bfs_mut_prop2 c env h path g it t). Qed.
Print Assumptions C21_bfs_mut.
Example C21_ex : reachable demo_c /\ contents demo_c demo_env /\
  match step demo_c (OBfsMut 0 [] (fun n a => 10 * n + a)) with
  | Done _ c => result c (read_item (default (HT (0,0)) (c_env c !! 0))) = Some (ITree (Tr 0 [Tr 11 [Tr 32 []; Tr 43 []]; Tr 24 []]))
  | _ => False end.
Proof. split; [exact (proj1 demo_ok)|]. split; [exact (proj2 demo_ok)|]. vm_compute. auto. Qed.

Theorem C21_bfs_children_mut {A : Type} (c : cst A) (env : gmap nat (item A)) (h : nat) (path : list nat) (g : nat -> A -> A) (it : item A) (ts : list (tree A)) :
  reachable c -> contents c env -> env !! h = Some it -> kids_at it path = Some ts ->
  exists c' ts', step c (OBfsChildrenMut h path g) = Done RUnit c' /\ reachable c' /\ m_log (c_mem c') = m_log (c_mem c) /\
    Forall2 same_shape ts' ts /\ root_of <$> level_order_f ts' = imap g (root_of <$> level_order_f ts) /\
    contents c' (<[h := set_kids it path ts']> env).
Proof. exact (bfs_children_mut_prop2 c env h path g it ts). Qed.
Print Assumptions C21_bfs_children_mut.
Example C21_children_ex : reachable demo_c /\ contents demo_c demo_env /\
  match step demo_c (OBfsChildrenMut 2 [] (fun n a => 10 * n + a)) with
  | Done _ c => result c (read_item (default (HT (0,0)) (c_env c !! 2))) = Some (IForest [Tr 7 [Tr 28 []]; Tr 16 []])
  | _ => False end.
Proof. split; [exact (proj1 demo_ok)|]. split; [exact (proj2 demo_ok)|]. vm_compute. auto. Qed.

(** [into_bfs], stopped after [n] visits: the visits are those of [bfs]; every data value is either handed out or dropped,
    exactly once; (with C12_C13_memory_exact for the state afterwards) no node of the tree is left *)
Theorem C22_into_bfs {A : Type} (c : cst A) (env : gmap nat (item A)) (h n : nat) (it : item A) :
  reachable c -> contents c env -> env !! h = Some it ->
  exists vs gone c', step c (OIntoBfs h n) = Done (RVisits vs) c' /\ reachable c' /\ contents c' (delete h env) /\
    vs = take n (visit_of <$> item_level_order it) /\ m_log (c_mem c') = m_log (c_mem c) ++ gone /\
    ((fst ∘ fst) <$> vs) ++ gone ≡ₚ item_post it.
Proof. exact (into_bfs_once_prop c env h n it). Qed.
Print Assumptions C22_into_bfs.
Example C22_ex : reachable demo_c /\ contents demo_c demo_env /\
  match step demo_c (OIntoBfs 0 2) with
  | Done r c => r = RVisits [(0, 2, 4); (1, 2, 2)] /\ m_log (c_mem c) = [4; 2; 3] | _ => False end.
Proof. split; [exact (proj1 demo_ok)|]. split; [exact (proj2 demo_ok)|]. vm_compute. auto. Qed.

(** FINDING: a [BfsTree] with public fields can carry sizes that do not fit its visits; the conversion then writes
    outside the buffer.  Root visit with degree 1 and 0 descendants, followed by one more visit. *)
Theorem C37_from_visits_refuted : exists l : list (nat * nat * nat), tree_from_bfs list_next l mem0 = Err EUB.
Proof. exists [(0, 1, 0); (1, 0, 0)]. vm_compute. reflexivity. Qed.
Print Assumptions C37_from_visits_refuted.

Theorem C37_forest_from_visits_refuted : exists (l : list (nat * nat * nat)) (dg ds : nat), forest_from_bfs list_next l dg ds mem0 = Err EUB.
Proof. exists [(1, 0, 0)], 1, 0. vm_compute. reflexivity. Qed.
Print Assumptions C37_forest_from_visits_refuted.

(** what holds: with at most as many visits as the root declares nodes, whatever the degrees and sizes, from any memory
    state, the conversion returns or panics but touches nothing outside the buffer and terminates *)
Theorem C37_from_visits_partial {A : Type} (s : mem A) (a : A) (dg ds : nat) (l : list (A * nat * nat)) : length l <= ds ->
  match tree_from_bfs list_next ((a, dg, ds) :: l) s with Ok _ _ => True | Err e => e = EPanic end.
Proof. exact (tree_from_any s a dg ds l). Qed.
Print Assumptions C37_from_visits_partial.
Theorem C37_forest_from_visits_partial {A : Type} (s : mem A) (dg ds : nat) (l : list (A * nat * nat)) : length l <= ds ->
  match forest_from_bfs list_next l dg ds s with Ok _ _ => True | Err e => e = EPanic end.
Proof. exact (forest_from_any s dg ds l). Qed.
Print Assumptions C37_forest_from_visits_partial.
Example C37_ex : length [(1, 0, 0); (2, 0, 0)] <= 5 /\
  match tree_from_bfs list_next ((0, 2, 5) :: [(1, 0, 0); (2, 0, 0)]) mem0 with Ok p s => p = (0, 0) | _ => False end /\
  tree_from_bfs list_next ((0, 1, 5) :: [(1, 0, 0); (2, 0, 0)]) mem0 = Err EPanic.
Proof. vm_compute. split; [|auto]. auto 10. Qed.

(** FINDING: even a conversion that returns can give a broken tree: too few visits, and node_count is wrong and drop panics *)
Theorem C37_short_refuted : exists (l : list (nat * nat * nat)) (p : ptr) (s : mem nat), tree_from_bfs list_next l mem0 = Ok p s /\
  read_item (HT p) s = Ok (ITree (Tr 0 [Tr 1 []])) s /\ node_count p s = Ok 3 s /\ drop_tree p s = Err EPanic.
Proof. exists [(0, 2, 2); (1, 0, 0)]. eexists _, _. split; [vm_compute; reflexivity|]. vm_compute. auto. Qed.
Print Assumptions C37_short_refuted.

(** the exact outcome in every reachable state.  A visit is (data, number of children, number of nodes below); [parent i]:
    when visit [i] comes, one of the nodes before it still lacks a child.  The conversion returns exactly if there are at most
    as many visits as declared and each has a parent, it writes outside the buffer exactly if there are more visits than
    declared and a parent for all those declared, and it panics in the other cases. *)
Theorem C37_outcome_partial {A : Type} (c : cst A) (a : A) (dg ds : nat) (l : list (A * nat * nat)) : reachable c ->
  let r := tree_from_bfs list_next ((a, dg, ds) :: l) (c_mem c) in
  let parent i := i < dg + list_sum (map (fun x => x.1.2) (take i l)) in
  ((exists p s, r = Ok p s) <-> length l <= ds /\ forall i, i < length l -> parent i) /\
  (r = Err EUB <-> ds < length l /\ forall i, i < ds -> parent i) /\
  (r = Err EPanic <-> exists i, i < length l /\ i < ds /\ ~ parent i).
Proof. exact (tree_outcome c a dg ds l). Qed.
Print Assumptions C37_outcome_partial.
Theorem C37_forest_outcome_partial {A : Type} (c : cst A) (dg ds : nat) (l : list (A * nat * nat)) : reachable c ->
  let r := forest_from_bfs list_next l dg ds (c_mem c) in
  let parent i := i < dg + list_sum (map (fun x => x.1.2) (take i l)) in
  ((exists p s, r = Ok p s) <-> length l <= ds /\ forall i, i < length l -> parent i) /\
  (r = Err EUB <-> ds < length l /\ forall i, i < ds -> parent i) /\
  (r = Err EPanic <-> exists i, i < length l /\ i < ds /\ ~ parent i).
Proof. exact (forest_outcome c dg ds l). Qed.
Print Assumptions C37_forest_outcome_partial.

(** owning iteration: the [i]-th of the names [xs] gets the [i]-th tree, the size hint before each call is the number of
    trees left, and dropping the iterator drops the rest *)
Theorem C38_into_iter {A : Type} (c : cst A) (env : gmap nat (item A)) (h : nat) (xs : list nat) (it : item A) :
  reachable c -> contents c env -> env !! h = Some it -> NoDup xs -> Forall (fun x => env !! x = None) xs ->
  exists c', step c (OIntoIter h xs) = Done (RNats (imap (fun i _ => length (trees_of it) - i) xs)) c' /\ reachable c' /\
    contents c' (bind_trees xs (trees_of it) (delete h env)) /\
    m_log (c_mem c') = m_log (c_mem c) ++ postorder_f (drop (length xs) (trees_of it)).
Proof. exact (into_iter_prop c env h xs it). Qed.
Print Assumptions C38_into_iter.
Example C38_ex : reachable demo_c /\ contents demo_c demo_env /\ demo_env !! 2 = Some (IForest demo_forest) /\
  match step demo_c (OIntoIter 2 [10]) with Done r c => r = RNats [2] /\ m_log (c_mem c) = [6] | _ => False end /\
  match step demo_c (OIntoIter 2 [10; 11; 12; 13]) with Done r c => r = RNats [2; 1; 0; 0] /\ m_log (c_mem c) = [] | _ => False end.
Proof. split; [exact (proj1 demo_ok)|]. split; [exact (proj2 demo_ok)|]. vm_compute. auto 10. Qed.

(** C49.  [Tree::from(h.into_bfs().map(f))]: a tree (or forest) of the same shape whose data, in level order, are what the closure [f] returns when called with the data
    of the tree in level order ([map_hist]: each call also knows all earlier arguments); nothing is dropped *)
Theorem C49_map_into {A : Type} (c : cst A) (env : gmap nat (item A)) (h x : nat) (f : list A -> A -> A) (it : item A) :
  reachable c -> contents c env -> env !! h = Some it -> env !! x = None ->
  exists c' it', step c (OMapInto h x f) = Done RUnit c' /\ reachable c' /\ m_log (c_mem c') = m_log (c_mem c) /\
    match it with
    | ITree t => exists t', it' = ITree t' /\ same_shape t' t
    | IForest ts => exists ts', it' = IForest ts' /\ Forall2 same_shape ts' ts
    end /\
    root_of <$> item_level_order it' = map_hist f [] (root_of <$> item_level_order it) /\
    contents c' (<[x := it']> (delete h env)).
Proof. exact (map_into_prop c env h x f it). Qed.
Print Assumptions C49_map_into.
(** [Tree::from(node.bfs().map(f))] and [Forest::from(node.bfs_children().map(f))]: the tree looked at stays as it is *)
Theorem C49_map_bfs {A : Type} (c : cst A) (env : gmap nat (item A)) (h : nat) (path : list nat) (x : nat) (f : list A -> A -> A) (it : item A) (t : tree A) :
  reachable c -> contents c env -> env !! h = Some it -> node_at it path = Some t -> env !! x = None ->
  exists c' t', step c (OMapBfs h path x f) = Done RUnit c' /\ reachable c' /\ m_log (c_mem c') = m_log (c_mem c) /\
    same_shape t' t /\ root_of <$> level_order t' = map_hist f [] (root_of <$> level_order t) /\ contents c' (<[x := ITree t']> env).
Proof. exact (map_bfs_prop c env h path x f it t). Qed.
Print Assumptions C49_map_bfs.
Theorem C49_map_bfs_children {A : Type} (c : cst A) (env : gmap nat (item A)) (h : nat) (path : list nat) (x : nat) (f : list A -> A -> A) (it : item A) (ts : list (tree A)) :
  reachable c -> contents c env -> env !! h = Some it -> kids_at it path = Some ts -> env !! x = None ->
  exists c' ts', step c (OMapBfsChildren h path x f) = Done RUnit c' /\ reachable c' /\ m_log (c_mem c') = m_log (c_mem c) /\
    Forall2 same_shape ts' ts /\ root_of <$> level_order_f ts' = map_hist f [] (root_of <$> level_order_f ts) /\ contents c' (<[x := IForest ts']> env).
Proof. exact (map_bfs_children_prop c env h path x f it ts). Qed.
Print Assumptions C49_map_bfs_children.
(** a closure that returns the sum of its argument and all arguments before, and one that counts its calls *)
Example C49_ex : reachable demo_c /\ contents demo_c demo_env /\ demo_env !! 0 = Some (ITree demo_tree) /\ demo_env !! 3 = None /\
  match step demo_c (OMapInto 0 3 (fun hist a => a + list_sum hist)) with Done r c => r = RUnit /\
    match step c (OBfs 3 []) with Done r _ => r = RVisits [(0, 2, 4); (1, 2, 2); (5, 0, 0); (7, 0, 0); (10, 0, 0)] | _ => False end | _ => False end /\
  node_at (ITree demo_tree) [0] = Some (Tr 1 [Tr 2 []; Tr 3 []]) /\
  match step demo_c (OMapBfs 0 [0] 3 (fun hist a => 10 * a + length hist)) with Done r c => r = RUnit /\
    match step c (OBfs 3 []) with Done r _ => r = RVisits [(10, 2, 2); (21, 0, 0); (32, 0, 0)] | _ => False end | _ => False end.
Proof. split; [exact (proj1 demo_ok)|]. split; [exact (proj2 demo_ok)|]. vm_compute. auto 10. Qed.
